(** Model of spacecraft-clock kernels (/repo/src/formats/spice/sclk.rs) with exact rational arithmetic. *)
From Coq Require Import Ascii String List NArith ZArith QArith Bool.
From Verif Require Import Base Text DecFloat Sort Fnum Omm_Model Tk_Model.
Import ListNotations.
Local Open Scope string_scope.
Local Open Scope Z_scope.
Local Open Scope list_scope.
Local Open Scope outcome_scope.

Inductive sclkerr := SText (e : tkerr) | SMissing | SNotNumeric | STriples | SNoCoeff | SBefore | SNotFinite.

(** sclk.rs:26-43 *)
Record coeff := Coeff { c_ticks : Q; c_et : Q; c_rate : Q }.
Record sclk := Sclk { sc_id : Z; coefficients : list coeff }.

Definition qltb (a b : Q) : bool := negb (Qle_bool b a).

(** sclk.rs:117-123 and 143-149: the first pair of neighbours around the key *)
Fixpoint bracket (key : coeff -> Q) (l : list coeff) (x : Q) : option coeff :=
  match l with
  | c :: t => match t with
              | n :: _ => if Qle_bool (key c) x && qltb x (key n) then Some c else bracket key t x
              | [] => None
              end
  | [] => None
  end.
(** sclk.rs:104-125 with [key = c_et], 127-151 with [key = c_ticks] *)
Definition partition_for (key : coeff -> Q) (l : list coeff) (x : Q) : outcome coeff sclkerr :=
  match l with
  | [] => Err SNoCoeff
  | first :: _ =>
      if qltb x (key first) then Err SBefore
      else match bracket key l x with
           | Some c => Ok c
           | None => Ok (last l first)
           end
  end.
(** sclk.rs:93-96 *)
Definition et_to_sclkdp (k : sclk) (et : Q) : outcome Q sclkerr :=
  c <- partition_for c_et (coefficients k) et ;; Ok (c_ticks c + (et - c_et c) * c_rate c)%Q.
(** sclk.rs:99-102; division by a zero rate (infinite in f64) is an error value here *)
Definition sclkdp_to_et (k : sclk) (ticks : Q) : outcome Q sclkerr :=
  c <- partition_for c_ticks (coefficients k) ticks ;;
  if Qeq_bool (c_rate c) 0 then Err SNotFinite else Ok (c_et c + (ticks - c_ticks c) / c_rate c)%Q.

(** sclk.rs:154-172; values that are not finite are refused here, the code keeps them *)
Definition number (v : tv) : outcome Q sclkerr :=
  match v with
  | TInt z => Ok (inject_Z z)
  | TFlt (Fin q) => Ok q
  | TFlt _ => Err SNotFinite
  | _ => Err SNotNumeric
  end.
Fixpoint numbers (l : list tv) : outcome (list Q) sclkerr :=
  match l with
  | [] => Ok []
  | v :: t => x <- number v ;; r <- numbers t ;; Ok (x :: r)
  end.
Definition value_as_f64_array (v : tv) : outcome (list Q) sclkerr :=
  match v with
  | TArr l => numbers l
  | _ => x <- number v ;; Ok [x]
  end.
(** sclk.rs:75-82 *)
Fixpoint triples (l : list Q) : list coeff :=
  match l with
  | a :: b :: c :: t => Coeff a b c :: triples t
  | _ => []
  end.

Definition prefix : str := lit "SCLK01_COEFFICIENTS_".
Definition strip_prefix (p s : str) : option str := if starts_with p s then Some (skipn (List.length p) s) else None.
Definition show_int (z : Z) : str := (if z <? 0 then [45%N] else []) ++ dec (Z.abs_N z).
(** sclk.rs:49-57 *)
Definition key_id (k : str) : option Z :=
  match strip_prefix prefix k with Some r => parse_int 2147483647 r | None => None end.
Fixpoint ids_of (keys : list str) : list Z :=
  match keys with
  | [] => []
  | k :: t => match key_id k with Some i => i :: ids_of t | None => ids_of t end
  end.
(** [Vec::dedup] *)
Fixpoint dedup (l : list Z) : list Z :=
  match l with
  | x :: t => match t with
              | y :: _ => if x =? y then dedup t else x :: dedup t
              | [] => [x]
              end
  | [] => []
  end.
(** sclk.rs:62-88, one clock *)
Definition one_clock (d : table) (id : Z) : outcome sclk sclkerr :=
  match get d (prefix ++ show_int id) with
  | None => Err SMissing
  | Some v =>
      values <- value_as_f64_array v ;;
      if Nat.eqb (Nat.modulo (List.length values) 3) 0
      then Ok (Sclk id (isort (fun a b => Qle_bool (c_et a) (c_et b)) (triples values)))
      else Err STriples
  end.
Fixpoint clocks (d : table) (ids : list Z) : outcome (list sclk) sclkerr :=
  match ids with
  | [] => Ok []
  | i :: t => k <- one_clock d i ;; r <- clocks d t ;; Ok (k :: r)
  end.
(** sclk.rs:47-90; the key order of the hash map does not matter because the ids are sorted *)
Definition from_table (d : table) : outcome (list sclk) sclkerr := clocks d (dedup (isort Z.leb (ids_of (map fst d)))).
Definition from_text (src : str) : option (outcome (list sclk) sclkerr) :=
  match parse src with
  | None => None
  | Some (Ok d) => Some (from_table d)
  | Some (Err e) => Some (Err (SText e))
  | Some Panic => Some Panic
  end.
