(** Model of leap-second kernels (/repo/src/formats/spice/lsk.rs). Finite floats are exact
    rationals: rounding of 64-bit integers and of decimals to f64 is not modelled. *)
From Coq Require Import Ascii String List NArith ZArith QArith Bool.
From Verif Require Import Base Text DecFloat Sort Fnum Omm_Model Tk_Model.
Import ListNotations.
Local Open Scope string_scope.
Local Open Scope Z_scope.
Local Open Scope list_scope.
Local Open Scope outcome_scope.

Inductive lskerr := LText (e : tkerr) | LMissing | LNotArray | LOdd | LNotNumeric | LEpochArray | LToken | LParts | LYear | LDay | LMonth.

(** lsk.rs:25-32 *)
Record lsk := Lsk { delta_t_a : fnum; leap_table : list (fnum * fnum) }.

(** lsk.rs:95-103 *)
Definition scalar_as_f64 (v : tv) : outcome fnum lskerr :=
  match v with TInt z => Ok (Fin (inject_Z z)) | TFlt f => Ok f | _ => Err LNotNumeric end.

(** [i32] arithmetic of an overflow-checked build *)
Definition i32 (z : Z) : outcome Z lskerr := if (-2147483648 <=? z) && (z <=? 2147483647) then Ok z else Panic.

(** lsk.rs:166-171 *)
Definition gregorian_to_jd (year month day : Z) : outcome Q lskerr :=
  term1 <- i32 (367 * year) ;;
  s <- i32 (year + Z.quot (month + 9) 12) ;;
  s7 <- i32 (7 * s) ;;
  let term2 := Z.quot s7 4 in
  let term3 := Z.quot (275 * month) 9 in
  a <- i32 (term1 - term2) ;;
  b <- i32 (a + term3) ;;
  c <- i32 (b + day) ;;
  e <- i32 (c + 1721013) ;;
  Ok (inject_Z e + (1 # 2))%Q.

(** lsk.rs:146-164 *)
Definition months : list str := map lit ["JAN"; "FEB"; "MAR"; "APR"; "MAY"; "JUN"; "JUL"; "AUG"; "SEP"; "OCT"; "NOV"; "DEC"].
Fixpoint position (x : str) (l : list str) (i : Z) : option Z :=
  match l with
  | [] => None
  | y :: t => if str_eqb x y then Some i else position x t (i + 1)
  end.
Definition month_number (m : str) : outcome Z lskerr :=
  match position (map upper (trim m)) months 1 with Some i => Ok i | None => Err LMonth end.

(** [str::split] on a character *)
Fixpoint split_on (c : N) (s : str) : list str :=
  match s with
  | [] => [[]]
  | x :: t => if (x =? c)%N then [] :: split_on c t
              else match split_on c t with p :: r => (x :: p) :: r | [] => [[x]] end
  end.

(** lsk.rs:116-144 *)
Definition parse_epoch_text (text : str) : outcome fnum lskerr :=
  match trim text with
  | [] => Err LToken
  | c :: date =>
      if (c =? 64)%N then
        match split_on 45 date with
        | [] => Err LParts
        | y :: r =>
            match parse_int 2147483647 y with
            | None => Err LYear
            | Some year =>
                match r with
                | [] => Err LParts
                | m :: r' =>
                    month <- month_number m ;;
                    match r' with
                    | [] => Err LParts
                    | d :: _ =>
                        match parse_int 2147483647 d with
                        | None => Err LDay
                        | Some day => jd <- gregorian_to_jd year month day ;; Ok (Fin ((jd - 2451545) * 86400)%Q)
                        end
                    end
                end
            end
        end
      else Err LToken
  end.

(** lsk.rs:105-114 *)
Definition epoch_as_j2000_seconds (v : tv) : outcome fnum lskerr :=
  match v with
  | TInt z => Ok (Fin (inject_Z z))
  | TFlt f => Ok f
  | TText s => parse_epoch_text s
  | TArr _ => Err LEpochArray
  end.

(** lsk.rs:63-67: pairs of an even-length array *)
Fixpoint read_pairs (l : list tv) : outcome (list (fnum * fnum)) lskerr :=
  match l with
  | a :: b :: t =>
      delta <- scalar_as_f64 a ;;
      epoch <- epoch_as_j2000_seconds b ;;
      r <- read_pairs t ;;
      Ok ((epoch, delta) :: r)
  | _ => Ok []
  end.

(** lsk.rs:38-74, from the parsed kernel *)
Definition from_table (d : table) : outcome lsk lskerr :=
  match get d (lit "DELTET/DELTA_T_A") with
  | None => Err LMissing
  | Some v =>
      ta <- scalar_as_f64 v ;;
      match get d (lit "DELTET/DELTA_AT") with
      | None => Err LMissing
      | Some (TArr values) =>
          if Nat.even (List.length values) then
            pairs <- read_pairs values ;;
            Ok (Lsk ta (isort (fun x y => tleb (fst x) (fst y)) pairs))
          else Err LOdd
      | Some _ => Err LNotArray
      end
  end.
(** lsk.rs:36-74 *)
Definition from_text (src : str) : option (outcome lsk lskerr) :=
  match parse src with
  | None => None
  | Some (Ok d) => Some (from_table d)
  | Some (Err e) => Some (Err (LText e))
  | Some Panic => Some Panic
  end.

(** lsk.rs:77-87 *)
Fixpoint lookup (l : list (fnum * fnum)) (t best : fnum) : fnum :=
  match l with
  | [] => best
  | (epoch, delta) :: r => if fle epoch t then lookup r t delta else best
  end.
Definition tai_minus_utc_at (k : lsk) (t : fnum) : fnum := lookup (leap_table k) t (Fin 0).
