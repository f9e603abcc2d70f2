(** Frame kernels (/repo/src/formats/spice/fk.rs) and the numeric arrays of text kernels (text.rs:117-124, 232-251).
    Finite floats are exact rationals. *)
From Coq Require Import Ascii String List NArith ZArith QArith Qround Bool.
From Verif Require Import Base Text DecFloat Sort Fnum Omm_Model Tk_Model Sclk_Model.
Import ListNotations.
Local Open Scope string_scope.
Local Open Scope Z_scope.
Local Open Scope list_scope.
Local Open Scope outcome_scope.

(** text.rs:232-251 *)
Definition num1 (v : tv) : option fnum :=
  match v with TInt z => Some (Fin (inject_Z z)) | TFlt f => Some f | _ => None end.
Fixpoint flat1 (l : list tv) : option (list fnum) :=
  match l with
  | [] => Some []
  | v :: t => match num1 v, flat1 t with Some x, Some r => Some (x :: r) | _, _ => None end
  end.
Fixpoint flatten_f64 (l : list tv) : option (list fnum) :=
  match l with
  | [] => Some []
  | TArr inner :: t => match flat1 inner, flatten_f64 t with Some a, Some b => Some (a ++ b) | _, _ => None end
  | v :: t => match num1 v, flatten_f64 t with Some x, Some r => Some (x :: r) | _, _ => None end
  end.
(** text.rs:117-124 [get_f64_array] *)
Definition get_f64_array (d : table) (k : str) : option (list fnum) :=
  match get d k with
  | None => None
  | Some (TArr l) => flatten_f64 l
  | Some v => match num1 v with Some x => Some [x] | None => None end
  end.

Inductive fkerr := FText (e : tkerr) | FMissing (key : str) | FNotNumeric (key : str) | FNotText (key : str) | FTooLarge (key : str)
  | FClass (c : Z) | FMatrixSize | FSpec (s : str).
(** fk.rs:26-61 *)
Inductive frame_class := Inertial | Pck | Ck | TwoVector | Dynamic.
Record frame_spec := Frame { f_id : Z; f_name : str; f_class : frame_class; f_class_id : Z; f_center : Z; f_tk : option (list fnum * str) }.

(** fk.rs:185-196 *)
Definition parse_frame_class (v : Z) : outcome frame_class fkerr :=
  match v with 1 => Ok Inertial | 2 => Ok Pck | 3 => Ok Ck | 4 => Ok TwoVector | 5 => Ok Dynamic | _ => Err (FClass v) end.
(** [f64 as i32]: truncated, clamped, NaN to 0 *)
Definition f_as_i32 (f : fnum) : Z :=
  let clamp z := Z.max (-2147483648) (Z.min 2147483647 z) in
  match f with
  | Fin q => clamp (if Qle_bool 0 q then Qfloor q else - Qfloor (- q))
  | Inf true => -2147483648
  | Inf false => 2147483647
  | NaN => 0
  end.
(** fk.rs:198-208 *)
Definition int_value (v : tv) (key : str) : outcome Z fkerr :=
  match v with
  | TInt z => if (-2147483648 <=? z) && (z <=? 2147483647) then Ok z else Err (FTooLarge key)
  | TFlt f => Ok (f_as_i32 f)
  | _ => Err (FNotNumeric key)
  end.
(** fk.rs:210-217 *)
Definition text_value (v : tv) (key : str) : outcome str fkerr := match v with TText s => Ok s | _ => Err (FNotText key) end.
Definition need (d : table) (key : str) : outcome tv fkerr := match get d key with Some v => Ok v | None => Err (FMissing key) end.

Definition strip_suffix (p s : str) : option str :=
  if ends_with p s then Some (firstn (List.length s - List.length p) s) else None.
(** fk.rs:75-83 *)
Definition frame_key (k : str) : option Z :=
  match strip_prefix (lit "FRAME_") k with
  | Some r => match strip_suffix (lit "_NAME") r with Some r' => parse_int 2147483647 r' | None => None end
  | None => None
  end.
Definition collect (key : str -> option Z) (keys : list str) : list Z :=
  flat_map (fun k => match key k with Some i => [i] | None => [] end) keys.

Definition key_of (pre : string) (id : Z) (suf : string) : str := lit pre ++ show_int id ++ lit suf.
(** fk.rs:115-158 *)
Definition read_tk (d : table) (id : Z) (c : frame_class) : outcome (option (list fnum * str)) fkerr :=
  match c with
  | TwoVector =>
      match get d (key_of "TKFRAME_" id "_SPEC") with
      | None => Ok None
      | Some v =>
          spec <- text_value v (key_of "TKFRAME_" id "_SPEC") ;;
          if str_eqb spec (lit "MATRIX") then
            match get_f64_array d (key_of "TKFRAME_" id "_MATRIX") with
            | None => Err (FMissing (key_of "TKFRAME_" id "_MATRIX"))
            | Some values =>
                if negb (Nat.eqb (List.length values) 9) then Err FMatrixSize
                else
                  rv <- need d (key_of "TKFRAME_" id "_RELATIVE") ;;
                  rel <- text_value rv (key_of "TKFRAME_" id "_RELATIVE") ;;
                  Ok (Some (values, map upper rel))
            end
          else Err (FSpec spec)
      end
  | _ => Ok None
  end.
(** fk.rs:88-168, one frame *)
Definition one_frame (d : table) (id : Z) : outcome frame_spec fkerr :=
  nv <- need d (key_of "FRAME_" id "_NAME") ;; name <- text_value nv (key_of "FRAME_" id "_NAME") ;;
  cv <- need d (key_of "FRAME_" id "_CLASS") ;; ci <- int_value cv (key_of "FRAME_" id "_CLASS") ;; class <- parse_frame_class ci ;;
  iv <- need d (key_of "FRAME_" id "_CLASS_ID") ;; class_id <- int_value iv (key_of "FRAME_" id "_CLASS_ID") ;;
  ev <- need d (key_of "FRAME_" id "_CENTER") ;; center <- int_value ev (key_of "FRAME_" id "_CENTER") ;;
  tk <- read_tk d id class ;;
  Ok (Frame id (map upper name) class class_id center tk).
Fixpoint omap {A B E} (f : A -> outcome B E) (l : list A) : outcome (list B) E :=
  match l with
  | [] => Ok []
  | a :: t => x <- f a ;; r <- omap f t ;; Ok (x :: r)
  end.
(** fk.rs:72-171; the key order of the hash map does not matter because the ids are sorted *)
Definition from_table (d : table) : outcome (list frame_spec) fkerr :=
  omap (one_frame d) (dedup (isort Z.leb (collect frame_key (map fst d)))).
(** fk.rs:174-182 *)
Definition frame_by_id (l : list frame_spec) (id : Z) : option frame_spec := find (fun f => f_id f =? id) l.
Definition frame_by_name (l : list frame_spec) (name : str) : option frame_spec := find (fun f => str_eqb (f_name f) (map upper name)) l.
