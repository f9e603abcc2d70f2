(** Attitude kernels (src/formats/spice/ck.rs). Ticks are exact numbers, infinities or NaN (one zero: the code's
    [total_cmp] also tells -0 from 0). Quaternions are abstract here: [norm_words] is [normalize] of four stored
    doubles, [normalize] and [slerp] are the functions of lines 247-299, modelled in Slerp_Model. *)
From Coq Require Import Ascii String List Arith NArith ZArith QArith Qabs Bool.
From Verif Require Import Base Text DecFloat Sort Fnum Daf_Model Spk_Model.
Import ListNotations.
Local Open Scope N_scope.
Local Open Scope outcome_scope.

(** The value of a 64-bit pattern *)
Definition f64_num (w : N) : fnum :=
  if f64_exp w =? 2047 then (if f64_man w =? 0 then Inf (f64_neg w) else NaN)
  else
    let m := if f64_exp w =? 0 then f64_man w else f64_man w + 4503599627370496 in
    let e := if f64_exp w =? 0 then 1 else f64_exp w in
    Fin (qsgn (f64_neg w) (Qred (QofN m * Qpower 2 (Z.of_N e - 1075)))).
(** Subtraction and division *)
Definition fneg (a : fnum) : fnum := match a with Fin q => Fin (- q) | Inf b => Inf (negb b) | NaN => NaN end.
Definition fadd (a b : fnum) : fnum :=
  match a, b with
  | Fin p, Fin q => Fin (p + q)
  | NaN, _ | _, NaN => NaN
  | Inf s, Inf t => if Bool.eqb s t then Inf s else NaN
  | Inf s, Fin _ | Fin _, Inf s => Inf s
  end.
Definition fsub (a b : fnum) : fnum := fadd a (fneg b).
(** division by something that is not zero *)
Definition fdiv (a b : fnum) : fnum :=
  match a, b with
  | Fin p, Fin q => Fin (p / q)
  | NaN, _ | _, NaN => NaN
  | Inf _, Inf _ => NaN
  | Fin _, Inf _ => Fin 0
  | Inf s, Fin q => Inf (xorb s (negb (Qle_bool 0 q)))
  end.
(** [f64::EPSILON] = 2^-52 *)
Definition epsilon : Q := 1 # 4503599627370496.
Definition tiny (a : fnum) : bool := match a with Fin q => Qle_bool (Qabs q) epsilon | _ => false end.
(** [f64::min], [f64::max] *)
Definition fmin (a b : fnum) : fnum := if is_nan a then b else if is_nan b then a else if tleb a b then a else b.
Definition fmax (a b : fnum) : fnum := if is_nan a then b else if is_nan b then a else if tleb a b then b else a.

Inductive ck_err := CkDaf (e : daf_err) | NotCk | BadSummary | BadRange | BadRecordCount | RangeTooSmall | NoRecords
  | OutOfCoverage (start stop : fnum) | NoSegment.

Section Quat.
Variable V : Type.
Variable norm_words : N -> N -> N -> N -> V.
Variable normalize : V -> V.
Variable slerp : V -> V -> fnum -> V.
(** [binary_search_by] on keys in ascending order: [inl] the index of a match, [inr] the insertion point *)
Variable search : list fnum -> fnum -> nat + nat.

(** ck.rs:27-48 *)
Record record := Rec { tick : fnum; quat : V }.
Record segment := Seg { inst : Z; frame : Z; start : fnum; stop : fnum; recs : list record }.

(** ck.rs:54-94 [evaluate] *)
Definition evaluate (s : segment) (x : fnum) : outcome V ck_err :=
  match recs s with
  | [] => Err NoRecords
  | first :: _ =>
      let lst := last (recs s) first in
      if flt x (tick first) || flt (tick lst) x then Err (OutOfCoverage (start s) (stop s))
      else
        match search (map tick (recs s)) x with
        | inl i => match nth_error (recs s) i with Some r => Ok (normalize (quat r)) | None => Panic end
        | inr i =>
            if (i =? 0)%nat || (length (recs s) <=? i)%nat then Err (OutOfCoverage (start s) (stop s))
            else match nth_error (recs s) (i - 1), nth_error (recs s) i with
                 | Some l, Some r =>
                     let span := fsub (tick r) (tick l) in
                     if tiny span then Ok (normalize (quat l))
                     else Ok (slerp (quat l) (quat r) (fdiv (fsub x (tick l)) span))
                 | _, _ => Panic
                 end
        end
  end.

(** ck.rs:154-184 [rotation] *)
Fixpoint rotation_from (segs : list segment) (i : Z) (x : fnum) (coverage : option (fnum * fnum)) : outcome V ck_err :=
  match segs with
  | [] => match coverage with Some (a, b) => Err (OutOfCoverage a b) | None => Err NoSegment end
  | s :: t =>
      if negb (inst s =? i)%Z then rotation_from t i x coverage
      else if fle (start s) x && fle x (stop s) then evaluate s x
      else rotation_from t i x (Some match coverage with
                                     | Some (a, b) => (fmin a (start s), fmax b (stop s))
                                     | None => (start s, stop s)
                                     end)
  end.
Definition rotation (segs : list segment) (i : Z) (x : fnum) : outcome V ck_err := rotation_from segs i x None.

(** Reading *)
Definition lift {A} (x : outcome A daf_err) : outcome A ck_err :=
  match x with Ok a => Ok a | Err e => Err (CkDaf e) | Panic => Panic end.
Definition word (data : list N) (w : N) : outcome N ck_err := lift (read_f64_at_word data w).
(** ck.rs:224-235; [k] records remain *)
Fixpoint read_records (data : list N) (w : N) (k : nat) : outcome (list record) ck_err :=
  match k with
  | O => Ok []
  | S k' =>
      t <- word data w ;; a <- word data (w + 1) ;; b <- word data (w + 2) ;; c <- word data (w + 3) ;; d <- word data (w + 4) ;;
      r <- read_records data (w + 5) k' ;; Ok (Rec (f64_num t) (norm_words a b c d) :: r)
  end.
Definition by_tick (a b : record) : bool := tleb (tick a) (tick b).
(** [n < 1.0] *)
Definition f64_lt1 (w : N) : bool := f64_neg w || (f64_exp w <? 1023).
(** ck.rs:192-245 [read_type1_segment] *)
Definition read_segment (data : list N) (i f : Z) (a b : fnum) (sw ew : N) : outcome segment ck_err :=
  if ew <=? sw then Err BadRange
  else
    n_raw <- word data ew ;;
    if negb (f64_finite n_raw) || f64_lt1 n_raw then Err BadRecordCount
    else
      let n := f64_as_usize n_raw in
      if M64 <=? n * 5 + 1 then Err BadRecordCount
      else if ew - sw + 1 <? n * 5 + 1 then Err RangeTooSmall
      else
        rs <- read_records data sw (N.to_nat n) ;;
        Ok (Seg i f a b (isort by_tick rs)).
(** ck.rs:119-144; the last two integers are the word range (daf.rs:63-70) *)
Fixpoint load (data : list N) (sums : list raw_summary) : outcome (list segment) ck_err :=
  match sums with
  | [] => Ok []
  | (ds, is) :: t =>
      if (length ds <? 2)%nat || (length is <? 6)%nat then Err BadSummary
      else if negb (nth 2 is 0 =? 1)%Z then load data t
      else
        s <- read_segment data (nth 0 is 0)%Z (nth 1 is 0)%Z (f64_num (nth 0 ds 0)) (f64_num (nth 1 ds 0))
               (usize_of_i32 (nth (length is - 2) is 0)%Z) (usize_of_i32 (nth (length is - 1) is 0)%Z) ;;
        r <- load data t ;; Ok (s :: r)
  end.
Definition up (c : N) : N := if (97 <=? c) && (c <=? 122) then c - 32 else c.
(** ck.rs:105-145 [from_bytes]; [None] when the loop over summary records does not end *)
Definition from_bytes (fuel : nat) (data : list N) : option (outcome (list segment) ck_err) :=
  match raw_parse fuel data with
  | None => None
  | Some (Err e) => Some (Err (CkDaf e))
  | Some Panic => Some Panic
  | Some (Ok (_, _, sums)) =>
      if starts_with (lit "DAF/CK") (map up (trim (firstn 8 data))) then Some (load data sums) else Some (Err NotCk)
  end.
End Quat.
Arguments Rec {V}. Arguments tick {V}. Arguments quat {V}. Arguments Seg {V}. Arguments inst {V}. Arguments frame {V}.
Arguments start {V}. Arguments stop {V}. Arguments recs {V}. Arguments by_tick {V}.
