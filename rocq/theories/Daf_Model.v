(** Model of the DAF container reader (/repo/src/formats/spice/daf.rs). Bytes are [N]; a double
    is its 64-bit pattern; offsets and record numbers are [N] with the [usize] overflow checks
    of a debug build written out ([Panic]). *)
From Coq Require Import Ascii String List NArith ZArith Bool.
From Verif Require Import Base Text.
Import ListNotations.
Local Open Scope N_scope.
Local Open Scope outcome_scope.

Definition M64 : N := 18446744073709551616.

(** ** Bytes to words *)
Definition le_val (bs : list N) : N := fold_right (fun b a => b + 256 * a) 0 bs.
Definition be_val (bs : list N) : N := le_val (rev bs).
Definition word_val (le : bool) (bs : list N) : N := if le then le_val bs else be_val bs.
(** [data[offset..offset + k]] *)
Definition bytes_at {E} (data : list N) (off : N) (k : nat) : outcome (list N) E :=
  if off + N.of_nat k <=? N.of_nat (length data) then Ok (firstn k (skipn (N.to_nat off) data)) else Panic.
(** daf.rs:310-317 [read_i32_le], [read_i32_be]: two's complement *)
Definition to_i32 (w : N) : Z := if w <? 2147483648 then Z.of_N w else (Z.of_N w - 4294967296)%Z.
Definition read_i32 {E} (le : bool) (data : list N) (off : N) : outcome Z E :=
  b <- bytes_at data off 4 ;; Ok (to_i32 (word_val le b)).
(** daf.rs:320-327 [read_f64_le], [read_f64_be]: the bit pattern *)
Definition read_f64 {E} (le : bool) (data : list N) (off : N) : outcome N E :=
  b <- bytes_at data off 8 ;; Ok (word_val le b).

(** ** Casts *)
(** [i32 as usize] (sign extension) *)
Definition usize_of_i32 (z : Z) : N := Z.to_N (z mod 18446744073709551616).
(** Truncation toward zero of a double given by its bits; [None] for NaN and infinities. *)
Definition f64_neg (w : N) : bool := 9223372036854775808 <=? w.
Definition f64_exp (w : N) : N := (w / 4503599627370496) mod 2048.
Definition f64_man (w : N) : N := w mod 4503599627370496.
Definition f64_trunc_mag (w : N) : option N :=
  let e := f64_exp w in
  if e =? 2047 then None
  else if e =? 0 then Some 0
  else let m := f64_man w + 4503599627370496 in
       if 1075 <=? e then Some (m * 2 ^ (e - 1075)) else Some (m / 2 ^ (1075 - e)).
Definition clampZ (lo hi z : Z) : Z := if (z <? lo)%Z then lo else if (hi <? z)%Z then hi else z.
(** [f64 as i64], [f64 as usize]: truncation, saturation, NaN to zero *)
Definition f64_as (lo hi : Z) (w : N) : Z :=
  match f64_trunc_mag w with
  | Some m => clampZ lo hi (if f64_neg w then - Z.of_N m else Z.of_N m)
  | None => if f64_man w =? 0 then (if f64_neg w then lo else hi) else 0%Z
  end.
Definition f64_as_i64 (w : N) : Z := f64_as (-9223372036854775808) 9223372036854775807 w.
Definition f64_as_usize (w : N) : N := Z.to_N (f64_as 0 18446744073709551615 w).
Definition usize_of_i64 (z : Z) : N := Z.to_N (z mod 18446744073709551616).

(** ** Errors *)
Inductive daf_err := TooSmall | NotDaf | BadEndian | NotSpk | RecordPastEof (rec : N) | SummaryPastEof (i rec : N).

(** ** Checked [usize] arithmetic *)
Definition cmul (a b : N) : outcome N daf_err := if a * b <? M64 then Ok (a * b) else Panic.
Definition cadd (a b : N) : outcome N daf_err := if a + b <? M64 then Ok (a + b) else Panic.

Section Loop.
  (** What is read at the offset of a summary. *)
  Context {S : Type} (le : bool) (data : list N) (ss : N) (rd : N -> outcome S daf_err).

  (** daf.rs:165-195 / 264-283, [for i in 0..nsum]; [k] iterations remain *)
  Fixpoint sum_loop (rec rec_offset i : N) (k : nat) (acc : list S) : outcome (list S) daf_err :=
    match k with
    | O => Ok acc
    | Datatypes.S k' =>
        t <- cmul i ss ;; t <- cmul t 8 ;; o <- cadd rec_offset 24 ;; off <- cadd o t ;;
        sz <- cmul ss 8 ;; e <- cadd off sz ;;
        if N.of_nat (length data) <? e then Err (SummaryPastEof i rec)
        else s <- rd off ;; sum_loop rec rec_offset (i + 1) k' (acc ++ [s])
    end.

  (** daf.rs:152-198 / 253-285, [while rec > 0]; [None] when the fuel runs out *)
  Fixpoint rec_loop (fuel : nat) (rec : N) (acc : list S) : option (outcome (list S) daf_err) :=
    match fuel with
    | O => None
    | Datatypes.S f =>
        if rec =? 0 then Some (Ok acc)
        else
          match (rec_offset <- cmul (rec - 1) 1024 ;;
                 e <- cadd rec_offset 1024 ;;
                 if N.of_nat (length data) <? e then Err (RecordPastEof rec)
                 else
                   w <- read_f64 le data rec_offset ;;
                   n <- read_f64 le data (rec_offset + 16) ;;
                   acc' <- sum_loop rec rec_offset 0 (N.to_nat (f64_as_usize n)) acc ;;
                   Ok (usize_of_i64 (f64_as_i64 w), acc')) with
          | Ok (next, acc') => rec_loop f next acc'
          | Err x => Some (Err x)
          | Panic => Some Panic
          end
    end.
End Loop.

(** ** Header *)
(** daf.rs:119-133 / 230-244 *)
Definition in_1_100 (z : Z) : bool := ((0 <? z) && (z <=? 100))%Z.
Definition header {E} (e : E) (data : list N) : outcome (bool * N * N) E :=
  ndl <- read_i32 true data 8 ;; nil <- read_i32 true data 12 ;;
  ndb <- read_i32 false data 8 ;; nib <- read_i32 false data 12 ;;
  if in_1_100 ndl && in_1_100 nil then Ok (true, Z.to_N ndl, Z.to_N nil)
  else if in_1_100 ndb && in_1_100 nib then Ok (false, Z.to_N ndb, Z.to_N nib)
  else Err e.

(** The locator test, reduced to the bytes: after trimming white space the text begins with
    "DAF" (bytes 0x09-0x0d and 0x20 are the only white space below 0x80; locators with other
    white space are not distinguished). [DafRaw] decodes the eight bytes lossily while [Daf]
    decodes them strictly ("" when invalid): [strict] requires them to be ASCII, which is a
    simplification for non-ASCII valid UTF-8. *)
Definition locator_ok (strict : bool) (data : list N) : bool :=
  let loc := firstn 8 data in
  (negb strict || forallb is_ascii loc) && starts_with (lit "DAF") (trim_start loc).

(** ** daf.rs:103-201 [Daf::parse] *)
Record summary := Summary { s_start : N; s_end : N; s_target : Z; s_center : Z; s_frame : Z;
  s_type : Z; s_start_word : N; s_end_word : N }.
Definition rd_summary (le : bool) (data : list N) (off : N) : outcome summary daf_err :=
  a <- read_f64 le data off ;; b <- read_f64 le data (off + 8) ;;
  let io := off + 16 in
  t <- read_i32 le data io ;; c <- read_i32 le data (io + 4) ;; f <- read_i32 le data (io + 8) ;;
  ty <- read_i32 le data (io + 12) ;; sw <- read_i32 le data (io + 16) ;; ew <- read_i32 le data (io + 20) ;;
  Ok (Summary a b t c f ty (usize_of_i32 sw) (usize_of_i32 ew)).

Definition of_outcome {A B} (x : outcome A daf_err) (k : A -> option (outcome B daf_err)) : option (outcome B daf_err) :=
  match x with Ok a => k a | Err e => Some (Err e) | Panic => Some Panic end.

Definition daf_parse (fuel : nat) (data : list N) : option (outcome (list summary) daf_err) :=
  if (length data <? 1024)%nat then Some (Err TooSmall)
  else if negb (locator_ok true data) then Some (Err NotDaf)
  else
    of_outcome (header BadEndian data) (fun '(le, nd, ni) =>
    of_outcome (read_i32 le data 76) (fun fw =>
    if negb ((nd =? 2) && (ni =? 6)) then Some (Err NotSpk)
    else rec_loop le data 5 (rd_summary le data) fuel (usize_of_i32 fw) [])).

(** ** daf.rs:214-294 [DafRaw::parse] *)
Fixpoint read_many {A} (rd : N -> outcome A daf_err) (off step : N) (k : nat) : outcome (list A) daf_err :=
  match k with
  | O => Ok []
  | Datatypes.S k' => x <- rd off ;; r <- read_many rd (off + step) step k' ;; Ok (x :: r)
  end.
Definition raw_summary : Type := list N * list Z.
Definition rd_raw (le : bool) (data : list N) (nd ni : N) (off : N) : outcome raw_summary daf_err :=
  d <- read_many (read_f64 le data) off 8 (N.to_nat nd) ;;
  i <- read_many (read_i32 le data) (off + nd * 8) 4 (N.to_nat ni) ;;
  Ok (d, i).
Definition raw_parse (fuel : nat) (data : list N) : option (outcome (N * N * list raw_summary) daf_err) :=
  if (length data <? 1024)%nat then Some (Err TooSmall)
  else if negb (locator_ok false data) then Some (Err NotDaf)
  else
    of_outcome (header BadEndian data) (fun '(le, nd, ni) =>
    of_outcome (read_i32 le data 76) (fun fw =>
    match rec_loop le data (nd + (ni + 1) / 2) (rd_raw le data nd ni) fuel (usize_of_i32 fw) [] with
    | None => None
    | Some (Ok l) => Some (Ok (nd, ni, l))
    | Some (Err e) => Some (Err e)
    | Some Panic => Some Panic
    end)).

(** daf.rs:205-209 / 298-301 [read_f64_at_word]: always little-endian. *)
Definition read_f64_at_word (data : list N) (word : N) : outcome N daf_err :=
  if word =? 0 then Panic else read_f64 true data ((word - 1) * 8).
