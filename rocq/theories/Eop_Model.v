(** Earth-orientation tables (src/formats/iers/eop.rs) and twilight classes
    (src/event/solar/classification.rs).

    Epochs and values of the table are exact rationals. The altitude is a floating-point value
    whose finite part is an exact rational, in degrees: the conversion of other units is in an
    external crate. *)
From Coq Require Import List NArith ZArith QArith Bool.
From Verif Require Import Qb DecFloat Fnum.
Import ListNotations.
Local Open Scope Q_scope.

(** eop.rs:42-66 *)
Record eop := Eop { dut1 : Q; lod : Q; xp : Q; yp : Q; dx : Q; dy : Q }.
Record eop_record := Rec { mjd : Q; vals : eop }.
(** eop.rs:133-143; [None]: the index is outside the table, which panics *)
Fixpoint bisect (fuel : nat) (l : list eop_record) (t : Q) (lo hi : nat) : option (nat * nat) :=
  if (1 <? hi - lo)%nat then
    match fuel with
    | O => None
    | S n =>
        let mid := ((lo + hi) / 2)%nat in
        match nth_error l mid with
        | Some r => if qleb (mjd r) t then bisect n l t mid hi else bisect n l t lo mid
        | None => None
        end
    end
  else Some (lo, hi).
Definition blend (f a b : Q) : Q := a + f * (b - a).
(** eop.rs:121-160; the outer [None] is a panic or a loop that does not end *)
Definition interpolate (l : list eop_record) (t : Q) : option (option eop_record) :=
  match l with
  | [] => Some None
  | first :: _ =>
      let final := last l first in
      if qleb t (mjd first) then Some (Some first) else
      if qleb (mjd final) t then Some (Some final) else
      match bisect (length l) l t 0 (length l - 1) with
      | Some (lo, hi) =>
          match nth_error l lo, nth_error l hi with
          | Some a, Some b =>
              let f := (t - mjd a) / (mjd b - mjd a) in
              let u := vals a in let v := vals b in
              Some (Some (Rec t (Eop (blend f (dut1 u) (dut1 v)) (blend f (lod u) (lod v)) (blend f (xp u) (xp v)) (blend f (yp u) (yp v))
                                     (blend f (dx u) (dx v)) (blend f (dy u) (dy v)))))
          | _, _ => None
          end
      | None => None
      end
  end.

(** classification.rs:50-65 *)
Inductive phase := Day | Civil | Nautical | Astronomical | Dark.
(** classification.rs:131-147 *)
Definition twilight (alt : fnum) : phase :=
  if flt (Fin 0) alt then Day
  else if flt (Fin (-6)) alt then Civil
  else if flt (Fin (-12)) alt then Nautical
  else if flt (Fin (-18)) alt then Astronomical
  else Dark.
