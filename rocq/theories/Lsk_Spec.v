(** The calendar and the meaning of a leap-second table. *)
From Coq Require Import List ZArith QArith Bool NArith.
From Verif Require Import Base Text DecFloat Fnum.
Import ListNotations.
Local Open Scope Z_scope.

(** The Gregorian calendar, counted year by year and month by month from 1 January of year 1. *)
Definition leap_year (y : Z) : bool := ((y mod 4 =? 0) && negb (y mod 100 =? 0)) || (y mod 400 =? 0).
Definition month_length (y m : Z) : Z :=
  if m =? 2 then (if leap_year y then 29 else 28)
  else if (m =? 4) || (m =? 6) || (m =? 9) || (m =? 11) then 30 else 31.
Definition sum (l : list Z) : Z := fold_right Z.add 0 l.
Definition upto (n : nat) : list Z := map (fun i => Z.of_nat i + 1) (seq 0 n).
Definition year_length (y : Z) : Z := sum (map (month_length y) (upto 12)).
Definition day_number (y m d : Z) : Z :=
  sum (map year_length (upto (Z.to_nat (y - 1)))) + sum (map (month_length y) (upto (Z.to_nat (m - 1)))) + d.
Definition date_ok (y m d : Z) : Prop := 1 <= m <= 12 /\ 1 <= d <= month_length y m.
(** From 1 March 1900 to 28 February 2100. *)
Definition in_range (y m : Z) : Prop := 1900 < y < 2100 \/ (y = 1900 /\ 3 <= m) \/ (y = 2100 /\ m <= 2).

(** Seconds from noon of 1 January 2000 to the start of a day. *)
Definition seconds_j2000 (y m d : Z) : Q := (inject_Z (day_number y m d - day_number 2000 1 1) * 86400 - 43200)%Q.

(** [governs l t e off]: [(e, off)] is the latest pair of [l] starting at or before [t]; of pairs
    with the same start, the last listed. *)
Definition governs (l : list (fnum * fnum)) (t e off : fnum) : Prop :=
  exists a b, l = a ++ (e, off) :: b /\ fle e t = true /\
    (forall e' o', In (e', o') a -> fle e' t = true -> tleb e' e = true) /\
    (forall e' o', In (e', o') b -> fle e' t = true -> tleb e e' = false).
