(** What the TLE theorems are stated against, independently of the parser and formatter. *)
From Coq Require Import List NArith ZArith Bool QArith Qabs.
From Verif Require Import Base Text DecFloat Tle_Model.
Import ListNotations.
Local Open Scope N_scope.

(** Checksum weight of a column: digits count their value, a minus sign one. *)
Definition weight (c : N) : N :=
  if (48 <=? c) && (c <=? 57) then c - 48 else if c =? 45 then 1 else 0.
Definition weights (s : str) : N := fold_right (fun c a => weight c + a) 0 s.

(** A number with at most [p] decimals. *)
Definition on_grid (p : nat) (q : Q) : Prop := exists z, (q * p10 (Z.of_nat p) == inject_Z z)%Q.

(** Five significant digits and a one-digit decimal exponent: [0.ddddd * 10^e]. *)
Definition drag_value (v : Q) : Prop :=
  (v == 0)%Q \/
  exists (neg : bool) (m : N) (e : Z), 10000 <= m <= 99999 /\ (-9 <= e <= 9)%Z /\
    (v == qsgn neg (QofN m * p10 (e - 5)))%Q.

(** A field value that fits [w] columns with [p] decimals. *)
Definition fits (p : nat) (lo hi : Q) (f : fnum) : Prop :=
  exists q, f = Fin q /\ on_grid p q /\ (lo <= q <= hi)%Q.

(** An element set every field of which fits its columns. *)
Record printable (t : tle) : Prop := {
  pr_norad : t_norad t < 340000;
  pr_desig_ascii : forallb is_ascii (t_desig t) = true;
  pr_desig_solid : solid (t_desig t);
  pr_desig_len : (length (t_desig t) <= 8)%nat;
  pr_year : (1957 <= ep_year (t_epoch t) <= 2056)%Z;
  pr_doy : (1 <= ep_doy (t_epoch t) <= days_in_year (ep_year (t_epoch t)))%Z;
  pr_nanos : exists k, (0 <= k < 100000000)%Z /\ ep_nanos (t_epoch t) = (k * 864000)%Z;
  pr_ndot : fits 8 (-99999999 # 100000000) (99999999 # 100000000) (t_ndot t);
  pr_nddot : drag_value (t_nddot t);
  pr_bstar : drag_value (t_bstar t);
  pr_elset : t_elset t <= 9999;
  pr_rev : t_rev t <= 99999;
  pr_inc : fits 4 (-999999 # 10000) (9999999 # 10000) (t_inc t);
  pr_raan : fits 4 (-999999 # 10000) (9999999 # 10000) (t_raan t);
  pr_ecc : on_grid 7 (t_ecc t) /\ (0 <= t_ecc t <= 9999999 # 10000000)%Q;
  pr_argp : fits 4 (-999999 # 10000) (9999999 # 10000) (t_argp t);
  pr_ma : fits 4 (-999999 # 10000) (9999999 # 10000) (t_ma t);
  pr_mm : fits 8 (-999999999 # 100000000) (9999999999 # 100000000) (t_mm t) }.

(** Equality of element sets up to the representation of rationals. *)
Definition tle_eq (a b : tle) : Prop :=
  t_name a = t_name b /\ t_norad a = t_norad b /\ t_class a = t_class b /\
  t_desig a = t_desig b /\ t_epoch a = t_epoch b /\ feq (t_ndot a) (t_ndot b) /\
  (t_nddot a == t_nddot b)%Q /\ (t_bstar a == t_bstar b)%Q /\
  t_elset a = t_elset b /\ t_rev a = t_rev b /\ feq (t_inc a) (t_inc b) /\
  feq (t_raan a) (t_raan b) /\ (t_ecc a == t_ecc b)%Q /\ feq (t_argp a) (t_argp b) /\
  feq (t_ma a) (t_ma b) /\ feq (t_mm a) (t_mm b).
