(** Horizontal coordinates, over the reals (f64 rounding is not modelled). *)
From Coq Require Import Reals Lra.
From Verif Require Import Mat3 Ang.
Local Open Scope R_scope.

(** src/event/horizontal.rs:186-190, 283; src/event/stellar/altitude_periods.rs:133-134. The sidereal time [gast]
    is a parameter; [Radians::wrap_pos] of the external unit crate is the Euclidean remainder. *)
Definition hour_angle (gast lon ra : R) : R := rem_e (gast + lon - ra) (2 * PI).
(** horizontal.rs:196-198, 287-288; altitude_periods.rs:137-139 *)
Definition altitude (ha dec lat : R) : R := asin (sin dec * sin lat + cos dec * cos lat * cos ha).
(** horizontal.rs:200-203, 290-292; [normalize] of the external unit crate is the Euclidean remainder by
    a turn. The change of unit to degrees is left out. *)
Definition azimuth (ha dec lat : R) : R :=
  rem_e (atan2 (- cos dec * sin ha) (sin dec * cos lat - cos dec * cos ha * sin lat)) (2 * PI).
(** horizontal.rs:168-206 (equatorial_to_horizontal_true_of_date_with_ctx): altitude, azimuth, distance *)
Definition equatorial_to_horizontal (gast lon lat ra dec distance : R) : R * R * R :=
  let ha := hour_angle gast lon ra in (altitude ha dec lat, azimuth ha dec lat, distance).

(** horizontal.rs:258-264, altitude_periods.rs:104-110 *)
Definition unit_of (ra dec : R) : vec := (cos dec * cos ra, cos dec * sin ra, sin dec).
(** The correction policy of src/astro/apparent.rs as far as these functions look at it. *)
Inductive policy := Geometric | Apparent.
(** horizontal.rs:266-272, altitude_periods.rs:115-121; [npb] is the matrix of the date *)
Definition true_of_date (p : policy) (npb : mat) (ra dec : R) : vec :=
  match p with Geometric => unit_of ra dec | Apparent => apply npb (unit_of ra dec) end.
(** horizontal.rs:245-295 (star_horizontal_with_policy) *)
Definition star_horizontal (p : policy) (npb : mat) (gast lon lat ra dec : R) : R * R :=
  let '(x, y, z) := true_of_date p npb ra dec in
  let ha := hour_angle gast lon (atan2 y x) in
  (altitude ha (asin z) lat, azimuth ha (asin z) lat).
(** stellar/altitude_periods.rs:87-140 (fixed_star_altitude_rad_with_policy) *)
Definition fixed_star_altitude (p : policy) (npb : mat) (gast lon lat ra dec : R) : R :=
  let '(x, y, z) := true_of_date p npb ra dec in
  altitude (hour_angle gast lon (atan2 y x)) (atan2 z (sqrt (x * x + y * y))) lat.
(** stellar/azimuth.rs:36-47 (fixed_star_azimuth_rad_with_policy) *)
Definition fixed_star_azimuth (p : policy) (npb : mat) (gast lon lat ra dec : R) : R := snd (star_horizontal p npb gast lon lat ra dec).
(** horizontal.rs:90-140: parallax, then the two rotations, then spherical coordinates
    (affn's [from_cartesian]: azimuth by atan2, polar by asin of z over the length; the result's azimuth
    is not normalised here, which the hour angle does not notice) *)
Definition vminus (u v : vec) : vec := let '(a, b, c) := u in let '(x, y, z) := v in (a - x, b - y, c - z).
Definition apparent_topocentric (prec nut : mat) (site geo : vec) : R * R * R :=
  let '(x, y, z) := apply nut (apply prec (vminus geo site)) in
  let r := sqrt (x * x + y * y + z * z) in (atan2 y x, asin (z / r), r).
