From Coq Require Import Reals Lra.
From Verif Require Import Mat3 Ang Horiz_Model.
Local Open Scope R_scope.

(** The local axes at sidereal angle [theta] and latitude [lat], in equatorial coordinates. *)
Definition up (theta lat : R) : vec := (cos lat * cos theta, cos lat * sin theta, sin lat).
Definition north (theta lat : R) : vec := (- sin lat * cos theta, - sin lat * sin theta, cos lat).
Definition east (theta : R) : vec := (- sin theta, cos theta, 0).
(** A unit vector seen at an altitude and an azimuth counted from north through east. *)
Definition seen_at (theta lat alt az : R) (u : vec) : Prop :=
  cos alt * cos az = dot3 u (north theta lat) /\ cos alt * sin az = dot3 u (east theta) /\ sin alt = dot3 u (up theta lat).
Lemma sc x : sin x * sin x + cos x * cos x = 1. Proof. pose proof (sin2_cos2 x) as H. unfold Rsqr in H. exact H. Qed.
Lemma axes_pythagoras theta lat u : dot3 u (north theta lat) * dot3 u (north theta lat) + dot3 u (east theta) * dot3 u (east theta) + dot3 u (up theta lat) * dot3 u (up theta lat) = dot3 u u.
Proof.
  destruct u as ((x, y), z). cbn. pose proof (sc theta) as A. pose proof (sc lat) as B.
  assert (E1 : cos theta * cos theta = 1 - sin theta * sin theta) by lra. assert (E2 : cos lat * cos lat = 1 - sin lat * sin lat) by lra.
  ring_simplify. replace (cos lat ^ 2) with (1 - sin lat * sin lat) by (rewrite <- E2; ring). replace (cos theta ^ 2) with (1 - sin theta * sin theta) by (rewrite <- E1; ring). ring.
Qed.
Lemma unit_unit ra dec : dot3 (unit_of ra dec) (unit_of ra dec) = 1.
Proof. cbn. pose proof (sc ra). pose proof (sc dec). replace (cos dec * cos ra * (cos dec * cos ra) + cos dec * sin ra * (cos dec * sin ra) + sin dec * sin dec) with (cos dec * cos dec * (sin ra * sin ra + cos ra * cos ra) + sin dec * sin dec) by ring. rewrite H. lra. Qed.
Lemma sin_ha gast lon ra : sin (hour_angle gast lon ra) = sin (gast + lon - ra) /\ cos (hour_angle gast lon ra) = cos (gast + lon - ra).
Proof. unfold hour_angle. now rewrite sin_rem_e, cos_rem_e. Qed.
Lemma square_one a b c : a * a + b * b + c * c = 1 -> -1 <= c <= 1. Proof. nra. Qed.
(** The formulas of altitude and azimuth give where the vector is seen. *)
Lemma horizontal_ok theta lat dec ha ra u : cos ha = cos (theta - ra) -> sin ha = sin (theta - ra) -> u = unit_of ra dec ->
  seen_at theta lat (altitude ha dec lat) (azimuth ha dec lat) u.
Proof.
  intros C S ->. pose proof (axes_pythagoras theta lat (unit_of ra dec)) as P. rewrite unit_unit in P.
  assert (U : dot3 (unit_of ra dec) (up theta lat) = sin dec * sin lat + cos dec * cos lat * cos ha) by (rewrite C, cos_minus; cbn; ring).
  assert (E : dot3 (unit_of ra dec) (east theta) = - cos dec * sin ha) by (rewrite S, sin_minus; cbn; ring).
  assert (Nn : dot3 (unit_of ra dec) (north theta lat) = sin dec * cos lat - cos dec * cos ha * sin lat) by (rewrite C, cos_minus; cbn; ring).
  unfold seen_at. rewrite U, E, Nn in *. unfold altitude, azimuth. set (n := sin dec * cos lat - cos dec * cos ha * sin lat) in *. set (e := - cos dec * sin ha) in *. set (w := sin dec * sin lat + cos dec * cos lat * cos ha) in *. clearbody n e w.
  pose proof (square_one n e w P) as B. rewrite cos_rem_e, sin_rem_e, cos_asin, sin_asin by lra. replace (1 - w²) with (n² + e²) by (unfold Rsqr; lra).
  destruct (Req_dec n 0) as [N0|N0]; [destruct (Req_dec e 0) as [E0|E0]|].
  - rewrite N0, E0. replace (0² + 0²) with 0 by (unfold Rsqr; ring). rewrite sqrt_0. lra.
  - destruct (atan2_polar e n (or_intror E0)) as (X & Y). now rewrite X, Y.
  - destruct (atan2_polar e n (or_introl N0)) as (X & Y). now rewrite X, Y.
Qed.
(** A unit vector is the one of its right ascension and declination, by either formula. *)
Lemma of_vector x y z : x * x + y * y + z * z = 1 -> unit_of (atan2 y x) (asin z) = (x, y, z) /\ asin z = atan2 z (sqrt (x * x + y * y)).
Proof.
  intros E. pose proof (square_one x y z E) as B. assert (Ra : cos (asin z) = sqrt (x² + y²)) by (rewrite cos_asin by lra; f_equal; unfold Rsqr; lra). split.
  - unfold unit_of. rewrite Ra, sin_asin by lra. destruct (Req_dec x 0) as [X|X]; [destruct (Req_dec y 0) as [Y|Y]|].
    + subst. replace (0² + 0²) with 0 by (unfold Rsqr; ring). rewrite sqrt_0. f_equal. f_equal; ring.
    + destruct (atan2_polar y x (or_intror Y)) as (P & Q). now rewrite P, Q.
    + destruct (atan2_polar y x (or_introl X)) as (P & Q). now rewrite P, Q.
  - fold (Rsqr x). fold (Rsqr y). rewrite <- Ra. pose proof (asin_bound z) as A.
    assert (N : cos (asin z) <> 0 \/ z <> 0). { destruct (Req_dec z 0) as [->|]; [left; rewrite asin_0, cos_0; lra|auto]. }
    assert (C0 : 0 <= cos (asin z)) by (apply cos_ge_0; lra).
    assert (One : sqrt ((cos (asin z))² + z²) = 1). { rewrite <- sqrt_1. f_equal. rewrite <- (sin_asin z) at 2 by lra. unfold Rsqr. pose proof (sc (asin z)). lra. }
    destruct (atan2_polar z (cos (asin z)) N) as (P & Q). rewrite One, Rmult_1_l in P, Q. pose proof (atan2_range z (cos (asin z))) as Rg.
    apply angle_unique; [apply Rabs_def1; pose proof PI_RGT_0; lra|now rewrite P|now rewrite Q, sin_asin by lra].
Qed.
Lemma seen_unique theta lat alt az alt' az' u : - (PI / 2) <= alt <= PI / 2 -> - (PI / 2) <= alt' <= PI / 2 -> 0 <= az < 2 * PI -> 0 <= az' < 2 * PI -> alt <> PI / 2 -> alt <> - (PI / 2) ->
  seen_at theta lat alt az u -> seen_at theta lat alt' az' u -> alt = alt' /\ az = az'.
Proof.
  intros A A' Z Z' N1 N2 (P & Q & S) (P' & Q' & S'). pose proof PI_RGT_0. assert (alt = alt') by (rewrite <- (asin_sin alt), <- (asin_sin alt') by lra; f_equal; lra). subst alt'. split; [reflexivity|].
  assert (0 < cos alt) by (apply cos_gt_0; lra). apply angle_unique; [apply Rabs_def1; lra| |]; apply (Rmult_eq_reg_l (cos alt)); try lra.
Qed.
(** The directions of two bodies make the angle their horizontal coordinates make. *)
Lemma axes_dot theta lat u v : dot3 u (north theta lat) * dot3 v (north theta lat) + dot3 u (east theta) * dot3 v (east theta) + dot3 u (up theta lat) * dot3 v (up theta lat) = dot3 u v.
Proof.
  destruct u as ((x, y), z), v as ((x', y'), z'). cbn. pose proof (sc theta) as A. pose proof (sc lat) as B.
  assert (E1 : cos theta * cos theta = 1 - sin theta * sin theta) by lra. assert (E2 : cos lat * cos lat = 1 - sin lat * sin lat) by lra.
  ring_simplify. replace (cos lat ^ 2) with (1 - sin lat * sin lat) by (rewrite <- E2; ring). replace (cos theta ^ 2) with (1 - sin theta * sin theta) by (rewrite <- E1; ring). ring.
Qed.
