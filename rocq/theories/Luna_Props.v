(** C165 the short lunar series, C166 the place of the Sun, C167 velocities. *)
From Coq Require Import Reals Lra Lia Psatz ZArith.
From Verif Require Import Base Mat3 Ang Geom_Model Moon_Model Earth_Model Earth_Proofs Horiz_Model Luna_Model.
Local Open Scope R_scope.

(** * C165 *)
Lemma rem_t_turn x : exists k, rem_t x 360 = x + 360 * IZR k.
Proof. exists (- trunc (x / 360))%Z. unfold rem_t. rewrite opp_IZR. ring. Qed.
Lemma rad_turn x k : rad (x + 360 * IZR k) = rad x + 2 * PI * IZR k.
Proof. unfold rad. field. Qed.
Lemma sin_shift a b k : a = b + 2 * PI * IZR k -> sin a = sin b. Proof. intros ->. apply sin_turns. Qed.
Lemma cos_shift a b k : a = b + 2 * PI * IZR k -> cos a = cos b. Proof. intros ->. apply cos_turns. Qed.
(** whole turns of the five elements change nothing *)
Theorem C165_turns lp d m mp f eps a b c e g :
  moon_of (lp + 360 * IZR a) (d + 360 * IZR b) (m + 360 * IZR c) (mp + 360 * IZR e) (f + 360 * IZR g) eps = moon_of lp d m mp f eps.
Proof.
  unfold moon_of. rewrite !rad_turn.
  assert (L : sum_l (rad d + 2 * PI * IZR b) (rad m + 2 * PI * IZR c) (rad mp + 2 * PI * IZR e) (rad f + 2 * PI * IZR g) = sum_l (rad d) (rad m) (rad mp) (rad f)).
  { unfold sum_l. rewrite (sin_turns (rad mp)), (sin_turns (rad m)).
    rewrite (sin_shift (2 * (rad d + 2 * PI * IZR b) - (rad mp + 2 * PI * IZR e)) (2 * rad d - rad mp) (2 * b - e)) by (rewrite minus_IZR, mult_IZR; ring). rewrite (sin_shift (2 * (rad d + 2 * PI * IZR b)) (2 * rad d) (2 * b)) by (rewrite mult_IZR; ring).
    rewrite (sin_shift (2 * (rad mp + 2 * PI * IZR e)) (2 * rad mp) (2 * e)) by (rewrite mult_IZR; ring). rewrite (sin_shift (2 * (rad f + 2 * PI * IZR g)) (2 * rad f) (2 * g)) by (rewrite mult_IZR; ring). reflexivity. }
  assert (B : sum_b (rad d + 2 * PI * IZR b) (rad mp + 2 * PI * IZR e) (rad f + 2 * PI * IZR g) = sum_b (rad d) (rad mp) (rad f)).
  { unfold sum_b. rewrite (sin_turns (rad f)). rewrite (sin_shift (rad mp + 2 * PI * IZR e + (rad f + 2 * PI * IZR g)) (rad mp + rad f) (e + g)) by (rewrite plus_IZR; ring).
    rewrite (sin_shift (rad mp + 2 * PI * IZR e - (rad f + 2 * PI * IZR g)) (rad mp - rad f) (e - g)) by (rewrite minus_IZR; ring). rewrite (sin_shift (2 * (rad d + 2 * PI * IZR b) - (rad f + 2 * PI * IZR g)) (2 * rad d - rad f) (2 * b - g)) by (rewrite minus_IZR, mult_IZR; ring). reflexivity. }
  assert (Rr : sum_r (rad d + 2 * PI * IZR b) (rad mp + 2 * PI * IZR e) = sum_r (rad d) (rad mp)).
  { unfold sum_r. rewrite (cos_turns (rad mp)). rewrite (cos_shift (2 * (rad d + 2 * PI * IZR b) - (rad mp + 2 * PI * IZR e)) (2 * rad d - rad mp) (2 * b - e)) by (rewrite minus_IZR, mult_IZR; ring).
    rewrite (cos_shift (2 * (rad d + 2 * PI * IZR b)) (2 * rad d) (2 * b)) by (rewrite mult_IZR; ring). rewrite (cos_shift (2 * (rad mp + 2 * PI * IZR e)) (2 * rad mp) (2 * e)) by (rewrite mult_IZR; ring). reflexivity. }
  rewrite L, B, Rr.
  replace (rad (lp + 360 * IZR a + sum_l (rad d) (rad m) (rad mp) (rad f) / 1000000)) with (rad (lp + sum_l (rad d) (rad m) (rad mp) (rad f) / 1000000) + 2 * PI * IZR a) by (rewrite <- rad_turn; f_equal; ring).
  rewrite rem_e_shift by (pose proof PI_RGT_0; lra). reflexivity.
Qed.
(** so the remainders taken of the elements are invisible in the result *)
Theorem C165_remainders jd : let t := centuries jd in moon_position jd = moon_of (el_l t) (el_d t) (el_m t) (el_mp t) (el_f t) (mean_obliquity jd).
Proof.
  cbn. unfold moon_position. set (t := centuries jd).
  destruct (rem_t_turn (el_l t)) as (a & ->), (rem_t_turn (el_d t)) as (b & ->), (rem_t_turn (el_m t)) as (c & ->), (rem_t_turn (el_mp t)) as (e & ->), (rem_t_turn (el_f t)) as (g & ->).
  apply C165_turns.
Qed.
Lemma lat_small d mp f : Rabs (sum_b d mp f / 1000000) <= 5.859654.
Proof.
  unfold sum_b. pose proof (SIN_bound f). pose proof (SIN_bound (mp + f)). pose proof (SIN_bound (mp - f)). pose proof (SIN_bound (2 * d - f)). apply Rabs_le. lra.
Qed.
Lemma rad_abs x y : Rabs x <= y -> - rad y <= rad x <= rad y.
Proof. intros H. pose proof (Rle_abs x) as A. pose proof (Rle_abs (- x)) as B. rewrite Rabs_Ropp in B. unfold rad. pose proof PI_RGT_0. split; nra. Qed.
Lemma clamp1_id x : -1 <= x <= 1 -> clamp1 x = x.
Proof. intros H. unfold clamp1. rewrite Rmin_left by lra. apply Rmax_right. lra. Qed.
Lemma tilt_unit a b e : let s := sin a * cos e + cos a * sin e * sin b in let y := cos a * sin b * cos e - sin a * sin e in let x := cos a * cos b in
  x * x + y * y + s * s = 1.
Proof.
  cbn. pose proof (sin2_cos2 a) as A. pose proof (sin2_cos2 b) as B. pose proof (sin2_cos2 e) as E. unfold Rsqr in *.
  transitivity ((cos a * cos a) * (cos b * cos b) + (cos a * cos a * (sin b * sin b) + sin a * sin a) * (sin e * sin e + cos e * cos e)); [ring|]. rewrite E.
  transitivity (cos a * cos a * (sin b * sin b + cos b * cos b) + sin a * sin a); [ring|]. rewrite B. lra.
Qed.
(** within a turn, within the hemispheres, and at a distance between 356 870 and 413 131 kilometres, at every instant *)
Theorem C165_range jd : let q := moon_position jd in
  0 <= m_lon q < 2 * PI /\ 0 <= m_ra q < 2 * PI /\ - rad 5.859654 <= m_lat q <= rad 5.859654 /\ - (PI / 2) <= m_dec q <= PI / 2 /\ 356870.201 <= m_dist q <= 413130.919.
Proof.
  cbn. pose proof PI_RGT_0. unfold moon_position, moon_of. cbn. split; [apply rem_e_range; lra|]. split; [apply rem_e_range; lra|]. split; [apply rad_abs, lat_small|]. split; [apply asin_bound|].
  set (d := rad _). set (mp := rad _). unfold sum_r. pose proof (COS_bound mp). pose proof (COS_bound (2 * d - mp)). pose proof (COS_bound (2 * d)). pose proof (COS_bound (2 * mp)). lra.
Qed.
Definition unit_of_angles (az pol : R) : vec := (cos pol * cos az, cos pol * sin az, sin pol).
(** the equatorial direction is the ecliptic direction turned by the mean obliquity of date *)
Theorem C165_equatorial jd : let q := moon_position jd in
  unit_of_angles (m_ra q) (m_dec q) = apply (rx (mean_obliquity jd)) (unit_of_angles (m_lon q) (m_lat q)).
Proof.
  cbn zeta. pose proof (C165_range jd) as (_ & _ & LB & _ & _). cbn zeta in LB.
  assert (CL : 0 < cos (m_lat (moon_position jd))).
  { apply cos_gt_0; unfold rad in LB; pose proof PI_RGT_0; lra. }
  revert CL. unfold moon_position, moon_of. cbn [m_ra m_dec m_lon m_lat]. set (lat := rad (sum_b _ _ _ / _)). set (lon := rem_e (rad _) _). set (e := mean_obliquity jd). clearbody lat lon e. intros CL.
  set (y := sin lon * cos e - tan lat * sin e). set (x := cos lon). set (s := sin lat * cos e + cos lat * sin e * sin lon).
  assert (Y : cos lat * y = cos lat * sin lon * cos e - sin lat * sin e) by (unfold y, tan; field; lra).
  pose proof (tilt_unit lat lon e) as U. cbn in U. rewrite <- Y in U. fold x s in U.
  assert (SB : -1 <= s <= 1) by (split; nra). rewrite (clamp1_id _ SB). unfold unit_of_angles, apply. rewrite rx_form. cbn. rewrite sin_asin by exact SB. rewrite sin_rem_e, cos_rem_e, cos_asin by exact SB.
  assert (RT : sqrt (1 - Rsqr s) = cos lat * sqrt (Rsqr x + Rsqr y)).
  { replace (1 - Rsqr s) with (Rsqr (cos lat) * (Rsqr x + Rsqr y)) by (unfold Rsqr; lra). rewrite sqrt_mult_alt by apply Rle_0_sqr. rewrite sqrt_Rsqr by lra. reflexivity. }
  rewrite RT. assert (P : sqrt (Rsqr x + Rsqr y) * cos (atan2 y x) = x /\ sqrt (Rsqr x + Rsqr y) * sin (atan2 y x) = y).
  { destruct (Req_dec x 0) as [X0|X0]; [destruct (Req_dec y 0) as [Y0|Y0]|]; [|apply atan2_polar; tauto..]. rewrite X0, Y0. replace (Rsqr 0 + Rsqr 0) with 0 by (unfold Rsqr; ring). rewrite sqrt_0. split; ring. }
  destruct P as (P1 & P2). f_equal; [f_equal|].
  - rewrite Rmult_assoc, P1. unfold x. ring.
  - rewrite Rmult_assoc, P2, Y. ring.
  - unfold s. ring.
Qed.
(** so the declination stays within the latitude and the obliquity together *)
Theorem C165_declination jd : 0 <= mean_obliquity jd <= rad 84 -> Rabs (m_dec (moon_position jd)) <= mean_obliquity jd + Rabs (m_lat (moon_position jd)).
Proof.
  intros E. pose proof (C165_equatorial jd) as Q. pose proof (C165_range jd) as (_ & _ & LB & DB & _). cbn zeta in *. set (q := moon_position jd) in *. set (e := mean_obliquity jd) in *. clearbody q e.
  unfold unit_of_angles, apply in Q. rewrite rx_form in Q. cbn in Q. injection Q as _ _ Q.
  pose proof PI_RGT_0 as P. unfold rad in LB, E.
  assert (CL : 0 < cos (m_lat q)) by (apply cos_gt_0; lra). assert (SE : 0 <= sin e) by (apply sin_ge_0; lra). pose proof (SIN_bound (m_lon q)) as B.
  assert (CS : 0 <= cos (m_lat q) * sin e) by (apply Rmult_le_pos; lra).
  assert (U : sin (m_dec q) <= sin (m_lat q + e)) by (rewrite sin_plus; nra).
  assert (L : sin (m_lat q - e) <= sin (m_dec q)) by (rewrite sin_minus; nra).
  assert (UU : m_dec q <= m_lat q + e) by (apply sin_incr_0; lra).
  assert (LL : m_lat q - e <= m_dec q) by (apply sin_incr_0; lra).
  apply Rabs_le. pose proof (Rle_abs (m_lat q)). pose proof (Rle_abs (- m_lat q)) as A. rewrite Rabs_Ropp in A. lra.
Qed.
(** at the epoch of J2000 *)
Example C165_case : 0 <= mean_obliquity j2000 <= rad 84 /\ moon_of (10 + 360 * 1) (20 + 360 * 0) (30 + 360 * 0) (40 + 360 * -3) (50 + 360 * 2) 0 = moon_of 10 20 30 40 50 0.
Proof.
  split.
  - unfold mean_obliquity, centuries, fw_eps, arcsec, rad. pose proof PI_RGT_0. replace ((j2000 - j2000) / 36525) with 0 by field. split; nra.
  - exact (C165_turns 10 20 30 40 50 0 1 0 0 (-3) 2).
Qed.
Print Assumptions C165_turns.
Print Assumptions C165_remainders.
Print Assumptions C165_range.
Print Assumptions C165_equatorial.
Print Assumptions C165_declination.
Print Assumptions C165_case.

(** * C166 *)
Lemma to_minus (e : vec) : sun_ecliptic e = let '(x, y, z) := e in (- x, - y, - z).
Proof. destruct e as ((x, y), z). cbn. unfold sun_ecliptic, vminus. f_equal; [f_equal|]; ring. Qed.
(** the Sun stands opposite to the Earth's place in its orbit *)
Theorem C166_opposite x y z : x <> 0 \/ y <> 0 ->
  cos (sun_longitude (x, y, z)) = - cos (atan2 y x) /\ sin (sun_longitude (x, y, z)) = - sin (atan2 y x).
Proof.
  intros H. unfold sun_longitude. rewrite to_minus. cbn. destruct (atan2_polar y x H) as (A & B).
  assert (H' : - x <> 0 \/ - y <> 0) by (destruct H; [left|right]; lra). destruct (atan2_polar (- y) (- x) H') as (A' & B').
  replace (Rsqr (- x) + Rsqr (- y)) with (Rsqr x + Rsqr y) in A', B' by (unfold Rsqr; ring). pose proof (hyp_pos x y H) as P. set (r := sqrt (Rsqr x + Rsqr y)) in *.
  split; apply (Rmult_eq_reg_l r); try lra.
Qed.
(** as far from the Earth as the Earth is from the Sun, whatever the date and the nutation *)
Theorem C166_distance jd dpsi deps x y z : snd (sun_apparent jd dpsi deps (x, y, z)) = sqrt (x * x + y * y + z * z).
Proof.
  unfold sun_apparent, sun_apparent_vector, sun_mean_equatorial. rewrite to_minus.
  assert (P : proper (mul (precession_nutation jd dpsi deps) ecl_to_eq)) by (apply proper_mul; [apply precession_nutation_proper|apply rx_proper]).
  rewrite <- apply_mul. destruct P as (P & _). pose proof (orthonormal_dot _ (- x, - y, - z) (- x, - y, - z) P) as D.
  destruct (apply (mul (precession_nutation jd dpsi deps) ecl_to_eq) (- x, - y, - z)) as ((u, v), w). cbn in D |- *. f_equal. lra.
Qed.
(** the matrix is the one from GCRS, which carries the frame bias, but the vector it is applied to is already in mean
    J2000 coordinates: at J2000 without nutation the mean place is turned by the bias once more *)
Theorem C166_bias e : sun_apparent_vector j2000 0 0 e = apply bias (sun_mean_equatorial e).
Proof. unfold sun_apparent_vector, bias, precession, precession_nutation. now rewrite !Rplus_0_r. Qed.
Lemma moves m : m <> identity -> exists v, apply m v <> v.
Proof.
  intros M. destruct m as [a b c d e f g h i].
  destruct (Req_dec a 1) as [A1|A1]; [destruct (Req_dec d 0) as [A2|A2]; [destruct (Req_dec g 0) as [A3|A3]|]|];
    [|exists (1, 0, 0); cbn; intros K; injection K; intros; lra..].
  destruct (Req_dec b 0) as [B1|B1]; [destruct (Req_dec e 1) as [B2|B2]; [destruct (Req_dec h 0) as [B3|B3]|]|];
    [|exists (0, 1, 0); cbn; intros K; injection K; intros; lra..].
  destruct (Req_dec c 0) as [C1|C1]; [destruct (Req_dec f 0) as [C2|C2]; [destruct (Req_dec i 1) as [C3|C3]|]|];
    [|exists (0, 0, 1); cbn; intros K; injection K; intros; lra..].
  exfalso. apply M. subst. reflexivity.
Qed.
Theorem C166_bias_refuted : exists e, sun_apparent_vector j2000 0 0 e <> sun_mean_equatorial e.
Proof.
  assert (N : a33 (mul (rx (- j2000_obliquity)) (mul bias identity)) <> a33 (rx (- j2000_obliquity))).
  { unfold bias, precession, fw_matrix, centuries. replace ((j2000 - j2000) / 36525) with 0 by field. rewrite mul_1_r.
    assert (E : fw_eps 0 = j2000_obliquity) by (unfold fw_eps, j2000_obliquity; f_equal; ring). rewrite E, mul_assoc, rx_add. replace (- j2000_obliquity + j2000_obliquity) with 0 by ring. rewrite rx_0, mul_1_l.
    assert (F : fw_phi 0 = arcsec 84381.412819) by (unfold fw_phi; f_equal; ring). rewrite F. rewrite !rx_form. unfold rz, r3. cbn. rewrite !cos_neg. intros K.
    ring_simplify in K. assert (C : cos (arcsec 84381.412819) < cos j2000_obliquity) by (unfold j2000_obliquity, arcsec; pose proof PI_RGT_0; apply cos_decreasing_1; nra). lra. }
  assert (M : bias <> identity) by (intros K; apply N; rewrite K, !mul_1_r; reflexivity).
  assert (W : forall a b c, exists e, sun_mean_equatorial e = (a, b, c)).
  { intros a b c. destruct (apply eq_to_ecl (a, b, c)) as ((u, v), w) eqn:U. exists (- u, - v, - w). unfold sun_mean_equatorial. rewrite to_minus, !Ropp_involutive, <- U, <- apply_mul. unfold ecl_to_eq, eq_to_ecl. rewrite rx_add.
    replace (j2000_obliquity + - j2000_obliquity) with 0 by ring. rewrite rx_0. cbn. f_equal; [f_equal|]; ring. }
  destruct (moves _ M) as (v & V). destruct v as ((a, b), c). destruct (W a b c) as (e & E). exists e. rewrite C166_bias, E. exact V.
Qed.
Example C166_case : cos (sun_longitude (1, 0, 0)) = -1 /\ snd (sun_apparent j2000 0 0 (3, 0, 4)) = 5.
Proof.
  split.
  - destruct (C166_opposite 1 0 0 ltac:(left; lra)) as (-> & _). unfold atan2. destruct (Rlt_dec 0 1); [|lra]. replace (0 / 1) with 0 by field. rewrite atan_0, cos_0. ring.
  - rewrite C166_distance. replace (3 * 3 + 0 * 0 + 4 * 4) with (5 * 5) by ring. apply sqrt_square. lra.
Qed.
Print Assumptions C166_opposite.
Print Assumptions C166_distance.
Print Assumptions C166_bias.
Print Assumptions C166_bias_refuted.
Print Assumptions C166_case.

(** * C167 *)
Lemma bias_is_proper : proper bias. Proof. apply bias_proper. Qed.
Lemma eq_ecl v : apply eq_to_ecl (apply ecl_to_eq v) = v.
Proof. rewrite <- apply_mul. unfold eq_to_ecl, ecl_to_eq. rewrite rx_add. replace (- j2000_obliquity + j2000_obliquity) with 0 by ring. rewrite rx_0. destruct v as ((x, y), z). cbn. f_equal; [f_equal|]; ring. Qed.
Lemma ecl_eq v : apply ecl_to_eq (apply eq_to_ecl v) = v.
Proof. rewrite <- apply_mul. unfold eq_to_ecl, ecl_to_eq. rewrite rx_add. replace (j2000_obliquity + - j2000_obliquity) with 0 by ring. rewrite rx_0. destruct v as ((x, y), z). cbn. f_equal; [f_equal|]; ring. Qed.
Lemma bias_back v : apply (transpose bias) (apply bias v) = v.
Proof. rewrite <- apply_mul. destruct bias_is_proper as (O & _). unfold orthonormal in O. rewrite O. destruct v as ((x, y), z). cbn. f_equal; [f_equal|]; ring. Qed.
Lemma bias_forth v : apply bias (apply (transpose bias) v) = v.
Proof. rewrite <- apply_mul, (proper_r _ bias_is_proper). destruct v as ((x, y), z). cbn. f_equal; [f_equal|]; ring. Qed.
(** any route between the three frames gives the same velocity; in particular there and back is the identity *)
Theorem C167_routes a b c v : to_frame b c (to_frame a b v) = to_frame a c v.
Proof. destruct a, b, c; cbn; rewrite ?eq_ecl, ?ecl_eq, ?bias_back, ?bias_forth, ?eq_ecl, ?ecl_eq, ?bias_back, ?bias_forth; reflexivity. Qed.
(** speeds and angles between velocities are kept *)
Theorem C167_speeds a b u v : dot3 (to_frame a b u) (to_frame a b v) = dot3 u v.
Proof.
  assert (X : forall e u v, dot3 (apply (rx e) u) (apply (rx e) v) = dot3 u v) by (intros; apply orthonormal_dot, rx_proper).
  assert (B : forall u v, dot3 (apply bias u) (apply bias v) = dot3 u v) by (intros; apply orthonormal_dot, bias_is_proper).
  assert (T : forall u v, dot3 (apply (transpose bias) u) (apply (transpose bias) v) = dot3 u v) by (intros; apply orthonormal_dot, orthonormal_transpose, bias_is_proper).
  destruct a, b; cbn [to_frame]; unfold ecl_to_eq, eq_to_ecl; rewrite ?B, ?T, ?X, ?B, ?T; reflexivity.
Qed.
(** and the rotation is the one positions use *)
Theorem C167_as_positions v : to_frame Icrs Ecliptic v = apply icrs_to_ecliptic v /\ to_frame Ecliptic Icrs v = apply (transpose icrs_to_ecliptic) v.
Proof.
  unfold to_frame, icrs_to_ecliptic. rewrite transpose_mul, !apply_mul. split; [reflexivity|]. unfold eq_to_ecl, ecl_to_eq. rewrite rx_transpose, Ropp_involutive. reflexivity.
Qed.
(** a velocity along the equinox is not moved by the tilt; one along the ecliptic pole is *)
Example C167_case : to_frame Ecliptic Equatorial (1, 0, 0) = (1, 0, 0) /\ to_frame Ecliptic Equatorial (0, 0, 1) = (0, - sin j2000_obliquity, cos j2000_obliquity).
Proof. unfold to_frame, ecl_to_eq. rewrite rx_form. cbn. split; (f_equal; [f_equal|]); ring. Qed.
Print Assumptions C167_routes.
Print Assumptions C167_speeds.
Print Assumptions C167_as_positions.
Print Assumptions C167_case.
