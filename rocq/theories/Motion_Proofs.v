(** Lemmas about stellar motion. *)
From Coq Require Import Reals Bool Lra Psatz.
From Verif Require Import Base Ang Motion_Model.
Local Open Scope R_scope.
Local Open Scope outcome_scope.

Definition vec (p : pos) : R * R * R :=
  (p_dist p * (cos (rad (p_dec p)) * cos (rad (p_ra p))), p_dist p * (cos (rad (p_dec p)) * sin (rad (p_ra p))), p_dist p * sin (rad (p_dec p))).
Definition dot (u v : R * R * R) : R := let '(a, b, c) := u in let '(x, y, z) := v in a * x + b * y + c * z.
Definition add (u v : R * R * R) : R * R * R := let '(a, b, c) := u in let '(x, y, z) := v in (a + x, b + y, c + z).
Definition scale (k : R) (u : R * R * R) : R * R * R := let '(a, b, c) := u in (k * a, k * b, k * c).
Definition outward (p : pos) : R * R * R := (cos (rad (p_dec p)) * cos (rad (p_ra p)), cos (rad (p_dec p)) * sin (rad (p_ra p)), sin (rad (p_dec p))).
Definition eastward (p : pos) : R * R * R := (- sin (rad (p_ra p)), cos (rad (p_ra p)), 0).
Definition northward (p : pos) : R * R * R := (- sin (rad (p_dec p)) * cos (rad (p_ra p)), - sin (rad (p_dec p)) * sin (rad (p_ra p)), cos (rad (p_dec p))).

Lemma rad_deg r : rad (deg r) = r.
Proof. unfold rad, deg. pose proof PI_RGT_0. field. lra. Qed.
Lemma deg_rad d : deg (rad d) = d.
Proof. unfold rad, deg. pose proof PI_RGT_0. field. lra. Qed.
Lemma sq_sin x : sin x * sin x = 1 - cos x * cos x.
Proof. pose proof (sin2_cos2 x) as E. unfold Rsqr in E. lra. Qed.
Lemma spherical_back x y z : let r := sqrt (x * x + y * y + z * z) in 0 < r ->
  vec (Pos (deg (rem_e (atan2 y x) (2 * PI))) (deg (asin (z / r))) r) = (x, y, z).
Proof.
  cbn zeta. set (r := sqrt (x * x + y * y + z * z)). intros P. unfold vec. cbn [p_ra p_dec p_dist]. rewrite !rad_deg, sin_rem_e, cos_rem_e.
  assert (S : r * r = x * x + y * y + z * z) by (apply sqrt_sqrt; nra).
  assert (B : -1 <= z / r <= 1).
  { split; [apply Rmult_le_reg_r with r; [exact P|]|apply Rmult_le_reg_r with r; [exact P|]]; unfold Rdiv; rewrite Rmult_assoc, Rinv_l by lra; nra. }
  rewrite sin_asin by exact B. rewrite cos_asin by exact B.
  assert (Z : r * (z / r) = z) by (field; lra).
  assert (C : r * sqrt (1 - (z / r)²) = sqrt (x² + y²)).
  { rewrite <- (sqrt_square r) at 1 by lra. rewrite <- sqrt_mult_alt by nra. f_equal. unfold Rsqr. rewrite S. replace (x * x + y * y + z * z) with (r * r) by exact S.
    transitivity (r * r - (r * (z / r)) * (r * (z / r))); [ring|]. rewrite Z, S. ring. }
  rewrite Z. destruct (Req_dec x 0) as [X|X]; [destruct (Req_dec y 0) as [Y|Y]|].
  - subst x y. rewrite <- !Rmult_assoc, C. unfold Rsqr. rewrite Rmult_0_l, Rplus_0_l, sqrt_0, !Rmult_0_l. reflexivity.
  - destruct (atan2_polar y x (or_intror Y)) as (E & F). rewrite <- !Rmult_assoc, C, E, F. reflexivity.
  - destruct (atan2_polar y x (or_introl X)) as (E & F). rewrite <- !Rmult_assoc, C, E, F. reflexivity.
Qed.
Lemma triad p : dot (outward p) (outward p) = 1 /\ dot (eastward p) (eastward p) = 1 /\ dot (northward p) (northward p) = 1 /\
  dot (outward p) (eastward p) = 0 /\ dot (outward p) (northward p) = 0 /\ dot (eastward p) (northward p) = 0.
Proof.
  unfold dot, outward, eastward, northward. pose proof (sq_sin (rad (p_ra p))) as A. pose proof (sq_sin (rad (p_dec p))) as D.
  repeat split; ring [A D].
Qed.
Definition velocity (km_s : R) (p : pos) (m : space_motion) : R * R * R :=
  add (add (scale (mas (mu_a m) / mas (parallax m)) (eastward p)) (scale (mas (mu_d m) / mas (parallax m)) (northward p))) (scale (radial m * km_s) (outward p)).
Lemma velocity_parts km_s p m : dot (velocity km_s p m) (outward p) = radial m * km_s /\
  dot (velocity km_s p m) (eastward p) = mas (mu_a m) / mas (parallax m) /\ dot (velocity km_s p m) (northward p) = mas (mu_d m) / mas (parallax m).
Proof.
  unfold velocity. generalize (mas (mu_a m) / mas (parallax m)) as u, (mas (mu_d m) / mas (parallax m)) as v, (radial m * km_s) as w. intros.
  unfold add, scale, dot, outward, eastward, northward. pose proof (sq_sin (rad (p_ra p))) as A. pose proof (sq_sin (rad (p_dec p))) as D.
  repeat split; ring [A D].
Qed.
Definition years (jd epoch : R) : R := (jd - epoch) / (36525 / 100).
Definition place (km_s : R) (p : pos) (m : space_motion) (t : R) : R * R * R := add (scale (1 / mas (parallax m)) (outward p)) (scale t (velocity km_s p m)).
Definition norm2 (v : R * R * R) : R := dot v v.
Lemma place_norm km_s p m t : let k := 1 / mas (parallax m) in
  norm2 (place km_s p m t) = (k + t * (radial m * km_s)) ^ 2 + (t * k) ^ 2 * (mas (mu_a m) ^ 2 + mas (mu_d m) ^ 2).
Proof.
  cbn zeta. unfold norm2, place, velocity. replace (mas (mu_a m) / mas (parallax m)) with (1 / mas (parallax m) * mas (mu_a m)) by (unfold Rdiv; ring).
  replace (mas (mu_d m) / mas (parallax m)) with (1 / mas (parallax m) * mas (mu_d m)) by (unfold Rdiv; ring).
  generalize (1 / mas (parallax m)) as k, (mas (mu_a m)) as u, (mas (mu_d m)) as v, (radial m * km_s) as w. intros.
  unfold add, scale, dot, outward, eastward, northward. pose proof (sq_sin (rad (p_ra p))) as A. pose proof (sq_sin (rad (p_dec p))) as D.
  ring [A D].
Qed.
Lemma norm2_nonneg v : 0 <= norm2 v.
Proof. destruct v as ((x, y), z). unfold norm2, dot. nra. Qed.
Lemma eps_pos : 0 < cos_dec_epsilon. Proof. unfold cos_dec_epsilon. lra. Qed.
(** the whole function, in terms of the straight line *)
Lemma propagate_line km_s p m jd epoch : cos_dec_epsilon < Rabs (cos (rad (p_dec p))) -> 0 < mas (parallax m) ->
  let '(x, y, z) := place km_s p m (years jd epoch) in
  propagate_space_motion km_s p m jd epoch =
  if Rle_dec (sqrt (x * x + y * y + z * z)) 0 then Err (PoleUndefined (p_dec p))
  else Ok (Pos (deg (rem_e (atan2 y x) (2 * PI))) (deg (asin (z / sqrt (x * x + y * y + z * z)))) (sqrt (x * x + y * y + z * z))).
Proof.
  intros C P. pose proof eps_pos as E0. assert (C0 : cos (rad (p_dec p)) <> 0) by (intros Z; rewrite Z, Rabs_R0 in C; lra).
  unfold place, velocity, add, scale, outward, eastward, northward. cbn beta iota.
  unfold propagate_space_motion. cbn zeta. destruct (Rle_dec (Rabs _) _) as [X|_]; [lra|]. destruct (Rle_dec (mas _) 0) as [X|_]; [lra|].
  fold (years jd epoch). set (t := years jd epoch). set (d := rad (p_dec p)) in *. set (a := rad (p_ra p)) in *.
  set (u := mas (mu_a m)). set (v := mas (mu_d m)). set (q := mas (parallax m)) in *. set (w := radial m * km_s).
  assert (Ex : 1 / q * cos d * cos a + t * (- sin a * (u / cos d * (1 / q) * cos d) + - sin d * cos a * (v * (1 / q)) + cos d * cos a * w) =
    1 / q * (cos d * cos a) + t * (u / q * - sin a + v / q * (- sin d * cos a) + w * (cos d * cos a))) by (field; split; [lra|exact C0]).
  assert (Ey : 1 / q * cos d * sin a + t * (cos a * (u / cos d * (1 / q) * cos d) + - sin d * sin a * (v * (1 / q)) + cos d * sin a * w) =
    1 / q * (cos d * sin a) + t * (u / q * cos a + v / q * (- sin d * sin a) + w * (cos d * sin a))) by (field; split; [lra|exact C0]).
  assert (Ez : 1 / q * sin d + t * (0 * (u / cos d * (1 / q) * cos d) + cos d * (v * (1 / q)) + sin d * w) =
    1 / q * sin d + t * (u / q * 0 + v / q * cos d + w * sin d)) by (field; split; [lra|exact C0]).
  rewrite Ex, Ey, Ez. reflexivity.
Qed.
