(** C105-C110: aberration, apparent directions, light deflection, centres, body-centred positions, the horizon. *)
From Coq Require Import Reals Bool Lra.
From Verif Require Import Mat3 Ang Geom_Model Geom_Proofs Force_Props Place_Model Place_Proofs.
Local Open Scope R_scope.

(** ** C105: aberration *)
(** The result is a direction. *)
Theorem C105_unit c u v : 0 < c -> norm v < c -> dot3 u u = 1 -> norm (apply_with_velocity c u v) = 1 /\ norm (remove_with_velocity c u v) = 1.
Proof.
  intros C N U. pose proof (velocity_beta c v C N) as B. unfold norm, apply_with_velocity, remove_with_velocity. rewrite !lorentz_unit; [split; apply sqrt_1|rewrite (proj1 (dot_neg _ u))|exact U|exact B|exact U]. exact B.
Qed.
(** Removing undoes applying, and applying undoes removing. *)
Theorem C105_round_trip c u v : 0 < c -> norm v < c -> dot3 u u = 1 ->
  remove_with_velocity c (apply_with_velocity c u v) v = u /\ apply_with_velocity c (remove_with_velocity c u v) v = u.
Proof.
  intros C N U. pose proof (velocity_beta c v C N) as B. unfold remove_with_velocity, apply_with_velocity. split; [now apply lorentz_back|].
  rewrite <- (neg_neg (scale (/ c) v)) at 2. apply lorentz_back; [rewrite (proj1 (dot_neg _ u)); exact B|exact U].
Qed.
(** The textbook law for the angle from the apex: cos th' = (cos th + b) / (1 + b cos th). *)
Theorem C105_apex c u v : 0 < c -> 0 < norm v < c -> dot3 u u = 1 ->
  let n := scale (/ norm v) v in let b := norm v / c in dot3 n (apply_with_velocity c u v) = (dot3 n u + b) / (1 + b * dot3 n u).
Proof.
  intros C (N0 & N) U n b. pose proof (velocity_beta c v C N) as B. set (be := scale (/ c) v) in *. pose proof (slow_sqrt be B) as S. pose proof (denom_pos be u B U) as D.
  assert (E : forall w, dot3 n w = / b * dot3 be w). { intros w. unfold n, b, be. rewrite !dot_scale. field. lra. }
  assert (B0 : 0 < b) by (unfold b; apply Rmult_lt_0_compat; [lra|now apply Rinv_0_lt_compat]).
  rewrite !E. unfold apply_with_velocity. fold be. rewrite (lorentz_lz u be _ S U), lz_along by assumption.
  assert (BB : dot3 be be = b * b). { unfold be, b. rewrite dot_scale, dot_comm, dot_scale, <- norm_sq. field. lra. } rewrite BB. field. repeat split; lra.
Qed.
(** The direction moves in the plane of the velocity, on its own side of it, towards the apex. *)
Theorem C105_towards c u v : 0 < c -> norm v < c -> dot3 u u = 1 ->
  (exists k, 0 < k /\ cross (apply_with_velocity c u v) v = scale k (cross u v)) /\ dot3 u v <= dot3 (apply_with_velocity c u v) v.
Proof.
  intros C N U. pose proof (velocity_beta c v C N) as B. set (be := scale (/ c) v) in *. pose proof (slow_sqrt be B) as S. pose proof (denom_pos be u B U) as D.
  assert (V : v = scale c be) by (unfold be; rewrite scale_scale, Rinv_r, scale_1 by lra; reflexivity).
  unfold apply_with_velocity. fold be. rewrite (lorentz_lz u be _ S U). set (s := sqrt (1 - dot3 be be)) in *. split.
  - exists (s / (1 + dot3 be u)). split; [apply Rmult_lt_0_compat; [apply S|now apply Rinv_0_lt_compat]|].
    assert (CR : forall w, cross w v = scale c (cross w be)). { intros w. rewrite V. generalize be. intros ((b1, b2), b3). destruct w as ((w1, w2), w3). cbn. apply vec_eq; ring. }
    rewrite !CR, lz_cross, !scale_scale by exact D. f_equal. ring.
  - assert (DV : forall w, dot3 w v = c * dot3 be w). { intros w. rewrite V, dot_comm, dot_scale. reflexivity. } rewrite !DV, lz_along by assumption.
    apply Rmult_le_compat_l; [lra|]. apply Rmult_le_reg_r with (1 + dot3 be u); [exact D|]. unfold Rdiv. rewrite Rmult_assoc, Rinv_l by lra.
    pose proof (cauchy be u) as Q. assert (N1 : norm u = 1) by (unfold norm; rewrite U; apply sqrt_1). rewrite N1, Rmult_1_r in Q. pose proof (norm_sq be) as NS.
    assert (dot3 be u * dot3 be u <= norm be * norm be). { apply Rsqr_le_abs_1. rewrite (Rabs_right (norm be)) by (apply Rle_ge, norm_nonneg). exact Q. } lra.
Qed.
(** The largest shift for a given speed, and the directions where it is reached. *)
Theorem C105_largest c u v : 0 < c -> norm v < c -> dot3 u u = 1 ->
  let s := sqrt (1 - (norm v / c) ^ 2) in
  (3 * s - 1) / (1 + s) <= dot3 u (apply_with_velocity c u v) /\ (dot3 u (apply_with_velocity c u v) = (3 * s - 1) / (1 + s) <-> dot3 u v = c * (s - 1)).
Proof.
  intros C N U s. pose proof (velocity_beta c v C N) as B. set (be := scale (/ c) v) in *. pose proof (slow_sqrt be B) as S. pose proof (denom_pos be u B U) as D.
  assert (BB : dot3 be be = (norm v / c) ^ 2). { unfold be. rewrite dot_scale, dot_comm, dot_scale, <- norm_sq. field. lra. }
  assert (ES : sqrt (1 - dot3 be be) = s) by (unfold s; now rewrite BB). rewrite ES in S.
  unfold apply_with_velocity. fold be. rewrite (lorentz_lz u be s S U). destruct S as ((S0 & S1) & S2). set (x := dot3 be u) in *.
  assert (E : dot3 u (lz s u be) = (s + x + x * x / (1 + s)) / (1 + x)).
  { assert (X : x = dot3 be u) by reflexivity. unfold lz. rewrite <- X. rewrite dot_comm, dot_scale, dot_plus, !dot_scale, U, <- X. field. split; lra. }
  assert (F : dot3 u (lz s u be) - (3 * s - 1) / (1 + s) = (x + 1 - s) * (x + 1 - s) / ((1 + s) * (1 + x))) by (rewrite E; field; split; lra).
  assert (P : 0 < / ((1 + s) * (1 + x))) by (apply Rinv_0_lt_compat; nra).
  assert (XV : dot3 u v = c * x). { unfold x, be. rewrite dot_scale, dot_comm. field. lra. }
  unfold Rdiv in F at 2. split.
  - assert (0 <= (x + 1 - s) * (x + 1 - s) * / ((1 + s) * (1 + x))) by (apply Rmult_le_pos; [apply Rle_0_sqr|lra]). lra.
  - rewrite XV. split; intros H.
    + assert (Z : (x + 1 - s) * (x + 1 - s) * / ((1 + s) * (1 + x)) = 0) by lra. apply Rmult_integral in Z. destruct Z as [Z|Z]; [|lra]. assert (x + 1 - s = 0) by now apply Rsqr_0_uniq. replace x with (s - 1) by lra. reflexivity.
    + apply Rmult_eq_reg_l in H; [|lra]. rewrite H in F. replace (s - 1 + 1 - s) with 0 in F by ring. lra.
Qed.
(** At rest nothing moves; the observer's axes do not matter. *)
Theorem C105_rest c u : apply_with_velocity c u (0, 0, 0) = u /\ remove_with_velocity c u (0, 0, 0) = u.
Proof. unfold apply_with_velocity, remove_with_velocity, lorentz. cbn. rewrite !Rmult_0_r, !Rplus_0_r. destruct (reqb_r 0 0) as [_|H]; [auto|now contradiction H]. Qed.
Theorem C105_axes c m u v : 0 < c -> norm v < c -> dot3 u u = 1 -> orthonormal m ->
  apply_with_velocity c (apply m u) (apply m v) = apply m (apply_with_velocity c u v).
Proof. intros C N U O. unfold apply_with_velocity. rewrite <- apply_scale. apply lorentz_rotated; [exact O|exact U|now apply velocity_beta]. Qed.
(** Positions keep their distance and come back. *)
Theorem C105_position c v p : 0 < c -> norm v < c ->
  norm (apply_aberration c v p) = norm p /\ remove_aberration c v (apply_aberration c v p) = p /\ apply_aberration c v (remove_aberration c v p) = p.
Proof.
  intros C N. pose proof (velocity_beta c v C N) as B.
  assert (F1 : forall u, dot3 u u = 1 -> dot3 (apply_with_velocity c u v) (apply_with_velocity c u v) = 1) by (intros u U; now apply lorentz_unit).
  assert (F2 : forall u, dot3 u u = 1 -> dot3 (remove_with_velocity c u v) (remove_with_velocity c u v) = 1) by (intros u U; apply lorentz_unit; [rewrite (proj1 (dot_neg _ u))|]; assumption).
  split; [apply (at_distance_norm _ p F1)|]. split; apply at_distance_back; auto; intros u U; now apply C105_round_trip.
Qed.
Example C105_case : let c := 173 in let v := (0, 1 / 50, 0) in 0 < c /\ 0 < norm v < c /\ dot3 (1, 0, 0) (1, 0, 0) = 1.
Proof.
  cbn. assert (E : norm (0, 1 / 50, 0) = 1 / 50). { unfold norm. cbn. replace (0 * 0 + 1 / 50 * (1 / 50) + 0 * 0) with (1 / 50 * (1 / 50)) by ring. apply sqrt_square. lra. }
  rewrite E. lra.
Qed.

(** ** C106: astrometric and apparent directions *)
(** In every frame the two conversions undo each other. *)
Theorem C106_round_trip c m v u : 0 < c -> norm v < c -> orthonormal m -> dot3 u u = 1 ->
  to_astrometric c m v (to_apparent c m v u) = u /\ to_apparent c m v (to_astrometric c m v u) = u.
Proof.
  intros C N O U. unfold to_astrometric, to_apparent. rewrite <- !(apply_mul m), !orthonormal_r by exact O.
  assert (I : forall w, apply identity w = w). { intros ((x, y), z). cbn. apply vec_eq; ring. } rewrite !I.
  assert (UM : dot3 (apply m u) (apply m u) = 1) by now rewrite orthonormal_dot. destruct (C105_round_trip c (apply m u) v C N UM) as (A & B). rewrite A, B.
  rewrite <- apply_mul. unfold orthonormal in O. rewrite O, I. auto.
Qed.
(** The same for angles, whatever conversion between angles and unit vectors is used. *)
Theorem C106_spherical {S} (cart : S -> vec) (sph : vec -> S) c m v d : (forall e, dot3 (cart e) (cart e) = 1) -> (forall e, sph (cart e) = e) -> (forall w, dot3 w w = 1 -> cart (sph w) = w) ->
  0 < c -> norm v < c -> orthonormal m -> sph_astrometric cart sph c m v (sph_apparent cart sph c m v d) = d.
Proof.
  intros CU SC CS C N O. unfold sph_astrometric, sph_apparent.
  assert (UA : dot3 (to_apparent c m v (cart d)) (to_apparent c m v (cart d)) = 1).
  { unfold to_apparent. rewrite orthonormal_dot by now apply orthonormal_transpose. apply lorentz_unit; [now apply velocity_beta|now rewrite orthonormal_dot]. }
  rewrite (CS _ UA). rewrite (proj1 (C106_round_trip c m v (cart d) C N O (CU d))). apply SC.
Qed.
(** Which frame the direction is written in makes no difference: turning first or afterwards agrees. *)
Theorem C106_frames c m w v u : orthonormal w ->
  to_apparent c m v (apply w u) = apply w (to_apparent c (mul m w) v u).
Proof.
  intros Ow. unfold to_apparent. rewrite transpose_mul, !apply_mul. rewrite <- (apply_mul w (transpose w)), orthonormal_r by exact Ow.
  assert (I : forall q, apply identity q = q). { intros ((x, y), z). cbn. apply vec_eq; ring. } now rewrite I.
Qed.
Example C106_case : orthonormal (r1 1) /\ det (r1 1) = 1. Proof. apply r1_orthonormal. Qed.

(** ** C107: light deflection *)
(** The source moves away from the body, in their plane, by atan (k cot (th/2)), where th is its elongation. *)
Theorem C107_shift s q rs : dot3 s s = 1 -> 1 / 10 ^ 10 <= norm q -> 0 < rs -> let qh := scale (/ norm q) q in
  1 / 10 ^ 15 <= 1 + dot3 s qh -> dot3 s qh < 1 ->
  let th := acos (- dot3 s qh) in let d := atan (rs / norm q * (cos (th / 2) / sin (th / 2))) in let s' := body_deflection s q rs in
  dot3 s' s' = 1 /\ dot3 s s' = cos d /\ - dot3 s' qh = cos (th + d) /\ exists a b, s' = vplus (scale a s) (scale b qh).
Proof.
  intros S Q R qh G L th d s'. assert (QU : dot3 qh qh = 1) by now apply qh_unit. assert (BD : -1 < dot3 s qh < 1) by lra.
  destruct (in_plane s qh S QU BD) as (t & P & E & H). fold th in E, H. assert (CT : cos th = - dot3 s qh) by (apply cos_acos; lra).
  assert (S' : s' = pl qh t (th + d)). { unfold s'. rewrite E. unfold qh, d in *. apply body_pl; try assumption; lra. }
  rewrite S'. split; [now apply pl_unit|]. split; [rewrite E, pl_dot by exact P; rewrite <- cos_neg; f_equal; ring|]. split; [rewrite pl_q by exact P; ring|].
  assert (SP : 0 < sin th) by (apply sin_gt_0; lra).
  exists (sin (th + d) / sin th), (cos th * (sin (th + d) / sin th) - cos (th + d)). rewrite E at 1. unfold pl. clearbody qh th d. destruct qh as ((q1, q2), q3), t as ((t1, t2), t3). cbn. apply vec_eq; field; lra.
Qed.
(** Never past the point opposite to the body. *)
Theorem C107_away s q rs : dot3 s s = 1 -> 1 / 10 ^ 10 <= norm q -> 0 < rs <= norm q -> let qh := scale (/ norm q) q in
  1 / 10 ^ 15 <= 1 + dot3 s qh -> dot3 s qh < 1 -> let th := acos (- dot3 s qh) in let s' := body_deflection s q rs in
  acos (- dot3 s' qh) = th + atan (rs / norm q * (cos (th / 2) / sin (th / 2))) /\ th < acos (- dot3 s' qh) <= PI.
Proof.
  intros S Q R qh G L th s'. destruct (C107_shift s q rs S Q (proj1 R) G L) as (_ & _ & A & _). fold qh th s' in A.
  assert (H : 0 < th < PI). { assert (QU : dot3 qh qh = 1) by now apply qh_unit. destruct (in_plane s qh S QU) as (t & _ & _ & H); [lra|exact H]. }
  set (k := rs / norm q) in *. assert (N0 : 0 < norm q) by lra. assert (K : 0 < k <= 1).
  { unfold k. split; [apply Rmult_lt_0_compat; [lra|now apply Rinv_0_lt_compat]|]. apply Rmult_le_reg_r with (norm q); [exact N0|]. unfold Rdiv. rewrite Rmult_assoc, Rinv_l by lra. lra. }
  pose proof (shift_upto k th) as U. unfold shift_of in U. set (d := atan (k * (cos (th / 2) / sin (th / 2)))) in *.
  assert (D0 : 0 < d). { unfold d. rewrite <- atan_0. apply atan_increasing. apply Rmult_lt_0_compat; [lra|]. pose proof PI_RGT_0. apply Rmult_lt_0_compat; [apply cos_gt_0; lra|apply Rinv_0_lt_compat, sin_gt_0; lra]. }
  assert (T : th + d <= PI) by (apply U; lra). rewrite A, acos_cos by lra. lra.
Qed.
(** The published magnitude is the tangent of the shift that is applied. *)
Theorem C107_magnitude s q : dot3 s s = 1 -> 1 / 10 ^ 10 <= norm q -> let qh := scale (/ norm q) q in
  1 / 10 ^ 15 <= 1 + dot3 s qh -> dot3 s qh < 1 -> let th := acos (- dot3 s qh) in
  dot3 s (solar_deflection s q) = cos (atan (deflection_magnitude th (norm q))).
Proof.
  intros S Q qh G L th. assert (R0 : 0 < solar_schwarzschild) by (unfold solar_schwarzschild; lra). destruct (C107_shift s q _ S Q R0 G L) as (_ & A & _). fold qh th in A. unfold solar_deflection. rewrite A.
  assert (QU : dot3 qh qh = 1) by now apply qh_unit. destruct (in_plane s qh S QU) as (t & _ & _ & H); [lra|]. fold th in H.
  f_equal. f_equal. unfold deflection_magnitude. destruct (rleb_r th 0) as [X|_]; [lra|]. destruct (rleb_r (norm q) 0) as [X|_]; [lra|]. cbn [orb].
  replace (th * (1 / 2)) with (th / 2) by field. assert (CT : cos th = - dot3 s qh) by (apply cos_acos; lra). destruct (half_angle th) as (_ & HB). destruct (half_pos th) as (SP & _); [lra|].
  rewrite Rabs_right by lra. rewrite Rmax_left; [reflexivity|]. apply Rnot_lt_le. intros X. assert (sin (th / 2) * sin (th / 2) < 1 / 10 ^ 10 * (1 / 10 ^ 10)) by nra. rewrite CT in HB. lra.
Qed.
(** Nothing moves for a massless body, an observer at the body, or a source exactly behind it. *)
Theorem C107_unmoved s q rs : rs <= 0 \/ norm q < 1 / 10 ^ 10 \/ dot3 s (scale (/ norm q) q) = -1 \/ dot3 s s = 1 /\ s = scale (/ norm q) q -> body_deflection s q rs = s.
Proof.
  intros H. unfold body_deflection. destruct (rltb_r (norm q) (1 / 10 ^ 10)) as [_|A]; [reflexivity|]. destruct (rleb_r rs 0) as [_|B]; [reflexivity|]. cbn [orb].
  destruct (rltb_r (Rabs (1 + dot3 s (scale (/ norm q) q))) (1 / 10 ^ 15)) as [_|D]; [reflexivity|].
  destruct H as [H|[H|[H|(U & H)]]]; [lra|lra| |].
  - exfalso. apply D. rewrite H. replace (1 + -1) with 0 by ring. rewrite Rabs_R0. lra.
  - rewrite <- H, U. assert (E : vplus s (scale (rs / norm q / (1 + 1)) (vminus s (scale 1 s))) = s). { rewrite scale_1. destruct s as ((x, y), z). cbn. apply vec_eq; ring. }
    rewrite E. unfold normalize, norm. rewrite U, sqrt_1, Rinv_1. apply scale_1.
Qed.
(** The inverse misses by at most k^2 cot(th/2) / (2 sin^2(th/2)) + (k cot(th/2))^3, always on the far side. *)
Theorem C107_inverse s q : dot3 s s = 1 -> 1 / 10 ^ 7 <= norm q -> let qh := scale (/ norm q) q in
  1 / 10 ^ 15 <= 1 + dot3 s qh -> dot3 s qh < 1 -> let th := acos (- dot3 s qh) in let k := solar_schwarzschild / norm q in let cot := cos (th / 2) / sin (th / 2) in
  exists e, 0 <= e <= k * k * cot / (2 * sin (th / 2) * sin (th / 2)) + (k * cot) ^ 3 /\
    dot3 s (deflection_inverse (solar_deflection s q) q) = cos e /\ - dot3 (deflection_inverse (solar_deflection s q) q) qh = cos (th + e).
Proof.
  intros S Q qh G L th k cot. assert (Q' : 1 / 10 ^ 10 <= norm q) by lra. assert (QU : dot3 qh qh = 1) by now apply qh_unit. destruct (in_plane s qh S QU) as (t & P & E & H); [lra|]. fold th in E, H.
  assert (R0 : 0 < solar_schwarzschild) by (unfold solar_schwarzschild; lra). assert (CT : cos th = - dot3 s qh) by (apply cos_acos; lra).
  assert (N0 : 0 < norm q) by lra. assert (K : 0 < k <= 1).
  { unfold k. split; [apply Rmult_lt_0_compat; [lra|now apply Rinv_0_lt_compat]|]. apply Rmult_le_reg_r with (norm q); [exact N0|]. unfold Rdiv. rewrite Rmult_assoc, Rinv_l by lra. unfold solar_schwarzschild. lra. }
  set (d := shift_of k th). assert (T1 : th + d <= PI) by (apply shift_upto; lra). assert (D0 : 0 <= d) by (apply shift_nonneg; lra).
  assert (A1 : solar_deflection s q = pl qh t (th + d)). { rewrite E. unfold solar_deflection, d, k. apply body_pl; try assumption; lra. }
  set (d1 := shift_of k (th + d)). assert (G1 : 1 / 10 ^ 15 <= 1 - cos (th + d)). { assert (cos (th + d) <= cos th) by (apply cos_decr_1; lra). lra. }
  assert (A2 : solar_deflection (pl qh t (th + d)) q = pl qh t (th + d + d1)). { unfold solar_deflection, d1, k. apply body_pl; try assumption; lra. }
  assert (A3 : deflection_inverse (solar_deflection s q) q = pl qh t (th + d - undo d1)). { unfold deflection_inverse. rewrite A1, A2. now apply inverse_pl. }
  pose proof (shift_change k th (th + d)) as SC. destruct SC as (C1 & C2); try lra. fold d d1 in C1, C2.
  assert (D1 : 0 <= d1) by (apply shift_nonneg; lra). assert (DH : d1 <= PI / 2) by (unfold d1, shift_of; match goal with |- atan ?x <= _ => pose proof (atan_bound x) end; lra).
  destruct (undo_error d1) as (U1 & U2); [lra|]. destruct (half_pos th) as (SP & CP); [lra|].
  assert (CN : 0 <= cot) by (unfold cot; apply Rmult_le_pos; [exact CP|left; now apply Rinv_0_lt_compat]).
  assert (DX : d <= k * cot) by (apply atan_le; nra).
  exists (d - undo d1). rewrite A3. split; [|split].
  - split; [lra|]. apply Rle_trans with ((d - d1) + d1 * d1 * d1); [lra|]. apply Rplus_le_compat.
    + apply Rle_trans with (1 := C2). replace (th + d - th) with d by ring. apply Rle_trans with (k * (k * cot) / (2 * sin (th / 2) * sin (th / 2))); [|right; field; lra].
      unfold Rdiv. apply Rmult_le_compat_r; [left; apply Rinv_0_lt_compat; nra|]. nra.
    + replace (d1 * d1 * d1) with (d1 ^ 3) by ring. apply pow_incr. lra.
  - rewrite E, pl_dot by exact P. rewrite <- cos_neg. f_equal. ring.
  - rewrite pl_q by exact P. rewrite Ropp_involutive. f_equal. ring.
Qed.
(** There is no cut-off at the limb: a source almost exactly behind the Sun is thrown by atan (1/2), 26 degrees. *)
Theorem C107_limb_refuted : exists s q, dot3 s s = 1 /\ norm q = 1 /\ - dot3 s q > cos (1 / 10 ^ 6) /\ dot3 s (solar_deflection s q) = cos (atan (1 / 2)) /\ 4 / 10 < atan (1 / 2).
Proof.
  set (k := solar_schwarzschild). assert (KV : 19 / 10 ^ 9 < k < 2 / 10 ^ 8) by (unfold k, solar_schwarzschild; lra).
  set (th := 2 * atan (2 * k)). set (q := (1, 0, 0)). set (t := (0, 1, 0)). assert (P : plane q t) by (unfold plane, q, t; cbn; repeat split; ring).
  assert (NQ : norm q = 1). { unfold norm, q. cbn. replace (1 * 1 + 0 * 0 + 0 * 0) with 1 by ring. apply sqrt_1. }
  assert (QH : scale (/ norm q) q = q) by (rewrite NQ, Rinv_1; apply scale_1).
  assert (TH : 0 < th <= 8 / 10 ^ 8). { unfold th. pose proof (atan_le (2 * k)). assert (0 < atan (2 * k)) by (rewrite <- atan_0; apply atan_increasing; lra). lra. }
  assert (PG : 3 < PI) by (pose proof PI2_3_2; unfold PI2 in *; lra).
  assert (TT : th / 2 = atan (2 * k)) by (unfold th; field). pose proof (cos_atan_pos (2 * k)) as CP. pose proof (sin_atan_eq (2 * k)) as SE.
  assert (C2 : cos (atan (2 * k)) * cos (atan (2 * k)) * (1 + 2 * k * (2 * k)) = 1). { pose proof (sc (atan (2 * k))) as X. rewrite SE in X. lra. }
  assert (G : 1 / 10 ^ 15 <= 1 - cos th).
  { destruct (half_angle th) as (_ & B). rewrite B, TT, SE. set (c := cos (atan (2 * k))) in *. assert (H : 1 / 2 <= c * c) by nra. replace (2 * (2 * k * c) * (2 * k * c)) with (8 * (k * k) * (c * c)) by ring.
    assert (H2 : 19 / 10 ^ 9 * (19 / 10 ^ 9) <= k * k) by (apply Rmult_le_compat; lra). assert (8 * (19 / 10 ^ 9 * (19 / 10 ^ 9)) * (1 / 2) <= 8 * (k * k) * (c * c)) by (apply Rmult_le_compat; lra). lra. }
  exists (pl q t th), q. split; [now apply pl_unit|]. split; [exact NQ|]. split; [|split].
  - rewrite pl_q, Ropp_involutive by exact P. apply Rlt_gt, cos_decreasing_1; lra.
  - unfold solar_deflection. fold k. pose proof (body_pl q t k th) as D. rewrite QH in D. rewrite D; [|exact P|rewrite NQ; lra|lra|lra|exact G]. rewrite pl_dot by exact P. replace (th - (th + shift_of (k / norm q) th)) with (- shift_of (k / norm q) th) by ring.
    rewrite cos_neg. unfold shift_of. rewrite NQ, TT, SE. f_equal. f_equal. field. split; lra.
  - destruct (MVT_cor2 atan (fun c => / (1 + c ^ 2)) 0 (1 / 2)) as (c & E & I); [lra|intros c _; apply derivable_pt_lim_atan|]. rewrite atan_0 in E. assert (B : c ^ 2 < 1 / 4) by nra.
    assert (V : / (1 + 1 / 4) < / (1 + c ^ 2)) by (apply Rinv_lt_contravar; nra). lra.
Qed.
Example C107_case : let s := (0, 1, 0) in let q := (1, 0, 0) in dot3 s s = 1 /\ 1 / 10 ^ 7 <= norm q /\ 1 / 10 ^ 15 <= 1 + dot3 s (scale (/ norm q) q) /\ dot3 s (scale (/ norm q) q) < 1.
Proof.
  cbv zeta. assert (NQ : norm (1, 0, 0) = 1). { unfold norm. cbn. replace (1 * 1 + 0 * 0 + 0 * 0) with 1 by ring. apply sqrt_1. } rewrite NQ. cbn. lra.
Qed.

(** ** C108: centres *)
(** Where a centre is, from the barycentre, in ecliptic axes and AU. *)
Definition place (e : eph) (c : center) : vec :=
  match c with
  | Bary => (0, 0, 0) | Helio => e_sun e | Geo => e_earth e | Planet p => e_vsop e p | Lagrange l => e_lagrange e l
  | Pluto => vplus (e_sun e) (e_pluto e) | Moon => vplus (e_earth e) (scale (e_km e) (e_moon_km e))
  end.
(** A point of space as written from a centre, in given axes and units. *)
Definition view (e : eph) (rot : mat) (k : R) (c : center) (x : vec) : vec := scale k (apply rot (vminus x (place e c))).
Lemma to_bary_place e rot c : to_bary e rot c = apply rot (place e c).
Proof. destruct c; cbn [to_bary place]; unfold turned; rewrite ?apply_plus; try reflexivity; [cbn; apply vec_eq; ring| |]; repeat match goal with |- context [apply ?r ?v] => destruct (apply r v) as ((?, ?), ?) end; cbn; apply vec_eq; ring. Qed.
Lemma shift_place e rot a b v : shift e rot a b = Some v -> v = apply rot (vminus (place e a) (place e b)).
Proof. intros H. rewrite (shift_sum _ _ _ _ _ H), !to_bary_place, apply_minus. reflexivity. Qed.
(** Every change of centre rewrites the same point of space. *)
Theorem C108_same_point e rot k a b x p : to_center e rot k a b (view e rot k a x) = Some p -> p = view e rot k b x.
Proof.
  unfold to_center. destruct (shift e rot a b) as [v|] eqn:E; [|discriminate]. intros H. apply some_inj in H. subst p. rewrite (shift_place _ _ _ _ _ E). unfold view. rewrite !apply_minus.
  destruct (apply rot x) as ((x1, x2), x3), (apply rot (place e a)) as ((a1, a2), a3), (apply rot (place e b)) as ((b1, b2), b3). cbn. apply vec_eq; ring.
Qed.
(** Which pairs can be converted. *)
Definition hub (c : center) : Prop := c = Bary \/ c = Helio \/ c = Geo.
Theorem C108_pairs e rot k a b p : (exists q, to_center e rot k a b p = Some q) <-> hub a \/ hub b \/ a = b.
Proof.
  unfold to_center, hub. destruct (shift e rot a b) as [v|] eqn:E.
  - split; [|eauto]. intros _. destruct a as [| | |pa| | |pa], b as [| | |pb| | |pb]; auto; right; right; cbn in E; try discriminate; try reflexivity; destruct pa, pb; cbn in E; try discriminate; reflexivity.
  - split; [intros (q & H); discriminate|]. intros [[->|[->| ->]]|[[->|[->| ->]]| ->]].
    1-3: cbn in E; discriminate. 1-3: destruct a; cbn in E; discriminate. destruct b as [| | |pb| | |pb]; cbn in E; try discriminate; destruct pb; cbn in E; discriminate.
Qed.
Theorem C108_identity e rot k a p : to_center e rot k a a p = Some p.
Proof.
  destruct (proj2 (C108_pairs e rot k a a p)) as (q & H); [auto|]. rewrite H. unfold to_center in H. destruct (shift e rot a a) as [v|] eqn:E; [|discriminate]. apply some_inj in H. rewrite (shift_place _ _ _ _ _ E), apply_minus in H. subst q. f_equal.
  destruct p as ((p1, p2), p3), (apply rot (place e a)) as ((x, y), z). cbn. apply vec_eq; ring.
Qed.
Theorem C108_back e rot k a b p q : to_center e rot k a b p = Some q -> to_center e rot k b a q = Some p.
Proof.
  intros H. destruct (proj2 (C108_pairs e rot k b a q)) as (r & G). { destruct (proj1 (C108_pairs e rot k a b p)) as [X|[X|X]]; eauto. }
  rewrite G. f_equal. unfold to_center in *. destruct (shift e rot a b) as [v|] eqn:E; [|discriminate]. destruct (shift e rot b a) as [w|] eqn:F; [|discriminate]. apply some_inj in H, G. rewrite (shift_place _ _ _ _ _ E), apply_minus in H. rewrite (shift_place _ _ _ _ _ F), apply_minus in G. subst q r.
  destruct p as ((p1, p2), p3), (apply rot (place e a)) as ((x, y), z), (apply rot (place e b)) as ((x', y'), z'). cbn. apply vec_eq; ring.
Qed.
(** Detours make no difference. *)
Theorem C108_detour e rot k a b c p q r : to_center e rot k a b p = Some q -> to_center e rot k b c q = Some r -> forall r', to_center e rot k a c p = Some r' -> r' = r.
Proof.
  unfold to_center. destruct (shift e rot a b) as [v|] eqn:E; [|discriminate]. destruct (shift e rot b c) as [w|] eqn:F; [|discriminate]. destruct (shift e rot a c) as [t|] eqn:G; [|discriminate]. intros H H1 r' H2. apply some_inj in H, H1, H2.
  rewrite (shift_place _ _ _ _ _ E), apply_minus in H. rewrite (shift_place _ _ _ _ _ F), apply_minus in H1. rewrite (shift_place _ _ _ _ _ G), apply_minus in H2. subst.
  destruct p as ((p1, p2), p3), (apply rot (place e a)) as ((x, y), z), (apply rot (place e b)) as ((x', y'), z'), (apply rot (place e c)) as ((x2, y2), z2). cbn. apply vec_eq; ring.
Qed.
(** Separations are kept; axes and units may be changed before or after. *)
Theorem C108_separation e rot k a b p p' q q' : to_center e rot k a b p = Some q -> to_center e rot k a b p' = Some q' -> vminus q q' = vminus p p'.
Proof.
  unfold to_center. destruct (shift e rot a b) as [v|]; [|discriminate]. intros H H'. apply some_inj in H, H'. subst. destruct p as ((x, y), z), p' as ((x', y'), z'), v as ((a1, a2), a3). cbn. apply vec_eq; ring.
Qed.
Theorem C108_axes e rot w k a b p q : to_center e rot k a b p = Some q -> to_center e (mul w rot) k a b (apply w p) = Some (apply w q).
Proof.
  intros H. destruct (proj2 (C108_pairs e (mul w rot) k a b (apply w p))) as (r & G). { apply (C108_pairs e rot k a b p). eauto. }
  rewrite G. f_equal. unfold to_center in *. destruct (shift e rot a b) as [v|] eqn:E; [|discriminate]. destruct (shift e (mul w rot) a b) as [v'|] eqn:F; [|discriminate]. apply some_inj in H, G. rewrite (shift_place _ _ _ _ _ E) in H. rewrite (shift_place _ _ _ _ _ F), apply_mul in G. subst. now rewrite apply_plus, apply_scale.
Qed.
Theorem C108_units e rot k j a b p q : to_center e rot k a b p = Some q -> to_center e rot (j * k) a b (scale j p) = Some (scale j q).
Proof.
  unfold to_center. destruct (shift e rot a b) as [v|]; [|discriminate]. intros H. apply some_inj in H. subst. f_equal. destruct p as ((x, y), z), v as ((a1, a2), a3). cbn. apply vec_eq; ring.
Qed.
Definition sky : eph := Eph (1 / 100, 0, 0) (0, 1, 0) (384400, 0, 0) (/ 149597870) (fun _ => (0, 0, 5)) (30, 1, 2) (fun _ => (0, 2, 0)).
Example C108_case : to_center sky identity 1 Helio Geo (1, 1, 1) <> None /\ to_center sky identity 1 Pluto Moon (1, 1, 1) = None.
Proof. split; [discriminate|reflexivity]. Qed.

(** ** C109: positions about an orbiting body *)
(** From every hub, whatever the orbit's own centre, the result is the vector from the body to the point. *)
Theorem C109_vector dflt fr k own oc body x : hub own -> hub oc ->
  to_bodycentric dflt fr k own oc body (view dflt fr k own x) = Some (scale k (apply fr (vminus x (vplus (place dflt oc) body)))).
Proof.
  intros Ho Hc. unfold to_bodycentric, body_about. assert (V : scale k body = view dflt identity k oc (vplus (place dflt oc) body)).
  { unfold view. destruct body as ((b1, b2), b3), (place dflt oc) as ((o1, o2), o3). cbn. apply vec_eq; ring. }
  rewrite V. destruct (proj2 (C108_pairs dflt identity k oc own (view dflt identity k oc (vplus (place dflt oc) body)))) as (q & Q); [auto|]. rewrite Q. apply C108_same_point in Q. subst q. f_equal.
  unfold view. assert (I : forall w, apply identity w = w). { intros ((x1, y1), z1). cbn. apply vec_eq; ring. } rewrite I, apply_scale, !apply_minus.
  destruct (apply fr x) as ((x1, x2), x3), (apply fr (place dflt own)) as ((o1, o2), o3), (apply fr (vplus (place dflt oc) body)) as ((b1, b2), b3). cbn. apply vec_eq; ring.
Qed.
(** The body itself is the origin. *)
Theorem C109_origin dflt fr k own oc body : hub own -> hub oc ->
  to_bodycentric dflt fr k own oc body (view dflt fr k own (vplus (place dflt oc) body)) = Some (0, 0, 0).
Proof. intros A B. rewrite C109_vector by assumption. f_equal. destruct (vplus (place dflt oc) body) as ((x, y), z). cbn. apply vec_eq; ring. Qed.
(** From geocentric and back. *)
Theorem C109_round_trip dflt fr k oc body p : hub oc ->
  (exists q, to_bodycentric dflt fr k Geo oc body p = Some q /\ from_bodycentric dflt fr k oc body q = Some p) /\
  (exists q, from_bodycentric dflt fr k oc body p = Some q /\ to_bodycentric dflt fr k Geo oc body q = Some p).
Proof.
  intros H. unfold to_bodycentric, from_bodycentric, body_about. destruct (proj2 (C108_pairs dflt identity k oc Geo (scale k body))) as (q & Q); [auto|]. rewrite Q. destruct (apply fr q) as ((b1, b2), b3), p as ((x, y), z). cbn.
  split; eexists; (split; [reflexivity|]); f_equal; apply vec_eq; ring.
Qed.
(** Going through the geocentre first gives the same, when the caller uses the default context. *)
Theorem C109_routes dflt fr k own oc body p q : hub own -> hub oc -> orthonormal fr -> k <> 0 -> to_center dflt fr k own Geo p = Some q ->
  to_bodycentric dflt fr k own oc body p = to_bodycentric dflt fr k Geo oc body q.
Proof.
  intros Ho Hc O K H. set (x := vplus (place dflt own) (apply (transpose fr) (scale (/ k) p))).
  assert (V : p = view dflt fr k own x).
  { unfold view, x. assert (E : vminus (vplus (place dflt own) (apply (transpose fr) (scale (/ k) p))) (place dflt own) = apply (transpose fr) (scale (/ k) p)). { destruct (place dflt own) as ((a, b), c), (apply (transpose fr) (scale (/ k) p)) as ((a', b'), c'). cbn. apply vec_eq; ring. }
    rewrite E, <- apply_mul, orthonormal_r by exact O. assert (I : forall w, apply identity w = w). { intros ((x1, y1), z1). cbn. apply vec_eq; ring. } now rewrite I, scale_scale, Rinv_r, scale_1. }
  rewrite V in *. apply C108_same_point in H. subst q. rewrite !C109_vector; auto. right; right; reflexivity.
Qed.
(** The context handed to the call is ignored: with another ephemeris the two routes differ. *)
Theorem C109_context_refuted : exists dflt ctx oc body p q, hub oc /\ to_center ctx identity 1 Helio Geo p = Some q /\
  to_bodycentric dflt identity 1 Helio oc body p <> to_bodycentric dflt identity 1 Geo oc body q.
Proof.
  exists sky, (Eph (0, 0, 0) (0, 1, 0) (384400, 0, 0) (/ 149597870) (fun _ => (0, 0, 5)) (30, 1, 2) (fun _ => (0, 2, 0))), Helio, (2, 0, 0), (0, 0, 0).
  eexists. split; [right; left; reflexivity|]. split; [reflexivity|]. cbn. intros H. apply (f_equal (fun o => match o with Some (x, _, _) => x | None => 0 end)) in H. lra.
Qed.
Example C109_case : hub Helio /\ to_bodycentric sky identity 1 Geo Helio (2, 0, 0) (1, 1, 1) <> None.
Proof. split; [right; left; reflexivity|discriminate]. Qed.

(** ** C110: mean equator of date to horizon *)
(** North, west and up at the place with local sidereal time [lst] and latitude [lat], in equatorial axes. *)
Theorem C110_axes lst lat p : p <> (0, 0, 0) -> to_horizontal lst lat p =
  Some (dot3 (- sin lat * cos lst, - sin lat * sin lst, cos lat) p, dot3 (sin lst, - cos lst, 0) p, dot3 (cos lat * cos lst, cos lat * sin lst, sin lat) p).
Proof. intros N. rewrite to_horizontal_ok; [destruct p as ((x, y), z); reflexivity|]. intros E. now apply N, norm_zero. Qed.
Theorem C110_rotation lst lat p q p' q' : to_horizontal lst lat p = Some q -> to_horizontal lst lat p' = Some q' -> dot3 q q' = dot3 p p' /\ norm q = norm p.
Proof.
  intros H H'. assert (N : forall w v, to_horizontal lst lat w = Some v -> v = apply (hmat lst lat) w).
  { intros w v E. destruct (Req_dec (norm w) 0) as [Z|Z]; [|rewrite to_horizontal_ok in E by exact Z; now apply some_inj in E]. destruct w as ((x, y), z). unfold to_horizontal in E. destruct (reqb_r (norm (x, y, z)) 0) as [_|X]; [discriminate|contradiction]. }
  apply N in H, H'. subst. destruct (hmat_proper lst lat) as (O & _). split; [now apply orthonormal_dot|now apply norm_apply].
Qed.
(** There and back, away from the poles of the Earth and of the sky. *)
Theorem C110_there_and_back lst lat x y z : cos lat <> 0 -> (x, y) <> (0, 0) ->
  exists q, to_horizontal lst lat (x, y, z) = Some q /\ from_horizontal lst lat q = Some (x, y, z).
Proof.
  intros L P. assert (XY : 0 < x * x + y * y). { destruct (Req_dec x 0) as [->|X]; [destruct (Req_dec y 0) as [->|Y]; [now contradiction P|nra]|nra]. }
  assert (N : norm (x, y, z) <> 0). { intros E. apply norm_zero in E. injection E as -> -> ->. lra. }
  destruct (hmat_proper lst lat) as (O & _). set (q := apply (hmat lst lat) (x, y, z)). exists q. split; [now apply to_horizontal_ok|].
  assert (NQ : norm q = norm (x, y, z)) by now apply norm_apply. assert (U : cos lat * fst (fst q) + sin lat * snd q = z).
  { unfold q, hmat. cbn. pose proof (sc lat) as S. replace z with ((sin lat * sin lat + cos lat * cos lat) * z) at 3 by (rewrite S; ring). ring. }
  assert (B : apply (transpose (hmat lst lat)) q = (x, y, z)). { unfold q. rewrite <- apply_mul. unfold orthonormal in O. rewrite O. cbn. apply vec_eq; ring. }
  clearbody q. destruct q as ((a, b), c). cbn [fst snd] in U. rewrite from_horizontal_ok; [now rewrite B|now rewrite NQ|exact L|]. rewrite U, NQ. intros E. pose proof (norm_sq (x, y, z)) as S. rewrite <- E in S. cbn in S.
  replace (Rabs z * Rabs z) with (z * z) in S; [lra|]. exact (Rsqr_abs z).
Qed.
Theorem C110_back_and_there lst lat x y z : cos lat <> 0 -> (x, y, z) <> (0, 0, 0) -> Rabs (cos lat * x + sin lat * z) <> norm (x, y, z) ->
  exists q, from_horizontal lst lat (x, y, z) = Some q /\ to_horizontal lst lat q = Some (x, y, z).
Proof.
  intros L P D. assert (N : norm (x, y, z) <> 0) by (intros E; now apply P, norm_zero). destruct (hmat_proper lst lat) as (O & _).
  eexists. split; [now apply from_horizontal_ok|]. rewrite to_horizontal_ok; [|rewrite norm_apply; [exact N|now apply orthonormal_transpose]].
  rewrite <- apply_mul, orthonormal_r by exact O. f_equal. cbn. apply vec_eq; ring.
Qed.
(** No answer: the observer's own position, and the way back at the poles or towards the celestial poles. *)
Theorem C110_undefined lst lat : to_horizontal lst lat (0, 0, 0) = None /\ (forall p, cos lat = 0 -> from_horizontal lst lat p = None) /\
  (forall r, 0 < r -> from_horizontal lst lat (scale r (cos lat, 0, sin lat)) = None).
Proof.
  assert (Z : norm (0, 0, 0) = 0). { unfold norm. cbn. replace (0 * 0 + 0 * 0 + 0 * 0) with 0 by ring. apply sqrt_0. } split; [|split].
  - unfold to_horizontal. rewrite Z. destruct (reqb_r 0 0) as [_|H]; [reflexivity|now contradiction H].
  - intros ((x, y), z) L. unfold from_horizontal. destruct (reqb_r (norm (x, y, z)) 0) as [_|N]; [reflexivity|]. unfold equatorial_angles. rewrite L, Rmult_0_l. destruct (reqb_r 0 0) as [_|H]; [reflexivity|now contradiction H].
  - intros r R. pose proof (sc lat) as S. assert (U : dot3 (cos lat, 0, sin lat) (cos lat, 0, sin lat) = 1) by (cbn; lra). assert (NR : norm (scale r (cos lat, 0, sin lat)) = r) by (apply unit_scaled; [lra|exact U]).
    cbn [scale] in NR |- *. unfold from_horizontal. rewrite NR. destruct (reqb_r r 0) as [E|_]; [lra|].
    replace (r * sin lat / r) with (sin lat) by (field; lra). replace (- (r * 0) / r) with 0 by (field; lra). replace (r * cos lat / r) with (cos lat) by (field; lra).
    destruct (sphere_back (cos lat) 0 (sin lat)) as (A & B & C); [lra|]. unfold equatorial_angles. rewrite C.
    replace (sin lat * sin lat + cos (asin (sin lat)) * cos lat * cos (atan2 0 (cos lat))) with 1 by (replace (cos (asin (sin lat)) * cos lat * cos (atan2 0 (cos lat))) with (cos lat * (cos (asin (sin lat)) * cos (atan2 0 (cos lat)))) by ring; rewrite A; lra).
    rewrite asin_1, cos_PI2, Rmult_0_r. destruct (reqb_r 0 0) as [_|H]; [reflexivity|now contradiction H].
Qed.
Example C110_case : cos (PI / 4) <> 0 /\ (1, 2) <> (0, 0).
Proof. split; [rewrite cos_PI4; apply Rgt_not_eq, Rmult_lt_0_compat; [lra|apply Rinv_0_lt_compat, sqrt_lt_R0; lra]|]. intros H. apply (f_equal fst) in H. cbn in H. lra. Qed.

Print Assumptions C105_unit. Print Assumptions C105_round_trip. Print Assumptions C105_apex. Print Assumptions C105_towards. Print Assumptions C105_largest. Print 
Assumptions C105_rest. Print Assumptions C105_axes. Print Assumptions C105_position. Print Assumptions C106_round_trip. Print Assumptions C106_spherical. Print 
Assumptions C106_frames. Print Assumptions C107_shift. Print Assumptions C107_away. Print Assumptions C107_magnitude. Print Assumptions C107_unmoved. Print Assumptions 
C107_inverse. Print Assumptions C107_limb_refuted. Print Assumptions C108_same_point. Print Assumptions C108_pairs. Print Assumptions C108_identity. Print Assumptions 
C108_back. Print Assumptions C108_detour. Print Assumptions C108_separation. Print Assumptions C108_axes. Print Assumptions C108_units. Print Assumptions C109_vector. 
Print Assumptions C109_origin. Print Assumptions C109_round_trip. Print Assumptions C109_routes. Print Assumptions C109_context_refuted. Print Assumptions C110_axes. 
Print Assumptions C110_rotation. Print Assumptions C110_there_and_back. Print Assumptions C110_back_and_there. Print Assumptions C110_undefined.
