(** Lemmas about aberration, deflection, centres and the horizon. *)
From Coq Require Import Reals Bool Lra.
From Verif Require Import Mat3 Ang Geom_Model Geom_Proofs Force_Props Place_Model.
Local Open Scope R_scope.

(** ** Aberration *)
Definition slow (s : R) (b : vec) : Prop := 0 < s <= 1 /\ s * s = 1 - dot3 b b.
Lemma slow_sqrt b : dot3 b b < 1 -> slow (sqrt (1 - dot3 b b)) b.
Proof.
  intros H. pose proof (dot_nonneg b). split; [split|].
  - apply sqrt_lt_R0. lra.
  - rewrite <- sqrt_1 at 2. apply sqrt_le_1_alt. lra.
  - apply sqrt_sqrt. lra.
Qed.
Lemma denom_pos b u : dot3 b b < 1 -> dot3 u u = 1 -> 0 < 1 + dot3 b u.
Proof.
  intros H U. pose proof (cauchy b u) as C. assert (N : norm b < 1). { unfold norm. rewrite <- sqrt_1. apply sqrt_lt_1_alt. split; [apply dot_nonneg|lra]. }
  assert (N1 : norm u = 1) by (unfold norm; rewrite U; apply sqrt_1). rewrite N1, Rmult_1_r in C.
  pose proof (Rle_abs (- dot3 b u)) as A. rewrite Rabs_Ropp in A. lra.
Qed.
(** The transform with [s] for the square root, also when the observer is at rest. *)
Definition lz (s : R) (u b : vec) : vec := scale (/ (1 + dot3 b u)) (vplus (scale s u) (scale (1 + dot3 b u / (1 + s)) b)).
Lemma lorentz_lz u b s : slow s b -> dot3 u u = 1 -> lorentz u b = lz s u b.
Proof.
  intros ((S0 & S1) & S2) U. unfold lorentz. destruct (reqb_r (dot3 b b) 0) as [Z|N].
  - apply dot_zero in Z. subst b. assert (s = 1) by (cbn in S2; nra). subst s. destruct u as ((x, y), z). unfold lz. cbn. apply vec_eq; field.
  - assert (E : sqrt (1 - dot3 b b) = s). { rewrite <- S2. apply sqrt_square. lra. } rewrite E. unfold lz.
    assert (G : 1 / (1 / s) = s) by (field; lra). rewrite G.
    assert (K : 1 / s / (1 / s + 1) * dot3 b u = dot3 b u / (1 + s)) by (field; lra). now rewrite K.
Qed.
Lemma lz_unit u b s : slow s b -> dot3 u u = 1 -> 0 < 1 + dot3 b u -> dot3 (lz s u b) (lz s u b) = 1.
Proof.
  intros ((S0 & S1) & S2) U D. set (x := dot3 b u) in *.
  assert (E : dot3 (lz s u b) (lz s u b) = (s * s * dot3 u u + 2 * s * (1 + x / (1 + s)) * x + (1 + x / (1 + s)) ^ 2 * dot3 b b) / (1 + x) ^ 2).
  { unfold lz. fold x. replace (dot3 b u) with x in * by reflexivity. assert (X : x = dot3 b u) by reflexivity. clearbody x. destruct u as ((u1, u2), u3), b as ((b1, b2), b3). cbn in X. subst x. cbn. field. cbn in D. split; lra. }
  rewrite E, U. replace (dot3 b b) with (1 - s * s) by lra. field. split; lra.
Qed.
Lemma lz_along u b s : slow s b -> dot3 u u = 1 -> 0 < 1 + dot3 b u -> dot3 b (lz s u b) = (dot3 b u + dot3 b b) / (1 + dot3 b u).
Proof.
  intros ((S0 & S1) & S2) U D. set (x := dot3 b u) in *.
  assert (E : dot3 b (lz s u b) = (s * x + (1 + x / (1 + s)) * dot3 b b) / (1 + x)).
  { assert (X : x = dot3 b u) by reflexivity. unfold lz. rewrite <- X. clearbody x. destruct u as ((u1, u2), u3), b as ((b1, b2), b3). cbn in X. cbn. rewrite X. cbn in *. field. rewrite <- X. split; lra. }
  rewrite E. replace (dot3 b b) with (1 - s * s) by lra. field. split; lra.
Qed.
Lemma lz_cross u b s : 0 < 1 + dot3 b u -> cross (lz s u b) b = scale (s / (1 + dot3 b u)) (cross u b).
Proof. intros D. unfold lz. generalize dependent (dot3 b u). intros x D. destruct u as ((u1, u2), u3), b as ((b1, b2), b3). cbn. unfold Rdiv. apply vec_eq; ring. Qed.
Lemma lz_back u b s : slow s b -> dot3 u u = 1 -> 0 < 1 + dot3 b u -> lz s (lz s u b) (scale (-1) b) = u.
Proof.
  intros S U D. pose proof (lz_along u b s S U D) as A. destruct S as ((S0 & S1) & S2).
  assert (DN : dot3 (scale (-1) b) (lz s u b) = - ((dot3 b u + dot3 b b) / (1 + dot3 b u))) by (rewrite dot_scale, A; ring).
  unfold lz at 1. rewrite DN. clear DN A. unfold lz. set (x := dot3 b u) in *. replace (dot3 b b) with (1 - s * s) by lra.
  assert (P : 1 + - ((x + (1 - s * s)) / (1 + x)) = s * s / (1 + x)) by (field; lra). rewrite P.
  clearbody x. destruct u as ((u1, u2), u3), b as ((b1, b2), b3). cbn. apply vec_eq; field; repeat split; lra.
Qed.
Lemma dot_neg b u : dot3 (scale (-1) b) (scale (-1) b) = dot3 b b /\ dot3 (scale (-1) b) u = - dot3 b u.
Proof. destruct u as ((u1, u2), u3), b as ((b1, b2), b3). cbn. split; ring. Qed.
Lemma neg_neg b : scale (-1) (scale (-1) b) = b. Proof. destruct b as ((x, y), z). cbn. apply vec_eq; ring. Qed.
Lemma slow_neg s b : slow s b -> slow s (scale (-1) b).
Proof. intros (A & B). split; [exact A|]. rewrite (proj1 (dot_neg b b)). exact B. Qed.
Lemma lorentz_unit u b : dot3 b b < 1 -> dot3 u u = 1 -> dot3 (lorentz u b) (lorentz u b) = 1.
Proof. intros B U. rewrite (lorentz_lz u b _ (slow_sqrt b B) U). apply lz_unit; [now apply slow_sqrt|exact U|now apply denom_pos]. Qed.
Lemma lorentz_back u b : dot3 b b < 1 -> dot3 u u = 1 -> lorentz (lorentz u b) (scale (-1) b) = u.
Proof.
  intros B U. set (s := sqrt (1 - dot3 b b)). assert (S : slow s b) by now apply slow_sqrt.
  rewrite (lorentz_lz _ _ s (slow_neg s b S)) by now apply lorentz_unit. rewrite (lorentz_lz u b s S U). apply lz_back; [exact S|exact U|now apply denom_pos].
Qed.
Lemma lorentz_rotated m u b : orthonormal m -> dot3 u u = 1 -> dot3 b b < 1 -> lorentz (apply m u) (apply m b) = apply m (lorentz u b).
Proof.
  intros O U B. set (s := sqrt (1 - dot3 b b)). assert (S : slow s b) by now apply slow_sqrt.
  assert (S' : slow s (apply m b)) by (destruct S as (P & Q); split; [exact P|now rewrite orthonormal_dot]).
  rewrite (lorentz_lz _ _ s S') by (now rewrite orthonormal_dot). rewrite (lorentz_lz u b s S U). unfold lz. rewrite (orthonormal_dot m b u) by exact O.
  now rewrite apply_scale, apply_plus, !apply_scale.
Qed.
Lemma velocity_beta c v : 0 < c -> norm v < c -> dot3 (scale (/ c) v) (scale (/ c) v) < 1.
Proof.
  intros C N. rewrite dot_scale, dot_comm, dot_scale. pose proof (norm_sq v) as Q. pose proof (norm_nonneg v).
  replace (/ c * (/ c * dot3 v v)) with ((norm v / c) * (norm v / c)) by (unfold Rdiv; rewrite <- Q; ring).
  assert (0 <= norm v / c) by (apply Rmult_le_pos; [lra|left; now apply Rinv_0_lt_compat]).
  assert (norm v / c < 1) by (apply Rmult_lt_reg_r with c; [lra|]; unfold Rdiv; rewrite Rmult_assoc, Rinv_l by lra; lra). nra.
Qed.
Lemma unit_scaled u k : 0 <= k -> dot3 u u = 1 -> norm (scale k u) = k.
Proof. intros K U. unfold norm. rewrite dot_scale, dot_comm, dot_scale, U. replace (k * (k * 1)) with (k * k) by ring. now apply sqrt_square. Qed.
Lemma scale_scale a b u : scale a (scale b u) = scale (a * b) u. Proof. destruct u as ((x, y), z). cbn. apply vec_eq; ring. Qed.
Lemma scale_1 u : scale 1 u = u. Proof. destruct u as ((x, y), z). cbn. apply vec_eq; ring. Qed.
Lemma at_distance_norm f p : (forall u, dot3 u u = 1 -> dot3 (f u) (f u) = 1) -> norm (at_distance f p) = norm p.
Proof.
  intros F. unfold at_distance. destruct (reqb_r (norm p) 0) as [Z|N]; [reflexivity|]. apply unit_scaled; [apply norm_nonneg|]. apply F, unit_dir. intros ->. apply N. unfold norm. cbn.
  replace (0 * 0 + 0 * 0 + 0 * 0) with 0 by ring. apply sqrt_0.
Qed.
Lemma at_distance_back f g p : (forall u, dot3 u u = 1 -> dot3 (f u) (f u) = 1) -> (forall u, dot3 u u = 1 -> g (f u) = u) -> at_distance g (at_distance f p) = p.
Proof.
  intros F G. pose proof (at_distance_norm f p F) as E. unfold at_distance at 1. rewrite E. unfold at_distance. destruct (reqb_r (norm p) 0) as [Z|N]; [reflexivity|].
  rewrite (scale_scale (/ norm p)), Rinv_l, scale_1 by exact N. rewrite G.
  - now rewrite scale_scale, Rinv_r, scale_1.
  - apply unit_dir. intros ->. apply N. unfold norm. cbn. replace (0 * 0 + 0 * 0 + 0 * 0) with 0 by ring. apply sqrt_0.
Qed.

(** ** Deflection *)
Lemma normalize_unit v : v <> (0, 0, 0) -> dot3 (normalize v) (normalize v) = 1.
Proof. apply unit_dir. Qed.
Lemma body_normal s q rs : 1 / 10 ^ 10 <= norm q -> 0 < rs -> 1 / 10 ^ 15 <= 1 + dot3 s (scale (/ norm q) q) ->
  body_deflection s q rs = (let qh := scale (/ norm q) q in let sq := dot3 s qh in normalize (vplus s (scale (rs / norm q / (1 + sq)) (vminus qh (scale sq s))))).
Proof.
  intros Q R D. unfold body_deflection. destruct (rltb_r (norm q) (1 / 10 ^ 10)) as [H|_]; [lra|]. destruct (rleb_r rs 0) as [H|_]; [lra|]. cbn [orb].
  destruct (rltb_r (Rabs (1 + dot3 s (scale (/ norm q) q))) (1 / 10 ^ 15)) as [H|_]; [|reflexivity].
  rewrite Rabs_right in H by lra. lra.
Qed.
(** Directions in the plane of the body and the source: [pl q t phi] is at elongation [phi] from the body,
    which lies towards [-q]. *)
Definition pl (q t : vec) (phi : R) : vec := vplus (scale (- cos phi) q) (scale (sin phi) t).
Definition pl' (q t : vec) (phi : R) : vec := vplus (scale (sin phi) q) (scale (cos phi) t).
Definition plane (q t : vec) : Prop := dot3 q q = 1 /\ dot3 t t = 1 /\ dot3 q t = 0.
Lemma dot_lin a b x y q t : plane q t -> dot3 (vplus (scale a q) (scale b t)) (vplus (scale x q) (scale y t)) = a * x + b * y.
Proof.
  intros (Q & T & O). rewrite dot_plus, !dot_scale, (dot_comm q), (dot_comm t), !dot_plus, !dot_scale, Q, T, (dot_comm t q), O. ring.
Qed.
Lemma pl_dot q t a b : plane q t -> dot3 (pl q t a) (pl q t b) = cos (a - b).
Proof. intros P. unfold pl. rewrite dot_lin by exact P. rewrite cos_minus. ring. Qed.
Lemma pl_q q t a : plane q t -> dot3 (pl q t a) q = - cos a.
Proof. intros (Q & T & O). unfold pl. rewrite dot_plus, !dot_scale, Q, (dot_comm t q), O. ring. Qed.
Lemma pl_unit q t a : plane q t -> dot3 (pl q t a) (pl q t a) = 1.
Proof. intros P. rewrite pl_dot by exact P. replace (a - a) with 0 by ring. apply cos_0. Qed.
Lemma normalize_scaled m u : 0 < m -> dot3 u u = 1 -> normalize (scale m u) = u.
Proof. intros M U. unfold normalize. rewrite unit_scaled by lra. rewrite scale_scale, Rinv_l by lra. apply scale_1. Qed.
Lemma cos_atan_pos y : 0 < cos (atan y).
Proof. pose proof (atan_bound y). apply cos_gt_0; lra. Qed.
Lemma sin_atan_eq y : sin (atan y) = y * cos (atan y).
Proof. pose proof (cos_atan_pos y). pose proof (atan_right_inv y) as T. unfold tan in T. rewrite <- T at 2. field. lra. Qed.
Lemma pl_step q t phi y : vplus (pl q t phi) (scale y (pl' q t phi)) = scale (/ cos (atan y)) (pl q t (phi + atan y)).
Proof.
  pose proof (cos_atan_pos y). unfold pl, pl'. rewrite cos_plus, sin_plus, sin_atan_eq. destruct q as ((q1, q2), q3), t as ((t1, t2), t3). cbn. apply vec_eq; field; lra.
Qed.
Definition shift_of (k phi : R) : R := atan (k * (cos (phi / 2) / sin (phi / 2))).
Lemma half_angle phi : sin phi = 2 * sin (phi / 2) * cos (phi / 2) /\ 1 - cos phi = 2 * sin (phi / 2) * sin (phi / 2).
Proof.
  pose proof (sin_2a (phi / 2)) as A. pose proof (cos_2a_sin (phi / 2)) as B. replace (2 * (phi / 2)) with phi in A, B by field. split; lra.
Qed.
Lemma half_pos phi : 0 < phi <= PI -> 0 < sin (phi / 2) /\ 0 <= cos (phi / 2).
Proof. intros H. pose proof PI_RGT_0. split; [apply sin_gt_0; lra|apply cos_ge_0; lra]. Qed.
Lemma deflect_pl q t k phi : plane q t -> 0 < phi <= PI ->
  normalize (vplus (pl q t phi) (scale (k / (1 + dot3 (pl q t phi) q)) (vminus q (scale (dot3 (pl q t phi) q) (pl q t phi))))) = pl q t (phi + shift_of k phi).
Proof.
  intros P H. destruct (half_pos phi H) as (S & C). destruct (half_angle phi) as (A & B). rewrite pl_q by exact P.
  assert (D : 1 + - cos phi <> 0) by nra.
  assert (E : scale (k / (1 + - cos phi)) (vminus q (scale (- cos phi) (pl q t phi))) = scale (k * (cos (phi / 2) / sin (phi / 2))) (pl' q t phi)).
  { assert (F : k * (cos (phi / 2) / sin (phi / 2)) = k / (1 + - cos phi) * sin phi).
    { replace (1 + - cos phi) with (2 * sin (phi / 2) * sin (phi / 2)) by lra. rewrite A. field. lra. }
    rewrite F. unfold pl, pl'. pose proof (sc phi) as SC. destruct q as ((q1, q2), q3), t as ((t1, t2), t3). cbn.
    assert (G : forall a b, a - - cos phi * (- cos phi * a + sin phi * b) = sin phi * (sin phi * a + cos phi * b)).
    { intros a b. replace (sin phi * (sin phi * a + cos phi * b)) with ((sin phi * sin phi) * a + sin phi * cos phi * b) by ring. replace (sin phi * sin phi) with (1 - cos phi * cos phi) by lra. ring. }
    rewrite !G. apply vec_eq; ring. }
  rewrite E, pl_step. fold (shift_of k phi). apply normalize_scaled; [apply Rinv_0_lt_compat, cos_atan_pos|now apply pl_unit].
Qed.
Lemma in_plane s q : dot3 s s = 1 -> dot3 q q = 1 -> -1 < dot3 s q < 1 ->
  exists t, plane q t /\ s = pl q t (acos (- dot3 s q)) /\ 0 < acos (- dot3 s q) < PI.
Proof.
  intros S Q B. set (c := dot3 s q) in *. set (ph := acos (- c)). assert (CP : cos ph = - c) by (apply cos_acos; lra).
  assert (R0 : 0 < ph < PI).
  { pose proof (acos_bound (- c)) as BD. fold ph in BD. split.
    - destruct (Req_dec ph 0) as [E|E]; [rewrite E, cos_0 in CP; lra|lra].
    - destruct (Req_dec ph PI) as [E|E]; [rewrite E, cos_PI in CP; lra|lra]. }
  assert (SP : 0 < sin ph) by (apply sin_gt_0; lra). pose proof (sc ph) as SC. rewrite CP in SC.
  exists (scale (/ sin ph) (vminus s (scale c q))). split; [|split; [|exact R0]].
  - assert (T1 : dot3 (vminus s (scale c q)) (vminus s (scale c q)) = 1 - c * c /\ dot3 q (vminus s (scale c q)) = 0).
    { assert (X : dot3 (vminus s (scale c q)) (vminus s (scale c q)) = dot3 s s - 2 * c * dot3 s q + c * c * dot3 q q /\ dot3 q (vminus s (scale c q)) = dot3 s q - c * dot3 q q).
      { clearbody c ph. destruct s as ((s1, s2), s3), q as ((q1, q2), q3). cbn. split; ring. }
      destruct X as (X1 & X2). rewrite X1, X2, S, Q. fold c. split; ring. }
    destruct T1 as (T1 & T2). split; [exact Q|]. split.
    + rewrite dot_scale, dot_comm, dot_scale, T1. replace (1 - c * c) with (sin ph * sin ph) by lra. field. lra.
    + rewrite dot_comm, dot_scale, dot_comm, T2. ring.
  - unfold pl. rewrite CP, Ropp_involutive, scale_scale, Rinv_r, scale_1 by lra. clearbody c ph. destruct s as ((s1, s2), s3), q as ((q1, q2), q3). cbn. apply vec_eq; ring.
Qed.
Lemma qh_unit q : 1 / 10 ^ 10 <= norm q -> dot3 (scale (/ norm q) q) (scale (/ norm q) q) = 1.
Proof. intros H. apply unit_dir. intros ->. unfold norm in H. cbn [dot3] in H. replace (0 * 0 + 0 * 0 + 0 * 0) with 0 in H by ring. rewrite sqrt_0 in H. lra. Qed.
Lemma body_pl q t rs phi : plane (scale (/ norm q) q) t -> 1 / 10 ^ 10 <= norm q -> 0 < rs -> 0 < phi <= PI -> 1 / 10 ^ 15 <= 1 - cos phi ->
  body_deflection (pl (scale (/ norm q) q) t phi) q rs = pl (scale (/ norm q) q) t (phi + shift_of (rs / norm q) phi).
Proof.
  intros P N R H G. rewrite body_normal; [|exact N|exact R|rewrite pl_q by exact P; lra]. cbv zeta. now apply deflect_pl.
Qed.
Lemma shift_nonneg k phi : 0 <= k -> 0 < phi <= PI -> 0 <= shift_of k phi.
Proof.
  intros K H. destruct (half_pos phi H) as (S & C). unfold shift_of. rewrite <- atan_0.
  assert (0 <= k * (cos (phi / 2) / sin (phi / 2))) by (apply Rmult_le_pos; [exact K|apply Rmult_le_pos; [exact C|left; now apply Rinv_0_lt_compat]]).
  destruct (Rle_lt_or_eq_dec _ _ H0) as [L|E]; [left; now apply atan_increasing|right; now rewrite <- E].
Qed.
Lemma atan_le x : 0 <= x -> atan x <= x.
Proof.
  intros [H| <-]; [|rewrite atan_0; lra].
  destruct (MVT_cor2 atan (fun c => / (1 + c²)) 0 x H) as (c & E & I). { intros c _. replace (c²) with (c ^ 2) by (unfold Rsqr; ring). apply derivable_pt_lim_atan. }
  rewrite atan_0, Rminus_0_r, Rminus_0_r in E. rewrite E. pose proof (Rle_0_sqr c).
  assert (/ (1 + c²) <= 1) by (rewrite <- Rinv_1; apply Rinv_le_contravar; lra). nra.
Qed.
Lemma atan_lip a b : a <= b -> 0 <= atan b - atan a <= b - a.
Proof.
  intros [H| ->]; [|lra]. destruct (MVT_cor2 atan (fun c => / (1 + c²)) a b H) as (c & E & I). { intros c _. replace (c²) with (c ^ 2) by (unfold Rsqr; ring). apply derivable_pt_lim_atan. }
  rewrite E. pose proof (Rle_0_sqr c). assert (0 < / (1 + c²)) by (apply Rinv_0_lt_compat; lra).
  assert (/ (1 + c²) <= 1) by (rewrite <- Rinv_1; apply Rinv_le_contravar; lra). split; nra.
Qed.
Lemma shift_upto k phi : 0 <= k <= 1 -> 0 < phi <= PI -> phi + shift_of k phi <= PI.
Proof.
  intros K H. destruct (half_pos phi H) as (S & C). unfold shift_of.
  assert (L : k * (cos (phi / 2) / sin (phi / 2)) <= tan ((PI - phi) / 2)).
  { replace ((PI - phi) / 2) with (PI / 2 - phi / 2) by field. unfold tan. rewrite sin_shift, cos_shift.
    assert (0 <= cos (phi / 2) / sin (phi / 2)) by (apply Rmult_le_pos; [exact C|left; now apply Rinv_0_lt_compat]). nra. }
  assert (A : atan (k * (cos (phi / 2) / sin (phi / 2))) <= (PI - phi) / 2).
  { rewrite <- (atan_tan ((PI - phi) / 2)) by lra. destruct (Rle_lt_or_eq_dec _ _ L) as [L'| ->]; [left; now apply atan_increasing|lra]. }
  lra.
Qed.

(** The inverse takes the shift at the apparent place away, up to third order. *)
Definition undo (d : R) : R := atan (sin d / (2 - cos d)).
Lemma two_minus_cos d : 1 <= 2 - cos d. Proof. pose proof (COS_bound d). lra. Qed.
Lemma inverse_pl q t phi d : plane q t -> normalize (vminus (scale 2 (pl q t phi)) (pl q t (phi + d))) = pl q t (phi - undo d).
Proof.
  intros P. pose proof (two_minus_cos d) as T.
  assert (E : vminus (scale 2 (pl q t phi)) (pl q t (phi + d)) = scale (2 - cos d) (vplus (pl q t phi) (scale (- (sin d / (2 - cos d))) (pl' q t phi)))).
  { unfold pl, pl'. rewrite cos_plus, sin_plus. destruct q as ((q1, q2), q3), t as ((t1, t2), t3). cbn. apply vec_eq; field; lra. }
  rewrite E, pl_step, scale_scale, atan_opp. fold (undo d). replace (phi + - undo d) with (phi - undo d) by ring. apply normalize_scaled; [|now apply pl_unit].
  apply Rmult_lt_0_compat; [lra|]. apply Rinv_0_lt_compat. rewrite cos_neg. apply cos_atan_pos.
Qed.
Lemma undo_error d : 0 <= d <= PI / 2 -> 0 <= d - undo d <= d * d * d.
Proof.
  intros H. pose proof PI_RGT_0. pose proof (two_minus_cos d) as T. assert (S : 0 <= sin d) by (apply sin_ge_0; lra). assert (C : 0 <= cos d) by (apply cos_ge_0; lra).
  pose proof (COS_bound d) as CB. assert (SD : sin d <= d). { destruct (Req_dec d 0) as [->|N]; [rewrite sin_0; lra|]. left. apply sin_lt_x. lra. }
  assert (CD : 1 - cos d <= d * d / 2).
  { destruct (half_angle d) as (_ & B). rewrite B. assert (0 <= sin (d / 2) <= d / 2). { split; [apply sin_ge_0; lra|]. destruct (Req_dec d 0) as [->|N]; [replace (0 / 2) with 0 by field; rewrite sin_0; lra|]. left. apply sin_lt_x. lra. } nra. }
  set (w := 2 * sin d * (1 - cos d) / (1 + 2 * cos d * (1 - cos d))). assert (DP : 1 <= 1 + 2 * cos d * (1 - cos d)) by nra.
  assert (W0 : 0 <= w) by (unfold w; apply Rmult_le_pos; [nra|left; apply Rinv_0_lt_compat; lra]).
  assert (W1 : w <= 2 * sin d * (1 - cos d)).
  { unfold w. apply Rmult_le_reg_r with (1 + 2 * cos d * (1 - cos d)); [lra|]. unfold Rdiv. rewrite Rmult_assoc, Rinv_l by lra. rewrite Rmult_1_r. rewrite <- (Rmult_1_r (2 * sin d * (1 - cos d))) at 1. apply Rmult_le_compat_l; [nra|exact DP]. }
  assert (E : d - undo d = atan w).
  { set (g := undo d). assert (G0 : 0 <= g < PI / 2). { unfold g, undo. pose proof (atan_bound (sin d / (2 - cos d))). split; [|lra]. rewrite <- atan_0. assert (0 <= sin d / (2 - cos d)) by (apply Rmult_le_pos; [exact S|left; apply Rinv_0_lt_compat; lra]). destruct (Rle_lt_or_eq_dec _ _ H2) as [L|L]; [left; now apply atan_increasing|right; now rewrite <- L]. }
    pose proof (cos_atan_pos (sin d / (2 - cos d))) as CG. pose proof (sin_atan_eq (sin d / (2 - cos d))) as SG. fold (undo d) in CG, SG. fold g in CG, SG.
    assert (TC : cos (d - g) = cos g / (2 - cos d) * (1 + 2 * cos d * (1 - cos d))).
    { rewrite cos_minus, SG. pose proof (sc d) as SC. replace (cos d * cos g + sin d * (sin d / (2 - cos d) * cos g)) with (cos g / (2 - cos d) * (cos d * (2 - cos d) + sin d * sin d)) by (field; lra). replace (sin d * sin d) with (1 - cos d * cos d) by lra. f_equal. ring. }
    assert (TS : sin (d - g) = cos g / (2 - cos d) * (2 * sin d * (1 - cos d))).
    { rewrite sin_minus, SG. field. lra. }
    assert (PC : 0 < cos (d - g)). { rewrite TC. apply Rmult_lt_0_compat; [apply Rmult_lt_0_compat; [lra|apply Rinv_0_lt_compat; lra]|lra]. }
    rewrite <- (atan_tan (d - g)).
    - f_equal. unfold tan. rewrite TC, TS. unfold w. field. repeat split; lra.
    - assert (- (PI / 2) < d - g) by lra. split; [exact H1|]. assert (LE : d - g <= PI / 2) by lra. destruct (Rle_lt_or_eq_dec _ _ LE) as [L|L]; [exact L|]. rewrite L, cos_PI2 in PC. lra. }
  rewrite E. split; [rewrite <- atan_0; destruct (Rle_lt_or_eq_dec _ _ W0) as [L|L]; [left; now apply atan_increasing|right; now rewrite <- L]|].
  apply Rle_trans with w; [now apply atan_le|]. apply Rle_trans with (1 := W1). assert (0 <= d * d / 2) by nra. assert (sin d * (1 - cos d) <= d * (d * d / 2)) by (apply Rmult_le_compat; lra). lra.
Qed.
Lemma shift_change k phi psi : 0 <= k -> 0 < phi -> phi <= psi -> psi <= PI ->
  0 <= shift_of k phi - shift_of k psi <= k * (psi - phi) / (2 * sin (phi / 2) * sin (phi / 2)).
Proof.
  intros K P L H. destruct (half_pos phi) as (S & C); [lra|]. destruct (half_pos psi) as (S' & C'); [lra|].
  assert (M : sin (phi / 2) <= sin (psi / 2)) by (apply sin_incr_1; lra).
  assert (D : cos (phi / 2) / sin (phi / 2) - cos (psi / 2) / sin (psi / 2) = sin ((psi - phi) / 2) / (sin (phi / 2) * sin (psi / 2))).
  { replace ((psi - phi) / 2) with (psi / 2 - phi / 2) by field. rewrite sin_minus. field. lra. }
  assert (I : 0 <= sin ((psi - phi) / 2) <= (psi - phi) / 2).
  { split; [apply sin_ge_0; lra|]. destruct (Req_dec psi phi) as [->|N]; [replace ((phi - phi) / 2) with 0 by field; rewrite sin_0; lra|]. left. apply sin_lt_x. lra. }
  assert (J : 0 < / (sin (phi / 2) * sin (psi / 2)) <= / (sin (phi / 2) * sin (phi / 2))).
  { split; [apply Rinv_0_lt_compat; nra|apply Rinv_le_contravar; nra]. }
  assert (Q : 0 <= cos (phi / 2) / sin (phi / 2) - cos (psi / 2) / sin (psi / 2) <= (psi - phi) / 2 * / (sin (phi / 2) * sin (phi / 2))).
  { rewrite D. unfold Rdiv at 1 3. split; [apply Rmult_le_pos; lra|apply Rmult_le_compat; lra]. }
  assert (X : k * (cos (psi / 2) / sin (psi / 2)) <= k * (cos (phi / 2) / sin (phi / 2))) by (apply Rmult_le_compat_l; lra).
  destruct (atan_lip _ _ X) as (A & B). unfold shift_of. split; [exact A|]. apply Rle_trans with (1 := B).
  replace (k * (psi - phi) / (2 * sin (phi / 2) * sin (phi / 2))) with (k * ((psi - phi) / 2 * / (sin (phi / 2) * sin (phi / 2)))) by (field; lra). nra.
Qed.

(** ** Centres *)
Lemma some_inj {A} (x y : A) : Some x = Some y -> x = y. Proof. intros H. now injection H. Qed.
Lemma center_eqb_ok a b : center_eqb a b = true <-> a = b.
Proof.
  split; [|intros ->; destruct b as [| | |[]| | |[]]; reflexivity].
  destruct a as [| | |p| | |p], b as [| | |q| | |q]; cbn; try discriminate; try reflexivity; destruct p, q; cbn; try discriminate; reflexivity.
Qed.
Ltac vec3 := repeat match goal with |- context [apply ?r ?v] => let x := fresh in let y := fresh in let z := fresh in destruct (apply r v) as ((x, y), z) end; cbn; apply vec_eq; ring.
Lemma shift_sum e r a b v : shift e r a b = Some v -> v = vminus (to_bary e r a) (to_bary e r b).
Proof.
  destruct a as [| | |p| | |p], b as [| | |q| | |q]; cbn [shift from_bary helio_to geo_to to_bary center_eqb]; unfold turned, negate, from_bary; cbn [to_bary]; unfold turned, negate;
    try (match goal with |- (if ?x then _ else _) = _ -> _ => destruct x eqn:E; [|discriminate] end);
    intros H; try discriminate; apply some_inj in H; subst v; rewrite ?apply_plus, ?apply_scale; try vec3;
    destruct p, q; cbn in E; try discriminate; vec3.
Qed.

(** ** Horizon *)
(** North, west, up. *)
Definition hmat (lst lat : R) : mat :=
  M (- sin lat * cos lst) (- sin lat * sin lst) (cos lat) (sin lst) (- cos lst) 0 (cos lat * cos lst) (cos lat * sin lst) (sin lat).
Lemma hmat_proper lst lat : orthonormal (hmat lst lat) /\ det (hmat lst lat) = 1.
Proof.
  pose proof (sc lst) as A. pose proof (sc lat) as B.
  assert (A' : sin lst * sin lst = 1 - cos lst * cos lst) by lra. assert (B' : sin lat * sin lat = 1 - cos lat * cos lat) by lra. split.
  - unfold orthonormal. apply mat_eq; unfold mul, transpose, hmat, identity; cbn; ring [A' B'].
  - unfold det, hmat; cbn. ring [A' B'].
Qed.
Lemma sphere_back x y z : x * x + y * y + z * z = 1 -> cos (asin z) * cos (atan2 y x) = x /\ cos (asin z) * sin (atan2 y x) = y /\ sin (asin z) = z.
Proof.
  intros H. assert (Z : -1 <= z <= 1) by nra. assert (C : cos (asin z) = sqrt (x² + y²)).
  { rewrite cos_asin by exact Z. f_equal. unfold Rsqr. lra. }
  rewrite C, sin_asin by exact Z. destruct (Req_dec (x * x + y * y) 0) as [E|N].
  - assert (x = 0) by nra. assert (y = 0) by nra. subst. unfold Rsqr. replace (0 * 0 + 0 * 0) with 0 by ring. rewrite sqrt_0. lra.
  - destruct (atan2_polar y x) as (P & Q); [|split; [exact P|split; [exact Q|reflexivity]]]. destruct (Req_dec x 0) as [->|X]; [right|left; exact X]. intros ->. apply N. ring.
Qed.
Lemma unit_parts x y z : norm (x, y, z) <> 0 -> let r := norm (x, y, z) in x / r * (x / r) + y / r * (y / r) + z / r * (z / r) = 1.
Proof. intros N r. pose proof (norm_sq (x, y, z)) as Q. fold r in Q, N. cbn in Q. replace (x / r * (x / r) + y / r * (y / r) + z / r * (z / r)) with ((x * x + y * y + z * z) / (r * r)) by (field; exact N). rewrite <- Q. field. exact N. Qed.
Lemma to_horizontal_ok lst lat p : norm p <> 0 -> to_horizontal lst lat p = Some (apply (hmat lst lat) p).
Proof.
  destruct p as ((x, y), z). intros N. pose proof (unit_parts x y z N) as U. cbv zeta in U. unfold to_horizontal. set (r := norm (x, y, z)) in *. destruct (reqb_r r 0) as [E|_]; [contradiction|].
  destruct (sphere_back _ _ _ U) as (A & B & C). unfold horizontal_angles. rewrite sin_rem_e, cos_rem_e, sin_minus, cos_minus, C. set (ra := atan2 (y / r) (x / r)) in *. set (cd := cos (asin (z / r))) in *.
  destruct (hmat_proper lst lat) as (O & _). pose proof (orthonormal_dot (hmat lst lat) (x / r, y / r, z / r) (x / r, y / r, z / r) O) as D. unfold hmat in D. cbn in D. rewrite U in D.
  assert (E1 : z / r * sin lat + cd * cos lat * (cos lst * cos ra + sin lst * sin ra) = cos lat * cos lst * (x / r) + cos lat * sin lst * (y / r) + sin lat * (z / r)) by (rewrite <- A, <- B; ring).
  assert (E2 : - cd * (sin lst * cos ra - cos lst * sin ra) = - (sin lst * (x / r) + - cos lst * (y / r) + 0 * (z / r))) by (rewrite <- A, <- B; ring).
  assert (E3 : z / r * cos lat - cd * (cos lst * cos ra + sin lst * sin ra) * sin lat = - sin lat * cos lst * (x / r) + - sin lat * sin lst * (y / r) + cos lat * (z / r)) by (rewrite <- A, <- B; ring).
  rewrite E1, E2, E3. match goal with |- Some (r * cos (asin ?up) * cos (atan2 (- ?w) ?n), _, _) = _ => destruct (sphere_back n (- w) up) as (P1 & P2 & P3); [lra|] end.
  f_equal. unfold hmat. cbn. apply vec_eq.
  - rewrite Rmult_assoc, P1. field. exact N.
  - rewrite Rmult_assoc, P2. field. exact N.
  - rewrite P3. field. exact N.
Qed.
Lemma from_horizontal_ok lst lat x y z : norm (x, y, z) <> 0 -> cos lat <> 0 -> Rabs (cos lat * x + sin lat * z) <> norm (x, y, z) ->
  from_horizontal lst lat (x, y, z) = Some (apply (transpose (hmat lst lat)) (x, y, z)).
Proof.
  intros N L Q. pose proof (unit_parts x y z N) as U. cbv zeta in U. unfold from_horizontal. set (r := norm (x, y, z)) in *. destruct (reqb_r r 0) as [E|_]; [contradiction|].
  assert (R0 : 0 < r) by (pose proof (norm_nonneg (x, y, z)); fold r in H; lra).
  assert (U' : x / r * (x / r) + - y / r * (- y / r) + z / r * (z / r) = 1) by (rewrite <- U; field; exact N).
  destruct (sphere_back _ _ _ U') as (A & B & C). unfold equatorial_angles. rewrite C. set (az := atan2 (- y / r) (x / r)) in *. set (ca := cos (asin (z / r))) in *.
  assert (D1 : z / r * sin lat + ca * cos lat * cos az = cos lat * (x / r) + sin lat * (z / r)) by (rewrite <- A; ring). rewrite D1. set (D := cos lat * (x / r) + sin lat * (z / r)) in *.
  pose proof (sc lat) as SC. pose proof (sc lst) as ST.
  set (h := cos lat * (z / r) - sin lat * (x / r)).
  assert (S : D * D + y / r * (y / r) + h * h = 1).
  { rewrite <- U. unfold D, h. replace (x / r * (x / r) + y / r * (y / r) + z / r * (z / r)) with ((sin lat * sin lat + cos lat * cos lat) * (x / r * (x / r)) + y / r * (y / r) + (sin lat * sin lat + cos lat * cos lat) * (z / r * (z / r))) by (rewrite SC; ring). ring. }
  assert (DB : -1 <= D <= 1) by nra. assert (DN : D * D <> 1).
  { intros E. apply Q. assert (F : (cos lat * x + sin lat * z) * (cos lat * x + sin lat * z) = r * r). { replace (cos lat * x + sin lat * z) with (r * D) by (unfold D; field; exact N). replace (r * D * (r * D)) with (r * r * (D * D)) by ring. rewrite E. ring. }
    fold (Rsqr (cos lat * x + sin lat * z)) in F. fold (Rsqr r) in F. apply Rsqr_eq_abs_0 in F. rewrite (Rabs_right r) in F by lra. exact F. }
  assert (CD : cos (asin D) * cos (asin D) = 1 - D * D). { rewrite cos_asin by exact DB. rewrite sqrt_sqrt; unfold Rsqr; nra. }
  assert (CP : 0 < cos (asin D)). { rewrite cos_asin by exact DB. apply sqrt_lt_R0. unfold Rsqr. nra. }
  destruct (reqb_r (cos lat * cos (asin D)) 0) as [E|_]; [exfalso; apply Rmult_integral in E; destruct E; [contradiction|lra]|].
  rewrite sin_asin by exact DB. set (cd := cos (asin D)) in *.
  assert (E1 : (z / r - sin lat * D) / (cos lat * cd) = h / cd).
  { replace (z / r - sin lat * D) with (cos lat * h); [field; split; lra|]. unfold D, h. replace (z / r) with ((sin lat * sin lat + cos lat * cos lat) * (z / r)) at 2 by (rewrite SC; ring). ring. }
  assert (E2 : - ca * sin az / cd = y / r / cd). { replace (- ca * sin az) with (y / r); [reflexivity|]. rewrite Ropp_mult_distr_l_reverse, B. field. exact N. }
  rewrite E1, E2. set (ha := atan2 (y / r / cd) (h / cd)).
  assert (V : (h / cd)² + (y / r / cd)² = 1). { unfold Rsqr. replace (h / cd * (h / cd) + y / r / cd * (y / r / cd)) with ((h * h + y / r * (y / r)) / (cd * cd)) by (field; split; lra). rewrite CD. replace (h * h + y / r * (y / r)) with (1 - D * D) by lra. field. nra. }
  destruct (atan2_polar (y / r / cd) (h / cd)) as (P1 & P2). { destruct (Req_dec (h / cd) 0) as [Z|Z]; [right|left; exact Z]. intros Z'. rewrite Z, Z' in V. unfold Rsqr in V. lra. }
  rewrite V, sqrt_1, Rmult_1_l in P1, P2. fold ha in P1, P2. rewrite cos_rem_e, sin_rem_e, cos_minus, sin_minus, P1, P2. f_equal. unfold hmat, transpose. cbn. apply vec_eq.
  - unfold h. field. split; lra.
  - unfold h. field. split; lra.
  - unfold D. field. exact N.
Qed.
