(** Lemmas about propagating two-line elements. *)
From Coq Require Import ZArith Reals Bool Lia Lra.
From Verif Require Import Base Mat3 Ang Geom_Model Geom_Proofs Sgp_Model.
From Verif Require Jpl_Proofs.
Local Open Scope R_scope.

(** ** The perifocal axes *)
Definition axis_p (raan inc argp : R) : vec :=
  (cos raan * cos argp - sin raan * sin argp * cos inc, sin raan * cos argp + cos raan * sin argp * cos inc, sin argp * sin inc).
Definition axis_q (raan inc argp : R) : vec :=
  (- cos raan * sin argp - sin raan * cos argp * cos inc, - sin raan * sin argp + cos raan * cos argp * cos inc, cos argp * sin inc).
Definition axis_w (raan inc : R) : vec := (sin raan * sin inc, - cos raan * sin inc, cos inc).
Lemma rotate_axes x y o i w : rotate (x, y) o i w = vplus (scale x (axis_p o i w)) (scale y (axis_q o i w)).
Proof. unfold rotate, axis_p, axis_q. cbn. apply vec_eq; ring. Qed.
Lemma sc x : sin x * sin x = 1 - cos x * cos x.
Proof. pose proof (sin2_cos2 x) as H. unfold Rsqr in H. lra. Qed.
Lemma pp o i w : dot3 (axis_p o i w) (axis_p o i w) = 1.
Proof. unfold axis_p, dot3. pose proof (sc o) as Ho; pose proof (sc i) as Hi; pose proof (sc w) as Hw. ring [Ho Hi Hw]. Qed.
Lemma qq o i w : dot3 (axis_q o i w) (axis_q o i w) = 1.
Proof. unfold axis_q, dot3. pose proof (sc o) as Ho; pose proof (sc i) as Hi; pose proof (sc w) as Hw. ring [Ho Hi Hw]. Qed.
Lemma pq o i w : dot3 (axis_p o i w) (axis_q o i w) = 0.
Proof. unfold axis_p, axis_q, dot3. pose proof (sc o) as Ho; pose proof (sc i) as Hi; pose proof (sc w) as Hw. ring [Ho Hi Hw]. Qed.
Lemma pxq o i w : cross (axis_p o i w) (axis_q o i w) = axis_w o i.
Proof.
  unfold axis_p, axis_q, axis_w, cross. pose proof (sc o) as Ho; pose proof (sc i) as Hi; pose proof (sc w) as Hw.
  apply vec_eq; ring [Ho Hi Hw].
Qed.
Lemma qxw o i w : cross (axis_q o i w) (axis_w o i) = axis_p o i w.
Proof.
  unfold axis_p, axis_q, axis_w, cross. pose proof (sc o) as Ho; pose proof (sc i) as Hi; pose proof (sc w) as Hw.
  apply vec_eq; ring [Ho Hi Hw].
Qed.
Lemma wxp o i w : cross (axis_w o i) (axis_p o i w) = axis_q o i w.
Proof.
  unfold axis_p, axis_q, axis_w, cross. pose proof (sc o) as Ho; pose proof (sc i) as Hi; pose proof (sc w) as Hw.
  apply vec_eq; ring [Ho Hi Hw].
Qed.
(** coordinates in an orthonormal pair *)
Lemma dot_plane x y x' y' p q : dot3 p p = 1 -> dot3 q q = 1 -> dot3 p q = 0 ->
  dot3 (vplus (scale x p) (scale y q)) (vplus (scale x' p) (scale y' q)) = x * x' + y * y'.
Proof.
  intros A B C. replace (dot3 _ _) with (x * x' * dot3 p p + y * y' * dot3 q q + (x * y' + y * x') * dot3 p q)
    by (destruct p as ((?, ?), ?), q as ((?, ?), ?); cbn; ring).
  rewrite A, B, C. ring.
Qed.
Lemma cross_plane x y x' y' p q : cross (vplus (scale x p) (scale y q)) (vplus (scale x' p) (scale y' q)) = scale (x * y' - y * x') (cross p q).
Proof. destruct p as ((?, ?), ?), q as ((?, ?), ?); cbn. apply vec_eq; ring. Qed.
Lemma cross_scale_r k u v : cross u (scale k v) = scale k (cross u v).
Proof. destruct u as ((?, ?), ?), v as ((?, ?), ?); cbn. apply vec_eq; ring. Qed.
Lemma cross_sum x y p q w : cross (vplus (scale x p) (scale y q)) w = vplus (scale x (cross p w)) (scale y (cross q w)).
Proof. destruct p as ((?, ?), ?), q as ((?, ?), ?), w as ((?, ?), ?); cbn. apply vec_eq; ring. Qed.
Lemma pxw o i w : cross (axis_p o i w) (axis_w o i) = scale (-1) (axis_q o i w).
Proof. rewrite <- (wxp o i w). destruct (axis_w o i) as ((?, ?), ?), (axis_p o i w) as ((?, ?), ?); cbn. apply vec_eq; ring. Qed.

(** ** Kepler's third law *)
Lemma cbrt_pos x : 0 < cbrt x. Proof. unfold cbrt, Rpower. apply exp_pos. Qed.
Lemma cbrt_cube x : 0 < x -> cbrt x * cbrt x * cbrt x = x.
Proof.
  intros P. unfold cbrt. rewrite <- !Rpower_plus. replace (1 / 3 + 1 / 3 + 1 / 3) with 1 by lra. now apply Rpower_1.
Qed.
Lemma axis_law mu n : 0 < mu -> 0 < n -> 0 < semi_major_axis mu n /\ semi_major_axis mu n * semi_major_axis mu n * semi_major_axis mu n * (n * n) = mu.
Proof.
  intros M P. unfold semi_major_axis. assert (N : 0 < n * n) by nra. split; [apply cbrt_pos|].
  rewrite cbrt_cube by (apply Rdiv_lt_0_compat; lra). field. lra.
Qed.
Lemma mu_pos m : 0 < k_mu (constants_of m). Proof. destruct m; cbn; lra. Qed.

(** ** One point of an ellipse *)
Section Ellipse.
Context (mu a n e x o i w : R) (A : 0 < a) (NP : 0 < n) (K : a * a * a * (n * n) = mu) (E0 : 0 <= e) (E1 : e < 1).
Let s := sqrt (1 - e * e).
Let d := 1 - e * cos x.
Let pos := rotate (a * (cos x - e), a * s * sin x) o i w.
Let vel := rotate (- a * sin x * (n / d), a * s * cos x * (n / d)) o i w.
Lemma d_pos : 1 - e <= d <= 1 + e /\ 0 < d.
Proof. unfold d. pose proof (COS_bound x). nra. Qed.
Lemma s_sq : s * s = 1 - e * e.
Proof. unfold s. apply sqrt_sqrt. nra. Qed.
Lemma s_pos : 0 < s. Proof. unfold s. apply sqrt_lt_R0. nra. Qed.
Lemma mu_p : 0 < mu. Proof. rewrite <- K. assert (0 < a * a) by nra. assert (0 < a * a * a) by nra. assert (0 < n * n) by nra. nra. Qed.
Lemma pos_norm : norm pos = a * d.
Proof.
  unfold norm, pos. rewrite rotate_axes, dot_plane by first [apply pp|apply qq|apply pq].
  pose proof d_pos as (_ & D). replace (_ + _) with ((a * d) * (a * d)); [apply sqrt_square; nra|].
  pose proof s_sq as S2. pose proof (sc x) as H. unfold d.
  replace (a * s * sin x * (a * s * sin x)) with (a * a * (s * s) * (sin x * sin x)) by ring. rewrite S2, H. ring.
Qed.
Lemma vel_sq : dot3 vel vel = mu / a * ((1 + e * cos x) / d).
Proof.
  unfold vel. rewrite rotate_axes, dot_plane by first [apply pp|apply qq|apply pq].
  pose proof d_pos as (_ & D). rewrite <- K.
  replace (_ + _) with (a * a * (n * n) / (d * d) * (sin x * sin x + (s * s) * (cos x * cos x))) by (field; lra).
  rewrite s_sq, (sc x). unfold d in *. field. lra.
Qed.
Lemma pos_vel : dot3 pos vel = a * a * n * e * sin x.
Proof.
  unfold pos, vel. rewrite !rotate_axes, dot_plane by first [apply pp|apply qq|apply pq].
  pose proof d_pos as (_ & D). replace (_ + _) with (a * a * n / d * sin x * ((s * s) * cos x - cos x + e)) by (field; lra).
  rewrite s_sq. unfold d in *. field. lra.
Qed.
Lemma energy : dot3 vel vel / 2 - mu / norm pos = - (mu / (2 * a)).
Proof. rewrite vel_sq, pos_norm. pose proof d_pos as (_ & D). unfold d in *. field. lra. Qed.
Lemma momentum_coef : a * a * n * s = sqrt (mu * a * (1 - e * e)).
Proof.
  symmetry. apply sqrt_lem_1; [|pose proof s_pos; assert (0 < a * a * n) by (repeat apply Rmult_lt_0_compat; lra); apply Rmult_le_pos; lra|].
  - pose proof mu_p. apply Rmult_le_pos; nra.
  - rewrite <- K, <- s_sq. ring.
Qed.
Lemma momentum : cross pos vel = scale (sqrt (mu * a * (1 - e * e))) (axis_w o i).
Proof.
  unfold pos, vel. rewrite !rotate_axes, cross_plane, pxq, <- momentum_coef. f_equal.
  pose proof d_pos as (_ & D).
  replace (_ - _) with (a * a * n * s / d * (cos x * cos x + sin x * sin x - e * cos x)) by (field; lra).
  rewrite (sc x). unfold d in *. field. lra.
Qed.
Lemma ecc_vector : vminus (scale (1 / mu) (cross vel (cross pos vel))) (scale (1 / norm pos) pos) = scale e (axis_p o i w).
Proof.
  rewrite momentum, cross_scale_r, pos_norm. unfold vel, pos. rewrite !rotate_axes, cross_sum, pxw, qxw, <- momentum_coef.
  pose proof d_pos as (_ & D). pose proof mu_p as M.
  set (p := axis_p o i w). set (q := axis_q o i w).
  replace (vminus _ _) with (vplus (scale (1 / mu * (a * a * n * s * (a * s * cos x * (n / d))) - 1 / (a * d) * (a * (cos x - e))) p)
    (scale (1 / mu * (a * a * n * s * (a * sin x * (n / d))) - 1 / (a * d) * (a * s * sin x)) q))
    by (destruct p as ((?, ?), ?), q as ((?, ?), ?); cbn; apply vec_eq; ring).
  replace (1 / mu * (a * a * n * s * (a * sin x * (n / d))) - 1 / (a * d) * (a * s * sin x)) with 0.
  2:{ rewrite <- K. field. repeat split; lra. }
  replace (1 / mu * (a * a * n * s * (a * s * cos x * (n / d))) - 1 / (a * d) * (a * (cos x - e))) with e.
  2:{ rewrite <- K. replace (1 / (a * a * a * (n * n)) * (a * a * n * s * (a * s * cos x * (n / d)))) with ((s * s) * cos x / d) by (field; repeat split; lra).
      rewrite s_sq. unfold d in *. field. split; lra. }
  destruct p as ((?, ?), ?), q as ((?, ?), ?); cbn; apply vec_eq; ring.
Qed.
End Ellipse.

(** ** Kepler's equation *)
Definition kep (ecc m x : R) : R := x - ecc * sin x - m.
Lemma cos_lip a b : Rabs (cos a - cos b) <= Rabs (a - b).
Proof. rewrite !cos_sin. replace (a - b) with (PI / 2 + a - (PI / 2 + b)) by ring. apply Jpl_Proofs.sin_lip. Qed.
Lemma kep_mvt ecc m x y : exists c, Rabs (c - x) <= Rabs (y - x) /\ kep ecc m y - kep ecc m x = (1 - ecc * cos c) * (y - x).
Proof.
  assert (D : forall c, derivable_pt_lim (kep ecc m) c (1 - ecc * cos c)).
  { intros c. unfold kep. replace (1 - ecc * cos c) with (1 - ecc * cos c - 0) by ring.
    apply (derivable_pt_lim_minus (fun x => x - ecc * sin x) (fun _ => m)); [|apply derivable_pt_lim_const].
    apply (derivable_pt_lim_minus (fun x => x) (fun x => ecc * sin x)); [apply derivable_pt_lim_id|].
    apply (derivable_pt_lim_scal sin ecc). apply derivable_pt_lim_sin. }
  destruct (Rtotal_order x y) as [H|[->|H]].
  - destruct (MVT_cor2 _ _ x y H (fun c _ => D c)) as (c & E & C). exists c. split; [rewrite !Rabs_right; lra|exact E].
  - exists y. split; [lra|ring].
  - destruct (MVT_cor2 _ _ y x H (fun c _ => D c)) as (c & E & C). exists c. split; [rewrite !Rabs_left; lra|lra].
Qed.
(** what is left after a Newton step *)
Lemma newton_residual ecc m x : 0 <= ecc -> 1 - ecc * cos x <> 0 ->
  let step := kep ecc m x / (1 - ecc * cos x) in Rabs (kep ecc m (x - step)) <= ecc * (step * step).
Proof.
  intros E N step. destruct (kep_mvt ecc m x (x - step)) as (c & C & F).
  assert (G : kep ecc m (x - step) = step * (ecc * (cos c - cos x))).
  { assert (kep ecc m x = step * (1 - ecc * cos x)) by (unfold step; field; exact N). lra. }
  rewrite G, !Rabs_mult, (Rabs_right ecc) by lra. pose proof (cos_lip c x) as L.
  replace (x - step - x) with (- step) in C by ring. rewrite Rabs_Ropp in C.
  replace (step * step) with (Rabs step * Rabs step) by (rewrite <- Rabs_mult; apply Rabs_right; nra).
  pose proof (Rabs_pos step). pose proof (Rabs_pos (cos c - cos x)).
  replace (ecc * (Rabs step * Rabs step)) with (Rabs step * (ecc * Rabs step)) by ring.
  apply Rmult_le_compat_l; [lra|]. apply Rmult_le_compat_l; lra.
Qed.
Lemma newton_sound fuel m ecc x y : 0 <= ecc <= 1 -> newton fuel m ecc x = Some y -> Rabs (kep ecc m y) <= 1e-26.
Proof.
  intros E. revert x. induction fuel as [|fuel IH]; intros x H; [discriminate|]. cbn [newton] in H.
  destruct (rltb_r (Rabs (1 - ecc * cos x)) 1e-14) as [L|L]; [discriminate|].
  fold (kep ecc m x) in H. set (step := kep ecc m x / (1 - ecc * cos x)) in *.
  destruct (rltb_r (Rabs step) 1e-13) as [Q|Q]; [|now apply IH in H].
  injection H as <-. assert (N : 1 - ecc * cos x <> 0). { intros Z. apply L. rewrite Z, Rabs_R0. lra. }
  pose proof (newton_residual ecc m x (proj1 E) N) as B. cbn in B. fold step in B. eapply Rle_trans; [exact B|].
  assert (S2 : step * step <= 1e-26).
  { replace (step * step) with (Rabs step * Rabs step) by (rewrite <- Rabs_mult; apply Rabs_right; nra).
    pose proof (Rabs_pos step). replace 1e-26 with (1e-13 * 1e-13) by lra. apply Rmult_le_compat; lra. }
  nra.
Qed.
Fixpoint sqs (k : nat) (u : R) : R := match k with O => u | S k => sqs k (u * u) end.
(** steps shrink quadratically, so a nearly circular orbit is always solved *)
Lemma newton_total k m ecc x b : 0 <= ecc <= 1 / 3 -> 0 <= b -> Rabs (kep ecc m x) <= b * (1 - ecc) ->
  sqs k (b / 2) < 5e-14 -> exists y, newton (S k) m ecc x = Some y.
Proof.
  intros E. revert x b. induction k as [|k IH]; intros x b B H U.
  all: cbn [newton]; assert (DP : 1 - ecc <= 1 - ecc * cos x) by (pose proof (COS_bound x); nra).
  all: destruct (rltb_r (Rabs (1 - ecc * cos x)) 1e-14) as [L|L]; [rewrite Rabs_right in L; lra|].
  all: fold (kep ecc m x); set (step := kep ecc m x / (1 - ecc * cos x)).
  all: assert (SB : Rabs step <= b) by (unfold step, Rdiv; rewrite Rabs_mult, Rabs_inv, (Rabs_right (1 - ecc * cos x)) by lra;
    apply (Rmult_le_reg_r (1 - ecc * cos x)); [lra|]; rewrite Rmult_assoc, Rinv_l by lra; rewrite Rmult_1_r; eapply Rle_trans; [exact H|]; apply Rmult_le_compat_l; lra).
  all: destruct (rltb_r (Rabs step) 1e-13) as [Q|Q]; [eexists; reflexivity|].
  - exfalso. apply Q. cbn [sqs] in U. lra.
  - apply (IH _ (b * b / 2)); [nra| |].
    + eapply Rle_trans; [apply (newton_residual ecc m x); lra|]. fold step.
      replace (step * step) with (Rabs step * Rabs step) by (rewrite <- Rabs_mult; apply Rabs_right; nra).
      pose proof (Rabs_pos step). assert (Rabs step * Rabs step <= b * b) by (apply Rmult_le_compat; lra). nra.
    + cbn [sqs] in U. replace (b * b / 2 / 2) with (b / 2 * (b / 2)) by field. exact U.
Qed.
Lemma newton_more fuel j m ecc x y : newton fuel m ecc x = Some y -> newton (fuel + j) m ecc x = Some y.
Proof.
  revert x. induction fuel as [|fuel IH]; intros x H; [discriminate|]. cbn [newton Nat.add] in *.
  destruct (rltb _ _); [discriminate|]. destruct (rltb _ _); [exact H|]. now apply IH.
Qed.
Lemma kepler_total m ecc : 0 <= ecc <= 1 / 3 -> exists y, solve_kepler m ecc = Ok y.
Proof.
  intros E. unfold solve_kepler. destruct (rltb_r ecc 0.8) as [_|L]; [|exfalso; lra].
  destruct (newton_total 5 m ecc m (1 / 2) E) as (y & Y); [lra| |cbn [sqs]; lra|].
  - unfold kep. replace (m - ecc * sin m - m) with (- (ecc * sin m)) by ring. rewrite Rabs_Ropp, Rabs_mult, (Rabs_right ecc) by lra.
    assert (Rabs (sin m) <= 1) by (apply Rabs_le; pose proof (SIN_bound m); lra). pose proof (Rabs_pos (sin m)). nra.
  - exists y. change 32%nat with (6 + 26)%nat. now rewrite (newton_more _ _ _ _ _ _ Y).
Qed.
Lemma kepler_sound m ecc y : 0 <= ecc <= 1 -> solve_kepler m ecc = Ok y -> Rabs (y - ecc * sin y - m) <= 1e-26.
Proof.
  intros E. unfold solve_kepler. destruct (newton _ _ _ _) as [z|] eqn:N; [|discriminate]. intros H. replace y with z by congruence. exact (newton_sound _ _ _ _ _ E N).
Qed.
