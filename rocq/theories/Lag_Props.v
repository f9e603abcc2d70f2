(** C87 - C89: the Sun-Earth Lagrange points. *)
From Coq Require Import List PeanoNat ZArith Lia Bool Reals Lra Psatz.
From Verif Require Import Base Mat3 Ang Geom_Model Geom_Proofs Jpl_Model Jpl_Proofs Lag_Model Lag_Proofs.
From Verif Require Cheb.
Import ListNotations.
Local Open Scope R_scope.

(** * C87: the rotating frame and the starting points *)
(** A frame is refused when Sun and Earth coincide; otherwise, when the Earth
    moves across the line to the Sun, the axes are orthonormal and
    right-handed, the first from Sun to Earth, the second on the side to which
    the Earth moves, and the rate is that of the line of centres. *)
Theorem C87_frame gs ge gm s e m v : e <> s -> cross (vminus e s) v <> (0, 0, 0) ->
  exists f, frame_of gs ge gm s e m (Ok v) = Ok f /\ f_distance f = norm (vminus e s) /\ vminus e s = scale (norm (vminus e s)) (f_x f) /\
    dot3 (f_x f) (f_x f) = 1 /\ dot3 (f_y f) (f_y f) = 1 /\ dot3 (f_z f) (f_z f) = 1 /\
    dot3 (f_x f) (f_y f) = 0 /\ dot3 (f_x f) (f_z f) = 0 /\ dot3 (f_y f) (f_z f) = 0 /\ cross (f_x f) (f_y f) = f_z f /\
    0 < dot3 (f_y f) v /\ dot3 (f_z f) v = 0 /\
    cross (vminus e s) v = scale (f_omega f * (norm (vminus e s) * norm (vminus e s))) (f_z f).
Proof.
  intros Hd Hv. assert (Nz : vminus e s <> (0, 0, 0)). { intros H. apply Hd. destruct e as ((a, b), c), s as ((x, y), z). cbn in H. injection H as A B C. apply vec_eq; lra. }
  pose proof (norm_pos _ Nz) as Dp.
  assert (Ex : exists f, frame_of gs ge gm s e m (Ok v) = Ok f).
  { unfold frame_of. replace (rleb (norm (vminus e s)) 0) with false by (symmetry; unfold rleb; destruct (Rle_dec _ _); [lra|reflexivity]). cbn [obind].
    pose proof (norm_pos _ Hv) as Zp. set (rel := vminus e s) in *. set (zc := cross rel v) in *. replace (rleb (norm zc) 0) with false by (symmetry; unfold rleb; destruct (Rle_dec _ _); [lra|reflexivity]).
    assert (N1 : norm (cross (scale (1 / norm zc) zc) (scale (1 / norm rel) rel)) = 1).
    { assert (Z0 : dot3 (scale (1 / norm zc) zc) (scale (1 / norm rel) rel) = 0) by (rewrite dot_scale, (dot_comm zc), dot_scale, (dot_comm rel); unfold zc at 2; rewrite cross_dot_l; ring).
      unfold norm at 1. rewrite lagrange_identity, Z0, !dot_scale_both, <- !norm_sq. transitivity (sqrt 1); [|apply sqrt_1]. f_equal. field. lra. }
    unfold normalize. rewrite N1. replace (rltb 0 1) with true by (symmetry; apply rltb_t; lra). eauto. }
  destruct Ex as [f Hf]. exists f. split; [exact Hf|]. destruct (frame_facts gs ge gm s e m v f Hf) as (_ & _ & _ & _ & D & X & Xx & Yy & Xy & Zy & Zz & _ & _).
  destruct (frame_turning gs ge gm s e m v f Hf Hv) as (Zx & _ & Xyz & Yv & W & _ & Zc).
  assert (Par : cross (vminus e s) v = scale (norm (cross (vminus e s) v)) (f_z f)).
  { set (u := cross (vminus e s) v) in *. pose proof (norm_sq u) as Nu. assert (Q : dot3 (vminus u (scale (norm u) (f_z f))) (vminus u (scale (norm u) (f_z f))) = 0).
    { assert (Ex : dot3 (vminus u (scale (norm u) (f_z f))) (vminus u (scale (norm u) (f_z f))) = dot3 u u - 2 * norm u * dot3 (f_z f) u + norm u * norm u * dot3 (f_z f) (f_z f)) by (generalize (norm u); intros n; destruct u as ((a, b), c), (f_z f) as ((p, q), r); cbn; ring).
      rewrite Ex, Zc, Zz, <- Nu. ring. }
    assert (Z0 : vminus u (scale (norm u) (f_z f)) = (0, 0, 0)). { apply norm_zero. rewrite <- norm_sq in Q. apply Rmult_integral in Q. now destruct Q. }
    destruct u as ((a, b), c), (scale _ (f_z f)) as ((p, q), r). cbn in Z0. injection Z0 as A B C. apply vec_eq; lra. }
  rewrite D in X. repeat split; auto; try (rewrite dot_comm; assumption).
  - assert (Q : norm (cross (vminus e s) v) * dot3 (f_z f) v = 0). { rewrite <- dot_scale, <- Par. apply cross_dot_r. } apply Rmult_integral in Q. pose proof (norm_pos _ Hv). destruct Q; lra.
  - rewrite Par at 1. f_equal. rewrite W, D. field. lra.
Qed.
Theorem C87_refused gs ge gm s m vel : frame_of gs ge gm s s m vel = Err DegenerateFrame.
Proof. unfold frame_of. replace (rleb (norm (vminus s s)) 0) with true; [reflexivity|]. symmetry. apply rleb_t. unfold norm. replace (dot3 (vminus s s) (vminus s s)) with 0 by (destruct s as ((a, b), c); cbn; ring). rewrite sqrt_0. lra. Qed.
(** The velocity that turns the frame is the symmetric difference quotient of
    the Earth's place seen from the Sun over two hundredths of a day: exact
    for motion that is quadratic in time. *)
Theorem C87_velocity sun earth jd p q r (P : forall t, lift (earth t) = Ok (p t)) (Q : forall t, lift (sun t) = Ok (q t))
  (a b c : vec) (E : forall t, vminus (p t) (q t) = vplus a (vplus (scale t b) (scale (t * t) c))) :
  relative_velocity sun earth jd = Ok r -> scale 86400 r = vplus b (scale (2 * jd) c).
Proof.
  unfold relative_velocity. rewrite !P, !Q. cbn [obind]. rewrite !E. intros H. assert (Hr : r = scale (1 / (2 * (1 / 100) * day)) (vminus (vplus a (vplus (scale (jd + 1 / 100) b) (scale ((jd + 1 / 100) * (jd + 1 / 100)) c))) (vplus a (vplus (scale (jd - 1 / 100) b) (scale ((jd - 1 / 100) * (jd - 1 / 100)) c))))) by congruence.
  rewrite Hr. unfold day. destruct a as ((a1, a2), a3), b as ((b1, b2), b3), c as ((c1, c2), c3). cbn. apply vec_eq; field.
Qed.
(** L1 lies between Sun and Earth, L2 beyond the Earth, L3 behind the Sun. *)
Theorem C87_collinear gs ge gm s e m v f : 0 < gs -> 0 < ge -> frame_of gs ge gm s e m (Ok v) = Ok f ->
  exists t1 t2 t3, seed gs ge f L1 = vplus s (scale t1 (vminus e s)) /\ seed gs ge f L2 = vplus s (scale t2 (vminus e s)) /\ seed gs ge f L3 = vplus s (scale t3 (vminus e s)) /\
    0 < t1 < 1 /\ 1 < t2 < 2 /\ t3 < -1 /\
    3 * ((1 - t1) * (1 - t1) * (1 - t1)) = ge / (gs + ge) /\ t2 - 1 = 1 - t1 /\ t3 = -1 - 5 / 12 * (ge / (gs + ge)).
Proof.
  intros Gs Ge Hf. pose proof (gamma_range gs ge Gs Ge) as G. set (g := Rpower (ge / (gs + ge) / 3) (1 / 3)) in *.
  exists (1 - g), (1 + g), (-1 - 5 * (ge / (gs + ge)) / 12). pose proof (collinear gs ge gm Gs Ge s e m v f Hf) as C.
  repeat split; try (apply C; reflexivity); try lra.
  - assert (0 < ge / (gs + ge)) by (apply Rdiv_lt_0_compat; lra). lra.
  - assert (Q : g * g * g = ge / (gs + ge) / 3).
    { unfold g. rewrite <- !Rpower_plus. replace (1 / 3 + 1 / 3 + 1 / 3) with 1 by field. apply Rpower_1. apply Rdiv_lt_0_compat; [apply Rdiv_lt_0_compat|]; lra. }
    replace (1 - (1 - g)) with g by ring. rewrite Q. field. lra.
Qed.
(** L4 and L5 make equilateral triangles with Sun and Earth in the plane of
    motion, L4 on the side to which the Earth moves, L5 on the other. *)
Theorem C87_triangles gs ge gm s e m v f : 0 < gs -> 0 < ge -> cross (vminus e s) v <> (0, 0, 0) -> frame_of gs ge gm s e m (Ok v) = Ok f ->
  (forall p, p = L4 \/ p = L5 -> norm (vminus (seed gs ge f p) s) = norm (vminus e s) /\ norm (vminus (seed gs ge f p) e) = norm (vminus e s) /\
     dot3 (vminus (seed gs ge f p) s) (cross (vminus e s) v) = 0) /\
  0 < dot3 (cross (vminus e s) (vminus (seed gs ge f L4) s)) (cross (vminus e s) v) /\
  dot3 (cross (vminus e s) (vminus (seed gs ge f L5) s)) (cross (vminus e s) v) < 0.
Proof.
  intros Gs Ge Hv Hf. pose proof (frame_facts gs ge gm s e m v f Hf) as (_ & _ & _ & Dp & D & X & Xx & Yy & Xy & Zy & Zz & _ & _).
  pose proof (frame_turning gs ge gm s e m v f Hf Hv) as (Zx & _ & Xyz & Yv & W & _ & Zc). pose proof (norm_pos _ Hv) as Zp.
  assert (Par : cross (vminus e s) v = scale (norm (cross (vminus e s) v)) (f_z f)).
  { destruct (C87_frame gs ge gm s e m v) as (f' & Hf' & Df & _ & _ & _ & _ & _ & _ & _ & _ & _ & _ & Q); [|exact Hv|].
    - intros ->. rewrite C87_refused in Hf. discriminate.
    - rewrite Hf in Hf'. injection Hf' as <-. rewrite Q at 1. f_equal. rewrite W, D. field. lra. }
  split.
  - intros p P. destruct (triangle gs ge gm Gs Ge s e m v f Hf p P) as [A B]. rewrite <- D. split; [exact A|]. split; [exact B|].
    rewrite (seed_sun gs ge gm Gs Ge s e m v f Hf), Par, dot_comm, dot_scale, dot_comm, dot_plus, !dot_scale, (dot_comm (f_x f)), (dot_comm (f_y f)), Zx, Zy. ring.
  - assert (Turn : forall p, dot3 (cross (vminus e s) (vminus (seed gs ge f p) s)) (cross (vminus e s) v) = seed_y p * (f_distance f * f_distance f * norm (cross (vminus e s) v))).
    { intros p. rewrite Par at 1. rewrite dot_comm, dot_scale, (seed_sun gs ge gm Gs Ge s e m v f Hf). rewrite X at 2.
      assert (Ex : forall a b c, cross (scale a (f_x f)) (vplus (scale b (f_x f)) (scale c (f_y f))) = scale (a * c) (cross (f_x f) (f_y f))) by (intros; destruct (f_x f) as ((x1, x2), x3), (f_y f) as ((y1, y2), y3); cbn; apply vec_eq; ring).
      rewrite Ex, Xyz, dot_comm, dot_scale, Zz. ring. }
    rewrite !Turn. cbn [seed_y]. assert (0 < sqrt 3) by (apply sqrt_lt_R0; lra). assert (0 < f_distance f * f_distance f * norm (cross (vminus e s) v)) by (apply Rmult_lt_0_compat; [apply Rmult_lt_0_compat|]; assumption). split; nra.
Qed.
(** On a circular orbit without a Moon L4 and L5 are exact: the residual
    there is zero, and the solver answers with them at once. *)
Theorem C87_equilibrium gs ge s e m v f p : 0 < gs -> 0 < ge -> cross (vminus e s) v <> (0, 0, 0) -> frame_of gs ge 0 s e m (Ok v) = Ok f ->
  dot3 (vminus e s) v = 0 -> norm (vminus e s) * dot3 v v = gs + ge -> p = L4 \/ p = L5 ->
  residual gs ge 0 f (seed gs ge f p) = (0, 0, 0).
Proof.
  intros Gs Ge Hv Hf Or Sp P. apply (equilibrium gs ge 0 Gs Ge s e m v f Hf p eq_refl Hv); [|exact P].
  pose proof (frame_facts gs ge 0 s e m v f Hf) as (_ & _ & _ & Dp & D & _). pose proof (frame_turning gs ge 0 s e m v f Hf Hv) as (_ & _ & _ & _ & W & _).
  rewrite W. assert (N2 : norm (cross (vminus e s) v) * norm (cross (vminus e s) v) = f_distance f * f_distance f * dot3 v v) by (rewrite norm_sq, lagrange_identity, Or, D, norm_sq; ring).
  rewrite <- D in Sp. replace (norm (cross (vminus e s) v) / (f_distance f * f_distance f) * (norm (cross (vminus e s) v) / (f_distance f * f_distance f))) with (norm (cross (vminus e s) v) * norm (cross (vminus e s) v) / (f_distance f * f_distance f * (f_distance f * f_distance f))) by (field; lra).
  rewrite N2, <- Sp. field. lra.
Qed.
Theorem C87_seed_accepted gs ge sun earth moon s e g v p jd c : 0 < gs -> 0 < ge -> sun jd = Ok s -> earth jd = Ok e -> moon jd = Ok g -> relative_velocity sun earth jd = Ok v ->
  e <> s -> cross (vminus e s) v <> (0, 0, 0) -> dot3 (vminus e s) v = 0 -> norm (vminus e s) * dot3 v v = gs + ge -> p = L4 \/ p = L5 -> 0 <= res_tol c -> (0 < max_iterations c)%nat ->
  exists f, frame_new gs ge 0 sun earth moon jd = Ok f /\ solve gs ge 0 sun earth moon p jd c None = Ok {| s_pos := seed gs ge f p; s_iter := 0; s_step := None; s_res := 0 |}.
Proof.
  intros Gs Ge Es Ee Eg Ev Hd Hv Or Sp P T M. destruct (C87_frame gs ge 0 s e (vplus e g) v Hd Hv) as (f & Hf & _). exists f.
  assert (Hn : frame_new gs ge 0 sun earth moon jd = Ok f) by (unfold frame_new; rewrite Es, Ee, Eg; cbn [lift obind]; rewrite Ev; exact Hf). split; [exact Hn|].
  unfold solve. rewrite Hn. cbn [obind]. unfold newton. destruct (max_iterations c) as [|k]; [lia|]. cbn [newton_loop]. rewrite (C87_equilibrium gs ge s e _ v f p Gs Ge Hv Hf Or Sp P).
  assert (N0 : norm (0, 0, 0) = 0) by (unfold norm; cbn; replace (0 * 0 + 0 * 0 + 0 * 0) with 0 by ring; apply sqrt_0). rewrite N0. now rewrite (proj2 (rleb_t _ _) T).
Qed.
(** When the Earth moves along the line to the Sun the third axis is made up
    and need not be square to the first. *)
Theorem C87_radial_refuted : exists gs ge gm s e m v f, 0 < gs /\ 0 < ge /\ frame_of gs ge gm s e m (Ok v) = Ok f /\ dot3 (f_x f) (f_z f) <> 0.
Proof.
  assert (N : norm (vminus (3, 0, 4) (0, 0, 0)) = 5). { unfold norm. cbn. replace ((3 - 0) * (3 - 0) + (0 - 0) * (0 - 0) + (4 - 0) * (4 - 0)) with (5 * 5) by ring. apply sqrt_square. lra. }
  destruct (frame_of 1 1 0 (0, 0, 0) (3, 0, 4) (0, 0, 0) (Ok (0, 0, 0))) as [f|er|] eqn:E.
  - exists 1, 1, 0, (0, 0, 0), (3, 0, 4), (0, 0, 0), (0, 0, 0), f. split; [lra|]. split; [lra|]. split; [exact E|]. unfold frame_of in E. rewrite N in E. replace (rleb 5 0) with false in E by (symmetry; unfold rleb; destruct (Rle_dec _ _); [lra|reflexivity]).
    cbn [obind] in E. assert (C0 : cross (vminus (3, 0, 4) (0, 0, 0)) (0, 0, 0) = (0, 0, 0)) by (cbn; apply vec_eq; ring). rewrite C0 in E.
    assert (N0 : norm (0, 0, 0) = 0) by (unfold norm; cbn; replace (0 * 0 + 0 * 0 + 0 * 0) with 0 by ring; apply sqrt_0). rewrite N0 in E. replace (rleb 0 0) with true in E by (symmetry; apply rleb_t; lra).
    destruct (normalize _); [|discriminate]. injection E as <-. cbn. lra.
  - exfalso. unfold frame_of in E. rewrite N in E. replace (rleb 5 0) with false in E by (symmetry; unfold rleb; destruct (Rle_dec _ _); [lra|reflexivity]).
    cbn [obind] in E. assert (C0 : cross (vminus (3, 0, 4) (0, 0, 0)) (0, 0, 0) = (0, 0, 0)) by (cbn; apply vec_eq; ring). rewrite C0 in E.
    assert (N0 : norm (0, 0, 0) = 0) by (unfold norm; cbn; replace (0 * 0 + 0 * 0 + 0 * 0) with 0 by ring; apply sqrt_0). rewrite N0 in E. replace (rleb 0 0) with true in E by (symmetry; apply rleb_t; lra).
    unfold normalize in E. assert (P : 0 < norm (cross (0, 0, 1) (scale (1 / 5) (vminus (3, 0, 4) (0, 0, 0))))). { apply norm_pos. cbn. intros H. injection H as H1 H2 H3. lra. }
    rewrite (proj2 (rltb_t _ _) P) in E. discriminate.
  - exfalso. unfold frame_of in E. destruct (rleb _ 0); [discriminate|]. cbn [obind] in E. destruct (normalize _); discriminate.
Qed.
Example C87_case : exists f, frame_of 3 1 0 (0, 0, 0) (1, 0, 0) (0, 5, 0) (Ok (0, 2, 0)) = Ok f /\ residual 3 1 0 f (seed 3 1 f L4) = (0, 0, 0).
Proof.
  assert (Cx : cross (vminus (1, 0, 0) (0, 0, 0)) (0, 2, 0) <> (0, 0, 0)) by (cbn; intros H; injection H as H1 H2 H3; lra).
  destruct (C87_frame 3 1 0 (0, 0, 0) (1, 0, 0) (0, 5, 0) (0, 2, 0)) as (f & Hf & _); [intros H; injection H as H; lra|exact Cx|]. exists f. split; [exact Hf|].
  apply (C87_equilibrium 3 1 (0, 0, 0) (1, 0, 0) (0, 5, 0) (0, 2, 0)); auto; try lra; try (cbn; ring).
  assert (N : norm (vminus (1, 0, 0) (0, 0, 0)) = 1) by (unfold norm; cbn; replace ((1 - 0) * (1 - 0) + (0 - 0) * (0 - 0) + (0 - 0) * (0 - 0)) with 1 by ring; apply sqrt_1). rewrite N. cbn. ring.
Qed.

(** * C88: the linear solver and Newton's iteration *)
(** What the elimination returns is the one solution of the system. *)
Theorem C88_linear n a b x : solve_linear n a b = Some x ->
  forall y, (forall r, (r < n)%nat -> rsum n (fun k => a r k * y k) = b r) <-> (forall r, (r < n)%nat -> y r = x r).
Proof. exact (fun H => solve_linear_ok n a b x H). Qed.
Theorem C88_diagonal n a b : (forall r k, (r < n)%nat -> (k < n)%nat -> r <> k -> a r k = 0) -> (forall r, (r < n)%nat -> 1 / 1000000000000000000000000000000 <= Rabs (a r r)) ->
  exists x, solve_linear n a b = Some x /\ forall r, (r < n)%nat -> x r = b r / a r r.
Proof.
  intros O G. destruct (diagonal_loop n n 0 a b eq_refl) as [x E]; [split; [exact O|intros r H; apply G; lia]|]. exists x. split; [exact E|].
  assert (Dz : forall r, (r < n)%nat -> a r r <> 0) by (intros r R0 Z; specialize (G r R0); rewrite Z, Rabs_R0 in G; lra).
  intros r R0. symmetry. apply (proj1 (solve_linear_ok n a b x E (fun r => b r / a r r))); [|exact R0]. intros k K.
  rewrite (rsum_ext n _ (fun j => (if (k =? j)%nat then 1 else 0) * b j)); [apply (rsum_pick n k b K)|]. intros j J. destruct (Nat.eqb_spec k j) as [<-|N]; [field; now apply Dz|rewrite O by assumption; ring].
Qed.
(** An accepted step never exceeds a twentieth of the Sun-Earth distance. *)
Theorem C88_cap F c dist x acc : 0 <= dist -> newton_step F c dist x = Some acc -> norm acc <= 5 / 100 * dist.
Proof. intros D H. exact (step_cap F c dist x acc H D). Qed.
(** For an affine residual a step is exact, or as long as allowed. *)
Theorem C88_affine F A b c dist x acc : (forall v i, (i < 3)%nat -> at3 (F v) i = b i + (A i 0%nat * at3 v 0 + A i 1%nat * at3 v 1 + A i 2%nat * at3 v 2)) ->
  fd_step c <> 0 -> 0 <= dist -> newton_step F c dist x = Some acc -> F (vplus x acc) = (0, 0, 0) \/ norm acc = 5 / 100 * dist.
Proof. intros HF Hh D H. apply (affine_step F c dist x acc H D A b); [|exact Hh]. intros v i I. rewrite (HF v i I). cbn [rsum]. ring. Qed.
(** The step length: the first of 1, 1/2, ..., 1/2048 that does not increase
    the residual; if there is none, the full step. *)
Theorem C88_search F pos delta r :
  (exists k, (k < 12)%nat /\ line_search F pos delta r = scale (1 / 2 ^ k) delta /\ norm (F (vplus pos (line_search F pos delta r))) <= r /\
     forall j, (j < k)%nat -> r < norm (F (vplus pos (scale (1 / 2 ^ j) delta)))) \/
  (line_search F pos delta r = delta /\ forall j, (j < 12)%nat -> r < norm (F (vplus pos (scale (1 / 2 ^ j) delta)))).
Proof. apply search_spec. Qed.
(** So the residual can grow, by any factor, when smaller steps would lower it. *)
Theorem C88_growth_refuted K : 1 < K -> exists F pos delta, norm (F (vplus pos (line_search F pos delta (norm (F pos))))) = K * norm (F pos) /\ 0 < norm (F pos) /\
  norm (F (vplus pos (scale (1 / 4096) delta))) < norm (F pos).
Proof.
  intros Hk. set (F := fun v : vec => let '(x, _, _) := v in if Rle_dec x 0 then (1, 0, 0) else if Rle_dec x 1 then (0, 0, 0) else (K, 0, 0)).
  assert (N1 : forall q, 0 <= q -> norm (q, 0, 0) = q) by (intros q Q; unfold norm; cbn; replace (q * q + 0 * 0 + 0 * 0) with (q * q) by ring; now apply sqrt_square).
  assert (F0 : F (0, 0, 0) = (1, 0, 0)) by (unfold F; destruct (Rle_dec 0 0); [reflexivity|lra]).
  assert (Far : forall j, (j < 12)%nat -> norm (F (vplus (0, 0, 0) (scale (1 / 2 ^ j) (4096, 0, 0)))) = K).
  { intros j J. cbn [scale vplus]. unfold F. assert (Q : 1 < 0 + 1 / 2 ^ j * 4096).
    { rewrite Rplus_0_l. assert (2 ^ j < 4096). { replace 4096 with (2 ^ 12) by (cbn; ring). apply Rlt_pow; [lra|exact J]. } assert (0 < 2 ^ j) by (apply pow_lt; lra).
      apply (Rmult_lt_reg_r (2 ^ j)); [lra|]. replace (1 / 2 ^ j * 4096 * 2 ^ j) with 4096 by (field; lra). lra. }
    destruct (Rle_dec _ 0); [lra|]. destruct (Rle_dec _ 1); [lra|]. replace (0 + 1 / 2 ^ j * 0) with 0 by ring. rewrite N1; lra. }
  exists F, (0, 0, 0), (4096, 0, 0). rewrite F0, N1 by lra. split; [|split; [lra|]].
  - destruct (search_spec F (0, 0, 0) (4096, 0, 0) 1) as [(k & K12 & E & L & _)|[E _]].
    + rewrite E, Far in L by exact K12. lra.
    + rewrite E. specialize (Far 0%nat ltac:(lia)). cbn [pow] in Far. rewrite Rmult_1_r. etransitivity; [|exact Far]. do 2 f_equal. cbn. apply vec_eq; field.
  - cbn [scale vplus]. unfold F. destruct (Rle_dec _ 0); [lra|]. destruct (Rle_dec _ 1); [|lra]. rewrite N1; lra.
Qed.
(** Every answer: a position the iteration visited with a residual within
    the tolerance; or the position after a step within the step tolerance; or
    the visited position of least residual when the passes run out, accepted
    when the residual is at most 1e-6. *)
Theorem C88_answer F c dist p0 sol : newton F c dist p0 = Ok sol ->
  (visits F c dist p0 (s_iter sol) (s_pos sol) /\ s_res sol = norm (F (s_pos sol)) /\ s_res sol <= res_tol c /\ (s_iter sol < max_iterations c)%nat) \/
  (exists k x acc, visits F c dist p0 k x /\ res_tol c < norm (F x) /\ newton_step F c dist x = Some acc /\ norm acc <= step_tol c /\
     s_pos sol = vplus x acc /\ s_iter sol = S k /\ (k < max_iterations c)%nat /\ s_step sol = Some (norm acc) /\ s_res sol = norm (F x)) \/
  (visits F c dist p0 (s_iter sol) (s_pos sol) /\ s_res sol = norm (F (s_pos sol)) /\ s_res sol <= 1 / 1000000 /\
     (exists last, visits F c dist p0 (max_iterations c) last) /\ forall i x, (i < max_iterations c)%nat -> visits F c dist p0 i x -> s_res sol <= norm (F x)).
Proof.
  intros H. pose proof (newton_spec F c dist p0) as N. rewrite H in N. cbn [loop_spec] in N. destruct N as [[(A & B & C) D]|[[(k & x & acc & A & B & C & D & E & G & I & J) K]|B]]; [left; auto|right; left|right; right; exact B].
  exists k, x, acc. repeat split; auto. lia.
Qed.
(** Failure is told apart: no convergence only after all the passes, with no
    visited residual acceptable; a singular matrix only at a visited position. *)
Theorem C88_failure F c dist p0 : match newton F c dist p0 with
  | Ok _ => True
  | Err (DidNotConverge n _ _) => n = max_iterations c /\ (exists last, visits F c dist p0 n last) /\ forall i x, (i < n)%nat -> visits F c dist p0 i x -> 1 / 1000000 < norm (F x) /\ res_tol c < norm (F x)
  | Err SingularJacobian => exists k x, (k < max_iterations c)%nat /\ visits F c dist p0 k x /\ res_tol c < norm (F x) /\ newton_step F c dist x = None
  | _ => False
  end.
Proof. pose proof (newton_spec F c dist p0) as N. destruct (newton F c dist p0) as [s|e|]; [exact I| |exact N]. destruct e as [e| | |n st r]; try exact N. destruct N as (-> & L & M). auto. Qed.
(** A start that already meets the tolerance is returned as it is. *)
Theorem C88_start F c dist p0 : norm (F p0) <= res_tol c -> (0 < max_iterations c)%nat -> newton F c dist p0 = Ok {| s_pos := p0; s_iter := 0; s_step := None; s_res := norm (F p0) |}.
Proof. intros T M. unfold newton. destruct (max_iterations c); [lia|]. cbn [newton_loop]. now rewrite (proj2 (rleb_t _ _) T). Qed.
(** The tolerance that was asked for does not bound the residual of an answer. *)
Theorem C88_tolerance_refuted : exists F c dist p0 sol, newton F c dist p0 = Ok sol /\ 0 < res_tol c /\ res_tol c < s_res sol /\ s_res sol = norm (F (s_pos sol)).
Proof.
  set (c := {| max_iterations := 1; step_tol := 0; fd_step := 1; res_tol := 1 / 1000000000 |}).
  set (F := fun v : vec => vminus v (1 / 10000000, 0, 0)).
  assert (N1 : forall q, norm (q, 0, 0) = Rabs q) by (intros q; unfold norm; cbn; replace (q * q + 0 * 0 + 0 * 0) with (Rsqr q) by (unfold Rsqr; ring); apply sqrt_Rsqr_abs).
  assert (F0 : norm (F (0, 0, 0)) = 1 / 10000000). { unfold F. cbn [vminus]. replace (0 - 0) with 0 by ring. rewrite N1, Rabs_left; lra. }
  assert (Jd : exists y, solve_linear 3 (jacobian F (0, 0, 0) 1) (at3 (scale (-1) (F (0, 0, 0)))) = Some y /\ forall r, (r < 3)%nat -> y r = at3 (scale (-1) (F (0, 0, 0))) r / jacobian F (0, 0, 0) 1 r r).
  { apply C88_diagonal.
    - intros r k Hr Hk N. destruct r as [|[|[|r]]], k as [|[|[|k]]]; try lia; unfold jacobian, F, axis, of3; cbn; field.
    - intros r Hr. replace (jacobian F (0, 0, 0) 1 r r) with 1; [rewrite Rabs_R1; lra|]. destruct r as [|[|[|r]]]; try lia; unfold jacobian, F, axis, of3; cbn; field. }
  destruct Jd as (y & Ey & Hy). assert (Yv : of3 y = (1 / 10000000, 0, 0)).
  { unfold of3. rewrite !Hy by lia. unfold jacobian, F, axis, of3. cbn. apply vec_eq; field. }
  destruct (newton_step F c 1 (0, 0, 0)) as [acc|] eqn:St; [|unfold newton_step in St; cbn [fd_step c] in St; rewrite Ey in St; discriminate].
  assert (Acc : 0 < norm acc).
  { destruct (C88_affine F (fun i j => if (i =? j)%nat then 1 else 0) (fun i => at3 (-1 / 10000000, 0, 0) i) c 1 (0, 0, 0) acc) as [Z|Z]; try lra; try exact St.
    - intros ((p, q), w) i I. destruct i as [|[|[|i]]]; try lia; unfold F; cbn; field.
    - cbn. lra.
    - apply norm_pos. intros ->. unfold F in Z. cbn in Z. injection Z as Z1 Z2 Z3. lra. }
  exists F, c, 1, (0, 0, 0), {| s_pos := (0, 0, 0); s_iter := 0; s_step := None; s_res := 1 / 10000000 |}. cbn [res_tol c s_res s_pos]. split; [|split; [lra|split; [lra|now rewrite F0]]].
  unfold newton. cbn [max_iterations c newton_loop]. fold c. rewrite F0. replace (rleb (1 / 10000000) (res_tol c)) with false by (symmetry; unfold rleb; cbn [res_tol c]; destruct (Rle_dec _ _); [lra|reflexivity]).
  rewrite St. replace (rleb (norm acc) (step_tol c)) with false by (symmetry; unfold rleb; cbn [step_tol c]; destruct (Rle_dec _ _); [lra|reflexivity]).
  unfold better, finish. cbn [b_res b_pos b_iter b_step]. now rewrite (proj2 (rleb_t _ _)) by lra.
Qed.
(** One pass to the root of a residual that is a shift. *)
Example C88_case : let F := fun v : vec => vminus v (1, 0, 0) in let c := {| max_iterations := 5; step_tol := 0; fd_step := 1; res_tol := 0 |} in
  exists sol, newton F c 1000 (0, 0, 0) = Ok sol /\ s_pos sol = (1, 0, 0) /\ s_iter sol = 1%nat /\ s_res sol = 0.
Proof.
  intros F c.
  assert (N1 : forall q, norm (q, 0, 0) = Rabs q) by (intros q; unfold norm; cbn; replace (q * q + 0 * 0 + 0 * 0) with (Rsqr q) by (unfold Rsqr; ring); apply sqrt_Rsqr_abs).
  assert (F0 : norm (F (0, 0, 0)) = 1). { unfold F. cbn [vminus]. replace (0 - 0) with 0 by ring. rewrite N1, Rabs_left; lra. }
  assert (Jd : exists y, solve_linear 3 (jacobian F (0, 0, 0) 1) (at3 (scale (-1) (F (0, 0, 0)))) = Some y /\ forall r, (r < 3)%nat -> y r = at3 (scale (-1) (F (0, 0, 0))) r / jacobian F (0, 0, 0) 1 r r).
  { apply C88_diagonal.
    - intros r k Hr Hk N. destruct r as [|[|[|r]]], k as [|[|[|k]]]; try lia; unfold jacobian, F, axis, of3; cbn; field.
    - intros r Hr. replace (jacobian F (0, 0, 0) 1 r r) with 1; [rewrite Rabs_R1; lra|]. destruct r as [|[|[|r]]]; try lia; unfold jacobian, F, axis, of3; cbn; field. }
  destruct Jd as (y & Ey & Hy). assert (Yv : of3 y = (1, 0, 0)).
  { unfold of3. rewrite !Hy by lia. unfold jacobian, F, axis, of3. cbn. apply vec_eq; field. }
  assert (F1 : F (1, 0, 0) = (0, 0, 0)) by (unfold F; cbn; apply vec_eq; ring).
  assert (V1 : vplus (0, 0, 0) (1, 0, 0) = (1, 0, 0)) by (cbn; apply vec_eq; ring).
  assert (S1 : scale 1 (1, 0, 0) = (1, 0, 0)) by (cbn; apply vec_eq; ring).
  assert (St : newton_step F c 1000 (0, 0, 0) = Some (1, 0, 0)).
  { unfold newton_step. cbn [fd_step c]. rewrite Ey, Yv, N1, Rabs_R1. replace (rltb (5 / 100 * 1000) 1) with false by (symmetry; unfold rltb; destruct (Rlt_dec _ _); [lra|reflexivity]).
    f_equal. unfold line_search. cbn [line_loop]. rewrite S1, V1, F1, F0, N1, Rabs_R0. now rewrite (proj2 (rleb_t _ _)) by lra. }
  eexists. split; [unfold newton; cbn [max_iterations c newton_loop]; fold c; rewrite F0, St, V1, F1, N1, Rabs_R1, (N1 0), Rabs_R0; cbn [res_tol step_tol c]|].
  - replace (rleb 1 0) with false by (symmetry; unfold rleb; destruct (Rle_dec _ _); [lra|reflexivity]). replace (rleb 0 0) with true by (symmetry; apply rleb_t; lra). reflexivity.
  - auto.
Qed.

(** * C89: fitted records *)
Section C89.
  Variable truth : R -> outcome vec lag_err.
  Variable nodes : nat -> list R.
  Variable fit_coeffs : list R -> list R.
  Notation fit := (fit_with_order truth nodes fit_coeffs).
  Definition sane (c : fit_config) : Prop := c_from c < c_to c /\ 0 < c_block c /\ 0 < c_step c.
  Lemma valid_sane c : valid_config c = true <-> sane c.
  Proof.
    unfold valid_config, sane, secs. rewrite !andb_true_iff, !rltb_t. unfold day. split; intros ((A & B) & C) || intros (A & B & C); repeat split; lra.
  Qed.
  Lemma fit_inv c order t : fit c order = Some (Ok t) -> sane c /\ t_ncoeff t = order /\ tiles (t_records t) (secs (c_from c)) (secs (c_to c)) (c_block c) /\ Forall (sampled truth nodes fit_coeffs order) (t_records t) /\
    exists fuel, validate truth fuel (t_records t) order (secs (c_from c)) (secs (c_to c)) (c_step c) 0 0 0 = Some (Ok (t_max t, t_rms t)).
  Proof.
    unfold fit_with_order. destruct (valid_config c) eqn:V; [|discriminate]. apply valid_sane in V. pose proof V as (A & B & C).
    destruct (fit_blocks _ _ _ _ _ _ _ _) as [[l|e|]|] eqn:Fb; try discriminate. destruct (validate _ _ _ _ _ _ _ _ _ _) as [[[m r]|e|]|] eqn:Va; try discriminate. intros [= <-]. cbn.
    apply blocks_tile in Fb; [|unfold secs, day; lra|exact B]. destruct Fb. repeat split; auto. eauto.
  Qed.
  (** The loops end whatever the solver does. *)
  Theorem C89_ends c order : fit c order <> None.
  Proof.
    unfold fit_with_order. destruct (valid_config c) eqn:V; [|discriminate]. apply valid_sane in V as (A & B & C).
    pose proof (blocks_end truth nodes fit_coeffs _ order (secs (c_from c)) (secs (c_to c)) (c_block c) B (Rlt_le _ _ (turns_enough (secs (c_to c) - secs (c_from c)) _ B))) as H.
    destruct (fit_blocks _ _ _ _ _ _ _ _) as [[l|e|]|]; try discriminate; [|contradiction].
    pose proof (validate_end truth (turns (secs (c_to c) - secs (c_from c) + 1 / 1000000000) (c_step c)) l order (secs (c_from c)) (secs (c_to c)) (c_step c) 0 0 0 C) as H2.
    destruct (validate _ _ _ _ _ _ _ _ _ _) as [[[m r]|e|]|]; try discriminate. exfalso. apply H2; [|reflexivity]. pose proof (turns_enough (secs (c_to c) - secs (c_from c) + 1 / 1000000000) _ C). lra.
  Qed.
  (** Each record agrees with the solver at its nodes. *)
  Theorem C89_nodes c order t : fit c order = Some (Ok t) ->
    (forall ys, length ys = length (nodes order) -> map (evaluate (fit_coeffs ys)) (nodes order) = ys) ->
    forall r, In r (t_records t) -> forall x, In x (nodes order) -> truth (jd_of (r_mid r + r_radius r * x)) = Ok (evaluate (r_x r) x, evaluate (r_y r) x, evaluate (r_z r) x).
  Proof.
    intros H I r Hr x Hx. apply fit_inv in H as (_ & _ & _ & S & _). rewrite Forall_forall in S. destruct (S r Hr) as (ps & F2 & -> & -> & ->).
    assert (L : length ps = length (nodes order)) by (clear - F2; induction F2; cbn; congruence).
    assert (G : forall g : vec -> R, map (evaluate (fit_coeffs (map g ps))) (nodes order) = map g ps) by (intros g; apply I; now rewrite map_length).
    pose proof (G (fun p => at3 p 0)) as G0. pose proof (G (fun p => at3 p 1)) as G1. pose proof (G (fun p => at3 p 2)) as G2. clear G I S L.
    revert Hx G0 G1 G2. generalize (fit_coeffs (map (fun p => at3 p 0) ps)) (fit_coeffs (map (fun p => at3 p 1) ps)) (fit_coeffs (map (fun p => at3 p 2) ps)). intros a b d.
    induction F2 as [|y p ns ps E F2 IH]; intros Hx G0 G1 G2; [contradiction|]. cbn [map] in *. injection G0 as A0 B0. injection G1 as A1 B1. injection G2 as A2 B2. destruct Hx as [->|Hx]; [|now apply IH].
    rewrite E, A0, A1, A2. change (at3 p 0%nat, at3 p 1%nat, at3 p 2%nat) with (of3 (at3 p)). now rewrite of3_at3.
  Qed.
  (** The records follow one another from the first date to the last, none
      longer than a block. *)
  Theorem C89_tiles c order t : fit c order = Some (Ok t) -> tiles (t_records t) (secs (c_from c)) (secs (c_to c)) (c_block c).
  Proof. intros H. now apply fit_inv in H. Qed.
  (** So every date from the first to the last can be evaluated, and no later one. *)
  Theorem C89_covered c order t jd : order <> 0%nat -> fit c order = Some (Ok t) ->
    (c_from c <= jd <= c_to c -> exists p, evaluate_records (t_records t) (t_ncoeff t) jd = Ok p) /\
    (jd < c_from c \/ c_to c < jd -> evaluate_records (t_records t) (t_ncoeff t) jd = Err (Range jd (Some (c_from c)) (Some (c_to c)))).
  Proof.
    intros N H. apply fit_inv in H as (S & -> & T & _). pose proof S as (A & B & C). assert (Ab : secs (c_from c) < secs (c_to c)) by (unfold secs, day; lra). split.
    - intros J. rewrite <- (jd_of_secs jd). apply (evaluate_covered _ _ _ _ _ T Ab N). unfold secs, day. lra.
    - intros J. assert (Ne : t_records t <> []) by (intros E; rewrite E in T; cbn in T; lra). unfold evaluate_records.
      replace (match t_records t with [] => true | _ => false end || (order =? 0)%nat) with false by (destruct (t_records t); [contradiction|]; symmetry; now apply Nat.eqb_neq).
      change ((jd - j2000) * day) with (secs jd).
      destruct (eval_out (t_records t) (secs jd) jd None None) as (f & g & E).
      { intros r I R0. destruct (tiles_in _ _ _ _ r T I) as (P & Q & _). unfold secs, day in *. destruct J; lra. }
      rewrite E. apply eval_quotes in E; [|now left]. destruct E as (x & y & -> & (X1 & _ & X2) & (Y1 & _ & Y2)).
      assert (First : exists r, In r (t_records t) /\ r_start r = secs (c_from c)) by (destruct (t_records t) as [|r q]; [contradiction|]; cbn [tiles] in T; exists r; split; [now left|apply T]).
      assert (Last : forall l a b k, tiles l a b k -> l <> [] -> exists r, In r l /\ r_end r = b).
      { induction l as [|r q IH]; intros a b k Tl Nl; [contradiction|]. cbn [tiles] in Tl. destruct Tl as (_ & _ & _ & Tl). destruct q as [|r' q]; [cbn in Tl; exists r; split; [now left|exact Tl]|].
        destruct (IH _ _ _ Tl ltac:(discriminate)) as (w & I & E). exists w. split; [now right|exact E]. }
      destruct (Last _ _ _ _ T Ne) as (rl & Il & El). destruct First as (rf & If & Ef).
      assert (x = secs (c_from c)). { destruct X1 as [X1|(r & I & ->)]; [discriminate|]. specialize (X2 rf If). destruct (tiles_in _ _ _ _ r T I) as (P & _). lra. }
      assert (y = secs (c_to c)). { destruct Y1 as [Y1|(r & I & ->)]; [discriminate|]. specialize (Y2 rl Il). destruct (tiles_in _ _ _ _ r T I) as (_ & P & _). lra. }
      subst x y. now rewrite !jd_of_secs.
  Qed.
  (** The reported errors hold at every validation date, in metres. *)
  Theorem C89_validated c order t : fit c order = Some (Ok t) -> 0 <= t_rms t <= t_max t /\
    forall k, c_from c + INR k * c_step c / 86400 <= c_to c ->
      exists p q, truth (c_from c + INR k * c_step c / 86400) = Ok p /\ evaluate_records (t_records t) (t_ncoeff t) (c_from c + INR k * c_step c / 86400) = Ok q /\ norm (vminus p q) * 1000 <= t_max t.
  Proof.
    intros H. apply fit_inv in H as (S & -> & _ & _ & fuel & V). destruct S as (A & B & C).
    apply validate_ok in V; [|exact C|lra|cbn; lra]. destruct V as (_ & R0 & G). split; [exact R0|]. intros k K.
    assert (E : jd_of (secs (c_from c) + INR k * c_step c) = c_from c + INR k * c_step c / 86400) by (unfold jd_of, secs, day; field). rewrite <- E. apply G. unfold secs, day. lra.
  Qed.
  (** When the solver always answers, a fit succeeds exactly when no
      validation date falls within a nanosecond after the end. *)
  Theorem C89_succeeds c order : (forall jd, exists p, truth jd = Ok p) -> sane c -> order <> 0%nat ->
    (forall k, secs (c_from c) + INR k * c_step c <= secs (c_to c) + 1 / 1000000000 -> secs (c_from c) + INR k * c_step c <= secs (c_to c)) ->
    exists t, fit c order = Some (Ok t).
  Proof.
    intros Tt S N G. pose proof S as (A & B & C). unfold fit_with_order. rewrite (proj2 (valid_sane c) S).
    destruct (blocks_total truth nodes fit_coeffs Tt (turns (secs (c_to c) - secs (c_from c)) (c_block c)) order (secs (c_from c)) (secs (c_to c)) (c_block c) B (Rlt_le _ _ (turns_enough _ _ B))) as [l E]. rewrite E.
    assert (Ab : secs (c_from c) < secs (c_to c)) by (unfold secs, day; lra). destruct (blocks_tile _ _ _ _ _ _ _ _ _ (Rlt_le _ _ Ab) B E) as [T _].
    destruct (validate_total truth Tt l order _ _ _ T Ab N (turns (secs (c_to c) - secs (c_from c) + 1 / 1000000000) (c_step c)) (secs (c_from c)) (c_step c) 0 0 0 C) as (m & r & ->); [lra| |exact G|eauto].
    pose proof (turns_enough (secs (c_to c) - secs (c_from c) + 1 / 1000000000) _ C). lra.
  Qed.
  Theorem C89_grid_refuted c order k : (forall jd, exists p, truth jd = Ok p) -> sane c -> order <> 0%nat ->
    secs (c_to c) < secs (c_from c) + INR k * c_step c <= secs (c_to c) + 1 / 1000000000 -> fit c order = Some (Err InvalidConfig).
  Proof.
    intros Tt S N G. pose proof S as (A & B & C). unfold fit_with_order. rewrite (proj2 (valid_sane c) S).
    destruct (blocks_total truth nodes fit_coeffs Tt (turns (secs (c_to c) - secs (c_from c)) (c_block c)) order (secs (c_from c)) (secs (c_to c)) (c_block c) B (Rlt_le _ _ (turns_enough _ _ B))) as [l E]. rewrite E.
    assert (Ab : secs (c_from c) < secs (c_to c)) by (unfold secs, day; lra). destruct (blocks_tile _ _ _ _ _ _ _ _ _ (Rlt_le _ _ Ab) B E) as [T _].
    rewrite (validate_beyond truth Tt l order _ _ _ T Ab N k); auto; [lra|].
    pose proof (turns_enough (secs (c_to c) - secs (c_from c) + 1 / 1000000000) _ C). lra.
  Qed.
End C89.
(** Evaluation in any list of records: the first that holds the date. *)
Theorem C89_record l n jd v : evaluate_records l n jd = Ok v ->
  exists pre r post, l = pre ++ r :: post /\ (forall q, In q pre -> ~ (r_start q <= secs jd <= r_end q)) /\ r_start r <= secs jd <= r_end r /\
    v = (evaluate (r_x r) ((secs jd - r_mid r) / r_radius r), evaluate (r_y r) ((secs jd - r_mid r) / r_radius r), evaluate (r_z r) ((secs jd - r_mid r) / r_radius r)).
Proof. unfold evaluate_records. destruct (_ || _); [discriminate|]. apply eval_first. Qed.
(** With the Chebyshev nodes and fit, where polynomials of as many coefficients as the order follow the solver to within eps
    over a block around the date, the archive follows it to within 2 order eps: a polynomial motion is reproduced exactly. *)
Theorem C89_near truth c order t jd (g : nat -> R -> R) eps : order <> 0%nat -> fit_with_order truth Cheb.nodes Cheb.fit_coeffs c order = Some (Ok t) ->
  c_from c <= jd <= c_to c -> (forall i, Cheb.poly order (g i)) ->
  (forall j, c_from c <= j <= c_to c -> Rabs (j - jd) * 86400 <= c_block c -> exists v, truth j = Ok v /\ forall i, (i < 3)%nat -> Rabs (at3 v i - g i j) <= eps) ->
  exists p q, truth jd = Ok p /\ evaluate_records (t_records t) (t_ncoeff t) jd = Ok q /\ forall i, (i < 3)%nat -> Rabs (at3 q i - at3 p i) <= 2 * INR order * eps.
Proof.
  intros N F J Pg H. destruct (proj1 (C89_covered truth _ _ c order t jd N F) J) as (q & Eq).
  assert (Sn : 0 < c_block c) by (apply fit_inv in F as ((_ & B & _) & _); exact B).
  destruct (H jd J) as (p & Ep & _); [rewrite Rminus_diag_eq, Rabs_R0 by reflexivity; lra|]. exists p, q. split; [exact Ep|]. split; [exact Eq|].
  apply fit_inv in F as (_ & _ & T & Sm & _). apply C89_record in Eq as (pre & r & post & El & _ & Rr & ->).
  assert (Ir : In r (t_records t)) by (rewrite El; apply in_or_app; right; now left). rewrite Forall_forall in Sm. destruct (Sm r Ir) as (ps & F2 & -> & -> & ->).
  destruct (tiles_in _ _ _ _ r T Ir) as (T1 & T2 & T3). pose proof (tiles_block _ _ _ _ r T Ir) as T4. unfold r_start, r_end in *. unfold secs, day in *.
  set (tr := fun j => match truth j with Ok v => v | _ => (0, 0, 0) end).
  assert (Eps : ps = map (fun n => tr (jd_of (r_mid r + r_radius r * n))) (Cheb.nodes order)). { clear - F2. induction F2 as [|n v ns vs E _ IH]; [reflexivity|]. cbn [map]. f_equal; [|exact IH]. unfold tr. now rewrite E. }
  assert (K : forall i, (i < 3)%nat -> Rabs (evaluate (Cheb.fit_coeffs (map (fun v => at3 v i) ps)) (((jd - j2000) * 86400 - r_mid r) / r_radius r) - at3 p i) <= 2 * INR order * eps).
  { intros i I. rewrite Eps, map_map. set (x0 := ((jd - j2000) * 86400 - r_mid r) / r_radius r).
    assert (Ex : jd_of (r_mid r + r_radius r * x0) = jd) by (unfold x0, jd_of, day; field; lra). assert (Etr : tr jd = p) by (unfold tr; now rewrite Ep).
    assert (X0 : -1 <= x0 <= 1). { unfold x0. split; [apply Rmult_le_reg_r with (r_radius r)|apply Rmult_le_reg_r with (r_radius r)]; try lra; unfold Rdiv; rewrite Rmult_assoc, Rinv_l, Rmult_1_r by lra; lra. }
    rewrite <- Etr, <- Ex. apply (Cheb.fit_near_best order (fun n => at3 (tr (jd_of (r_mid r + r_radius r * n))) i) (fun n => g i (jd_of (r_mid r + r_radius r * n)))); [lia| | |exact X0].
    - apply (Cheb.poly_ext _ (fun n => g i ((j2000 + r_mid r / day) + r_radius r / day * n))); [intros n; f_equal; unfold jd_of, day; field|]. apply Cheb.poly_affine, Pg.
    - intros y Y. assert (Sp : r_mid r - r_radius r <= r_mid r + r_radius r * y <= r_mid r + r_radius r) by (assert (0 <= r_radius r * (1 - y)) by (apply Rmult_le_pos; lra); assert (0 <= r_radius r * (1 + y)) by (apply Rmult_le_pos; lra); lra).
      destruct (H (jd_of (r_mid r + r_radius r * y))) as (v & Ev & Hv); [unfold jd_of, day; lra| |].
      + rewrite <- (Rabs_pos_eq 86400) by lra. rewrite <- Rabs_mult. replace ((jd_of (r_mid r + r_radius r * y) - jd) * 86400) with ((r_mid r + r_radius r * y) - (jd - j2000) * 86400) by (unfold jd_of, day; field). apply Rabs_le. lra.
      + unfold tr at 1. rewrite Ev. now apply Hv. }
  intros i I. destruct i as [|[|[|i]]]; [apply (K 0%nat); lia|apply (K 1%nat); lia|apply (K 2%nat); lia|lia].
Qed.
(** The fit returns the first order in the list whose error meets the tolerance. *)
Lemma orders_inv run tol : forall orders best f, fit_orders run tol orders best = Ok f ->
  exists pre n post, orders = pre ++ n :: post /\ run n = Ok f /\ t_max f <= tol /\ forall m, In m pre -> exists g, run m = Ok g /\ tol < t_max g.
Proof.
  induction orders as [|n t IH]; intros best f H; cbn [fit_orders] in H; [discriminate|]. destruct (run n) as [g|e|] eqn:E; try discriminate. destruct (rleb (t_max g) tol) eqn:T.
  - injection H as <-. apply rleb_t in T. exists [], n, t. repeat split; auto. intros m [].
  - destruct (IH _ _ H) as (pre & k & post & -> & A & B & C). exists (n :: pre), k, post. repeat split; auto. intros m [<-|I]; [|now apply C]. exists g. split; [exact E|]. unfold rleb in T. destruct (Rle_dec _ _); [discriminate|lra].
Qed.
Theorem C89_order run tol f : fit_lagrange run tol = Ok f ->
  exists pre n post, [16; 24; 32; 40; 48]%nat = pre ++ n :: post /\ run n = Ok f /\ t_max f <= tol /\ forall m, In m pre -> exists g, run m = Ok g /\ tol < t_max g.
Proof. apply orders_inv. Qed.
Theorem C89_within truth nodes coeffs c tol f run : (forall n, Some (run n) = fit_with_order truth nodes coeffs c n) -> fit_lagrange run tol = Ok f ->
  forall k, c_from c + INR k * c_step c / 86400 <= c_to c ->
    exists p q, truth (c_from c + INR k * c_step c / 86400) = Ok p /\ evaluate_records (t_records f) (t_ncoeff f) (c_from c + INR k * c_step c / 86400) = Ok q /\ norm (vminus p q) * 1000 <= tol.
Proof.
  intros Hr H k K. apply C89_order in H as (pre & n & post & _ & E & T & _). assert (F : fit_with_order truth nodes coeffs c n = Some (Ok f)) by (rewrite <- Hr, E; reflexivity).
  destruct (C89_validated truth nodes coeffs c n f F) as (_ & G). destruct (G k K) as (p & q & A & B & C). exists p, q. repeat split; auto. lra.
Qed.
(** Failure quotes the error of order 48, not the least one. *)
Theorem C89_last run tol : (forall n, exists f, run n = Ok f /\ tol < t_max f) -> exists f, run 48%nat = Ok f /\ fit_lagrange run tol = Err (ToleranceNotMet (Some (t_max f))).
Proof.
  intros H. destruct (H 48%nat) as (f & E & T). exists f. split; [exact E|]. unfold fit_lagrange. assert (Lg : forall g, tol < t_max g -> rleb (t_max g) tol = false) by (intros g L; unfold rleb; destruct (Rle_dec _ _); [lra|reflexivity]).
  destruct (H 16%nat) as (f1 & E1 & T1), (H 24%nat) as (f2 & E2 & T2), (H 32%nat) as (f3 & E3 & T3), (H 40%nat) as (f4 & E4 & T4).
  cbn [fit_orders]. rewrite E1, E2, E3, E4, E, !Lg by assumption. reflexivity.
Qed.
Theorem C89_best_refuted : exists run tol e f, fit_lagrange run tol = Err (ToleranceNotMet (Some e)) /\ run 16%nat = Ok f /\ t_max f < e.
Proof.
  set (run := fun n => @Ok fitted fit_err {| t_ncoeff := n; t_records := []; t_max := INR n; t_rms := 0 |}). exists run, 1, (INR 48), {| t_ncoeff := 16; t_records := []; t_max := INR 16; t_rms := 0 |}.
  assert (H : forall n, exists f, run n = Ok f /\ 0 < 1) by (intros n; eexists; split; [reflexivity|lra]). split; [|split; [reflexivity|cbn [t_max]; apply lt_INR; lia]].
  unfold fit_lagrange, run. cbn [fit_orders t_max]. assert (Lg : forall n, (1 < n)%nat -> rleb (INR n) 1 = false) by (intros n L; apply lt_INR in L; unfold rleb; destruct (Rle_dec _ _) as [Q|]; [change (INR 1) with 1 in L; lra|reflexivity]).
  rewrite !Lg by lia. reflexivity.
Qed.
(** The archive is used wherever it has the date; outside it the solver
    decides, and a solver failure panics. *)
Theorem C89_fallback archive solved : fallback_or_solve archive solved = match archive, solved with Ok p, _ => Ok p | Err _, Ok s => Ok (s_pos s) | _, _ => Panic end.
Proof. destruct archive, solved; reflexivity. Qed.
Example C89_case : exists t, fit_with_order (fun _ => Ok (1, 2, 3)) Cheb.nodes Cheb.fit_coeffs {| c_from := j2000; c_to := j2000 + 1; c_block := 43200; c_step := 21600; c_tol := 1 |} 16 = Some (Ok t).
Proof.
  apply C89_succeeds; [eauto|unfold sane; cbn; lra|lia|]. intros k H. unfold secs in *. cbn [c_from c_to c_step] in *. unfold day in *. destruct (le_lt_dec k 4) as [L|L].
  - apply le_INR in L. replace (INR 4) with 4 in L by (cbn; ring). lra.
  - apply le_INR in L. replace (INR 5) with 5 in L by (cbn; ring). lra.
Qed.
Print Assumptions C87_frame. Print Assumptions C87_velocity. Print Assumptions C87_collinear. Print Assumptions C87_triangles. Print Assumptions C87_equilibrium. Print Assumptions C87_seed_accepted. Print Assumptions C87_radial_refuted.
Print Assumptions C88_linear. Print Assumptions C88_diagonal. Print Assumptions C88_cap. Print Assumptions C88_affine. Print Assumptions C88_search. Print Assumptions C88_growth_refuted. Print Assumptions C88_answer. Print Assumptions C88_failure. Print Assumptions C88_tolerance_refuted.
Print Assumptions C89_ends. Print Assumptions C89_nodes. Print Assumptions C89_covered. Print Assumptions C89_validated. Print Assumptions C89_succeeds. Print Assumptions C89_grid_refuted. Print Assumptions C89_record. Print Assumptions C89_near. Print Assumptions C89_order. Print Assumptions C89_within. Print Assumptions C89_last. Print Assumptions C89_best_refuted.
