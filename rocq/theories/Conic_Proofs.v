(** Proofs about positions on Keplerian orbits. *)
From Coq Require Import Reals Lra Lia.
From Coquelicot Require Import Coquelicot.
From Verif Require Import Base Ang Conic_Model.
Local Open Scope R_scope.

(** * Vectors *)
Definition vx (v : vec3) : R := fst (fst v).
Definition vy (v : vec3) : R := snd (fst v).
Definition vz (v : vec3) : R := snd v.
Definition dot (u v : vec3) : R := vx u * vx v + vy u * vy v + vz u * vz v.
Definition cross (u v : vec3) : vec3 := (vy u * vz v - vz u * vy v, vz u * vx v - vx u * vz v, vx u * vy v - vy u * vx v).
Definition scale (k : R) (v : vec3) : vec3 := (k * vx v, k * vy v, k * vz v).
Definition add (u v : vec3) : vec3 := (vx u + vx v, vy u + vy v, vz u + vz v).
Definition norm (v : vec3) : R := sqrt (dot v v).

(** The point at [x] along the direction of periapsis and [y] along the
    direction a quarter turn ahead: rotations of the plane by the argument of
    periapsis about z, by the inclination about x, by the node about z. *)
Definition rot_z (a : R) (v : vec3) : vec3 := (cos a * vx v - sin a * vy v, sin a * vx v + cos a * vy v, vz v).
Definition rot_x (a : R) (v : vec3) : vec3 := (vx v, cos a * vy v - sin a * vz v, sin a * vy v + cos a * vz v).
Definition place (inc argp node x y : R) : vec3 := rot_z (rad node) (rot_x (rad inc) (rot_z (rad argp) (x, y, 0))).
Definition pole (inc node : R) : vec3 := rot_z (rad node) (rot_x (rad inc) (0, 0, 1)).

Ltac unv := unfold norm, dot, cross, scale, add, place, pole, rot_z, rot_x, vx, vy, vz; cbn [fst snd].
(** Replaces a derivative by its known value. *)
Ltac dr D := match type of D with is_derive ?f ?t ?l => match goal with |- context [Derive ?g t] => replace (Derive g t) with l by (symmetry; exact (is_derive_unique _ _ _ D)) end end.
Ltac vec_eq := apply f_equal2; [apply f_equal2|].
Lemma sc a : sin a * sin a = 1 - cos a * cos a.
Proof. pose proof (sin2_cos2 a) as H. unfold Rsqr in H. lra. Qed.

Lemma rotate_place r inc argp node nu : rotate r inc argp node nu = place inc argp node (r * cos nu) (r * sin nu).
Proof. unfold rotate. unv. rewrite sin_plus, cos_plus. vec_eq; ring. Qed.
Lemma precomputed_same r inc argp node nu : rotate_precomputed r (trig_of inc argp node) nu = rotate r inc argp node nu.
Proof. unfold rotate, rotate_precomputed, trig_of. cbn [t_sin_i t_cos_i t_sin_w t_cos_w t_sin_n t_cos_n]. rewrite sin_plus, cos_plus. reflexivity. Qed.

Lemma rot_z_dot a u v : dot (rot_z a u) (rot_z a v) = dot u v.
Proof. destruct u as ((p, q), r), v as ((s, t), z). unv. transitivity ((p * s + q * t) * (cos a * cos a + sin a * sin a) + r * z); [ring|]. rewrite (sc a). ring. Qed.
Lemma rot_x_dot a u v : dot (rot_x a u) (rot_x a v) = dot u v.
Proof. destruct u as ((p, q), r), v as ((s, t), z). unv. transitivity (p * s + (q * t + r * z) * (cos a * cos a + sin a * sin a)); [ring|]. rewrite (sc a). ring. Qed.
Lemma place_dot inc argp node x y x' y' : dot (place inc argp node x y) (place inc argp node x' y') = x * x' + y * y'.
Proof. unfold place. rewrite rot_z_dot, rot_x_dot, rot_z_dot. unv. ring. Qed.
Lemma place_pole inc argp node x y : dot (place inc argp node x y) (pole inc node) = 0.
Proof. unfold place, pole. rewrite rot_z_dot, rot_x_dot. unv. ring. Qed.
Lemma pole_unit inc node : dot (pole inc node) (pole inc node) = 1.
Proof. unfold pole. rewrite rot_z_dot, rot_x_dot. unv. ring. Qed.
Lemma rot_z_cross a u v : cross (rot_z a u) (rot_z a v) = rot_z a (cross u v).
Proof.
  destruct u as ((p, q), r), v as ((s, t), z). unv. vec_eq; [ring|ring|].
  transitivity ((p * t - q * s) * (cos a * cos a + sin a * sin a)); [ring|]. rewrite (sc a). ring.
Qed.
Lemma rot_x_cross a u v : cross (rot_x a u) (rot_x a v) = rot_x a (cross u v).
Proof.
  destruct u as ((p, q), r), v as ((s, t), z). unv. vec_eq; [|ring|ring].
  transitivity ((q * z - r * t) * (cos a * cos a + sin a * sin a)); [ring|]. rewrite (sc a). ring.
Qed.
Lemma place_cross inc argp node x y x' y' : cross (place inc argp node x y) (place inc argp node x' y') = scale (x * y' - y * x') (pole inc node).
Proof. unfold place. rewrite rot_z_cross, rot_x_cross, rot_z_cross. unv. vec_eq; ring. Qed.
(** Each coordinate of a placed point is linear in the plane's coordinates. *)
Lemma place_linear inc argp node (f : vec3 -> R) : f = vx \/ f = vy \/ f = vz -> exists p q, forall x y, f (place inc argp node x y) = p * x + q * y.
Proof.
  intros [-> | [-> | ->]].
  - exists (cos (rad node) * cos (rad argp) - sin (rad node) * (cos (rad inc) * sin (rad argp))), (- cos (rad node) * sin (rad argp) - sin (rad node) * (cos (rad inc) * cos (rad argp))). intros. unv. ring.
  - exists (sin (rad node) * cos (rad argp) + cos (rad node) * (cos (rad inc) * sin (rad argp))), (- sin (rad node) * sin (rad argp) + cos (rad node) * (cos (rad inc) * cos (rad argp))). intros. unv. ring.
  - exists (sin (rad inc) * sin (rad argp)), (sin (rad inc) * cos (rad argp)). intros. unv. ring.
Qed.

(** * True anomaly and radius *)
Lemma cos_2atan t : cos (2 * atan t) = (1 - t * t) / (1 + t * t).
Proof.
  assert (P : 0 < 1 + t²) by (unfold Rsqr; nra). assert (Q : sqrt (1 + t²) * sqrt (1 + t²) = 1 + t * t) by (rewrite sqrt_sqrt by lra; reflexivity).
  assert (N : 0 < sqrt (1 + t²)) by (now apply sqrt_lt_R0).
  rewrite cos_2a_sin, sin_atan. transitivity (1 - 2 * (t * t) / (sqrt (1 + t²) * sqrt (1 + t²))); [field; lra|]. rewrite Q. field. nra.
Qed.
Lemma sin_2atan t : sin (2 * atan t) = 2 * t / (1 + t * t).
Proof.
  assert (P : 0 < 1 + t²) by (unfold Rsqr; nra). assert (Q : sqrt (1 + t²) * sqrt (1 + t²) = 1 + t * t) by (rewrite sqrt_sqrt by lra; reflexivity).
  assert (N : 0 < sqrt (1 + t²)) by (now apply sqrt_lt_R0).
  rewrite sin_2a, sin_atan, cos_atan. transitivity (2 * t / (sqrt (1 + t²) * sqrt (1 + t²))); [field; lra|]. now rewrite Q.
Qed.
Lemma sqrt_one_minus e : 0 <= e < 1 -> sqrt (1 + e) * sqrt (1 - e) = sqrt (1 - e * e).
Proof. intros H. rewrite <- sqrt_mult by lra. f_equal. ring. Qed.
Lemma elliptic_polar ea e a : 0 <= e < 1 ->
  snd (elliptic ea e a) * cos (fst (elliptic ea e a)) = a * (cos ea - e) /\
  snd (elliptic ea e a) * sin (fst (elliptic ea e a)) = a * sqrt (1 - e * e) * sin ea.
Proof.
  intros H. unfold elliptic. cbn [fst snd]. set (h := ea * / 2). assert (E : ea = 2 * h) by (unfold h; field). rewrite E. clearbody h.
  unfold atan_tan. destruct (Req_EM_T (cos h) 0) as [C|C].
  - replace (2 * (PI / 2)) with PI by field. rewrite cos_PI, sin_PI, cos_2a_cos, sin_2a, C. split; ring.
  - assert (S1 : sqrt (1 + e) * sqrt (1 + e) = 1 + e) by (apply sqrt_sqrt; lra). assert (S2 : sqrt (1 - e) * sqrt (1 - e) = 1 - e) by (apply sqrt_sqrt; lra).
    rewrite <- sqrt_one_minus by exact H. assert (0 < sqrt (1 - e)) by (apply sqrt_lt_R0; lra).
    set (s1 := sqrt (1 + e)) in *. set (s2 := sqrt (1 - e)) in *. clearbody s1 s2.
    rewrite cos_2atan, sin_2atan. unfold tan. set (t := s1 * (sin h / cos h) / s2).
    assert (T : t * t = (1 + e) * (1 - cos h * cos h) / ((1 - e) * (cos h * cos h))).
    { unfold t. transitivity ((s1 * s1) * (sin h * sin h) / ((s2 * s2) * (cos h * cos h))); [field; lra|]. rewrite S1, S2, sc. reflexivity. }
    assert (CC : 0 < cos h * cos h) by nra. pose proof (COS_bound h) as B.
    assert (CB : cos h * cos h <= 1) by nra.
    assert (D : 1 + t * t = (1 - e * cos (2 * h)) / ((1 - e) * (cos h * cos h))). { rewrite T, cos_2a_cos. field. lra. }
    assert (DP : 0 < 1 - e * cos (2 * h)) by (rewrite cos_2a_cos; nra).
    rewrite D. split.
    + assert (N : 1 - t * t = (cos (2 * h) - e) / ((1 - e) * (cos h * cos h))) by (rewrite T, cos_2a_cos; field; lra). rewrite N. field. lra.
    + transitivity (a * (2 * (t * (cos h * cos h)) * (1 - e))); [field; lra|]. unfold t. rewrite <- S2. rewrite sin_2a. field. lra.
Qed.
Lemma cosh_double h : cosh (2 * h) = 2 * (cosh h * cosh h) - 1.
Proof.
  unfold cosh. replace (exp (2 * h)) with (exp h * exp h) by (rewrite <- exp_plus; f_equal; ring). replace (exp (- (2 * h))) with (exp (- h) * exp (- h)) by (rewrite <- exp_plus; f_equal; ring).
  assert (E : exp h * exp (- h) = 1) by (rewrite <- exp_plus, Rplus_opp_r; apply exp_0). nra.
Qed.
Lemma sinh_double h : sinh (2 * h) = 2 * (sinh h * cosh h).
Proof.
  unfold sinh, cosh. replace (exp (2 * h)) with (exp h * exp h) by (rewrite <- exp_plus; f_equal; ring). replace (exp (- (2 * h))) with (exp (- h) * exp (- h)) by (rewrite <- exp_plus; f_equal; ring).
  field.
Qed.
Lemma cosh_sinh h : sinh h * sinh h = cosh h * cosh h - 1.
Proof. unfold sinh, cosh. assert (E : exp h * exp (- h) = 1) by (rewrite <- exp_plus, Rplus_opp_r; apply exp_0). nra. Qed.
Lemma cosh_ge h : 1 <= cosh h.
Proof. pose proof (cosh_sinh h) as E. assert (0 < cosh h) by (unfold cosh; pose proof (exp_pos h); pose proof (exp_pos (- h)); lra). nra. Qed.
Lemma hyperbolic_polar h e a : 1 < e ->
  snd (hyperbolic h e a) * cos (fst (hyperbolic h e a)) = a * (e - cosh h) /\
  snd (hyperbolic h e a) * sin (fst (hyperbolic h e a)) = a * sqrt (e * e - 1) * sinh h.
Proof.
  intros H. unfold hyperbolic. cbn [fst snd]. set (k := h * / 2). assert (E : h = 2 * k) by (unfold k; field). rewrite E. clearbody k.
  replace (sqrt (e * e - 1)) with (sqrt (e + 1) * sqrt (e - 1)) by (rewrite <- sqrt_mult by lra; f_equal; ring).
  assert (S1 : sqrt (e + 1) * sqrt (e + 1) = e + 1) by (apply sqrt_sqrt; lra). assert (S2 : sqrt (e - 1) * sqrt (e - 1) = e - 1) by (apply sqrt_sqrt; lra).
  assert (P2 : 0 < sqrt (e - 1)) by (apply sqrt_lt_R0; lra). set (s1 := sqrt (e + 1)) in *. set (s2 := sqrt (e - 1)) in *. clearbody s1 s2.
  pose proof (cosh_ge k) as C. assert (X : 0 < s2 * cosh k) by nra.
  unfold atan2. destruct (Rlt_dec 0 (s2 * cosh k)) as [_|N]; [|contradiction].
  rewrite cos_2atan, sin_2atan. set (t := s1 * sinh k / (s2 * cosh k)).
  assert (T : t * t = (e + 1) * (cosh k * cosh k - 1) / ((e - 1) * (cosh k * cosh k))).
  { unfold t. transitivity ((s1 * s1) * (sinh k * sinh k) / ((s2 * s2) * (cosh k * cosh k))); [field; lra|]. rewrite S1, S2, cosh_sinh. reflexivity. }
  assert (CC : 1 <= cosh k * cosh k) by nra.
  assert (D : 1 + t * t = (e * cosh (2 * k) - 1) / ((e - 1) * (cosh k * cosh k))). { rewrite T, cosh_double. field. lra. }
  assert (DP : 0 < e * cosh (2 * k) - 1) by (rewrite cosh_double; nra).
  rewrite D. split.
  - assert (N : 1 - t * t = (e - cosh (2 * k)) / ((e - 1) * (cosh k * cosh k))) by (rewrite T, cosh_double; field; lra). rewrite N. field. lra.
  - transitivity (a * (2 * (t * (cosh k * cosh k)) * (e - 1))); [field; lra|]. unfold t. rewrite <- S2. rewrite sinh_double. field. lra.
Qed.

(** * Kepler's equation *)
Definition kep (e x : R) : R := x - e * sin x.
Definition kep_h (e x : R) : R := e * sinh x - x.
Lemma kep_derive e x : derivable_pt_lim (kep e) x (1 - e * cos x).
Proof. apply is_derive_Reals. unfold kep. auto_derive; [exact I|ring]. Qed.
Lemma is_derive_sinh x : is_derive sinh x (cosh x).
Proof. unfold sinh, cosh. auto_derive; [exact I|field]. Qed.
Lemma is_derive_cosh x : is_derive cosh x (sinh x).
Proof. unfold sinh, cosh. auto_derive; [exact I|field]. Qed.
Lemma kep_h_derive e x : derivable_pt_lim (kep_h e) x (e * cosh x - 1).
Proof. apply is_derive_Reals. unfold kep_h, sinh, cosh. auto_derive; [exact I|field]. Qed.

(** A function whose slope is at least [m] expands distances by at least [m]. *)
Lemma expands (K K' : R -> R) m x y : (forall c, derivable_pt_lim K c (K' c)) -> (forall c, m <= K' c) -> 0 < m -> m * Rabs (x - y) <= Rabs (K x - K y).
Proof.
  intros D L M. assert (W : forall x y, x < y -> m * (y - x) <= K y - K x).
  { clear x y. intros x y H. destruct (MVT_cor2 K K' x y H (fun c _ => D c)) as (c & E & _). rewrite E. specialize (L c). nra. }
  destruct (Rtotal_order x y) as [H|[->|H]].
  - specialize (W x y H). rewrite Rabs_left by lra. rewrite Rabs_left by nra. lra.
  - rewrite !Rminus_diag_eq by reflexivity. rewrite Rabs_R0. lra.
  - specialize (W y x H). rewrite Rabs_right by lra. rewrite Rabs_right by nra. lra.
Qed.
Lemma expands_inj K K' m x y : (forall c, derivable_pt_lim K c (K' c)) -> (forall c, m <= K' c) -> 0 < m -> K x = K y -> x = y.
Proof.
  intros D L M E. pose proof (expands K K' m x y D L M) as X. rewrite E in X. unfold Rminus in X at 2. rewrite Rplus_opp_r, Rabs_R0 in X.
  pose proof (Rabs_pos (x - y)). destruct (Req_dec x y) as [|N]; [assumption|]. assert (0 < Rabs (x - y)) by (apply Rabs_pos_lt; lra). nra.
Qed.
(** The derivative of an implicit function. *)
Lemma implicit_derive (K K' F : R -> R) m c n t0 : (forall x, derivable_pt_lim K x (K' x)) -> (forall x, m <= K' x) -> 0 < m ->
  (forall t, K (F t) = c + n * (t - t0)) -> forall t, derivable_pt_lim F t (n / K' (F t)).
Proof.
  intros D L M E t. set (x := F t). assert (P : m <= K' x) by apply L. set (d := K' x) in *.
  intros eps He.
  set (eps' := Rmin (d / 2) (eps * (d * d) / (2 * (Rabs n + 1)))).
  assert (An : 0 <= Rabs n) by apply Rabs_pos.
  assert (Z : 0 < eps * (d * d) / (2 * (Rabs n + 1))) by (apply Rdiv_lt_0_compat; [apply Rmult_lt_0_compat; [exact He|nra]|lra]).
  assert (He' : 0 < eps') by (unfold eps'; apply Rmin_pos; lra).
  destruct (D x eps' He') as (del & Hd). pose proof (cond_pos del) as Dp.
  assert (Q : 0 < del * m / (Rabs n + 1)). { apply Rdiv_lt_0_compat; [apply Rmult_lt_0_compat; assumption|lra]. }
  exists (mkposreal _ Q). cbn [pos]. intros h Hh Lh.
  set (k := F (t + h) - x). assert (Ek : F (t + h) = x + k) by (unfold k; ring).
  assert (Kk : K (x + k) - K x = n * h). { rewrite <- Ek. unfold x. rewrite !E. ring. }
  assert (Sk : Rabs k < del).
  { pose proof (expands K K' m (x + k) x D L M) as X. replace (x + k - x) with k in X by ring. rewrite Kk, Rabs_mult in X.
    assert (Y : Rabs h * (Rabs n + 1) < del * m). { apply (Rmult_lt_reg_r (/ (Rabs n + 1))); [apply Rinv_0_lt_compat; lra|]. rewrite Rmult_assoc, Rinv_r, Rmult_1_r by lra. exact Lh. }
    pose proof (Rabs_pos_lt h Hh). apply (Rmult_lt_reg_l m); [exact M|]. nra. }
  change (F (t + h) - F t) with k.
  destruct (Req_dec k 0) as [K0|K0].
  - assert (n = 0). { rewrite K0, Rplus_0_r in Kk. assert (n * h = 0) by lra. destruct (Rmult_integral _ _ H); [assumption|contradiction]. }
    rewrite K0. subst n. unfold Rdiv. rewrite !Rmult_0_l, Rminus_0_r, Rabs_R0. exact He.
  - specialize (Hd k K0 Sk). rewrite Kk in Hd. set (q := n * h / k) in *.
    assert (Q1 : eps' <= d / 2) by apply Rmin_l. assert (Q2 : eps' <= eps * (d * d) / (2 * (Rabs n + 1))) by apply Rmin_r.
    fold d in Hd. destruct (Rabs_def2 _ _ Hd) as (Hd1 & Hd2). assert (Qp : d / 2 < q) by lra.
    assert (N0 : n <> 0) by (intros N; unfold q in Qp; rewrite N in Qp; unfold Rdiv in Qp; rewrite !Rmult_0_l in Qp; lra).
    replace (k / h) with (n / q) by (unfold q; field; repeat split; assumption).
    replace (n / q - n / d) with (n * (d - q) / (q * d)) by (field; lra).
    unfold Rdiv. rewrite !Rabs_mult, Rabs_inv, (Rabs_right (q * d)) by nra. rewrite Rabs_minus_sym in Hd.
    apply (Rmult_lt_reg_r (q * d)); [nra|]. rewrite Rmult_assoc, Rinv_l, Rmult_1_r by nra.
    assert (U : Rabs (d - q) * (2 * (Rabs n + 1)) < eps * (d * d)).
    { apply (Rmult_lt_reg_r (/ (2 * (Rabs n + 1)))); [apply Rinv_0_lt_compat; lra|]. rewrite Rmult_assoc, Rinv_r, Rmult_1_r by lra. unfold Rdiv in Q2. lra. }
    pose proof (Rabs_pos (d - q)). assert (V : eps * (d * d) < 2 * (eps * (q * d))). { assert (0 < eps * d) by nra. nra. } nra.
Qed.

(** * Motion in the plane *)
(** Position in the plane, its velocity and its acceleration, on an ellipse. *)
Section Ellipse.
Variables a e n c t0 : R.
Variable F : R -> R.
Hypothesis A : 0 < a.
Hypothesis E : 0 <= e < 1.
Hypothesis Eq : forall t, kep e (F t) = c + n * (t - t0).
Let r (t : R) : R := a * (1 - e * cos (F t)).
Let x (t : R) : R := a * (cos (F t) - e).
Let y (t : R) : R := a * sqrt (1 - e * e) * sin (F t).
Let F' (t : R) : R := n / (1 - e * cos (F t)).
Let vx' (t : R) : R := - a * sin (F t) * F' t.
Let vy' (t : R) : R := a * sqrt (1 - e * e) * cos (F t) * F' t.
Lemma den t : 1 - e <= 1 - e * cos (F t).
Proof. pose proof (COS_bound (F t)). nra. Qed.
Lemma F_derive t : is_derive F t (F' t).
Proof.
  apply is_derive_Reals. apply (implicit_derive (kep e) (fun z => 1 - e * cos z) F (1 - e) c n t0); [apply kep_derive| |lra|exact Eq].
  intros z. pose proof (COS_bound z). nra.
Qed.
Lemma F'_derive t : is_derive F' t (- n * e * sin (F t) * F' t / ((1 - e * cos (F t)) * (1 - e * cos (F t)))).
Proof.
  pose proof (F_derive t) as D. pose proof (den t) as P.
  unfold F' at 1. auto_derive; [split; [exists (F' t); exact D|split; [lra|exact I]]|].
  dr D. change (F' t) with (n / (1 - e * cos (F t))). field. lra.
Qed.
Lemma ellipse_x t : derivable_pt_lim x t (vx' t).
Proof. apply is_derive_Reals. pose proof (F_derive t) as D. unfold x. auto_derive; [exists (F' t); exact D|]. dr D. unfold vx'. ring. Qed.
Lemma ellipse_y t : derivable_pt_lim y t (vy' t).
Proof. apply is_derive_Reals. pose proof (F_derive t) as D. unfold y. auto_derive; [exists (F' t); exact D|]. dr D. unfold vy'. ring. Qed.
Lemma r_pos t : 0 < r t.
Proof. unfold r. pose proof (den t). apply Rmult_lt_0_compat; lra. Qed.
Lemma ellipse_vx t : derivable_pt_lim vx' t (- (n * n * (a * a * a)) * x t / (r t * r t * r t)).
Proof.
  apply is_derive_Reals. pose proof (F_derive t) as D. pose proof (F'_derive t) as D'. pose proof (den t) as P. unfold vx'.
  auto_derive; [split; [exists (F' t); exact D|split; [eexists; exact D'|exact I]]|].
  dr D. dr D'.
  unfold r, x. change (F' t) with (n / (1 - e * cos (F t))). pose proof (sc (F t)) as Q. set (s := sin (F t)) in *. set (k := cos (F t)) in *.
  transitivity (- a * n * n * (k * (1 - e * k) - e * (s * s)) / ((1 - e * k) * (1 - e * k) * (1 - e * k))); [field; lra|]. rewrite Q. field. split; lra.
Qed.
Lemma ellipse_vy t : derivable_pt_lim vy' t (- (n * n * (a * a * a)) * y t / (r t * r t * r t)).
Proof.
  apply is_derive_Reals. pose proof (F_derive t) as D. pose proof (F'_derive t) as D'. pose proof (den t) as P. unfold vy'.
  auto_derive; [split; [exists (F' t); exact D|split; [eexists; exact D'|exact I]]|].
  dr D. dr D'.
  unfold r, y. change (F' t) with (n / (1 - e * cos (F t))). set (s := sin (F t)) in *. set (k := cos (F t)) in *.
  field. split; lra.
Qed.
Lemma ellipse_radius t : x t * x t + y t * y t = r t * r t.
Proof.
  unfold x, y, r. assert (S : sqrt (1 - e * e) * sqrt (1 - e * e) = 1 - e * e) by (apply sqrt_sqrt; nra).
  transitivity (a * a * ((cos (F t) - e) * (cos (F t) - e) + (sqrt (1 - e * e) * sqrt (1 - e * e)) * (sin (F t) * sin (F t)))); [ring|]. rewrite S, sc. ring.
Qed.
Lemma ellipse_area t : x t * vy' t - y t * vx' t = n * (a * a) * sqrt (1 - e * e).
Proof.
  pose proof (den t) as P. unfold x, y, vx', vy', F'. transitivity (a * a * sqrt (1 - e * e) * n * (cos (F t) * cos (F t) - e * cos (F t) + sin (F t) * sin (F t)) / (1 - e * cos (F t))); [field; lra|].
  rewrite sc. field. lra.
Qed.
Lemma ellipse_speed t : vx' t * vx' t + vy' t * vy' t = n * n * (a * a * a) * (2 / r t - 1 / a).
Proof.
  pose proof (den t) as P. pose proof (r_pos t) as Rp. assert (S : sqrt (1 - e * e) * sqrt (1 - e * e) = 1 - e * e) by (apply sqrt_sqrt; nra). unfold vx', vy', F', r.
  transitivity (a * a * n * n * (sin (F t) * sin (F t) + (sqrt (1 - e * e) * sqrt (1 - e * e)) * (cos (F t) * cos (F t))) / ((1 - e * cos (F t)) * (1 - e * cos (F t)))); [field; lra|].
  rewrite S, sc. field. split; lra.
Qed.
End Ellipse.

(** The same on a hyperbola. *)
Section Hyperbola.
Variables a e n c t0 : R.
Variable F : R -> R.
Hypothesis A : 0 < a.
Hypothesis E : 1 < e.
Hypothesis Eq : forall t, kep_h e (F t) = c + n * (t - t0).
Let r (t : R) : R := a * (e * cosh (F t) - 1).
Let x (t : R) : R := a * (e - cosh (F t)).
Let y (t : R) : R := a * sqrt (e * e - 1) * sinh (F t).
Let F' (t : R) : R := n / (e * cosh (F t) - 1).
Let vx' (t : R) : R := - a * sinh (F t) * F' t.
Let vy' (t : R) : R := a * sqrt (e * e - 1) * cosh (F t) * F' t.
Lemma den_h t : e - 1 <= e * cosh (F t) - 1.
Proof. pose proof (cosh_ge (F t)). nra. Qed.
Lemma H_derive t : is_derive F t (F' t).
Proof.
  apply is_derive_Reals. apply (implicit_derive (kep_h e) (fun z => e * cosh z - 1) F (e - 1) c n t0); [apply kep_h_derive| |lra|exact Eq].
  intros z. pose proof (cosh_ge z). nra.
Qed.
Lemma ch_derive t : is_derive (fun t => cosh (F t)) t (sinh (F t) * F' t).
Proof. rewrite Rmult_comm. apply (is_derive_comp cosh F); [apply is_derive_cosh|apply H_derive]. Qed.
Lemma sh_derive t : is_derive (fun t => sinh (F t)) t (cosh (F t) * F' t).
Proof. rewrite Rmult_comm. apply (is_derive_comp sinh F); [apply is_derive_sinh|apply H_derive]. Qed.
Lemma H'_derive t : is_derive F' t (- n * e * sinh (F t) * F' t / ((e * cosh (F t) - 1) * (e * cosh (F t) - 1))).
Proof.
  pose proof (ch_derive t) as D. pose proof (den_h t) as P. unfold F' at 1. set (g := fun t => cosh (F t)) in *. change (is_derive (fun t => n / (e * g t - 1)) t (- n * e * sinh (F t) * F' t / ((e * g t - 1) * (e * g t - 1)))). change (cosh (F t)) with (g t) in P.
  auto_derive; [split; [eexists; exact D|split; [lra|exact I]]|].
  dr D. field. lra.
Qed.
Lemma hyperbola_x t : derivable_pt_lim x t (vx' t).
Proof.
  apply is_derive_Reals. pose proof (ch_derive t) as D. set (g := fun t => cosh (F t)) in *. change (is_derive (fun t => a * (e - g t)) t (vx' t)).
  auto_derive; [eexists; exact D|]. dr D. unfold vx'. ring.
Qed.
Lemma hyperbola_y t : derivable_pt_lim y t (vy' t).
Proof.
  apply is_derive_Reals. pose proof (sh_derive t) as D. set (g := fun t => sinh (F t)) in *. change (is_derive (fun t => a * sqrt (e * e - 1) * g t) t (vy' t)).
  auto_derive; [eexists; exact D|]. dr D. unfold vy'. ring.
Qed.
Lemma rh_pos t : 0 < r t.
Proof. unfold r. pose proof (den_h t). apply Rmult_lt_0_compat; lra. Qed.
Lemma hyperbola_vx t : derivable_pt_lim vx' t (- (n * n * (a * a * a)) * x t / (r t * r t * r t)).
Proof.
  apply is_derive_Reals. pose proof (sh_derive t) as D. pose proof (H'_derive t) as D'. pose proof (den_h t) as P.
  set (g := fun t => sinh (F t)) in *. assert (X : is_derive (fun t => - a * g t * F' t) t (- (n * n * (a * a * a)) * x t / (r t * r t * r t))); [|exact X].
  auto_derive; [split; [eexists; exact D|split; [eexists; exact D'|exact I]]|].
  dr D. dr D'.
  unfold g, r, x. change (F' t) with (n / (e * cosh (F t) - 1)). pose proof (cosh_sinh (F t)) as Q. set (s := sinh (F t)) in *. set (k := cosh (F t)) in *.
  transitivity (- a * n * n * (k * (e * k - 1) - e * (s * s)) / ((e * k - 1) * (e * k - 1) * (e * k - 1))); [field; lra|]. rewrite Q. field. split; lra.
Qed.
Lemma hyperbola_vy t : derivable_pt_lim vy' t (- (n * n * (a * a * a)) * y t / (r t * r t * r t)).
Proof.
  apply is_derive_Reals. pose proof (ch_derive t) as D. pose proof (H'_derive t) as D'. pose proof (den_h t) as P.
  set (g := fun t => cosh (F t)) in *. assert (X : is_derive (fun t => a * sqrt (e * e - 1) * g t * F' t) t (- (n * n * (a * a * a)) * y t / (r t * r t * r t))); [|exact X].
  auto_derive; [split; [eexists; exact D|split; [eexists; exact D'|exact I]]|].
  dr D. dr D'.
  unfold g, r, y. change (F' t) with (n / (e * cosh (F t) - 1)). set (s := sinh (F t)) in *. set (k := cosh (F t)) in *.
  field. split; lra.
Qed.
Lemma hyperbola_radius t : x t * x t + y t * y t = r t * r t.
Proof.
  unfold x, y, r. assert (S : sqrt (e * e - 1) * sqrt (e * e - 1) = e * e - 1) by (apply sqrt_sqrt; nra).
  transitivity (a * a * ((e - cosh (F t)) * (e - cosh (F t)) + (sqrt (e * e - 1) * sqrt (e * e - 1)) * (sinh (F t) * sinh (F t)))); [ring|]. rewrite S, cosh_sinh. ring.
Qed.
Lemma hyperbola_area t : x t * vy' t - y t * vx' t = n * (a * a) * sqrt (e * e - 1).
Proof.
  pose proof (den_h t) as P. unfold x, y, vx', vy', F'. transitivity (a * a * sqrt (e * e - 1) * n * (e * cosh (F t) - cosh (F t) * cosh (F t) + sinh (F t) * sinh (F t)) / (e * cosh (F t) - 1)); [field; lra|].
  rewrite cosh_sinh. field. lra.
Qed.
Lemma hyperbola_speed t : vx' t * vx' t + vy' t * vy' t = n * n * (a * a * a) * (2 / r t + 1 / a).
Proof.
  pose proof (den_h t) as P. pose proof (rh_pos t) as Rp. assert (S : sqrt (e * e - 1) * sqrt (e * e - 1) = e * e - 1) by (apply sqrt_sqrt; nra). unfold vx', vy', F', r.
  transitivity (a * a * n * n * (sinh (F t) * sinh (F t) + (sqrt (e * e - 1) * sqrt (e * e - 1)) * (cosh (F t) * cosh (F t))) / ((e * cosh (F t) - 1) * (e * cosh (F t) - 1))); [field; lra|].
  rewrite S, cosh_sinh. field. split; lra.
Qed.
End Hyperbola.
