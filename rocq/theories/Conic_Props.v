(** Properties of positions on Keplerian orbits. *)
From Coq Require Import Reals Lra Lia.
From Verif Require Import Base Ang Conic_Model Conic_Proofs.
Local Open Scope R_scope.

(** What is asked of the external solvers: their answer satisfies Kepler's
    equation, for the reduced mean anomalies the code passes. *)
Definition solves (solve : R -> R -> R) (e : R) : Prop := forall m, Rabs m < 2 * PI -> solve m e - e * sin (solve m e) = m.
Definition solves_h (solve_h : R -> R -> option R) (e : R) : Prop := forall m h, solve_h m e = Some h -> e * sinh h - h = m.

(** Position on an ellipse: wherever Kepler's equation puts the body. *)
Definition on_ellipse (pos : R -> vec3) (a e inc argp node m0 n t0 : R) : Prop := forall t ea,
  ea - e * sin ea = m0 + n * (t - t0) -> pos t = place inc argp node (a * (cos ea - e)) (a * sqrt (1 - e * e) * sin ea).
Definition on_hyperbola (pos : R -> vec3) (a e inc argp node m0 n t0 : R) : Prop := forall t h,
  e * sinh h - h = m0 + n * (t - t0) -> pos t = place inc argp node (a * (e - cosh h)) (a * sqrt (e * e - 1) * sinh h).

(** * Lemmas *)
Lemma rem_t_range x y : 0 < y -> Rabs (rem_t x y) < y.
Proof.
  intros Y. unfold rem_t, trunc. assert (E : x = y * (x / y)) by (field; lra). set (q := x / y) in *. clearbody q. subst x.
  destruct (Rle_dec 0 q) as [P|P].
  - pose proof (int_part_bounds q). apply Rabs_def1; nra.
  - pose proof (int_part_bounds (- q)). rewrite opp_IZR. apply Rabs_def1; nra.
Qed.
Lemma kep_unique e x y : 0 <= e < 1 -> x - e * sin x = y - e * sin y -> x = y.
Proof.
  intros H E. apply (expands_inj (kep e) (fun z => 1 - e * cos z) (1 - e)); [apply kep_derive| |lra|exact E]. intros c. pose proof (COS_bound c). nra.
Qed.
Lemma kep_h_unique e x y : 1 < e -> e * sinh x - x = e * sinh y - y -> x = y.
Proof.
  intros H E. apply (expands_inj (kep_h e) (fun z => e * cosh z - 1) (e - 1)); [apply kep_h_derive| |lra|exact E]. intros c. pose proof (cosh_ge c). nra.
Qed.
Lemma kep_exists e m : 0 <= e < 1 -> {x | x - e * sin x = m}.
Proof.
  intros H. destruct (IVT (fun x => kep e x - m) (m - 2) (m + 2)) as (x & _ & E).
  - apply derivable_continuous. intros x. exists (1 - e * cos x - 0). apply derivable_pt_lim_minus; [apply kep_derive|apply derivable_pt_lim_const].
  - lra.
  - unfold kep. pose proof (SIN_bound (m - 2)). nra.
  - unfold kep. pose proof (SIN_bound (m + 2)). nra.
  - exists x. unfold kep in E. lra.
Qed.
Lemma kep_h_exists e m : 1 < e -> {x | e * sinh x - x = m}.
Proof.
  intros H. set (b := (Rabs m + 1) / (e - 1)). assert (Pb : 0 < b) by (apply Rdiv_lt_0_compat; [pose proof (Rabs_pos m)|]; lra).
  assert (Eb : (e - 1) * b = Rabs m + 1) by (unfold b; field; lra).
  assert (D : forall c, derivable_pt_lim (kep_h e) c (e * cosh c - 1)) by (intros; apply kep_h_derive).
  assert (Z : kep_h e 0 = 0) by (unfold kep_h; rewrite sinh_0; ring).
  assert (U : Rabs m < kep_h e b). { destruct (MVT_cor2 (kep_h e) (fun c => e * cosh c - 1) 0 b Pb (fun c _ => D c)) as (c & E & _). pose proof (cosh_ge c). rewrite Z in E. assert ((e - 1) * b <= (e * cosh c - 1) * b) by (apply Rmult_le_compat_r; nra). lra. }
  assert (V : kep_h e (- b) < - Rabs m). { destruct (MVT_cor2 (kep_h e) (fun c => e * cosh c - 1) (- b) 0 ltac:(lra) (fun c _ => D c)) as (c & E & _). pose proof (cosh_ge c). rewrite Z in E. assert ((e - 1) * b <= (e * cosh c - 1) * b) by (apply Rmult_le_compat_r; nra). lra. }
  pose proof (Rle_abs m). pose proof (Rle_abs (- m)) as X. rewrite Rabs_Ropp in X.
  destruct (IVT (fun x => kep_h e x - m) (- b) b) as (x & _ & E); [|lra|lra|lra|].
  - apply derivable_continuous. intros x. exists (e * cosh x - 1 - 0). apply derivable_pt_lim_minus; [apply kep_h_derive|apply derivable_pt_lim_const].
  - exists x. unfold kep_h in E. lra.
Qed.
Lemma reduced solve e m k ea : 0 <= e < 1 -> solves solve e -> Rabs (m - 2 * PI * IZR k) < 2 * PI -> ea - e * sin ea = m ->
  cos (solve (m - 2 * PI * IZR k) e) = cos ea /\ sin (solve (m - 2 * PI * IZR k) e) = sin ea.
Proof.
  intros H S B E. set (r := m - 2 * PI * IZR k) in *. pose proof (S r B) as Q. set (x := solve r e) in *.
  assert (X : x + 2 * PI * IZR k = ea). { apply (kep_unique e); [exact H|]. rewrite sin_turns. assert (Er : r = m - 2 * PI * IZR k) by reflexivity. lra. }
  rewrite <- X. now rewrite cos_turns, sin_turns.
Qed.
Lemma elliptic_place r nu inc argp node ea ea' e a : 0 <= e < 1 -> elliptic ea' e a = (nu, r) -> cos ea' = cos ea -> sin ea' = sin ea ->
  rotate r inc argp node nu = place inc argp node (a * (cos ea - e)) (a * sqrt (1 - e * e) * sin ea).
Proof.
  intros H X C S. destruct (elliptic_polar ea' e a H) as (P & Q). rewrite X in P, Q. cbn [fst snd] in P, Q. now rewrite rotate_place, P, Q, C, S.
Qed.
Lemma at_rate solve o n : 0 <= o_e o < 1 -> solves solve (o_e o) -> on_ellipse (position_at_rate solve o n) (o_a o) (o_e o) (o_inc o) (o_argp o) (o_node o) (rad (o_m0 o)) n (o_epoch o).
Proof.
  intros H S t ea E. unfold position_at_rate. set (m := rad (o_m0 o) + n * (t - o_epoch o)) in *.
  assert (B : Rabs (rem_t m (2 * PI)) < 2 * PI) by (apply rem_t_range; pose proof PI_RGT_0; lra). unfold rem_t in *.
  destruct (reduced solve (o_e o) m (trunc (m / (2 * PI))) ea H S B E) as (C & D).
  destruct (elliptic _ (o_e o) (o_a o)) as (nu, r) eqn:X. now apply (elliptic_place _ _ _ _ _ ea _ _ _ H X).
Qed.
Lemma rem_e_bound m : Rabs (m - 2 * PI * IZR (Int_part (m / (2 * PI)))) < 2 * PI.
Proof. pose proof PI_RGT_0. destruct (rem_e_range m (2 * PI) ltac:(lra)) as (A & B). unfold rem_e in A, B. apply Rabs_def1; lra. Qed.

(** * C69 *)
(** The prepared orbit and the plain one give the same position, whatever the
    solver does. *)
Theorem C69_prepared solve o jd : prepared_position solve (prepare o) jd = orbit_position solve o jd /\ kepler_position solve o jd = orbit_position solve o jd.
Proof.
  assert (E : prepared_position solve (prepare o) jd = orbit_position solve o jd); [|now split].
  unfold prepared_position, orbit_position, position_at_rate, prepare. cbn [p_m0 p_n p_orbit p_trig]. destruct (elliptic _ _ _) as (nu, r). apply precomputed_same.
Qed.
(** Every way of asking for a position puts the body where Kepler's equation
    does: the reduction of the mean anomaly, the half-angle formula and the
    choice of solver do not matter. *)
Theorem C69_kepler solve o : 0 <= o_e o < 1 -> solves solve (o_e o) ->
  on_ellipse (kepler_position solve o) (o_a o) (o_e o) (o_inc o) (o_argp o) (o_node o) (rad (o_m0 o)) (2 * PI / period_days (o_a o)) (o_epoch o).
Proof. intros H S t ea E. rewrite (proj2 (C69_prepared solve o t)). now apply at_rate. Qed.
Theorem C69_with_mu solve o mu : 0 <= o_e o < 1 -> solves solve (o_e o) ->
  on_ellipse (fun jd => orbit_position_with_mu solve o jd mu) (o_a o) (o_e o) (o_inc o) (o_argp o) (o_node o) (rad (o_m0 o)) (sqrt (mu_to_au3_d2 mu / (o_a o * o_a o * o_a o))) (o_epoch o).
Proof. intros H S t ea E. now apply at_rate. Qed.
Theorem C69_mean_motion solve o rate : 0 <= o_e o < 1 -> solves solve (o_e o) ->
  on_ellipse (mean_motion_position solve o rate) (o_a o) (o_e o) (o_inc o) (o_argp o) (o_node o) 0 (rad rate) (o_epoch o).
Proof.
  intros H S t ea E. rewrite Rplus_0_l in E. unfold mean_motion_position, rem_e. set (m := rad rate * (t - o_epoch o)) in *.
  destruct (reduced solve (o_e o) m (Int_part (m / (2 * PI))) ea H S (rem_e_bound m) E) as (C & D).
  destruct (elliptic _ (o_e o) (o_a o)) as (nu, r) eqn:X. rewrite precomputed_same. now apply (elliptic_place _ _ _ _ _ ea _ _ _ H X).
Qed.
(** Unified elements: an ellipse or a branch of a hyperbola with the given
    periapsis distance; parabolas are refused, and nothing else is unless the
    hyperbolic solver gives up. *)
Theorem C69_conic_elliptic solve solve_h o : 0 <= o_e o < 1 -> solves solve (o_e o) -> exists pos, (forall jd, conic_position solve solve_h o jd = Ok (pos jd)) /\
  let a := o_a o / (1 - o_e o) in on_ellipse pos a (o_e o) (o_inc o) (o_argp o) (o_node o) (rad (o_m0 o)) (gauss_k / (a * sqrt a)) (o_epoch o).
Proof.
  intros H S. set (a := o_a o / (1 - o_e o)). set (n := gauss_k / (a * sqrt a)).
  exists (fun jd => let m := rad (o_m0 o) + n * (jd - o_epoch o) in let x := elliptic (solve (rem_e m (2 * PI)) (o_e o)) (o_e o) a in rotate (snd x) (o_inc o) (o_argp o) (o_node o) (fst x)).
  split.
  - intros jd. unfold conic_position. destruct (Rlt_dec (o_e o) 1) as [_|N]; [|lra]. cbv zeta. fold a. fold n. destruct (elliptic _ _ _) as (nu, r). cbn [fst snd]. now rewrite precomputed_same.
  - cbv zeta. intros t ea E. unfold rem_e. set (m := rad (o_m0 o) + n * (t - o_epoch o)) in *.
    destruct (reduced solve (o_e o) m (Int_part (m / (2 * PI))) ea H S (rem_e_bound m) E) as (C & D).
    destruct (elliptic _ (o_e o) a) as (nu, r) eqn:X. cbn [fst snd]. now apply (elliptic_place _ _ _ _ _ ea _ _ _ H X).
Qed.
Theorem C69_conic_hyperbolic solve solve_h o jd h : 1 < o_e o -> solves_h solve_h (o_e o) -> let a := o_a o / (o_e o - 1) in
  o_e o * sinh h - h = rad (o_m0 o) + gauss_k / (a * sqrt a) * (jd - o_epoch o) ->
  conic_position solve solve_h o jd = Ok (place (o_inc o) (o_argp o) (o_node o) (a * (o_e o - cosh h)) (a * sqrt (o_e o * o_e o - 1) * sinh h)) \/
  conic_position solve solve_h o jd = Err HyperbolicSolverFailed /\ solve_h (o_e o * sinh h - h) (o_e o) = None.
Proof.
  intros H S a E. unfold conic_position. destruct (Rlt_dec (o_e o) 1) as [N|_]; [lra|]. destruct (Rlt_dec 1 (o_e o)) as [_|N]; [|lra]. cbv zeta. fold a. rewrite E.
  set (m := rad (o_m0 o) + gauss_k / (a * sqrt a) * (jd - o_epoch o)) in *. destruct (solve_h m (o_e o)) as [h'|] eqn:X; [left|right; now split].
  assert (h' = h). { apply (kep_h_unique (o_e o)); [exact H|]. rewrite (S m h' X). now rewrite E. } subst h'.
  destruct (hyperbolic_polar h (o_e o) a H) as (P & Q). destruct (hyperbolic h (o_e o) a) as (nu, r). cbn [fst snd] in P, Q. now rewrite precomputed_same, rotate_place, P, Q.
Qed.
Theorem C69_parabolic solve solve_h o jd : conic_position solve solve_h o jd = Err ParabolicUnsupported <-> o_e o = 1.
Proof.
  unfold conic_position. split.
  - destruct (Rlt_dec (o_e o) 1); [destruct (elliptic _ _ _); discriminate|]. destruct (Rlt_dec 1 (o_e o)); [|lra]. cbv zeta. destruct (solve_h _ _); [destruct (hyperbolic _ _ _)|]; discriminate.
  - intros E. destruct (Rlt_dec (o_e o) 1); [lra|]. destruct (Rlt_dec 1 (o_e o)); [lra|reflexivity].
Qed.

(** The orbit is the ellipse it should be: in its plane, the distances to the
    central body and to the second focus add up to the long axis, the distance
    runs between periapsis and apoapsis, the motion comes back after a period,
    and a mean anomaly of zero means periapsis. *)
Theorem C69_shape pos a e inc argp node m0 n t0 : 0 < a -> 0 <= e < 1 -> on_ellipse pos a e inc argp node m0 n t0 -> forall t,
  dot (pos t) (pole inc node) = 0 /\ norm (pos t) + norm (add (pos t) (scale (-1) (place inc argp node (- 2 * a * e) 0))) = 2 * a /\ a * (1 - e) <= norm (pos t) <= a * (1 + e).
Proof.
  intros A E H t. destruct (kep_exists e (m0 + n * (t - t0)) E) as (ea & K). rewrite (H t ea K). split; [apply place_pole|].
  assert (S : sqrt (1 - e * e) * sqrt (1 - e * e) = 1 - e * e) by (apply sqrt_sqrt; nra). pose proof (COS_bound ea) as B.
  assert (N : forall x y, norm (place inc argp node x y) = sqrt (x * x + y * y)) by (intros; unfold norm; now rewrite place_dot).
  assert (R1 : norm (place inc argp node (a * (cos ea - e)) (a * sqrt (1 - e * e) * sin ea)) = a * (1 - e * cos ea)).
  { rewrite N. replace (_ + _) with ((a * (1 - e * cos ea))²); [apply sqrt_Rsqr, Rmult_le_pos; [lra|nra]|].
    unfold Rsqr. transitivity (a * a * ((cos ea - e) * (cos ea - e) + (sqrt (1 - e * e) * sqrt (1 - e * e)) * (sin ea * sin ea))); [|ring]. rewrite S, sc. ring. }
  assert (R2 : norm (add (place inc argp node (a * (cos ea - e)) (a * sqrt (1 - e * e) * sin ea)) (scale (-1) (place inc argp node (- 2 * a * e) 0))) = a * (1 + e * cos ea)).
  { replace (add _ _) with (place inc argp node (a * (cos ea + e)) (a * sqrt (1 - e * e) * sin ea)) by (unv; vec_eq; ring).
    rewrite N. replace (_ + _) with ((a * (1 + e * cos ea))²); [apply sqrt_Rsqr, Rmult_le_pos; [lra|nra]|].
    unfold Rsqr. transitivity (a * a * ((cos ea + e) * (cos ea + e) + (sqrt (1 - e * e) * sqrt (1 - e * e)) * (sin ea * sin ea))); [|ring]. rewrite S, sc. ring. }
  rewrite R1, R2. split; [ring|]. split; apply Rmult_le_compat_l; nra.
Qed.
Theorem C69_period pos a e inc argp node m0 n t0 t k : 0 <= e < 1 -> n <> 0 -> on_ellipse pos a e inc argp node m0 n t0 -> pos (t + IZR k * (2 * PI / n)) = pos t.
Proof.
  intros E N H. destruct (kep_exists e (m0 + n * (t - t0)) E) as (ea & K). rewrite (H t ea K), (H (t + IZR k * (2 * PI / n)) (ea + 2 * PI * IZR k)); [now rewrite cos_turns, sin_turns|].
  rewrite sin_turns. replace (m0 + n * (t + IZR k * (2 * PI / n) - t0)) with (m0 + n * (t - t0) + 2 * PI * IZR k) by (field; exact N). lra.
Qed.
Theorem C69_apsides pos a e inc argp node m0 n t0 t k : 0 <= e < 1 -> on_ellipse pos a e inc argp node m0 n t0 ->
  (m0 + n * (t - t0) = 2 * PI * IZR k -> pos t = place inc argp node (a * (1 - e)) 0) /\ (m0 + n * (t - t0) = PI + 2 * PI * IZR k -> pos t = place inc argp node (- a * (1 + e)) 0).
Proof.
  intros E H. split; intros M.
  - rewrite (H t (0 + 2 * PI * IZR k)); [rewrite cos_turns, sin_turns, cos_0, sin_0; f_equal; ring|]. rewrite sin_turns, sin_0. lra.
  - rewrite (H t (PI + 2 * PI * IZR k)); [rewrite cos_turns, sin_turns, cos_PI, sin_PI; f_equal; ring|]. rewrite sin_turns, sin_PI. lra.
Qed.
(** The placing turns a point of the plane rigidly, node and inclination as
    given: at the node the height is zero and going up. *)
Theorem C69_node inc argp node u d : place inc argp node (d * cos (u - rad argp)) (d * sin (u - rad argp)) = (d * (cos u * cos (rad node) - sin u * sin (rad node) * cos (rad inc)), d * (cos u * sin (rad node) + sin u * cos (rad node) * cos (rad inc)), d * sin u * sin (rad inc)).
Proof.
  rewrite sin_minus, cos_minus. unv. pose proof (sc (rad argp)) as Q. set (s := sin (rad argp)) in *. set (c := cos (rad argp)) in *.
  assert (X : c * (d * (cos u * c + sin u * s)) - s * (d * (sin u * c - cos u * s)) = d * cos u) by (transitivity (d * cos u * (c * c + s * s)); [ring|rewrite Q; ring]).
  assert (Y : s * (d * (cos u * c + sin u * s)) + c * (d * (sin u * c - cos u * s)) = d * sin u) by (transitivity (d * sin u * (c * c + s * s)); [ring|rewrite Q; ring]).
  rewrite X, Y. vec_eq; ring.
Qed.
(** A solver exists, and every orbit has one position at each time. *)
Definition a_solver (m e : R) : R := match Rle_dec 0 e with left p => match Rlt_dec e 1 with left q => proj1_sig (kep_exists e m (conj p q)) | right _ => 0 end | right _ => 0 end.
Theorem C69_solvable e : 0 <= e < 1 -> solves a_solver e /\ forall m, exists! ea, ea - e * sin ea = m.
Proof.
  intros H. split.
  - intros m _. unfold a_solver. destruct (Rle_dec 0 e); [|lra]. destruct (Rlt_dec e 1); [|lra]. now destruct (kep_exists e m _).
  - intros m. destruct (kep_exists e m H) as (x & E). exists x. split; [exact E|]. intros y F. apply (kep_unique e); [exact H|lra].
Qed.
Example C69_case : let o := {| o_a := 2; o_e := / 2; o_inc := 90; o_node := 0; o_argp := 0; o_m0 := 180; o_epoch := 2451545 |} in
  kepler_position a_solver o 2451545 = (-3, 0, 0) /\ solves a_solver (o_e o).
Proof.
  cbn zeta. set (o := {| o_a := 2 |}). assert (H : 0 <= o_e o < 1) by (cbn; lra). pose proof (proj1 (C69_solvable _ H)) as S. split; [|exact S].
  rewrite (proj2 (C69_apsides _ _ _ _ _ _ _ _ _ 2451545 0 H (C69_kepler _ o H S))).
  - cbn [o_a o_e o_inc o_argp o_node o]. unv. unfold rad. rewrite !(Rmult_0_l PI). unfold Rdiv. rewrite !Rmult_0_l, sin_0, cos_0. vec_eq; field.
  - cbn [o_m0 o_epoch o_a o]. unfold rad. rewrite Rminus_diag_eq by reflexivity. field. apply Rgt_not_eq. unfold period_days. assert (0 < sqrt 2) by (apply sqrt_lt_R0; lra). apply Rmult_lt_0_compat; [lra|]. lra.
Qed.
Print Assumptions C69_prepared.
Print Assumptions C69_kepler.
Print Assumptions C69_with_mu.
Print Assumptions C69_mean_motion.
Print Assumptions C69_conic_elliptic.
Print Assumptions C69_conic_hyperbolic.
Print Assumptions C69_parabolic.
Print Assumptions C69_shape.
Print Assumptions C69_period.
Print Assumptions C69_apsides.
Print Assumptions C69_node.
Print Assumptions C69_solvable.

(** * C70 *)
(** Newton's law: the acceleration points to the centre and is [mu] over the
    square of the distance. *)
Definition newton (mu : R) (pos vel : R -> vec3) : Prop := forall t f, f = vx \/ f = vy \/ f = vz ->
  derivable_pt_lim (fun s => f (pos s)) t (f (vel t)) /\ derivable_pt_lim (fun s => f (vel s)) t (- mu * f (pos t) / norm (pos t) ^ 3).

Lemma derive_ext f g x l : (forall t, f t = g t) -> derivable_pt_lim f x l -> derivable_pt_lim g x l.
Proof. intros H D eps He. destruct (D eps He) as (d & Q). exists d. intros h Hh Lh. rewrite <- !H. now apply Q. Qed.
Lemma plane_derive inc argp node f x y x' y' t : f = vx \/ f = vy \/ f = vz -> derivable_pt_lim x t x' -> derivable_pt_lim y t y' ->
  derivable_pt_lim (fun s => f (place inc argp node (x s) (y s))) t (f (place inc argp node x' y')).
Proof.
  intros C X Y. destruct (place_linear inc argp node f C) as (p & q & L). rewrite L.
  apply (derive_ext (fun s => p * x s + q * y s)); [intros; now rewrite L|]. apply derivable_pt_lim_plus; apply derivable_pt_lim_scal; assumption.
Qed.
Lemma place_scale inc argp node f x y k : f = vx \/ f = vy \/ f = vz -> f (place inc argp node (k * x) (k * y)) = k * f (place inc argp node x y).
Proof. intros C. destruct (place_linear inc argp node f C) as (p & q & L). rewrite !L. ring. Qed.
Lemma plane_newton inc argp node mu x y vx' vy' r pos : (forall t, pos t = place inc argp node (x t) (y t)) -> (forall t, 0 < r t) -> (forall t, x t * x t + y t * y t = r t * r t) ->
  (forall t, derivable_pt_lim x t (vx' t)) -> (forall t, derivable_pt_lim y t (vy' t)) ->
  (forall t, derivable_pt_lim vx' t (- mu * x t / (r t * r t * r t))) -> (forall t, derivable_pt_lim vy' t (- mu * y t / (r t * r t * r t))) ->
  newton mu pos (fun t => place inc argp node (vx' t) (vy' t)) /\ forall t, norm (pos t) = r t.
Proof.
  intros P Rp Rr X Y VX VY.
  assert (N : forall t, norm (pos t) = r t). { intros t. unfold norm. rewrite P, place_dot, Rr. apply sqrt_square. pose proof (Rp t). lra. }
  split; [|exact N]. intros t f C. split.
  - apply (derive_ext (fun s => f (place inc argp node (x s) (y s)))); [intros; now rewrite P|]. now apply plane_derive.
  - rewrite N, P. pose proof (Rp t) as Q.
    replace (- mu * f (place inc argp node (x t) (y t)) / r t ^ 3) with (f (place inc argp node (- mu / (r t * r t * r t) * x t) (- mu / (r t * r t * r t) * y t))) by (rewrite place_scale by exact C; field; lra).
    apply plane_derive; [exact C| |]; [replace (- mu / (r t * r t * r t) * x t) with (- mu * x t / (r t * r t * r t)) by (field; lra)|replace (- mu / (r t * r t * r t) * y t) with (- mu * y t / (r t * r t * r t)) by (field; lra)]; [apply VX|apply VY].
Qed.
(** Equal areas in equal times, and the speed at each distance. *)
Definition areas (h : R) (inc node : R) (pos vel : R -> vec3) : Prop := forall t, cross (pos t) (vel t) = scale h (pole inc node).
Definition vis_viva (mu inv_a : R) (pos vel : R -> vec3) : Prop := forall t, dot (vel t) (vel t) = mu * (2 / norm (pos t) - inv_a).

Lemma ellipse_motion pos a e inc argp node m0 n t0 : 0 < a -> 0 <= e < 1 -> on_ellipse pos a e inc argp node m0 n t0 ->
  exists vel, newton (n * n * (a * a * a)) pos vel /\ areas (n * (a * a) * sqrt (1 - e * e)) inc node pos vel /\ vis_viva (n * n * (a * a * a)) (1 / a) pos vel.
Proof.
  intros A E H. set (F := fun t => proj1_sig (kep_exists e (m0 + n * (t - t0)) E)).
  assert (Q : forall t, kep e (F t) = m0 + n * (t - t0)) by (intros t; unfold F; destruct (kep_exists e _ E) as (z & Z); exact Z).
  assert (P : forall t, pos t = place inc argp node (a * (cos (F t) - e)) (a * sqrt (1 - e * e) * sin (F t))) by (intros t; apply H, Q).
  destruct (plane_newton inc argp node (n * n * (a * a * a)) _ _ (fun t => - a * sin (F t) * (n / (1 - e * cos (F t)))) (fun t => a * sqrt (1 - e * e) * cos (F t) * (n / (1 - e * cos (F t)))) (fun t => a * (1 - e * cos (F t))) pos P) as (W & N).
  - intros t. now apply (r_pos a e F A E).
  - intros t. now apply (ellipse_radius a e F E).
  - intros t. exact (ellipse_x a e n m0 t0 F E Q t).
  - intros t. exact (ellipse_y a e n m0 t0 F E Q t).
  - intros t. exact (ellipse_vx a e n m0 t0 F A E Q t).
  - intros t. exact (ellipse_vy a e n m0 t0 F A E Q t).
  - eexists. split; [exact W|]. split.
    + intros t. rewrite P, place_cross. f_equal. exact (ellipse_area a e n F E t).
    + intros t. rewrite N, place_dot. exact (ellipse_speed a e n F A E t).
Qed.
Lemma hyperbola_motion pos a e inc argp node m0 n t0 : 0 < a -> 1 < e -> on_hyperbola pos a e inc argp node m0 n t0 ->
  exists vel, newton (n * n * (a * a * a)) pos vel /\ areas (n * (a * a) * sqrt (e * e - 1)) inc node pos vel /\ vis_viva (n * n * (a * a * a)) (- (1 / a)) pos vel.
Proof.
  intros A E H. set (F := fun t => proj1_sig (kep_h_exists e (m0 + n * (t - t0)) E)).
  assert (Q : forall t, kep_h e (F t) = m0 + n * (t - t0)) by (intros t; unfold F; destruct (kep_h_exists e _ E) as (z & Z); exact Z).
  assert (P : forall t, pos t = place inc argp node (a * (e - cosh (F t))) (a * sqrt (e * e - 1) * sinh (F t))) by (intros t; apply H, Q).
  destruct (plane_newton inc argp node (n * n * (a * a * a)) _ _ (fun t => - a * sinh (F t) * (n / (e * cosh (F t) - 1))) (fun t => a * sqrt (e * e - 1) * cosh (F t) * (n / (e * cosh (F t) - 1))) (fun t => a * (e * cosh (F t) - 1)) pos P) as (W & N).
  - intros t. now apply (rh_pos a e F A E).
  - intros t. now apply (hyperbola_radius a e F E).
  - intros t. exact (hyperbola_x a e n m0 t0 F E Q t).
  - intros t. exact (hyperbola_y a e n m0 t0 F E Q t).
  - intros t. exact (hyperbola_vx a e n m0 t0 F A E Q t).
  - intros t. exact (hyperbola_vy a e n m0 t0 F A E Q t).
  - eexists. split; [exact W|]. split.
    + intros t. rewrite P, place_cross. f_equal. exact (hyperbola_area a e n F E t).
    + intros t. rewrite N, place_dot. replace (2 / (a * (e * cosh (F t) - 1)) - - (1 / a)) with (2 / (a * (e * cosh (F t) - 1)) + 1 / a) by ring. exact (hyperbola_speed a e n F A E t).
Qed.

(** The motion of two bodies around a centre of strength [mu]: it has a velocity
    at every time, obeys Newton's law, sweeps equal areas around the pole of its
    plane, turning forwards, at the rate and with the speed its size and shape
    ask for ([inv_a] is negative on a hyperbola). *)
Definition two_body (mu inv_a e inc node : R) (pos : R -> vec3) : Prop := exists vel h,
  newton mu pos vel /\ areas h inc node pos vel /\ vis_viva mu inv_a pos vel /\ 0 < h /\ h * h * inv_a = mu * (1 - e * e).

Lemma ellipse_two_body pos a e inc argp node m0 n t0 mu : 0 < a -> 0 <= e < 1 -> 0 < n -> n * n * (a * a * a) = mu -> on_ellipse pos a e inc argp node m0 n t0 -> two_body mu (1 / a) e inc node pos.
Proof.
  intros A E N M H. destruct (ellipse_motion _ _ _ _ _ _ _ _ _ A E H) as (vel & W & B & V). rewrite M in W, V. exists vel, (n * (a * a) * sqrt (1 - e * e)).
  split; [exact W|]. split; [exact B|]. split; [exact V|]. assert (0 < sqrt (1 - e * e)) by (apply sqrt_lt_R0; nra). assert (S : sqrt (1 - e * e) * sqrt (1 - e * e) = 1 - e * e) by (apply sqrt_sqrt; nra).
  split; [apply Rmult_lt_0_compat; [apply Rmult_lt_0_compat; nra|assumption]|]. rewrite <- M. set (s := sqrt (1 - e * e)) in *. clearbody s. rewrite <- S. field. lra.
Qed.
Lemma hyperbola_two_body pos a e inc argp node m0 n t0 mu : 0 < a -> 1 < e -> 0 < n -> n * n * (a * a * a) = mu -> on_hyperbola pos a e inc argp node m0 n t0 -> two_body mu (- (1 / a)) e inc node pos.
Proof.
  intros A E N M H. destruct (hyperbola_motion _ _ _ _ _ _ _ _ _ A E H) as (vel & W & B & V). rewrite M in W, V. exists vel, (n * (a * a) * sqrt (e * e - 1)).
  split; [exact W|]. split; [exact B|]. split; [exact V|]. assert (0 < sqrt (e * e - 1)) by (apply sqrt_lt_R0; nra). assert (S : sqrt (e * e - 1) * sqrt (e * e - 1) = e * e - 1) by (apply sqrt_sqrt; nra).
  split; [apply Rmult_lt_0_compat; [apply Rmult_lt_0_compat; nra|assumption]|]. rewrite <- M. set (s := sqrt (e * e - 1)) in *. clearbody s. replace (1 - e * e) with (- (s * s)) by lra. field. lra.
Qed.
Lemma rate_mu k a : 0 < a -> k / (a * sqrt a) * (k / (a * sqrt a)) * (a * a * a) = k * k.
Proof. intros A. assert (Q : sqrt a * sqrt a = a) by (apply sqrt_sqrt; lra). assert (0 < sqrt a) by (now apply sqrt_lt_R0). set (s := sqrt a) in *. rewrite <- Q. field. lra. Qed.
Lemma rate_pos k a : 0 < a -> 0 < k -> 0 < k / (a * sqrt a).
Proof. intros A K. assert (0 < sqrt a) by (now apply sqrt_lt_R0). apply Rdiv_lt_0_compat; [exact K|now apply Rmult_lt_0_compat]. Qed.
Lemma gauss_pos : 0 < gauss_k.
Proof. unfold gauss_k. apply Rdiv_lt_0_compat; lra. Qed.

(** Heliocentric orbits: the Sun's strength is that of the Gaussian year. *)
Theorem C70_kepler solve o : 0 < o_a o -> 0 <= o_e o < 1 -> solves solve (o_e o) ->
  two_body (Rsqr (2 * PI / (365256898326 / 10 ^ 9))) (1 / o_a o) (o_e o) (o_inc o) (o_node o) (kepler_position solve o).
Proof.
  intros A E S. set (k := 2 * PI / (365256898326 / 10 ^ 9)). assert (K : 0 < k) by (unfold k; pose proof PI_RGT_0; apply Rdiv_lt_0_compat; lra).
  assert (P : 2 * PI / period_days (o_a o) = k / (o_a o * sqrt (o_a o))). { unfold k, period_days. assert (0 < sqrt (o_a o)) by (now apply sqrt_lt_R0). field. lra. }
  pose proof (C69_kepler solve o E S) as C. rewrite P in C.
  eapply ellipse_two_body; [exact A|exact E|apply (rate_pos k _ A K)|apply (rate_mu k _ A)|exact C].
Qed.
(** With an explicit strength, in km^3/s^2, that strength in au^3/d^2. *)
Theorem C70_with_mu solve o mu : 0 < o_a o -> 0 <= o_e o < 1 -> 0 < mu -> solves solve (o_e o) ->
  two_body (mu * 86400 ^ 2 / (1495978707 / 10) ^ 3) (1 / o_a o) (o_e o) (o_inc o) (o_node o) (fun jd => orbit_position_with_mu solve o jd mu).
Proof.
  intros A E M S. replace (mu * 86400 ^ 2 / (1495978707 / 10) ^ 3) with (mu_to_au3_d2 mu) by (unfold mu_to_au3_d2; field).
  assert (P : 0 < mu_to_au3_d2 mu) by (unfold mu_to_au3_d2; apply Rdiv_lt_0_compat; nra). set (g := mu_to_au3_d2 mu) in *.
  assert (A3 : 0 < o_a o * o_a o * o_a o) by (apply Rmult_lt_0_compat; [apply Rmult_lt_0_compat|]; assumption). assert (Q : 0 < g / (o_a o * o_a o * o_a o)) by (now apply Rdiv_lt_0_compat).
  eapply ellipse_two_body; [exact A|exact E|apply sqrt_lt_R0; exact Q| |exact (C69_with_mu solve o mu E S)]. rewrite sqrt_sqrt by lra. fold g. field. lra.
Qed.
(** With an explicit mean motion, the strength that goes with it. *)
Theorem C70_mean_motion solve o rate : 0 < o_a o -> 0 <= o_e o < 1 -> 0 < rate -> solves solve (o_e o) ->
  two_body (Rsqr (rate * PI / 180) * o_a o ^ 3) (1 / o_a o) (o_e o) (o_inc o) (o_node o) (mean_motion_position solve o rate).
Proof.
  intros A E M S. eapply ellipse_two_body; [exact A|exact E| | |exact (C69_mean_motion solve o rate E S)].
  - unfold rad. pose proof PI_RGT_0. apply Rdiv_lt_0_compat; nra.
  - unfold rad, Rsqr. ring.
Qed.
(** Unified elements: the Gaussian constant, for ellipses and hyperbolas. *)
Theorem C70_conic_elliptic solve solve_h o : 0 < o_a o -> 0 <= o_e o < 1 -> solves solve (o_e o) ->
  exists pos, (forall jd, conic_position solve solve_h o jd = Ok (pos jd)) /\ two_body (Rsqr (1720209895 / 10 ^ 11)) ((1 - o_e o) / o_a o) (o_e o) (o_inc o) (o_node o) pos.
Proof.
  intros A E S. destruct (C69_conic_elliptic solve solve_h o E S) as (pos & P & C). exists pos. split; [exact P|]. cbv zeta in C.
  set (a := o_a o / (1 - o_e o)) in *. assert (A' : 0 < a) by (apply Rdiv_lt_0_compat; lra). replace ((1 - o_e o) / o_a o) with (1 / a) by (unfold a; field; lra).
  eapply ellipse_two_body; [exact A'|exact E|apply (rate_pos _ _ A' gauss_pos)|exact (rate_mu gauss_k a A')|exact C].
Qed.
Theorem C70_conic_hyperbolic solve solve_h o : 0 < o_a o -> 1 < o_e o -> solves_h solve_h (o_e o) -> (forall m, solve_h m (o_e o) <> None) ->
  exists pos, (forall jd, conic_position solve solve_h o jd = Ok (pos jd)) /\ two_body (Rsqr (1720209895 / 10 ^ 11)) ((1 - o_e o) / o_a o) (o_e o) (o_inc o) (o_node o) pos.
Proof.
  intros A E S T. set (a := o_a o / (o_e o - 1)) in *. assert (A' : 0 < a) by (apply Rdiv_lt_0_compat; lra).
  exists (fun jd => match conic_position solve solve_h o jd with Ok v => v | _ => (0, 0, 0) end).
  assert (X : forall jd h, o_e o * sinh h - h = rad (o_m0 o) + gauss_k / (a * sqrt a) * (jd - o_epoch o) -> conic_position solve solve_h o jd = Ok (place (o_inc o) (o_argp o) (o_node o) (a * (o_e o - cosh h)) (a * sqrt (o_e o * o_e o - 1) * sinh h))).
  { intros jd h Q. destruct (C69_conic_hyperbolic solve solve_h o jd h E S Q) as [Y|(_ & Y)]; [exact Y|now apply T in Y]. }
  split.
  - intros jd. destruct (kep_h_exists (o_e o) (rad (o_m0 o) + gauss_k / (a * sqrt a) * (jd - o_epoch o)) E) as (h & Q). now rewrite (X jd h Q).
  - replace ((1 - o_e o) / o_a o) with (- (1 / a)) by (unfold a; field; lra).
    eapply (hyperbola_two_body _ a _ _ (o_argp o)); [exact A'|exact E|apply (rate_pos _ _ A' gauss_pos)|exact (rate_mu gauss_k a A')|]. intros t h Q. now rewrite (X t h Q).
Qed.
Example C70_case : let o := {| o_a := 1; o_e := / 60; o_inc := 7; o_node := -11; o_argp := 103; o_m0 := 100; o_epoch := 2451545 |} in
  0 < o_a o /\ 0 <= o_e o < 1 /\ solves a_solver (o_e o) /\ exists vel, newton (Rsqr (2 * PI / (365256898326 / 10 ^ 9))) (kepler_position a_solver o) vel.
Proof.
  cbv zeta. set (o := {| o_a := 1 |}). assert (A : 0 < o_a o) by (cbn; lra). assert (H : 0 <= o_e o < 1) by (cbn; lra). pose proof (proj1 (C69_solvable _ H)) as S.
  split; [exact A|]. split; [exact H|]. split; [exact S|]. destruct (C70_kepler _ o A H S) as (vel & h & W & _). now exists vel.
Qed.
Print Assumptions C70_kepler.
Print Assumptions C70_with_mu.
Print Assumptions C70_mean_motion.
Print Assumptions C70_conic_elliptic.
Print Assumptions C70_conic_hyperbolic.
