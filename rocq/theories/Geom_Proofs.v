From Coq Require Import List Reals Lra Lia Bool Sorting.Sorted Sorting.Permutation.
From Verif Require Import Base Mat3 Ang Sort Geom_Model.
Import ListNotations.
Local Open Scope R_scope.

Lemma rltb_r x y : reflect (x < y) (rltb x y). Proof. unfold rltb. destruct (Rlt_dec x y); now constructor. Qed.
Lemma rleb_r x y : reflect (x <= y) (rleb x y). Proof. unfold rleb. destruct (Rle_dec x y); now constructor. Qed.
Lemma reqb_r x y : reflect (x = y) (reqb x y). Proof. unfold reqb. destruct (Req_EM_T x y); now constructor. Qed.
Lemma sc x : sin x * sin x + cos x * cos x = 1. Proof. pose proof (sin2_cos2 x) as H. unfold Rsqr in H. exact H. Qed.
Lemma clamp_id lo hi x : lo <= x <= hi -> clamp lo hi x = x.
Proof. intros H. unfold clamp. destruct (Rlt_dec x lo); [lra|]. destruct (Rlt_dec hi x); lra. Qed.
Lemma clamp_range lo hi x : lo <= hi -> lo <= clamp lo hi x <= hi.
Proof. intros H. unfold clamp. destruct (Rlt_dec x lo); [lra|]. destruct (Rlt_dec hi x); lra. Qed.

(** ** Vectors *)
Lemma dot_nonneg u : 0 <= dot3 u u. Proof. destruct u as ((a, b), c). cbn. nra. Qed.
Lemma dot_zero u : dot3 u u = 0 -> u = (0, 0, 0).
Proof. destruct u as ((a, b), c). cbn. intros H. assert (a = 0) by nra. assert (b = 0) by nra. assert (c = 0) by nra. now subst. Qed.
Lemma norm_nonneg u : 0 <= norm u. Proof. apply sqrt_pos. Qed.
Lemma norm_sq u : norm u * norm u = dot3 u u. Proof. apply sqrt_sqrt, dot_nonneg. Qed.
Lemma norm_zero u : norm u = 0 -> u = (0, 0, 0).
Proof. intros H. apply dot_zero. rewrite <- norm_sq, H. ring. Qed.
Lemma norm_pos u : u <> (0, 0, 0) -> 0 < norm u.
Proof. intros N. destruct (Rle_lt_or_eq_dec _ _ (norm_nonneg u)) as [L|E]; [exact L|]. exfalso. apply N. now apply norm_zero. Qed.
Lemma dot_scale k u v : dot3 (scale k u) v = k * dot3 u v. Proof. destruct u as ((a, b), c), v as ((x, y), z). cbn. ring. Qed.
Lemma dot_comm u v : dot3 u v = dot3 v u. Proof. destruct u as ((a, b), c), v as ((x, y), z). cbn. ring. Qed.
Lemma dot_plus u v w : dot3 (vplus u v) w = dot3 u w + dot3 v w. Proof. destruct u as ((a, b), c), v as ((x, y), z), w as ((p, q), r). cbn. ring. Qed.
Lemma vec_eq (a b c x y z : R) : a = x -> b = y -> c = z -> (a, b, c) = (x, y, z). Proof. now intros -> -> ->. Qed.
Lemma unit_dir u : u <> (0, 0, 0) -> dot3 (scale (/ norm u) u) (scale (/ norm u) u) = 1.
Proof. intros N. pose proof (norm_pos u N). rewrite dot_scale, dot_comm, dot_scale, <- norm_sq. field. lra. Qed.
Lemma cauchy u v : Rabs (dot3 u v) <= norm u * norm v.
Proof.
  apply Rsqr_incr_0_var; [|apply Rmult_le_pos; apply norm_nonneg]. rewrite <- Rsqr_abs. unfold Rsqr. replace (norm u * norm v * (norm u * norm v)) with (norm u * norm u * (norm v * norm v)) by ring. rewrite !norm_sq.
  destruct u as ((a, b), c), v as ((x, y), z). cbn. pose proof (Rle_0_sqr (a * y - b * x)) as H1. pose proof (Rle_0_sqr (a * z - c * x)) as H2. pose proof (Rle_0_sqr (b * z - c * y)) as H3. unfold Rsqr in *. lra.
Qed.

(** ** The local frame *)
Lemma basis_dot lat lon u v : let '(e, n, w) := basis lat lon in dot3 u e * dot3 v e + dot3 u n * dot3 v n + dot3 u w * dot3 v w = dot3 u v.
Proof.
  destruct u as ((x, y), z), v as ((x', y'), z'). cbn. pose proof (sc lon) as A. pose proof (sc lat) as B.
  assert (E1 : cos lon * cos lon = 1 - sin lon * sin lon) by lra. assert (E2 : cos lat * cos lat = 1 - sin lat * sin lat) by lra.
  ring_simplify. replace (cos lat ^ 2) with (1 - sin lat * sin lat) by (rewrite <- E2; ring). replace (cos lon ^ 2) with (1 - sin lon * sin lon) by (rewrite <- E1; ring). ring.
Qed.
Lemma basis_sum lat lon u : let '(e, n, w) := basis lat lon in u = vplus (scale (dot3 u e) e) (vplus (scale (dot3 u n) n) (scale (dot3 u w) w)).
Proof.
  destruct u as ((x, y), z). cbn. pose proof (sc lon) as A. pose proof (sc lat) as B.
  assert (E1 : cos lon * cos lon = 1 - sin lon * sin lon) by lra. assert (E2 : cos lat * cos lat = 1 - sin lat * sin lat) by lra.
  apply vec_eq; ring_simplify; replace (cos lat ^ 2) with (1 - sin lat * sin lat) by (rewrite <- E2; ring); replace (cos lon ^ 2) with (1 - sin lon * sin lon) by (rewrite <- E1; ring); ring.
Qed.
Lemma polar_angle y x : let az := (if Rlt_dec (atan2 y x) 0 then atan2 y x + 2 * PI else atan2 y x) in 0 <= az < 2 * PI /\ (sqrt (x² + y²) * cos az = x /\ sqrt (x² + y²) * sin az = y).
Proof.
  cbn zeta. pose proof PI_RGT_0. pose proof (atan2_range y x) as R.
  assert (P : sqrt (x² + y²) * cos (atan2 y x) = x /\ sqrt (x² + y²) * sin (atan2 y x) = y).
  { destruct (Req_dec x 0) as [X|X]; [destruct (Req_dec y 0) as [Y|Y]|]; [|now apply atan2_polar; right|now apply atan2_polar; left]. subst. replace (0² + 0²) with 0 by (unfold Rsqr; ring). rewrite sqrt_0. lra. }
  destruct (Rlt_dec (atan2 y x) 0); [|split; [lra|exact P]]. split; [lra|]. replace (2 * PI) with (2 * PI * IZR 1) by (cbn; ring). now rewrite cos_turns, sin_turns.
Qed.
Lemma aer_ok op ov tp tv lat lon : tp <> op -> let r := azimuth_elevation_range op ov tp tv lat lon in let '(e, n, w) := basis lat lon in
  vminus tp op = scale (aer_range r) (vplus (scale (cos (aer_el r) * sin (aer_az r)) e) (vplus (scale (cos (aer_el r) * cos (aer_az r)) n) (scale (sin (aer_el r)) w))) /\
  0 < aer_range r /\ - (PI / 2) <= aer_el r <= PI / 2 /\ 0 <= aer_az r < 2 * PI.
Proof.
  intros Ne. unfold azimuth_elevation_range, line_of_sight. set (d := vminus tp op).
  assert (Nd : d <> (0, 0, 0)). { intros E. apply Ne. unfold d, vminus in E. destruct tp as ((a, b), c), op as ((x, y), z). injection E as E1 E2 E3. apply vec_eq; lra. }
  pose proof (norm_pos d Nd) as P. pose proof (unit_dir d Nd) as U. set (u := scale (/ norm d) d) in *.
  pose proof (basis_dot lat lon u u) as B. pose proof (basis_sum lat lon u) as S. destruct (basis lat lon) as ((e, n), w). cbn [aer_range aer_el aer_az]. rewrite U in B.
  destruct (polar_angle (dot3 u e) (dot3 u n)) as (Az & C1 & C2). set (az := if Rlt_dec _ 0 then _ else _) in *. clearbody az.
  assert (W : -1 <= dot3 u w <= 1) by nra. assert (Ce : cos (asin (dot3 u w)) = sqrt ((dot3 u n)² + (dot3 u e)²)) by (rewrite cos_asin by lra; f_equal; unfold Rsqr; lra).
  split; [|split; [exact P|split; [apply asin_bound|exact Az]]]. rewrite Ce, C1, C2, sin_asin by lra. rewrite <- S. unfold u. destruct d as ((x, y), z). cbn. apply vec_eq; field; lra.
Qed.
Lemma quad_slope A B C : derivable_pt_lim (fun t => A + B * t + C * (t * t)) 0 B.
Proof.
  assert (H : derivable_pt_lim (fun t => A + B * t + C * (t * t)) 0 (0 + B * 1 + C * (1 * id 0 + id 0 * 1))); [|replace (0 + B * 1 + C * (1 * id 0 + id 0 * 1)) with B in H by (unfold id; ring); exact H].
  apply (derivable_pt_lim_plus (fun t => A + B * t) (fun t => C * (t * t))); [apply (derivable_pt_lim_plus (fun _ => A) (fun t => B * t)); [apply derivable_pt_lim_const|apply (derivable_pt_lim_scal id), derivable_pt_lim_id]|apply (derivable_pt_lim_scal (fun t => t * t)), (derivable_pt_lim_mult id id); apply derivable_pt_lim_id].
Qed.
(** The rate is the derivative of the distance when both move uniformly. *)
Lemma rate_ok op ov tp tv lat lon : tp <> op ->
  derivable_pt_lim (fun t => norm (vminus (vplus tp (scale t tv)) (vplus op (scale t ov)))) 0 (aer_rate (azimuth_elevation_range op ov tp tv lat lon)).
Proof.
  intros Ne. unfold azimuth_elevation_range, line_of_sight. destruct (basis lat lon) as ((e, n), w). cbn [aer_rate]. set (d := vminus tp op).
  assert (Nd : d <> (0, 0, 0)). { intros E. apply Ne. unfold d, vminus in E. destruct tp as ((a, b), c), op as ((x, y), z). injection E as E1 E2 E3. apply vec_eq; lra. }
  pose proof (norm_pos d Nd) as P. set (v := vminus tv ov).
  assert (D2 : forall t, norm (vminus (vplus tp (scale t tv)) (vplus op (scale t ov))) = sqrt (dot3 d d + 2 * dot3 d v * t + dot3 v v * (t * t))).
  { intros t. unfold norm. f_equal. unfold d, v. destruct tp as ((?, ?), ?), op as ((?, ?), ?), tv as ((?, ?), ?), ov as ((?, ?), ?). cbn. ring. }
  replace (dot3 v (scale (/ norm d) d)) with (/ (2 * sqrt (dot3 d d)) * (2 * dot3 d v)) by (rewrite (dot_comm v), dot_scale; fold (norm d); field; lra).
  assert (F : derivable_pt_lim (comp sqrt (fun t => dot3 d d + 2 * dot3 d v * t + dot3 v v * (t * t))) 0 (/ (2 * sqrt (dot3 d d)) * (2 * dot3 d v))).
  { apply derivable_pt_lim_comp.
    - apply quad_slope.
    - replace (dot3 d d + 2 * dot3 d v * 0 + dot3 v v * (0 * 0)) with (dot3 d d) by ring. apply derivable_pt_lim_sqrt. rewrite <- norm_sq. nra. }
  intros eps He. destruct (F eps He) as (delta & Hd). exists delta. intros h H1 H2. rewrite !D2. apply (Hd h H1 H2).
Qed.

(** ** The line of sight *)
Lemma quad_segment a b c : 0 < a -> (exists t, 0 <= t <= 1 /\ a * t * t + b * t + c <= 0) <->
  (if rltb (b * b - 4 * a * c) 0 then false else let sd := sqrt (b * b - 4 * a * c) in let t1 := (- b - sd) / (2 * a) in let t2 := (- b + sd) / (2 * a) in
    (rleb 0 t1 && rleb t1 1) || (rleb 0 t2 && rleb t2 1) || (rltb t1 0 && rltb 1 t2)) = true.
Proof.
  intros A. destruct (rltb_r (b * b - 4 * a * c) 0) as [D|D].
  - split; [|discriminate]. intros (t & T & Q). exfalso. pose proof (Rle_0_sqr (2 * a * t + b)) as Sq. unfold Rsqr in Sq. replace ((2 * a * t + b) * (2 * a * t + b)) with (4 * a * (a * t * t + b * t + c) + (b * b - 4 * a * c)) in Sq by ring. set (q := a * t * t + b * t + c) in *. clearbody q. nra.
  - cbn zeta. set (sd := sqrt _). assert (S0 : 0 <= sd) by apply sqrt_pos. assert (S2 : sd * sd = b * b - 4 * a * c) by (apply sqrt_sqrt; lra). set (t1 := (- b - sd) / (2 * a)). set (t2 := (- b + sd) / (2 * a)).
    assert (L : t1 <= t2) by (unfold t1, t2; apply Rmult_le_compat_r; [left; apply Rinv_0_lt_compat; lra|lra]).
    assert (Q : forall t, a * t * t + b * t + c = a * (t - t1) * (t - t2)). { intros t. unfold t1, t2. replace (a * (t - (- b - sd) / (2 * a)) * (t - (- b + sd) / (2 * a))) with (a * t * t + b * t + (b * b - sd * sd) / (4 * a)) by (field; lra). rewrite S2. field. lra. }
    assert (I : forall t, a * t * t + b * t + c <= 0 <-> t1 <= t <= t2).
    { intros t. rewrite Q. rewrite Rmult_assoc. split; intros H.
      - destruct (Rle_lt_dec t1 t) as [T1|T1], (Rle_lt_dec t t2) as [T2|T2]; [lra| | |lra]; exfalso; assert (K : 0 < (t - t1) * (t - t2)) by nra; set (q := (t - t1) * (t - t2)) in *; clearbody q; nra.
      - assert (K : (t - t1) * (t - t2) <= 0) by nra. set (q := (t - t1) * (t - t2)) in *. clearbody q. nra. }
    clearbody t1 t2. destruct (rleb_r 0 t1), (rleb_r t1 1), (rleb_r 0 t2), (rleb_r t2 1), (rltb_r t1 0), (rltb_r 1 t2); cbn [andb orb]; (split; [intros (t & T & H); try reflexivity; apply I in H; exfalso; lra|intros H; first [discriminate|exists t1; split; [lra|apply I; lra]|exists t2; split; [lra|apply I; lra]|exists 0; split; [lra|apply I; lra]]]).
Qed.
Lemma obstructed_ok observer target r : 0 <= r ->
  (line_of_sight_obstructed observer target r = true <-> exists t, 0 <= t <= 1 /\ norm (vplus observer (scale t (vminus target observer))) <= r).
Proof.
  intros R0. unfold line_of_sight_obstructed. set (d := vminus target observer).
  assert (E : forall t, norm (vplus observer (scale t d)) <= r <-> dot3 d d * t * t + 2 * dot3 observer d * t + (dot3 observer observer - r * r) <= 0).
  { intros t. assert (X : dot3 (vplus observer (scale t d)) (vplus observer (scale t d)) = dot3 d d * t * t + 2 * dot3 observer d * t + dot3 observer observer) by (destruct observer as ((?, ?), ?), d as ((?, ?), ?); cbn; ring).
    rewrite <- norm_sq in X. pose proof (norm_nonneg (vplus observer (scale t d))). split; intros; nra. }
  destruct (reqb_r (dot3 d d) 0) as [Z|Z].
  - apply dot_zero in Z. rewrite Z. assert (V : forall t, vplus observer (scale t (0, 0, 0)) = observer) by (intros t; destruct observer as ((?, ?), ?); cbn; apply vec_eq; ring).
    destruct (rleb_r (norm observer) r) as [L|L]; split; auto; [intros _; exists 0; split; [lra|now rewrite V]|discriminate|intros (t & _ & T); rewrite V in T; contradiction].
  - pose proof (dot_nonneg d). rewrite <- quad_segment by lra. split; intros (t & T & H1); exists t; split; auto; now apply E.
Qed.
