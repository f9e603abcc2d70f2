(** C78 to C82: mission geometry. *)
From Coq Require Import List Reals Lra Lia Bool Sorting.Sorted Sorting.Permutation.
From Verif Require Import Base Mat3 Ang Sort Geom_Model Geom_Proofs Geom_Lens Geom_Mask.
Import ListNotations.
Local Open Scope R_scope.

Lemma sqrt_value x y : 0 <= y -> x = y * y -> sqrt x = y. Proof. intros Y ->. now apply sqrt_square. Qed.
(** ** C78: azimuth, elevation and range *)
(** The angles and the range rebuild the vector from observer to target in the local axes. *)
Theorem C78_pointing op ov tp tv lat lon : tp <> op -> let r := azimuth_elevation_range op ov tp tv lat lon in
  let east := (- sin lon, cos lon, 0) in let north := (- sin lat * cos lon, - sin lat * sin lon, cos lat) in let up := (cos lat * cos lon, cos lat * sin lon, sin lat) in
  vminus tp op = scale (aer_range r) (vplus (scale (cos (aer_el r) * sin (aer_az r)) east) (vplus (scale (cos (aer_el r) * cos (aer_az r)) north) (scale (sin (aer_el r)) up))) /\
  0 < aer_range r /\ - (PI / 2) <= aer_el r <= PI / 2 /\ 0 <= aer_az r < 2 * PI.
Proof. exact (aer_ok op ov tp tv lat lon). Qed.
(** The range is the distance, the light time is it over the speed of light, and the range rate is the
    rate at which the distance changes. *)
Theorem C78_range op ov tp tv lat lon : let r := azimuth_elevation_range op ov tp tv lat lon in
  aer_range r * aer_range r = dot3 (vminus tp op) (vminus tp op) /\ aer_light r * 299792458 = aer_range r.
Proof.
  unfold azimuth_elevation_range, line_of_sight. destruct (basis lat lon) as ((e, n), w). cbn [aer_range aer_light]. split; [apply norm_sq|]. unfold c_m_per_s. field.
Qed.
Theorem C78_rate op ov tp tv lat lon : tp <> op ->
  derivable_pt_lim (fun t => norm (vminus (vplus tp (scale t tv)) (vplus op (scale t ov)))) 0 (aer_rate (azimuth_elevation_range op ov tp tv lat lon)).
Proof. apply rate_ok. Qed.
(** Nobody looks at obstruction: the status says the line of sight is clear even through the Earth. *)
Theorem C78_status_refuted : (forall op ov tp tv lat lon, aer_status (azimuth_elevation_range op ov tp tv lat lon) = Clear) /\
  line_of_sight_obstructed (7000, 0, 0) (-7000, 0, 0) 6371 = true.
Proof.
  split; [intros; unfold azimuth_elevation_range, line_of_sight; destruct (basis lat lon) as ((e, n), w); reflexivity|].
  apply obstructed_ok; [lra|]. exists (1 / 2). split; [lra|]. cbn. unfold norm. cbn. apply Rle_trans with 0; [|lra]. right. apply sqrt_value; lra.
Qed.
Example C78_case : (1, 2, 3) <> (1, 2, 4) :> vec.
Proof. intros H. injection H as H. lra. Qed.

(** ** C79: occultation and eclipse *)
Section Discs.
Variables (observer target occulter : vec) (target_radius occulter_radius sep : R).
Hypotheses (Nt : target <> observer) (No : occulter <> observer) (Ht : 0 < target_radius) (Ho : 0 < occulter_radius).
(** [sep] is the angle between the two bodies, [T] and [O] the apparent radii the code uses. *)
Hypotheses (Hsep : 0 <= sep <= PI) (Csep : cos sep * (norm (vminus target observer) * norm (vminus occulter observer)) = dot3 (vminus target observer) (vminus occulter observer)).
Let T := atan (target_radius / norm (vminus target observer)).
Let O := atan (occulter_radius / norm (vminus occulter observer)).
Let f := occultation_fraction observer target target_radius occulter occulter_radius.
Lemma minus_nonzero (a b : vec) : a <> b -> vminus a b <> (0, 0, 0).
Proof. intros N E. apply N. unfold vminus in E. destruct a as ((?, ?), ?), b as ((?, ?), ?). injection E as E1 E2 E3. apply vec_eq; lra. Qed.
Lemma disc_setup : 0 < T /\ 0 < O /\ f = if rleb (T + O) sep then 0 else if rleb (sep + T) O then 1 else if rleb (sep + O) T then (O * O) / (T * T) else clamp 0 1 (lens T O sep / (PI * T * T)).
Proof.
  pose proof (norm_pos _ (minus_nonzero _ _ Nt)) as P1. pose proof (norm_pos _ (minus_nonzero _ _ No)) as P2. unfold f, occultation_fraction.
  split; [unfold T; rewrite <- atan_0; apply atan_increasing; now apply Rdiv_lt_0_compat|]. split; [unfold O; rewrite <- atan_0; apply atan_increasing; now apply Rdiv_lt_0_compat|].
  destruct (reqb_r (norm (vminus target observer)) 0); [lra|]. destruct (reqb_r (norm (vminus occulter observer)) 0); [lra|]. cbn [orb]. cbv zeta. fold T. fold O.
  assert (Es : separation (vminus target observer) (vminus occulter observer) = sep). { unfold separation. rewrite <- Csep. replace (cos sep * _ / _) with (cos sep) by (field; lra). rewrite clamp_id by apply COS_bound. now apply acos_cos. } rewrite Es. reflexivity.
Qed.
Lemma cases_gap : ~ T + O <= sep -> ~ sep + T <= O -> ~ sep + O <= T -> Rabs (T - O) < sep /\ sep < T + O.
Proof. intros. split; [apply Rabs_def1; lra|lra]. Qed.
(** Discs apart hide nothing; a covered disc is hidden; a disc in front of a larger one hides the ratio
    of areas; otherwise the hidden part is the two segments cut off by the common chord. *)
Theorem C79_fraction : (T + O <= sep -> f = 0) /\ (sep + T <= O -> f = 1) /\ (sep + O <= T -> f = (O / T) * (O / T)) /\
  (Rabs (T - O) < sep -> sep < T + O -> 0 < f < 1 /\ exists a b, 0 < a /\ 0 < b /\ a + b < PI /\ T * cos a + O * cos b = sep /\ T * sin a = O * sin b /\
    f * (PI * T * T) = T * T * (a - sin a * cos a) + O * O * (b - sin b * cos b)).
Proof.
  destruct disc_setup as (T0 & O0 & E). rewrite E. clearbody f T O. destruct (rleb_r (T + O) sep) as [C1|C1].
  - split; [auto|]. split; [intros; lra|]. split; [intros; lra|]. intros; lra.
  - split; [intros; lra|]. destruct (rleb_r (sep + T) O) as [C2|C2]. { split; [auto|]. split; [intros; assert (T = O) by lra; subst T; field; lra|]. intros L _. pose proof (Rle_abs (- (T - O))) as X. rewrite Rabs_Ropp in X. lra. }
    split; [intros; lra|]. destruct (rleb_r (sep + O) T) as [C3|C3]. { split; [intros; field; lra|]. intros L _. pose proof (Rle_abs (T - O)). lra. }
    split; [intros; lra|]. intros L1 L2. pose proof (lens_bounds T O sep T0 O0 L1 L2) as B. pose proof PI_RGT_0 as P. assert (Q : 0 < PI * T * T) by (apply Rmult_lt_0_compat; [apply Rmult_lt_0_compat|]; assumption).
    assert (Fr : 0 < lens T O sep / (PI * T * T) < 1). { split; [apply Rdiv_lt_0_compat; lra|]. apply Rmult_lt_reg_r with (PI * T * T); [exact Q|]. replace (lens T O sep / (PI * T * T) * (PI * T * T)) with (lens T O sep) by (field; lra). lra. }
    rewrite clamp_id by lra. split; [exact Fr|]. destruct (lens_segments T O sep T0 O0 L1 L2) as (a & b & A & Bb & AB & Rc & Rs & _ & L). exists a, b. repeat (split; [assumption|]). unfold segment in L. rewrite <- L. field. lra.
Qed.
Theorem C79_range : 0 <= f <= 1 /\ (f = 0 <-> T + O <= sep) /\ (f = 1 <-> sep + T <= O).
Proof.
  destruct disc_setup as (T0 & O0 & _). destruct C79_fraction as (F1 & F2 & F3 & F4). clearbody f T O. destruct (Rle_lt_dec (T + O) sep) as [C1|C1].
  - rewrite (F1 C1). split; [lra|]. split; split; intros; auto; lra.
  - destruct (Rle_lt_dec (sep + T) O) as [C2|C2]; [rewrite (F2 C2); split; [lra|]; split; split; intros; auto; lra|]. destruct (Rle_lt_dec (sep + O) T) as [C3|C3].
    + rewrite (F3 C3). assert (Q : 0 < O / T < 1). { split; [now apply Rdiv_lt_0_compat|]. apply Rmult_lt_reg_r with T; [exact T0|]. replace (O / T * T) with O by (field; lra). lra. } split; [nra|]. split; split; intros; try lra; nra.
    + destruct (F4 ltac:(apply Rabs_def1; lra) C1) as (B & _). split; [lra|]. split; split; intros; lra.
Qed.
(** The eclipse states follow: no overlap is sunlight, a covered Sun is umbra, and anything between is
    penumbra unless less than a billionth of the Sun is left. *)
Theorem C79_eclipse : let e := eclipse_state observer target target_radius occulter occulter_radius in
  (e = Sunlight <-> T + O <= sep) /\ (sep + T <= O -> e = Umbra) /\ (e = Umbra -> 1 - f <= 1 / 1000000000) /\ (e = Penumbra -> sep < T + O /\ O < sep + T) /\
  (solar_eclipsing observer target target_radius occulter occulter_radius = true <-> sep < T + O).
Proof.
  cbv zeta. destruct C79_range as (R & Z & N). unfold solar_eclipsing, eclipse_state. fold f. clearbody f T O. destruct (rleb_r (1 - 1 / 1000000000) f) as [U|U]; [|destruct (rltb_r 0 f) as [P|P]].
  - split; [split; [discriminate|intros H; apply Z in H; lra]|]. split; [auto|]. split; [intros; lra|]. split; [discriminate|]. split; auto. intros _. apply Rnot_le_lt. intros H. apply Z in H. lra.
  - split; [split; [discriminate|intros H; apply Z in H; lra]|]. split; [intros H; apply N in H; lra|]. split; [discriminate|]. split; [intros _; split; apply Rnot_le_lt; intros H; [apply Z in H|apply N in H]; lra|]. split; auto. intros _. apply Rnot_le_lt. intros H. apply Z in H. lra.
  - split; [split; [intros _; apply Z; lra|auto]|]. split; [intros H; apply N in H; lra|]. split; [discriminate|]. split; [discriminate|]. split; [discriminate|]. intros H. assert (T + O <= sep) by (apply Z; lra). lra.
Qed.
End Discs.
(** The overlap shrinks with the distance, at each moment by the length of the common chord. *)
Theorem C79_chord r s d x h : 0 < r -> 0 < s -> Rabs (r - s) < d -> d < r + s -> 0 <= h -> x * x + h * h = r * r -> (x - d) * (x - d) + h * h = s * s -> derivable_pt_lim (lens r s) d (- (2 * h)).
Proof. apply lens_chord. Qed.
Theorem C79_monotone r s d d' : 0 < r -> 0 < s -> Rabs (r - s) < d -> d < d' -> d' < r + s -> lens r s d' < lens r s d.
Proof. apply lens_decreasing. Qed.
(** The apparent radius used is smaller than the angle under which a ball is seen from outside. *)
Theorem C79_radius_refuted x : 0 < x < 1 -> atan x < asin x /\ atan x < PI / 4.
Proof.
  intros X. assert (L : atan x < asin x). { rewrite asin_atan by lra. apply atan_increasing. assert (S : 0 < sqrt (1 - x²) < 1). { split; [apply sqrt_lt_R0; unfold Rsqr; nra|]. rewrite <- sqrt_1 at 2. apply sqrt_lt_1; unfold Rsqr; nra. }
    apply Rmult_lt_reg_r with (sqrt (1 - x²)); [lra|]. replace (x / sqrt (1 - x²) * sqrt (1 - x²)) with x by (field; lra). nra. }
  split; [exact L|]. rewrite <- atan_1. apply atan_increasing. lra.
Qed.
(** So a satellite from which the Earth hides the whole Sun is said to be in sunlight. (Kilometres:
    the Earth at the origin, the satellite 629 km up, the Sun seen 53 degrees from the Earth's centre.) *)
Theorem C79_shadow_refuted : let sat := (-4200, 5600, 0) in let sun := (150000000, 5600, 0) in
  eclipse_state sat sun 696000 (0, 0, 0) 6371 = Sunlight /\ forall q, norm (vminus q sun) <= 696000 -> line_of_sight_obstructed sat q 6371 = true.
Proof.
  cbv zeta. split.
  - assert (Nt : norm (vminus (150000000, 5600, 0) (-4200, 5600, 0)) = 150004200) by (unfold norm; apply sqrt_value; [lra|]; cbn; lra).
    assert (No : norm (vminus (0, 0, 0) (-4200, 5600, 0)) = 7000) by (unfold norm; apply sqrt_value; [lra|]; cbn; lra).
    assert (A1 : (150000000, 5600, 0) <> (-4200, 5600, 0) :> vec) by (intros H; injection H; lra). assert (A2 : (0, 0, 0) <> (-4200, 5600, 0) :> vec) by (intros H; injection H; lra).
    pose proof (C79_eclipse (-4200, 5600, 0) (150000000, 5600, 0) (0, 0, 0) 696000 6371 (acos (3 / 5)) A1 A2 ltac:(lra) ltac:(lra) (acos_bound _)) as H. cbv zeta in H. rewrite Nt, No in H. apply H; [rewrite cos_acos by lra; cbn; lra|]. clear H.
    set (t := 696000 / 150004200). set (o := 6371 / 7000). assert (B : 0 < t < 1 / 100) by (unfold t; lra). assert (Bo : 0 < o < 92 / 100) by (unfold o; lra).
    apply Rnot_lt_le. intros L. assert (S : 0 < atan t + atan o < PI). { pose proof (atan_bound t). pose proof (atan_bound o). assert (0 < atan t) by (rewrite <- atan_0; apply atan_increasing; lra). assert (0 < atan o) by (rewrite <- atan_0; apply atan_increasing; lra). lra. }
    pose proof (acos_bound (3 / 5)) as Ba. assert (C : cos (atan t + atan o) < cos (acos (3 / 5))) by (apply cos_decreasing_1; lra). rewrite cos_acos, cos_plus, !cos_atan, !sin_atan in C by lra.
    assert (R1 : 1 <= sqrt (1 + t²) <= 101 / 100). { split; [rewrite <- sqrt_1 at 1; apply sqrt_le_1_alt; unfold Rsqr; nra|]. rewrite <- (sqrt_square (101 / 100)) by lra. apply sqrt_le_1_alt. unfold Rsqr. nra. }
    assert (R2 : 1 <= sqrt (1 + o²) <= 137 / 100). { split; [rewrite <- sqrt_1 at 1; apply sqrt_le_1_alt; unfold Rsqr; nra|]. rewrite <- (sqrt_square (137 / 100)) by lra. apply sqrt_le_1_alt. unfold Rsqr. nra. }
    set (p := sqrt (1 + t²)) in *. set (q := sqrt (1 + o²)) in *. clearbody p q t o. assert (E : 1 / p * (1 / q) - t / p * (o / q) = (1 - t * o) / (p * q)) by (field; lra). rewrite E in C.
    assert (Pq : 0 < p * q <= 101 / 100 * (137 / 100)) by (split; nra). assert (M : (1 - t * o) / (p * q) * (p * q) < 3 / 5 * (p * q)) by (apply Rmult_lt_compat_r; [lra|exact C]). replace ((1 - t * o) / (p * q) * (p * q)) with (1 - t * o) in M by (field; lra). assert (t * o < 1 / 100) by nra. lra.
  - intros q Hq. apply obstructed_ok; [lra|]. set (k := 4200 / 150004200). exists k. split; [unfold k; lra|]. destruct q as ((x, y), z). apply Rsqr_incr_0_var; [|lra]. unfold Rsqr. rewrite norm_sq.
    assert (W : dot3 (vminus (x, y, z) (150000000, 5600, 0)) (vminus (x, y, z) (150000000, 5600, 0)) <= 696000 * 696000) by (rewrite <- norm_sq; pose proof (norm_nonneg (vminus (x, y, z) (150000000, 5600, 0))); nra).
    cbn in W |- *. set (a := x - 150000000) in *. set (b := y - 5600) in *. replace (-4200 + k * (x - -4200)) with (k * a) by (unfold k, a; field). replace (5600 + k * (y - 5600)) with (5600 + k * b) by (unfold b; ring). replace (0 + k * (z - 0)) with (k * z) by ring. replace (z - 0) with z in W by ring.
    assert (Kb : 0 <= k <= 3 / 100000) by (unfold k; lra). assert (Bb : b <= 696000) by nra. clearbody k a b.
    replace (k * a * (k * a) + (5600 + k * b) * (5600 + k * b) + k * z * (k * z)) with (k * k * (a * a + b * b + z * z) + 11200 * (k * b) + 5600 * 5600) by ring. set (w := a * a + b * b + z * z) in *. clearbody w. assert (k * k <= 1 / 1000000000) by nra. assert (k * b <= 21) by nra. assert (k * k * w <= 1 / 1000000000 * (696000 * 696000)) by nra. lra.
Qed.
(** A body behind the target hides it: only directions and apparent sizes are compared. *)
Theorem C79_behind_refuted : eclipse_state (0, 0, 0) (1, 0, 0) (1 / 100) (3, 0, 0) 1 = Umbra /\
  forall p q, norm (vminus p (1, 0, 0)) <= 1 / 100 -> norm (vminus q (3, 0, 0)) <= 1 -> norm p < norm q.
Proof.
  split.
  - assert (Nt : norm (vminus (1, 0, 0) (0, 0, 0)) = 1) by (unfold norm; apply sqrt_value; [lra|]; cbn; lra). assert (No : norm (vminus (3, 0, 0) (0, 0, 0)) = 3) by (unfold norm; apply sqrt_value; [lra|]; cbn; lra).
    assert (A1 : (1, 0, 0) <> (0, 0, 0) :> vec) by (intros H; injection H; lra). assert (A2 : (3, 0, 0) <> (0, 0, 0) :> vec) by (intros H; injection H; lra). pose proof PI_RGT_0.
    pose proof (C79_eclipse (0, 0, 0) (1, 0, 0) (3, 0, 0) (1 / 100) 1 0 A1 A2 ltac:(lra) ltac:(lra) ltac:(lra)) as K. cbv zeta in K. rewrite Nt, No in K. apply K; [rewrite cos_0; cbn; lra|]. assert (atan (1 / 100 / 1) < atan (1 / 3)) by (apply atan_increasing; lra). lra.
  - intros p q Hp Hq. destruct p as ((a, b), c), q as ((x, y), z).
    assert (P2 : dot3 (vminus (a, b, c) (1, 0, 0)) (vminus (a, b, c) (1, 0, 0)) <= 1 / 100 * (1 / 100)) by (rewrite <- norm_sq; pose proof (norm_nonneg (vminus (a, b, c) (1, 0, 0))); nra). assert (Q2 : dot3 (vminus (x, y, z) (3, 0, 0)) (vminus (x, y, z) (3, 0, 0)) <= 1) by (rewrite <- norm_sq; pose proof (norm_nonneg (vminus (x, y, z) (3, 0, 0))); nra).
    cbn in P2, Q2. unfold norm. apply sqrt_lt_1_alt. cbn. split; [nra|]. assert (a <= 101 / 100) by nra. assert (2 <= x) by nra. nra.
Qed.
Example C79_case : exists T O sep, 0 < T /\ 0 < O /\ Rabs (T - O) < sep /\ sep < T + O /\ T * T = 3 / 5 * (3 / 5) + 4 / 5 * (4 / 5) /\ (3 / 5 - sep) * (3 / 5 - sep) + 4 / 5 * (4 / 5) = O * O.
Proof. exists 1, 1, (6 / 5). repeat split; try lra. apply Rabs_def1; lra. Qed.

(** ** C80: the line of sight and a ball at the origin *)
Theorem C80_obstructed observer target r : 0 <= r ->
  (line_of_sight_obstructed observer target r = true <-> exists t, 0 <= t <= 1 /\ norm (vplus observer (scale t (vminus target observer))) <= r).
Proof. apply obstructed_ok. Qed.
(** So it does not matter which end looks. *)
Theorem C80_symmetric observer target r : 0 <= r -> line_of_sight_obstructed observer target r = line_of_sight_obstructed target observer r.
Proof.
  intros R0. assert (H : forall a b, line_of_sight_obstructed a b r = true -> line_of_sight_obstructed b a r = true).
  { intros a b H. apply obstructed_ok in H as (t & T & H); [|exact R0]. apply obstructed_ok; [exact R0|]. exists (1 - t). split; [lra|]. replace (vplus b (scale (1 - t) (vminus a b))) with (vplus a (scale t (vminus b a))); [exact H|]. destruct a as ((?, ?), ?), b as ((?, ?), ?). cbn. apply vec_eq; ring. }
  destruct (line_of_sight_obstructed observer target r) eqn:E; [symmetry; now apply H|]. destruct (line_of_sight_obstructed target observer r) eqn:E'; [|reflexivity]. apply H in E'. congruence.
Qed.
Example C80_case : line_of_sight_obstructed (2, 0, 0) (-2, 0, 0) 1 = true /\ line_of_sight_obstructed (2, 0, 0) (2, 5, 0) 1 = false.
Proof.
  split; [apply obstructed_ok; [lra|]; exists (1 / 2); split; [lra|]; unfold norm; cbn; apply Rle_trans with 0; [right; apply sqrt_value; lra|lra]|].
  destruct (line_of_sight_obstructed (2, 0, 0) (2, 5, 0) 1) eqn:E; [|reflexivity]. apply obstructed_ok in E as (t & T & H); [|lra]. exfalso. assert (S : norm (vplus (2, 0, 0) (scale t (vminus (2, 5, 0) (2, 0, 0)))) * norm (vplus (2, 0, 0) (scale t (vminus (2, 5, 0) (2, 0, 0)))) <= 1) by (pose proof (norm_nonneg (vplus (2, 0, 0) (scale t (vminus (2, 5, 0) (2, 0, 0))))); nra). rewrite norm_sq in S. cbn in S. nra.
Qed.

(** ** C81: the terrain mask *)
(** Between neighbouring samples the mask is the straight line, also from the last sample round to the
    first, and it repeats every turn. Azimuths of samples are distinct and in [0, 360). *)
Theorem C81_between samples a0 e0 a1 e1 az k : in_turn samples -> distinct samples -> In (a0, e0) samples -> In (a1, e1) samples -> a0 < a1 -> (forall s, In s samples -> ~ (a0 < fst s < a1)) -> a0 <= az <= a1 ->
  elevation_at (mask_new samples) (az + 2 * PI * IZR k) = e0 + (az - a0) / (a1 - a0) * (e1 - e0).
Proof. intros T D I0 I1 L N H. destruct (mask_sorted samples T D) as (A & T' & M). apply neighbours; try assumption; try (now apply M). intros s I. apply N. now apply M. Qed.
Theorem C81_around samples a0 e0 a1 e1 az k : in_turn samples -> distinct samples -> In (a0, e0) samples -> In (a1, e1) samples -> (forall s, In s samples -> a1 <= fst s <= a0) -> a0 <= az <= a1 + 2 * PI ->
  elevation_at (mask_new samples) (az + 2 * PI * IZR k) = e0 + (az - a0) / (a1 + 2 * PI - a0) * (e1 - e0).
Proof. intros T D I0 I1 N H. destruct (mask_sorted samples T D) as (A & T' & M). apply around; try assumption; try (now apply M). intros s I. apply N. now apply M. Qed.
(** At a sample the mask has the sample's elevation. *)
Theorem C81_sample samples a e k : in_turn samples -> distinct samples -> In (a, e) samples -> elevation_at (mask_new samples) (a + 2 * PI * IZR k) = e.
Proof.
  intros T D I. destruct (mask_sorted samples T D) as (A & T' & M). apply M in I. destruct (head_last _ A) as ((a1, e1) & (a0, e0) & I1 & I0 & B); [intros E; rewrite E in I; destruct I|]. cbn [fst] in B. pose proof (B _ I) as Ba. cbn [fst] in Ba. pose proof (two_pi).
  destruct (Req_dec a a0) as [E|E].
  - assert (X : (a, e) = (a0, e0)) by (apply (asc_inj _ _ _ A); auto). injection X as -> ->. rewrite (around _ A T' a0 e0 a1 e1); try assumption. 2: { unfold in_turn in T'. rewrite Forall_forall in T'. pose proof (T' _ I0). pose proof (T' _ I1). cbn in *. lra. } replace (a0 - a0) with 0 by ring. unfold Rdiv. ring.
  - assert (N : exists y, In y (mask_new samples) /\ a < fst y /\ forall s, In s (mask_new samples) -> ~ (a < fst s < fst y)).
    { destruct (in_split _ _ I) as (p & q & Eq). rewrite Eq in *. destruct (asc_app _ _ A) as (_ & A2 & A3). inversion A2 as [|? ? A4 F]; subst. rewrite Forall_forall in F. destruct q as [|y q]. { exfalso. apply in_app_or in I0 as [I0|[I0|[]]]; [specialize (A3 _ (a, e) I0 (or_introl eq_refl)); cbn in A3; lra|congruence]. }
      exists y. split; [apply in_or_app; right; right; now left|]. split; [apply (F y); now left|]. intros s J (J1 & J2). apply in_app_or in J as [J|[J|[J|J]]]; [specialize (A3 _ (a, e) J (or_introl eq_refl)); cbn in A3; lra|subst s; cbn in J1; lra|subst s; lra|]. inversion A4 as [|? ? _ F2]; subst. rewrite Forall_forall in F2. specialize (F2 s J). lra. }
    destruct N as ((b, f) & J & L & N). cbn [fst] in L, N. rewrite (neighbours _ A T' a e b f) by (assumption || lra). replace (a - a) with 0 by ring. unfold Rdiv. ring.
Qed.
(** It stays between the lowest and the highest sample. *)
Theorem C81_bounds samples lo hi az : in_turn samples -> distinct samples -> samples <> [] -> Forall (fun s : R * R => lo <= snd s <= hi) samples -> lo <= elevation_at (mask_new samples) az <= hi.
Proof.
  intros T D N F. destruct (mask_sorted samples T D) as (A & T' & M). apply mask_bounds; try assumption.
  - intros E. destruct samples as [|s l]; [contradiction|]. assert (I : In s (mask_new (s :: l))) by (apply M; now left). rewrite E in I. destruct I.
  - rewrite Forall_forall in *. intros s I. apply F. now apply M.
Qed.
(** The order of the samples does not matter; no samples make a flat mask. *)
Theorem C81_order samples samples' : in_turn samples -> distinct samples -> Permutation samples samples' -> mask_new samples = mask_new samples'.
Proof.
  intros T D P. assert (T' : in_turn samples') by (unfold in_turn in *; rewrite Forall_forall in *; intros s I; apply T; eapply Permutation_in; [apply Permutation_sym; exact P|exact I]). assert (D' : distinct samples') by (unfold distinct; eapply Permutation_NoDup; [apply Permutation_map; exact P|exact D]).
  destruct (mask_sorted samples T D) as (A & _ & M). destruct (mask_sorted samples' T' D') as (A' & _ & M'). apply asc_perm; try assumption. intros s. rewrite M, M'. split; apply Permutation_in; [exact P|now apply Permutation_sym].
Qed.
Theorem C81_flat az : elevation_at (mask_new []) az = 0.
Proof. reflexivity. Qed.
Theorem C81_clears mask az el : clears mask az el = true <-> elevation_at mask az <= el.
Proof. unfold clears. destruct (rleb_r (elevation_at mask az) el); split; auto; discriminate. Qed.
(** Azimuths outside [0, 360) are reduced only after sorting: a mask sampled one radian high half a
    radian west of north, and zero half a radian east of it, lets an elevation of 0.6 through at its own
    high sample. *)
Theorem C81_unreduced_refuted : let mask := mask_new [(- (1 / 2), 1); (1 / 2, 0)] in clears mask (- (1 / 2)) (6 / 10) = true.
Proof.
  cbv zeta. apply C81_clears. pose proof PI2_3_2 as P. assert (P4 : PI <= 4) by apply PI_4.
  assert (M : mask_new [(- (1 / 2), 1); (1 / 2, 0)] = [(2 * PI - 1 / 2, 1); (1 / 2, 0)]).
  { unfold mask_new. cbn [isort fold_right insert]. destruct (rleb_r (fst (- (1 / 2), 1)) (fst (1 / 2, 0))) as [L|L]; cbn [fst] in L; [|lra]. cbn [map fst snd]. rewrite (rem_e_unique (- (1 / 2)) (2 * PI) (2 * PI - 1 / 2) (-1)) by (cbn; lra). rewrite rem_e_small by lra. reflexivity. }
  rewrite M. unfold elevation_at. rewrite (rem_e_unique (- (1 / 2)) (2 * PI) (2 * PI - 1 / 2) (-1)) by (cbn; lra). cbn [mask_scan fst snd].
  destruct (rleb_r (2 * PI - 1 / 2) (1 / 2)); [lra|]. rewrite andb_false_r. destruct (rleb_r (1 / 2) (2 * PI - 1 / 2)); [|lra]. destruct (rleb_r (2 * PI - 1 / 2) (2 * PI - 1 / 2 + 2 * PI)); [|lra]. cbn [andb]. unfold mask_between. destruct (Req_EM_T _ _); [lra|].
  assert (D : 0 < 4 * PI - 1) by lra. replace (0 + (2 * PI - 1 / 2 - 1 / 2) / (2 * PI - 1 / 2 + 2 * PI - 1 / 2) * (1 - 0)) with ((2 * PI - 1) / (4 * PI - 1)) by (field; lra).
  apply Rmult_le_reg_r with (4 * PI - 1); [exact D|]. replace ((2 * PI - 1) / (4 * PI - 1) * (4 * PI - 1)) with (2 * PI - 1) by (field; lra). lra.
Qed.
Example C81_case : let samples := [(3, 1 / 10); (1, 2 / 10); (2, 0)] in in_turn samples /\ distinct samples /\ In (1, 2 / 10) samples /\ In (2, 0) samples /\ (forall s, In s samples -> ~ (1 < fst s < 2)).
Proof.
  cbv zeta. pose proof PI2_3_2. split; [repeat constructor; cbn; lra|]. split; [unfold distinct; cbn [map fst]; repeat constructor; cbn; intros H0; repeat destruct H0 as [H0|H0]; try lra; destruct H0|]. split; [right; now left|]. split; [right; right; now left|]. intros s [<-|[<-|[<-|[]]]]; cbn; lra.
Qed.

(** ** C82: beta angle, local time and field of view *)
Lemma cross_scale a b u v : cross (scale a u) (scale b v) = scale (a * b) (cross u v).
Proof. destruct u as ((?, ?), ?), v as ((?, ?), ?). cbn. apply vec_eq; ring. Qed.
Lemma scale_scale a b u : scale a (scale b u) = scale (a * b) u. Proof. destruct u as ((?, ?), ?). cbn. apply vec_eq; ring. Qed.
Lemma norm_scale k u : 0 <= k -> norm (scale k u) = k * norm u.
Proof. intros K. unfold norm. rewrite dot_scale, dot_comm, dot_scale. replace (k * (k * dot3 u u)) with (k * k * dot3 u u) by ring. rewrite sqrt_mult_alt by nra. now rewrite sqrt_square. Qed.
(** The beta angle is the angle of the Sun above the orbit plane, on the side of the angular momentum. *)
Theorem C82_beta pos vel sun : cross pos vel <> (0, 0, 0) -> dot3 sun sun = 1 -> exists beta, beta_angle pos vel sun = Ok beta /\ - (PI / 2) <= beta <= PI / 2 /\
  sin beta * norm (cross pos vel) = dot3 (cross pos vel) sun.
Proof.
  intros N S. assert (Np : pos <> (0, 0, 0)) by (intros ->; apply N; destruct vel as ((?, ?), ?); cbn; apply vec_eq; ring). assert (Nv : vel <> (0, 0, 0)) by (intros ->; apply N; destruct pos as ((?, ?), ?); cbn; apply vec_eq; ring).
  pose proof (norm_pos _ Np) as P. pose proof (norm_pos _ Nv) as V. pose proof (norm_pos _ N) as H. unfold beta_angle. rewrite cross_scale. set (k := / norm pos * / norm vel). assert (K : 0 < k) by (apply Rmult_lt_0_compat; now apply Rinv_0_lt_compat).
  rewrite norm_scale by lra. set (h := cross pos vel) in *. destruct (reqb_r (k * norm h) 0) as [E|E]; [nra|]. rewrite scale_scale. replace (/ (k * norm h) * k) with (/ norm h) by (field; lra). rewrite dot_scale.
  pose proof (cauchy h sun) as C. assert (Ns : norm sun = 1) by (unfold norm; rewrite S; apply sqrt_1). rewrite Ns, Rmult_1_r in C.
  assert (B : -1 <= / norm h * dot3 h sun <= 1). { pose proof (Rle_abs (dot3 h sun)) as C1. pose proof (Rle_abs (- dot3 h sun)) as C2. rewrite Rabs_Ropp in C2. assert (I : 0 < / norm h) by (now apply Rinv_0_lt_compat). assert (Z : / norm h * norm h = 1) by (field; lra). split; nra. }
  rewrite clamp_id by lra. eexists. split; [reflexivity|]. split; [apply asin_bound|]. rewrite sin_asin by lra. field. lra.
Qed.
(** A radial orbit has no plane and is a panic. *)
Theorem C82_radial pos vel sun : pos <> (0, 0, 0) -> vel <> (0, 0, 0) -> cross pos vel = (0, 0, 0) -> beta_angle pos vel sun = Panic.
Proof.
  intros Np Nv E. unfold beta_angle. rewrite cross_scale, E. destruct (reqb_r (norm (scale (/ norm pos * / norm vel) (0, 0, 0))) 0) as [H|H]; [reflexivity|]. exfalso. apply H. unfold norm. cbn. apply sqrt_value; lra.
Qed.
(** Local solar time is in the day, noon at the Sun's longitude, and goes with the longitude at a day a
    turn; the local time of the ascending node is the same function. *)
Theorem C82_time lon sun : 0 <= local_solar_time lon sun < 86400 /\ (exists k : Z, local_solar_time lon sun = 43200 + (lon - sun) * 86400 / (2 * PI) + 86400 * IZR k) /\ ltan lon sun = local_solar_time lon sun.
Proof.
  unfold ltan, local_solar_time. pose proof PI_RGT_0 as P. split; [pose proof (rem_e_range (12 + rem_e (lon - sun) (2 * PI) * 24 / (2 * PI)) 24); lra|]. split; [|reflexivity].
  unfold rem_e. set (i := Int_part ((lon - sun) / (2 * PI))). set (j := Int_part _). exists (- i - j)%Z. rewrite minus_IZR, opp_IZR. field. lra.
Qed.
Theorem C82_noon lon : local_solar_time lon lon = 43200.
Proof. unfold local_solar_time. pose proof PI_RGT_0 as P. replace (lon - lon) with 0 by ring. rewrite (rem_e_small 0) by lra. replace (12 + 0 * 24 / (2 * PI)) with 12 by (field; lra). rewrite rem_e_small by lra. lra. Qed.
(** A cone contains the directions up to its half angle; the rectangular test never accepts a direction
    outside either of the two angles across the rectangle. *)
Theorem C82_cone half off : contains_boresight (Conical half) off = true <-> - half <= off <= half.
Proof.
  unfold contains_boresight. destruct (rleb_r (Rabs off) half) as [L|L]; split; intros H; auto; try discriminate.
  - pose proof (Rle_abs off). pose proof (Rle_abs (- off)) as X. rewrite Rabs_Ropp in X. lra.
  - exfalso. apply L. apply Rabs_le. lra.
Qed.
Lemma acos_ge x y z : x * x + y * y + z * z = 1 -> 0 < z -> Rabs (atan (x / z)) <= acos z.
Proof.
  intros E Z. rewrite acos_atan by exact Z. assert (S : Rabs x <= sqrt (1 - z²)). { rewrite <- (sqrt_Rsqr_abs x). apply sqrt_le_1_alt. unfold Rsqr. nra. }
  assert (M : forall a b, a <= b -> atan a <= atan b). { intros a b [L|Eq]; [left; now apply atan_increasing|rewrite Eq; lra]. }
  assert (I : 0 < / z) by (now apply Rinv_0_lt_compat). pose proof (Rle_abs x) as A1. pose proof (Rle_abs (- x)) as A2. rewrite Rabs_Ropp in A2.
  apply Rabs_le. split; [|apply M; unfold Rdiv; nra]. rewrite <- atan_opp. apply M. unfold Rdiv. nra.
Qed.
Theorem C82_rectangle across along x y z : x * x + y * y + z * z = 1 -> 0 < z -> contains_boresight (Rectangular across along) (acos z) = true ->
  Rabs (atan (x / z)) <= across / 2 /\ Rabs (atan (y / z)) <= along / 2.
Proof.
  intros E Z H. unfold contains_boresight in H. pose proof (acos_bound z) as B. rewrite Rabs_right in H by lra. destruct (rleb_r (acos z) (if Rle_dec (across / 2) (along / 2) then across / 2 else along / 2)) as [L|L]; [|discriminate].
  pose proof (acos_ge x y z E Z). pose proof (acos_ge y x z ltac:(lra) Z). destruct (Rle_dec (across / 2) (along / 2)); lra.
Qed.
(** It does refuse directions that are inside both: nine tenths of the long half side, on the axis. *)
Theorem C82_rectangle_narrow : contains_boresight (Rectangular 1 (1 / 2)) (45 / 100) = false.
Proof. unfold contains_boresight. destruct (Rle_dec (1 / 2) (1 / 2 / 2)); [lra|]. rewrite Rabs_right by lra. destruct (rleb_r (45 / 100) (1 / 2 / 2)); [lra|reflexivity]. Qed.
Example C82_case : cross (7000, 0, 0) (0, 7, 0) <> (0, 0, 0) /\ dot3 (0, 3 / 5, 4 / 5) (0, 3 / 5, 4 / 5) = 1 /\ cross (1, 0, 0) (2, 0, 0) = (0, 0, 0) /\ 3 / 5 * (3 / 5) + 0 * 0 + 4 / 5 * (4 / 5) = 1.
Proof. split; [intros H; injection H; lra|]. split; [cbn; lra|]. split; [cbn; apply vec_eq; ring|lra]. Qed.
Print Assumptions C78_pointing.
Print Assumptions C79_eclipse.
Print Assumptions C79_shadow_refuted.
Print Assumptions C80_obstructed.
Print Assumptions C81_around.
Print Assumptions C82_beta.
