(** Proofs about the phases of the Moon. *)
From Coq Require Import List Reals Bool ZArith Lia Lra Psatz Permutation Sorted.
From Verif Require Import Ang Phase_Model.
Import ListNotations.
Local Open Scope R_scope.

Lemma ltb_iff a b : ltb a b = true <-> a < b.
Proof. unfold ltb. destruct (Rlt_dec a b); split; intros; auto; discriminate || lra. Qed.
Lemma leb_iff a b : leb a b = true <-> a <= b.
Proof. unfold leb. destruct (Rle_dec a b); split; intros; auto; discriminate || lra. Qed.
Lemma ltb_off a b : ltb a b = false <-> b <= a.
Proof. unfold ltb. destruct (Rlt_dec a b); split; intros; auto; discriminate || lra. Qed.
Lemma leb_off a b : leb a b = false <-> b < a.
Proof. unfold leb. destruct (Rle_dec a b); split; intros; auto; discriminate || lra. Qed.

(** * The loops that bring the elongation into one turn *)
Lemma bring_down_some n : forall e r, bring_down n e = Some r -> (exists k, r = e + 360 * IZR k) /\ r < 360 /\ (0 <= e -> 0 <= r).
Proof.
  induction n as [|n IH]; intros e r H; cbn in H; destruct (leb 360 e) eqn:L; try discriminate.
  - injection H as <-. apply leb_off in L. split; [exists 0%Z; ring|]. split; [exact L|auto].
  - apply leb_iff in L. destruct (IH _ _ H) as ((k & E) & B & C). split; [exists (k - 1)%Z; rewrite minus_IZR; lra|]. split; [exact B|]. intros _. apply C. lra.
  - injection H as <-. apply leb_off in L. split; [exists 0%Z; ring|]. split; [exact L|auto].
Qed.
Lemma bring_down_total n : forall e, e < 360 * (INR n + 1) -> exists r, bring_down n e = Some r.
Proof.
  induction n as [|n IH]; intros e H; cbn [bring_down]; destruct (leb 360 e) eqn:L; try (eexists; reflexivity).
  - apply leb_iff in L. cbn in H. lra.
  - apply IH. rewrite S_INR in H. lra.
Qed.
Lemma bring_up_some n : forall e r, bring_up n e = Some r -> (exists k, r = e + 360 * IZR k) /\ 0 <= r /\ (e < 360 -> r < 360).
Proof.
  induction n as [|n IH]; intros e r H; cbn in H; destruct (ltb e 0) eqn:L; try discriminate.
  - injection H as <-. apply ltb_off in L. split; [exists 0%Z; ring|]. split; [exact L|auto].
  - apply ltb_iff in L. destruct (IH _ _ H) as ((k & E) & B & C). split; [exists (k + 1)%Z; rewrite plus_IZR; lra|]. split; [exact B|]. intros _. apply C. lra.
  - injection H as <-. apply ltb_off in L. split; [exists 0%Z; ring|]. split; [exact L|auto].
Qed.
Lemma bring_up_total n : forall e, - (360 * INR n) <= e -> exists r, bring_up n e = Some r.
Proof.
  induction n as [|n IH]; intros e H; cbn [bring_up]; destruct (ltb e 0) eqn:L; try (eexists; reflexivity).
  - apply ltb_iff in L. cbn in H. lra.
  - apply IH. rewrite S_INR in H. lra.
Qed.
Lemma bring_down_floor n : forall e r, bring_down n e = Some r -> Rmin e 0 <= r.
Proof. intros e r H. destruct (bring_down_some _ _ _ H) as (_ & _ & C). unfold Rmin. destruct (Rle_dec e 0) as [L|L]; [|apply C; lra]. destruct n; cbn in H; destruct (leb 360 e) eqn:Q; try (apply leb_iff in Q; lra); injection H as <-; lra. Qed.

Theorem from_elongation_value n e hw l : from_elongation n e hw = Some l -> l = classify hw (rem_e e 360).
Proof.
  unfold from_elongation. destruct (bring_down n e) as [a|] eqn:A; [|discriminate]. destruct (bring_up n a) as [b|] eqn:B; [|discriminate]. intros H. injection H as <-.
  destruct (bring_down_some _ _ _ A) as ((j & EJ) & A1 & _), (bring_up_some _ _ _ B) as ((k & EK) & B0 & B1). f_equal. symmetry.
  apply (rem_e_unique _ _ _ (- (j + k))); [lra|split; [exact B0|auto]|]. rewrite opp_IZR, plus_IZR. lra.
Qed.
Lemma nat_above x : exists n, x < INR n.
Proof.
  exists (Z.to_nat (up (Rabs x))). pose proof (archimed (Rabs x)) as (A & _). pose proof (Rabs_pos x). assert (0 <= up (Rabs x))%Z by (apply le_IZR; lra).
  rewrite INR_IZR_INZ, Z2Nat.id by assumption. pose proof (Rle_abs x). lra.
Qed.
Theorem from_elongation_total e hw : exists n0, forall n, (n0 <= n)%nat -> from_elongation n e hw <> None.
Proof.
  destruct (nat_above (Rabs e)) as (n0 & U). exists n0. intros n L. apply le_INR in L. pose proof (Rle_abs e). pose proof (Rle_abs (- e)). rewrite Rabs_Ropp in *.
  pose proof (pos_INR n). unfold from_elongation. destruct (bring_down_total n e ltac:(lra)) as (r & E). rewrite E. pose proof (bring_down_floor _ _ _ E) as F.
  destruct (bring_up_total n r) as (s & E2); [|rewrite E2; discriminate]. unfold Rmin in F. destruct (Rle_dec e 0); lra.
Qed.

(** * Labels *)
(** The arc of each label, in degrees around its turn. *)
Definition arc (hw : R) (l : label) : R * R :=
  match l with
  | NewMoon => (- hw, hw) | WaxingCrescent => (hw, 90 - hw) | FirstQuarter => (90 - hw, 90 + hw) | WaxingGibbous => (90 + hw, 180 - hw)
  | FullMoon => (180 - hw, 180 + hw) | WaningGibbous => (180 + hw, 270 - hw) | LastQuarter => (270 - hw, 270 + hw) | WaningCrescent => (270 + hw, 360 - hw)
  end.
Definition in_arc (hw : R) (l : label) (e : R) : Prop := exists k, fst (arc hw l) <= e - 360 * IZR k < snd (arc hw l).

Ltac decide_tests H := unfold classify in H; repeat match type of H with context[ltb ?a ?b] => let Q := fresh in destruct (ltb a b) eqn:Q; [apply ltb_iff in Q|apply ltb_off in Q]; cbn [orb] in H | context[leb ?a ?b] => let Q := fresh in destruct (leb a b) eqn:Q; [apply leb_iff in Q|apply leb_off in Q]; cbn [orb] in H end.

Lemma classify_arc hw e l : 0 <= hw <= 45 -> 0 <= e < 360 -> classify hw e = l -> fst (arc hw l) <= e < snd (arc hw l) \/ (l = NewMoon /\ fst (arc hw l) <= e - 360 < snd (arc hw l)).
Proof.
  intros W E H. decide_tests H; subst l; cbn; lra || (right; split; [reflexivity|lra]).
Qed.
(** Different arcs do not meet, in whatever turn. *)
Lemma arcs_apart hw l l' e : 0 <= hw <= 45 -> in_arc hw l e -> in_arc hw l' e -> l = l'.
Proof.
  intros W (k & A) (k' & B).
  assert (K : forall k k' : Z, (k < k')%Z -> IZR k + 1 <= IZR k') by (intros a b L; rewrite <- plus_IZR; apply IZR_le; lia).
  destruct (Z_lt_le_dec k k') as [L|L]; [apply K in L|destruct (Z_lt_le_dec k' k) as [L'|L']; [apply K in L'|assert (k = k') by lia; subst k']];
    destruct l, l'; try reflexivity; exfalso; cbn in A, B; lra.
Qed.
Theorem label_arc n e hw l : 0 <= hw <= 45 -> from_elongation n e hw = Some l -> in_arc hw l e.
Proof.
  intros W H. apply from_elongation_value in H. symmetry in H. pose proof (rem_e_range e 360 ltac:(lra)) as RR. apply classify_arc in H; try assumption.
  unfold rem_e in *. set (k := Int_part (e / 360)) in *. destruct H as [H|(-> & H)]; [exists k; lra|exists (k + 1)%Z; rewrite plus_IZR; lra].
Qed.

(** * The triangle Sun - Moon - Earth *)
Lemma dist_sq m s psi : (s * cos psi - m) ^ 2 + (s * sin psi) ^ 2 = s * s + m * m - 2 * s * m * cos psi.
Proof. pose proof (sin2_cos2 psi) as E. unfold Rsqr in E. nra. Qed.
Lemma clamp1_id x : -1 <= x <= 1 -> clamp1 x = x.
Proof. intros H. unfold clamp1. destruct (Rlt_dec x (-1)); [lra|]. destruct (Rlt_dec 1 x); lra. Qed.

Definition moon_sun (m s psi : R) : R := sqrt ((s * cos psi - m) ^ 2 + (s * sin psi) ^ 2).
Definition cos_i (m s psi : R) : R := (moon_sun m s psi * moon_sun m s psi + m * m - s * s) / (2 * moon_sun m s psi * m).
Lemma moon_sun_sq m s psi : moon_sun m s psi * moon_sun m s psi = (s * cos psi - m) ^ 2 + (s * sin psi) ^ 2.
Proof. apply sqrt_sqrt. pose proof (pow2_ge_0 (s * cos psi - m)). pose proof (pow2_ge_0 (s * sin psi)). lra. Qed.
Lemma cos_i_bound m s psi : 0 < m -> 0 < moon_sun m s psi -> -1 <= cos_i m s psi <= 1.
Proof.
  intros M D. unfold cos_i. pose proof (moon_sun_sq m s psi) as E. set (d := moon_sun m s psi) in *. clearbody d.
  rewrite dist_sq in E.
  (* s^2 sin^2 = d^2 - (s cos - m)^2, and d^2 + m^2 - s^2 = 2 m (m - s cos) *)
  assert (N : d * d + m * m - s * s = 2 * m * (m - s * cos psi)) by nra. rewrite N.
  replace (2 * m * (m - s * cos psi) / (2 * d * m)) with ((m - s * cos psi) / d) by (field; lra).
  assert (B : (m - s * cos psi) ^ 2 <= d * d). { rewrite E, <- dist_sq. pose proof (pow2_ge_0 (s * sin psi)). nra. }
  assert (L1 : m - s * cos psi <= d) by nra. assert (L2 : - d <= m - s * cos psi) by nra.
  assert (I : 0 < / d) by (now apply Rinv_0_lt_compat). unfold Rdiv. assert (Z : d * / d = 1) by (apply Rinv_r; lra). set (w := m - s * cos psi) in *. set (v := / d) in *. clearbody w v. nra.
Qed.
Lemma phase_angle_unfold km s psi : phase_angle km s psi = if Rlt_dec (moon_sun (km / au_km) s psi) (/ 10 ^ 15) then 0 else acos (clamp1 (cos_i (km / au_km) s psi)).
Proof.
  unfold phase_angle, cos_i. replace (sqrt (Rmax (s * s + km / au_km * (km / au_km) - 2 * s * (km / au_km) * cos psi) 0)) with (moon_sun (km / au_km) s psi); [reflexivity|].
  unfold moon_sun. rewrite dist_sq, Rmax_left; [reflexivity|]. rewrite <- dist_sq. pose proof (pow2_ge_0 (s * cos psi - km / au_km)). pose proof (pow2_ge_0 (s * sin psi)). lra.
Qed.
Lemma au_pos : 0 < au_km.
Proof. unfold au_km. lra. Qed.
(** Away from the Sun itself, the angle is the one at the Moon between the
    directions of the Earth and of the Sun. *)
Theorem phase_angle_geometry km s psi : 0 < km -> / 10 ^ 15 <= moon_sun (km / au_km) s psi ->
  let m := km / au_km in let i := phase_angle km s psi in
  0 <= i <= PI /\ cos i * (m * moon_sun m s psi) = (0 - m) * (s * cos psi - m) + 0 * (s * sin psi).
Proof.
  intros K D m i. assert (M : 0 < m) by (unfold m; apply Rmult_lt_0_compat; [exact K|apply Rinv_0_lt_compat, au_pos]).
  assert (D0 : 0 < moon_sun m s psi) by (eapply Rlt_le_trans; [|exact D]; apply Rinv_0_lt_compat; lra).
  pose proof (cos_i_bound m s psi M D0) as B. unfold i. rewrite phase_angle_unfold. fold m. destruct (Rlt_dec _ _) as [L|_]; [fold m in D; lra|]. rewrite clamp1_id by exact B.
  split; [apply acos_bound|]. rewrite cos_acos by exact B. unfold cos_i. pose proof (moon_sun_sq m s psi) as E. set (d := moon_sun m s psi) in *. clearbody d. rewrite dist_sq in E.
  assert (N : d * d + m * m - s * s = 2 * m * (m - s * cos psi)) by nra. rewrite N. field. lra.
Qed.

(** The illuminated fraction. *)
Definition fraction (km s psi : R) : R := (1 + cos (phase_angle km s psi)) / 2.
Theorem fraction_range km s psi : 0 <= fraction km s psi <= 1.
Proof. unfold fraction. pose proof (COS_bound (phase_angle km s psi)). lra. Qed.

Lemma moon_sun_pos m s psi : 0 < m < s -> s - m <= moon_sun m s psi.
Proof.
  intros H. unfold moon_sun. rewrite dist_sq. apply Rle_trans with (sqrt ((s - m)²)); [rewrite sqrt_Rsqr by lra; lra|]. apply sqrt_le_1_alt. unfold Rsqr. pose proof (COS_bound psi). assert (0 <= (s * m) * (1 - cos psi)) by (apply Rmult_le_pos; nra). lra.
Qed.
(** As the Moon moves away from the Sun in the sky, more of it is lit. *)
Theorem fraction_grows km s psi psi' : 0 < km -> km / au_km + / 10 ^ 15 <= s -> 0 <= psi <= psi' -> psi' <= PI -> fraction km s psi <= fraction km s psi'.
Proof.
  intros K S P P'. set (m := km / au_km) in *. assert (M : 0 < m) by (unfold m; apply Rmult_lt_0_compat; [exact K|apply Rinv_0_lt_compat, au_pos]).
  assert (T : 0 < / 10 ^ 15) by (apply Rinv_0_lt_compat; lra).
  assert (V : forall p, fraction km s p = (1 + cos_i m s p) / 2 /\ 0 < moon_sun m s p).
  { intros p. pose proof (moon_sun_pos m s p ltac:(lra)) as D. split; [|lra]. unfold fraction. rewrite phase_angle_unfold. fold m. destruct (Rlt_dec _ _); [lra|]. rewrite clamp1_id, cos_acos by (apply cos_i_bound; lra). reflexivity. }
  destruct (V psi) as (-> & D), (V psi') as (-> & D'). cut (cos_i m s psi <= cos_i m s psi'); [lra|].
  assert (C : cos psi' <= cos psi). { destruct (Req_dec psi psi') as [->|N]; [lra|]. left. apply cos_decreasing_1; lra. }
  assert (L : moon_sun m s psi <= moon_sun m s psi'). { unfold moon_sun. rewrite !dist_sq. apply sqrt_le_1_alt. assert (0 <= (s * m) * (cos psi - cos psi')) by (apply Rmult_le_pos; nra). lra. }
  unfold cos_i. set (d := moon_sun m s psi) in *. set (d' := moon_sun m s psi') in *. clearbody d d'.
  assert (Q : forall d, 0 < d -> (d * d + m * m - s * s) / (2 * d * m) = (d - (s * s - m * m) * / d) / (2 * m)) by (intros; field; lra).
  rewrite !Q by assumption. assert (I : / d' <= / d) by (apply Rinv_le_contravar; assumption). assert (0 < / (2 * m)) by (apply Rinv_0_lt_compat; lra).
  unfold Rdiv. apply Rmult_le_compat_r; [lra|]. assert (0 <= (s * s - m * m) * (/ d - / d')) by (apply Rmult_le_pos; nra). lra.
Qed.
Theorem fraction_new km s : 0 < km -> km / au_km + / 10 ^ 15 <= s -> fraction km s 0 = 0.
Proof.
  intros K S. set (m := km / au_km) in *. assert (M : 0 < m) by (unfold m; apply Rmult_lt_0_compat; [exact K|apply Rinv_0_lt_compat, au_pos]).
  assert (T : 0 < / 10 ^ 15) by (apply Rinv_0_lt_compat; lra). pose proof (moon_sun_pos m s 0 ltac:(lra)) as D.
  unfold fraction. rewrite phase_angle_unfold. fold m. destruct (Rlt_dec _ _); [lra|]. rewrite clamp1_id, cos_acos by (apply cos_i_bound; lra).
  assert (E : moon_sun m s 0 = s - m). { unfold moon_sun. rewrite dist_sq, cos_0. replace (s * s + m * m - 2 * s * m * 1) with ((s - m)²) by (unfold Rsqr; ring). apply sqrt_Rsqr. lra. }
  unfold cos_i. rewrite E. field. lra.
Qed.
Theorem fraction_full km s : 0 < km -> / 10 ^ 15 <= s -> fraction km s PI = 1.
Proof.
  intros K S. set (m := km / au_km) in *. assert (M : 0 < m) by (unfold m; apply Rmult_lt_0_compat; [exact K|apply Rinv_0_lt_compat, au_pos]).
  assert (T : 0 < / 10 ^ 15) by (apply Rinv_0_lt_compat; lra).
  assert (E : moon_sun m s PI = s + m). { unfold moon_sun. rewrite dist_sq, cos_PI. replace (s * s + m * m - 2 * s * m * -1) with ((s + m)²) by (unfold Rsqr; ring). apply sqrt_Rsqr. lra. }
  unfold fraction. rewrite phase_angle_unfold. fold m. rewrite E. destruct (Rlt_dec _ _); [lra|]. rewrite clamp1_id, cos_acos by (apply cos_i_bound; rewrite ?E; lra).
  unfold cos_i. rewrite E. field. lra.
Qed.

(** * Separation on the sky *)
Definition dir (lon lat : R) : R * R * R := (cos lat * cos lon, cos lat * sin lon, sin lat).
Definition dot3 (u v : R * R * R) : R := let '(a, b, c) := u in let '(d, e, f) := v in a * d + b * e + c * f.
Lemma great_circle_parts lon1 lat1 lon2 lat2 :
  let dlon := lon2 - lon1 in
  let x := cos lat1 * sin lat2 - sin lat1 * cos lat2 * cos dlon in
  let y := cos lat2 * sin dlon in
  let z := sin lat1 * sin lat2 + cos lat1 * cos lat2 * cos dlon in x * x + y * y + z * z = 1.
Proof.
  intros dlon x y z. unfold x, y, z. pose proof (sin2_cos2 lat1) as A. pose proof (sin2_cos2 lat2) as B. pose proof (sin2_cos2 dlon) as C. unfold Rsqr in *.
  set (s1 := sin lat1) in *. set (c1 := cos lat1) in *. set (s2 := sin lat2) in *. set (c2 := cos lat2) in *. set (sd := sin dlon) in *. set (cd := cos dlon) in *. clearbody s1 c1 s2 c2 sd cd.
  replace ((c1 * s2 - s1 * c2 * cd) * (c1 * s2 - s1 * c2 * cd) + c2 * sd * (c2 * sd) + (s1 * s2 + c1 * c2 * cd) * (s1 * s2 + c1 * c2 * cd)) with ((s1 * s1 + c1 * c1) * (s2 * s2 + c2 * c2 * (cd * cd)) + c2 * c2 * (sd * sd)) by ring.
  rewrite A. replace (sd * sd) with (1 - cd * cd) by lra. replace (s2 * s2) with (1 - c2 * c2) by lra. ring.
Qed.
Theorem great_circle_angle lon1 lat1 lon2 lat2 : let p := great_circle lon1 lat1 lon2 lat2 in 0 <= p <= PI /\ cos p = dot3 (dir lon1 lat1) (dir lon2 lat2).
Proof.
  intros p. pose proof (great_circle_parts lon1 lat1 lon2 lat2) as E. cbv zeta in E. unfold p, great_circle. cbv zeta.
  set (x := cos lat1 * sin lat2 - sin lat1 * cos lat2 * cos (lon2 - lon1)) in *. set (y := cos lat2 * sin (lon2 - lon1)) in *. set (z := sin lat1 * sin lat2 + cos lat1 * cos lat2 * cos (lon2 - lon1)) in *.
  assert (Z : z = dot3 (dir lon1 lat1) (dir lon2 lat2)). { unfold z, dir, dot3. rewrite cos_minus. ring. } clearbody x y z.
  assert (N : 0 <= x * x + y * y) by nra. assert (S : (sqrt (x * x + y * y))² = x * x + y * y) by (apply Rsqr_sqrt; exact N).
  rewrite atan2_acos; [|apply sqrt_pos|rewrite S; unfold Rsqr; lra]. split; [apply acos_bound|]. rewrite cos_acos; [exact Z|]. assert (z * z <= 1) by nra. split; nra.
Qed.
Lemma dot3_comm u v : dot3 u v = dot3 v u.
Proof. destruct u as ((a, b), c), v as ((d, e), f). cbn. ring. Qed.
Theorem great_circle_sym lon1 lat1 lon2 lat2 : great_circle lon1 lat1 lon2 lat2 = great_circle lon2 lat2 lon1 lat1.
Proof.
  destruct (great_circle_angle lon1 lat1 lon2 lat2) as (A & B), (great_circle_angle lon2 lat2 lon1 lat1) as (C & D). cbv zeta in *. rewrite dot3_comm, <- B in D.
  rewrite <- (acos_cos _ A), <- (acos_cos _ C), D. reflexivity.
Qed.

(** * Differences of angles *)
Theorem angle_diff_spec a b : let d := angle_diff a b in - PI < d <= PI /\ exists k, d = a - b + 2 * PI * IZR k.
Proof.
  intros d. unfold d, angle_diff. pose proof PI_RGT_0 as P. pose proof (rem_e_range (a - b) (2 * PI) ltac:(lra)) as RR. unfold rem_e in *. set (k := Int_part _) in *. cbv zeta.
  destruct (Rlt_dec PI (a - b - 2 * PI * IZR k)); split; try lra; [exists (- k - 1)%Z; rewrite minus_IZR, opp_IZR; ring|exists (- k)%Z; rewrite opp_IZR; ring].
Qed.
Lemma angle_diff_cos a b : cos (angle_diff a b) = cos (a - b).
Proof. destruct (angle_diff_spec a b) as (_ & k & E). cbv zeta in E. rewrite E. apply cos_turns. Qed.
Lemma angle_diff_sin a b : sin (angle_diff a b) = sin (a - b).
Proof. destruct (angle_diff_spec a b) as (_ & k & E). cbv zeta in E. rewrite E. apply sin_turns. Qed.
Lemma small_cos d : Rabs d < 1 / 2 -> 0 < cos d.
Proof. intros H. apply Rabs_def2 in H. pose proof PI2_1. apply cos_gt_0; lra. Qed.
(** Near a zero of the signed function, the half-radian test tells the target
    from the opposite direction. *)
Theorem filter_exact a b : Rabs (sin (a - b)) < sin (1 / 2) -> (Rabs (angle_diff a b) < 1 / 2 <-> 0 < cos (a - b)).
Proof.
  intros S. rewrite <- angle_diff_sin in S. rewrite <- angle_diff_cos. destruct (angle_diff_spec a b) as (D & _). cbv zeta in D. set (d := angle_diff a b) in *. clearbody d. clear a b.
  pose proof PI2_1 as P2. split; [apply small_cos|]. intros C. apply Rnot_le_lt. intros G.
  assert (H : - (PI / 2) < d < PI / 2).
  { split; apply Rnot_le_lt; intros Q; [assert (cos d <= 0); [|lra]; rewrite <- cos_neg; apply cos_le_0; lra|assert (cos d <= 0); [|lra]; apply cos_le_0; lra]. }
  assert (M : sin (1 / 2) <= sin (Rabs d)). { destruct (Req_dec (1 / 2) (Rabs d)) as [->|N]; [lra|]. left. apply sin_increasing_1; try lra; unfold Rabs; destruct (Rcase_abs d); lra. }
  assert (E : sin (Rabs d) <= Rabs (sin d)). { unfold Rabs at 1. destruct (Rcase_abs d); [rewrite sin_neg; pose proof (Rle_abs (- sin d)); rewrite Rabs_Ropp in *; lra|apply Rle_abs]. } lra.
Qed.

(** * Events *)
Lemma insert_perm e l : Permutation (insert e l) (e :: l).
Proof. induction l as [|h r IH]; cbn; [reflexivity|]. destruct (leb _ _); [reflexivity|]. rewrite IH. apply perm_swap. Qed.
Lemma sort_perm l : Permutation (sort_events l) l.
Proof. induction l as [|h r IH]; cbn; [reflexivity|]. rewrite insert_perm. now constructor. Qed.
Definition before (a b : event) : Prop := e_time a <= e_time b.
Lemma insert_sorted e l : StronglySorted before l -> StronglySorted before (insert e l).
Proof.
  induction l as [|h r IH]; intros S; cbn; [repeat constructor|]. inversion S; subst. destruct (leb (e_time e) (e_time h)) eqn:L.
  - apply leb_iff in L. constructor; [exact S|]. constructor; [exact L|]. eapply Forall_impl; [|exact H2]. unfold before. cbn. intros; lra.
  - apply leb_off in L. constructor; [now apply IH|]. rewrite Forall_forall in *. intros x I. apply (Permutation_in _ (insert_perm e r)) in I. destruct I as [<-|I]; [unfold before; lra|now apply H2].
Qed.
Lemma sort_sorted l : StronglySorted before (sort_events l).
Proof. induction l as [|h r IH]; cbn; [constructor|now apply insert_sorted]. Qed.
Theorem event_iff elong cr t k : In {| e_time := t; e_kind := k |} (find_phase_events elong cr) <-> In t (cr (phase_fun elong k)) /\ Rabs (angle_diff (elong t) (target k)) < 1 / 2.
Proof.
  unfold find_phase_events. split.
  - intros H. apply (Permutation_in _ (sort_perm _)) in H. apply in_flat_map in H. destruct H as (k' & _ & H). unfold events_of in H. apply in_map_iff in H. destruct H as (t' & E & H). injection E as -> ->. apply filter_In in H. destruct H as (A & B). split; [exact A|now apply ltb_iff].
  - intros (A & B). apply (Permutation_in _ (Permutation_sym (sort_perm _))). apply in_flat_map. exists k. split; [destruct k; cbn; auto|]. unfold events_of. apply in_map_iff. exists t. split; [reflexivity|]. apply filter_In. split; [exact A|now apply ltb_iff].
Qed.

(** * Samples *)
Lemma sample_some n : forall t last step l, sample n t last step = Some l -> (forall i, (i < length l)%nat -> nth i l 0 = t + INR i * step /\ t + INR i * step <= last) /\ last < t + INR (length l) * step.
Proof.
  induction n as [|n IH]; intros t last step l H; cbn in H; destruct (leb t last) eqn:L; try discriminate.
  - injection H as <-. apply leb_off in L. cbn. split; [intros; lia|lra].
  - destruct (sample n (t + step) last step) as [r|] eqn:E; [|discriminate]. injection H as <-. apply leb_iff in L. destruct (IH _ _ _ _ E) as (A & B). split.
    + intros [|i] I; [cbn; lra|]. cbn [length] in I. destruct (A i ltac:(lia)) as (A1 & A2). cbn [nth]. rewrite S_INR. split; [rewrite A1; ring|lra].
    + cbn [length]. rewrite S_INR. lra.
  - injection H as <-. apply leb_off in L. cbn. split; [intros; lia|lra].
Qed.
Lemma sample_total step last : 0 < step -> forall n t, last < t + INR n * step -> sample n t last step <> None.
Proof.
  intros P. induction n as [|n IH]; intros t H; cbn [sample]; destruct (leb t last) eqn:L; try discriminate.
  - apply leb_iff in L. cbn in H. lra.
  - rewrite S_INR in H. specialize (IH (t + step) ltac:(lra)). destruct (sample n (t + step) last step); [discriminate|contradiction].
Qed.
Lemma sample_stuck step last : step <= 0 -> forall n t, t <= last -> sample n t last step = None.
Proof.
  intros P. induction n as [|n IH]; intros t H; cbn [sample]; destruct (leb t last) eqn:L; try reflexivity; try (apply leb_off in L; lra).
  rewrite IH by lra. reflexivity.
Qed.
