(** Lemmas about threshold crossings of a fixed star. *)
From Coq Require Import ZArith Reals List Bool Lia Lra.
From Verif Require Import Mat3 Ang Sort Geom_Model Geom_Proofs Horiz_Model Stareq_Model.
Import ListNotations.
Local Open Scope R_scope.

(** ** The cosine around the turn *)
Lemma cos_sym x : cos (Rabs x) = cos x.
Proof. unfold Rabs. destruct (Rcase_abs x); [apply cos_neg|reflexivity]. Qed.
Lemma reduced phi : exists k, - PI <= phi - 2 * PI * IZR k < PI.
Proof.
  pose proof PI_RGT_0 as P. exists (Int_part ((phi + PI) / (2 * PI))). pose proof (rem_e_range (phi + PI) (2 * PI) ltac:(lra)) as H. unfold rem_e in H. lra.
Qed.
Lemma cos_shift phi k : cos (phi - 2 * PI * IZR k) = cos phi.
Proof. rewrite <- (cos_turns phi (- k)). f_equal. rewrite opp_IZR. ring. Qed.
Lemma cos_above h phi : 0 <= h <= PI -> (cos h < cos phi <-> exists k, Rabs (phi - 2 * PI * IZR k) < h).
Proof.
  intros H. split.
  - intros C. destruct (reduced phi) as (k & K). exists k. assert (A : Rabs (phi - 2 * PI * IZR k) <= PI) by (apply Rabs_le; lra).
    pose proof (Rabs_pos (phi - 2 * PI * IZR k)). rewrite <- (cos_shift phi k), <- (cos_sym (phi - _)) in C. apply cos_decreasing_0; lra.
  - intros (k & K). pose proof (Rabs_pos (phi - 2 * PI * IZR k)). rewrite <- (cos_shift phi k), <- (cos_sym (phi - _)). apply cos_decreasing_1; lra.
Qed.
Lemma cos_same h phi : 0 <= h <= PI -> (cos phi = cos h <-> exists k, phi = h + 2 * PI * IZR k \/ phi = - h + 2 * PI * IZR k).
Proof.
  intros H. split.
  - intros C. destruct (reduced phi) as (k & K). exists k. assert (A : Rabs (phi - 2 * PI * IZR k) <= PI) by (apply Rabs_le; lra).
    pose proof (Rabs_pos (phi - 2 * PI * IZR k)) as P. rewrite <- (cos_shift phi k), <- (cos_sym (phi - _)) in C.
    assert (E : Rabs (phi - 2 * PI * IZR k) = h).
    { rewrite <- (acos_cos (Rabs (phi - 2 * PI * IZR k))), <- (acos_cos h) by lra. now rewrite C. }
    unfold Rabs in E. destruct (Rcase_abs _); [right|left]; lra.
  - intros (k & [-> | ->]); rewrite cos_turns; [reflexivity|apply cos_neg].
Qed.
Lemma cos_below h phi k : 0 <= h <= PI -> h < phi - 2 * PI * IZR k < 2 * PI - h -> cos phi < cos h.
Proof.
  intros H K. rewrite <- (cos_shift phi k). set (x := phi - 2 * PI * IZR k) in *. clearbody x.
  destruct (Rle_or_lt x PI); [apply cos_decreasing_1; lra|].
  rewrite <- (cos_neg x), <- (cos_turns (- x) 1). apply cos_decreasing_1; cbn; lra.
Qed.

(** ** The sinusoid *)
Definition zenith (lat lst : R) : vec := (cos lat * cos lst, cos lat * sin lst, sin lat).
Lemma sinusoid x y z lat lst : x * x + y * y + z * z = 1 ->
  sin (asin z) * sin lat + cos (asin z) * cos lat * cos (lst - atan2 y x) = dot3 (zenith lat lst) (x, y, z).
Proof.
  intros U. assert (Z : -1 <= z <= 1) by nra. rewrite sin_asin, cos_asin by exact Z. unfold zenith. cbn [dot3].
  replace (1 - z²) with (x² + y²) by (unfold Rsqr; lra). rewrite cos_minus.
  assert (P : sqrt (x² + y²) * cos (atan2 y x) = x /\ sqrt (x² + y²) * sin (atan2 y x) = y).
  { destruct (Req_dec x 0) as [X|X]; [destruct (Req_dec y 0) as [Y|Y]|]; try solve [apply atan2_polar; auto].
    assert (E : sqrt (x² + y²) = 0) by (rewrite X, Y; unfold Rsqr; rewrite Rmult_0_l, Rplus_0_r; apply sqrt_0). rewrite E, X, Y. lra. }
  destruct P as (P1 & P2). set (s := sqrt _) in *. set (c := atan2 y x) in *.
  replace (s * cos lat * (cos lst * cos c + sin lst * sin c)) with (cos lat * cos lst * (s * cos c) + cos lat * sin lst * (s * sin c)) by ring.
  rewrite P1, P2. ring.
Qed.
Lemma unit_apply m v : orthonormal m -> dot3 v v = 1 -> dot3 (apply m v) (apply m v) = 1.
Proof. intros O U. rewrite orthonormal_dot; assumption. Qed.
Lemma unit_unit ra dec : dot3 (unit_of ra dec) (unit_of ra dec) = 1.
Proof.
  unfold unit_of, dot3. pose proof (sin2_cos2 ra) as A. pose proof (sin2_cos2 dec) as B. unfold Rsqr in *.
  replace (_ + _ + _) with ((cos dec * cos dec) * (sin ra * sin ra + cos ra * cos ra) + sin dec * sin dec) by ring. rewrite A. lra.
Qed.

(** ** The occurrences *)
Definition clamped (start stop t : R) : R := if rleb stop t then stop else if rleb t start then start else t.
Lemma occurrences_in day start stop dir : 0 < day -> forall fuel dt c d,
  In (c, d) (occurrences fuel day start stop dt dir) <->
  d = dir /\ exists j, (j < fuel)%nat /\ start + dt + INR j * day <= stop + edge_eps /\ c = clamped start stop (start + dt + INR j * day).
Proof.
  intros D. induction fuel as [|fuel IH]; intros dt c d; cbn [occurrences].
  - split; [intros []|]. intros (_ & j & J & _). lia.
  - destruct (rleb_r (start + dt) (stop + edge_eps)) as [L|L]; cbn [In].
    + split.
      * intros [H|H].
        -- injection H as H1 H2. split; [auto|]. exists O. cbn [INR]. rewrite Rmult_0_l, Rplus_0_r. split; [lia|]. split; [exact L|]. now rewrite <- H1.
        -- apply IH in H as (-> & j & J & K & C). split; [reflexivity|]. exists (S j). rewrite S_INR.
           replace (start + dt + (INR j + 1) * day) with (start + (dt + day) + INR j * day) by ring. split; [lia|]. now split.
      * intros (-> & [|j] & J & K & C).
        -- left. cbn [INR] in C. rewrite Rmult_0_l, Rplus_0_r in C. now subst c.
        -- right. apply IH. split; [reflexivity|]. exists j. rewrite S_INR in K, C.
           replace (start + dt + (INR j + 1) * day) with (start + (dt + day) + INR j * day) in K, C by ring. split; [lia|]. now split.
    + split; [intros []|]. intros (_ & j & _ & K & _). apply L. pose proof (pos_INR j). nra.
Qed.
Lemma enough_turns day start stop dt j : 0 < day -> 0 <= dt -> start + dt + INR j * day <= stop + edge_eps -> (j < turns day start stop)%nat.
Proof.
  intros D P H. unfold turns. set (q := (stop + edge_eps - start) / day).
  assert (Q : INR j <= q). { unfold q. apply (Rmult_le_reg_r day); [exact D|]. unfold Rdiv. rewrite Rmult_assoc, Rinv_l by lra. lra. }
  destruct (archimed q) as (U & _). assert (L : IZR (Z.of_nat j) < IZR (up q)) by (rewrite <- INR_IZR_INZ; lra). apply lt_IZR in L. lia.
Qed.
Lemma first_range day ha target : 0 < day -> 0 <= first_offset day ha target < day.
Proof. intros D. unfold first_offset. pose proof (rem_e_range (target - ha) 360 ltac:(lra)). assert (0 <= rem_e (target - ha) 360 / 360 < 1) by lra. nra. Qed.

(** the hour angle, in degrees, of a star followed at the sidereal rate *)
Definition ha_at (day ha_start start t : R) : R := ha_start + 360 * ((t - start) / day).
Lemma run_in day ha start stop target dir c d : 0 < day ->
  In (c, d) (occurrences (turns day start stop) day start stop (first_offset day ha target) dir) <->
  d = dir /\ exists u k, start <= u <= stop + edge_eps /\ ha_at day ha start u = target + 360 * IZR k /\ c = clamped start stop u.
Proof.
  intros D. rewrite occurrences_in by exact D. pose proof (first_range day ha target D) as (F0 & F1).
  pose proof (rem_e_range (target - ha) 360 ltac:(lra)) as RR.
  assert (HA : forall j, ha_at day ha start (start + first_offset day ha target + IZR j * day) = target + 360 * IZR (j - Int_part ((target - ha) / 360))).
  { intros j. unfold ha_at, first_offset, rem_e. rewrite minus_IZR. field. lra. }
  split; intros (-> & H); (split; [reflexivity|]).
  - destruct H as (j & J & K & C). exists (start + first_offset day ha target + INR j * day), (Z.of_nat j - Int_part ((target - ha) / 360))%Z.
    pose proof (pos_INR j). split; [split; [nra|exact K]|]. split; [|exact C]. rewrite <- HA, <- INR_IZR_INZ. reflexivity.
  - destruct H as (u & k & (U0 & U1) & E & C). set (q := Int_part ((target - ha) / 360)) in *.
    assert (UE : u = start + first_offset day ha target + IZR (k + q) * day).
    { rewrite plus_IZR. unfold ha_at in E. unfold first_offset, rem_e. fold q.
      assert (G : (u - start) / day = (target - ha) / 360 + IZR k) by lra.
      assert (u - start = ((target - ha) / 360 + IZR k) * day) by (rewrite <- G; field; lra). lra. }
    assert (KQ : (0 <= k + q)%Z).
    { apply Z.lt_pred_le. apply lt_IZR. unfold Z.pred. rewrite plus_IZR. apply (Rmult_lt_reg_r day); [exact D|]. change (IZR (-1)) with (-1). nra. }
    exists (Z.to_nat (k + q)). assert (I : INR (Z.to_nat (k + q)) = IZR (k + q)) by (rewrite INR_IZR_INZ, Z2Nat.id; auto).
    rewrite I, <- UE. split; [|split; assumption]. apply (enough_turns _ _ _ (first_offset day ha target)); [exact D|exact F0|]. rewrite I, <- UE. exact U1.
Qed.
