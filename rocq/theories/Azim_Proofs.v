(** Proofs about bearings. *)
From Coq Require Import List ZArith QArith Qabs Bool Lia Reals Lqa Lra Sorting.Sorted.
From Verif Require Import Qb Ang Root_Model Root_Spec Cross_Model Cross_Spec Cross_Proofs Sweep_Model Sweep_Spec Sweep_Proofs Azim_Model.
Import ListNotations.
Local Open Scope R_scope.

(** The half circle on the clockwise side of a bearing. *)
Definition clockwise (bearing a : R) : Prop := exists k : Z, bearing < a + 2 * PI * IZR k < bearing + PI.
Definition counterclockwise (bearing a : R) : Prop := exists k : Z, bearing - PI < a + 2 * PI * IZR k < bearing.
Definition faithful (num : R -> Q) : Prop := forall x, (0 < x -> (0 < num x)%Q) /\ (x < 0 -> (num x < 0)%Q) /\ (x = 0 -> num x = 0%Q).
Lemma faithful_pos num x : faithful num -> ((0 < num x)%Q <-> 0 < x).
Proof. intros F. destruct (F x) as (P & N & Z). split; [|exact P]. intros H. destruct (Rtotal_order x 0) as [L|[E|L]]; [specialize (N L)|rewrite (Z E) in H|assumption]; Lqa.lra. Qed.
Lemma faithful_neg num x : faithful num -> ((num x < 0)%Q <-> x < 0).
Proof. intros F. destruct (F x) as (P & N & Z). split; [|exact N]. intros H. destruct (Rtotal_order x 0) as [L|[E|L]]; [assumption|rewrite (Z E) in H|specialize (P L)]; Lqa.lra. Qed.

Lemma reduce a : exists k, 0 <= a + 2 * PI * IZR k < 2 * PI.
Proof. pose proof PI_RGT_0. exists (- Int_part (a / (2 * PI)))%Z. rewrite opp_IZR. pose proof (rem_e_range a (2 * PI) ltac:(lra)) as B. unfold rem_e in B. lra. Qed.
Lemma sin_turn_pos a b : 0 < sin (a - b) <-> clockwise b a.
Proof.
  pose proof PI_RGT_0 as P. split.
  - intros S. destruct (reduce (a - b)) as (k & K). exists k. rewrite <- (sin_turns (a - b) k) in S. set (x := a - b + 2 * PI * IZR k) in *.
    replace (a + 2 * PI * IZR k) with (x + b) by (unfold x; ring). clearbody x. assert (0 < x) by (destruct (Req_dec x 0) as [E|E]; [rewrite E, sin_0 in S; lra|lra]).
    destruct (Rlt_le_dec x PI); [lra|]. exfalso. pose proof (sin_le_0 x ltac:(lra) ltac:(lra)). lra.
  - intros (k & K). rewrite <- (sin_turns (a - b) k). apply sin_gt_0; lra.
Qed.
Lemma sin_turn_neg a b : sin (a - b) < 0 <-> counterclockwise b a.
Proof.
  assert (E : sin (a - b) < 0 <-> 0 < sin (a - (b - PI))).
  { replace (a - (b - PI)) with (a - b + PI) by ring. rewrite neg_sin. lra. }
  rewrite E, sin_turn_pos. unfold clockwise, counterclockwise. split; intros (k & K); exists k; lra.
Qed.
Lemma sin_turn_zero a b : sin (a - b) = 0 <-> exists k : Z, a = b + PI * IZR k.
Proof.
  split.
  - intros S. apply sin_eq_0_0 in S as (k & K). exists k. lra.
  - intros (k & ->). apply sin_eq_0_1. exists k. ring.
Qed.
(** The arc between two bearings. *)
Definition within (min max a : R) : Prop := exists k : Z, min <= a + 2 * PI * IZR k <= max.
Definition strictly_within (min max a : R) : Prop := exists k : Z, min < a + 2 * PI * IZR k < max.
Lemma cos_abs x : cos (Rabs x) = cos x.
Proof. unfold Rabs. destruct (Rcase_abs x); [apply cos_neg|reflexivity]. Qed.
Lemma near a mid : exists k : Z, - PI <= a - mid + 2 * PI * IZR k < PI.
Proof. destruct (reduce (a - mid + PI)) as (k & K). exists k. lra. Qed.
Lemma cos_arc min max a : min <= max <= min + 2 * PI -> 0 < cos (a - (min + max) * (1 / 2)) - cos ((max - min) * (1 / 2)) <-> strictly_within min max a.
Proof.
  intros W. pose proof PI_RGT_0 as P. set (mid := (min + max) * (1 / 2)). set (hw := (max - min) * (1 / 2)). assert (H : 0 <= hw <= PI) by (unfold hw; lra).
  split.
  - intros C. destruct (near a mid) as (k & K). exists k. rewrite <- (cos_turns (a - mid) k) in C. set (x := a - mid + 2 * PI * IZR k) in *. rewrite <- cos_abs in C.
    assert (X : Rabs x < hw). { destruct (Rlt_le_dec (Rabs x) hw) as [L|L]; [assumption|]. exfalso. assert (Rabs x <= PI) by (apply Rabs_le; lra). pose proof (cos_decr_1 hw (Rabs x) ltac:(lra) ltac:(lra) ltac:(lra) ltac:(lra) L). lra. }
    apply Rabs_def2 in X. unfold x, mid, hw in X. lra.
  - intros (k & K). rewrite <- (cos_turns (a - mid) k). set (x := a - mid + 2 * PI * IZR k). rewrite <- (cos_abs x). assert (X : Rabs x < hw) by (apply Rabs_def1; unfold x, mid, hw; lra).
    pose proof (Rabs_pos x). pose proof (cos_decreasing_1 (Rabs x) hw ltac:(lra) ltac:(lra) ltac:(lra) ltac:(lra) X). lra.
Qed.
Lemma cos_arc_closed min max a : min <= max <= min + 2 * PI -> 0 <= cos (a - (min + max) * (1 / 2)) - cos ((max - min) * (1 / 2)) <-> within min max a.
Proof.
  intros W. pose proof PI_RGT_0 as P. set (mid := (min + max) * (1 / 2)). set (hw := (max - min) * (1 / 2)). assert (H : 0 <= hw <= PI) by (unfold hw; lra).
  split.
  - intros C. destruct (near a mid) as (k & K). exists k. rewrite <- (cos_turns (a - mid) k) in C. set (x := a - mid + 2 * PI * IZR k) in *. rewrite <- cos_abs in C.
    assert (Xp : Rabs x <= PI) by (apply Rabs_le; lra). assert (X : Rabs x <= hw). { destruct (Rle_lt_dec (Rabs x) hw) as [L|L]; [assumption|]. exfalso. pose proof (cos_decreasing_1 hw (Rabs x) ltac:(lra) ltac:(lra) ltac:(lra) ltac:(lra) L). lra. }
    pose proof (Rle_abs x). pose proof (Rle_abs (- x)) as Xn. rewrite Rabs_Ropp in Xn. unfold x, mid, hw in *. lra.
  - intros (k & K). rewrite <- (cos_turns (a - mid) k). set (x := a - mid + 2 * PI * IZR k). rewrite <- (cos_abs x). assert (X : Rabs x <= hw) by (apply Rabs_le; unfold x, mid, hw; lra).
    pose proof (Rabs_pos x). pose proof (cos_decr_1 (Rabs x) hw ltac:(lra) ltac:(lra) ltac:(lra) ltac:(lra) X). lra.
Qed.
(** The rest of the circle. *)
Lemma outside_arc lo hi a : lo <= hi <= lo + 2 * PI -> (~ strictly_within lo hi a <-> within hi (lo + 2 * PI) a).
Proof.
  intros W. pose proof PI_RGT_0 as P. split.
  - intros N. destruct (reduce (a - lo)) as (k & K). destruct (Req_dec (a - lo + 2 * PI * IZR k) 0) as [E|E].
    + exists (k + 1)%Z. rewrite plus_IZR. lra.
    + exists k. destruct (Rlt_le_dec (a + 2 * PI * IZR k) hi) as [L|L]; [|lra]. exfalso. apply N. exists k. lra.
  - intros (k & K) (j & J). assert (Hk : (k = j \/ k < j \/ j < k)%Z) by lia. destruct Hk as [->|[L|L]]; [lra| |].
    + assert (IZR k + 1 <= IZR j) by (rewrite <- plus_IZR; apply IZR_le; lia). nra.
    + assert (IZR j + 1 <= IZR k) by (rewrite <- plus_IZR; apply IZR_le; lia). nra.
Qed.

(** ** Labels *)
Lemma label_ok f thr t c : label f thr t = Some c -> ct c = t /\
  ((cdir c = 1%Z /\ (f (Qred (t - probe_dt)) <= thr)%Q /\ (thr < f (Qred (t + probe_dt)))%Q) \/ (cdir c = (-1)%Z /\ (thr < f (Qred (t - probe_dt)))%Q /\ (f (Qred (t + probe_dt)) <= thr)%Q)).
Proof.
  unfold label. destruct (qltb_r thr (f (Qred (t - probe_dt)))), (qltb_r thr (f (Qred (t + probe_dt)))); cbn [andb negb]; intros E; try discriminate; injection E as <-; (split; [reflexivity|]); cbn [ct cdir]; [right|left]; repeat split; Lqa.lra.
Qed.
Lemma label_some f thr t : (f (Qred (t - probe_dt)) <= thr)%Q -> (thr < f (Qred (t + probe_dt)))%Q -> label f thr t = Some (Cr t 1).
Proof. intros A B. unfold label. destruct (qltb_r thr (f (Qred (t - probe_dt)))), (qltb_r thr (f (Qred (t + probe_dt)))); cbn [andb negb]; try reflexivity; Lqa.lra. Qed.
Lemma label_some_down f thr t : (thr < f (Qred (t - probe_dt)))%Q -> (f (Qred (t + probe_dt)) <= thr)%Q -> label f thr t = Some (Cr t (-1)).
Proof. intros A B. unfold label. destruct (qltb_r thr (f (Qred (t - probe_dt)))), (qltb_r thr (f (Qred (t + probe_dt)))); cbn [andb negb]; try reflexivity; Lqa.lra. Qed.
Lemma filter_map_in {A B} (h : A -> option B) l y : In y (filter_map h l) <-> exists x, In x l /\ h x = Some y.
Proof.
  induction l as [|a l IH]; cbn [filter_map]; [split; [intros []|intros (x & [] & _)]|]. destruct (h a) as [b|] eqn:E.
  - cbn [In]. rewrite IH. split; [intros [<-|(x & I & H)]; [exists a; auto|exists x; auto]|intros (x & [->|I] & H); [left; congruence|right; eauto]].
  - rewrite IH. split; [intros (x & I & H); exists x; split; [now right|assumption]|intros (x & [->|I] & H); [congruence|eauto]].
Qed.
Lemma filter_map_sorted {A B} (h : A -> option B) (ra : A -> A -> Prop) (rb : B -> B -> Prop) l : (forall x y x' y', h x = Some x' -> h y = Some y' -> ra x y -> rb x' y') -> StronglySorted ra l -> StronglySorted rb (filter_map h l).
Proof.
  intros H S. induction S as [|a l S IH F]; cbn [filter_map]; [constructor|]. destruct (h a) as [b|] eqn:E; [|assumption]. constructor; [assumption|]. apply Forall_forall. intros y I. apply filter_map_in in I as (x & I & Ex).
  rewrite Forall_forall in F. eauto.
Qed.
Lemma events_in l t w : (forall c, In c l -> cdir c = 1%Z \/ cdir c = (-1)%Z) -> (In (t, w) (crossing_events l) <-> exists c, In c l /\ ct c = t /\ cdir c = match w with Rising => 1%Z | Setting => (-1)%Z end).
Proof.
  intros S. unfold crossing_events. rewrite in_map_iff. split.
  - intros (c & Eq & I). exists c. destruct (S c I) as [D|D]; rewrite D in *; cbn in Eq; injection Eq as <- <-; auto.
  - intros (c & I & <- & D). exists c. split; [|assumption]. rewrite D. destruct w; reflexivity.
Qed.

(** ** The unwrapped azimuth *)
Definition raw (a : R) : R := rem_e a (2 * PI).
Lemma unwrap_follow a b off : Rabs (b - a) < PI -> raw a + off = a -> exists off', unwrap_step (Some (raw a), off) (raw b) = ((Some (raw b), off'), b) /\ raw b + off' = b.
Proof.
  intros D E. pose proof PI_RGT_0 as P. apply Rabs_def2 in D. unfold unwrap_step. cbn [fst snd].
  pose proof (rem_e_range a (2 * PI) ltac:(lra)) as Ra. pose proof (rem_e_range b (2 * PI) ltac:(lra)) as Rb. fold (raw a) in Ra. fold (raw b) in Rb.
  assert (K : exists k : Z, raw b + off = b + 2 * PI * IZR k).
  { exists (Int_part (a / (2 * PI)) - Int_part (b / (2 * PI)))%Z. unfold raw, rem_e in *. rewrite minus_IZR. lra. }
  destruct K as (k & K). assert (Rk : (-1 <= k <= 1)%Z). { split; apply Z.lt_succ_r; apply lt_IZR; unfold Z.succ; rewrite ?plus_IZR; nra. }
  assert (C : (k = -1 \/ k = 0 \/ k = 1)%Z) by lia. set (rb := raw b) in *. set (ra := raw a) in *. clearbody rb ra.
  destruct C as [->|[->| ->]]; destruct (Rlt_dec PI (rb - ra)); try (exfalso; lra); try (destruct (Rlt_dec (rb - ra) (- PI)); try (exfalso; lra)); eexists; (split; [f_equal; lra|lra]).
Qed.
Lemma unwrap_run_follow l : forall a off, raw a + off = a -> Sorted (fun x y => Rabs (y - x) < PI) (a :: l) -> unwrap_run (Some (raw a), off) (map raw l) = l.
Proof.
  induction l as [|b l IH]; intros a off E S; [reflexivity|]. cbn [map unwrap_run]. apply Sorted_inv in S as (S & H). apply HdRel_inv in H. destruct (unwrap_follow a b off H E) as (off' & U & E'). rewrite U. f_equal. now apply IH.
Qed.
(** Values that differ from the true ones by the same whole number of turns. *)
Lemma unwrapped_ok l : Sorted (fun x y => Rabs (y - x) < PI) l -> exists k : Z, unwrapped (map raw l) = map (fun a => a + 2 * PI * IZR k) l.
Proof.
  destruct l as [|a l]; [exists 0%Z; reflexivity|]. intros S. exists (- Int_part (a / (2 * PI)))%Z. set (k := (- _)%Z). assert (Ea : raw a = a + 2 * PI * IZR k) by (unfold raw, rem_e, k; rewrite opp_IZR; ring).
  unfold unwrapped. cbn [map unwrap_run unwrap_step fst snd]. f_equal; [rewrite Ea; ring|].
  assert (Rs : forall b, raw b = raw (b + 2 * PI * IZR k)) by (intros b; unfold raw; rewrite rem_e_shift; [reflexivity|pose proof PI_RGT_0; lra]).
  assert (M : map raw l = map raw (map (fun a => a + 2 * PI * IZR k) l)) by (rewrite map_map; apply map_ext; intros; apply Rs). rewrite M, (Rs a). apply unwrap_run_follow.
  - rewrite <- Rs, Ea. ring.
  - clear - S. change (a + 2 * PI * IZR k :: map (fun a => a + 2 * PI * IZR k) l) with (map (fun a => a + 2 * PI * IZR k) (a :: l)). induction S as [|x m S IH H]; cbn [map]; constructor; [assumption|].
    destruct H as [|y m H]; constructor. replace (y + 2 * PI * IZR k - (x + 2 * PI * IZR k)) with (y - x) by ring. assumption.
Qed.
