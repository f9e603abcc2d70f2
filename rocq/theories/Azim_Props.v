(** C75, C76: bearings. *)
From Coq Require Import List ZArith QArith Qabs Qround Qreals Bool Lia Reals Lqa Lra Sorting.Sorted FunctionalExtensionality.
From Verif Require Import Qb Ang Root_Model Root_Spec Cross_Model Cross_Spec Cross_Proofs Cross_Props Sweep_Model Sweep_Spec Sweep_Proofs Azim_Model Azim_Proofs.
Import ListNotations.
Local Open Scope R_scope.

(** ** C75 *)
(** The signal of a bearing is positive on the half circle clockwise of it, negative on the other, and
    zero at the bearing and opposite to it. *)
Theorem C75_sides b a : (0 < sin (a - b) <-> exists k : Z, b < a + 2 * PI * IZR k < b + PI) /\ (sin (a - b) < 0 <-> exists k : Z, b - PI < a + 2 * PI * IZR k < b) /\
  (sin (a - b) = 0 <-> exists k : Z, a = b + PI * IZR k).
Proof. split; [apply sin_turn_pos|]. split; [apply sin_turn_neg|apply sin_turn_zero]. Qed.
Section Search.
Variables (num : R -> Q) (az : Q -> R) (hint : option Q) (window : interval).
Hypothesis (Fn : faithful num) (Sp : (0 < azimuth_step hint)%Q).
Lemma raw_found b : exists raw, find_crossings (passes_for window (azimuth_step hint)) window (azimuth_step hint) (bearing_signal num az b) 0 = Some raw.
Proof. apply (proj1 (C36_ends _ window (azimuth_step hint) (bearing_signal num az b) 0 Sp (passes_enough window _ Sp))). Qed.
(** The events come in order of time; at a rising one the body is not on the clockwise half circle
    just before and is just after, at a setting one the other way round. *)
Theorem C75_events b : exists events, azimuth_crossings num az hint window b = Some events /\ StronglySorted (fun x y => (fst x + dedupe_eps <= fst y)%Q) events /\
  forall t w, In (t, w) events -> let before := az (Qred (t - probe_dt)) in let after := az (Qred (t + probe_dt)) in
    match w with Rising => ~ clockwise b before /\ clockwise b after | Setting => clockwise b before /\ ~ clockwise b after end.
Proof.
  destruct (raw_found b) as (raw & E). unfold azimuth_crossings. rewrite E. eexists. split; [reflexivity|]. set (f := bearing_signal num az b).
  assert (Cl : forall t, (0 < f t)%Q <-> clockwise b (az t)) by (intros t; unfold f, bearing_signal; rewrite (faithful_pos num _ Fn); apply sin_turn_pos).
  split.
  - unfold crossing_events, label_crossings. pose proof (sort_dedup_sorted (fun t : Q => t) raw) as S.
    apply (filter_map_sorted (label f 0) _ (fun a b => (ct a + dedupe_eps <= ct b)%Q)) in S; [|intros x y x' y' X Y; destruct (label_ok f 0 x x' X) as (-> & _); destruct (label_ok f 0 y y' Y) as (-> & _); auto].
    induction S as [|c l S IH F]; cbn [map]; constructor; auto. apply Forall_forall. intros q I. apply in_map_iff in I as (c' & <- & I). cbn [fst]. rewrite Forall_forall in F. auto.
  - intros t w I. apply events_in in I.
    + destruct I as (c & I & Et & D). unfold label_crossings in I. apply filter_map_in in I as (x & _ & L). apply label_ok in L as (<- & L). rewrite Et in L. cbn zeta.
      destruct L as [(D' & A & B)|(D' & A & B)]; rewrite D' in D; destruct w; try discriminate; rewrite <- !Cl; split; try assumption; Lqa.lra.
    + intros c J. unfold label_crossings in J. apply filter_map_in in J as (x & _ & L). apply label_ok in L as (_ & L). tauto.
Qed.
(** Every scan step over which the body changes half circle gives a time in the step; a time that is
    the same or within the merging distance of it is reported if the body changes half circle around it. *)
Theorem C75_found b : canon (fst window) -> canon (snd window) -> exists events l, azimuth_crossings num az hint window b = Some events /\ grid (snd window) (azimuth_step hint) (fst window) l /\
  forall s, In s l -> (counterclockwise b (az (fst s)) /\ clockwise b (az (snd s))) \/ (clockwise b (az (fst s)) /\ counterclockwise b (az (snd s))) ->
    exists x y, refined (fun t => bearing_signal num az b t - 0)%Q s x /\ (y = x \/ (Qabs (x - y) < dedupe_eps)%Q) /\
      (~ clockwise b (az (Qred (y - probe_dt))) -> clockwise b (az (Qred (y + probe_dt))) -> In (y, Rising) events) /\
      (clockwise b (az (Qred (y - probe_dt))) -> ~ clockwise b (az (Qred (y + probe_dt))) -> In (y, Setting) events).
Proof.
  intros C1 C2. destruct (raw_found b) as (raw & E). unfold azimuth_crossings. rewrite E. set (f := bearing_signal num az b).
  assert (Cl : forall t, (0 < f t)%Q <-> clockwise b (az t)) by (intros t; unfold f, bearing_signal; rewrite (faithful_pos num _ Fn); apply sin_turn_pos).
  assert (Cc : forall t, (f t < 0)%Q <-> counterclockwise b (az t)) by (intros t; unfold f, bearing_signal; rewrite (faithful_neg num _ Fn); apply sin_turn_neg).
  destruct (C36_crossings _ window _ _ 0 raw C1 C2 Sp E) as (l & G & Fa). fold f in Fa. eexists. exists l. split; [reflexivity|]. split; [assumption|]. intros s Is H.
  assert (Op : opposite (fun t => f t - 0)%Q s = true).
  { unfold opposite. rewrite <- !Cl, <- !Cc in H. destruct (qltb_r (f (fst s) - 0) 0), (qltb_r 0 (f (snd s) - 0)), (qltb_r 0 (f (fst s) - 0)), (qltb_r (f (snd s) - 0) 0); cbn [andb orb]; try reflexivity; exfalso; destruct H as [(H1 & H2)|(H1 & H2)]; Lqa.lra. }
  assert (J : In s (filter (opposite (fun t => f t - 0)%Q) l)) by (apply filter_In; auto).
  assert (K : exists x, In x raw /\ refined (fun t => f t - 0)%Q s x).
  { clear - J Fa. induction Fa as [|s' x ss xs R Fa IH]; [destruct J|]. destruct J as [<-|J]; [exists x; split; [now left|assumption]|]. destruct (IH J) as (z & Z & Rz). exists z. split; [now right|assumption]. }
  destruct K as (x & Ix & Rx). destruct (proj2 (proj2 (sort_dedup_ok (fun t : Q => t) raw)) x Ix) as (y & Iy & N). exists x, y. split; [exact Rx|]. split; [destruct N; auto|].
  assert (Ds : forall c, In c (label_crossings raw f 0) -> cdir c = 1%Z \/ cdir c = (-1)%Z) by (intros c I; unfold label_crossings in I; apply filter_map_in in I as (z & _ & L); apply label_ok in L as (_ & L); tauto).
  rewrite <- !Cl. split; intros A B; apply (events_in _ _ _ Ds); [exists (Cr y 1)|exists (Cr y (-1))]; (split; [|auto]); unfold label_crossings; apply filter_map_in; exists y; (split; [assumption|]).
  - apply label_some; Lqa.lra.
  - apply label_some_down; Lqa.lra.
Qed.
End Search.
(** The signal changes sign at the opposite bearing too, so passing it is reported as passing the
    bearing. A body going round once a day, clockwise all the time, and a bearing of a quarter turn:
    the second event is three quarters of a turn from north, and is called a decreasing azimuth. *)
Definition sgn (x : R) : Q := if Rlt_dec 0 x then 1%Q else if Rlt_dec x 0 then (-(1))%Q else 0%Q.
Lemma sgn_faithful : faithful sgn.
Proof. intros x. unfold sgn. destruct (Rlt_dec 0 x), (Rlt_dec x 0); repeat split; intros; try reflexivity; try (exfalso; lra). Qed.
Definition daily_turn (t : Q) : R := 2 * PI * Q2R t.
Definition quarter_signal (t : Q) : Q := let x := (t - inject_Z (Qfloor t))%Q in
  if qltb x (1 # 4) || qltb (3 # 4) x then (-(1))%Q else if qltb (1 # 4) x && qltb x (3 # 4) then 1%Q else 0%Q.
Lemma quarter_signal_ok : bearing_signal sgn daily_turn (PI / 2) = quarter_signal.
Proof.
  apply functional_extensionality. intros t. unfold bearing_signal, quarter_signal, daily_turn. pose proof PI_RGT_0 as P. set (x := (t - inject_Z (Qfloor t))%Q).
  assert (X : (0 <= x)%Q /\ (x < 1)%Q). { pose proof (Qfloor_le t). pose proof (Qlt_floor t) as L. rewrite inject_Z_plus in L. unfold x. change (inject_Z 1) with 1%Q in L. Lqa.lra. }
  assert (T : Q2R t = Q2R x + IZR (Qfloor t)). { unfold x. unfold Qminus. rewrite Q2R_plus, Q2R_opp. assert (Ef : Q2R (inject_Z (Qfloor t)) = IZR (Qfloor t)) by (unfold Q2R, inject_Z; cbn; field). rewrite Ef. ring. }
  assert (Sn : sin (2 * PI * Q2R t - PI / 2) = - cos (2 * PI * Q2R x)).
  { rewrite T. replace (2 * PI * (Q2R x + IZR (Qfloor t)) - PI / 2) with (2 * PI * Q2R x - PI / 2 + 2 * PI * IZR (Qfloor t)) by ring. rewrite sin_turns. unfold Rminus. rewrite sin_plus, cos_neg, sin_neg, cos_PI2, sin_PI2. ring. }
  rewrite Sn. clearbody x. destruct X as (X0 & X1). apply Qle_Rle in X0. apply Qlt_Rlt in X1. replace (Q2R 0) with 0 in X0 by (unfold Q2R; cbn; field). replace (Q2R 1) with 1 in X1 by (unfold Q2R; cbn; field).
  assert (A1 : Q2R (1 # 4) = 1 / 4) by (unfold Q2R; cbn; field). assert (A3 : Q2R (3 # 4) = 3 / 4) by (unfold Q2R; cbn; field).
  destruct (qltb_r x (1 # 4)) as [L1|L1]; [|destruct (qltb_r (3 # 4) x) as [L2|L2]]; cbn [orb].
  - apply Qlt_Rlt in L1. rewrite A1 in L1. assert (0 < cos (2 * PI * Q2R x)) by (apply cos_gt_0; nra). unfold sgn. destruct (Rlt_dec 0 _); [lra|]. destruct (Rlt_dec _ 0); [reflexivity|lra].
  - apply Qlt_Rlt in L2. rewrite A3 in L2. assert (0 < cos (2 * PI * Q2R x)). { replace (2 * PI * Q2R x) with (2 * PI * (Q2R x - 1) + 2 * PI * IZR 1) by (cbn; ring). rewrite cos_turns. apply cos_gt_0; nra. }
    unfold sgn. destruct (Rlt_dec 0 _); [lra|]. destruct (Rlt_dec _ 0); [reflexivity|lra].
  - apply Qnot_lt_le, Qle_Rle in L1. apply Qnot_lt_le, Qle_Rle in L2. rewrite A1 in L1. rewrite A3 in L2. destruct (qltb_r (1 # 4) x) as [M1|M1]; [destruct (qltb_r x (3 # 4)) as [M2|M2]|]; cbn [andb].
    + apply Qlt_Rlt in M1. apply Qlt_Rlt in M2. rewrite A1 in M1. rewrite A3 in M2. assert (cos (2 * PI * Q2R x) < 0) by (apply cos_lt_0; nra). unfold sgn. destruct (Rlt_dec 0 _); [reflexivity|lra].
    + apply Qnot_lt_le, Qle_Rle in M2. rewrite A3 in M2. replace (2 * PI * Q2R x) with (3 * (PI / 2)) by nra. rewrite cos_3PI2. unfold sgn. destruct (Rlt_dec 0 _); [lra|]. destruct (Rlt_dec _ 0); [lra|reflexivity].
    + apply Qnot_lt_le, Qle_Rle in M1. rewrite A1 in M1. replace (2 * PI * Q2R x) with (PI / 2) by nra. rewrite cos_PI2. unfold sgn. destruct (Rlt_dec 0 _); [lra|]. destruct (Rlt_dec _ 0); [lra|reflexivity].
Qed.
Theorem C75_opposite_refuted : faithful sgn /\ exists t t', azimuth_crossings sgn daily_turn (Some (1 # 10)%Q) (0, 1)%Q (PI / 2) = Some [(t, Rising); (t', Setting)] /\
  (Qabs (t' - (3 # 4)) < 1 # 1000000000)%Q /\ daily_turn (3 # 4) = PI / 2 + PI.
Proof.
  split; [exact sgn_faithful|]. assert (H : exists t t', azimuth_crossings sgn daily_turn (Some (1 # 10)%Q) (0, 1)%Q (PI / 2) = Some [(t, Rising); (t', Setting)] /\ (Qabs (t' - (3 # 4)) < 1 # 1000000000)%Q).
  { unfold azimuth_crossings. rewrite quarter_signal_ok. set (r := match find_crossings _ _ _ _ _ with Some _ => _ | None => _ end). vm_compute in r. subst r. do 2 eexists. split; [reflexivity|vm_compute; reflexivity]. }
  destruct H as (t & t' & E & D). exists t, t'. split; [exact E|]. split; [exact D|]. unfold daily_turn. replace (Q2R (3 # 4)) with (3 / 4) by (unfold Q2R; cbn; field). field.
Qed.
Example C75_case : faithful sgn /\ (0 < azimuth_step (Some (1 # 10)))%Q /\ (0 < azimuth_step None)%Q /\ clockwise (PI / 2) (daily_turn (1 # 2)) /\ counterclockwise (PI / 2) (daily_turn 0).
Proof.
  pose proof PI_RGT_0. split; [exact sgn_faithful|]. split; [reflexivity|]. split; [reflexivity|]. unfold clockwise, counterclockwise, daily_turn. replace (Q2R (1 # 2)) with (1 / 2) by (unfold Q2R; cbn; field). replace (Q2R 0) with 0 by (unfold Q2R; cbn; field).
  split; exists 0%Z; cbn; lra.
Qed.

(** ** C76 *)
(** Up to a full turn the signal of a range is positive strictly inside the arc and not negative on it. *)
Theorem C76_arc min max a : min <= max <= min + 2 * PI ->
  let f := cos (a - (min + max) * (1 / 2)) - cos ((max - min) * (1 / 2)) in
  (0 < f <-> exists k : Z, min < a + 2 * PI * IZR k < max) /\ (0 <= f <-> exists k : Z, min <= a + 2 * PI * IZR k <= max).
Proof. intros W. split; [now apply cos_arc|now apply cos_arc_closed]. Qed.
(** When the search saw the crossings of the signal (as in C34), the periods are the times in the arc,
    whether it contains north or not. *)
Definition seen (window : interval) (l : list crossing) (signal : Q -> Q) : Prop :=
  timely window l /\ Forall (fun c => (fst window < ct c)%Q /\ (ct c < snd window)%Q) l /\ alternate (qltb 0 (signal (fst window))) l /\ describes window (qltb 0 (signal (fst window))) l (fun t => (0 < signal t)%Q).
Theorem C76_periods num complement az hint window min max ps : faithful num -> complement_ok complement -> (fst window < snd window)%Q -> (min <= max <= min + 2 * PI \/ max < min <= max + 2 * PI) ->
  azimuth_periods num complement az hint window min max = Some ps ->
  let lo := Rmin min max in let hi := Rmax min max in let f := arc_signal num az ((lo + hi) * (1 / 2)) (cos ((hi - lo) * (1 / 2))) in
  exists raw, find_crossings (passes_for window (azimuth_step hint)) window (azimuth_step hint) f 0 = Some raw /\
    let l := label_crossings raw f 0 in let ups := build_above_periods_directed l window (qltb 0 (f (fst window))) in
    (seen window l f -> forall t, inside window t -> Forall (fun c => ~ (ct c == t)%Q) l -> ~ edge_of ups t ->
       (in_some ps t <-> if Rle_dec min max then strictly_within min max (az t) else within min (max + 2 * PI) (az t))).
Proof.
  intros Fn Co W Hw E lo hi f. unfold azimuth_periods in E. destruct (qleb_r (snd window - fst window) 0); [exfalso; Lqa.lra|]. unfold azimuth_range_periods in E.
  assert (Sg : forall t, lo <= hi <= lo + 2 * PI -> ((0 < f t)%Q <-> strictly_within lo hi (az t))) by (intros t Wd; unfold f, arc_signal; rewrite (faithful_pos num _ Fn); now apply cos_arc).
  assert (Wd : lo <= hi <= lo + 2 * PI) by (unfold lo, hi, Rmin, Rmax; destruct (Rle_dec min max); lra).
  assert (Ab : exists up, above_threshold_periods (passes_for window (azimuth_step hint)) window (azimuth_step hint) f 0 = Some up /\ (if Rle_dec min max then ps = up else ps = complement window up)).
  { unfold f, lo, hi, Rmin, Rmax. destruct (Rle_dec min max); [exists ps; split; [exact E|reflexivity]|]. destruct (above_threshold_periods _ _ _ _ _) as [up|]; [|discriminate]. exists up. split; [reflexivity|]. now injection E as <-. }
  destruct Ab as (up & U & Ps). unfold above_threshold_periods in U. destruct (find_crossings _ _ _ _ _) as [raw|]; [|discriminate]. injection U as U. exists raw. split; [reflexivity|]. cbn zeta. intros (Ti & In1 & Al & De) t It Nc Ne.
  assert (Dir : up = build_above_periods_directed (label_crossings raw f 0) window (qltb 0 (f (fst window)))) by (rewrite <- U; now apply C34_same).
  assert (M : in_some up t <-> strictly_within lo hi (az t)). { rewrite Dir, <- (Sg t Wd). now apply (C34_signal window _ _ (fun t => (0 < f t)%Q) W Ti Al De). }
  unfold lo, hi, Rmin, Rmax in M, Wd. destruct (Rle_dec min max) as [L|L]; [now rewrite Ps|]. rewrite Ps. rewrite <- Dir in Ne.
  destruct (Co window up W) as (_ & Mc). { rewrite Dir. now apply C34_periods. } rewrite (Mc t It Ne), M. apply outside_arc. lra.
Qed.
(** A range wider than a turn loses azimuths: of 0 to 400 degrees, 20 degrees. *)
Theorem C76_outside num complement az hint window min max inside_ps ps : complement_ok complement -> (fst window < snd window)%Q ->
  azimuth_periods num complement az hint window min max = Some inside_ps -> tidy window inside_ps -> outside_azimuth_range num complement az hint window min max = Some ps ->
  tidy window ps /\ forall t, inside window t -> ~ edge_of inside_ps t -> (in_some ps t <-> ~ in_some inside_ps t).
Proof. intros Co W A T H. unfold outside_azimuth_range in H. rewrite A in H. injection H as <-. exact (Co window inside_ps W T). Qed.
Theorem C76_wide_refuted : let deg := PI / 180 in cos (20 * deg - (0 + 400 * deg) * (1 / 2)) - cos ((400 * deg - 0) * (1 / 2)) < 0 /\ within 0 (400 * deg) (20 * deg).
Proof.
  cbn zeta. pose proof PI_RGT_0 as P. split; [|exists 0%Z; cbn; split; lra]. replace (20 * (PI / 180) - (0 + 400 * (PI / 180)) * (1 / 2)) with (- PI) by field. rewrite cos_neg, cos_PI.
  replace ((400 * (PI / 180) - 0) * (1 / 2)) with (PI / 9 + PI) by field. rewrite neg_cos. pose proof (COS_bound (PI / 9)). assert (cos (PI / 9) <> 1); [|lra]. intros C. apply cos1_zero in C; lra.
Qed.
(** Over any sequence of calls, forwards or backwards in time, between which the true azimuth moves by
    less than half a turn, the unwrapped azimuth is the true one, give or take one whole number of turns. *)
Theorem C76_unwrap azimuths : Sorted (fun x y => Rabs (y - x) < PI) azimuths -> exists k : Z, unwrapped (map (fun a => rem_e a (2 * PI)) azimuths) = map (fun a => a + 2 * PI * IZR k) azimuths.
Proof. apply unwrapped_ok. Qed.
(** With a larger move between calls it is not: three quarters of a turn forward are a quarter back. *)
Theorem C76_unwrap_refuted : unwrapped (map (fun a => rem_e a (2 * PI)) [PI / 4; PI / 4 + 3 * (PI / 2)]) = [PI / 4; - (PI / 4)].
Proof.
  pose proof PI_RGT_0 as P. unfold unwrapped. cbn [map unwrap_run unwrap_step fst snd]. rewrite !rem_e_small by lra. destruct (Rlt_dec PI (PI / 4 + 3 * (PI / 2) - PI / 4)); [|lra]. f_equal; [ring|]. f_equal. lra.
Qed.
Example C76_case : strictly_within 0 PI (PI / 2) /\ within (7 * (PI / 4)) (PI / 4 + 2 * PI) 0 /\ complement_ok complement_ref /\
  Sorted (fun x y => Rabs (y - x) < PI) [PI; PI + PI / 2; 2 * PI; 2 * PI + PI / 2; 2 * PI] /\ unwrapped (map (fun a => rem_e a (2 * PI)) [PI; PI + PI / 2; 2 * PI]) = [PI + 2 * PI * IZR 0; PI + PI / 2 + 2 * PI * IZR 0; 2 * PI + 2 * PI * IZR 0].
Proof.
  pose proof PI_RGT_0 as P. split; [exists 0%Z; cbn; lra|]. split; [exists 1%Z; cbn; lra|]. split; [exact (proj1 C35_contract)|]. split; [repeat constructor; apply Rabs_def1; lra|].
  unfold unwrapped. cbn [map unwrap_run unwrap_step fst snd]. rewrite (rem_e_small PI), (rem_e_small (PI + PI / 2)) by lra. rewrite (rem_e_unique (2 * PI) (2 * PI) 0 1) by (cbn; lra).
  destruct (Rlt_dec PI (PI + PI / 2 - PI)); [lra|]. destruct (Rlt_dec (PI + PI / 2 - PI) (- PI)); [lra|]. destruct (Rlt_dec PI (0 - (PI + PI / 2))); [lra|]. destruct (Rlt_dec (0 - (PI + PI / 2)) (- PI)); [|lra]. cbn. f_equal; [lra|]. f_equal; [lra|]. f_equal. lra.
Qed.
Print Assumptions C75_events.
Print Assumptions C75_found.
Print Assumptions C75_opposite_refuted.
Print Assumptions C76_periods.
Print Assumptions C76_unwrap.
