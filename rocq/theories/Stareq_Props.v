(** C143, C144: crossings of a fixed star found from its hour angle. *)
From Coq Require Import ZArith Reals List Bool Sorted Lia Lra.
From Verif Require Import Mat3 Ang Sort Geom_Model Geom_Proofs Horiz_Model Stareq_Model Stareq_Proofs.
Import ListNotations.
Local Open Scope R_scope.

(** how far above the horizon plane the star's direction of the date points at a local sidereal time, in radians *)
Definition height (npb : mat) (ra dec lat lst : R) : R := dot3 (zenith (lat * PI / 180) lst) (apply npb (unit_of ra dec)).

(** the cached sinusoid is the height of the star at every sidereal time *)
Theorem C143_height npb ra dec lat lon gast : orthonormal npb ->
  let p := from_j2000 npb ra dec lat lon in
  p_a p + p_b p * cos (hour_angle_deg p gast * PI / 180) = height npb ra dec lat (gast + lon * PI / 180).
Proof.
  intros O. pose proof (unit_apply _ _ O (unit_unit ra dec)) as U. unfold height, from_j2000. destruct (apply npb (unit_of ra dec)) as ((x, y), z).
  cbn [dot3] in U. cbv zeta. cbn [p_a p_b]. rewrite <- (sinusoid x y z) by exact U. unfold hour_angle_deg. cbn [p_lon p_ra]. f_equal. f_equal. f_equal.
  pose proof PI_RGT_0. field. lra.
Qed.
Lemma b_nonneg npb ra dec lat lon : -90 <= lat <= 90 -> 0 <= p_b (from_j2000 npb ra dec lat lon).
Proof.
  intros L. unfold from_j2000. destruct (apply npb (unit_of ra dec)) as ((x, y), z). cbn [p_b]. pose proof PI_RGT_0 as P.
  apply Rmult_le_pos; [|apply cos_ge_0; nra]. pose proof (asin_bound z) as A. apply cos_ge_0; lra.
Qed.
(** the three answers: never lower than the threshold, never higher, or strictly higher exactly within the reported
    hour angle of the meridian (and level with the threshold exactly there) *)
Theorem C143_threshold npb ra dec lat lon thr : orthonormal npb -> -90 <= lat <= 90 ->
  let p := from_j2000 npb ra dec lat lon in 1e-15 <= p_b p ->
  match threshold_ha p thr with
  | AlwaysAbove => forall lst, sin thr <= height npb ra dec lat lst
  | NeverAbove => forall lst, height npb ra dec lat lst <= sin thr
  | Crossings h0 => 0 < h0 < PI /\
    (forall gast, sin thr < height npb ra dec lat (gast + lon * PI / 180) <-> exists k, Rabs (hour_angle_deg p gast * PI / 180 - 2 * PI * IZR k) < h0) /\
    (forall gast, height npb ra dec lat (gast + lon * PI / 180) = sin thr <-> exists k, hour_angle_deg p gast * PI / 180 = h0 + 2 * PI * IZR k \/ hour_angle_deg p gast * PI / 180 = - h0 + 2 * PI * IZR k)
  end.
Proof.
  intros O L p B. assert (H : forall gast, height npb ra dec lat (gast + lon * PI / 180) = p_a p + p_b p * cos (hour_angle_deg p gast * PI / 180)) by (intros; symmetry; now apply C143_height).
  assert (H' : forall lst, exists c, -1 <= c <= 1 /\ height npb ra dec lat lst = p_a p + p_b p * c).
  { intros lst. exists (cos (hour_angle_deg p (lst - lon * PI / 180) * PI / 180)). split; [apply COS_bound|]. rewrite <- H. f_equal. ring. }
  unfold threshold_ha. destruct (rltb_r (Rabs (p_b p)) 1e-15) as [Z|_]; [rewrite Rabs_right in Z; lra|].
  set (c := (sin thr - p_a p) / p_b p). assert (SC : sin thr = p_a p + p_b p * c) by (unfold c; field; lra).
  destruct (rleb_r c (-1)) as [C|C]; [|destruct (rleb_r 1 c) as [C'|C']].
  - intros lst. destruct (H' lst) as (d & D & ->). rewrite SC. nra.
  - intros lst. destruct (H' lst) as (d & D & ->). rewrite SC. nra.
  - assert (CB : -1 <= c <= 1) by lra. pose proof (acos_bound c) as AB. pose proof (cos_acos c CB) as CA.
    split; [|split].
    + split.
      * destruct AB as ([A|A] & _); [exact A|]. exfalso. apply C'. rewrite <- CA, <- A, cos_0. lra.
      * destruct AB as (_ & [A|A]); [exact A|]. exfalso. apply C. rewrite <- CA, A, cos_PI. lra.
    + intros gast. rewrite H, SC, <- (cos_above (acos c)) by exact AB. rewrite CA. split; intros K; nra.
    + intros gast. rewrite H, SC, <- (cos_same (acos c)) by exact AB. rewrite CA. split; intros K; nra.
Qed.
(** a star or an observer at a pole: the answer is right to within the rounding allowed *)
Theorem C143_pole npb ra dec lat lon thr : orthonormal npb -> -90 <= lat <= 90 ->
  let p := from_j2000 npb ra dec lat lon in p_b p < 1e-15 ->
  match threshold_ha p thr with
  | AlwaysAbove => forall lst, sin thr - 1e-15 < height npb ra dec lat lst
  | NeverAbove => forall lst, height npb ra dec lat lst < sin thr + 1e-15
  | Crossings _ => False
  end.
Proof.
  intros O L p B. pose proof (b_nonneg npb ra dec lat lon L) as B0. fold p in B0.
  assert (H' : forall lst, exists c, -1 <= c <= 1 /\ height npb ra dec lat lst = p_a p + p_b p * c).
  { intros lst. exists (cos (hour_angle_deg p (lst - lon * PI / 180) * PI / 180)). split; [apply COS_bound|]. unfold p. rewrite C143_height by exact O. f_equal. ring. }
  unfold threshold_ha. destruct (rltb_r (Rabs (p_b p)) 1e-15) as [Z|Z]; [|exfalso; rewrite Rabs_right in Z; lra].
  destruct (rltb_r (sin thr) (p_a p)); intros lst; destruct (H' lst) as (d & D & ->); nra.
Qed.

(** the hour angles at which a star rises through and sets through the threshold, in degrees *)
Definition target_of (h0 : R) (dir : Z) : R := if (dir =? 1)%Z then 360 - h0 * 180 / PI else h0 * 180 / PI.
Lemma predict_in day ha start stop h0 c d : 0 < day ->
  In (c, d) (predict_crossings day ha start stop h0) <->
  (d = 1%Z \/ d = (-1)%Z) /\ exists u k, start <= u <= stop + edge_eps /\ ha_at day ha start u = target_of h0 d + 360 * IZR k /\ c = clamped start stop u.
Proof.
  intros D. unfold predict_crossings. cbv zeta. rewrite isort_in, in_app_iff, !run_in by exact D. split.
  - intros [(-> & H)|(-> & H)]; split; auto.
  - intros ([->| ->] & H); [left|right]; auto.
Qed.
Lemma clamped_near start stop u : start <= stop -> start <= u <= stop + edge_eps ->
  start <= clamped start stop u <= stop /\ clamped start stop u <= u <= clamped start stop u + edge_eps /\ (u <= stop -> clamped start stop u = u).
Proof.
  intros P U. unfold clamped. assert (0 < edge_eps) by (unfold edge_eps; lra).
  destruct (rleb_r stop u); [|destruct (rleb_r u start)]; repeat split; intros; lra.
Qed.
(** every predicted crossing lies in the period, at or at most 1e-12 day before an instant whose hour angle, followed
    at the sidereal rate, is a rising or setting one; they come in time order *)
Theorem C143_predicted day ha start stop h0 : 0 < day -> start <= stop ->
  StronglySorted (fun a b => fst a <= fst b) (predict_crossings day ha start stop h0) /\
  forall c d, In (c, d) (predict_crossings day ha start stop h0) -> start <= c <= stop /\ (d = 1%Z \/ d = (-1)%Z) /\
    exists u k, c <= u <= c + 1e-12 /\ (c < stop -> u = c) /\ ha + 360 * ((u - start) / day) = target_of h0 d + 360 * IZR k.
Proof.
  intros D P. split.
  - unfold predict_crossings. cbv zeta. set (l := _ ++ _).
    assert (S : ordered (fun a b : R * Z => rleb (fst a) (fst b)) (isort (fun a b => rleb (fst a) (fst b)) l)).
    { apply isort_ordered.
      - intros x y. destruct (rleb_r (fst x) (fst y)), (rleb_r (fst y) (fst x)); auto. lra.
      - intros x y z. destruct (rleb_r (fst x) (fst y)), (rleb_r (fst y) (fst z)), (rleb_r (fst x) (fst z)); auto; try discriminate. lra. }
    unfold ordered in S. induction S as [|x t S IH F]; constructor; [exact IH|]. eapply Forall_impl; [|exact F]. intros y. cbn. destruct (rleb_r (fst x) (fst y)); [auto|discriminate].
  - intros c d H. apply predict_in in H as (HD & u & k & U & E & ->); [|exact D]. destruct (clamped_near _ _ _ P U) as (A & B & _).
    split; [exact A|]. split; [exact HD|]. exists u, k. split; [exact B|]. split; [|exact E]. intros L. unfold clamped in L |- *. destruct (rleb_r stop u); [lra|]. destruct (rleb_r u start); lra.
Qed.
(** none is left out *)
Theorem C143_complete day ha start stop h0 t d k : 0 < day -> start <= t <= stop -> (d = 1%Z \/ d = (-1)%Z) ->
  ha + 360 * ((t - start) / day) = target_of h0 d + 360 * IZR k -> In (t, d) (predict_crossings day ha start stop h0).
Proof.
  intros D T HD E. apply predict_in; [exact D|]. split; [exact HD|]. exists t, k. assert (0 < edge_eps) by (unfold edge_eps; lra).
  split; [lra|]. split; [exact E|]. symmetry. apply clamped_near; lra.
Qed.
(** a six-hour hour angle, for a day and a half: set, rise, set *)
Example C143_case : let l := predict_crossings 1 0 0 (3 / 2) (PI / 2) in In (1 / 4, (-1)%Z) l /\ In (3 / 4, 1%Z) l /\ In (5 / 4, (-1)%Z) l.
Proof.
  cbv zeta. pose proof PI_RGT_0. repeat split.
  - apply (C143_complete 1 0 0 (3 / 2) (PI / 2) (1 / 4) (-1) 0); [lra|lra|now right|]. unfold target_of. cbn. field. lra.
  - apply (C143_complete 1 0 0 (3 / 2) (PI / 2) (3 / 4) 1 0); [lra|lra|now left|]. unfold target_of. cbn. field. lra.
  - apply (C143_complete 1 0 0 (3 / 2) (PI / 2) (5 / 4) (-1) 1); [lra|lra|now right|]. unfold target_of. cbn. field. lra.
Qed.

(** * C144 *)
(** a star whose altitude [f] follows the sinusoid at the sidereal rate *)
Definition follows (p : params) (day ha start : R) (f : R -> R) : Prop :=
  forall t, - (PI / 2) <= f t <= PI / 2 /\ sin (f t) = p_a p + p_b p * cos ((ha + 360 * ((t - start) / day)) * PI / 180).
Section Follow.
Context (p : params) (day ha start stop thr h0 : R) (f : R -> R) (D : 0 < day) (B : 0 <= p_b p) (TH : - (PI / 2) <= thr <= PI / 2)
  (F : follows p day ha start f) (C : threshold_ha p thr = Crossings h0).
Let phi (t : R) : R := (ha + 360 * ((t - start) / day)) * PI / 180.
Lemma h0_ok : 0 < p_b p /\ 0 < h0 < PI /\ sin thr = p_a p + p_b p * cos h0.
Proof.
  revert C. unfold threshold_ha. destruct (rltb_r (Rabs (p_b p)) 1e-15) as [Z|Z]; [destruct (rltb _ _); discriminate|]. rewrite Rabs_right in Z by lra.
  set (c := (sin thr - p_a p) / p_b p). destruct (rleb_r c (-1)) as [|L]; [discriminate|]. destruct (rleb_r 1 c) as [|G]; [discriminate|].
  intros H. assert (E : h0 = acos c) by congruence. clear H. pose proof (acos_bound c) as AB. pose proof (cos_acos c ltac:(lra)) as CA.
  split; [lra|]. rewrite E. split; [|rewrite CA; unfold c; field; lra]. split.
  - destruct AB as ([A|A] & _); [exact A|]. exfalso. apply G. rewrite <- CA, <- A, cos_0. lra.
  - destruct AB as (_ & [A|A]); [exact A|]. exfalso. apply L. rewrite <- CA, A, cos_PI. lra.
Qed.
Lemma sign_of t : (f t < thr <-> cos (phi t) < cos h0) /\ (thr < f t <-> cos h0 < cos (phi t)) /\ (f t = thr <-> cos (phi t) = cos h0).
Proof.
  destruct h0_ok as (BP & _ & E). destruct (F t) as (R & S). fold (phi t) in S.
  assert (L : f t < thr -> cos (phi t) < cos h0). { intros H. apply (Rmult_lt_reg_l (p_b p)); [exact BP|]. assert (sin (f t) < sin thr) by (apply sin_increasing_1; lra). lra. }
  assert (G : thr < f t -> cos h0 < cos (phi t)). { intros H. apply (Rmult_lt_reg_l (p_b p)); [exact BP|]. assert (sin thr < sin (f t)) by (apply sin_increasing_1; lra). lra. }
  assert (Q : f t = thr -> cos (phi t) = cos h0). { intros H. apply (Rmult_eq_reg_l (p_b p)); [|lra]. rewrite H in S. lra. }
  destruct (Rtotal_order (f t) thr) as [H|[H|H]].
  - pose proof (L H). repeat split; intros; try assumption; lra.
  - pose proof (Q H). repeat split; intros; try assumption; lra.
  - pose proof (G H). repeat split; intros; try assumption; lra.
Qed.
(** the part of a sidereal day spent above *)
Definition up_time : R := day * (h0 / PI).
Lemma phi_from u t : phi t = phi u + 2 * PI * ((t - u) / day).
Proof. unfold phi. field. lra. Qed.
Lemma turns_of x y : 0 < day -> x < y -> x / day < y / day.
Proof. intros _ H. unfold Rdiv. apply Rmult_lt_compat_r; [now apply Rinv_0_lt_compat|exact H]. Qed.
Lemma scaled x : 2 * PI * (day * x / day) = 2 * PI * x. Proof. field. lra. Qed.
Lemma ratio_lt a b : a < day * b -> a / day < b.
Proof. intros H. apply (Rmult_lt_reg_r day); [exact D|]. unfold Rdiv. rewrite Rmult_assoc, Rinv_l by lra. lra. Qed.
Lemma ratio_gt a b : day * b < a -> b < a / day.
Proof. intros H. apply (Rmult_lt_reg_r day); [exact D|]. unfold Rdiv. rewrite Rmult_assoc, Rinv_l by lra. lra. Qed.
Lemma rising_phi u k : ha + 360 * ((u - start) / day) = target_of h0 1 + 360 * IZR k -> phi u = - h0 + 2 * PI * IZR (k + 1).
Proof. intros E. unfold phi. rewrite E, plus_IZR. unfold target_of. cbn [Z.eqb Pos.eqb]. pose proof PI_RGT_0. change (IZR 1) with 1. field. lra. Qed.
Lemma setting_phi u k : ha + 360 * ((u - start) / day) = target_of h0 (-1) + 360 * IZR k -> phi u = h0 + 2 * PI * IZR k.
Proof. intros E. unfold phi. rewrite E. unfold target_of. cbn [Z.eqb]. pose proof PI_RGT_0. field. lra. Qed.
(** the turn fraction from an instant to another *)
Lemma pi_ratio x a b : 0 < PI -> (a / PI < x -> a < PI * x) /\ (x < b / PI -> PI * x < b).
Proof.
  intros P. split; intros H; apply (Rmult_lt_compat_l PI) in H; try exact P; [replace (PI * (a / PI)) with a in H by (field; lra)|replace (PI * (b / PI)) with b in H by (field; lra)]; lra.
Qed.
Lemma after_rising u k t : phi u = - h0 + 2 * PI * IZR k -> (0 < t - u < up_time -> cos h0 < cos (phi t)) /\
  (up_time < t - u < day -> cos (phi t) < cos h0) /\ (- (day - up_time) < t - u < 0 -> cos (phi t) < cos h0).
Proof.
  intros E. destruct h0_ok as (_ & H & _). pose proof PI_RGT_0 as P. rewrite (phi_from u t), E. set (r := (t - u) / day). unfold up_time.
  assert (L0 : forall b, t - u < day * b -> r < b) by (intros; now apply ratio_lt). assert (G0 : forall b, day * b < t - u -> b < r) by (intros; now apply ratio_gt).
  destruct (pi_ratio r h0 h0 P) as (Q1 & Q2).
  split; [|split]; intros (A & A').
  - apply cos_above; [lra|]. exists k. specialize (L0 _ A'). specialize (G0 0 ltac:(lra)). apply Q2 in L0. apply Rabs_def1; nra.
  - apply (cos_below _ _ k); [lra|]. specialize (G0 _ A). specialize (L0 1 ltac:(lra)). apply Q1 in G0. nra.
  - apply (cos_below _ _ (k - 1)); [lra|]. rewrite minus_IZR. specialize (L0 0 ltac:(lra)). specialize (G0 (h0 / PI - 1) ltac:(lra)).
    assert (h0 - PI < PI * r). { apply (Rmult_lt_compat_l PI) in G0; [|exact P]. replace (PI * (h0 / PI - 1)) with (h0 - PI) in G0 by (field; lra). exact G0. } nra.
Qed.
Lemma after_setting u k t : phi u = h0 + 2 * PI * IZR k -> (- up_time < t - u < 0 -> cos h0 < cos (phi t)) /\
  (0 < t - u < day - up_time -> cos (phi t) < cos h0) /\ (- day < t - u < - up_time -> cos (phi t) < cos h0).
Proof.
  intros E. destruct h0_ok as (_ & H & _). pose proof PI_RGT_0 as P.
  assert (E' : phi (u - up_time) = - h0 + 2 * PI * IZR k). { rewrite (phi_from u (u - up_time)), E. unfold up_time. field. lra. }
  destruct (after_rising (u - up_time) k t E') as (A1 & A2 & A3). split; [|split]; intros T.
  - apply A1. lra.
  - apply A2. lra.
  - apply A3. lra.
Qed.
End Follow.

Lemma bracket_ok start stop t : start <= t <= stop -> let '(lo, hi) := bracket start stop t in
  (lo = start /\ t - bracket_half < start \/ lo = t - bracket_half /\ start <= lo) /\ (hi = stop /\ stop < t + bracket_half \/ hi = t + bracket_half /\ hi <= stop).
Proof.
  intros T. unfold bracket. destruct (rleb_r start (t - bracket_half)), (rleb_r (t + bracket_half) stop); split; lra.
Qed.
Lemma opposite_spec a b : (a < 0 < b \/ b < 0 < a -> opposite_sign a b = true) /\ (a < 0 -> b < 0 -> opposite_sign a b = false).
Proof.
  unfold opposite_sign. destruct (rltb_r a 0), (rleb_r 0 b), (rleb_r 0 a), (rltb_r b 0); cbn; split; intros; try reflexivity; lra.
Qed.
(** a star that is up, and down, for more than fifteen minutes of each sidereal day: near every instant at which it
    crosses the threshold strictly inside the period a root is reported, given a root finder that finds roots
    where the sign changes *)
Theorem C144_found p day ha start stop thr h0 f brent scan t : 0 < day -> 0 <= p_b p -> - (PI / 2) <= thr <= PI / 2 -> follows p day ha start f ->
  threshold_ha p thr = Crossings h0 -> 15 / 1440 < day * (h0 / PI) -> 15 / 1440 < day - day * (h0 / PI) -> 1e-12 <= stop - start ->
  (forall lo hi, lo < hi -> f lo < thr < f hi \/ f hi < thr < f lo -> exists r, brent lo hi = Some r /\ lo <= r <= hi) ->
  start < t < stop -> f t = thr -> exists r, In r (fst (find_crossings f brent scan p day ha start stop thr)) /\ Rabs (r - t) <= 15 / 1440.
Proof.
  intros D B TH F C UP DOWN PER BR T Z. unfold find_crossings. rewrite C. cbn [fst].
  destruct (h0_ok p thr h0 B C) as (_ & HH & _).
  pose proof (sign_of p day ha start thr h0 f B TH F C) as SG. cbv zeta in SG.
  assert (DIR : exists d, (d = 1%Z \/ d = (-1)%Z) /\ In (t, d) (predict_crossings day ha start stop h0) /\
     ((forall s, - (15 / 1440) <= s - t < 0 -> f s < thr) /\ (forall s, 0 < s - t <= 15 / 1440 -> thr < f s) \/
      (forall s, - (15 / 1440) <= s - t < 0 -> thr < f s) /\ (forall s, 0 < s - t <= 15 / 1440 -> f s < thr))).
  { destruct (SG t) as (_ & _ & Q). pose proof (proj1 Q Z) as E. apply cos_same in E as (k & [E|E]); [| |lra].
    - exists (-1)%Z. split; [now right|]. split.
      + apply (C143_complete _ _ _ _ _ _ _ k); [exact D|lra|now right|]. unfold target_of. cbn [Z.eqb]. pose proof PI_RGT_0.
        apply (Rmult_eq_reg_r (PI / 180)); [|lra]. transitivity ((ha + 360 * ((t - start) / day)) * PI / 180); [field; lra|]. rewrite E. field. lra.
      + right. split; intros s S; apply SG; destruct (after_setting p day ha start thr h0 D B C t k s E) as (A1 & A2 & A3); [apply A1|apply A2]; unfold up_time; lra.
    - exists 1%Z. split; [now left|]. split.
      + apply (C143_complete _ _ _ _ _ _ _ (k - 1)); [exact D|lra|now left|]. unfold target_of. cbn [Z.eqb Pos.eqb]. pose proof PI_RGT_0. rewrite minus_IZR.
        apply (Rmult_eq_reg_r (PI / 180)); [|lra]. transitivity ((ha + 360 * ((t - start) / day)) * PI / 180); [field; lra|]. rewrite E. field. lra.
      + left. split; intros s S; apply SG; destruct (after_rising p day ha start thr h0 D B C t k s E) as (A1 & A2 & A3); [apply A3|apply A1]; unfold up_time; lra. }
  destruct DIR as (d & _ & I & S).
  assert (BH : bracket_half = 15 / 1440) by reflexivity.
  pose proof (bracket_ok start stop t ltac:(lra)) as BK. destruct (bracket start stop t) as (lo, hi) eqn:BE.
  assert (LO : lo < t /\ t - 15 / 1440 <= lo /\ start <= lo) by (destruct BK as ([?|?] & _); lra).
  assert (HI : t < hi /\ hi <= t + 15 / 1440 /\ hi <= stop) by (destruct BK as (_ & [?|?]); lra).
  assert (WD : 1e-12 <= hi - lo) by (destruct BK as ([?|?] & [?|?]); lra).
  assert (O : opposite_sign (f lo - thr) (f hi - thr) = true).
  { apply opposite_spec. destruct S as [(S1 & S2)|(S1 & S2)]; pose proof (S1 lo ltac:(lra)); pose proof (S2 hi ltac:(lra)); lra. }
  destruct (BR lo hi) as (r & R & RR). { lra. } { destruct S as [(S1 & S2)|(S1 & S2)]; pose proof (S1 lo ltac:(lra)); pose proof (S2 hi ltac:(lra)); lra. }
  exists r. split; [|apply Rabs_le; lra]. apply in_flat_map. exists (t, d). split; [exact I|]. cbn [fst]. unfold refine. rewrite BE.
  destruct (rltb_r (hi - lo) 1e-12); [exfalso; lra|]. rewrite O, R. destruct (rleb_r start r); [|exfalso; lra]. destruct (rleb_r r stop); [|exfalso; lra]. now left.
Qed.
(** but a star that is up for less than fifteen minutes of a sidereal day is never found, however often it rises in
    the period and whatever the root finder *)
Theorem C144_short p day ha start stop thr h0 f brent scan : 0 < day -> 0 <= p_b p -> - (PI / 2) <= thr <= PI / 2 -> follows p day ha start f ->
  threshold_ha p thr = Crossings h0 -> day * (h0 / PI) < 15 / 1440 -> 16 / 1440 < day - day * (h0 / PI) -> start <= stop ->
  f start < thr -> f stop < thr -> find_crossings f brent scan p day ha start stop thr = ([], false).
Proof.
  intros D B TH F C UP DOWN PER FS FE. unfold find_crossings. rewrite C.
  destruct (rltb_r thr (f start)) as [|_]; [exfalso; lra|]. f_equal.
  destruct (h0_ok p thr h0 B C) as (_ & HH & _).
  pose proof (sign_of p day ha start thr h0 f B TH F C) as SG. cbv zeta in SG.
  assert (EMPTY : forall c d, In (c, d) (predict_crossings day ha start stop h0) -> refine (fun t => f t - thr) brent start stop c = []).
  { intros c d I. apply C143_predicted in I as (CR & HD & u & k & U & US & E); [|exact D|exact PER].
    unfold refine. pose proof (bracket_ok start stop c CR) as BK. destruct (bracket start stop c) as (lo, hi).
    destruct (rltb_r (hi - lo) 1e-12) as [|W]; [reflexivity|].
    assert (BH : bracket_half = 15 / 1440) by reflexivity.
    assert (UPP : 0 < up_time day h0). { unfold up_time. apply Rmult_lt_0_compat; [exact D|]. apply Rdiv_lt_0_compat; [lra|apply PI_RGT_0]. }
    assert (LOW : f lo < thr /\ f hi < thr).
    { destruct HD as [->| ->].
      - apply (rising_phi day ha start h0) in E. pose proof (after_rising p day ha start thr h0 D B C u (k + 1)) as A. unfold up_time in *.
        split.
        + destruct BK as ([(-> & _)|(L & _)] & _); [exact FS|]. apply SG. destruct (A lo E) as (_ & _ & A3). apply A3. lra.
        + destruct BK as (_ & [(-> & _)|(H & HS)]); [exact FE|]. apply SG. destruct (A hi E) as (_ & A2 & _). apply A2. rewrite (US ltac:(lra)). lra.
      - apply (setting_phi day ha start h0) in E. pose proof (after_setting p day ha start thr h0 D B C u k) as A. unfold up_time in *.
        split.
        + destruct BK as ([(-> & _)|(L & _)] & _); [exact FS|]. apply SG. destruct (A lo E) as (_ & _ & A3). apply A3. lra.
        + destruct BK as (_ & [(-> & _)|(H & HS)]); [exact FE|]. apply SG. destruct (A hi E) as (_ & A2 & _). apply A2. rewrite (US ltac:(lra)). lra. }
    destruct LOW as (L1 & L2). rewrite (proj2 (opposite_spec _ _)) by lra. reflexivity. }
  induction (predict_crossings day ha start stop h0) as [|(c, d) l IH]; [reflexivity|]. cbn [flat_map fst]. rewrite (EMPTY c d) by now left.
  apply IH. intros c' d' H. apply (EMPTY c' d'). now right.
Qed.
(** an equatorial star passing through the zenith of an equatorial site, and a threshold just under the zenith: it
    is above the threshold in the middle of the period, and no crossing is reported *)
Theorem C144_short_refuted : exists p f thr, follows p 1 (-90) 0 f /\ 0 <= p_b p /\ - (PI / 2) <= thr <= PI / 2 /\ thr < f (1 / 4) /\
  forall brent scan, find_crossings f brent scan p 1 (-90) 0 (1 / 2) thr = ([], false).
Proof.
  pose proof PI_RGT_0 as P. set (thr := PI / 2 - PI / 200).
  exists (Params 0 1 0 0), (fun t => asin (cos ((-90 + 360 * ((t - 0) / 1)) * PI / 180))), thr.
  assert (FO : follows (Params 0 1 0 0) 1 (-90) 0 (fun t => asin (cos ((-90 + 360 * ((t - 0) / 1)) * PI / 180)))).
  { intros t. cbn [p_a p_b]. split; [pose proof (asin_bound (cos ((-90 + 360 * ((t - 0) / 1)) * PI / 180))); lra|]. rewrite sin_asin by apply COS_bound. ring. }
  assert (TH : - (PI / 2) <= thr <= PI / 2) by (unfold thr; lra).
  assert (S : sin thr = cos (PI / 200)) by (unfold thr; apply sin_shift).
  assert (C : threshold_ha (Params 0 1 0 0) thr = Crossings (PI / 200)).
  { unfold threshold_ha. cbn [p_a p_b]. destruct (rltb_r (Rabs 1) 1e-15) as [Z|_]; [rewrite Rabs_right in Z; lra|]. rewrite S.
    replace ((cos (PI / 200) - 0) / 1) with (cos (PI / 200)) by field.
    assert (G : cos (PI / 2) < cos (PI / 200)) by (apply cos_decreasing_1; lra). rewrite cos_PI2 in G.
    assert (L : cos (PI / 200) < cos 0) by (apply cos_decreasing_1; lra). rewrite cos_0 in L.
    destruct (rleb_r (cos (PI / 200)) (-1)); [exfalso; lra|]. destruct (rleb_r 1 (cos (PI / 200))); [exfalso; lra|]. f_equal. apply acos_cos. lra. }
  assert (Z0 : asin 0 < thr). { rewrite asin_0. unfold thr. lra. }
  split; [exact FO|]. split; [cbn; lra|]. split; [exact TH|]. split.
  - replace ((-90 + 360 * ((1 / 4 - 0) / 1)) * PI / 180) with 0 by field. rewrite cos_0, asin_1. unfold thr. lra.
  - intros brent scan. apply (C144_short _ _ _ _ _ _ (PI / 200)); try assumption; try (cbn [p_b]; lra).
    + replace (1 * (PI / 200 / PI)) with (1 / 200) by (field; lra). lra.
    + replace (1 * (PI / 200 / PI)) with (1 / 200) by (field; lra). lra.
    + replace ((-90 + 360 * ((0 - 0) / 1)) * PI / 180) with (- (PI / 2)) by field. rewrite cos_neg, cos_PI2. exact Z0.
    + replace ((-90 + 360 * ((1 / 2 - 0) / 1)) * PI / 180) with (PI / 2) by field. rewrite cos_PI2. exact Z0.
Qed.
(** an endless day or night is reported as such when both ends agree, and otherwise the scan decides *)
Theorem C144_constant p f brent scan day ha start stop thr : 
  (threshold_ha p thr = AlwaysAbove -> thr < f start -> thr < f stop -> find_crossings f brent scan p day ha start stop thr = ([], true)) /\
  (threshold_ha p thr = NeverAbove -> f start <= thr -> f stop <= thr -> find_crossings f brent scan p day ha start stop thr = ([], false)) /\
  (threshold_ha p thr = AlwaysAbove -> (f start <= thr \/ f stop <= thr) -> fst (find_crossings f brent scan p day ha start stop thr) = scan) /\
  (threshold_ha p thr = NeverAbove -> (thr < f start \/ thr < f stop) -> fst (find_crossings f brent scan p day ha start stop thr) = scan) /\
  (snd (find_crossings f brent scan p day ha start stop thr) = true <-> thr < f start).
Proof.
  unfold find_crossings. destruct (threshold_ha p thr), (rltb_r thr (f start)), (rltb_r thr (f stop)); cbn [andb negb fst snd];
    repeat split; intros; try reflexivity; try discriminate; try assumption; try contradiction; try lra; exfalso; lra.
Qed.
Print Assumptions C143_height.
Print Assumptions C143_threshold.
Print Assumptions C143_pole.
Print Assumptions C143_predicted.
Print Assumptions C143_complete.
Print Assumptions C143_case.
Print Assumptions C144_found.
Print Assumptions C144_short.
Print Assumptions C144_short_refuted.
Print Assumptions C144_constant.
