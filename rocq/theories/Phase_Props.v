(** Properties C67 (labels and events of the Moon's phases) and C68 (the
    geometry of its illumination). *)
From Coq Require Import List Reals Bool ZArith Lia Lra Psatz Sorted.
From Verif Require Import Ang Phase_Model Phase_Proofs.
Import ListNotations.
Local Open Scope R_scope.

(** * C67 *)
(** Every elongation gets a label: the loops end. *)
Theorem C67_total e hw : exists n0, forall n, (n0 <= n)%nat -> exists l, from_elongation n e hw = Some l.
Proof. destruct (from_elongation_total e hw) as (n0 & H). exists n0. intros n L. specialize (H n L). destruct (from_elongation n e hw); [eauto|contradiction]. Qed.
(** The label says in which arc the elongation lies, in whatever turn, and the
    arcs share no elongation: labels partition the circle. *)
Theorem C67_arcs n e hw l : 0 <= hw <= 45 -> from_elongation n e hw = Some l -> forall l', in_arc hw l' e <-> l' = l.
Proof.
  intros W H l'. pose proof (label_arc n e hw l W H) as A. split; [intros B; eapply arcs_apart; eassumption|intros ->; exact A].
Qed.
(** Whole turns do not change the label. *)
Theorem C67_turns n n' e hw k l l' : from_elongation n e hw = Some l -> from_elongation n' (e + 360 * IZR k) hw = Some l' -> l = l'.
Proof. intros A B. apply from_elongation_value in A, B. rewrite rem_e_shift in B by lra. congruence. Qed.
(** The nominal elongation of a label has that label. *)
Theorem C67_nominal l hw : 0 < hw < 45 -> from_elongation 0 (nominal l) hw = Some l.
Proof.
  intros W. destruct (from_elongation 0 (nominal l) hw) as [l'|] eqn:E.
  - f_equal. symmetry. apply (proj1 (C67_arcs 0 (nominal l) hw l' ltac:(lra) E l)). exists 0%Z. destruct l; cbn; lra.
  - exfalso. unfold from_elongation in E. cbn [bring_down bring_up] in E. destruct (leb 360 (nominal l)) eqn:A; [apply leb_iff in A; destruct l; cbn in A; lra|].
    destruct (ltb (nominal l) 0) eqn:B; [apply ltb_iff in B; destruct l; cbn in B; lra|]. discriminate.
Qed.
(** A waxing label and the waxing flag of the same geometry never disagree. *)
Theorem C67_waxing n g hw l : 0 < hw <= 45 -> 0 <= g_elong g <= 2 * PI -> g_waxing g = ltb 0 (g_elong g) && ltb (g_elong g) PI ->
  label_with n g hw = Some l -> (is_waxing l = true -> g_waxing g = true) /\ (is_waning l = true -> g_waxing g = false).
Proof.
  intros W E F H. pose proof (label_arc _ _ _ _ (conj (Rlt_le _ _ (proj1 W)) (proj2 W)) H) as (k & A). pose proof PI_RGT_0 as P. rewrite F. set (x := g_elong g * 180 / PI) in *.
  assert (X : g_elong g = x * PI / 180) by (unfold x; field; lra). assert (B : 0 <= x <= 360). { unfold x. split; apply (Rmult_le_reg_r (PI / 180)); try lra; replace (g_elong g * 180 / PI * (PI / 180)) with (g_elong g) by (field; lra); lra. }
  clearbody x. rewrite X. clear X E F.
  assert (K0 : IZR k < 2) by (destruct l; cbn in A; lra). assert (K1 : -1 < IZR k) by (destruct l; cbn in A; lra).
  assert (Q : k = 0%Z \/ k = 1%Z) by (apply lt_IZR in K0; apply lt_IZR in K1; lia).
  split; intros L; destruct l; try discriminate; cbn in A; destruct Q as [-> | ->]; try (exfalso; lra).
  1-3: apply andb_true_iff; rewrite !ltb_iff; nra.
  all: apply andb_false_iff; right; apply ltb_off; nra.
Qed.

(** Events are in order of time. *)
Theorem C67_sorted elong cr : StronglySorted (fun a b => e_time a <= e_time b) (find_phase_events elong cr).
Proof. apply sort_sorted. Qed.
(** A time where the signed function nearly vanishes is reported as an event
    exactly when the Moon is on the target's side, not opposite to it. *)
Theorem C67_events elong cr t k : In t (cr (phase_fun elong k)) -> Rabs (sin (elong t - target k)) < sin (1 / 2) ->
  (In {| e_time := t; e_kind := k |} (find_phase_events elong cr) <-> 0 < cos (elong t - target k)).
Proof. intros I S. rewrite event_iff. rewrite <- (filter_exact (elong t) (target k) S). tauto. Qed.
(** At an exact zero: exactly when the elongation is the target up to turns. *)
Theorem C67_exact elong cr t k : In t (cr (phase_fun elong k)) -> sin (elong t - target k) = 0 ->
  (In {| e_time := t; e_kind := k |} (find_phase_events elong cr) <-> exists j, elong t = target k + 2 * PI * IZR j).
Proof.
  intros I Z. rewrite (C67_events elong cr t k I); [|rewrite Z, Rabs_R0; pose proof PI2_1; apply sin_gt_0; lra]. split.
  - intros C. destruct (angle_diff_spec (elong t) (target k)) as (D & j & E). cbv zeta in *. set (d := angle_diff (elong t) (target k)) in *.
    assert (S : sin d = 0) by (unfold d; now rewrite angle_diff_sin). assert (C' : 0 < cos d) by (unfold d; now rewrite angle_diff_cos).
    assert (d = 0). { pose proof PI_RGT_0. apply (angle_unique d 0); [rewrite Rminus_0_r; unfold Rabs; destruct (Rcase_abs d); lra| |now rewrite sin_0]. rewrite cos_0. pose proof (sin2_cos2 d) as Q. unfold Rsqr in Q. rewrite S in Q. nra. }
    exists (- j)%Z. rewrite opp_IZR. lra.
  - intros (j & E). replace (elong t - target k) with (0 + 2 * PI * IZR j) by lra. rewrite cos_turns, cos_0. lra.
Qed.
(** The four phases are named for elongations 0, 90, 180 and 270 degrees, the Moon moving away eastwards. *)
Theorem C67_named elong cr t k : In t (cr (phase_fun elong k)) -> sin (elong t - PI / 2 * INR (match k with KNew => 0 | KFirst => 1 | KFull => 2 | KLast => 3 end)) = 0 ->
  (In {| e_time := t; e_kind := k |} (find_phase_events elong cr) <-> exists j, elong t = PI / 2 * INR (match k with KNew => 0 | KFirst => 1 | KFull => 2 | KLast => 3 end) + 2 * PI * IZR j).
Proof.
  assert (E : PI / 2 * INR (match k with KNew => 0 | KFirst => 1 | KFull => 2 | KLast => 3 end) = target k) by (destruct k; cbn; field). rewrite E. apply C67_exact.
Qed.
(** Only crossings are reported, and only on the target's side. *)
Theorem C67_sound elong cr t k : In {| e_time := t; e_kind := k |} (find_phase_events elong cr) -> In t (cr (phase_fun elong k)) /\ 0 < cos (elong t - target k).
Proof. intros H. apply event_iff in H. destruct H as (A & B). split; [exact A|]. rewrite <- angle_diff_cos. now apply small_cos. Qed.

(** Samples: the instants start + i * step up to the end, all of them. *)
Theorem C67_samples n t last step l : sample n t last step = Some l -> forall i, nth_error l i = (if leb (t + INR i * step) last then (if Nat.ltb i (length l) then Some (t + INR i * step) else None) else None) /\ (0 < step -> (Nat.ltb i (length l) = leb (t + INR i * step) last)).
Proof.
  intros H i. destruct (sample_some _ _ _ _ _ H) as (A & B). split.
  - destruct (Nat.ltb_spec i (length l)) as [L|L].
    + destruct (A i L) as (A1 & A2). assert (Q : leb (t + INR i * step) last = true) by (now apply leb_iff). rewrite Q. rewrite <- A1. now apply nth_error_nth'.
    + replace (nth_error l i) with (@None R) by (symmetry; now apply nth_error_None). now destruct (leb _ _).
  - intros P. destruct (Nat.ltb_spec i (length l)) as [L|L]; symmetry; [apply leb_iff; now apply A|]. apply leb_off. apply le_INR in L. nra.
Qed.
Theorem C67_samples_end t last step : (0 < step -> exists n l, sample n t last step = Some l) /\ (step <= 0 -> t <= last -> forall n, sample n t last step = None).
Proof.
  split; [|intros P L n; now apply sample_stuck]. intros P. destruct (nat_above ((last - t) / step)) as (n & N). exists n. pose proof (sample_total step last P n t) as S.
  assert (Q : last < t + INR n * step). { apply (Rmult_lt_compat_r step) in N; [|exact P]. unfold Rdiv in N. rewrite Rmult_assoc, Rinv_l in N by lra. lra. }
  specialize (S Q). destruct (sample n t last step); [eauto|contradiction].
Qed.
Example C67_case : from_elongation 3 (-3 * 90) (45 / 2) = Some FirstQuarter /\ from_elongation 0 10 (45 / 2) = Some NewMoon /\ from_elongation 2 (45 / 2) (45 / 2) = Some WaxingCrescent /\ is_waxing FirstQuarter = true.
Proof.
  assert (T : forall n e l, (exists m, from_elongation n e (45 / 2) = Some m) -> in_arc (45 / 2) l e -> from_elongation n e (45 / 2) = Some l).
  { intros n e l (m & E) A. rewrite E. f_equal. symmetry. now apply (proj1 (C67_arcs n e (45 / 2) m ltac:(lra) E l)). }
  assert (S : forall n e, e < 360 -> - (360 * INR n) <= e -> exists m, from_elongation n e (45 / 2) = Some m).
  { intros n e A B. unfold from_elongation. assert (D : bring_down n e = Some e). { destruct n; cbn; destruct (leb 360 e) eqn:Q; try (apply leb_iff in Q; lra); reflexivity. } rewrite D. destruct (bring_up_total n e B) as (r & ->). eauto. }
  split; [|split; [|split; [|reflexivity]]]; (apply T; [apply S; cbn; lra|]).
  - exists (-1)%Z. cbn. lra.
  - exists 0%Z. cbn. lra.
  - exists 0%Z. cbn. lra.
Qed.

(** * C68 *)
Definition scale3 (a : R) (u : R * R * R) : R * R * R := let '(x, y, z) := u in (a * x, a * y, a * z).
Definition sub3 (u v : R * R * R) : R * R * R := let '(a, b, c) := u in let '(d, e, f) := v in (a - d, b - e, c - f).
Definition norm3 (u : R * R * R) : R := sqrt (dot3 u u).
Lemma dir_unit lon lat : dot3 (dir lon lat) (dir lon lat) = 1.
Proof. unfold dir, dot3. pose proof (sin2_cos2 lon) as A. pose proof (sin2_cos2 lat) as B. unfold Rsqr in *. replace (cos lat * cos lon * (cos lat * cos lon) + cos lat * sin lon * (cos lat * sin lon) + sin lat * sin lat) with (cos lat * cos lat * (sin lon * sin lon + cos lon * cos lon) + sin lat * sin lat) by ring. rewrite A. lra. Qed.
Lemma dot3_scale a b u v : dot3 (scale3 a u) (scale3 b v) = a * b * dot3 u v.
Proof. destruct u as ((p, q), r), v as ((s, t), w). cbn. ring. Qed.
Lemma dot3_sub u v w : dot3 u (sub3 v w) = dot3 u v - dot3 u w.
Proof. destruct u as ((p, q), r), v as ((s, t), z), w as ((x, y), o). cbn. ring. Qed.
Lemma norm3_sub u v : dot3 (sub3 u v) (sub3 u v) = dot3 u u + dot3 v v - 2 * dot3 u v.
Proof. destruct u as ((p, q), r), v as ((s, t), z). cbn. ring. Qed.

(** The phase angle computed from the separation on the sky is the angle at the
    Moon between the vectors to the Earth and to the Sun. *)
Theorem C68_phase_angle lon_m lat_m km lon_s lat_s s : 0 < km ->
  let m := km / au_km in let M := scale3 m (dir lon_m lat_m) in let S := scale3 s (dir lon_s lat_s) in
  let i := phase_angle km s (great_circle lon_s lat_s lon_m lat_m) in
  / 10 ^ 15 <= norm3 (sub3 S M) -> 0 <= i <= PI /\ cos i * (norm3 (sub3 (0, 0, 0) M) * norm3 (sub3 S M)) = dot3 (sub3 (0, 0, 0) M) (sub3 S M).
Proof.
  intros K m M S i D. set (psi := great_circle lon_s lat_s lon_m lat_m) in *.
  assert (MP : 0 < m) by (unfold m; apply Rmult_lt_0_compat; [exact K|apply Rinv_0_lt_compat, au_pos]).
  destruct (great_circle_angle lon_s lat_s lon_m lat_m) as (_ & C). cbv zeta in C. fold psi in C.
  assert (MS : dot3 S M = s * m * cos psi) by (unfold S, M; rewrite dot3_scale, C; ring).
  assert (MM : dot3 M M = m * m) by (unfold M; rewrite dot3_scale, dir_unit; ring). assert (SS : dot3 S S = s * s) by (unfold S; rewrite dot3_scale, dir_unit; ring).
  assert (N1 : norm3 (sub3 S M) = moon_sun m s psi) by (unfold norm3, moon_sun; rewrite norm3_sub, MM, SS, MS, dist_sq; f_equal; ring).
  assert (N2 : norm3 (sub3 (0, 0, 0) M) = m). { unfold norm3. rewrite norm3_sub, MM. replace (dot3 (0, 0, 0) (0, 0, 0) + m * m - 2 * dot3 (0, 0, 0) M) with (m²) by (destruct M as ((p, q), r); cbn; unfold Rsqr; ring). apply sqrt_Rsqr. lra. }
  rewrite N1 in D. destruct (phase_angle_geometry km s psi K D) as (A & B). fold m in B. cbv zeta in B. split; [exact A|]. rewrite N1, N2. unfold i. rewrite B.
  rewrite dot3_sub. replace (dot3 (sub3 (0, 0, 0) M) S) with (- dot3 S M) by (destruct M as ((p, q), r), S as ((t, u), w); cbn; ring). replace (dot3 (sub3 (0, 0, 0) M) M) with (- dot3 M M) by (destruct M as ((p, q), r); cbn; ring). rewrite MM, MS. ring.
Qed.
(** The separation on the sky: between 0 and a half turn, symmetric, with the
    cosine of the angle between the two directions. *)
Theorem C68_separation lon1 lat1 lon2 lat2 : let p := great_circle lon1 lat1 lon2 lat2 in 0 <= p <= PI /\ cos p = dot3 (dir lon1 lat1) (dir lon2 lat2) /\ p = great_circle lon2 lat2 lon1 lat1.
Proof. intros p. destruct (great_circle_angle lon1 lat1 lon2 lat2) as (A & B). split; [exact A|]. split; [exact B|apply great_circle_sym]. Qed.
(** The illuminated fraction stays in [0, 1], is 0 in line with the Sun, 1
    opposite to it, and never falls as the Moon moves away from the Sun. *)
Theorem C68_fraction km s psi : 0 <= fraction km s psi <= 1.
Proof. exact (fraction_range km s psi). Qed.
Theorem C68_new_and_full km s : 0 < km -> km / au_km + / 10 ^ 15 <= s -> fraction km s 0 = 0 /\ fraction km s PI = 1.
Proof.
  intros K S. split; [now apply fraction_new|]. apply fraction_full; [exact K|]. assert (0 < km / au_km) by (apply Rmult_lt_0_compat; [exact K|apply Rinv_0_lt_compat, au_pos]). lra.
Qed.
Theorem C68_grows km s psi psi' : 0 < km -> km / au_km + / 10 ^ 15 <= s -> 0 <= psi <= psi' -> psi' <= PI -> fraction km s psi <= fraction km s psi'.
Proof. exact (fraction_grows km s psi psi'). Qed.
(** The geometry seen from the Earth's centre. *)
Theorem C68_geocentric lon lat km lon_e s : let g := geocentric lon lat km lon_e s in
  0 <= g_elong g < 2 * PI /\ (exists k, g_elong g = lon - (lon_e + PI) + 2 * PI * IZR k) /\
  (g_waxing g = true <-> 0 < sin (lon - (lon_e + PI))) /\ g_fraction g = fraction km s (great_circle (lon_e + PI) 0 lon lat).
Proof.
  intros g. pose proof PI_RGT_0 as P. unfold g, geocentric, geometry_of, elongation. cbn [g_elong g_waxing g_fraction].
  set (e := rem_e (lon - rem_e (lon_e + PI) (2 * PI)) (2 * PI)).
  pose proof (rem_e_range (lon - rem_e (lon_e + PI) (2 * PI)) (2 * PI) ltac:(lra)) as RR. fold e in RR.
  assert (K : exists k, e = lon - (lon_e + PI) + 2 * PI * IZR k). { exists (Int_part ((lon_e + PI) / (2 * PI)) - Int_part ((lon - rem_e (lon_e + PI) (2 * PI)) / (2 * PI)))%Z. rewrite minus_IZR. unfold e, rem_e. ring. }
  split; [exact RR|]. split; [exact K|]. destruct K as (k & K). split.
  - rewrite <- (sin_turns (lon - (lon_e + PI)) k), <- K. rewrite andb_true_iff, !ltb_iff. split; [intros (A & B); apply sin_gt_0; lra|]. intros H. clearbody e. clear K.
    destruct (Req_dec e 0) as [->|N]; [rewrite sin_0 in H; lra|]. split; [lra|]. apply Rnot_le_lt. intros Q. pose proof (sin_le_0 e ltac:(lra) ltac:(lra)). lra.
  - unfold fraction. do 4 f_equal.
    destruct (great_circle_angle (rem_e (lon_e + PI) (2 * PI)) 0 lon lat) as (A & B), (great_circle_angle (lon_e + PI) 0 lon lat) as (C & D). cbv zeta in *.
    rewrite <- (acos_cos _ A), <- (acos_cos _ C), B, D. unfold dir, dot3. now rewrite sin_rem_e, cos_rem_e.
Qed.
(** The geometry seen from a place on the ground: the elongation is the
    separation on the sky, unfolded to the west when the Moon is west of the
    Sun, and the Moon waxes exactly when it is east of the Sun and neither in
    line with it nor opposite. *)
Theorem C68_topocentric ra dec ra_s dec_s km s : let g := topocentric ra dec ra_s dec_s km s in
  0 <= g_elong g <= 2 * PI /\ cos (g_elong g) = dot3 (dir ra dec) (dir ra_s dec_s) /\
  (g_waxing g = true <-> rem_e (ra - ra_s) (2 * PI) < PI /\ -1 < dot3 (dir ra dec) (dir ra_s dec_s) < 1).
Proof.
  intros g. pose proof PI_RGT_0 as P. unfold g, topocentric, geometry_of. cbn [g_elong g_waxing].
  destruct (great_circle_angle ra dec ra_s dec_s) as (A & B). cbv zeta in *. rewrite <- B. set (p := great_circle ra dec ra_s dec_s) in *. clearbody p.
  assert (I : -1 < cos p < 1 <-> 0 < p < PI).
  { split.
    - intros (L & U). split; [destruct (Req_dec p 0) as [->|]; [rewrite cos_0 in U; lra|lra]|destruct (Req_dec p PI) as [->|]; [rewrite cos_PI in L; lra|lra]].
    - intros (L & U). pose proof (cos_decreasing_1 p PI ltac:(lra) ltac:(lra) ltac:(lra) ltac:(lra) U) as H1. pose proof (cos_decreasing_1 0 p ltac:(lra) ltac:(lra) ltac:(lra) ltac:(lra) L) as H2. rewrite cos_PI in H1. rewrite cos_0 in H2. lra. }
  destruct (Rlt_dec (rem_e (ra - ra_s) (2 * PI)) PI) as [L|L].
  - split; [lra|]. split; [reflexivity|]. rewrite andb_true_iff, !ltb_iff, I. tauto.
  - split; [lra|]. split; [replace (2 * PI - p) with (- p + 2 * PI * IZR 1) by (cbn; ring); now rewrite cos_turns, cos_neg|]. rewrite andb_true_iff, !ltb_iff. split; [intros (_ & Q); lra|tauto].
Qed.
Example C68_case : 0 < 384400 /\ 384400 / au_km + / 10 ^ 15 <= 1 /\ fraction 384400 1 PI = 1 /\ fraction 384400 1 0 = 0.
Proof.
  assert (A : 0 < 384400) by lra. assert (B : 384400 / au_km + / 10 ^ 15 <= 1) by (unfold au_km; lra). split; [exact A|]. split; [exact B|]. destruct (C68_new_and_full 384400 1 A B). auto.
Qed.

Print Assumptions C67_total. Print Assumptions C67_arcs. Print Assumptions C67_turns. Print Assumptions C67_nominal. Print Assumptions C67_waxing. Print Assumptions C67_sorted. Print Assumptions C67_events. Print Assumptions C67_exact.
Print Assumptions C67_named. Print Assumptions C67_sound. Print Assumptions C67_samples. Print Assumptions C67_samples_end.
Print Assumptions C68_phase_angle. Print Assumptions C68_separation. Print Assumptions C68_fraction. Print Assumptions C68_new_and_full. Print Assumptions C68_grows. Print Assumptions C68_geocentric. Print Assumptions C68_topocentric.
