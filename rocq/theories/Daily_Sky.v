(** The Sun's daily motion on the reals: the predicted times and the fast altitude. *)
From Coq Require Import Reals Lra ZArith.
From Verif Require Import Ang Daily_Model.
Local Open Scope R_scope.

(** The sine of the altitude of a body of fixed declination that transits at [transit] and turns
    once a day. *)
Definition day_altitude (sin_lat cos_lat sin_dec cos_dec transit t : R) : R := sin_lat * sin_dec + cos_lat * cos_dec * cos (2 * PI * (t - transit)).
Section Day.
Variables (sin_lat cos_lat sin_dec cos_dec thr transit : R).
Hypothesis up : 0 < cos_lat * cos_dec.
Notation c := (r_cos_h0 thr sin_lat cos_lat sin_dec cos_dec).
Notation h := (day_altitude sin_lat cos_lat sin_dec cos_dec transit).
Lemma gap t : h t - thr = cos_lat * cos_dec * (cos (2 * PI * (t - transit)) - c).
Proof. unfold day_altitude, r_cos_h0. field. split; intros E; rewrite E in up; lra. Qed.
Lemma always_below t : 1 < c -> h t < thr.
Proof. intros C. pose proof (gap t). pose proof (COS_bound (2 * PI * (t - transit))). nra. Qed.
Lemma always_above t : c < -1 -> thr < h t.
Proof. intros C. pose proof (gap t). pose proof (COS_bound (2 * PI * (t - transit))). nra. Qed.
Hypothesis reach : -1 <= c <= 1.
Lemma arc_turn : 2 * PI * r_half_arc c = acos c.
Proof. unfold r_half_arc. field. pose proof PI_RGT_0. lra. Qed.
Lemma arc_range : 0 <= r_half_arc c <= 1 / 2.
Proof. pose proof (acos_bound c) as B. pose proof arc_turn as E. pose proof PI_RGT_0. split; [apply (Rmult_le_reg_l (2 * PI)); lra|apply (Rmult_le_reg_l (2 * PI)); lra]. Qed.
Lemma at_candidate s : s = 1 \/ s = -1 -> h (transit + s * r_half_arc c) = thr.
Proof.
  intros S. assert (E : h (transit + s * r_half_arc c) - thr = 0); [|lra]. rewrite gap.
  replace (2 * PI * (transit + s * r_half_arc c - transit)) with (s * acos c) by (rewrite <- arc_turn; ring).
  assert (Cs : cos (s * acos c) = c). { destruct S as [-> | ->]; [rewrite Rmult_1_l|replace (-1 * acos c) with (- acos c) by ring; rewrite cos_neg]; apply cos_acos; exact reach. }
  rewrite Cs. ring.
Qed.
Lemma slope_at s : s = 1 \/ s = -1 -> derivable_pt_lim h (transit + s * r_half_arc c) (- s * r_base_slope cos_lat cos_dec (acos c)).
Proof.
  intros S. replace (- s * r_base_slope cos_lat cos_dec (acos c)) with (0 + cos_lat * cos_dec * (- sin (2 * PI * (transit + s * r_half_arc c - transit)) * (2 * PI))).
  - unfold day_altitude. apply (derivable_pt_lim_plus (fun _ => sin_lat * sin_dec) (fun t => cos_lat * cos_dec * cos (2 * PI * (t - transit)))); [apply derivable_pt_lim_const|].
    apply (derivable_pt_lim_scal (fun t => cos (2 * PI * (t - transit)))). apply (derivable_pt_lim_comp (fun t => 2 * PI * (t - transit)) cos); [|apply derivable_pt_lim_cos].
    match goal with |- derivable_pt_lim _ ?x _ => replace (derivable_pt_lim (fun t => 2 * PI * (t - transit)) x (2 * PI)) with (derivable_pt_lim (fun t => 2 * PI * (t - transit)) x (2 * PI * (1 - 0))) by (f_equal; ring) end.
    apply (derivable_pt_lim_scal (fun t => t - transit)). apply (derivable_pt_lim_minus id (fun _ => transit)); [apply derivable_pt_lim_id|apply derivable_pt_lim_const].
  - replace (2 * PI * (transit + s * r_half_arc c - transit)) with (s * acos c) by (rewrite <- arc_turn; ring). unfold r_base_slope.
    destruct S as [-> | ->]; [rewrite Rmult_1_l; ring|replace (-1 * acos c) with (- acos c) by ring; rewrite sin_neg; ring].
Qed.
Lemma slope_positive : -1 < c < 1 -> 0 < r_base_slope cos_lat cos_dec (acos c).
Proof.
  intros C. unfold r_base_slope. pose proof PI_RGT_0. assert (0 < sin (acos c)); [|apply Rmult_lt_0_compat; [|lra]; apply Rmult_lt_0_compat; assumption]. pose proof (acos_bound_lt c C) as B. now apply sin_gt_0.
Qed.
Lemma cos_abs x : cos (Rabs x) = cos x.
Proof. unfold Rabs. destruct (Rcase_abs x); [apply cos_neg|reflexivity]. Qed.
Lemma lit t : Rabs (t - transit) <= 1 / 2 -> (thr < h t <-> Rabs (t - transit) < r_half_arc c) /\ (h t < thr <-> r_half_arc c < Rabs (t - transit)).
Proof.
  intros T. pose proof PI_RGT_0 as P. pose proof (gap t) as E. rewrite <- cos_abs, Rabs_mult, (Rabs_right (2 * PI)) in E by lra. set (x := Rabs (t - transit)) in *. pose proof (Rabs_pos (t - transit)) as X. fold x in X. clearbody x.
  pose proof arc_range as (A1 & A2). assert (C : cos (2 * PI * r_half_arc c) = c) by (rewrite arc_turn; apply cos_acos; exact reach). set (a := r_half_arc c) in *. clearbody a. rewrite <- C in E.
  assert (D : forall u v, 0 <= u -> u < v -> v <= 1 / 2 -> cos (2 * PI * v) < cos (2 * PI * u)) by (intros u v U V W; apply cos_decreasing_1; nra).
  destruct (Rtotal_order x a) as [L|[L|L]].
  - pose proof (D x a X L A2). split; split; intros; try assumption; try lra; nra.
  - subst x. split; split; intros; try lra; nra.
  - pose proof (D a x A1 L T). split; split; intros; try assumption; try lra; nra.
Qed.
End Day.

(** The transit. *)
Lemma transit_ok start gmst lon ra : let t := approx_transit start (start + 1) gmst lon ra in
  start <= t <= start + 1 /\ exists k : Z, gmst + lon - ra + 2 * PI * (t - (start + 1 / 2)) = 2 * PI * IZR k.
Proof.
  cbn zeta. unfold approx_transit. pose proof PI_RGT_0 as P. set (lst := rem_e (gmst + lon) (2 * PI)). set (ha := rem_e (lst - ra) (2 * PI)).
  pose proof (rem_e_range (lst - ra) (2 * PI) ltac:(lra)) as H. fold ha in H.
  assert (E : exists k : Z, gmst + lon - ra = ha + 2 * PI * IZR k).
  { exists (Int_part ((lst - ra) / (2 * PI)) + Int_part ((gmst + lon) / (2 * PI)))%Z. unfold ha, rem_e at 1. unfold lst at 1. unfold rem_e at 1. rewrite plus_IZR. ring. }
  destruct E as (k & E). clearbody ha. assert (F : 0 <= ha / (2 * PI) < 1).
  { split; [apply Rmult_le_pos; [lra|left; apply Rinv_0_lt_compat; lra]|]. apply (Rmult_lt_reg_r (2 * PI)); [lra|]. unfold Rdiv. rewrite Rmult_assoc, Rinv_l by lra. lra. }
  assert (Fe : 2 * PI * (ha / (2 * PI)) = ha) by (field; lra). unfold Rdiv in *. replace (- ha * / (2 * PI)) with (- (ha * / (2 * PI))) by ring. set (f := ha * / (2 * PI)) in *. clearbody f.
  destruct (Rlt_dec _ start) as [L|L]; [|destruct (Rlt_dec (start + 1) _) as [M|M]].
  - split; [lra|]. exists (k + 1)%Z. rewrite plus_IZR, E. rewrite <- Fe. field.
  - lra.
  - split; [lra|]. exists k. rewrite E, <- Fe. field.
Qed.

(** The fast altitude is the angle between the vertical and the Sun's direction. *)
Lemma fast_geometry n lat lon : let l := sun_longitude n in let e := sun_obliquity n in let theta := 4.894961 + 6.300388 * n + lon in
  sin_altitude_fast n lat lon = cos lat * cos theta * cos l + cos lat * sin theta * (cos e * sin l) + sin lat * (sin e * sin l).
Proof.
  cbn zeta. unfold sin_altitude_fast, sun_sin_dec, sun_ra. set (l := sun_longitude n). set (e := sun_obliquity n). rewrite cos_rem_e.
  assert (G : cos (fast_gmst n + lon - atan2 (cos e * sin l) (cos l)) = cos (4.894961 + 6.300388 * n + lon - atan2 (cos e * sin l) (cos l))).
  { unfold fast_gmst, rem_e. set (k := Int_part _). rewrite <- (cos_turns _ k). f_equal. ring. }
  rewrite G. set (th := 4.894961 + 6.300388 * n + lon). rewrite cos_minus.
  assert (Sq : 1 - sin e * sin l * (sin e * sin l) = (cos l)² + (cos e * sin l)²).
  { pose proof (sin2_cos2 l) as A. pose proof (sin2_cos2 e) as B. unfold Rsqr in *. replace (cos l * cos l) with (1 - sin l * sin l) by lra. replace (cos e * sin l * (cos e * sin l)) with ((1 - sin e * sin e) * (sin l * sin l)) by (replace (1 - sin e * sin e) with (cos e * cos e) by lra; ring). ring. }
  rewrite Sq. destruct (Req_dec (cos l) 0) as [C0|C0].
  - destruct (Req_dec (cos e * sin l) 0) as [S0|S0].
    + rewrite C0, S0. replace (0² + 0²) with 0 by (unfold Rsqr; ring). rewrite sqrt_0. ring.
    + destruct (atan2_polar (cos e * sin l) (cos l)) as (A & B); [now right|]. set (r := sqrt _) in *. set (a := atan2 _ _) in *.
      replace (cos lat * r * (cos th * cos a + sin th * sin a)) with (cos lat * (cos th * (r * cos a) + sin th * (r * sin a))) by ring. rewrite A, B. ring.
  - destruct (atan2_polar (cos e * sin l) (cos l)) as (A & B); [now left|]. set (r := sqrt _) in *. set (a := atan2 _ _) in *.
    replace (cos lat * r * (cos th * cos a + sin th * sin a)) with (cos lat * (cos th * (r * cos a) + sin th * (r * sin a))) by ring. rewrite A, B. ring.
Qed.
