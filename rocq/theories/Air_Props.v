(** C152 the standard atmosphere, C153 dead reckoning, C154 airmass, C155 extinction. *)
From Coq Require Import Reals List Lra Lia.
From Verif Require Import Base Geom_Model Air_Model.
Local Open Scope R_scope.

(** * C152 The standard atmosphere *)
Lemma exp_trop_pos : 0 < exp_trop.
Proof. unfold exp_trop, g0, molar, gas, lapse. apply Rmult_lt_0_compat; [lra|]. apply Rinv_0_lt_compat. lra. Qed.
Lemma ratio_pos h : h <= h_tropo -> 0 < 1 + lapse * h / t0.
Proof. unfold h_tropo, lapse, t0. intros H. assert (- (65 / 10000) * h / (28815 / 100) >= - (65 / 10000) * 11000 / (28815 / 100)) by lra. lra. Qed.
Lemma Rpower_pos x k : 0 < Rpower x k. Proof. apply exp_pos. Qed.
Lemma Rpower_lt x y k : 0 < x < y -> 0 < k -> Rpower x k < Rpower y k.
Proof. intros (A & B) K. unfold Rpower. apply exp_increasing. apply Rmult_lt_compat_l; [exact K|]. now apply ln_increasing. Qed.
Lemma Rpower_back x k : 0 < x -> 0 < k -> Rpower (Rpower x k) (1 / k) = x.
Proof. intros X K. rewrite Rpower_mult. replace (k * (1 / k)) with 1 by (field; lra). now apply Rpower_1. Qed.
Lemma Rpower_forth x k : 0 < x -> 0 < k -> Rpower (Rpower x (1 / k)) k = x.
Proof. intros X K. rewrite Rpower_mult. replace (1 / k * k) with 1 by (field; lra). now apply Rpower_1. Qed.
Lemma p_tropo_pos : 0 < p_tropo. Proof. unfold p_tropo, p0. apply Rmult_lt_0_compat; [lra|apply Rpower_pos]. Qed.
Lemma strat_pos : 0 < g0 * molar / (gas * t_tropo).
Proof. unfold g0, molar, gas, t_tropo. apply Rmult_lt_0_compat; [lra|]. apply Rinv_0_lt_compat. lra. Qed.
Lemma strat_exponent h : - g0 * molar * (h - h_tropo) / (gas * t_tropo) = - (g0 * molar / (gas * t_tropo)) * (h - h_tropo).
Proof. unfold Rdiv. ring. Qed.
(** pressure is positive and falls strictly with altitude, through the tropopause as elsewhere *)
Theorem C152_falls h h' : h < h' -> 0 < pressure_at_altitude h' < pressure_at_altitude h.
Proof.
  intros H. pose proof p_tropo_pos as PT. pose proof strat_pos as SP. unfold pressure_at_altitude. rewrite !strat_exponent.
  assert (T : forall a, a <= h_tropo -> p_tropo <= p0 * Rpower (1 + lapse * a / t0) exp_trop).
  { intros a [A|A]; [|rewrite A; right; reflexivity]. left. unfold p_tropo. apply Rmult_lt_compat_l; [unfold p0; lra|]. apply Rpower_lt; [|apply exp_trop_pos]. split; [apply ratio_pos; lra|]. unfold lapse, t0, h_tropo in *. lra. }
  destruct (Rle_dec h' h_tropo) as [B|B], (Rle_dec h h_tropo) as [A|A]; try lra.
  - split; [apply Rmult_lt_0_compat; [unfold p0; lra|apply Rpower_pos]|]. apply Rmult_lt_compat_l; [unfold p0; lra|]. apply Rpower_lt; [|apply exp_trop_pos]. split; [now apply ratio_pos|]. unfold lapse, t0. lra.
  - split; [apply Rmult_lt_0_compat; [exact PT|apply exp_pos]|]. apply Rlt_le_trans with (2 := T h A). rewrite <- (Rmult_1_r p_tropo) at 2. apply Rmult_lt_compat_l; [exact PT|]. rewrite <- exp_0. apply exp_increasing.
    assert (0 < g0 * molar / (gas * t_tropo) * (h' - h_tropo)) by (apply Rmult_lt_0_compat; lra). lra.
  - split; [apply Rmult_lt_0_compat; [exact PT|apply exp_pos]|]. apply Rmult_lt_compat_l; [exact PT|]. apply exp_increasing.
    assert (0 < g0 * molar / (gas * t_tropo) * (h' - h)) by (apply Rmult_lt_0_compat; lra). lra.
Qed.
(** altitude from pressure undoes pressure from altitude, at every altitude, and the other way round at every pressure *)
Theorem C152_altitude_back h : pressure_altitude (pressure_at_altitude h) = h.
Proof.
  pose proof p_tropo_pos as PT. pose proof exp_trop_pos as K. unfold pressure_altitude.
  assert (E : pressure_at_altitude h_tropo = p_tropo) by (unfold pressure_at_altitude; destruct (Rle_dec h_tropo h_tropo); [reflexivity|lra]).
  destruct (Rle_dec p_tropo (pressure_at_altitude h)) as [A|A].
  - assert (H : h <= h_tropo) by (destruct (Rle_lt_dec h h_tropo) as [|L]; [assumption|]; pose proof (C152_falls _ _ L); lra).
    unfold pressure_at_altitude. destruct (Rle_dec h h_tropo); [|lra]. replace (p0 * Rpower (1 + lapse * h / t0) exp_trop / p0) with (Rpower (1 + lapse * h / t0) exp_trop) by (field; unfold p0; lra).
    rewrite Rpower_back by (try apply ratio_pos; assumption). field. unfold t0, lapse. split; lra.
  - assert (H : h_tropo < h) by (destruct (Rle_lt_dec h h_tropo) as [[L|L]|]; [pose proof (C152_falls _ _ L); lra|subst; lra|assumption]).
    unfold pressure_at_altitude. destruct (Rle_dec h h_tropo); [lra|]. rewrite strat_exponent. 
    replace (p_tropo * exp (- (g0 * molar / (gas * t_tropo)) * (h - h_tropo)) / p_tropo) with (exp (- (g0 * molar / (gas * t_tropo)) * (h - h_tropo))) by (field; lra).
    rewrite ln_exp. field. unfold g0, molar, gas, t_tropo. repeat split; lra.
Qed.
Theorem C152_pressure_back p : 0 < p -> pressure_at_altitude (pressure_altitude p) = p.
Proof.
  intros P. pose proof p_tropo_pos as PT. pose proof exp_trop_pos as K. unfold pressure_altitude. destruct (Rle_dec p_tropo p) as [A|A].
  - set (h := t0 / lapse * (Rpower (p / p0) (1 / exp_trop) - 1)).
    assert (PP : 0 < p / p0) by (unfold p0; lra).
    assert (RH : 1 + lapse * h / t0 = Rpower (p / p0) (1 / exp_trop)) by (unfold h; field; unfold t0, lapse; split; lra).
    assert (H : h <= h_tropo).
    { destruct (Rle_lt_dec h h_tropo) as [|L]; [assumption|exfalso]. assert (Q : Rpower (p / p0) (1 / exp_trop) < 1 + lapse * h_tropo / t0) by (rewrite <- RH; unfold lapse, t0 in *; lra).
      assert (Q2 : Rpower (Rpower (p / p0) (1 / exp_trop)) exp_trop < Rpower (1 + lapse * h_tropo / t0) exp_trop) by (apply Rpower_lt; [split; [apply Rpower_pos|exact Q]|exact K]).
      rewrite Rpower_forth in Q2 by assumption. unfold p_tropo in A. apply (Rmult_lt_compat_l p0) in Q2; [|unfold p0; lra]. replace (p0 * (p / p0)) with p in Q2 by (field; unfold p0; lra). lra. }
    unfold pressure_at_altitude. destruct (Rle_dec h h_tropo); [|lra]. rewrite RH, Rpower_forth by assumption. field. unfold p0. lra.
  - set (h := h_tropo - gas * t_tropo / (g0 * molar) * ln (p / p_tropo)).
    assert (LN : ln (p / p_tropo) < 0).
    { rewrite <- ln_1. apply ln_increasing; [apply Rdiv_lt_0_compat; assumption|]. apply (Rmult_lt_reg_r p_tropo); [exact PT|]. unfold Rdiv. rewrite Rmult_assoc, Rinv_l by lra. lra. }
    assert (C : 0 < gas * t_tropo / (g0 * molar)) by (unfold g0, molar, gas, t_tropo; apply Rdiv_lt_0_compat; lra).
    assert (H : h_tropo < h) by (unfold h; assert (0 < gas * t_tropo / (g0 * molar) * - ln (p / p_tropo)) by (apply Rmult_lt_0_compat; lra); lra).
    unfold pressure_at_altitude. destruct (Rle_dec h h_tropo); [lra|]. rewrite strat_exponent. replace (- (g0 * molar / (gas * t_tropo)) * (h - h_tropo)) with (ln (p / p_tropo)).
    + rewrite exp_ln by (apply Rdiv_lt_0_compat; assumption). field. lra.
    + unfold h. field. unfold g0, molar, gas, t_tropo. repeat split; lra.
Qed.
(** the column of air is in balance: at every altitude, the tropopause included, pressure falls with the weight of the
    ideal gas of the local temperature, g0 M p / (R T) a metre *)
Lemma dlim_ext (f g : R -> R) x d r : 0 < r -> (forall y, Rabs (y - x) < r -> f y = g y) -> derivable_pt_lim f x d -> derivable_pt_lim g x d.
Proof.
  intros Rp E D eps Pe. destruct (D eps Pe) as (de & H). assert (M : 0 < Rmin de r) by (apply Rmin_pos; [apply de|exact Rp]). exists (mkposreal _ M). intros h Nz L. cbn in L.
  rewrite <- !E; [apply H; [exact Nz|]|rewrite Rminus_diag_eq by reflexivity; rewrite Rabs_R0; exact Rp|replace (x + h - x) with h by ring]; eapply Rlt_le_trans; try exact L; [apply Rmin_l|apply Rmin_r].
Qed.
Lemma dlim_glue (f g : R -> R) a d : derivable_pt_lim f a d -> derivable_pt_lim g a d -> f a = g a -> derivable_pt_lim (fun x => if Rle_dec x a then f x else g x) a d.
Proof.
  intros F G E eps Pe. destruct (F eps Pe) as (d1 & H1), (G eps Pe) as (d2 & H2). assert (M : 0 < Rmin d1 d2) by (apply Rmin_pos; [apply d1|apply d2]). exists (mkposreal _ M). intros h Nz L. cbn in L.
  destruct (Rle_dec a a) as [_|X]; [|lra]. destruct (Rle_dec (a + h) a).
  - apply H1; [exact Nz|]. eapply Rlt_le_trans; [exact L|apply Rmin_l].
  - rewrite E. apply H2; [exact Nz|]. eapply Rlt_le_trans; [exact L|apply Rmin_r].
Qed.
Lemma d_tropo h : 0 < 1 + lapse * h / t0 -> derivable_pt_lim (fun h => p0 * Rpower (1 + lapse * h / t0) exp_trop) h (- (g0 * molar / (gas * (t0 + lapse * h))) * (p0 * Rpower (1 + lapse * h / t0) exp_trop)).
Proof.
  intros Q. assert (T : 0 < t0 + lapse * h) by (replace (t0 + lapse * h) with (t0 * (1 + lapse * h / t0)) by (field; unfold t0; lra); apply Rmult_lt_0_compat; [unfold t0; lra|exact Q]).
  assert (D : derivable_pt_lim (fun h => 1 + lapse * h / t0) h (lapse / t0)).
  { replace (lapse / t0) with (0 + (lapse / t0) * 1) by ring. apply derivable_pt_lim_plus; [apply derivable_pt_lim_const|].
    apply (dlim_ext (mult_real_fct (lapse / t0) id) _ _ _ 1); [lra| |apply derivable_pt_lim_scal, derivable_pt_lim_id]. intros y _. unfold mult_real_fct, id, Rdiv. ring. }
  replace (- (g0 * molar / (gas * (t0 + lapse * h))) * (p0 * Rpower (1 + lapse * h / t0) exp_trop))
    with (p0 * ((exp_trop * Rpower (1 + lapse * h / t0) (exp_trop - 1)) * (lapse / t0))).
  - apply (derivable_pt_lim_scal (fun h => Rpower (1 + lapse * h / t0) exp_trop)).
    apply (derivable_pt_lim_comp (fun h => 1 + lapse * h / t0) (fun x => Rpower x exp_trop)); [exact D|]. now apply derivable_pt_lim_power.
  - unfold Rminus. rewrite Rpower_plus, Rpower_Ropp, Rpower_1 by exact Q. unfold exp_trop at 1.
    assert (E : / (1 + lapse * h / t0) = t0 / (t0 + lapse * h)) by (field; unfold t0 in *; lra). rewrite E. field. unfold gas, t0, lapse in *. repeat split; lra.
Qed.
Lemma d_strat h : derivable_pt_lim (fun h => p_tropo * exp (- g0 * molar * (h - h_tropo) / (gas * t_tropo))) h (- (g0 * molar / (gas * t_tropo)) * (p_tropo * exp (- g0 * molar * (h - h_tropo) / (gas * t_tropo)))).
Proof.
  set (k := - (g0 * molar / (gas * t_tropo))).
  apply (dlim_ext (fun h => p_tropo * exp (k * (h - h_tropo))) _ _ _ 1); [lra|intros y _; now rewrite strat_exponent|]. rewrite strat_exponent. fold k.
  replace (k * (p_tropo * exp (k * (h - h_tropo)))) with (p_tropo * (exp (k * (h - h_tropo)) * (k * (1 - 0)))) by ring.
  apply (derivable_pt_lim_scal (fun h => exp (k * (h - h_tropo)))). apply (derivable_pt_lim_comp (fun h => k * (h - h_tropo)) exp); [|apply derivable_pt_lim_exp].
  apply (derivable_pt_lim_scal (fun h => h - h_tropo)). apply derivable_pt_lim_minus; [apply derivable_pt_lim_id|apply derivable_pt_lim_const].
Qed.
Theorem C152_hydrostatic h : derivable_pt_lim pressure_at_altitude h (- (g0 * molar / (gas * temperature_at_altitude h)) * pressure_at_altitude h).
Proof.
  destruct (Rtotal_order h h_tropo) as [L|[E|L]].
  - apply (dlim_ext (fun h => p0 * Rpower (1 + lapse * h / t0) exp_trop) _ _ _ (h_tropo - h)); [lra| |].
    + intros y Y. unfold pressure_at_altitude. destruct (Rle_dec y h_tropo); [reflexivity|]. apply Rabs_def2 in Y. lra.
    + unfold temperature_at_altitude, pressure_at_altitude. destruct (Rle_dec h h_tropo); [|lra]. apply d_tropo. apply ratio_pos. lra.
  - subst h. unfold temperature_at_altitude, pressure_at_altitude at 2. destruct (Rle_dec h_tropo h_tropo) as [Q|]; [|lra].
    apply dlim_glue; [apply d_tropo; now apply ratio_pos| |].
    + pose proof (d_strat h_tropo) as D.
      replace (- g0 * molar * (h_tropo - h_tropo) / (gas * t_tropo)) with 0 in D by (unfold Rdiv; ring). rewrite exp_0, Rmult_1_r in D.
      replace (t0 + lapse * h_tropo) with t_tropo by (unfold t0, lapse, h_tropo, t_tropo; lra). exact D.
    + rewrite Rminus_diag_eq by reflexivity. replace (- g0 * molar * 0 / (gas * t_tropo)) with 0 by (unfold Rdiv; ring). rewrite exp_0, Rmult_1_r. reflexivity.
  - apply (dlim_ext (fun h => p_tropo * exp (- g0 * molar * (h - h_tropo) / (gas * t_tropo))) _ _ _ (h - h_tropo)); [lra| |].
    + intros y Y. unfold pressure_at_altitude. destruct (Rle_dec y h_tropo); [|reflexivity]. apply Rabs_def2 in Y. lra.
    + unfold temperature_at_altitude, pressure_at_altitude. destruct (Rle_dec h h_tropo); [lra|]. apply d_strat.
Qed.
(** geopotential and geometric altitude undo each other above the Earth's centre; the first is the smaller *)
Theorem C152_geopotential z : - r_earth < z -> geometric_altitude (geopotential_altitude z) = z /\ geopotential_altitude z <= z /\ (z <> 0 -> geopotential_altitude z < z).
Proof.
  intros H. unfold geometric_altitude, geopotential_altitude, r_earth in *. assert (P : 0 < 6356766 + z) by lra. split.
  - field. repeat split; lra.
  - assert (E : z - 6356766 * z / (6356766 + z) = z * z / (6356766 + z)) by (field; lra). split.
    + assert (0 <= z * z / (6356766 + z)) by (apply Rmult_le_pos; [apply Rle_0_sqr|left; now apply Rinv_0_lt_compat]). lra.
    + intros N. assert (0 < z * z / (6356766 + z)) by (apply Rdiv_lt_0_compat; [now apply Rsqr_pos_lt in N|exact P]). lra.
Qed.
Theorem C152_geometric hp : hp < r_earth -> geopotential_altitude (geometric_altitude hp) = hp.
Proof. intros H. unfold geometric_altitude, geopotential_altitude, r_earth in *. field. split; lra. Qed.
Example C152_case : pressure_at_altitude 0 = 101325 /\ temperature_at_altitude 11000 = 21665 / 100 /\ pressure_altitude 101325 = 0.
Proof.
  assert (A : pressure_at_altitude 0 = 101325).
  { unfold pressure_at_altitude. destruct (Rle_dec 0 h_tropo) as [_|N]; [|unfold h_tropo in N; lra]. replace (1 + lapse * 0 / t0) with 1 by (unfold Rdiv; ring). unfold Rpower. rewrite ln_1, Rmult_0_r, exp_0. unfold p0. ring. }
  split; [exact A|]. split; [unfold temperature_at_altitude, h_tropo; destruct (Rle_dec 11000 11000); [unfold t0, lapse; lra|lra]|]. rewrite <- A. apply C152_altitude_back.
Qed.

(** * C153 Dead reckoning *)
(** nothing moves at the reference epoch; over any time an aircraft covers on the sphere the ground its speed allows, in
    the direction of its track, and climbs at its rate *)
Theorem C153_moves s epoch jd : let dt := (jd - epoch) * 86400 in let s' := track s epoch jd in let c := cos (deg (lat s)) in 1 / 1000000000 <= c ->
  6371000 * deg (lat s' - lat s) = ground_speed s * dt * cos (deg (track_angle s)) /\
  6371000 * c * deg (lon s' - lon s) = ground_speed s * dt * sin (deg (track_angle s)) /\
  (6371000 * deg (lat s' - lat s)) ^ 2 + (6371000 * c * deg (lon s' - lon s)) ^ 2 = (ground_speed s * dt) ^ 2 /\
  height s' = height s + vertical_rate s * dt /\
  ground_speed s' = ground_speed s /\ track_angle s' = track_angle s /\ vertical_rate s' = vertical_rate s.
Proof.
  cbv zeta. intros C. pose proof PI_RGT_0 as P.
  assert (A : 6371000 * deg (lat (track s epoch jd) - lat s) = ground_speed s * ((jd - epoch) * 86400) * cos (deg (track_angle s))).
  { unfold track. cbn [lat]. unfold deg at 1. field. lra. }
  assert (B : 6371000 * cos (deg (lat s)) * deg (lon (track s epoch jd) - lon s) = ground_speed s * ((jd - epoch) * 86400) * sin (deg (track_angle s))).
  { unfold track. cbn [lon]. rewrite Rmax_left by exact C. unfold deg at 2. field. split; lra. }
  split; [exact A|]. split; [exact B|]. split; [|repeat split].
  rewrite A, B. pose proof (sin2_cos2 (deg (track_angle s))) as S. unfold Rsqr in S. 
  transitivity ((ground_speed s * ((jd - epoch) * 86400)) ^ 2 * (sin (deg (track_angle s)) * sin (deg (track_angle s)) + cos (deg (track_angle s)) * cos (deg (track_angle s)))); [ring|]. rewrite S. ring.
Qed.
Theorem C153_still s epoch : track s epoch epoch = s.
Proof. destruct s as [lo la he gs tr vr]. unfold track. cbn. rewrite Rminus_diag_eq by reflexivity. unfold Rdiv. rewrite !Rmult_0_l, !Rmult_0_r, !Rmult_0_l, !Rplus_0_r. reflexivity. Qed.
(** two legs are one leg in latitude and height, and in longitude when the track is along a parallel or a meridian *)
Theorem C153_legs s e a b : let s2 := track (track s e a) a b in let s1 := track s e b in
  lat s2 = lat s1 /\ height s2 = height s1 /\ (sin (deg (track_angle s)) = 0 \/ cos (deg (track_angle s)) = 0 -> lon s2 = lon s1).
Proof.
  cbv zeta. unfold track. cbn [lat lon height ground_speed track_angle vertical_rate]. set (m := Rmax (cos (deg (lat s))) (1 / 1000000000)).
  assert (M : 0 < m) by (unfold m; pose proof (Rmax_r (cos (deg (lat s))) (1 / 1000000000)); lra). pose proof PI_RGT_0 as P.
  split; [field; lra|]. split; [ring|]. intros [Z|Z]; rewrite Z.
  - unfold Rdiv. ring.
  - replace (lat s + ground_speed s * ((a - e) * 86400) * 0 / 6371000 * (180 / PI)) with (lat s) by (field; lra). fold m. field. lra.
Qed.
(** on an oblique track the two legs end at another longitude: the ground speed eastwards is turned into degrees with the
    latitude of the start of each leg *)
Theorem C153_legs_refuted : exists s e a b, lon (track (track s e a) a b) <> lon (track s e b).
Proof.
  (* 45 degrees from the equator, the first leg to latitude 60 *)
  set (d := 6371000 * (PI / 3) / cos (PI / 4)). pose proof PI_RGT_0 as P. pose proof cos_PI4 as C4. assert (CP : 0 < cos (PI / 4)) by (apply cos_gt_0; lra).
  exists (Aircraft 0 0 0 d 45 0), 0, (1 / 86400), (2 / 86400). unfold track. cbn [lat lon height ground_speed track_angle vertical_rate].
  assert (D45 : deg 45 = PI / 4) by (unfold deg; field). assert (D0 : deg 0 = 0) by (unfold deg; ring). rewrite D45, D0, cos_0.
  rewrite (Rmax_left 1) by lra. replace (0 + d * ((1 / 86400 - 0) * 86400) * cos (PI / 4) / 6371000 * (180 / PI)) with 60 by (unfold d; field; split; lra).
  replace (deg 60) with (PI / 3) by (unfold deg; field). rewrite cos_PI3, Rmax_left by lra.
  assert (DP : 0 < d) by (unfold d; apply Rdiv_lt_0_compat; [|exact CP]; apply Rmult_lt_0_compat; lra). assert (SP : 0 < sin (PI / 4)) by (apply sin_gt_0; lra).
  assert (Q : 0 < d * sin (PI / 4) / 6371000 * (180 / PI)) by (apply Rmult_lt_0_compat; [apply Rdiv_lt_0_compat; [now apply Rmult_lt_0_compat|lra]|apply Rdiv_lt_0_compat; lra]).
  intros E. assert (3 * (d * sin (PI / 4) / 6371000 * (180 / PI)) = 2 * (d * sin (PI / 4) / 6371000 * (180 / PI))); [|lra].
  transitivity (0 + d * ((1 / 86400 - 0) * 86400) * sin (PI / 4) / (6371000 * 1) * (180 / PI) + d * ((2 / 86400 - 1 / 86400) * 86400) * sin (PI / 4) / (6371000 * (1 / 2)) * (180 / PI)); [field; lra|]. rewrite E. field. lra.
Qed.
(** and flying north is not stopped at the pole *)
Theorem C153_pole_refuted s epoch : 0 < ground_speed s -> cos (deg (track_angle s)) = 1 -> exists jd, epoch < jd /\ 90 < lat (track s epoch jd).
Proof.
  intros G C. pose proof PI_RGT_0 as P. set (k := ground_speed s * 86400 / 6371000 * (180 / PI)).
  assert (K : 0 < k) by (unfold k; apply Rmult_lt_0_compat; [|apply Rdiv_lt_0_compat; lra]; apply Rdiv_lt_0_compat; [|lra]; apply Rmult_lt_0_compat; lra).
  assert (E : forall jd, lat (track s epoch jd) = lat s + k * (jd - epoch)) by (intros jd; unfold track, k; cbn [lat]; rewrite C; field; lra).
  exists (epoch + (Rabs (lat s) + 91) / k). split.
  - assert (0 < (Rabs (lat s) + 91) / k) by (apply Rdiv_lt_0_compat; [pose proof (Rabs_pos (lat s)); lra|exact K]). lra.
  - rewrite E. replace (k * (epoch + (Rabs (lat s) + 91) / k - epoch)) with (Rabs (lat s) + 91) by (field; lra). pose proof (Rle_abs (- lat s)) as A. rewrite Rabs_Ropp in A. lra.
Qed.
Example C153_case : 1 / 1000000000 <= cos (deg (lat (Aircraft 2 60 10000 250 90 0))) /\ ground_speed (Aircraft 2 60 10000 250 90 0) = 250 /\ cos (deg 90) = 0.
Proof. cbn. replace (deg 60) with (PI / 3) by (unfold deg; field). replace (deg 90) with (PI / 2) by (unfold deg; field). rewrite cos_PI3, cos_PI2. lra. Qed.
Print Assumptions C152_falls.
Print Assumptions C152_altitude_back.
Print Assumptions C152_pressure_back.
Print Assumptions C152_hydrostatic.
Print Assumptions C152_geopotential.
Print Assumptions C152_geometric.
Print Assumptions C152_case.
Print Assumptions C153_moves.
Print Assumptions C153_still.
Print Assumptions C153_legs.
Print Assumptions C153_legs_refuted.
Print Assumptions C153_pole_refuted.
Print Assumptions C153_case.
