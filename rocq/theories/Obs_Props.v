(** C115 to C119: range corrections, GNSS and laser ranging observations, batches. *)
From Coq Require Import Reals ZArith List Bool Permutation Lia Lra.
From Verif Require Import Base Mat3 Ang Geom_Model Geom_Proofs Obs_Model Obs_Proofs.
Import ListNotations.
Local Open Scope R_scope.

(** * C115 *)
Definition vsum (us : list vec) : vec := fold_right vplus (0, 0, 0) us.
Definition offset_of (c : correction) : vec := match c with Pco o => o | Tide d => d | Shapiro => (0, 0, 0) end.
Definition shift_only (c : correction) : Prop := c <> Shapiro.
(** Corrections run one after another in the order they were added. *)
Theorem C115_pipeline a b range rx sat : registry_apply (a ++ b) range rx sat = registry_apply b (registry_apply a range rx sat) rx sat /\ registry_apply [] range rx sat = range.
Proof. unfold registry_apply. now rewrite fold_left_app. Qed.
(** Any number of antenna offsets and tidal displacements takes off the part of their sum along the line of sight. *)
Theorem C115_offsets cs range rx sat : rx <> sat -> Forall shift_only cs ->
  (registry_apply cs range rx sat - range) * norm (vminus sat rx) = - 1000 * dot3 (vsum (map offset_of cs)) (vminus sat rx).
Proof.
  intros N F. assert (P : 0 < norm (vminus sat rx)).
  { apply norm_pos. intros E. apply N. destruct rx as ((a, b), c), sat as ((x, y), z). cbn in E. assert (x - a = 0) by congruence. assert (y - b = 0) by congruence. assert (z - c = 0) by congruence. apply vec_eq; lra. }
  revert range. induction F as [|c cs H F IH]; intros range.
  - cbn [registry_apply fold_left map vsum fold_right]. unfold registry_apply. cbn [fold_left]. destruct (vminus sat rx) as ((x, y), z). cbn [dot3]. ring.
  - unfold registry_apply in *. cbn [fold_left map vsum fold_right]. fold (vsum (map offset_of cs)). rewrite dot_plus.
    assert (E : correct c range rx sat = range - 1000 * los_part (offset_of c) rx sat). { destruct c as [o| |d]; [now apply along_eq|now destruct H|now apply along_eq]. }
    specialize (IH (correct c range rx sat)). rewrite E in *. unfold los_part in *. set (n := norm (vminus sat rx)) in *.
    assert (G : (range - 1000 * (dot3 (offset_of c) (vminus sat rx) / n)) * n = range * n - 1000 * dot3 (offset_of c) (vminus sat rx)) by (field; lra).
    set (f := fold_left _ _ _) in *. nra.
Qed.
(** They may be added in any order, and never change a range by more than their lengths. *)
Theorem C115_any_order cs cs' range rx sat : rx <> sat -> Forall shift_only cs -> Permutation cs cs' -> registry_apply cs range rx sat = registry_apply cs' range rx sat.
Proof.
  intros N F P. assert (F' : Forall shift_only cs') by (eapply Permutation_Forall; eauto). pose proof (C115_offsets cs range rx sat N F) as A. pose proof (C115_offsets cs' range rx sat N F') as B.
  assert (S : vsum (map offset_of cs) = vsum (map offset_of cs')).
  { clear - P. induction P as [|c l l' _ IH|c d l|l l' l'' _ IH1 _ IH2]; cbn [map vsum fold_right]; [reflexivity| | |congruence].
    - fold (vsum (map offset_of l)). fold (vsum (map offset_of l')). now rewrite IH.
    - fold (vsum (map offset_of l)). destruct (offset_of c) as ((?, ?), ?), (offset_of d) as ((?, ?), ?), (vsum (map offset_of l)) as ((?, ?), ?). cbn. apply vec_eq; ring. }
  rewrite S in A. assert (P0 : 0 < norm (vminus sat rx)).
  { apply norm_pos. intros E. apply N. destruct rx as ((a, b), c), sat as ((x, y), z). cbn in E. assert (x - a = 0) by congruence. assert (y - b = 0) by congruence. assert (z - c = 0) by congruence. apply vec_eq; lra. }
  apply Rmult_eq_reg_r with (norm (vminus sat rx)); [|lra]. lra.
Qed.
Theorem C115_bound c range rx sat : shift_only c -> Rabs (correct c range rx sat - range) <= 1000 * norm (offset_of c).
Proof.
  intros S. assert (E : correct c range rx sat = along (offset_of c) range rx sat) by (destruct c; [reflexivity|now destruct S|reflexivity]). rewrite E.
  destruct (Req_dec (norm (vminus sat rx)) 0) as [Z|Z].
  - unfold along. destruct (reqb_r (norm (vminus sat rx)) 0); [|contradiction]. replace (range - range) with 0 by ring. rewrite Rabs_R0. pose proof (norm_nonneg (offset_of c)). lra.
  - assert (N : rx <> sat). { intros ->. apply Z. replace (vminus sat sat) with (0, 0, 0) by (destruct sat as ((?, ?), ?); cbn; apply vec_eq; ring). unfold norm. cbn [dot3]. replace (0 * 0 + 0 * 0 + 0 * 0) with 0 by ring. apply sqrt_0. }
    rewrite along_eq by exact N. pose proof (los_part_bound (offset_of c) rx sat) as B. replace (range - 1000 * los_part (offset_of c) rx sat - range) with (- (1000 * los_part (offset_of c) rx sat)) by ring. rewrite Rabs_Ropp, Rabs_mult, (Rabs_pos_eq 1000) by lra. lra.
Qed.
(** For a receiver moved by a displacement shorter than its distance from the satellite, the corrected range is short of the true range to the moved receiver
    by at most the square of the displacement over twice the remaining distance. *)
Theorem C115_displaced d rx sat : norm d < norm (vminus sat rx) ->
  let rho := norm (vminus sat rx) in
  let moved := 1000 * norm (vminus sat (vplus rx d)) in
  0 <= moved - correct (Tide d) (1000 * rho) rx sat <= 1000 * (norm d * norm d / (2 * (rho - norm d))).
Proof.
  intros L. cbn zeta. pose proof (norm_nonneg d) as D0. set (l := vminus sat rx) in *.
  assert (N : rx <> sat). { intros E. assert (Z : l = (0, 0, 0)) by (unfold l; rewrite E; destruct sat as ((?, ?), ?); cbn; apply vec_eq; ring). rewrite Z in L. unfold norm at 2 in L. cbn [dot3] in L. replace (0 * 0 + 0 * 0 + 0 * 0) with 0 in L by ring. rewrite sqrt_0 in L. lra. }
  cbn [correct]. rewrite along_eq by exact N. pose proof (los_part_bound d rx sat) as B. apply abs_inv in B. set (p := los_part d rx sat) in *.
  assert (Ep : dot3 d l = p * norm l) by (unfold p, los_part; fold l; field; lra).
  set (rho := norm l) in *. set (m := norm (vminus sat (vplus rx d))). pose proof (norm_nonneg (vminus sat (vplus rx d))) as M0. fold m in M0.
  assert (Em : m * m = rho * rho - 2 * (p * rho) + norm d * norm d).
  { unfold m. rewrite norm_sq, <- Ep. unfold rho. rewrite !norm_sq. unfold l. destruct sat as ((?, ?), ?), rx as ((?, ?), ?), d as ((?, ?), ?). cbn. ring. }
  set (n := norm d) in *. assert (A : 0 < rho - n) by lra. assert (A2 : rho - n <= rho - p) by lra.
  assert (Lo : rho - p <= m) by (apply Rsqr_incr_0_var; [unfold Rsqr; nra|exact M0]).
  split; [lra|]. assert (Hi : (m - (rho - p)) * (2 * (rho - n)) <= n * n). { assert (S : (m - (rho - p)) * (m + (rho - p)) <= n * n) by nra. assert (2 * (rho - n) <= m + (rho - p)) by lra. nra. }
  assert (G : m - (rho - p) <= n * n / (2 * (rho - n))). { apply Rmult_le_reg_r with (2 * (rho - n)); [lra|]. unfold Rdiv. rewrite Rmult_assoc, Rinv_l by lra. lra. } lra.
Qed.
(** The delay by the Earth's mass: positive for a positive range shorter than the path over the geocentre, longer for longer ranges, the same with the ends exchanged. *)
Theorem C115_shapiro range rx sat : 0 < range -> range < 1000 * (norm rx + norm sat) ->
  range < shapiro range rx sat /\ shapiro range sat rx = shapiro range rx sat /\
  (forall r', range < r' -> r' < 1000 * (norm rx + norm sat) -> shapiro range rx sat - range < shapiro r' rx sat - r').
Proof.
  intros P L. unfold shapiro. cbn zeta. set (s := norm rx * 1000 + norm sat * 1000). replace (norm sat * 1000 + norm rx * 1000) with s by (unfold s; ring).
  assert (S : range < s) by (unfold s; lra). pose proof two_gm_pos as K. destruct (rltb_r 0 (s - range)) as [_|X]; [|lra]. split; [|split].
  - pose proof (ln_gt_0 _ (ratio_gt s range P S)). nra.
  - reflexivity.
  - intros r' A B. destruct (rltb_r 0 (s - r')) as [_|X]; [|unfold s in *; lra].
    assert (I : ln ((s + range) / (s - range)) < ln ((s + r') / (s - r'))) by (apply ln_increasing; [apply Rdiv_lt_0_compat; lra|apply ratio_mono; unfold s in *; lra]). nra.
Qed.
(** A range that fits the two places never exceeds the path over the geocentre. *)
Theorem C115_geometry rx sat : 1000 * norm (vminus sat rx) <= 1000 * (norm rx + norm sat).
Proof. pose proof (minus_norm sat rx). lra. Qed.
(** The delay is computed from the range as corrected so far: exchanging it with an offset changes the result
    unless the offset has no part along the line of sight. *)
Theorem C115_order_refuted o range rx sat : rx <> sat -> los_part o rx sat <> 0 -> Rabs range < 1000 * (norm rx + norm sat) -> Rabs (range - 1000 * los_part o rx sat) < 1000 * (norm rx + norm sat) ->
  registry_apply [Shapiro; Pco o] range rx sat <> registry_apply [Pco o; Shapiro] range rx sat.
Proof.
  intros N O A B. unfold registry_apply. cbn [fold_left correct]. rewrite !along_eq by exact N. set (q := 1000 * los_part o rx sat) in *. unfold shapiro. cbn zeta. set (s := norm rx * 1000 + norm sat * 1000).
  replace (1000 * (norm rx + norm sat)) with s in * by (unfold s; ring). clearbody s. assert (A' := A). assert (B' := B). apply Rabs_def2 in A'. apply Rabs_def2 in B'.
  destruct (rltb_r 0 (s - range)) as [_|X]; [|lra]. destruct (rltb_r 0 (s - (range - q))) as [_|X]; [|lra]. intros E. pose proof two_gm_pos as K.
  assert (E2 : ln ((s + range) / (s - range)) = ln ((s + (range - q)) / (s - (range - q)))) by nra. apply ln_inv in E2; [|now apply ratio_pos|now apply ratio_pos].
  assert (E3 : (s + range) * (s - (range - q)) = (s + (range - q)) * (s - range)).
  { replace (s + range) with ((s + range) / (s - range) * (s - range)) by (field; lra). rewrite E2. field. lra. }
  apply O. unfold q in *. nra.
Qed.
Example C115_case : let rx := (6378, 0, 0) in let sat := (26560, 0, 0) in
  rx <> sat /\ los_part (3 / 100000, 0, 0) rx sat = 3 / 100000 /\ Forall shift_only [Pco (1, 2, 3); Tide (0, 1, 0)] /\ 0 < 20182000 < 1000 * (norm rx + norm sat).
Proof.
  cbn zeta. split; [intros E; assert (6378 = 26560) by congruence; lra|]. split.
  - unfold los_part, norm. cbn. replace (_ + _) with (3 / 100000 * (26560 - 6378)) by ring. replace ((26560 - 6378) * (26560 - 6378) + _ + _) with ((26560 - 6378) * (26560 - 6378)) by ring. rewrite sqrt_square by lra. field.
  - split; [repeat constructor; discriminate|]. unfold norm. cbn. replace (6378 * 6378 + 0 * 0 + 0 * 0) with (6378 * 6378) by ring. replace (26560 * 26560 + 0 * 0 + 0 * 0) with (26560 * 26560) by ring. rewrite !sqrt_square by lra. lra.
Qed.
Print Assumptions C115_pipeline.
Print Assumptions C115_offsets.
Print Assumptions C115_any_order.
Print Assumptions C115_bound.
Print Assumptions C115_displaced.
Print Assumptions C115_shapiro.
Print Assumptions C115_geometry.
Print Assumptions C115_order_refuted.

(** * C116 *)
(** The troposphere: the zenith delay over the sine of the elevation, which counts as at least 0.07; between 2.42 m and 34.64 m. *)
Theorem C116_troposphere e : saastamoinen e = saastamoinen (PI / 2) / Rmax (sin e) (7 / 100) /\ 242 / 100 < saastamoinen (PI / 2) < 243 / 100 /\
  saastamoinen (PI / 2) <= saastamoinen e <= saastamoinen (PI / 2) / (7 / 100).
Proof.
  assert (Z : saastamoinen (PI / 2) = 2277 / 1000000 * (101325 / 100) + 2277 / 1000000 * (1255 / (28815 / 100) + 5 / 100) * (11691 / 1000)).
  { unfold saastamoinen. cbn zeta. rewrite sin_PI2, Rmax_left by lra. unfold Rdiv. rewrite Rinv_1, !Rmult_1_r. reflexivity. }
  assert (M : 7 / 100 <= Rmax (sin e) (7 / 100) <= 1) by (split; [apply Rmax_r|apply Rmax_lub; [pose proof (SIN_bound e); lra|lra]]).
  assert (E : saastamoinen e = saastamoinen (PI / 2) / Rmax (sin e) (7 / 100)) by (rewrite Z; unfold saastamoinen; cbn zeta; field; lra).
  assert (B : 242 / 100 < saastamoinen (PI / 2) < 243 / 100) by (rewrite Z; lra). split; [exact E|]. split; [exact B|]. rewrite E. set (z := saastamoinen (PI / 2)) in *. set (m := Rmax (sin e) (7 / 100)) in *.
  assert (I : / 1 <= / m <= / (7 / 100)) by (split; apply Rinv_le_contravar; lra). rewrite Rinv_1 in I. unfold Rdiv in *. nra.
Qed.
(** It falls as the satellite rises. *)
Theorem C116_falls a b : 0 <= a -> a <= b -> b <= PI / 2 -> saastamoinen b <= saastamoinen a.
Proof.
  intros A B C. destruct (C116_troposphere a) as (-> & Z & _). destruct (C116_troposphere b) as (-> & _ & _). pose proof PI_RGT_0.
  assert (S : sin a <= sin b) by (apply sin_incr_1; lra). assert (M : Rmax (sin a) (7 / 100) <= Rmax (sin b) (7 / 100)) by (apply Rle_max_compat_r; exact S). assert (P : 7 / 100 <= Rmax (sin a) (7 / 100)) by apply Rmax_r.
  assert (I : / Rmax (sin b) (7 / 100) <= / Rmax (sin a) (7 / 100)) by (apply Rinv_le_contravar; lra). unfold Rdiv in *. nra.
Qed.
(** The ionosphere: between the night value and the peak, at least 1.49 m above the horizon. *)
Theorem C116_ionosphere p : 0 <= k_el p <= 1 / 2 -> 149 / 100 < k_base p /\ k_base p <= klobuchar p <= k_top p /\ k_top p <= 3383 / 1000 * c_m_s * (5 / 10 ^ 9 + k_amp p).
Proof.
  intros E. destruct (k_obl p E) as (O1 & O2). pose proof (klob_between p ltac:(lra)) as B. pose proof (k_amp_pos p). split; [unfold k_base, c_m_s; lra|]. split; [exact B|].
  unfold k_top. pose proof c_pos. replace (3383 / 1000 * c_m_s * (5 / 10 ^ 9 + k_amp p)) with (3383 / 1000 * (5 / 10 ^ 9 + k_amp p) * c_m_s) by ring. apply Rmult_le_compat_r; [lra|]. apply Rmult_le_compat_r; lra.
Qed.
Definition at_utc (p : klob) (t : R) : klob :=
  Klob (k_a0 p) (k_a1 p) (k_a2 p) (k_a3 p) (k_b0 p) (k_b1 p) (k_b2 p) (k_b3 p) (k_lat p) (k_lon p) (k_el p) (k_az p) t.
(** It repeats every day and peaks at 14:00 local time. *)
Theorem C116_daily p (k : Z) : klobuchar (at_utc p (k_utc p + 86400 * IZR k)) = klobuchar p.
Proof.
  assert (L : k_local (at_utc p (k_utc p + 86400 * IZR k)) = k_local p).
  { unfold k_local. change (k_lambda (at_utc p (k_utc p + 86400 * IZR k))) with (k_lambda p). cbn [k_utc at_utc]. cbn zeta.
    replace ((43200 * k_lambda p + (k_utc p + 86400 * IZR k)) / 86400) with ((43200 * k_lambda p + k_utc p) / 86400 + IZR k) by field. rewrite floor_shift. ring. }
  unfold klobuchar. rewrite L. reflexivity.
Qed.
Theorem C116_peak p : 0 <= k_el p <= 1 / 2 -> exists t, klobuchar (at_utc p t) = k_top p /\ k_local (at_utc p t) = 50400 /\ forall t', klobuchar (at_utc p t') <= klobuchar (at_utc p t).
Proof.
  intros E. exists (50400 - 43200 * k_lambda p). set (q := at_utc p _).
  assert (L : k_local q = 50400).
  { unfold k_local. change (k_lambda q) with (k_lambda p). cbn [k_utc q at_utc]. cbn zeta. replace (43200 * k_lambda p + (50400 - 43200 * k_lambda p)) with 50400 by ring. rewrite (floor_unique (50400 / 86400) 0) by lra. lra. }
  assert (T : klobuchar q = k_top p).
  { unfold klobuchar. rewrite L. cbn zeta. replace (2 * PI * (50400 - 50400) / k_period q) with 0 by (unfold Rdiv; ring). rewrite Rabs_R0. pose proof PI_RGT_0. destruct (rltb_r 0 (PI / 2)) as [_|X]; [|lra]. rewrite cos_0, Rmult_1_r. reflexivity. }
  split; [exact T|]. split; [exact L|]. intros t'. rewrite T. destruct (k_obl p E) as (O1 & _). exact (proj2 (klob_between (at_utc p t') ltac:(cbn; unfold k_obliquity in *; cbn; lra))).
Qed.
(** The longitude of the pierce point never divides by a small cosine. *)
Theorem C116_pierce p : k_lambda p = k_lon p + k_psi p * sin (k_az p * PI) / cos (k_phi p * PI) /\ 1 / 4 <= cos (k_phi p * PI).
Proof. pose proof (k_cos p) as C. split; [|exact C]. unfold k_lambda. rewrite Rabs_pos_eq by lra. destruct (rltb_r (1 / 10 ^ 9) (cos (k_phi p * PI))) as [_|X]; [reflexivity|lra]. Qed.
Example C116_case : 0 <= k_el (Klob (2 / 10 ^ 8) 0 0 0 90112 0 0 0 0 0 (1 / 4) 0 0) <= 1 / 2. Proof. cbn. lra. Qed.
Print Assumptions C116_troposphere.
Print Assumptions C116_falls.
Print Assumptions C116_ionosphere.
Print Assumptions C116_daily.
Print Assumptions C116_peak.
Print Assumptions C116_pierce.

(** * C117 *)
(** Code and phase at the same place, time and frequency see the ionosphere with opposite signs. *)
Theorem C117_code_phase c o n rx k : fst (phase_residual c o n rx k) - pseudorange_residual c o rx k = 2 * iono_of (g_iono o) (g_freq o) - IZR n * wavelength (g_freq o).
Proof. unfold phase_residual, pseudorange_residual. cbn [fst]. ring. Qed.
(** One more cycle takes one wavelength off the residual in metres and one off that in cycles. *)
Theorem C117_ambiguity c o n rx k : let '(m, y) := phase_residual c o n rx k in let '(m', y') := phase_residual c o (n + 1) rx k in
  m' = m - wavelength (g_freq o) /\ y' = y - 1 /\ m = y * wavelength (g_freq o).
Proof.
  unfold phase_residual. cbn iota. assert (W : 0 < wavelength (g_freq o)). { unfold wavelength. destruct (rltb_r 0 (g_freq o)); [|lra]. pose proof c_pos. now apply Rdiv_lt_0_compat. }
  rewrite plus_IZR. split; [ring|]. split; field; lra.
Qed.
(** A clock offset common to receiver and satellite drops out. *)
Theorem C117_clocks c o rx k b : pseudorange_residual c o rx (Clocks (cl_receiver k + b) (cl_satellite k + b)) = pseudorange_residual c o rx k.
Proof. unfold pseudorange_residual. cbn [cl_receiver cl_satellite]. ring. Qed.
(** The ionosphere-free combination of two frequencies does not see the ionospheric model, if each is the L1 frequency or more than 1 MHz from it. *)
Definition on_grid (f : R) : Prop := 0 < f /\ (f = f_l1 \/ 1000000 < Rabs (f - f_l1)).
Definition with_iono (o : gnss) (i : iono_model) (f : R) : gnss := Gnss (g_measured o) (g_sat o) (g_vel o) (g_trop o) i f.
Lemma iono_sq i f : on_grid f -> iono_of i f * (f * f) = iono_of i f_l1 * (f_l1 * f_l1).
Proof.
  intros (P & D). destruct i as [| |p]; cbn [iono_of]; [ring|ring|]. assert (L : 0 < f_l1) by (unfold f_l1; lra). destruct (rltb_r 0 f) as [_|X]; [|lra]. destruct (rltb_r 0 f_l1) as [_|X]; [|lra]. cbn [andb].
  replace (f_l1 - f_l1) with 0 by ring. rewrite Rabs_R0. destruct (rltb_r 1000000 0) as [X|_]; [lra|].
  destruct (rltb_r 1000000 (Rabs (f - f_l1))) as [A|A]; [field; lra|]. destruct D as [->|D]; [reflexivity|lra].
Qed.
Theorem C117_iono_free c o i f1 f2 rx k : on_grid f1 -> on_grid f2 ->
  f1 * f1 * pseudorange_residual c (with_iono o i f1) rx k - f2 * f2 * pseudorange_residual c (with_iono o i f2) rx k =
  (f1 * f1 - f2 * f2) * pseudorange_residual c (with_iono o IonoFree f1) rx k.
Proof.
  intros A B. pose proof (iono_sq i f1 A) as E1. pose proof (iono_sq i f2 B) as E2. unfold pseudorange_residual, with_iono. cbn [g_measured g_sat g_vel g_trop g_iono g_freq iono_of].
  set (u := iono_of i f1) in *. set (v := iono_of i f2) in *. nra.
Qed.
(** The Earth-rotation term is the first-order change of the range when the satellite's Earth-fixed place is turned by the
    Earth's rotation over the light time. *)
Theorem C117_sagnac sat rx : sat <> rx -> exists slope, derivable_pt_lim (fun a => norm (vminus (apply (r3 a) sat) rx)) 0 slope /\
  sagnac_km sat rx = slope * (omega_earth * (norm (vminus sat rx) / c_km_s)).
Proof.
  intros N. destruct sat as ((x, y), z), rx as ((p, q), r).
  set (g := fun a => (x * x + y * y + z * z + (p * p + q * q + r * r) - 2 * (z * r)) + (- 2 * (x * p + y * q)) * cos a + (- 2 * (y * p - x * q)) * sin a).
  assert (G : forall a, dot3 (vminus (apply (r3 a) (x, y, z)) (p, q, r)) (vminus (apply (r3 a) (x, y, z)) (p, q, r)) = g a).
  { intros a. unfold g. cbn. pose proof (sc a) as S. assert (E : cos a * cos a = 1 - sin a * sin a) by lra. ring_simplify. replace (cos a ^ 2) with (1 - sin a * sin a) by (rewrite <- E; ring). ring. }
  assert (Dg : derivable_pt_lim g 0 (2 * (x * q - y * p))).
  { unfold g. replace (2 * (x * q - y * p)) with (0 + (- 2 * (x * p + y * q)) * (- sin 0) + (- 2 * (y * p - x * q)) * cos 0) by (rewrite sin_0, cos_0; ring).
    apply (derivable_pt_lim_plus (fun a => _ + _ * cos a) (fun a => _ * sin a)); [|apply (derivable_pt_lim_scal sin), derivable_pt_lim_sin].
    apply (derivable_pt_lim_plus (fun _ => _) (fun a => _ * cos a)); [apply derivable_pt_lim_const|]. apply (derivable_pt_lim_scal cos), derivable_pt_lim_cos. }
  assert (G0 : g 0 = dot3 (vminus (x, y, z) (p, q, r)) (vminus (x, y, z) (p, q, r))) by (unfold g; rewrite sin_0, cos_0; cbn; ring).
  assert (P0 : 0 < norm (vminus (x, y, z) (p, q, r))). { apply norm_pos. intros E. apply N. cbn in E. assert (x - p = 0) by congruence. assert (y - q = 0) by congruence. assert (z - r = 0) by congruence. apply vec_eq; lra. }
  assert (Pg : 0 < g 0) by (rewrite G0, <- norm_sq; nra). set (n := norm (vminus (x, y, z) (p, q, r))) in *.
  assert (Sn : sqrt (g 0) = n) by (rewrite G0; reflexivity).
  exists (/ (2 * sqrt (g 0)) * (2 * (x * q - y * p))). split.
  - assert (F : derivable_pt_lim (comp sqrt g) 0 (/ (2 * sqrt (g 0)) * (2 * (x * q - y * p)))) by (apply derivable_pt_lim_comp; [exact Dg|now apply derivable_pt_lim_sqrt]).
    intros eps He. destruct (F eps He) as (del & Hd). exists del. intros h Hh Hl. specialize (Hd h Hh Hl). unfold comp in Hd. unfold norm at 1 2. rewrite !G. exact Hd.
  - rewrite Sn. unfold sagnac_km. assert (C : 0 < c_km_s) by (unfold c_km_s, c_m_s; lra). field. lra.
Qed.
(** The places are documented as inertial, at emission and at reception, where the path is the distance between them: a perfect
    measurement then leaves the Earth-rotation term as a residual, here 45 m. *)
Theorem C117_inertial_refuted : exists sat vel rx, dot3 sat vel = 0 /\
  forall c f, pseudorange_residual c (Gnss (geometric_m rx sat) sat vel TropNone IonoFree f) rx (Clocks 0 0) > 45.
Proof.
  exists (0, 26560, 0), (0, 0, 0), (7000, 0, 0). split; [cbn; ring|]. intros c f. unfold pseudorange_residual. cbn [g_measured g_sat g_vel g_trop g_iono g_freq iono_of trop_of cl_receiver cl_satellite].
  unfold relativistic_m, sagnac_km, omega_earth, c_km_s, c_m_s. cbn [dot3]. replace (-2 * (0 * 0 + 26560 * 0 + 0 * 0) * 1000 / c) with 0 by (unfold Rdiv; ring). lra.
Qed.
(** The relativistic term of the satellite's clock: the interface specification adds -2 r.v / c^2 to the clock, which takes that much off the range. The code adds
    it to the range: the two agree only where the position and velocity are perpendicular, whatever the unit of the constant. *)
Definition icd_term_m (pos vel : vec) : R := 2 * (dot3 pos vel * 1000000) / c_m_s.
Theorem C117_relativity_refuted c pos vel : 0 < c -> relativistic_m c pos vel = icd_term_m pos vel <-> dot3 pos vel = 0.
Proof.
  intros C. unfold relativistic_m, icd_term_m, c_m_s. pose proof (Rinv_0_lt_compat _ C) as I. set (d := dot3 pos vel). unfold Rdiv. split; [|intros ->; ring].
  intros E. assert (F : d * (2000 * / c + 2000000 * / 299792458) = 0) by lra. apply Rmult_integral in F as [F|F]; [exact F|]. assert (0 < / 299792458) by (apply Rinv_0_lt_compat; lra). lra.
Qed.
(** Its size is right only if the constant's own unit is kilometres per second; held in metres per second it comes out a thousand times too small. *)
Theorem C117_unit c pos vel : 0 < c -> dot3 pos vel <> 0 -> (Rabs (relativistic_m c pos vel) = Rabs (icd_term_m pos vel) <-> c = c_km_s) /\
  relativistic_m c_m_s pos vel = - icd_term_m pos vel / 1000.
Proof.
  intros C D. split; [|unfold relativistic_m, icd_term_m, c_m_s; field]. unfold relativistic_m, icd_term_m, c_km_s, c_m_s. set (d := dot3 pos vel) in *.
  replace (-2 * d * 1000 / c) with (- (d * (2000 / c))) by (field; lra). replace (2 * (d * 1000000) / 299792458) with (d * (2000000 / 299792458)) by field. rewrite Rabs_Ropp, !Rabs_mult.
  assert (P : 0 < 2000 / c) by (apply Rdiv_lt_0_compat; lra). rewrite (Rabs_pos_eq (2000 / c)), (Rabs_pos_eq (2000000 / _)) by lra. assert (A : Rabs d <> 0) by now apply Rabs_no_R0.
  split; [|intros ->; field].
  intros E. apply Rmult_eq_reg_l in E; [|exact A]. assert (F : 2000 = 2000000 / 299792458 * c) by (rewrite <- E; field; lra). lra.
Qed.
Example C117_case : on_grid f_l1 /\ on_grid 1227600000 /\ dot3 (26560, 0, 0) (1 / 10, 387 / 100, 0) <> 0.
Proof.
  split; [split; [unfold f_l1; lra|now left]|]. split; [split; [lra|right; unfold f_l1; rewrite Rabs_left by lra; lra]|]. cbn. lra.
Qed.
Print Assumptions C117_code_phase.
Print Assumptions C117_ambiguity.
Print Assumptions C117_clocks.
Print Assumptions C117_iono_free.
Print Assumptions C117_sagnac.
Print Assumptions C117_inertial_refuted.
Print Assumptions C117_relativity_refuted.
Print Assumptions C117_unit.

(** * C118 *)
(** The residual of a laser ranging point does not depend on the state it is evaluated at, so it cannot correct one. *)
Theorem C118_state_refuted o s s' k k' : slr_residual o s k = slr_residual o s' k'.
Proof. reflexivity. Qed.
(** The modelled two-way path is at least twice the distance to the satellite put back by one light time, and its delays are positive. *)
Theorem C118_delays o : 0 < s_wave o -> s_elev o < PI / 2 -> let rho := norm (vminus (s_station o) (refined o)) in
  2000 * rho < slr_modelled o - shapiro_slr (norm (s_station o)) (norm (refined o)) rho /\ 0 <= shapiro_slr (norm (s_station o)) (norm (refined o)) rho.
Proof.
  intros W E. cbn zeta. unfold slr_modelled. cbn zeta. set (rho := norm (vminus (s_station o) (refined o))). split.
  - assert (M : 0 < marini_murray (s_elev o) (s_wave o)); [|lra]. unfold marini_murray. cbn zeta. destruct (mm_den _ E) as (A & _ & B & _). pose proof (mm_factor_pos _ W). apply Rdiv_lt_0_compat; [nra|lra].
  - unfold shapiro_slr. cbn zeta. destruct (rltb_r 1 (norm (s_station o) * 1000 + norm (refined o) * 1000 - rho * 1000)) as [L|_]; [|lra]. pose proof two_gm_pos. pose proof (norm_nonneg (vminus (s_station o) (refined o))) as P. fold rho in P.
    assert (G : 0 <= ln ((norm (s_station o) * 1000 + norm (refined o) * 1000 + rho * 1000) / (norm (s_station o) * 1000 + norm (refined o) * 1000 - rho * 1000))); [|nra].
    rewrite <- ln_1. destruct (Req_dec rho 0) as [Z|Z]; [right; f_equal; rewrite Z; field; lra|]. left. apply ln_increasing; [lra|]. apply ratio_gt; lra.
Qed.
(** The troposphere: the same below three degrees, no more than its plain value over the sine, no less than that over the sine plus 0.032; less for longer wavelengths. *)
Theorem C118_troposphere e l : e < PI / 2 -> 0 < l -> let x := Rmax e three_deg in let z := mm_factor l * (2277 / 1000000 * (101325 / 100)) in
  marini_murray e l = marini_murray x l /\ z / (sin x + 32 / 1000) < marini_murray e l < z / sin x /\ (forall l', l < l' -> marini_murray e l' < marini_murray e l).
Proof.
  intros E L. cbn zeta. destruct (mm_den e E) as (S & _ & B). pose proof (mm_factor_pos l L) as F. split; [|split].
  - unfold marini_murray. cbn zeta. rewrite (Rmax_left (Rmax e three_deg) three_deg) by apply Rmax_r. reflexivity.
  - unfold marini_murray. cbn zeta. set (d := sin (Rmax e three_deg) + 14 / 10000 / (tan (Rmax e three_deg) + 45 / 1000)) in *. set (s := sin (Rmax e three_deg)) in *.
    assert (I1 : / (s + 32 / 1000) < / d) by (apply Rinv_lt_contravar; [nra|lra]). assert (I2 : / d < / s) by (apply Rinv_lt_contravar; [nra|lra]). unfold Rdiv at 1 4 5. set (z := mm_factor l * (2277 / 1000000 * (101325 / 100))). assert (Z : 0 < z) by (unfold z; nra). unfold Rdiv. split; nra.
  - intros l' H. unfold marini_murray. cbn zeta. set (d := sin (Rmax e three_deg) + 14 / 10000 / (tan (Rmax e three_deg) + 45 / 1000)) in *. assert (I : 0 < / d) by (apply Rinv_0_lt_compat; lra). pose proof (mm_factor_mono l l' L H). unfold Rdiv at 1 4. nra.
Qed.
(** The position is put back by one light time even if it was already given for the reflection: the path then differs from twice the
    distance by at most twice the way flown in that time, and for motion along the line of sight by exactly that. *)
Theorem C118_light_time o : Rabs (norm (vminus (s_station o) (refined o)) - norm (vminus (s_station o) (s_sat o))) <= norm (s_vel o) * norm (vminus (s_station o) (s_sat o)) / c_km_s.
Proof.
  unfold refined. set (l := vminus (s_station o) (s_sat o)). set (t := norm l / (c_m_s / 1000)).
  assert (E : vminus (s_station o) (vminus (s_sat o) (scale t (s_vel o))) = vplus l (scale t (s_vel o))).
  { unfold l. destruct (s_station o) as ((?, ?), ?), (s_sat o) as ((?, ?), ?), (s_vel o) as ((?, ?), ?). cbn. apply vec_eq; ring. }
  rewrite E. pose proof (norm_shift l (scale t (s_vel o))) as B. rewrite scale_norm in B. pose proof (norm_nonneg l). pose proof c_pos.
  assert (T : 0 <= t) by (unfold t; apply Rmult_le_pos; [assumption|left; apply Rinv_0_lt_compat; unfold c_m_s in *; lra]). rewrite (Rabs_pos_eq t T) in B.
  replace (norm (s_vel o) * norm l / c_km_s) with (t * norm (s_vel o)) by (unfold t, c_km_s; field; lra). exact B.
Qed.
Theorem C118_radial_refuted m st sat s e w : Rabs s <= c_km_s -> sat <> st -> let l := vminus sat st in let o := Slr m st sat (scale (s / norm l) l) e w in
  norm (vminus st (refined o)) = norm l * (1 - s / c_km_s).
Proof.
  intros S N. cbn zeta. unfold refined. cbn [s_station s_sat s_vel]. rewrite (minus_sym st sat). set (l := vminus sat st).
  assert (P : 0 < norm l). { apply norm_pos. intros E. apply N. unfold l in E. destruct sat as ((a, b), c), st as ((x, y), z). cbn in E. assert (a - x = 0) by congruence. assert (b - y = 0) by congruence. assert (c - z = 0) by congruence. apply vec_eq; lra. }
  assert (C : 0 < c_km_s) by (unfold c_km_s, c_m_s; lra). change (c_m_s / 1000) with c_km_s.
  assert (E : vminus st (vminus sat (scale (norm l / c_km_s) (scale (s / norm l) l))) = scale (- (1 - s / c_km_s)) l).
  { assert (K : norm l / c_km_s * (s / norm l) = s / c_km_s) by (field; lra). set (u := norm l / c_km_s) in *. set (v := s / norm l) in *. unfold l in *. clearbody u v. destruct sat as ((a, b), c), st as ((x, y), z). cbn. rewrite <- K. apply vec_eq; ring. }
  rewrite E, scale_norm, Rabs_Ropp, Rabs_pos_eq; [ring|]. apply abs_inv in S. assert (s / c_km_s <= 1) by (apply Rmult_le_reg_r with c_km_s; [exact C|]; unfold Rdiv; rewrite Rmult_assoc, Rinv_l by lra; lra). lra.
Qed.
Example C118_case : let o := Slr 0 (6378, 0, 0) (7378, 0, 0) (7, 0, 0) (PI / 4) (532 / 1000) in 0 < s_wave o /\ s_elev o < PI / 2 /\ Rabs 7 <= c_km_s.
Proof. cbn. pose proof PI_RGT_0. split; [lra|]. split; [lra|]. unfold c_km_s, c_m_s. rewrite Rabs_pos_eq; lra. Qed.
Print Assumptions C118_state_refuted.
Print Assumptions C118_delays.
Print Assumptions C118_troposphere.
Print Assumptions C118_light_time.
Print Assumptions C118_radial_refuted.

(** * C119 *)
(** One result for each observation within the tolerance of the epoch, in the order added. *)
Theorem C119_results {S} (batch : list (observation S)) epoch state : exists kept, residuals_with batch epoch state = map (fun o => o_residual o state) kept /\
  (forall a o b, batch = a ++ o :: b -> Rabs (o_epoch o - epoch) < 58 / 10 ^ 13 -> exists x y, kept = x ++ o :: y /\ length x = length (filter (fun o => epochs_match (o_epoch o) epoch) a)) /\
  (forall o, In o kept <-> In o batch /\ Rabs (o_epoch o - epoch) < 58 / 10 ^ 13).
Proof.
  exists (filter (fun o => epochs_match (o_epoch o) epoch) batch). split; [reflexivity|]. split.
  - intros a o b -> H. exists (filter (fun o => epochs_match (o_epoch o) epoch) a), (filter (fun o => epochs_match (o_epoch o) epoch) b). split; [|reflexivity]. rewrite filter_app. cbn [filter]. unfold epochs_match at 2. now destruct (rltb_r (Rabs (o_epoch o - epoch)) (58 / 10 ^ 13)).
  - intros o. rewrite filter_In. unfold epochs_match. destruct (rltb_r (Rabs (o_epoch o - epoch)) (58 / 10 ^ 13)); intuition discriminate.
Qed.
(** Julian dates of the years 1030 to 6770 held in f64 are whole multiples of 2^-31 days, some 40 microseconds: of these only equal ones match. *)
Theorem C119_tolerance_refuted (a b : Z) : epochs_match (IZR a / 2 ^ 31) (IZR b / 2 ^ 31) = true <-> a = b.
Proof.
  unfold epochs_match. destruct (rltb_r (Rabs (IZR a / 2 ^ 31 - IZR b / 2 ^ 31)) (58 / 10 ^ 13)) as [H|H]; split; intros E; try discriminate; try reflexivity.
  - replace (IZR a / 2 ^ 31 - IZR b / 2 ^ 31) with (IZR (a - b) / 2 ^ 31) in H by (rewrite minus_IZR; field; lra). apply Rabs_def2 in H. assert (U : IZR (a - b) < 1) by lra. assert (V : -1 < IZR (a - b)) by lra. apply lt_IZR in U. apply lt_IZR in V. lia.
  - exfalso. apply H. rewrite E. replace (IZR b / 2 ^ 31 - IZR b / 2 ^ 31) with 0 by ring. rewrite Rabs_R0. lra.
Qed.
(** The method that takes only an epoch never gives a residual: every match is reported as a light-time failure. *)
Theorem C119_epoch_only_refuted {S} (batch : list (observation S)) epoch r : In r (residuals_at_epoch batch epoch) -> r = inr LightTimeNotConverged.
Proof. unfold residuals_at_epoch. intros H. apply in_map_iff in H as (o & E & _). now symmetry. Qed.
Example C119_case : let o := @Observation unit 2451545 (fun _ => inl (Scalar 3)) in residuals_with [o; @Observation unit 2451546 (fun _ => inl (Scalar 4)); o] 2451545 tt = [inl (Scalar 3); inl (Scalar 3)].
Proof.
  cbn zeta. unfold residuals_with. cbn [filter o_epoch]. unfold epochs_match. replace (2451545 - 2451545) with 0 by ring. replace (2451546 - 2451545) with 1 by ring. rewrite Rabs_R0, Rabs_R1.
  destruct (rltb_r 0 (58 / 10 ^ 13)) as [_|X]; [|lra]. destruct (rltb_r 1 (58 / 10 ^ 13)) as [X|_]; [lra|]. reflexivity.
Qed.
Print Assumptions C119_results.
Print Assumptions C119_tolerance_refuted.
Print Assumptions C119_epoch_only_refuted.
