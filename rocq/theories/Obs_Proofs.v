(** Lemmas about observations. *)
From Coq Require Import Reals ZArith List Bool Permutation Lia Lra.
From Verif Require Import Base Mat3 Ang Geom_Model Geom_Proofs Obs_Model.
Import ListNotations.
Local Open Scope R_scope.

Lemma c_pos : 0 < c_m_s. Proof. unfold c_m_s. lra. Qed.
Lemma two_gm_pos : 0 < two_gm_c2. Proof. unfold two_gm_c2, gm_m3, c_m_s. lra. Qed.
Lemma abs_inv x a : Rabs x <= a -> - a <= x <= a.
Proof. intros H. pose proof (Rle_abs x). pose proof (Rle_abs (- x)) as N. rewrite Rabs_Ropp in N. lra. Qed.
Lemma norm_sq_le u : norm u * norm u = dot3 u u. Proof. apply norm_sq. Qed.
Lemma triangle u v : norm (vplus u v) <= norm u + norm v.
Proof.
  pose proof (norm_nonneg u) as A. pose proof (norm_nonneg v) as B. pose proof (norm_nonneg (vplus u v)) as C. pose proof (cauchy u v) as D. pose proof (Rle_abs (dot3 u v)) as E.
  apply Rsqr_incr_0; [|assumption|lra]. unfold Rsqr. rewrite norm_sq. replace (dot3 (vplus u v) (vplus u v)) with (dot3 u u + 2 * dot3 u v + dot3 v v) by (destruct u as ((?, ?), ?), v as ((?, ?), ?); cbn; ring).
  rewrite <- !norm_sq. nra.
Qed.
Lemma norm_neg u : norm (scale (-1) u) = norm u.
Proof. unfold norm. f_equal. destruct u as ((a, b), c). cbn. ring. Qed.
Lemma minus_plus u v : vminus u v = vplus u (scale (-1) v). Proof. destruct u as ((?, ?), ?), v as ((?, ?), ?). cbn. apply vec_eq; ring. Qed.
Lemma minus_norm u v : norm (vminus u v) <= norm u + norm v.
Proof. rewrite minus_plus. pose proof (triangle u (scale (-1) v)). rewrite norm_neg in H. exact H. Qed.
Lemma minus_sym u v : norm (vminus u v) = norm (vminus v u).
Proof. unfold norm. f_equal. destruct u as ((?, ?), ?), v as ((?, ?), ?). cbn. ring. Qed.
Lemma norm_shift u v : Rabs (norm (vplus u v) - norm u) <= norm v.
Proof.
  apply Rabs_le. pose proof (triangle u v). pose proof (triangle (vplus u v) (scale (-1) v)) as H2. rewrite norm_neg in H2.
  replace (vplus (vplus u v) (scale (-1) v)) with u in H2 by (destruct u as ((?, ?), ?), v as ((?, ?), ?); cbn; apply vec_eq; ring). lra.
Qed.
Lemma scale_norm k u : norm (scale k u) = Rabs k * norm u.
Proof.
  unfold norm. replace (dot3 (scale k u) (scale k u)) with (k * k * dot3 u u) by (destruct u as ((?, ?), ?); cbn; ring). rewrite sqrt_mult_alt by nra. rewrite <- sqrt_Rsqr_abs. reflexivity.
Qed.

(** ** Offsets *)
Definition los_part (off rx sat : vec) : R := dot3 off (vminus sat rx) / norm (vminus sat rx).
Lemma along_eq off range rx sat : rx <> sat -> along off range rx sat = range - 1000 * los_part off rx sat.
Proof.
  intros N. assert (P : 0 < norm (vminus sat rx)).
  { apply norm_pos. intros E. apply N. destruct rx as ((a, b), c), sat as ((x, y), z). cbn in E. assert (x - a = 0) by congruence. assert (y - b = 0) by congruence. assert (z - c = 0) by congruence. apply vec_eq; lra. }
  unfold along, los_part. destruct (reqb_r (norm (vminus sat rx)) 0) as [E|_]; [lra|]. destruct off as ((a, b), c). destruct (vminus sat rx) as ((x, y), z). cbn [dot3]. field. lra.
Qed.
Lemma along_same off range rx : along off range rx rx = range.
Proof.
  unfold along. replace (vminus rx rx) with (0, 0, 0) by (destruct rx as ((?, ?), ?); cbn; apply vec_eq; ring). unfold norm. cbn [dot3]. replace (0 * 0 + 0 * 0 + 0 * 0) with 0 by ring. rewrite sqrt_0. destruct (reqb_r 0 0); [reflexivity|contradiction].
Qed.
Lemma los_part_bound off rx sat : Rabs (los_part off rx sat) <= norm off.
Proof.
  unfold los_part. destruct (Req_dec (norm (vminus sat rx)) 0) as [E|E].
  - rewrite (norm_zero _ E). replace (dot3 off (0, 0, 0)) with 0 by (destruct off as ((?, ?), ?); cbn; ring). unfold Rdiv. rewrite Rmult_0_l, Rabs_R0. apply norm_nonneg.
  - pose proof (norm_nonneg (vminus sat rx)) as P. assert (Q : 0 < norm (vminus sat rx)) by lra. pose proof (cauchy off (vminus sat rx)) as C. unfold Rdiv. rewrite Rabs_mult, (Rabs_pos_eq (/ _)) by (left; now apply Rinv_0_lt_compat).
    apply Rmult_le_reg_r with (norm (vminus sat rx)); [exact Q|]. rewrite Rmult_assoc, Rinv_l by lra. lra.
Qed.
(** ** Shapiro *)
Lemma ln_gt_0 x : 1 < x -> 0 < ln x. Proof. intros H. rewrite <- ln_1. apply ln_increasing; lra. Qed.
Lemma ratio_gt s r : 0 < r -> r < s -> 1 < (s + r) / (s - r).
Proof. intros A B. apply Rmult_lt_reg_r with (s - r); [lra|]. unfold Rdiv. rewrite Rmult_assoc, Rinv_l by lra. lra. Qed.
Lemma ratio_mono s a b : 0 <= a -> a < b -> b < s -> (s + a) / (s - a) < (s + b) / (s - b).
Proof.
  intros A B C. apply Rmult_lt_reg_r with ((s - a) * (s - b)); [nra|]. replace ((s + a) / (s - a) * ((s - a) * (s - b))) with ((s + a) * (s - b)) by (field; lra).
  replace ((s + b) / (s - b) * ((s - a) * (s - b))) with ((s + b) * (s - a)) by (field; lra). nra.
Qed.
Lemma ratio_pos s a : Rabs a < s -> 0 < (s + a) / (s - a).
Proof. intros H. apply Rabs_def2 in H. apply Rdiv_lt_0_compat; lra. Qed.

(** ** Klobuchar *)
Lemma cos_low x : - (5 * PI / 12) <= x <= 5 * PI / 12 -> 1 / 4 <= cos x.
Proof.
  intros (A & B). pose proof PI_RGT_0.
  assert (E : 1 / 4 <= cos (5 * PI / 12)).
  { replace (5 * PI / 12) with (PI / 4 + PI / 6) by field. rewrite cos_plus, cos_PI4, sin_PI4, cos_PI6, sin_PI6.
    assert (S2 : 0 < sqrt 2) by (apply sqrt_lt_R0; lra). assert (Q2 : sqrt 2 * sqrt 2 = 2) by (apply sqrt_sqrt; lra). assert (Q3 : sqrt 3 * sqrt 3 = 3) by (apply sqrt_sqrt; lra). assert (S3 : 0 < sqrt 3) by (apply sqrt_lt_R0; lra).
    assert (L3 : 173 / 100 < sqrt 3) by nra. assert (U2 : sqrt 2 < 1415 / 1000) by nra. assert (L2 : 1414 / 1000 < sqrt 2) by nra.
    assert (I : 1 / sqrt 2 = sqrt 2 / 2) by (apply Rmult_eq_reg_r with (sqrt 2); [|lra]; replace (1 / sqrt 2 * sqrt 2) with 1 by (field; lra); lra). rewrite I. nra. }
  apply Rle_trans with (cos (5 * PI / 12)); [exact E|]. destruct (Rle_dec 0 x) as [P|P].
  - destruct (Req_dec x (5 * PI / 12)) as [->|D]; [lra|]. left. apply cos_decreasing_1; lra.
  - rewrite <- (cos_neg x). destruct (Req_dec (- x) (5 * PI / 12)) as [->|D]; [lra|]. left. apply cos_decreasing_1; lra.
Qed.
Lemma k_phi_range p : - (416 / 1000) <= k_phi p <= 416 / 1000. Proof. unfold k_phi. apply clamp_range. lra. Qed.
Lemma k_cos p : 1 / 4 <= cos (k_phi p * PI).
Proof. pose proof (k_phi_range p). pose proof PI_RGT_0. apply cos_low. split; nra. Qed.
Lemma floor_bounds x : rfloor x <= x < rfloor x + 1.
Proof. unfold rfloor. destruct (base_Int_part x) as (A & B). lra. Qed.
Lemma floor_unique x z : IZR z <= x < IZR z + 1 -> rfloor x = IZR z.
Proof.
  intros H. pose proof (floor_bounds x) as B. unfold rfloor in *. f_equal. assert (Int_part x < z + 1)%Z by (apply lt_IZR; rewrite plus_IZR; lra). assert (z < Int_part x + 1)%Z by (apply lt_IZR; rewrite plus_IZR; lra). lia.
Qed.
Lemma floor_shift x z : rfloor (x + IZR z) = rfloor x + IZR z.
Proof. unfold rfloor at 2. rewrite <- plus_IZR. apply floor_unique. rewrite plus_IZR. pose proof (floor_bounds x) as B. unfold rfloor in B. lra. Qed.
Lemma k_local_range p : 0 <= k_local p < 86400.
Proof. unfold k_local. cbn zeta. set (t := 43200 * k_lambda p + k_utc p). pose proof (floor_bounds (t / 86400)) as B. assert (E : t = t / 86400 * 86400) by field. nra. Qed.
Lemma k_period_pos p : 72000 <= k_period p. Proof. apply Rmax_r. Qed.
Lemma k_amp_pos p : 0 <= k_amp p. Proof. apply Rmax_r. Qed.
Lemma cube_mono a b : a <= b -> a ^ 3 <= b ^ 3.
Proof. intros H. assert (E : b ^ 3 - a ^ 3 = (b - a) * (a * a + a * b + b * b)) by ring. assert (0 <= a * a + a * b + b * b) by nra. nra. Qed.
Lemma k_obl p : 0 <= k_el p <= 1 / 2 -> 1 < k_obliquity p <= 3383 / 1000.
Proof.
  intros E. unfold k_obliquity. pose proof (cube_mono (53 / 100 - k_el p) (53 / 100) ltac:(lra)) as A. pose proof (cube_mono (3 / 100) (53 / 100 - k_el p) ltac:(lra)) as B.
  replace ((53 / 100) ^ 3) with (148877 / 1000000) in A by field. replace ((3 / 100) ^ 3) with (27 / 1000000) in B by field. lra.
Qed.
Definition k_top (p : klob) : R := k_obliquity p * (5 / 10 ^ 9 + k_amp p) * c_m_s.
Definition k_base (p : klob) : R := k_obliquity p * (5 / 10 ^ 9) * c_m_s.
Lemma klob_between p : 0 <= k_obliquity p -> k_base p <= klobuchar p <= k_top p.
Proof.
  intros O. unfold klobuchar, k_base, k_top. cbn zeta. pose proof c_pos. pose proof (k_amp_pos p) as A. set (x := 2 * PI * (k_local p - 50400) / k_period p).
  assert (V : 5 / 10 ^ 9 <= (if rltb (Rabs x) (PI / 2) then 5 / 10 ^ 9 + k_amp p * cos x else 5 / 10 ^ 9) <= 5 / 10 ^ 9 + k_amp p).
  { destruct (rltb_r (Rabs x) (PI / 2)) as [L|L]; [|lra]. apply Rabs_def2 in L. pose proof (COS_bound x). assert (0 < cos x) by (apply cos_gt_0; lra). nra. }
  set (v := if rltb _ _ then _ else _) in *. clearbody v. split; apply Rmult_le_compat_r; try lra; apply Rmult_le_compat_l; lra.
Qed.

(** ** Laser ranging *)
Lemma three_range : 0 < three_deg < PI / 2. Proof. unfold three_deg. pose proof PI_RGT_0. split; lra. Qed.
Lemma mm_factor_pos l : 0 < l -> 965 / 1000 < mm_factor l.
Proof.
  intros L. unfold mm_factor. assert (A : 0 < l * l) by nra. assert (B : 0 < l ^ 4) by (apply pow_lt; exact L).
  pose proof (Rinv_0_lt_compat _ A). pose proof (Rinv_0_lt_compat _ B). unfold Rdiv. nra.
Qed.
Lemma mm_factor_mono a b : 0 < a -> a < b -> mm_factor b < mm_factor a.
Proof.
  intros A B. unfold mm_factor, Rdiv. assert (P : 0 < a * a) by nra. assert (Q : a * a < b * b) by nra. assert (P4 : 0 < a ^ 4) by (now apply pow_lt). assert (Q4 : a ^ 4 < b ^ 4) by (replace (a ^ 4) with (a * a * (a * a)) by ring; replace (b ^ 4) with (b * b * (b * b)) by ring; nra).
  assert (I : / (b * b) < / (a * a)) by (apply Rinv_lt_contravar; [apply Rmult_lt_0_compat; nra|exact Q]). assert (I4 : / b ^ 4 < / a ^ 4) by (apply Rinv_lt_contravar; [apply Rmult_lt_0_compat; lra|exact Q4]). lra.
Qed.
Lemma mm_den e : e < PI / 2 -> let x := Rmax e three_deg in 0 < sin x /\ 0 < tan x /\ sin x < sin x + 14 / 10000 / (tan x + 45 / 1000) < sin x + 32 / 1000.
Proof.
  intros H. cbn zeta. pose proof three_range as T. pose proof PI_RGT_0. set (x := Rmax e three_deg). assert (X : 0 < x < PI / 2) by (unfold x; split; [apply Rlt_le_trans with three_deg; [lra|apply Rmax_r]|apply Rmax_lub_lt; lra]).
  assert (S : 0 < sin x) by (apply sin_gt_0; lra). assert (C : 0 < cos x) by (apply cos_gt_0; lra). assert (Tn : 0 < tan x) by (unfold tan; now apply Rdiv_lt_0_compat).
  split; [exact S|]. split; [exact Tn|]. assert (I : 0 < / (tan x + 45 / 1000)) by (apply Rinv_0_lt_compat; lra). assert (J : / (tan x + 45 / 1000) < / (45 / 1000)) by (apply Rinv_lt_contravar; [nra|lra]). unfold Rdiv in *. split; [nra|]. lra.
Qed.
