(** C154 airmass and airglow, C155 extinction. *)
From Coq Require Import Reals List Lra Lia.
From Verif Require Import Base Geom_Model Air_Model Air_Props.
Local Open Scope R_scope.

(** * C154 Airmass *)
Lemma cos_fall z z' : 0 <= z < z' -> z' <= PI -> cos z' < cos z.
Proof. intros (A & B) C. apply cos_decreasing_1; lra. Qed.
Lemma young_fall c d : 0 <= c < d ->
  (1002432 / 1000000 * d * d + 148386 / 1000000 * d + 96467 / 10000000) / (d * d * d + 149864 / 1000000 * d * d + 102963 / 10000000 * d + 303978 / 1000000000) <
  (1002432 / 1000000 * c * c + 148386 / 1000000 * c + 96467 / 10000000) / (c * c * c + 149864 / 1000000 * c * c + 102963 / 10000000 * c + 303978 / 1000000000).
Proof.
  intros (A & B). set (t := d - c). assert (T : 0 < t) by (unfold t; lra). replace d with (c + t) by (unfold t; ring). clearbody t. clear B.
  assert (DP : forall x, 0 <= x -> 0 < x * x * x + 149864 / 1000000 * x * x + 102963 / 10000000 * x + 303978 / 1000000000).
  { intros x X. assert (0 <= x * x) by (now apply Rmult_le_pos). assert (0 <= x * x * x) by (now apply Rmult_le_pos). lra. }
  pose proof (DP c A) as D1. pose proof (DP (c + t) ltac:(lra)) as D2. set (Dc := c * c * c + _ + _ + _) in *. set (Dt := (c + t) * (c + t) * (c + t) + _ + _ + _) in *.
  apply (Rmult_lt_reg_r (Dt * Dc)); [now apply Rmult_lt_0_compat|].
  match goal with |- ?n1 / _ * _ < ?n2 / _ * _ => replace (n1 / Dt * (Dt * Dc)) with (n1 * Dc) by (field; lra); replace (n2 / Dc * (Dt * Dc)) with (n2 * Dt) by (field; lra) end.
  unfold Dc, Dt. 
  assert (P2 : 0 <= c * c) by (now apply Rmult_le_pos). assert (P3 : 0 <= c * c * c) by (now apply Rmult_le_pos). assert (P4 : 0 <= c * c * c * c) by (now apply Rmult_le_pos).
  assert (T2 : 0 < t * t) by (now apply Rmult_lt_0_compat). assert (T3 : 0 < t * t * t) by (now apply Rmult_lt_0_compat).
  assert (Q : forall u v, 0 <= u -> 0 < v -> 0 <= u * v) by (intros; apply Rmult_le_pos; lra).
  pose proof (Q _ _ A T). pose proof (Q _ _ A T2). pose proof (Q _ _ A T3). pose proof (Q _ _ P2 T). pose proof (Q _ _ P2 T2). pose proof (Q _ _ P2 T3). pose proof (Q _ _ P3 T). pose proof (Q _ _ P3 T2). pose proof (Q _ _ P4 T).
  lra.
Qed.
Lemma roz_den c d : 0 <= c < d -> 0 < c + 25 / 1000 * exp (- 11 * c) < d + 25 / 1000 * exp (- 11 * d).
Proof.
  intros (A & B). pose proof (exp_pos (- 11 * c)) as P. split; [lra|].
  assert (E : exp (- 11 * d) = exp (- 11 * c) * exp (- 11 * (d - c))) by (rewrite <- exp_plus; f_equal; ring). rewrite E.
  assert (X : 1 + - 11 * (d - c) < exp (- 11 * (d - c))) by (apply exp_ineq1; lra).
  assert (U : exp (- 11 * c) <= 1) by (destruct (Req_dec c 0) as [->|]; [rewrite Rmult_0_r, exp_0; lra|left; rewrite <- exp_0; apply exp_increasing; lra]).
  assert (Y : exp (- 11 * c) * (1 + - 11 * (d - c)) < exp (- 11 * c) * exp (- 11 * (d - c))) by (now apply Rmult_lt_compat_l).
  assert (Z : exp (- 11 * c) * (d - c) <= 1 * (d - c)) by (apply Rmult_le_compat_r; lra). lra.
Qed.
Lemma ks_base s : -1 <= s <= 1 -> 4 / 100 <= 1 - 96 / 100 * s * s <= 1.
Proof. intros H. assert (0 <= s * s) by (apply Rle_0_sqr). assert (0 <= (1 - s) * (1 + s)) by (apply Rmult_le_pos; lra). lra. Qed.
Lemma ks_sqrt z : krisciunas_schaefer z = / sqrt (1 - 96 / 100 * sin z * sin z).
Proof.
  unfold krisciunas_schaefer. pose proof (SIN_bound z) as B. pose proof (ks_base _ B). rewrite Rpower_Ropp, <- Rpower_sqrt by lra. f_equal. f_equal. lra.
Qed.
(** each of the four grows strictly from the zenith to the horizon (the plane-parallel one short of it) *)
Theorem C154_grows z z' : 0 <= z < z' -> z' <= PI / 2 ->
  young z < young z' /\ rozenberg z < rozenberg z' /\ krisciunas_schaefer z < krisciunas_schaefer z' /\ (z' < PI / 2 -> plane_parallel z < plane_parallel z').
Proof.
  intros H H'. pose proof PI_RGT_0 as P. assert (C : cos z' < cos z) by (apply cos_fall; lra). assert (C0 : 0 <= cos z') by (apply cos_ge_0; lra). repeat split.
  - unfold young. apply young_fall. lra.
  - unfold rozenberg. pose proof (roz_den (cos z') (cos z) ltac:(lra)) as (A & B). unfold Rdiv. rewrite !Rmult_1_l. apply Rinv_lt_contravar; [apply Rmult_lt_0_compat; lra|exact B].
  - rewrite !ks_sqrt. pose proof (SIN_bound z) as B1. pose proof (SIN_bound z') as B2. pose proof (ks_base _ B1). pose proof (ks_base _ B2).
    assert (S : sin z < sin z') by (apply sin_increasing_1; lra). assert (S0 : 0 <= sin z) by (apply sin_ge_0; lra).
    assert (Q : sin z * sin z < sin z' * sin z') by (apply Rmult_le_0_lt_compat; lra).
    assert (SQ : 0 < sqrt (1 - 96 / 100 * sin z' * sin z')) by (apply sqrt_lt_R0; lra).
    assert (SL : sqrt (1 - 96 / 100 * sin z' * sin z') < sqrt (1 - 96 / 100 * sin z * sin z)) by (apply sqrt_lt_1; lra).
    apply Rinv_lt_contravar; [|exact SL]. apply Rmult_lt_0_compat; lra.
  - intros L. assert (0 < cos z') by (apply cos_gt_0; lra). unfold plane_parallel, Rdiv. rewrite !Rmult_1_l. apply Rinv_lt_contravar; [apply Rmult_lt_0_compat; lra|exact C].
Qed.
Lemma exp_times n x : exp (INR n * x) = exp x ^ n.
Proof. induction n as [|n IH]; [cbn; now rewrite Rmult_0_l, exp_0|]. rewrite S_INR, Rmult_plus_distr_r, Rmult_1_l, exp_plus, IH. cbn. ring. Qed.
(** one at the zenith (to a part in a million), never more than the plane-parallel value (to a part in a million), and
    finite at the horizon: 5, 40 and just under 32 *)
Theorem C154_values : plane_parallel 0 = 1 /\ krisciunas_schaefer 0 = 1 /\ Rabs (young 0 - 1) < 1 / 1000000 /\ Rabs (rozenberg 0 - 1) < 1 / 1000000 /\
  krisciunas_schaefer (PI / 2) = 5 /\ rozenberg (PI / 2) = 40 /\ 31 < young (PI / 2) < 32.
Proof.
  assert (K0 : krisciunas_schaefer 0 = 1) by (rewrite ks_sqrt, sin_0, !Rmult_0_r, Rminus_0_r, sqrt_1; lra).
  assert (K1 : krisciunas_schaefer (PI / 2) = 5) by (rewrite ks_sqrt, sin_PI2; replace (1 - 96 / 100 * 1 * 1) with ((1 / 5) * (1 / 5)) by lra; rewrite sqrt_square; lra).
  unfold plane_parallel, young, rozenberg. rewrite cos_0, cos_PI2. split; [lra|]. split; [exact K0|]. split; [apply Rabs_def1; lra|]. split.
  - pose proof (exp_pos (- 11 * 1)) as E. assert (E2 : exp (- 11 * 1) < 38 / 1000000).
    { assert (X : exp (- 11 * 1) = / exp (INR 88 * (1 / 8))) by (rewrite <- exp_Ropp; f_equal; cbn [INR]; field). rewrite X, exp_times. pose proof (exp_ineq1 (1 / 8) ltac:(lra)) as A8.
      assert (B : (1 + 1 / 8) ^ 88 <= exp (1 / 8) ^ 88) by (apply pow_incr; lra). assert (C : 1000000 / 38 < (1 + 1 / 8) ^ 88) by (cbn [pow]; lra).
      replace (38 / 1000000) with (/ (1000000 / 38)) by lra. apply Rinv_lt_contravar; [apply Rmult_lt_0_compat; lra|lra]. }
    set (x := exp (- 11 * 1)) in *. assert (Y : 1 / (1 + 25 / 1000 * x) - 1 = - (25 / 1000 * x / (1 + 25 / 1000 * x))) by (field; lra). rewrite Y, Rabs_Ropp, Rabs_pos_eq by (left; apply Rdiv_lt_0_compat; lra).
    apply (Rmult_lt_reg_r (1 + 25 / 1000 * x)); [lra|]. unfold Rdiv at 1. rewrite Rmult_assoc, Rinv_l by lra. lra.
  - split; [exact K1|]. split; [rewrite Rmult_0_r, exp_0; lra|lra].
Qed.
(** none is more than the plane-parallel value, but for a part in a million in one case *)
Theorem C154_bounded z : 0 <= z < PI / 2 -> rozenberg z < plane_parallel z /\ krisciunas_schaefer z <= plane_parallel z /\ young z < plane_parallel z * (1 + 1 / 1000000).
Proof.
  intros H. pose proof PI_RGT_0 as P. assert (C : 0 < cos z) by (apply cos_gt_0; lra). pose proof (COS_bound z) as (_ & C1). unfold plane_parallel. repeat split.
  - unfold rozenberg, Rdiv. rewrite !Rmult_1_l. pose proof (exp_pos (- 11 * cos z)) as E. apply Rinv_lt_contravar; [apply Rmult_lt_0_compat; lra|lra].
  - rewrite ks_sqrt. unfold Rdiv. rewrite Rmult_1_l. pose proof (sin2_cos2 z) as S. unfold Rsqr in S. apply Rinv_le_contravar; [exact C|].
    rewrite <- (sqrt_square (cos z)) at 1 by lra. apply sqrt_le_1_alt. pose proof (Rle_0_sqr (sin z)) as Q. unfold Rsqr in Q. lra.
  - unfold young. set (c := cos z) in *. clearbody c. assert (P2 : 0 < c * c) by (now apply Rmult_lt_0_compat). assert (P3 : 0 < c * c * c) by (now apply Rmult_lt_0_compat).
    set (D := c * c * c + _ + _ + _). assert (DP : 0 < D) by (unfold D; lra). apply (Rmult_lt_reg_r (D * c)); [now apply Rmult_lt_0_compat|].
    match goal with |- ?n / D * _ < _ => replace (n / D * (D * c)) with (n * c) by (field; lra) end. replace (1 / c * (1 + 1 / 1000000) * (D * c)) with ((1 + 1 / 1000000) * D) by (field; lra). unfold D.
    assert (c * c * c <= c) by (assert (0 <= c * ((1 - c) * (1 + c))) by (apply Rmult_le_pos; [lra|apply Rmult_le_pos; lra]); lra).
    assert (c * c * c <= c * c) by (assert (0 <= c * c * (1 - c)) by (apply Rmult_le_pos; lra); lra). lra.
Qed.
(** below the horizon the default formula turns back: it repeats the values above it, down to one at the nadir *)
Theorem C154_below_refuted z : krisciunas_schaefer (PI - z) = krisciunas_schaefer z /\ krisciunas_schaefer PI = 1.
Proof. split; [rewrite !ks_sqrt, sin_PI_x; reflexivity|]. rewrite ks_sqrt, sin_PI, !Rmult_0_r, Rminus_0_r, sqrt_1. lra. Qed.
(** the van Rhijn factor is the slant of the line of sight through the emitting shell: the reciprocal of the cosine of
    the angle between the line of sight and the vertical, at the point where it meets the shell *)
Theorem C154_van_rhijn z h r t : 0 < h -> 0 < r -> 0 <= t ->
  let x := t * sin z in let y := r + t * cos z in x * x + y * y = (r + h) * (r + h) ->
  exists v, van_rhijn z h r = Some (Some v) /\ 1 <= v /\ v * ((sin z * x + cos z * y) / (r + h)) = 1.
Proof.
  intros H Rp T x y M. unfold van_rhijn. destruct (Rle_dec h 0); [lra|]. destruct (Rle_dec r 0); [lra|]. pose proof (sin2_cos2 z) as S. unfold Rsqr in S.
  set (q := r / (r + h) * sin z). assert (W : sin z * x + cos z * y = t + r * cos z) by (unfold x, y; replace (sin z * (t * sin z) + cos z * (r + t * cos z)) with (t * (sin z * sin z + cos z * cos z) + r * cos z) by ring; rewrite S; ring).
  assert (Q : ((t + r * cos z) / (r + h)) * ((t + r * cos z) / (r + h)) = 1 - q * q).
  { unfold q. assert (E : (t + r * cos z) * (t + r * cos z) = (r + h) * (r + h) - r * r * (sin z * sin z)).
    { rewrite <- M. unfold x, y. replace (sin z * sin z) with (1 - cos z * cos z) by lra. transitivity (t * t * (sin z * sin z + cos z * cos z) + 2 * t * r * cos z + r * r * (cos z * cos z)); [rewrite S; ring|ring]. }
    replace ((t + r * cos z) / (r + h) * ((t + r * cos z) / (r + h))) with ((t + r * cos z) * (t + r * cos z) / ((r + h) * (r + h))) by (field; lra). rewrite E. field. lra. }
  assert (QL : q * q < 1).
  { unfold q. replace (r / (r + h) * sin z * (r / (r + h) * sin z)) with ((r / (r + h) * (r / (r + h))) * (sin z * sin z)) by ring.
    assert (A : 0 < r / (r + h) < 1) by (split; [apply Rdiv_lt_0_compat; lra|]; apply (Rmult_lt_reg_r (r + h)); [lra|]; unfold Rdiv; rewrite Rmult_assoc, Rinv_l by lra; lra).
    assert (B : r / (r + h) * (r / (r + h)) < 1) by (apply Rlt_trans with (1 * (r / (r + h))); [apply Rmult_lt_compat_r; lra|lra]).
    pose proof (Rle_0_sqr (sin z)) as S0. pose proof (Rle_0_sqr (cos z)) as C0. unfold Rsqr in *. assert (0 < r / (r + h) * (r / (r + h))) by (apply Rmult_lt_0_compat; lra).
    apply Rle_lt_trans with (r / (r + h) * (r / (r + h)) * 1); [apply Rmult_le_compat_l; lra|lra]. }
  assert (Q0 : 0 <= q * q) by apply Rle_0_sqr. destruct (Rle_dec (1 - q * q) 0); [lra|]. exists (/ sqrt (1 - q * q)). split; [reflexivity|].
  assert (SP : 0 < sqrt (1 - q * q)) by (apply sqrt_lt_R0; lra). split.
  - apply Rle_trans with (/ 1); [lra|]. apply Rinv_le_contravar; [exact SP|]. apply Rle_trans with (sqrt 1); [apply sqrt_le_1_alt; lra|rewrite sqrt_1; lra].
  - rewrite W. assert (WP : 0 <= t + r * cos z).
    { destruct (Rle_lt_dec 0 (t + r * cos z)) as [|L]; [assumption|exfalso]. assert (E : t * t + 2 * t * r * cos z + r * r = (r + h) * (r + h)).
      { rewrite <- M. unfold x, y. transitivity (t * t * (sin z * sin z + cos z * cos z) + 2 * t * r * cos z + r * r); [rewrite S; ring|ring]. }
      assert (0 <= t * - (t + r * cos z)) by (apply Rmult_le_pos; lra). assert (0 <= t * t) by (apply Rle_0_sqr). assert (0 < h * (2 * r + h)) by (apply Rmult_lt_0_compat; lra). lra. }
    rewrite <- Q, sqrt_square by (apply Rmult_le_pos; [exact WP|left; apply Rinv_0_lt_compat; lra]). apply Rinv_l.
    intros Z. rewrite Z, Rmult_0_l in Q. lra.
Qed.
Example C154_case : exists t, let x := t * sin (PI / 2) in let y := 3 + t * cos (PI / 2) in x * x + y * y = (3 + 2) * (3 + 2) /\ van_rhijn (PI / 2) 2 3 = Some (Some (5 / 4)).
Proof.
  exists 4. cbv zeta. rewrite sin_PI2, cos_PI2. split; [ring|]. unfold van_rhijn. destruct (Rle_dec 2 0); [lra|]. destruct (Rle_dec 3 0); [lra|]. rewrite sin_PI2.
  replace (1 - 3 / (3 + 2) * 1 * (3 / (3 + 2) * 1)) with (4 / 5 * (4 / 5)) by field. destruct (Rle_dec (4 / 5 * (4 / 5)) 0); [lra|]. rewrite sqrt_square by lra. do 2 f_equal. field.
Qed.

(** * C155 Extinction *)
(** transmissions multiply as depths add and as airmasses add; with depth and airmass not negative it is a fraction *)
Theorem C155_transmission tau tau' x x' : transmission (tau + tau') x = transmission tau x * transmission tau' x /\ transmission tau (x + x') = transmission tau x * transmission tau x' /\
  transmission 0 x = 1 /\ (0 <= tau -> 0 <= x -> 0 < transmission tau x <= 1).
Proof.
  unfold transmission. repeat split; try (rewrite <- exp_plus; f_equal; ring); [rewrite Ropp_0, Rmult_0_l; apply exp_0|apply exp_pos|].
  assert (0 <= tau * x) by (now apply Rmult_le_pos). destruct (Req_dec (tau * x) 0) as [E|N]; [replace (- tau * x) with 0 by lra; rewrite exp_0; lra|left; rewrite <- exp_0; apply exp_increasing; lra].
Qed.
Lemma tau_form l : 0 < l -> rayleigh_tau_sea l * (85968563 / 1000000 * (l * l) - l - 27059889 / 10000000000) = 2152 / 1000000 * (90230850 / 100000000 * (l * l) - 10455996 / 10000000 * l + 34129061 / 100000) \/
  85968563 / 1000000 * (l * l) - l - 27059889 / 10000000000 = 0.
Proof.
  intros L. destruct (Req_dec (85968563 / 1000000 * (l * l) - l - 27059889 / 10000000000) 0) as [E|N]; [now right|left]. unfold rayleigh_tau_sea. cbv zeta. 
  replace (1 + 27059889 / 10000000000 * (1 / l) - 85968563 / 1000000 * l) with (- (85968563 / 1000000 * (l * l) - l - 27059889 / 10000000000) / l) by (field; lra).
  replace (10455996 / 10000000 - 34129061 / 100000 * (1 / l) - 90230850 / 100000000 * l) with (- (90230850 / 100000000 * (l * l) - 10455996 / 10000000 * l + 34129061 / 100000) / l) by (field; lra).
  set (A := 85968563 / 1000000 * (l * l) - l - 27059889 / 10000000000) in *. set (B := 90230850 / 100000000 * (l * l) - 10455996 / 10000000 * l + 34129061 / 100000). field. split; lra.
Qed.
Lemma num_pos l : 0 < 90230850 / 100000000 * (l * l) - 10455996 / 10000000 * l + 34129061 / 100000.
Proof. pose proof (Rle_0_sqr (l - 10455996 / 18046170)) as Q. unfold Rsqr in Q. lra. Qed.
Lemma den_pos l : 14 / 1000 <= l -> 0 < 85968563 / 1000000 * (l * l) - l - 27059889 / 10000000000.
Proof. intros H. assert (0 <= (l - 14 / 1000) * l) by (apply Rmult_le_pos; lra). lra. Qed.
Lemma tau_pos l : 14 / 1000 <= l -> 0 < rayleigh_tau_sea l.
Proof.
  intros H. pose proof (den_pos l H) as D. pose proof (num_pos l) as N. destruct (tau_form l ltac:(lra)) as [E|E]; [|lra].
  destruct (Rle_lt_dec (rayleigh_tau_sea l) 0) as [L|L]; [exfalso|exact L]. assert (0 <= - rayleigh_tau_sea l * (85968563 / 1000000 * (l * l) - l - 27059889 / 10000000000)) by (apply Rmult_le_pos; lra). lra.
Qed.
(** from 119 nm upwards molecules only dim; below 118 nm the formula brightens: the depth is negative and more light
    arrives than was sent *)
Theorem C155_molecules nm p h s x : 119 <= nm -> 0 < p -> 0 < x -> 0 < rayleigh_optical_depth nm p h s /\ transmission (rayleigh_optical_depth nm p h s) x < 1.
Proof.
  intros H P X. assert (T : 0 < rayleigh_optical_depth nm p h s).
  { unfold rayleigh_optical_depth. cbv zeta. apply Rmult_lt_0_compat; [|apply exp_pos]. apply Rmult_lt_0_compat; [lra|]. apply tau_pos. 
    assert (119 / 1000 * (119 / 1000) <= nm / 1000 * (nm / 1000)) by (apply Rmult_le_compat; lra). lra. }
  split; [exact T|]. unfold transmission. rewrite <- exp_0. apply exp_increasing. assert (0 < rayleigh_optical_depth nm p h s * x) by (now apply Rmult_lt_0_compat). lra.
Qed.
Theorem C155_brightens_refuted nm p h s x : 0 < nm -> nm <= 117 -> 0 < p -> 0 < x -> 1 < transmission (rayleigh_optical_depth nm p h s) x.
Proof.
  intros N0 N1 P X. set (l := nm / 1000 * (nm / 1000)). assert (L0 : 0 < l) by (unfold l; apply Rmult_lt_0_compat; lra). assert (L1 : l <= 13689 / 1000000) by (unfold l; assert (nm / 1000 * (nm / 1000) <= 117 / 1000 * (117 / 1000)) by (apply Rmult_le_compat; lra); lra).
  assert (T : rayleigh_tau_sea l < 0).
  { pose proof (num_pos l) as Np. assert (D : 85968563 / 1000000 * (l * l) - l - 27059889 / 10000000000 < 0) by (assert (0 <= l * (13689 / 1000000 - l)) by (apply Rmult_le_pos; lra); lra).
    destruct (tau_form l L0) as [E|E]; [|lra]. destruct (Rle_lt_dec 0 (rayleigh_tau_sea l)) as [Q|Q]; [exfalso|exact Q].
    assert (0 <= rayleigh_tau_sea l * - (85968563 / 1000000 * (l * l) - l - 27059889 / 10000000000)) by (apply Rmult_le_pos; lra). lra. }
  unfold transmission, rayleigh_optical_depth. cbv zeta. fold l. rewrite <- exp_0. apply exp_increasing.
  assert (0 < p / (101325 / 100) * - rayleigh_tau_sea l * exp (- h / s) * x) by (apply Rmult_lt_0_compat; [|exact X]; apply Rmult_lt_0_compat; [|apply exp_pos]; apply Rmult_lt_0_compat; lra). lra.
Qed.
(** and redder light is dimmed less, from 119 nm to 25 micrometres; the aerosol depth falls with wavelength too when its
    exponent is negative, as at all the built-in sites *)
Lemma tau_fall l m : 14 / 1000 <= l < m -> m <= 625 -> rayleigh_tau_sea m < rayleigh_tau_sea l.
Proof.
  intros (A & B) C. pose proof (den_pos l A) as D1. pose proof (den_pos m ltac:(lra)) as D2.
  destruct (tau_form l ltac:(lra)) as [E1|E1]; [|lra]. destruct (tau_form m ltac:(lra)) as [E2|E2]; [|lra].
  set (d1 := 85968563 / 1000000 * (l * l) - l - 27059889 / 10000000000) in *. set (d2 := 85968563 / 1000000 * (m * m) - m - 27059889 / 10000000000) in *.
  apply (Rmult_lt_reg_r (d1 * d2)); [now apply Rmult_lt_0_compat|]. replace (rayleigh_tau_sea m * (d1 * d2)) with (rayleigh_tau_sea m * d2 * d1) by ring. replace (rayleigh_tau_sea l * (d1 * d2)) with (rayleigh_tau_sea l * d1 * d2) by ring. rewrite E1, E2. clear E1 E2.
  unfold d1, d2. 
  (* the difference is (m - l) times a form that is linear in each *)
  assert (F : 0 < (m - l) * (34129061 / 100000 * (85968563 / 1000000) * (l + m) - 34129061 / 100000 - (10455996 / 10000000 * (85968563 / 1000000) - 90230850 / 100000000) * (l * m) + 90230850 / 100000000 * (27059889 / 10000000000) * (l + m) - 10455996 / 10000000 * (27059889 / 10000000000))).
  { apply Rmult_lt_0_compat; [lra|]. assert (0 <= (625 - m) * (l - 14 / 1000)) by (apply Rmult_le_pos; lra). assert (0 <= (625 - l) * (m - 14 / 1000)) by (apply Rmult_le_pos; lra). assert (0 <= (l - 14 / 1000) * (m - 14 / 1000)) by (apply Rmult_le_pos; lra). assert (0 <= (625 - l) * (625 - m)) by (apply Rmult_le_pos; lra). lra. }
  lra.
Qed.
Theorem C155_redder a nm nm' : 119 <= nm < nm' -> nm' <= 25000 -> 0 < surface_pressure a -> 0 < tau0 (mie a) -> 0 < lambda_ref (mie a) -> alpha (mie a) < 0 -> optical_depth a nm' < optical_depth a nm.
Proof.
  intros (A & B) C P T L N. unfold optical_depth. apply Rplus_lt_compat.
  - unfold rayleigh_optical_depth. cbv zeta. apply Rmult_lt_compat_r; [apply exp_pos|]. apply Rmult_lt_compat_l; [lra|]. apply tau_fall.
    + split; [assert (119 / 1000 * (119 / 1000) <= nm / 1000 * (nm / 1000)) by (apply Rmult_le_compat; lra); lra|]. apply Rmult_le_0_lt_compat; lra.
    + assert (nm' / 1000 * (nm' / 1000) <= 25 * 25) by (apply Rmult_le_compat; lra). lra.
  - unfold mie_optical_depth. apply Rmult_lt_compat_l; [exact T|]. unfold Rpower. apply exp_increasing.
    assert (I : ln (nm / lambda_ref (mie a)) < ln (nm' / lambda_ref (mie a))) by (apply ln_increasing; [apply Rdiv_lt_0_compat; lra|apply Rmult_lt_compat_r; [now apply Rinv_0_lt_compat|exact B]]).
    assert (0 < - alpha (mie a) * (ln (nm' / lambda_ref (mie a)) - ln (nm / lambda_ref (mie a)))) by (apply Rmult_lt_0_compat; lra). lra.
Qed.
(** altitude counts twice: at sites whose pressure follows the same scale height the molecular depth falls with twice
    the logarithm of the pressure, although it is proportional to the mass of air above, that is to the pressure alone *)
Theorem C155_altitude_refuted nm h s : 119 <= nm -> 0 < s -> 0 < h -> let p := 101325 / 100 * exp (- h / s) in
  rayleigh_optical_depth nm p h s = rayleigh_optical_depth nm p 0 s * exp (- h / s) /\ rayleigh_optical_depth nm p h s < rayleigh_optical_depth nm p 0 s /\
  rayleigh_optical_depth nm p 0 s / p = rayleigh_optical_depth nm (101325 / 100) 0 s / (101325 / 100).
Proof.
  intros N S H p. assert (E : rayleigh_optical_depth nm p h s = rayleigh_optical_depth nm p 0 s * exp (- h / s)).
  { unfold rayleigh_optical_depth. cbv zeta. replace (- 0 / s) with 0 by (field; lra). rewrite exp_0. ring. }
  assert (PP : 0 < p) by (unfold p; apply Rmult_lt_0_compat; [lra|apply exp_pos]). split; [exact E|]. split.
  - rewrite E. pose proof (proj1 (C155_molecules nm p 0 s 1 N PP ltac:(lra))) as T. rewrite <- (Rmult_1_r (rayleigh_optical_depth nm p 0 s)) at 2. apply Rmult_lt_compat_l; [exact T|].
    rewrite <- exp_0. apply exp_increasing. assert (0 < h / s) by (now apply Rdiv_lt_0_compat). unfold Rdiv in *. lra.
  - unfold rayleigh_optical_depth. cbv zeta. field. lra.
Qed.
Example C155_case : 0 < surface_pressure paranal /\ 0 < tau0 (mie paranal) /\ 0 < lambda_ref (mie paranal) /\ alpha (mie paranal) < 0 /\ optical_depth paranal 700 < optical_depth paranal 450.
Proof. assert (H : 0 < surface_pressure paranal /\ 0 < tau0 (mie paranal) /\ 0 < lambda_ref (mie paranal) /\ alpha (mie paranal) < 0) by (cbn; lra). repeat split; try apply H. apply C155_redder; try apply H; lra. Qed.
Print Assumptions C154_grows.
Print Assumptions C154_values.
Print Assumptions C154_bounded.
Print Assumptions C154_below_refuted.
Print Assumptions C154_van_rhijn.
Print Assumptions C154_case.
Print Assumptions C155_transmission.
Print Assumptions C155_molecules.
Print Assumptions C155_brightens_refuted.
Print Assumptions C155_redder.
Print Assumptions C155_altitude_refuted.
Print Assumptions C155_case.
