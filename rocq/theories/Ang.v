(** Angles over the reals: remainders, the two-argument arctangent and the
    arccosine, shared by the geometric models. *)
From Coq Require Import Reals Lra ZArith Lia Psatz.
Local Open Scope R_scope.

(** * Remainders *)
(** [f64::rem_euclid] with a positive divisor, without rounding. *)
Definition rem_e (x y : R) : R := x - y * IZR (Int_part (x / y)).
(** The operator [%] of f64 (the quotient is cut towards zero), without
    rounding. *)
Definition trunc (x : R) : Z := if Rle_dec 0 x then Int_part x else (- Int_part (- x))%Z.
Definition rem_t (x y : R) : R := x - y * IZR (trunc (x / y)).

Lemma int_part_bounds x : IZR (Int_part x) <= x < IZR (Int_part x) + 1.
Proof. destruct (base_Int_part x). lra. Qed.
Lemma int_part_unique x k : IZR k <= x < IZR k + 1 -> Int_part x = k.
Proof.
  intros H. pose proof (int_part_bounds x) as B.
  assert (A : (k < Int_part x + 1)%Z) by (apply lt_IZR; rewrite plus_IZR; lra).
  assert (C : (Int_part x < k + 1)%Z) by (apply lt_IZR; rewrite plus_IZR; lra). lia.
Qed.
Lemma rem_e_range x y : 0 < y -> 0 <= rem_e x y < y.
Proof.
  intros Y. unfold rem_e. pose proof (int_part_bounds (x / y)) as (A & B). set (k := IZR (Int_part (x / y))) in *. clearbody k.
  assert (E : x = y * (x / y)) by (field; lra). set (q := x / y) in *. clearbody q. subst x. nra.
Qed.
Lemma rem_e_unique x y r k : 0 < y -> 0 <= r < y -> x = r + y * IZR k -> rem_e x y = r.
Proof.
  intros Y Rr E. unfold rem_e. replace (Int_part (x / y)) with k; [lra|]. symmetry. apply int_part_unique.
  assert (Q : x / y = r / y + IZR k) by (rewrite E; field; lra). rewrite Q.
  assert (0 <= r / y) by (apply Rmult_le_pos; [lra|left; apply Rinv_0_lt_compat; lra]).
  assert (r / y < 1). { apply (Rmult_lt_reg_r y); [lra|]. unfold Rdiv. rewrite Rmult_assoc, Rinv_l by lra. lra. } lra.
Qed.
Lemma rem_e_shift x y k : 0 < y -> rem_e (x + y * IZR k) y = rem_e x y.
Proof.
  intros Y. apply (rem_e_unique _ _ _ (Int_part (x / y) + k)); [exact Y|now apply rem_e_range|]. unfold rem_e. rewrite plus_IZR. ring.
Qed.
Lemma rem_e_small x y : 0 < y -> 0 <= x < y -> rem_e x y = x.
Proof. intros Y H. apply (rem_e_unique _ _ _ 0); [exact Y|exact H|]. cbn. ring. Qed.

Lemma sin_turns x k : sin (x + 2 * PI * IZR k) = sin x.
Proof.
  assert (N : forall y n, sin (y + 2 * INR n * PI) = sin y) by (intros; apply sin_period).
  destruct (Z_le_dec 0 k) as [P|P].
  - rewrite <- (N x (Z.to_nat k)). f_equal. rewrite INR_IZR_INZ, Z2Nat.id by lia. ring.
  - rewrite <- (N (x + 2 * PI * IZR k) (Z.to_nat (- k))). f_equal. rewrite INR_IZR_INZ, Z2Nat.id by lia. rewrite opp_IZR. ring.
Qed.
Lemma cos_turns x k : cos (x + 2 * PI * IZR k) = cos x.
Proof.
  assert (N : forall y n, cos (y + 2 * INR n * PI) = cos y) by (intros; apply cos_period).
  destruct (Z_le_dec 0 k) as [P|P].
  - rewrite <- (N x (Z.to_nat k)). f_equal. rewrite INR_IZR_INZ, Z2Nat.id by lia. ring.
  - rewrite <- (N (x + 2 * PI * IZR k) (Z.to_nat (- k))). f_equal. rewrite INR_IZR_INZ, Z2Nat.id by lia. rewrite opp_IZR. ring.
Qed.
Lemma sin_rem_e x : sin (rem_e x (2 * PI)) = sin x.
Proof. unfold rem_e. rewrite <- (sin_turns x (- Int_part (x / (2 * PI)))). f_equal. rewrite opp_IZR. ring. Qed.
Lemma cos_rem_e x : cos (rem_e x (2 * PI)) = cos x.
Proof. unfold rem_e. rewrite <- (cos_turns x (- Int_part (x / (2 * PI)))). f_equal. rewrite opp_IZR. ring. Qed.
Lemma sin_rem_t x : sin (rem_t x (2 * PI)) = sin x.
Proof. unfold rem_t. rewrite <- (sin_turns x (- trunc (x / (2 * PI)))). f_equal. rewrite opp_IZR. ring. Qed.
Lemma cos_rem_t x : cos (rem_t x (2 * PI)) = cos x.
Proof. unfold rem_t. rewrite <- (cos_turns x (- trunc (x / (2 * PI)))). f_equal. rewrite opp_IZR. ring. Qed.

(** Two angles in one turn with the same sine and cosine are equal. *)
Lemma cos1_zero x : -2 * PI < x < 2 * PI -> cos x = 1 -> x = 0.
Proof.
  intros H C. pose proof PI_RGT_0 as P.
  assert (Z : sin (x / 2) = 0). { pose proof (cos_2a_sin (x / 2)) as E. replace (2 * (x / 2)) with x in E by field. rewrite C in E. assert (sin (x / 2) * sin (x / 2) = 0) by lra. nra. }
  destruct (Rtotal_order x 0) as [L|[E|L]]; [|exact E|].
  - pose proof (sin_gt_0 (- (x / 2)) ltac:(lra) ltac:(lra)) as S. rewrite sin_neg in S. lra.
  - pose proof (sin_gt_0 (x / 2) ltac:(lra) ltac:(lra)). lra.
Qed.
Lemma angle_unique a b : Rabs (a - b) < 2 * PI -> cos a = cos b -> sin a = sin b -> a = b.
Proof.
  intros H C S. apply Rabs_def2 in H. assert (a - b = 0); [|lra]. apply cos1_zero; [lra|]. rewrite cos_minus, C, S. pose proof (sin2_cos2 b) as E. unfold Rsqr in E. lra.
Qed.

(** * The two-argument arctangent *)
(** [f64::atan2], with 0 for the origin (the signed zeros of f64 are not
    modelled). *)
Definition atan2 (y x : R) : R :=
  if Rlt_dec 0 x then atan (y / x)
  else if Rlt_dec x 0 then (if Rle_dec 0 y then atan (y / x) + PI else atan (y / x) - PI)
  else if Rlt_dec 0 y then PI / 2 else if Rlt_dec y 0 then - (PI / 2) else 0.

Lemma sqrt_ratio x y : x <> 0 -> sqrt (1 + (y / x)²) = sqrt (x² + y²) / Rabs x.
Proof.
  intros N. assert (P : 0 < x²) by (unfold Rsqr; nra).
  replace (1 + (y / x)²) with ((x² + y²) / x²) by (unfold Rsqr; field; exact N).
  rewrite sqrt_div_alt by exact P. now rewrite sqrt_Rsqr_abs.
Qed.
Lemma hyp_pos x y : x <> 0 \/ y <> 0 -> 0 < sqrt (x² + y²).
Proof. intros H. apply sqrt_lt_R0. unfold Rsqr. destruct H; nra. Qed.

Theorem atan2_polar y x : x <> 0 \/ y <> 0 -> sqrt (x² + y²) * cos (atan2 y x) = x /\ sqrt (x² + y²) * sin (atan2 y x) = y.
Proof.
  intros H. pose proof (hyp_pos x y H) as P. unfold atan2. destruct (Rlt_dec 0 x) as [X|X]; [|destruct (Rlt_dec x 0) as [X'|X']].
  - rewrite cos_atan, sin_atan, sqrt_ratio by lra. rewrite Rabs_right by lra. split; field; lra.
  - assert (E : cos (atan (y / x)) = - x / sqrt (x² + y²) /\ sin (atan (y / x)) = - y / sqrt (x² + y²)). { rewrite cos_atan, sin_atan, sqrt_ratio by lra. rewrite Rabs_left by lra. split; field; lra. }
    destruct E as (E1 & E2). destruct (Rle_dec 0 y).
    + rewrite neg_cos, neg_sin, E1, E2. split; field; lra.
    + unfold Rminus. rewrite cos_plus, sin_plus, cos_neg, sin_neg, cos_PI, sin_PI, E1, E2. split; field; lra.
  - assert (x = 0) by lra. subst x. replace (0² + y²) with (y²) by (unfold Rsqr; ring). rewrite sqrt_Rsqr_abs.
    destruct (Rlt_dec 0 y) as [Y|Y]; [rewrite cos_PI2, sin_PI2, Rabs_right by lra; lra|]. destruct (Rlt_dec y 0) as [Y'|Y'].
    + rewrite cos_neg, sin_neg, cos_PI2, sin_PI2, Rabs_left by lra. lra.
    + exfalso. destruct H; lra.
Qed.
Theorem atan2_range y x : - PI < atan2 y x <= PI.
Proof.
  pose proof PI_RGT_0 as P. unfold atan2. pose proof (atan_bound (y / x)) as (A & B).
  destruct (Rlt_dec 0 x) as [X|X]; [lra|]. destruct (Rlt_dec x 0) as [X'|X'].
  - assert (I : / x < 0) by (now apply Rinv_lt_0_compat). destruct (Rle_dec 0 y) as [Y|Y].
    + assert (Q : y / x <= 0) by (unfold Rdiv; nra). assert (atan (y / x) <= 0). { destruct (Req_dec (y / x) 0) as [->|N]; [rewrite atan_0; lra|]. left. rewrite <- atan_0. apply atan_increasing. lra. } lra.
    + assert (Q : 0 < y / x) by (unfold Rdiv; nra). assert (0 < atan (y / x)) by (rewrite <- atan_0; apply atan_increasing; exact Q). lra.
  - destruct (Rlt_dec 0 y); [lra|]. destruct (Rlt_dec y 0); lra.
Qed.
(** A non-negative ordinate gives an angle of the upper half. *)
Lemma atan2_upper y x : 0 <= y -> 0 <= atan2 y x.
Proof.
  intros Y. pose proof PI_RGT_0 as P. unfold atan2. pose proof (atan_bound (y / x)) as (A & B).
  destruct (Rlt_dec 0 x) as [X|X].
  - assert (0 <= y / x) by (apply Rmult_le_pos; [exact Y|left; now apply Rinv_0_lt_compat]). destruct (Req_dec (y / x) 0) as [->|N]; [rewrite atan_0; lra|]. left. rewrite <- atan_0. apply atan_increasing. lra.
  - destruct (Rlt_dec x 0) as [X'|X']; [destruct (Rle_dec 0 y); lra|]. destruct (Rlt_dec 0 y); [lra|]. destruct (Rlt_dec y 0); lra.
Qed.
(** On the unit circle's upper half it is the arccosine. *)
Lemma atan2_acos y z : 0 <= y -> y² + z² = 1 -> atan2 y z = acos z.
Proof.
  intros Y E. assert (N : z <> 0 \/ y <> 0). { destruct (Req_dec z 0); [|auto]. right. intros ->. subst z. unfold Rsqr in E. lra. }
  destruct (atan2_polar y z N) as (C & _). rewrite Rplus_comm in E. rewrite E, sqrt_1, Rmult_1_l in C.
  transitivity (acos (cos (atan2 y z))); [|now rewrite C]. symmetry. apply acos_cos. split; [now apply atan2_upper|apply atan2_range].
Qed.
