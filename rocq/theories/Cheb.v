(** Chebyshev interpolation: the external [cheby] crate's [nodes] and
    [fit_coeffs], as its documentation and the callers in /repo describe them
    (src/event/lunar/moon_cache.rs:127-159, lagrange archives): the n roots of the
    Chebyshev polynomial of degree n and the cosine-transform coefficients of the
    values there. The crate's own source is not in /repo; rounding is not
    modelled. *)
From Coq Require Import List PeanoNat ZArith Lia Bool Reals Lra Psatz.
From Verif Require Import Base Noise_Model Mat3 Ang Geom_Model Jpl_Model Jpl_Proofs Lag_Model Lag_Proofs.
Import ListNotations.
Local Open Scope R_scope.

(** the angle of node [k] of [n] *)
Definition node_angle (n k : nat) : R := PI * (INR k + 1 / 2) / INR n.
Definition node (n k : nat) : R := cos (node_angle n k).
Definition nodes (n : nat) : list R := map (node n) (seq 0 n).
Definition weight (j : nat) : R := match j with O => 1 | _ => 2 end.
Definition fit_coeffs (v : list R) : list R :=
  let n := length v in
  map (fun j => weight j / INR n * rsum n (fun k => nth k v 0 * cos (INR j * node_angle n k))) (seq 0 n).

(** * Sums *)
Lemma rsum_plus n f g : rsum n (fun i => f i + g i) = rsum n f + rsum n g.
Proof. induction n as [|n IH]; cbn [rsum]; [ring|]. rewrite IH. ring. Qed.
Lemma rsum_swap n m f : rsum n (fun i => rsum m (fun j => f i j)) = rsum m (fun j => rsum n (fun i => f i j)).
Proof.
  induction n as [|n IH]; cbn [rsum]; [symmetry; induction m as [|m IHm]; cbn [rsum]; [|rewrite IHm]; ring|].
  rewrite IH, <- rsum_plus. reflexivity.
Qed.
Lemma rsum_zero n f : (forall i, (i < n)%nat -> f i = 0) -> rsum n f = 0.
Proof. induction n as [|n IH]; intros H; cbn [rsum]; [reflexivity|]. rewrite IH, H by auto. ring. Qed.
Lemma rsum_one n k f : (k < n)%nat -> (forall i, (i < n)%nat -> i <> k -> f i = 0) -> rsum n f = f k.
Proof.
  intros K H. rewrite (rsum_ext n f (fun i => (if (k =? i)%nat then 1 else 0) * f i)).
  - now apply rsum_pick.
  - intros i I. destruct (Nat.eqb_spec k i) as [->|N]; [ring|]. rewrite H by auto. ring.
Qed.
Lemma rsum_abs n f b : (forall i, (i < n)%nat -> Rabs (f i) <= b) -> Rabs (rsum n f) <= INR n * b.
Proof.
  induction n as [|n IH]; intros H; [cbn [rsum INR]; rewrite Rabs_R0; lra|]. rewrite S_INR. cbn [rsum].
  eapply Rle_trans; [apply Rabs_triang|]. specialize (IH ltac:(auto)). specialize (H n ltac:(lia)). lra.
Qed.
Lemma cosines_sum f k n theta : cosines (map f (seq k n)) k theta = rsum n (fun i => f (k + i)%nat * cos (INR (k + i) * theta)).
Proof.
  revert k. induction n as [|n IH]; intros k; [reflexivity|]. cbn [seq map cosines]. rewrite IH. clear IH.
  set (g := fun i : nat => f i * cos (INR i * theta)). change (g k + rsum n (fun i => g (S k + i)%nat) = rsum (S n) (fun i => g (k + i)%nat)).
  clearbody g. clear f. induction n as [|n IH]; cbn [rsum]; [rewrite Nat.add_0_r; ring|]. cbn [rsum] in IH.
  rewrite <- Rplus_assoc, IH. now rewrite <- plus_n_Sm.
Qed.

(** * The cosine kernel *)
Definition kernel (n : nat) (a : R) : R := rsum n (fun j => weight j * cos (INR j * a)).
Lemma kernel_sin n a : kernel (S n) a * sin (a / 2) = sin ((INR n + 1 / 2) * a).
Proof.
  induction n as [|n IH].
  - unfold kernel. cbn [rsum weight INR]. rewrite Rmult_0_l, cos_0. replace ((0 + 1 / 2) * a) with (a / 2) by field. ring.
  - unfold kernel in *. cbn [rsum] in *. rewrite (Rmult_plus_distr_r _ (_ * cos (INR (S n) * a))), IH. cbn [weight]. rewrite S_INR.
    replace ((INR n + 1 + 1 / 2) * a) with ((INR n + 1) * a + a / 2) by field. replace ((INR n + 1 / 2) * a) with ((INR n + 1) * a - a / 2) by field.
    rewrite sin_plus, sin_minus. ring.
Qed.
Lemma sin_half_turns k : sin (INR k * PI) = 0.
Proof. induction k as [|k IH]; [cbn [INR]; rewrite Rmult_0_l; apply sin_0|]. rewrite S_INR. replace ((INR k + 1) * PI) with (INR k * PI + PI) by ring. rewrite neg_sin, IH. ring. Qed.
Lemma kernel_zero n : (0 < n)%nat -> kernel n 0 = 2 * INR n - 1.
Proof.
  intros H. destruct n as [|n]; [lia|]. clear H. unfold kernel. induction n as [|n IH]; [cbn [rsum weight INR]; rewrite Rmult_0_l, cos_0; ring|].
  cbn [rsum] in *. rewrite IH. cbn [weight]. rewrite !Rmult_0_r, cos_0, !S_INR. ring.
Qed.
Lemma node_angle_range n k : (k < n)%nat -> 0 < node_angle n k < PI.
Proof.
  intros H. unfold node_angle. assert (0 < INR n) by (apply lt_0_INR; lia). pose proof (pos_INR k). pose proof PI_RGT_0. apply lt_INR in H as H'.
  assert (INR k + 1 <= INR n) by (rewrite <- S_INR; apply le_INR; lia).
  split.
  - apply Rdiv_lt_0_compat; [|assumption]. apply Rmult_lt_0_compat; lra.
  - apply Rmult_lt_reg_r with (INR n); [assumption|]. unfold Rdiv. rewrite Rmult_assoc, Rinv_l by lra. rewrite Rmult_1_r. apply Rmult_lt_compat_l; lra.
Qed.
Lemma node_angle_inj n i k : (0 < n)%nat -> node_angle n i = node_angle n k -> i = k.
Proof.
  intros H E. unfold node_angle in E. assert (0 < INR n) by (apply lt_0_INR; lia). pose proof PI_RGT_0.
  apply INR_eq. apply Rmult_eq_compat_r with (r := INR n) in E. unfold Rdiv in E. rewrite !Rmult_assoc, !Rinv_l in E by lra. apply Rmult_eq_reg_l in E; lra.
Qed.
Lemma kernel_at n a p : sin (a / 2) <> 0 -> (0 < n)%nat -> a = p * PI / INR n -> sin (p * PI) = 0 -> kernel n a = - cos (p * PI).
Proof.
  intros Hs N A Z. destruct n as [|n]; [lia|]. apply Rmult_eq_reg_r with (sin (a / 2)); [|exact Hs]. rewrite kernel_sin.
  assert (0 < INR (S n)) by (apply lt_0_INR; lia).
  replace ((INR n + 1 / 2) * a) with (p * PI - a / 2). { rewrite sin_minus, Z. ring. }
  assert (E : p * PI = INR (S n) * a) by (rewrite A; field; lra). rewrite E, S_INR. field.
Qed.
(** Two nodes are orthogonal under the weighted cosines. *)
Lemma nodes_orthogonal n i k : (i < n)%nat -> (k < n)%nat ->
  rsum n (fun j => weight j * (cos (INR j * node_angle n k) * cos (INR j * node_angle n i))) = if (i =? k)%nat then INR n else 0.
Proof.
  intros I K. assert (N : (0 < n)%nat) by lia. assert (P : 0 < INR n) by (apply lt_0_INR; lia).
  pose proof (node_angle_range n i I) as Ri. pose proof (node_angle_range n k K) as Rk.
  assert (E : forall j, weight j * (cos (INR j * node_angle n k) * cos (INR j * node_angle n i))
    = 1 / 2 * (weight j * cos (INR j * (node_angle n k + node_angle n i)) + weight j * cos (INR j * (node_angle n k - node_angle n i)))).
  { intros j. rewrite (Rmult_plus_distr_l (INR j)), (Rmult_minus_distr_l (INR j)), cos_plus, cos_minus. field. }
  rewrite (rsum_ext n _ _ (fun j _ => E j)), rsum_scale, rsum_plus. change (1 / 2 * (kernel n (node_angle n k + node_angle n i) + kernel n (node_angle n k - node_angle n i)) = if (i =? k)%nat then INR n else 0).
  assert (A : kernel n (node_angle n k + node_angle n i) = - cos ((INR k + INR i + 1) * PI)).
  { apply kernel_at; auto.
    - apply Rgt_not_eq. apply sin_gt_0; lra.
    - unfold node_angle. field. lra.
    - rewrite <- plus_INR, <- S_INR. apply sin_half_turns. }
  rewrite A. destruct (Nat.eqb_spec i k) as [->|D].
  - rewrite Rminus_diag_eq, kernel_zero by auto. replace ((INR k + INR k + 1) * PI) with (PI + 2 * (INR k * PI)) by ring.
    rewrite cos_plus, cos_PI, sin_PI, cos_2a, sin_half_turns. pose proof (sin2_cos2 (INR k * PI)) as C. unfold Rsqr in C. rewrite sin_half_turns in C. nra.
  - assert (Nz : node_angle n k - node_angle n i <> 0) by (intros Z; apply D; symmetry; apply (node_angle_inj n); [auto|lra]).
    rewrite (kernel_at n (node_angle n k - node_angle n i) (INR k - INR i)).
    + assert (cos ((INR k + INR i + 1) * PI) + cos ((INR k - INR i) * PI) = 0); [|lra].
      rewrite form1. replace (((INR k + INR i + 1) * PI + (INR k - INR i) * PI) / 2) with (INR k * PI + PI / 2) by field.
      rewrite cos_plus, cos_PI2, sin_half_turns. ring.
    + destruct (Rdichotomy _ _ Nz) as [L|L].
      * apply Rlt_not_eq. apply sin_lt_0_var; lra.
      * apply Rgt_not_eq. apply sin_gt_0; lra.
    + auto.
    + unfold node_angle. field. lra.
    + rewrite Rmult_minus_distr_r, sin_minus, !sin_half_turns. ring.
Qed.

Lemma fit_length v : length (fit_coeffs v) = length v. Proof. unfold fit_coeffs. now rewrite map_length, seq_length. Qed.
(** The fitted series as a weighted sum of the values. *)
Lemma fit_sum v theta : evaluate (fit_coeffs v) (cos theta) =
  rsum (length v) (fun k => nth k v 0 * (/ INR (length v) * rsum (length v) (fun j => weight j * (cos (INR j * node_angle (length v) k) * cos (INR j * theta))))).
Proof.
  rewrite evaluate_cos. unfold fit_coeffs. rewrite (cosines_sum _ 0). cbn [Nat.add]. set (n := length v).
  rewrite (rsum_ext n _ (fun j => rsum n (fun k => nth k v 0 * (/ INR n * (weight j * (cos (INR j * node_angle n k) * cos (INR j * theta))))))).
  - rewrite rsum_swap. apply rsum_ext. intros k _. rewrite <- rsum_scale, <- rsum_scale. reflexivity.
  - intros j _. rewrite Rmult_comm, <- Rmult_assoc, <- rsum_scale. apply rsum_ext. intros k _. unfold Rdiv. ring.
Qed.
(** The series passes through its values at the nodes. *)
Theorem fit_interpolates v k : (k < length v)%nat -> evaluate (fit_coeffs v) (node (length v) k) = nth k v 0.
Proof.
  intros K. unfold node. rewrite fit_sum. set (n := length v) in *. assert (P : 0 < INR n) by (apply lt_0_INR; lia).
  rewrite (rsum_one n k).
  - rewrite nodes_orthogonal, Nat.eqb_refl by auto. field. lra.
  - auto.
  - intros i I D. rewrite nodes_orthogonal by auto. destruct (Nat.eqb_spec k i); [congruence|]. ring.
Qed.
Lemma weighted_bound n a t : (0 < n)%nat -> Rabs (rsum n (fun j => weight j * (cos (INR j * a) * cos (INR j * t)))) <= 2 * INR n - 1.
Proof.
  intros N. destruct n as [|m]; [lia|]. clear N. induction m as [|m IH].
  - cbn [rsum weight INR]. rewrite !Rmult_0_l, cos_0. replace (0 + 1 * (1 * 1)) with 1 by ring. rewrite Rabs_R1. lra.
  - cbn [rsum] in *. rewrite (S_INR (S m)). eapply Rle_trans; [apply Rabs_triang|].
    assert (Rabs (weight (S m) * (cos (INR (S m) * a) * cos (INR (S m) * t))) <= 2); [|lra].
    cbn [weight]. rewrite !Rabs_mult, (Rabs_pos_eq 2) by lra.
    assert (Ca : forall y, 0 <= Rabs (cos y) <= 1) by (intros y; split; [apply Rabs_pos|apply Rabs_le, COS_bound]).
    pose proof (Ca (INR (S m) * a)). pose proof (Ca (INR (S m) * t)). nra.
Qed.
(** The series is at most (2 n - 1) times as large as its values. *)
Theorem fit_bounded v b x : (forall k, (k < length v)%nat -> Rabs (nth k v 0) <= b) -> -1 <= x <= 1 -> v <> [] ->
  Rabs (evaluate (fit_coeffs v) x) <= (2 * INR (length v) - 1) * b.
Proof.
  intros B X Nv. rewrite <- (cos_acos x X). rewrite fit_sum. set (n := length v) in *. set (t := acos x). clearbody t.
  assert (N0 : (0 < n)%nat) by (subst n; destruct v; [congruence|cbn; lia]). assert (P : 0 < INR n) by (apply lt_0_INR; lia).
  assert (B0 : 0 <= b) by (eapply Rle_trans; [apply Rabs_pos|apply (B 0%nat N0)]).
  assert (W : forall k, Rabs (rsum n (fun j => weight j * (cos (INR j * node_angle n k) * cos (INR j * t)))) <= 2 * INR n - 1).
  { intros k. now apply weighted_bound. }
  replace ((2 * INR n - 1) * b) with (INR n * (b * ((2 * INR n - 1) / INR n))) by (field; lra).
  apply rsum_abs. intros k K. rewrite !Rabs_mult. apply Rmult_le_compat; [apply Rabs_pos| |auto|].
  - apply Rmult_le_pos; apply Rabs_pos.
  - rewrite Rabs_pos_eq by (left; now apply Rinv_0_lt_compat). unfold Rdiv. rewrite (Rmult_comm _ (/ INR n)). apply Rmult_le_compat_l; [left; now apply Rinv_0_lt_compat|apply W].
Qed.

(** * Polynomials *)
Fixpoint peval (p : list R) (x : R) : R := match p with [] => 0 | h :: t => h + x * peval t x end.
(** [f] is a polynomial with at most [n] coefficients *)
Definition poly (n : nat) (f : R -> R) : Prop := exists p, (length p <= n)%nat /\ forall x, f x = peval p x.
Fixpoint padd (p q : list R) : list R := match p, q with [], _ => q | _, [] => p | a :: p', b :: q' => a + b :: padd p' q' end.
Lemma padd_eval p q x : peval (padd p q) x = peval p x + peval q x.
Proof. revert q. induction p as [|a p IH]; intros [|b q]; cbn [padd peval]; try ring. rewrite IH. ring. Qed.
Lemma padd_length p q : length (padd p q) = Nat.max (length p) (length q).
Proof. revert q. induction p as [|a p IH]; intros [|b q]; cbn [padd length]; try reflexivity. rewrite IH. lia. Qed.
Lemma poly_plus n f g : poly n f -> poly n g -> poly n (fun x => f x + g x).
Proof. intros (p & P & Hp) (q & Q & Hq). exists (padd p q). split; [rewrite padd_length; lia|]. intros x. now rewrite padd_eval, Hp, Hq. Qed.
Lemma poly_scale n k f : poly n f -> poly n (fun x => k * f x).
Proof.
  intros (p & P & Hp). exists (map (Rmult k) p). split; [now rewrite map_length|]. intros x. rewrite Hp. clear. induction p as [|a p IH]; cbn [map peval]; [ring|]. rewrite <- IH. ring.
Qed.
Lemma poly_x n f : poly n f -> poly (S n) (fun x => x * f x).
Proof. intros (p & P & Hp). exists (0 :: p). split; [cbn; lia|]. intros x. cbn [peval]. rewrite Hp. ring. Qed.
Lemma poly_more n m f : (n <= m)%nat -> poly n f -> poly m f. Proof. intros L (p & P & Hp). exists p. split; [lia|exact Hp]. Qed.
Lemma poly_ext n f g : (forall x, f x = g x) -> poly n f -> poly n g. Proof. intros E (p & P & Hp). exists p. split; [exact P|]. intros x. now rewrite <- E. Qed.
Lemma poly_affine n f a b : poly n f -> poly n (fun x => f (a + b * x)).
Proof.
  intros (p & L & E). apply (poly_ext n (fun x => peval p (a + b * x))); [intros; now rewrite E|]. clear f E. apply poly_more with (length p); [exact L|]. clear n L.
  induction p as [|h t IH]; [exists []; split; [auto|reflexivity]|]. cbn [length peval].
  apply (poly_ext _ (fun x => (h * 1 + a * peval t (a + b * x)) + b * (x * peval t (a + b * x)))); [intros; ring|].
  apply poly_plus; [apply poly_plus|].
  - apply (poly_scale _ h (fun _ => 1)). exists [1]. split; [cbn; lia|]. intros; cbn; ring.
  - apply poly_scale. apply poly_more with (length t); [lia|exact IH].
  - apply (poly_scale _ b (fun x => x * peval t (a + b * x))). apply poly_x, IH.
Qed.
Lemma cheb_poly c n a b : poly n a -> poly (S n) b -> poly (n + length c - 1) (fun x => cheb_sum c (a x) (b x) x).
Proof.
  revert n a b. induction c as [|h t IH]; intros n a b A B; [exists []; split; [cbn; lia|reflexivity]|]. cbn [cheb_sum length].
  apply (poly_plus _ (fun x => h * a x) (fun x => cheb_sum t (b x) (2 * x * b x - a x) x)).
  - apply poly_scale. apply poly_more with n; [lia|exact A].
  - apply poly_more with (S n + length t - 1)%nat; [lia|]. apply IH; [exact B|].
    apply (poly_ext _ (fun x => 2 * (x * b x) + -1 * a x)); [intros; ring|]. apply poly_plus; [apply (poly_scale _ 2 (fun x => x * b x)), poly_x, B|]. apply poly_scale, poly_more with n; [lia|exact A].
Qed.
(** A Chebyshev series of n coefficients is a polynomial of n coefficients. *)
Lemma evaluate_poly c : poly (length c) (evaluate c).
Proof.
  apply poly_more with (1 + length c - 1)%nat; [lia|]. apply (cheb_poly c 1 (fun _ => 1) (fun x => x)).
  - exists [1]. split; [cbn; lia|]. intros x. cbn. ring.
  - exists [0; 1]. split; [cbn; lia|]. intros x. cbn. ring.
Qed.
Lemma divide p r : exists q, length q = (length p - 1)%nat /\ forall x, peval p x = (x - r) * peval q x + peval p r.
Proof.
  induction p as [|h t (q & L & E)]; [exists []; split; [reflexivity|]; intros x; cbn; ring|]. destruct t as [|h' t'].
  - exists []. split; [reflexivity|]. intros x. cbn. ring.
  - exists (peval (h' :: t') r :: q). split; [cbn in *; lia|]. intros x. change (peval (h :: h' :: t') x) with (h + x * peval (h' :: t') x). change (peval (h :: h' :: t') r) with (h + r * peval (h' :: t') r).
    change (peval (peval (h' :: t') r :: q) x) with (peval (h' :: t') r + x * peval q x). rewrite (E x) at 1. ring.
Qed.
(** A polynomial of n coefficients with n roots is zero. *)
Lemma many_roots n f rs : poly n f -> NoDup rs -> (n <= length rs)%nat -> (forall r, In r rs -> f r = 0) -> forall x, f x = 0.
Proof.
  revert f rs. induction n as [|n IH]; intros f rs (p & P & Hp) Nd L Z x; [destruct p; [|cbn in P; lia]; apply Hp|].
  destruct rs as [|r rs]; [cbn in L; lia|]. inversion Nd as [|? ? Ni Nd']; subst. destruct (divide p r) as (q & Lq & E).
  assert (Zr : peval p r = 0) by (rewrite <- Hp; apply Z; now left).
  assert (Q : forall y, peval q y = 0).
  { apply IH with rs; [exists q; split; [lia|reflexivity]|exact Nd'|cbn in L; lia|]. intros s Hs. specialize (Z s (or_intror Hs)). rewrite Hp, E, Zr, Rplus_0_r in Z.
    apply Rmult_integral in Z as [Z|Z]; [|exact Z]. assert (s = r) by lra. subst. contradiction. }
  rewrite Hp, E, Q, Zr. ring.
Qed.
Lemma nodes_NoDup n : NoDup (nodes n).
Proof.
  unfold nodes. assert (H : forall k, In k (seq 0 n) -> (k < n)%nat) by (intros k K; apply in_seq in K; lia).
  pose proof (seq_NoDup n 0) as N. induction (seq 0 n) as [|k l IH]; cbn [map]; [constructor|]. inversion N as [|? ? Ni Nl]; subst. constructor; [|apply IH; auto; intros; apply H; now right].
  intros I. apply in_map_iff in I as (i & E & I). apply Ni. assert (Hi := H i (or_intror I)). assert (Hk := H k (or_introl eq_refl)).
  replace k with i; [exact I|]. apply (node_angle_inj n); [lia|]. unfold node in E. pose proof (node_angle_range n i Hi). pose proof (node_angle_range n k Hk). apply (f_equal acos) in E. rewrite !acos_cos in E by lra. exact E.
Qed.
(** A polynomial of at most n coefficients is reproduced from its values at the n nodes. *)
Theorem fit_exact n f x : poly n f -> evaluate (fit_coeffs (map f (nodes n))) x = f x.
Proof.
  intros Pf. set (v := map f (nodes n)). assert (L : length v = n) by (unfold v, nodes; now rewrite !map_length, seq_length).
  enough (E : forall y, evaluate (fit_coeffs v) y + -1 * f y = 0) by (specialize (E x); lra).
  apply (many_roots n) with (nodes n).
  - apply poly_plus; [|now apply poly_scale]. rewrite <- L at 1. rewrite <- fit_length. apply evaluate_poly.
  - apply nodes_NoDup.
  - unfold nodes. now rewrite map_length, seq_length.
  - intros r I. unfold nodes in I. apply in_map_iff in I as (k & <- & I). apply in_seq in I. rewrite <- L at 1. rewrite fit_interpolates by lia.
    unfold v, nodes. rewrite map_map. rewrite (nth_indep _ 0 (f (node n 0))) by (rewrite map_length, seq_length; lia). rewrite (map_nth (fun k => f (node n k))), seq_nth by lia. cbn [Nat.add]. ring.
Qed.
Lemma cheb_sub c d a b x : length c = length d -> cheb_sum c a b x - cheb_sum d a b x = cheb_sum (map (fun p => fst p - snd p) (combine c d)) a b x.
Proof.
  revert d a b. induction c as [|h t IH]; intros [|h' t'] a b L; cbn in L; try discriminate; cbn [combine map cheb_sum]; [ring|]. cbn [fst snd]. rewrite <- IH by lia. ring.
Qed.
Lemma node_range n k : -1 <= node n k <= 1. Proof. apply COS_bound. Qed.
Lemma nodes_length n : length (nodes n) = n. Proof. unfold nodes. now rewrite map_length, seq_length. Qed.
Lemma nodes_nth n k : (k < n)%nat -> nth k (nodes n) 0 = node n k.
Proof. intros K. unfold nodes. rewrite (nth_indep _ 0 (node n 0)) by (rewrite map_length, seq_length; lia). rewrite (map_nth (node n)), seq_nth by lia. reflexivity. Qed.
Lemma fit_minus (f g : R -> R) (l : list R) x : evaluate (fit_coeffs (map f l)) x - evaluate (fit_coeffs (map g l)) x = evaluate (fit_coeffs (map (fun y => f y - g y) l)) x.
Proof.
  unfold evaluate. rewrite cheb_sub by (now rewrite !fit_length, !map_length). f_equal. unfold fit_coeffs. rewrite !map_length.
  generalize (length l) at 2 3 6 7 10 11 as n. intros n. set (m := length l). generalize (seq 0 m) as s. induction s as [|j s IH]; [reflexivity|].
  cbn [map combine]. f_equal; [|exact IH]. cbn [fst snd]. rewrite <- Rmult_minus_distr_l. f_equal.
  replace (rsum n (fun k => nth k (map (fun y => f y - g y) l) 0 * cos (INR j * node_angle n k))) with (rsum n (fun k => nth k (map f l) 0 * cos (INR j * node_angle n k) - 1 * (nth k (map g l) 0 * cos (INR j * node_angle n k)))).
  - rewrite rsum_lin. ring.
  - apply rsum_ext. intros k _. replace (nth k (map (fun y => f y - g y) l) 0) with (nth k (map f l) 0 - nth k (map g l) 0); [ring|].
    clear. revert k. induction l as [|y l IH]; intros [|k]; cbn [map nth]; try ring. apply IH.
Qed.
(** The fit is within 2 n times the best error any polynomial of n coefficients can reach. *)
Theorem fit_near_best n f g eps x : (0 < n)%nat -> poly n g -> (forall y, -1 <= y <= 1 -> Rabs (f y - g y) <= eps) -> -1 <= x <= 1 ->
  Rabs (evaluate (fit_coeffs (map f (nodes n))) x - f x) <= 2 * INR n * eps.
Proof.
  intros N Pg H X.
  replace (evaluate (fit_coeffs (map f (nodes n))) x - f x) with ((evaluate (fit_coeffs (map f (nodes n))) x - evaluate (fit_coeffs (map g (nodes n))) x) - (f x - g x)) by (rewrite (fit_exact n g x Pg); ring).
  rewrite fit_minus. eapply Rle_trans; [apply Rabs_triang|]. rewrite Rabs_Ropp. specialize (H x X) as Hx.
  assert (B : Rabs (evaluate (fit_coeffs (map (fun y => f y - g y) (nodes n))) x) <= (2 * INR n - 1) * eps); [|lra].
  rewrite <- (nodes_length n) at 2. rewrite <- (map_length (fun y => f y - g y)). apply fit_bounded; [|exact X|].
  - intros k K. rewrite map_length, nodes_length in K. rewrite (nth_indep _ 0 (f 0 - g 0)) by (now rewrite map_length, nodes_length). rewrite (map_nth (fun y => f y - g y)), nodes_nth by exact K. apply H, node_range.
  - intros E. apply (f_equal (@length R)) in E. rewrite map_length, nodes_length in E. cbn in E. lia.
Qed.
