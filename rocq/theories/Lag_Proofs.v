(** Lemmas on the Sun-Earth Lagrange points. *)
From Coq Require Import List PeanoNat ZArith Lia Bool Reals Lra Psatz.
From Verif Require Import Base Mat3 Ang Geom_Model Geom_Proofs Jpl_Model Jpl_Proofs Lag_Model.
Import ListNotations.
Local Open Scope R_scope.

(** * Linear systems *)
Fixpoint rsum (n : nat) (f : nat -> R) : R := match n with O => 0 | S k => rsum k f + f k end.
Lemma rsum_ext n f g : (forall i, (i < n)%nat -> f i = g i) -> rsum n f = rsum n g.
Proof. induction n as [|n IH]; intros H; [reflexivity|]. cbn [rsum]. rewrite IH, H by auto. reflexivity. Qed.
Lemma rsum_lin n k f g : rsum n (fun i => f i - k * g i) = rsum n f - k * rsum n g.
Proof. induction n as [|n IH]; cbn [rsum]; [ring|]. rewrite IH. ring. Qed.
Lemma rsum_scale n k f : rsum n (fun i => k * f i) = k * rsum n f.
Proof. induction n as [|n IH]; cbn [rsum]; [ring|]. rewrite IH. ring. Qed.
Lemma rsum_pick n k f : (k < n)%nat -> rsum n (fun i => (if (k =? i)%nat then 1 else 0) * f i) = f k.
Proof.
  induction n as [|n IH]; intros H; [lia|]. cbn [rsum]. destruct (Nat.eqb_spec k n) as [->|N].
  - assert (E : rsum n (fun i => (if (n =? i)%nat then 1 else 0) * f i) = 0).
    { rewrite (rsum_ext n _ (fun i => 0 * f i)); [rewrite rsum_scale; ring|]. intros i I. destruct (Nat.eqb_spec n i); [lia|reflexivity]. }
    rewrite E. ring.
  - rewrite IH by lia. ring.
Qed.
Definition solves (n : nat) (a : nat -> nat -> R) (b y : nat -> R) : Prop := forall r, (r < n)%nat -> rsum n (fun j => a r j * y j) = b r.
Definition cleared (n c : nat) (a : nat -> nat -> R) : Prop := forall k r, (k < c)%nat -> (r < n)%nat -> a r k = if (r =? k)%nat then 1 else 0.

Lemma pivot_range a col row todo pivot : let p := pivot_search a col row todo pivot in p = pivot \/ (row <= p < row + todo)%nat.
Proof.
  revert row pivot. induction todo as [|k IH]; intros row pivot; cbn [pivot_search]; [now left|]. specialize (IH (S row) (if rltb (Rabs (a pivot col)) (Rabs (a row col)) then row else pivot)).
  cbv zeta in *. destruct IH as [->|IH]; [|right; lia]. destruct (rltb _ _); [right; lia|now left].
Qed.
Lemma column_ok n c a b a' b' : (c < n)%nat -> cleared n c a -> lin_column n c (a, b) = Some (a', b') ->
  cleared n (S c) a' /\ forall y, solves n a b y <-> solves n a' b' y.
Proof.
  intros C Cl. unfold lin_column. set (p := pivot_search a c (S c) (n - S c) c).
  assert (P : (c <= p < n)%nat). { destruct (pivot_range a c (S c) (n - S c) c) as [E|E]; fold p in E; lia. }
  destruct (rltb _ _) eqn:T; [discriminate|].
  assert (Nz : a p c <> 0). { intros Z. rewrite Z, Rabs_R0 in T. unfold rltb in T. destruct (Rlt_dec _ _); [discriminate|lra]. }
  set (A := if (p =? c)%nat then a else swap_row p c a). set (B := if (p =? c)%nat then b else swap_row p c b).
  assert (EA : forall r, A r = if (r =? c)%nat then a p else if (r =? p)%nat then a c else a r).
  { intros r. unfold A. destruct (Nat.eqb_spec p c) as [->|N]; [|reflexivity]. destruct (Nat.eqb_spec r c) as [->|]; reflexivity. }
  assert (EB : forall r, B r = if (r =? c)%nat then b p else if (r =? p)%nat then b c else b r).
  { intros r. unfold B. destruct (Nat.eqb_spec p c) as [->|N]; [|reflexivity]. destruct (Nat.eqb_spec r c) as [->|]; reflexivity. }
  clearbody A B. cbv zeta. intros [= <- <-].
  assert (Ac : A c = a p) by (rewrite EA, Nat.eqb_refl; reflexivity).
  assert (ClA : cleared n c A).
  { intros k r K Rn. rewrite EA. assert (W : forall q, (c <= q < n)%nat -> a q k = 0). { intros q Q. rewrite (Cl k q) by lia. destruct (Nat.eqb_spec q k); [lia|reflexivity]. }
    destruct (Nat.eqb_spec r c) as [->|]; [rewrite W by lia; destruct (Nat.eqb_spec c k); [lia|reflexivity]|].
    destruct (Nat.eqb_spec r p) as [->|]; [rewrite W by lia; destruct (Nat.eqb_spec p k); [lia|reflexivity]|]. apply Cl; assumption. }
  assert (Sw : forall y, solves n a b y <-> solves n A B y).
  { intros y. split; intros H r Rn.
    - rewrite EA, EB. destruct (Nat.eqb_spec r c); [apply H; lia|]. destruct (Nat.eqb_spec r p); apply H; lia.
    - destruct (Nat.eq_dec r p) as [->|N1]; [specialize (H c ltac:(lia)); rewrite EA, EB, Nat.eqb_refl in H; exact H|].
      destruct (Nat.eq_dec r c) as [->|N2].
      + specialize (H p ltac:(lia)). rewrite EA, EB, Nat.eqb_refl in H. destruct (Nat.eqb_spec p c) as [E|]; [congruence|exact H].
      + specialize (H r Rn). rewrite EA, EB in H. destruct (Nat.eqb_spec r c); [lia|]. destruct (Nat.eqb_spec r p); [lia|exact H]. }
  assert (Dz : A c c <> 0) by (rewrite Ac; exact Nz). clear EA EB Cl Ac Nz T.
  set (prow := fun k => if (k <? c)%nat then A c k else A c k / A c c).
  assert (Pr : forall k, (k < n)%nat -> prow k = A c k / A c c).
  { intros k K. unfold prow. destruct (Nat.ltb_spec k c) as [L|L]; [|reflexivity]. rewrite (ClA k c) by assumption. destruct (Nat.eqb_spec c k); [lia|]. unfold Rdiv. ring. }
  assert (Ro : forall r k, (r < n)%nat -> (k < n)%nat -> r <> c -> (if (k <? c)%nat then A r k else A r k - A r c * prow k) = A r k - A r c * prow k).
  { intros r k Rn K N. destruct (Nat.ltb_spec k c) as [L|L]; [|reflexivity]. rewrite Pr by exact K. rewrite (ClA k c) by assumption. destruct (Nat.eqb_spec c k); [lia|]. unfold Rdiv. ring. }
  split.
  - intros k r K Rn. destruct (Nat.eqb_spec r c) as [->|N].
    + rewrite Pr by lia. destruct (Nat.eqb_spec c k) as [->|N2]; [field; exact Dz|]. rewrite (ClA k c) by lia. destruct (Nat.eqb_spec c k); [lia|]. unfold Rdiv. ring.
    + rewrite Ro by lia. rewrite Pr by lia. destruct (Nat.eqb_spec k c) as [->|N2].
      * destruct (Nat.eqb_spec r c); [lia|]. field. exact Dz.
      * rewrite (ClA k c) by lia. destruct (Nat.eqb_spec c k); [lia|]. rewrite (ClA k r) by lia. unfold Rdiv. destruct (Nat.eqb_spec r k); ring.
  - intros y. rewrite Sw.
    assert (Sp : rsum n (fun j => prow j * y j) = / A c c * rsum n (fun j => A c j * y j)).
    { rewrite <- rsum_scale. apply rsum_ext. intros j J. rewrite Pr by exact J. unfold Rdiv. ring. }
    assert (Sr : forall r, (r < n)%nat -> r <> c -> rsum n (fun j => (if (j <? c)%nat then A r j else A r j - A r c * prow j) * y j) = rsum n (fun j => A r j * y j) - A r c * rsum n (fun j => prow j * y j)).
    { intros r Rn N. rewrite <- rsum_lin. apply rsum_ext. intros j J. rewrite Ro by assumption. ring. }
    split; intros H.
    + assert (Hp : rsum n (fun j => prow j * y j) = B c / A c c) by (rewrite Sp, (H c C); unfold Rdiv; ring).
      intros r Rn. destruct (Nat.eqb_spec r c) as [->|N]; [exact Hp|]. rewrite Sr, Hp, (H r Rn) by assumption. reflexivity.
    + assert (Hp : rsum n (fun j => prow j * y j) = B c / A c c). { specialize (H c C). cbv beta in H. rewrite Nat.eqb_refl in H. exact H. }
      intros r Rn. destruct (Nat.eq_dec r c) as [->|N].
      * rewrite Sp in Hp. apply (Rmult_eq_reg_l (/ A c c)); [rewrite Hp; unfold Rdiv; ring|now apply Rinv_neq_0_compat].
      * specialize (H r Rn). cbv beta in H. destruct (Nat.eqb_spec r c) as [|_]; [lia|]. rewrite Sr, Hp in H by assumption. lra.
Qed.
Lemma loop_ok n : forall todo c a b x, (c + todo = n)%nat -> cleared n c a -> lin_loop n c todo (a, b) = Some x ->
  forall y, solves n a b y <-> (forall r, (r < n)%nat -> y r = x r).
Proof.
  induction todo as [|k IH]; intros c a b x E Cl H y; cbn [lin_loop] in H.
  - injection H as <-. cbn [snd]. assert (Id : forall r, (r < n)%nat -> rsum n (fun j => a r j * y j) = y r).
    { intros r Rn. rewrite (rsum_ext n _ (fun i => (if (r =? i)%nat then 1 else 0) * y i)); [now apply rsum_pick|]. intros i I. rewrite (Cl i r) by lia. reflexivity. }
    split; intros H r Rn; specialize (H r Rn); rewrite ?Id in * by exact Rn; assumption.
  - destruct (lin_column n c (a, b)) as [[a' b']|] eqn:L; [|discriminate].
    destruct (column_ok n c a b a' b' ltac:(lia) Cl L) as [Cl' Eq]. rewrite Eq. apply (IH (S c) a' b' x); [lia|exact Cl'|exact H].
Qed.
Lemma solve_linear_ok n a b x : solve_linear n a b = Some x -> forall y, solves n a b y <-> (forall r, (r < n)%nat -> y r = x r).
Proof. intros H. apply (loop_ok n n 0 a b x); [lia| |exact H]. intros k r K. lia. Qed.

(** * The frame *)
Lemma lagrange_identity u v : dot3 (cross u v) (cross u v) = dot3 u u * dot3 v v - dot3 u v * dot3 u v.
Proof. destruct u as ((a, b), c), v as ((x, y), z). cbn. ring. Qed.
Lemma cross_dot_l u v : dot3 (cross u v) u = 0. Proof. destruct u as ((a, b), c), v as ((x, y), z). cbn. ring. Qed.
Lemma cross_dot_r u v : dot3 (cross u v) v = 0. Proof. destruct u as ((a, b), c), v as ((x, y), z). cbn. ring. Qed.
Lemma cross_cross z x : cross (cross z x) z = vminus (scale (dot3 z z) x) (scale (dot3 z x) z).
Proof. destruct z as ((a, b), c), x as ((p, q), r). cbn. apply vec_eq; ring. Qed.
Lemma dot_scale_both k u : dot3 (scale k u) (scale k u) = k * k * dot3 u u.
Proof. destruct u as ((a, b), c). cbn. ring. Qed.
Lemma normalize_ok a y : normalize a = Some y -> 0 < norm a /\ y = scale (1 / norm a) a /\ dot3 y y = 1.
Proof.
  unfold normalize. destruct (rltb 0 (norm a)) eqn:T; [|discriminate]. apply rltb_t in T. intros [= <-]. repeat split; [exact T|].
  rewrite dot_scale_both, <- norm_sq. field. lra.
Qed.

Section Frame.
  Variables gs ge gm : R.
  Hypothesis Gs : 0 < gs. Hypothesis Ge : 0 < ge.
  Variables (s e m v : vec) (f : frame).
  Hypothesis Hf : frame_of gs ge gm s e m (Ok v) = Ok f.

  Lemma frame_facts : f_sun f = s /\ f_earth f = e /\ f_moon f = m /\ 0 < f_distance f /\ f_distance f = norm (vminus e s) /\
    vminus e s = scale (f_distance f) (f_x f) /\ dot3 (f_x f) (f_x f) = 1 /\ dot3 (f_y f) (f_y f) = 1 /\ dot3 (f_x f) (f_y f) = 0 /\
    dot3 (f_z f) (f_y f) = 0 /\ dot3 (f_z f) (f_z f) = 1 /\ f_accel f = external_accel gs ge gm s e m /\
    f_origin f = scale (1 / (gs + ge)) (vplus (scale gs s) (scale ge e)).
  Proof.
    unfold frame_of in Hf. destruct (rleb _ 0) eqn:D; [discriminate|]. assert (Dp : 0 < norm (vminus e s)) by (unfold rleb in D; destruct (Rle_dec _ _); [discriminate|lra]).
    cbn [obind] in Hf. set (d := norm (vminus e s)) in *. set (zc := cross (vminus e s) v) in *.
    set (z := if rleb (norm zc) 0 then (0, 0, 1) else scale (1 / norm zc) zc) in *.
    destruct (normalize (cross z (scale (1 / d) (vminus e s)))) as [y|] eqn:Y; [|discriminate]. injection Hf as <-. cbn.
    apply normalize_ok in Y. destruct Y as (Yp & Ye & Yy).
    assert (Zz : dot3 z z = 1).
    { unfold z. destruct (rleb (norm zc) 0) eqn:Z; [cbn; ring|]. rewrite dot_scale_both, <- norm_sq. field. unfold rleb in Z. destruct (Rle_dec _ _); [discriminate|lra]. }
    repeat split; auto.
    - destruct (vminus e s) as ((a, b), c). cbn. apply vec_eq; field; lra.
    - rewrite dot_scale_both, <- norm_sq. fold d. field. lra.
    - rewrite Ye, dot_comm, dot_scale, cross_dot_r. ring.
    - rewrite Ye, dot_comm, dot_scale, cross_dot_l. ring.
  Qed.
  (** When the Earth moves across the line to the Sun. *)
  Hypothesis Hv : cross (vminus e s) v <> (0, 0, 0).
  Lemma frame_turning : dot3 (f_z f) (f_x f) = 0 /\ cross (f_z f) (f_x f) = f_y f /\ cross (f_x f) (f_y f) = f_z f /\
    0 < dot3 (f_y f) v /\ f_omega f = norm (cross (vminus e s) v) / (f_distance f * f_distance f) /\ 0 < f_omega f /\
    dot3 (f_z f) (cross (vminus e s) v) = norm (cross (vminus e s) v).
  Proof.
    unfold frame_of in Hf. destruct (rleb _ 0) eqn:D; [discriminate|]. assert (Dp : 0 < norm (vminus e s)) by (unfold rleb in D; destruct (Rle_dec _ _); [discriminate|lra]).
    cbn [obind] in Hf. set (d := norm (vminus e s)) in *. set (rel := vminus e s) in *. set (zc := cross rel v) in *. pose proof (norm_pos zc Hv) as Zp.
    replace (rleb (norm zc) 0) with false in Hf by (symmetry; unfold rleb; destruct (Rle_dec _ _); [lra|reflexivity]).
    replace (rltb 0 (norm zc)) with true in Hf by (symmetry; now apply rltb_t).
    set (z := scale (1 / norm zc) zc) in *. set (x := scale (1 / d) rel) in *.
    destruct (normalize (cross z x)) as [y|] eqn:Y; [|discriminate]. injection Hf as <-. cbn.
    assert (Zx : dot3 z x = 0).
    { unfold z, x. rewrite dot_scale, dot_comm, dot_scale, dot_comm. unfold zc. rewrite cross_dot_l. ring. }
    assert (Zz : dot3 z z = 1) by (unfold z; rewrite dot_scale_both, <- norm_sq; field; lra).
    assert (Xx : dot3 x x = 1) by (unfold x; rewrite dot_scale_both, <- norm_sq; fold d; field; lra).
    assert (N1 : norm (cross z x) = 1) by (unfold norm; rewrite lagrange_identity, Zx, Zz, Xx; replace (1 * 1 - 0 * 0) with 1 by ring; apply sqrt_1).
    apply normalize_ok in Y. destruct Y as (_ & Ye & _). rewrite N1 in Ye.
    assert (Ye' : y = cross z x) by (rewrite Ye; destruct (cross z x) as ((a, b), c); cbn; apply vec_eq; field).
    repeat split; auto.
    - rewrite Ye'. assert (XZX : cross x (cross z x) = vminus (scale (dot3 x x) z) (scale (dot3 z x) x)) by (clear; destruct z as ((a, b), c), x as ((p, q), r); cbn; apply vec_eq; ring).
      rewrite XZX, Xx, Zx. destruct z as ((a, b), c), x as ((p, q), r). cbn. apply vec_eq; ring.
    - rewrite Ye'. assert (T : dot3 (cross z x) v = 1 / d * dot3 z zc) by (unfold zc, x; clear; destruct z as ((a, b), c), rel as ((p, q), r), v as ((t, u), w); cbn; ring).
      rewrite T. unfold z. rewrite dot_scale, <- norm_sq. assert (0 < 1 / d) by (apply Rdiv_lt_0_compat; lra). replace (1 / norm zc * (norm zc * norm zc)) with (norm zc) by (field; lra). now apply Rmult_lt_0_compat.
    - apply Rdiv_lt_0_compat; [exact Zp|now apply Rmult_lt_0_compat].
    - unfold z. rewrite dot_scale, <- norm_sq. field. lra.
  Qed.
End Frame.

(** * Starting points *)
Section Seeds.
  Variables gs ge gm : R.
  Hypothesis Gs : 0 < gs. Hypothesis Ge : 0 < ge.
  Variables (s e m v : vec) (f : frame).
  Hypothesis Hf : frame_of gs ge gm s e m (Ok v) = Ok f.
  Definition seed_x (p : point) : R :=
    let gamma := Rpower (ge / (gs + ge) / 3) (1 / 3) in
    match p with L1 => 1 - gamma | L2 => 1 + gamma | L3 => -1 - 5 * (ge / (gs + ge)) / 12 | L4 | L5 => 1 / 2 end.
  Definition seed_y (p : point) : R := match p with L4 => sqrt 3 / 2 | L5 => - sqrt 3 / 2 | _ => 0 end.

  Lemma origin_sun : vminus (f_origin f) s = scale (ge / (gs + ge) * f_distance f) (f_x f).
  Proof.
    destruct (frame_facts gs ge gm s e m v f Hf) as (_ & _ & _ & _ & _ & X & _ & _ & _ & _ & _ & _ & O). rewrite O.
    assert (E : scale (ge / (gs + ge) * f_distance f) (f_x f) = scale (ge / (gs + ge)) (scale (f_distance f) (f_x f))) by (destruct (f_x f) as ((a, b), c); cbn; apply vec_eq; ring).
    rewrite E, <- X. destruct s as ((a, b), c), e as ((p, q), r). cbn. apply vec_eq; field; lra.
  Qed.
  Lemma seed_sun p : vminus (seed gs ge f p) s = vplus (scale (seed_x p * f_distance f) (f_x f)) (scale (seed_y p * f_distance f) (f_y f)).
  Proof.
    destruct (frame_facts gs ge gm s e m v f Hf) as (Es & Ee & _ & _ & D & _). unfold seed. rewrite Es, Ee, <- D.
    pose proof origin_sun as O. destruct (f_origin f) as ((o1, o2), o3), s as ((a, b), c), (f_x f) as ((x1, x2), x3), (f_y f) as ((y1, y2), y3).
    cbn in O. injection O as O1 O2 O3. unfold seed_x, seed_y. destruct p; cbn; apply vec_eq; lra.
  Qed.
  Lemma seed_earth p : vminus (seed gs ge f p) e = vplus (scale ((seed_x p - 1) * f_distance f) (f_x f)) (scale (seed_y p * f_distance f) (f_y f)).
  Proof.
    pose proof (seed_sun p) as S. destruct (frame_facts gs ge gm s e m v f Hf) as (_ & _ & _ & _ & _ & X & _).
    destruct (seed gs ge f p) as ((p1, p2), p3), s as ((a, b), c), e as ((e1, e2), e3), (f_x f) as ((x1, x2), x3), (f_y f) as ((y1, y2), y3).
    cbn in *. injection S as S1 S2 S3. injection X as X1 X2 X3. apply vec_eq; lra.
  Qed.
  Lemma plane_norm a b : dot3 (vplus (scale a (f_x f)) (scale b (f_y f))) (vplus (scale a (f_x f)) (scale b (f_y f))) = a * a + b * b.
  Proof.
    destruct (frame_facts gs ge gm s e m v f Hf) as (_ & _ & _ & _ & _ & _ & Xx & Yy & Xy & _).
    rewrite dot_plus, !dot_scale, (dot_comm (f_x f)), (dot_comm (f_y f)), !dot_plus, !dot_scale, Xx, Yy, (dot_comm (f_y f)), Xy. ring.
  Qed.
  Lemma sqrt3 : sqrt 3 * sqrt 3 = 3. Proof. apply sqrt_sqrt. lra. Qed.
  Lemma triangle p : p = L4 \/ p = L5 -> norm (vminus (seed gs ge f p) s) = f_distance f /\ norm (vminus (seed gs ge f p) e) = f_distance f.
  Proof.
    intros P. destruct (frame_facts gs ge gm s e m v f Hf) as (_ & _ & _ & Dp & _). pose proof sqrt3 as S3.
    rewrite seed_sun, seed_earth. unfold norm. rewrite !plane_norm.
    split; (replace (f_distance f) with (sqrt (f_distance f * f_distance f)) at 5 by (apply sqrt_square; lra)); f_equal; destruct P as [-> | ->]; cbn [seed_x seed_y]; nra.
  Qed.
  Lemma gamma_range : 0 < Rpower (ge / (gs + ge) / 3) (1 / 3) < 1.
  Proof.
    split; [apply exp_pos|]. unfold Rpower. apply Rlt_le_trans with (exp 0); [apply exp_increasing|rewrite exp_0; lra].
    assert (L : ln (ge / (gs + ge) / 3) < 0); [|lra]. apply Rlt_le_trans with (ln 1); [apply ln_increasing|rewrite ln_1; lra].
    - apply Rdiv_lt_0_compat; [apply Rdiv_lt_0_compat; lra|lra].
    - assert (ge / (gs + ge) < 1). { apply (Rmult_lt_reg_r (gs + ge)); [lra|]. unfold Rdiv. rewrite Rmult_assoc, Rinv_l by lra. lra. } lra.
  Qed.
  Lemma collinear p t : seed_y p = 0 -> t = seed_x p -> seed gs ge f p = vplus s (scale t (vminus e s)).
  Proof.
    intros Y ->. pose proof (seed_sun p) as S. rewrite Y in S. destruct (frame_facts gs ge gm s e m v f Hf) as (_ & _ & _ & _ & _ & X & _). rewrite X.
    destruct (seed gs ge f p) as ((p1, p2), p3), s as ((a, b), c), (f_x f) as ((x1, x2), x3), (f_y f) as ((y1, y2), y3). cbn in *. injection S as S1 S2 S3. apply vec_eq; lra.
  Qed.
  (** The triangular points are exact equilibria of a Moon without mass on a
      circular orbit. *)
  Lemma cross_twice z r : dot3 z z = 1 -> dot3 z r = 0 -> cross z (cross z r) = scale (-1) r.
  Proof.
    intros Z O. assert (E : cross z (cross z r) = vminus (scale (dot3 z r) z) (scale (dot3 z z) r)) by (destruct z as ((a, b), c), r as ((x, y), w); cbn; apply vec_eq; ring).
    rewrite E, Z, O. destruct z as ((a, b), c), r as ((x, y), w). cbn. apply vec_eq; ring.
  Qed.
  Lemma equilibrium p : gm = 0 -> cross (vminus e s) v <> (0, 0, 0) -> f_omega f * f_omega f = (gs + ge) / (f_distance f * f_distance f * f_distance f) ->
    p = L4 \/ p = L5 -> residual gs ge gm f (seed gs ge f p) = (0, 0, 0).
  Proof.
    intros G0 Hv W P. destruct (triangle p P) as [Ns Ne]. destruct (frame_facts gs ge gm s e m v f Hf) as (Es & Ee & Em & Dp & _ & _ & _ & _ & _ & Zy & Zz & Ac & O).
    destruct (frame_turning gs ge gm s e m v f Hf Hv) as (Zx & _).
    assert (Pm0 : forall a b, point_mass a b gm = (0, 0, 0)).
    { intros a b. unfold point_mass. destruct (rltb _ _); [|reflexivity]. subst gm. destruct (vminus b a) as ((x, y), z). cbn. unfold Rdiv. apply vec_eq; ring. }
    assert (Pm : forall b mu, norm (vminus (seed gs ge f p) b) = f_distance f -> point_mass (seed gs ge f p) b mu = scale (mu / (f_distance f * f_distance f * f_distance f)) (vminus b (seed gs ge f p))).
    { intros b mu N. unfold point_mass. assert (N' : norm (vminus b (seed gs ge f p)) = f_distance f).
      { rewrite <- N. unfold norm. f_equal. destruct b as ((x, y), z), (seed gs ge f p) as ((q1, q2), q3). cbn. ring. }
      rewrite N'. now rewrite (proj2 (rltb_t _ _) Dp). }
    set (rho := vminus (seed gs ge f p) (f_origin f)).
    assert (Rz : dot3 (f_z f) rho = 0).
    { assert (E : rho = vplus (scale ((seed_x p - ge / (gs + ge)) * f_distance f) (f_x f)) (scale (seed_y p * f_distance f) (f_y f))).
      { pose proof (seed_sun p) as S1. pose proof origin_sun as S2. unfold rho. destruct (seed gs ge f p) as ((p1, p2), p3), (f_origin f) as ((o1, o2), o3), s as ((a, b), c), (f_x f) as ((x1, x2), x3), (f_y f) as ((y1, y2), y3).
        cbn in *. injection S1 as S11 S12 S13. injection S2 as S21 S22 S23. apply vec_eq; lra. }
      rewrite E, dot_comm, dot_plus, !dot_scale, (dot_comm (f_x f)), (dot_comm (f_y f)), Zx, Zy. ring. }
    unfold residual. rewrite Es, Ee, Em, Ac. unfold external_accel. rewrite !Pm0. cbn [grav_accel fold_left]. rewrite !Pm, Pm0 by assumption. fold rho.
    assert (Cw : cross (scale (f_omega f) (f_z f)) (cross (scale (f_omega f) (f_z f)) rho) = scale (- (f_omega f * f_omega f)) rho).
    { assert (E : cross (scale (f_omega f) (f_z f)) (cross (scale (f_omega f) (f_z f)) rho) = scale (f_omega f * f_omega f) (cross (f_z f) (cross (f_z f) rho))) by (destruct (f_z f) as ((a, b), c), rho as ((x, y), w); cbn; apply vec_eq; ring).
      rewrite E, (cross_twice _ _ Zz Rz). destruct rho as ((x, y), w). cbn. apply vec_eq; ring. }
    rewrite Cw, W. unfold rho. rewrite O. destruct (seed gs ge f p) as ((p1, p2), p3), s as ((a, b), c), e as ((e1, e2), e3). cbn. apply vec_eq; field; lra.
  Qed.
End Seeds.

(** * Newton's iteration *)
Section Newton.
  Variables (F : vec -> vec) (c : config) (dist : R) (p0 : vec).
  (** The positions at which the loop looks, by number. *)
  Inductive visits : nat -> vec -> Prop :=
  | visit_0 : visits 0 p0
  | visit_S k x acc : visits k x -> res_tol c < norm (F x) -> newton_step F c dist x = Some acc -> step_tol c < norm acc -> visits (S k) (vplus x acc).
  Lemma visits_unique k x y : visits k x -> visits k y -> x = y.
  Proof.
    intros H. revert y. induction H as [|k x acc H IH T N S]; intros y Y; inversion Y as [|k' x' acc' H' T' N' S']; subst; [reflexivity|].
    rewrite (IH x' H') in *. congruence.
  Qed.
  Lemma visits_before k x : visits (S k) x -> exists y, visits k y.
  Proof. inversion 1; subst; eauto. Qed.

  Definition best_ok (iter : nat) (b : best) : Prop :=
    match b_res b with
    | None => iter = 0%nat
    | Some r => visits (b_iter b) (b_pos b) /\ r = norm (F (b_pos b)) /\ (b_iter b < iter)%nat /\ forall i x, (i < iter)%nat -> visits i x -> r <= norm (F x)
    end.
  Lemma better_ok iter b x last : best_ok iter b -> visits iter x -> best_ok (S iter) (better b x (norm (F x)) iter last).
  Proof.
    intros B V. unfold better. assert (New : forall P : Prop, (forall i y, (i < iter)%nat -> visits i y -> norm (F x) <= norm (F y)) -> best_ok (S iter) {| b_pos := x; b_res := Some (norm (F x)); b_iter := iter; b_step := last |}).
    { intros _ H. unfold best_ok. cbn. repeat split; auto. intros i y I Vy. destruct (Nat.eq_dec i iter) as [->|N]; [rewrite (visits_unique _ _ _ V Vy); lra|apply (H i); [lia|exact Vy]]. }
    unfold best_ok in B. destruct (b_res b) as [r|] eqn:Er.
    - destruct B as (Vb & Eb & Lb & Mb). destruct (rltb (norm (F x)) r) eqn:T.
      + apply rltb_t in T. apply (New True). intros i y I Vy. specialize (Mb i y I Vy). lra.
      + unfold rltb in T. destruct (Rlt_dec _ _) as [|N]; [discriminate|]. unfold best_ok. rewrite Er. repeat split; auto. intros i y I Vy.
        destruct (Nat.eq_dec i iter) as [->|Ni]; [rewrite (visits_unique _ _ _ Vy V); lra|apply (Mb i); [lia|exact Vy]].
    - subst iter. apply (New True). intros i y I. lia.
  Qed.
  Definition by_residual (sol : solution) : Prop := visits (s_iter sol) (s_pos sol) /\ s_res sol = norm (F (s_pos sol)) /\ s_res sol <= res_tol c.
  Definition by_step (sol : solution) : Prop := exists k x acc, visits k x /\ res_tol c < norm (F x) /\ newton_step F c dist x = Some acc /\ norm acc <= step_tol c /\
    s_pos sol = vplus x acc /\ s_iter sol = S k /\ s_step sol = Some (norm acc) /\ s_res sol = norm (F x).
  Definition by_best (sol : solution) : Prop := visits (s_iter sol) (s_pos sol) /\ s_res sol = norm (F (s_pos sol)) /\ s_res sol <= 1 / 1000000 /\
    (exists last, visits (max_iterations c) last) /\ forall i x, (i < max_iterations c)%nat -> visits i x -> s_res sol <= norm (F x).
  Definition loop_spec (o : outcome solution lag_err) : Prop :=
    match o with
    | Ok sol => (by_residual sol /\ (s_iter sol < max_iterations c)%nat) \/ (by_step sol /\ (s_iter sol <= max_iterations c)%nat) \/ by_best sol
    | Err (DidNotConverge n _ _) => n = max_iterations c /\ (exists last, visits (max_iterations c) last) /\ forall i x, (i < max_iterations c)%nat -> visits i x -> 1 / 1000000 < norm (F x) /\ res_tol c < norm (F x)
    | Err SingularJacobian => exists k x, (k < max_iterations c)%nat /\ visits k x /\ res_tol c < norm (F x) /\ newton_step F c dist x = None
    | _ => False
    end.
  Lemma visits_tol k x y i : visits k y -> (i < k)%nat -> visits i x -> res_tol c < norm (F x).
  Proof.
    intros H. induction H as [|k z acc H IH T N S]; intros L V; [lia|]. destruct (Nat.eq_dec i k) as [->|Ni]; [now rewrite (visits_unique _ _ _ V H)|apply IH; [lia|exact V]].
  Qed.
  Lemma loop_spec_ok todo : forall iter pos last res b, (iter + todo = max_iterations c)%nat -> visits iter pos -> best_ok iter b ->
    loop_spec (newton_loop F todo iter c dist pos last res b).
  Proof.
    induction todo as [|k IH]; intros iter pos last res b E V B; cbn [newton_loop].
    - assert (Ei : iter = max_iterations c) by lia. unfold finish. unfold best_ok in B. destruct (b_res b) as [r|].
      + destruct B as (Vb & Eb & Lb & Mb). destruct (rleb r _) eqn:T; cbn [loop_spec].
        * apply rleb_t in T. right. right. unfold by_best. cbn. repeat split; auto; [exists pos; congruence|]. rewrite <- Ei. exact Mb.
        * split; [reflexivity|]. split; [exists pos; congruence|]. intros i x I Vx. split; [|apply (visits_tol iter x pos i V); [lia|exact Vx]].
          specialize (Mb i x ltac:(lia) Vx). unfold rleb in T. destruct (Rle_dec _ _); [discriminate|lra].
      + cbn [loop_spec]. split; [reflexivity|]. split; [exists pos; congruence|]. intros i x I. lia.
    - destruct (rleb (norm (F pos)) (res_tol c)) eqn:T.
      + apply rleb_t in T. cbn [loop_spec]. left. unfold by_residual. cbn. repeat split; auto. lia.
      + assert (Tl : res_tol c < norm (F pos)) by (unfold rleb in T; destruct (Rle_dec _ _); [discriminate|lra]).
        destruct (newton_step F c dist pos) as [acc|] eqn:N.
        * destruct (rleb (norm acc) (step_tol c)) eqn:Sp.
          -- apply rleb_t in Sp. cbn [loop_spec]. right. left. split; [|cbn; lia]. exists iter, pos, acc. cbn. repeat split; auto.
          -- apply IH; [lia| |now apply better_ok]. apply visit_S; auto. unfold rleb in Sp. destruct (Rle_dec _ _); [discriminate|lra].
        * cbn [loop_spec]. exists iter, pos. repeat split; auto. lia.
  Qed.
  Lemma newton_spec : loop_spec (newton F c dist p0).
  Proof. apply loop_spec_ok; [lia|constructor|reflexivity]. Qed.
End Newton.

Lemma line_loop_spec F todo alpha pos delta r : (1 / 4096 < alpha / 2 ^ (todo - 1) \/ todo = 0%nat) -> 0 < alpha ->
  match line_loop F todo alpha pos delta r with
  | Some st => exists k, (k < todo)%nat /\ st = scale (alpha / 2 ^ k) delta /\ norm (F (vplus pos st)) <= r /\
                forall j, (j < k)%nat -> r < norm (F (vplus pos (scale (alpha / 2 ^ j) delta)))
  | None => forall j, (j < todo)%nat -> r < norm (F (vplus pos (scale (alpha / 2 ^ j) delta)))
  end.
Proof.
  revert alpha. induction todo as [|n IH]; intros alpha H P; cbn [line_loop]; [intros j; lia|].
  assert (A1 : alpha / 2 ^ 0 = alpha) by (cbn; field).
  assert (Small : rleb alpha (1 / 4096) = false).
  { unfold rleb. destruct (Rle_dec alpha (1 / 4096)) as [L|]; [|reflexivity]. exfalso. destruct H as [H|H]; [|discriminate].
    assert (Q : 1 <= 2 ^ (S n - 1)) by (apply pow_R1_Rle; lra). assert (alpha / 2 ^ (S n - 1) <= alpha). { unfold Rdiv. rewrite <- (Rmult_1_r alpha) at 2. apply Rmult_le_compat_l; [lra|]. rewrite <- Rinv_1. apply Rinv_le_contravar; lra. } lra. }
  rewrite Small, orb_false_r. destruct (rleb (norm _) r) eqn:T.
  - apply rleb_t in T. exists 0%nat. rewrite A1. repeat split; auto; [lia|]. intros j; lia.
  - assert (T' : r < norm (F (vplus pos (scale alpha delta)))) by (unfold rleb in T; destruct (Rle_dec _ _); [discriminate|lra]).
    assert (Half : forall j, alpha * (1 / 2) / 2 ^ j = alpha / 2 ^ S j). { intros j. cbn. field. apply pow_nonzero. lra. }
    specialize (IH (alpha * (1 / 2))). destruct (line_loop F n (alpha * (1 / 2)) pos delta r) as [st|].
    + destruct IH as (k & K & E & L & M); [destruct n; [now right|left; rewrite Half; replace (S (S n - 1)) with (S (S n) - 1)%nat by lia; destruct H; [assumption|discriminate]]|lra|].
      exists (S k). rewrite <- Half. repeat split; auto; [lia|]. intros [|j] J; [now rewrite A1|]. rewrite <- Half. apply M. lia.
    + intros [|j] J; [now rewrite A1|]. rewrite <- Half. apply IH; [destruct n; [now right|left; rewrite Half; replace (S (S n - 1)) with (S (S n) - 1)%nat by lia; destruct H; [assumption|discriminate]]|lra|lia].
Qed.

(** * Fitted records *)
Section Fit.
  Variable truth : R -> outcome vec lag_err.
  Variable nodes : nat -> list R.
  Variable fit_coeffs : list R -> list R.
  Definition r_start (r : lrec) : R := r_mid r - r_radius r.
  Definition r_end (r : lrec) : R := r_mid r + r_radius r.
  (** The records follow one another from [a] to [b], none longer than [block]. *)
  Fixpoint tiles (l : list lrec) (a b block : R) : Prop :=
    match l with [] => a = b | r :: t => r_start r = a /\ 0 < r_radius r /\ r_end r - r_start r <= block /\ tiles t (r_end r) b block end.
  Definition sampled (order : nat) (r : lrec) : Prop :=
    exists ps, Forall2 (fun n p => truth (jd_of (r_mid r + r_radius r * n)) = Ok p) (nodes order) ps /\
      r_x r = fit_coeffs (map (fun p => at3 p 0) ps) /\ r_y r = fit_coeffs (map (fun p => at3 p 1) ps) /\ r_z r = fit_coeffs (map (fun p => at3 p 2) ps).
  Lemma samples_ok ns mid radius ps : samples truth ns mid radius = Ok ps -> Forall2 (fun n p => truth (jd_of (mid + radius * n)) = Ok p) ns ps.
  Proof.
    revert ps. induction ns as [|n t IH]; intros ps H; cbn [samples] in H; [injection H as <-; constructor|].
    destruct (truth (jd_of (mid + radius * n))) as [p|?|] eqn:E; cbn in H; [|discriminate..]. destruct (samples truth t mid radius) as [l|?|]; cbn in H; [|discriminate..].
    injection H as <-. constructor; auto.
  Qed.
  Lemma blocks_tile fuel order a b block l : a <= b -> 0 < block -> fit_blocks truth nodes fit_coeffs fuel order a b block = Some (Ok l) ->
    tiles l a b block /\ Forall (sampled order) l.
  Proof.
    intros Ab Bp. revert a Ab l. induction fuel as [|k IH]; intros a Ab l H; cbn [fit_blocks] in H.
    - destruct (rltb a b) eqn:T; [discriminate|]. injection H as <-. unfold rltb in T. destruct (Rlt_dec a b); [discriminate|]. split; [cbn; lra|constructor].
    - destruct (rltb a b) eqn:T; [|injection H as <-; unfold rltb in T; destruct (Rlt_dec a b); [discriminate|]; split; [cbn; lra|constructor]].
      apply rltb_t in T. set (stop := Rmin (a + block) b) in *.
      assert (S1 : a < stop <= b) by (unfold stop, Rmin; destruct (Rle_dec _ _); lra). assert (S2 : stop <= a + block) by (unfold stop; apply Rmin_l).
      destruct (samples truth _ _ _) as [ps|?|] eqn:Sm; [|discriminate..]. destruct (fit_blocks _ _ _ k order stop b block) as [[t|?|]|] eqn:Fb; try discriminate.
      injection H as <-. destruct (IH stop ltac:(lra) t Fb) as [Tt St]. split.
      + cbn [tiles]. unfold r_start, r_end. cbn. replace (1 / 2 * (a + stop) - 1 / 2 * (stop - a)) with a by field.
        replace (1 / 2 * (a + stop) + 1 / 2 * (stop - a)) with stop by field. repeat split; auto; lra.
      + constructor; [|exact St]. exists ps. cbn. split; [now apply samples_ok|auto].
  Qed.
  Lemma blocks_end fuel order a b block : 0 < block -> b - a <= INR fuel * block -> fit_blocks truth nodes fit_coeffs fuel order a b block <> None.
  Proof.
    intros Bp. revert a. induction fuel as [|k IH]; intros a L; cbn [fit_blocks].
    - cbn in L. destruct (rltb a b) eqn:T; [apply rltb_t in T; lra|discriminate].
    - destruct (rltb a b); [|discriminate]. destruct (samples _ _ _ _); try discriminate.
      assert (Hn : fit_blocks truth nodes fit_coeffs k order (Rmin (a + block) b) b block <> None).
      { apply IH. rewrite S_INR in L. unfold Rmin. destruct (Rle_dec _ _); [lra|]. pose proof (pos_INR k). nra. }
      destruct (fit_blocks _ _ _ k order _ b block) as [[]|]; congruence.
  Qed.
  Lemma turns_enough len piece : 0 < piece -> len < INR (turns len piece) * piece.
  Proof.
    intros P. unfold turns. rewrite S_INR. assert (E : len = len / piece * piece) by (field; lra). rewrite E at 1. apply Rmult_lt_compat_r; [exact P|].
    destruct (archimed (len / piece)) as [U _]. destruct (Z_le_gt_dec 0 (up (len / piece))) as [Z|Z].
    - rewrite INR_IZR_INZ, Z2Nat.id by lia. lra.
    - pose proof (pos_INR (Z.to_nat (up (len / piece)))). assert (IZR (up (len / piece)) < 0) by (apply IZR_lt; lia). lra.
  Qed.
  Lemma eval_in l a b block s jd o1 o2 : tiles l a b block -> a <= s <= b -> l <> [] ->
    exists r, In r l /\ r_start r <= s <= r_end r /\ let tau := (s - r_mid r) / r_radius r in
      eval_loop l s jd o1 o2 = Ok (evaluate (r_x r) tau, evaluate (r_y r) tau, evaluate (r_z r) tau) /\ -1 <= tau <= 1.
  Proof.
    revert a o1 o2. induction l as [|r t IH]; intros a o1 o2 T H N; [contradiction|]. cbn [tiles] in T. destruct T as (Ea & Rp & _ & Tt). cbn [eval_loop].
    unfold r_start, r_end in *. destruct (rleb (r_mid r - r_radius r) s && rleb s (r_mid r + r_radius r)) eqn:C.
    - apply andb_true_iff in C. rewrite !rleb_t in C. exists r. split; [now left|]. split; [exact C|]. cbv zeta. split; [reflexivity|].
      assert (E : s = r_mid r + r_radius r * ((s - r_mid r) / r_radius r)) by (field; lra). set (q := (s - r_mid r) / r_radius r) in *. clearbody q. nra.
    - assert (Gt : r_mid r + r_radius r < s). { apply andb_false_iff in C. destruct C as [C|C]; unfold rleb in C; destruct (Rle_dec _ _); try discriminate; lra. }
      destruct t as [|r' t'].
      + cbn in Tt. lra.
      + destruct (IH _ (omin o1 (r_mid r - r_radius r)) (omax o2 (r_mid r + r_radius r)) Tt ltac:(lra) ltac:(discriminate)) as (q & Iq & R). exists q. split; [now right|exact R].
  Qed.
  Lemma eval_out l s jd o1 o2 : (forall r, In r l -> ~ (r_start r <= s <= r_end r)) -> exists f g, eval_loop l s jd o1 o2 = Err (Range jd f g).
  Proof.
    revert o1 o2. induction l as [|r t IH]; intros o1 o2 H; cbn [eval_loop]; [eauto|].
    destruct (rleb _ _ && rleb _ _) eqn:C; [|apply IH; intros q Q; apply H; now right].
    apply andb_true_iff in C. rewrite !rleb_t in C. destruct (H r (or_introl eq_refl)). exact C.
  Qed.
  (** What validation has looked at. *)
  Lemma validate_ok fuel l n s stop step worst sq count m rms : 0 < step -> 0 <= worst -> 0 <= sq <= INR count * (worst * worst) ->
    validate truth fuel l n s stop step worst sq count = Some (Ok (m, rms)) ->
    worst <= m /\ 0 <= rms <= m /\
    forall k, s + INR k * step <= stop + 1 / 1000000000 -> exists p q, truth (jd_of (s + INR k * step)) = Ok p /\ evaluate_records l n (jd_of (s + INR k * step)) = Ok q /\ norm (vminus p q) * 1000 <= m.
  Proof.
    intros Sp. revert s worst sq count. induction fuel as [|f IH]; intros s worst sq count Wp Sq H; cbn [validate] in H.
    all: assert (Done : rleb s (stop + 1 / 1000000000) = false -> Some (Ok (worst, match count with 0%nat => 0 | S _ => sqrt (sq / INR count) end)) = Some (@Ok (R * R) fit_err (m, rms)) ->
       worst <= m /\ 0 <= rms <= m /\ forall k, s + INR k * step <= stop + 1 / 1000000000 -> exists p q, truth (jd_of (s + INR k * step)) = Ok p /\ evaluate_records l n (jd_of (s + INR k * step)) = Ok q /\ norm (vminus p q) * 1000 <= m).
    1, 3: intros T [= <- <-]; unfold rleb in T; destruct (Rle_dec _ _) as [|T']; [discriminate|]; (split; [lra|]); split;
      [destruct count as [|c]; [lra|]; (split; [apply sqrt_pos|]); rewrite <- (sqrt_square worst) by lra; apply sqrt_le_1_alt;
       assert (0 < INR (S c)) by (apply lt_0_INR; lia); apply (Rmult_le_reg_r (INR (S c))); [lra|]; unfold Rdiv; rewrite Rmult_assoc, Rinv_l by lra; lra
      |intros k K; pose proof (pos_INR k); assert (0 <= INR k * step) by nra; lra].
    - destruct (rleb _ _) eqn:T; [discriminate|]. now apply Done.
    - destruct (rleb _ _) eqn:T; [|now apply Done]. clear Done. destruct (truth (jd_of s)) as [p|?|] eqn:Tp; cbn in H; [|discriminate..].
      destruct (evaluate_records l n (jd_of s)) as [q|?|] eqn:Ev; [|discriminate..].
      set (e := norm (vminus p q) * 1000) in *. assert (Ep : 0 <= e) by (unfold e; pose proof (norm_nonneg (vminus p q)); lra).
      pose proof (Rmax_l worst e) as M1. pose proof (Rmax_r worst e) as M2. set (w := Rmax worst e) in *. clearbody w.
      destruct (IH (s + step) w (sq + e * e) (S count)) as (A & B & C); [lra|rewrite S_INR; pose proof (pos_INR count); split; [nra|]|exact H|].
      { assert (worst * worst <= w * w) by nra. assert (e * e <= w * w) by nra. assert (INR count * (worst * worst) <= INR count * (w * w)) by (apply Rmult_le_compat_l; lra). lra. }
      split; [lra|]. split; [exact B|]. intros [|k] K.
      + cbn [INR]. rewrite Rmult_0_l, Rplus_0_r. exists p, q. repeat split; auto. unfold e in *. lra.
      + rewrite S_INR in *. replace (s + (INR k + 1) * step) with (s + step + INR k * step) in * by ring. apply C. exact K.
  Qed.
  Lemma validate_end fuel l n s stop step worst sq count : 0 < step -> stop + 1 / 1000000000 - s < INR fuel * step -> validate truth fuel l n s stop step worst sq count <> None.
  Proof.
    intros Sp. revert s worst sq count. induction fuel as [|f IH]; intros s worst sq count L; cbn [validate].
    - cbn in L. destruct (rleb _ _) eqn:T; [apply rleb_t in T; lra|discriminate].
    - destruct (rleb _ _) eqn:T; [|discriminate]. destruct (solver _); try discriminate. destruct (evaluate_records _ _ _); try discriminate. apply IH. rewrite S_INR in L. lra.
  Qed.
End Fit.

(** * Steps *)
Lemma some_inj {A} (a b : A) : Some a = Some b -> a = b. Proof. congruence. Qed.
Lemma norm_scale k u : norm (scale k u) = Rabs k * norm u.
Proof. unfold norm. rewrite dot_scale_both. rewrite sqrt_mult_alt by nra. f_equal. replace (k * k) with (Rsqr k) by reflexivity. apply sqrt_Rsqr_abs. Qed.
Lemma of3_at3 v : of3 (at3 v) = v. Proof. destruct v as ((a, b), c). reflexivity. Qed.
Lemma at3_ext u v : (forall i, (i < 3)%nat -> at3 u i = at3 v i) -> u = v.
Proof. intros H. rewrite <- (of3_at3 u), <- (of3_at3 v). unfold of3. now rewrite !H by lia. Qed.
Lemma at3_of3 f i : (i < 3)%nat -> at3 (of3 f) i = f i. Proof. intros H. destruct i as [|[|[|i]]]; [reflexivity..|lia]. Qed.
Lemma at3_plus u v i : at3 (vplus u v) i = at3 u i + at3 v i. Proof. destruct u as ((a, b), c), v as ((x, y), z). destruct i as [|[|i]]; reflexivity. Qed.
Lemma at3_minus u v i : at3 (vminus u v) i = at3 u i - at3 v i. Proof. destruct u as ((a, b), c), v as ((x, y), z). destruct i as [|[|i]]; reflexivity. Qed.
Lemma at3_scale k v i : at3 (scale k v) i = k * at3 v i. Proof. destruct v as ((x, y), z). destruct i as [|[|i]]; reflexivity. Qed.
Lemma search_spec F pos delta r :
  (exists k, (k < 12)%nat /\ line_search F pos delta r = scale (1 / 2 ^ k) delta /\ norm (F (vplus pos (line_search F pos delta r))) <= r /\
     forall j, (j < k)%nat -> r < norm (F (vplus pos (scale (1 / 2 ^ j) delta)))) \/
  (line_search F pos delta r = delta /\ forall j, (j < 12)%nat -> r < norm (F (vplus pos (scale (1 / 2 ^ j) delta)))).
Proof.
  pose proof (line_loop_spec F 12 1 pos delta r) as H. unfold line_search. assert (1 / 4096 < 1 / 2 ^ (12 - 1)) by (cbn; lra).
  destruct (line_loop F 12 1 pos delta r) as [st|]; [|right; split; [reflexivity|apply H; [now left|lra]]]. destruct H as (k & K & E & L & M); [now left|lra|].
  left. exists k. subst st. auto.
Qed.
Section Step.
  Variables (F : vec -> vec) (c : config) (dist : R) (x acc : vec).
  Hypothesis Hs : newton_step F c dist x = Some acc.
  Hypothesis Dp : 0 <= dist.
  Lemma step_cap : norm acc <= 5 / 100 * dist.
  Proof.
    unfold newton_step in Hs. destruct (solve_linear _ _ _) as [y|]; [|discriminate]. apply some_inj in Hs. rewrite <- Hs.
    set (delta := if rltb _ _ then _ else _). assert (D : norm delta <= 5 / 100 * dist).
    { unfold delta. destruct (rltb _ _) eqn:T; [apply rltb_t in T|unfold rltb in T; destruct (Rlt_dec _ _); [discriminate|lra]].
      rewrite norm_scale, Rabs_right; [apply Req_le; field; lra|]. apply Rle_ge, Rmult_le_pos; [lra|]. left. apply Rinv_0_lt_compat. lra. }
    destruct (search_spec F x delta (norm (F x))) as [(k & _ & -> & _)|[-> _]]; [|exact D]. rewrite norm_scale. assert (P : 1 <= 2 ^ k) by (apply pow_R1_Rle; lra).
    assert (0 <= 1 / 2 ^ k <= 1). { split; [apply Rmult_le_pos; [lra|left; apply Rinv_0_lt_compat; lra]|]. apply (Rmult_le_reg_r (2 ^ k)); [lra|]. unfold Rdiv. rewrite Rmult_assoc, Rinv_l by lra. lra. }
    rewrite Rabs_right by lra. pose proof (norm_nonneg delta). nra.
  Qed.
  (** A residual that is affine. *)
  Variables (A : nat -> nat -> R) (b : nat -> R).
  Hypothesis HF : forall v i, (i < 3)%nat -> at3 (F v) i = b i + rsum 3 (fun j => A i j * at3 v j).
  Hypothesis Hh : fd_step c <> 0.
  Lemma affine_jacobian r k : (r < 3)%nat -> (k < 3)%nat -> jacobian F x (fd_step c) r k = A r k.
  Proof.
    intros Hr Hk. unfold jacobian. rewrite at3_scale, at3_minus, !HF by assumption. cbn [rsum]. rewrite !at3_plus, !at3_minus. unfold axis. rewrite !at3_of3 by lia.
    destruct k as [|[|[|k]]]; [| | |lia]; cbn [Nat.eqb]; field; assumption.
  Qed.
  Lemma affine_step : F (vplus x acc) = (0, 0, 0) \/ norm acc = 5 / 100 * dist.
  Proof.
    unfold newton_step in Hs. destruct (solve_linear _ _ _) as [y|] eqn:E; [|discriminate]. apply some_inj in Hs. rewrite <- Hs.
    assert (Sy : forall r, (r < 3)%nat -> rsum 3 (fun j => A r j * y j) = - at3 (F x) r).
    { intros r Hr. pose proof (proj2 (solve_linear_ok _ _ _ _ E y) (fun _ _ => eq_refl) r Hr) as S. rewrite at3_scale in S. rewrite (rsum_ext 3 _ (fun j => jacobian F x (fd_step c) r j * y j)), S by (intros; now rewrite affine_jacobian). ring. }
    assert (Ft : forall t, F (vplus x (scale t (of3 y))) = scale (1 - t) (F x)).
    { intros t. apply at3_ext. intros i I. rewrite HF, at3_scale by assumption. specialize (Sy i I). pose proof (HF x i I) as Fx. cbn [rsum] in *. rewrite !at3_plus, !at3_scale, !at3_of3 by lia. rewrite Fx in *. nra. }
    assert (Go : forall t, 0 <= t <= 1 -> line_search F x (scale t (of3 y)) (norm (F x)) = scale t (of3 y)).
    { intros t T. unfold line_search. cbn [line_loop]. assert (One : scale 1 (scale t (of3 y)) = scale t (of3 y)) by (destruct (scale t (of3 y)) as ((p, q), r); cbn; apply vec_eq; ring).
      rewrite One, Ft, norm_scale, Rabs_right by lra. replace (rleb ((1 - t) * norm (F x)) (norm (F x))) with true; [reflexivity|]. symmetry. apply rleb_t. pose proof (norm_nonneg (F x)). nra. }
    destruct (rltb _ _) eqn:T; [apply rltb_t in T|].
    - right. assert (Q : 0 < norm (of3 y)) by lra. assert (0 <= 5 / 100 * dist / norm (of3 y) <= 1).
      { split; [apply Rmult_le_pos; [lra|left; now apply Rinv_0_lt_compat]|]. apply (Rmult_le_reg_r (norm (of3 y))); [lra|]. unfold Rdiv. rewrite Rmult_assoc, Rinv_l by lra. lra. }
      rewrite Go, norm_scale, Rabs_right by lra. field. lra.
    - left. assert (E1 : of3 y = scale 1 (of3 y)) by (destruct (of3 y) as ((p, q), r); cbn; apply vec_eq; ring). rewrite E1, Go, Ft by lra. destruct (F x) as ((p, q), r). cbn. apply vec_eq; ring.
  Qed.
End Step.
(** A diagonal system is always solved. *)
Definition diagonal (n c : nat) (a : nat -> nat -> R) : Prop :=
  (forall r k, (r < n)%nat -> (k < n)%nat -> r <> k -> a r k = 0) /\ forall r, (c <= r < n)%nat -> 1 / 1000000000000000000000000000000 <= Rabs (a r r).
Lemma diagonal_pivot n a col row todo : diagonal n col a -> (col < row)%nat -> (row + todo <= n)%nat -> pivot_search a col row todo col = col.
Proof.
  revert row. induction todo as [|k IH]; intros row D L B; cbn [pivot_search]; [reflexivity|]. destruct D as [O G]. rewrite (O row col) by lia.
  replace (rltb (Rabs (a col col)) (Rabs 0)) with false; [apply IH; [split; assumption|lia|lia]|]. symmetry. unfold rltb. destruct (Rlt_dec _ _) as [T|]; [|reflexivity]. rewrite Rabs_R0 in T. pose proof (Rabs_pos (a col col)). lra.
Qed.
Lemma diagonal_column n c a b : (c < n)%nat -> diagonal n c a -> exists a' b', lin_column n c (a, b) = Some (a', b') /\ diagonal n (S c) a'.
Proof.
  intros C D. unfold lin_column. rewrite (diagonal_pivot n) by (assumption || lia). pose proof D as [O G]. pose proof (G c ltac:(lia)) as Gc.
  replace (rltb (Rabs (a c c)) _) with false by (symmetry; unfold rltb; destruct (Rlt_dec _ _); [lra|reflexivity]). rewrite Nat.eqb_refl. eexists _, _. split; [reflexivity|]. split.
  - intros r k Hr Hk N. destruct (Nat.eqb_spec r c) as [->|Nr].
    + destruct (k <? c)%nat; rewrite (O c k) by lia; unfold Rdiv; ring.
    + destruct (k <? c)%nat; rewrite (O r k) by lia; [reflexivity|]. rewrite (O r c) by lia. ring.
  - intros r Hr. destruct (Nat.eqb_spec r c) as [->|Nr]; [lia|]. destruct (Nat.ltb_spec r c); [lia|]. rewrite (O r c) by lia. rewrite Rmult_0_l, Rminus_0_r. apply G. lia.
Qed.
Lemma diagonal_loop n todo : forall c a b, (c + todo = n)%nat -> diagonal n c a -> exists x, lin_loop n c todo (a, b) = Some x.
Proof.
  induction todo as [|k IH]; intros c a b E D; cbn [lin_loop]; [eauto|]. destruct (diagonal_column n c a b ltac:(lia) D) as (a' & b' & -> & D'). apply IH; [lia|exact D'].
Qed.

(** * More on fitted records *)
Lemma secs_jd_of s : secs (jd_of s) = s. Proof. unfold secs, jd_of. field. unfold day. lra. Qed.
Lemma jd_of_secs jd : jd_of (secs jd) = jd. Proof. unfold secs, jd_of. field. unfold day. lra. Qed.
Lemma tiles_block l a b block r : tiles l a b block -> In r l -> r_end r - r_start r <= block.
Proof. revert a. induction l as [|q t IH]; intros a; cbn [tiles]; [intros _ []|]. intros (_ & _ & A & T) [<-|I]; [exact A|now apply (IH _ T)]. Qed.
Lemma tiles_in l a b block r : tiles l a b block -> In r l -> a <= r_start r /\ r_end r <= b /\ 0 < r_radius r.
Proof.
  assert (Le : forall l a, tiles l a b block -> a <= b).
  { induction l0 as [|q t IH]; intros a0 T; cbn [tiles] in T; [lra|]. destruct T as (<- & P & _ & T). apply IH in T. unfold r_start, r_end in *. lra. }
  revert a. induction l as [|q t IH]; intros a T I; [contradiction|]. pose proof T as T0. cbn [tiles] in T. destruct T as (<- & P & _ & T). destruct I as [<-|I].
  - split; [lra|]. split; [now apply (Le t)|exact P].
  - destruct (IH _ T I) as (A & B & C). unfold r_start, r_end in *. split; [lra|auto].
Qed.
Section Fit2.
  Variable truth : R -> outcome vec lag_err.
  Variable nodes : nat -> list R.
  Variable fit_coeffs : list R -> list R.
  Hypothesis Total : forall jd, exists p, truth jd = Ok p.
  Lemma samples_total ns mid radius : exists ps, samples truth ns mid radius = Ok ps.
  Proof. induction ns as [|n t [ps IH]]; cbn [samples]; [eauto|]. destruct (Total (jd_of (mid + radius * n))) as [p ->]. cbn. rewrite IH. cbn. eauto. Qed.
  Lemma blocks_total fuel order a b block : 0 < block -> b - a <= INR fuel * block -> exists l, fit_blocks truth nodes fit_coeffs fuel order a b block = Some (Ok l).
  Proof.
    intros Bp. revert a. induction fuel as [|k IH]; intros a L; cbn [fit_blocks].
    - cbn in L. destruct (rltb a b) eqn:T; [apply rltb_t in T; lra|eauto].
    - destruct (rltb a b); [|eauto]. destruct (samples_total (nodes order) (1 / 2 * (a + Rmin (a + block) b)) (1 / 2 * (Rmin (a + block) b - a))) as [ps ->].
      destruct (IH (Rmin (a + block) b)) as [l ->]; [|eauto]. rewrite S_INR in L. unfold Rmin. destruct (Rle_dec _ _); [lra|]. pose proof (pos_INR k). nra.
  Qed.
  Variables (l : list lrec) (n : nat) (a b block : R).
  Hypothesis Tl : tiles l a b block. Hypothesis Ab : a < b. Hypothesis Np : n <> 0%nat.
  Lemma evaluate_covered s : a <= s <= b -> exists q, evaluate_records l n (jd_of s) = Ok q.
  Proof.
    intros H. assert (N : l <> []) by (intros ->; cbn in Tl; lra). unfold evaluate_records. replace (match l with [] => true | _ => false end || (n =? 0)%nat) with false.
    - change ((jd_of s - j2000) * day) with (secs (jd_of s)). rewrite secs_jd_of. destruct (eval_in l a b block s (jd_of s) None None Tl H N) as (r & _ & _ & E & _). eauto.
    - destruct l; [contradiction|]. symmetry. now apply Nat.eqb_neq.
  Qed.
  Lemma evaluate_beyond s : b < s -> exists e, evaluate_records l n (jd_of s) = Err e.
  Proof.
    intros H. unfold evaluate_records. destruct (_ || _); [eauto|]. change ((jd_of s - j2000) * day) with (secs (jd_of s)). rewrite secs_jd_of.
    destruct (eval_out l s (jd_of s) None None) as (f & g & ->); [|eauto]. intros r I (_ & R). pose proof (tiles_in l a b block r Tl I). lra.
  Qed.
  Lemma validate_total fuel s step worst sq count : 0 < step -> a <= s -> b + 1 / 1000000000 - s < INR fuel * step ->
    (forall k, s + INR k * step <= b + 1 / 1000000000 -> s + INR k * step <= b) ->
    exists m rms, validate truth fuel l n s b step worst sq count = Some (Ok (m, rms)).
  Proof.
    intros Sp. revert s worst sq count. induction fuel as [|f IH]; intros s worst sq count As L G; cbn [validate].
    - cbn in L. destruct (rleb _ _) eqn:T; [apply rleb_t in T; lra|eauto].
    - destruct (rleb _ _) eqn:T; [apply rleb_t in T|eauto]. destruct (Total (jd_of s)) as [p ->]. cbn [solver].
      assert (Sb : s <= b). { specialize (G 0%nat). cbn in G. rewrite Rmult_0_l, Rplus_0_r in G. auto. }
      destruct (evaluate_covered s) as [q ->]; [lra|]. apply IH; [lra|rewrite S_INR in L; lra|]. intros k. specialize (G (S k)). rewrite S_INR in G. replace (s + step + INR k * step) with (s + (INR k + 1) * step) by ring. exact G.
  Qed.
  Lemma validate_beyond k : forall fuel s step worst sq count, 0 < step -> a <= s -> b + 1 / 1000000000 - s < INR fuel * step ->
    b < s + INR k * step <= b + 1 / 1000000000 -> validate truth fuel l n s b step worst sq count = Some (Err InvalidConfig).
  Proof.
    assert (Go : forall k fuel s step, 0 < step -> b + 1 / 1000000000 - s < INR fuel * step -> b < s + INR k * step <= b + 1 / 1000000000 -> fuel <> 0%nat).
    { intros k' fuel s step Sp L H ->. cbn [INR] in L. pose proof (pos_INR k'). assert (0 <= INR k' * step) by (apply Rmult_le_pos; lra). lra. }
    induction k as [|k IH]; intros fuel s step worst sq count Sp As L H; pose proof (Go _ _ _ _ Sp L H) as N; (destruct fuel as [|f]; [contradiction|]); cbn [validate].
    - cbn [INR] in H. rewrite (proj2 (rleb_t _ _)) by lra. destruct (Total (jd_of s)) as [p ->]. cbn [solver]. destruct (evaluate_beyond s) as [e ->]; [lra|reflexivity].
    - rewrite S_INR in H. assert (0 <= INR k * step) by (apply Rmult_le_pos; [apply pos_INR|lra]). rewrite (proj2 (rleb_t _ _)) by lra. destruct (Total (jd_of s)) as [p ->]. cbn [solver].
      destruct (Rle_lt_dec s b) as [Sb|Sb]; [|destruct (evaluate_beyond s) as [e ->]; [lra|reflexivity]]. destruct (evaluate_covered s) as [q ->]; [lra|]. apply IH; try lra. rewrite S_INR in L. lra.
  Qed.
End Fit2.
(** The quoted range. *)
Definition lowest (l : list lrec) (o : option R) (x : R) : Prop := (o = Some x \/ exists r, In r l /\ x = r_start r) /\ (forall y, o = Some y -> x <= y) /\ forall r, In r l -> x <= r_start r.
Definition highest (l : list lrec) (o : option R) (x : R) : Prop := (o = Some x \/ exists r, In r l /\ x = r_end r) /\ (forall y, o = Some y -> y <= x) /\ forall r, In r l -> r_end r <= x.
Lemma eval_quotes l s jd : forall o1 o2 e, (l <> [] \/ (o1 <> None /\ o2 <> None)) -> eval_loop l s jd o1 o2 = Err e ->
  exists x y, e = Range jd (Some (jd_of x)) (Some (jd_of y)) /\ lowest l o1 x /\ highest l o2 y.
Proof.
  induction l as [|r t IH]; intros o1 o2 e N H; cbn [eval_loop] in H.
  - destruct N as [N|[N1 N2]]; [contradiction|]. destruct o1 as [x|], o2 as [y|]; try contradiction. injection H as <-. exists x, y. split; [reflexivity|].
    split; (split; [now left|split; [intros ? [= <-]; lra|intros q []]]).
  - destruct (rleb _ _ && rleb _ _); [discriminate|]. apply IH in H; [|right; split; unfold omin, omax; discriminate]. destruct H as (x & y & -> & (A1 & A2 & A3) & (B1 & B2 & B3)).
    exists x, y. split; [reflexivity|]. specialize (A2 _ eq_refl). specialize (B2 _ eq_refl). unfold omin, omax in *. split.
    + split; [|split].
      * destruct A1 as [A1|(q & I & E)]; [|right; exists q; split; [now right|exact E]]. injection A1 as <-. destruct o1 as [z|]; [|right; exists r; split; [now left|reflexivity]].
        unfold Rmin. destruct (Rle_dec _ _); [now left|right; exists r; split; [now left|reflexivity]].
      * intros z ->. pose proof (Rmin_l z (r_mid r - r_radius r)). lra.
      * intros q [<-|I]; [|now apply A3]. unfold r_start. destruct o1 as [z|]; [pose proof (Rmin_r z (r_mid r - r_radius r))|]; lra.
    + split; [|split].
      * destruct B1 as [B1|(q & I & E)]; [|right; exists q; split; [now right|exact E]]. injection B1 as <-. destruct o2 as [z|]; [|right; exists r; split; [now left|reflexivity]].
        unfold Rmax. destruct (Rle_dec _ _); [right; exists r; split; [now left|reflexivity]|now left].
      * intros z ->. pose proof (Rmax_l z (r_mid r + r_radius r)). lra.
      * intros q [<-|I]; [|now apply B3]. unfold r_end. destruct o2 as [z|]; [pose proof (Rmax_r z (r_mid r + r_radius r))|]; lra.
Qed.
Lemma eval_first l s jd : forall o1 o2 v, eval_loop l s jd o1 o2 = Ok v ->
  exists pre r post, l = pre ++ r :: post /\ (forall q, In q pre -> ~ (r_start q <= s <= r_end q)) /\ r_start r <= s <= r_end r /\
    let tau := (s - r_mid r) / r_radius r in v = (evaluate (r_x r) tau, evaluate (r_y r) tau, evaluate (r_z r) tau).
Proof.
  induction l as [|r t IH]; intros o1 o2 v H; cbn [eval_loop] in H; [discriminate|]. destruct (rleb _ _ && rleb _ _) eqn:C.
  - apply andb_true_iff in C. rewrite !rleb_t in C. exists [], r, t. split; [reflexivity|]. split; [intros q []|]. split; [exact C|]. cbv zeta. congruence.
  - destruct (IH _ _ _ H) as (pre & q & post & -> & P & Q). exists (r :: pre), q, post. split; [reflexivity|]. split; [|exact Q]. intros w [<-|I]; [|now apply P].
    intros W. unfold r_start, r_end in W. rewrite <- !rleb_t in W. destruct W as [W1 W2]. rewrite W1, W2 in C. discriminate.
Qed.
