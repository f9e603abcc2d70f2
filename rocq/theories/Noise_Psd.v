(** The semi-definiteness test of process noise: it accepts every positive
    semi-definite matrix, and what it accepts is semi-definite up to the
    tolerance. *)
From Coq Require Import List PeanoNat Bool Lia Reals Lra Psatz.
From Verif Require Import Base Noise_Model Noise_Proofs.
Import ListNotations.
Local Open Scope R_scope.

(** * What a pivot writes *)
Lemma set_other m i j v a b : (a <> i \/ b <> j) -> set_at m i j v a b = m a b.
Proof. intros H. unfold set_at. destruct (Nat.eqb_spec a i), (Nat.eqb_spec b j); cbn; try reflexivity. lia. Qed.
Lemma set_same m i j v : set_at m i j v i j = v.
Proof. unfold set_at. now rewrite !Nat.eqb_refl. Qed.

(** The rest of the entry (j, k) once the first i columns are taken away. *)
Definition left (a l : mat) (i : nat) : mat := fun j k => a j k - sumn i (fun t => l j t * l k t).
Lemma left_ext a l l' i j k : (forall p t, (t < i)%nat -> l' p t = l p t) -> left a l' i j k = left a l i j k.
Proof. intros H. unfold left. f_equal. apply sumn_ext. intros t T. now rewrite !H. Qed.

Lemma column_spec a i lii js : forall l j k, column a l i lii js j k = if (Nat.eqb k i && existsb (Nat.eqb j) js)%bool then left a l i j i / lii else l j k.
Proof.
  induction js as [|h r IH]; intros l j k; cbn [column existsb]; [now rewrite andb_false_r|]. rewrite IH.
  assert (E : forall v p q, left a (set_at l h i v) i p q = left a l i p q) by (intros; apply left_ext; intros; apply set_other; lia).
  rewrite E. destruct (Nat.eqb_spec k i) as [->|N]; cbn [andb]; [|apply set_other; auto].
  destruct (existsb (Nat.eqb j) r); [now rewrite orb_true_r|]. rewrite orb_false_r. destruct (Nat.eqb_spec j h) as [->|M]; [|apply set_other; auto]. now rewrite set_same.
Qed.
Lemma column0_spec a i js : forall l l', column0 a l i js = Some l' -> (forall j, In j js -> Rabs (left a l i j i) <= / 10 ^ 12) /\ (forall j k, l' j k = if (Nat.eqb k i && existsb (Nat.eqb j) js)%bool then 0 else l j k).
Proof.
  induction js as [|h r IH]; intros l l' H; cbn [column0 existsb] in *.
  - injection H as <-. split; [intros j []|]. intros j k. now rewrite andb_false_r.
  - destruct (Rlt_dec _ _) as [|L]; [discriminate|]. apply IH in H. destruct H as (A & B).
    assert (E : forall v p q, left a (set_at l h i v) i p q = left a l i p q) by (intros; apply left_ext; intros; apply set_other; lia).
    split.
    + intros j [<-|J]; [fold (left a l i h i) in L; apply Rnot_lt_le in L; exact L|]. rewrite <- (E 0). now apply A.
    + intros j k. rewrite B. destruct (Nat.eqb_spec k i) as [->|N]; cbn [andb]; [|apply set_other; auto].
      destruct (existsb (Nat.eqb j) r); [now rewrite orb_true_r|]. rewrite orb_false_r. destruct (Nat.eqb_spec j h) as [->|M]; [|apply set_other; auto]. apply set_same.
Qed.
Lemma column0_some a i js : forall l, (forall j, In j js -> Rabs (left a l i j i) <= / 10 ^ 12) -> exists l', column0 a l i js = Some l'.
Proof.
  induction js as [|h r IH]; intros l H; cbn [column0]; [eauto|].
  destruct (Rlt_dec _ _) as [L|L]; [exfalso; apply (Rlt_not_le _ _ L); apply H; now left|]. apply IH. intros j J. rewrite (left_ext a l) by (intros; apply set_other; lia). apply H. now right.
Qed.
Lemma in_later n i j : existsb (Nat.eqb j) (seq (S i) (n - S i)) = true <-> (i < j < n)%nat.
Proof.
  rewrite existsb_exists. split.
  - intros (x & I1 & E). apply Nat.eqb_eq in E. subst x. apply in_seq in I1. lia.
  - intros H. exists j. split; [apply in_seq; lia|apply Nat.eqb_refl].
Qed.

(** A pivot that goes through. *)
Lemma pivot_spec n a i l l' : pivot n a i l = Some l' ->
  - / 10 ^ 18 <= left a l i i i /\
  (forall j k, (k <> i \/ j < i \/ n <= j)%nat -> j <> i \/ k <> i -> l' j k = l j k) /\
  l' i i = sqrt (Rmax (left a l i i i) 0) /\
  (l' i i = 0 -> forall j, (i < j < n)%nat -> l' j i = 0 /\ Rabs (left a l i j i) <= / 10 ^ 12) /\
  (l' i i <> 0 -> forall j, (i < j < n)%nat -> l' j i = left a l i j i / l' i i).
Proof.
  unfold pivot. fold (left a l i i i). destruct (Rlt_dec _ _) as [|L]; [discriminate|]. cbv zeta. set (d := sqrt (Rmax (left a l i i i) 0)).
  assert (E : forall p q, left a (set_at l i i d) i p q = left a l i p q) by (intros; apply left_ext; intros; apply set_other; lia).
  assert (K : forall j k, (k <> i \/ j < i \/ n <= j)%nat -> (Nat.eqb k i && existsb (Nat.eqb j) (seq (S i) (n - S i)))%bool = false).
  { intros j k H. destruct (Nat.eqb_spec k i) as [->|]; [|reflexivity]. cbn. destruct (existsb _ _) eqn:X; [|reflexivity]. apply in_later in X. lia. }
  assert (KI : (Nat.eqb i i && existsb (Nat.eqb i) (seq (S i) (n - S i)))%bool = false).
  { destruct (existsb _ _) eqn:X; [apply in_later in X; lia|apply andb_false_r]. }
  assert (KT : forall j, (i < j < n)%nat -> (Nat.eqb i i && existsb (Nat.eqb j) (seq (S i) (n - S i)))%bool = true).
  { intros j H. rewrite Nat.eqb_refl. now apply in_later. }
  destruct (Req_EM_T d 0) as [Z|NZ].
  - intros H. apply column0_spec in H. destruct H as (A & B).
    assert (D : l' i i = d) by (rewrite B, KI; apply set_same).
    split; [lra|]. split; [intros j k H1 H2; rewrite B, K by assumption; now apply set_other|]. split; [exact D|]. split; [|intros NZ; congruence].
    intros _ j J. split; [now rewrite B, KT|]. rewrite <- E. apply A. apply in_seq. lia.
  - intros H. injection H as <-.
    assert (D : column a (set_at l i i d) i d (seq (S i) (n - S i)) i i = d) by (rewrite column_spec, KI; apply set_same).
    split; [lra|]. split; [intros j k H1 H2; rewrite column_spec, K by assumption; now apply set_other|]. split; [exact D|]. split; [rewrite D; intros; contradiction|].
    intros _ j J. rewrite D, column_spec, KT by assumption. now rewrite E.
Qed.

(** * Every semi-definite matrix is accepted *)
Lemma form_bump n A x i c : symmetric n A -> (i < n)%nat ->
  form n A (fun k => x k + (if Nat.eqb k i then c else 0)) = form n A x + 2 * c * sumn n (fun k => A i k * x k) + c * c * A i i.
Proof.
  intros SY L. unfold form.
  assert (Z : forall f, sumn n (fun k => (if Nat.eqb k i then c else 0) * f k) = c * f i).
  { intros f. rewrite (sumn_one n i); [now rewrite Nat.eqb_refl|exact L|]. intros k _ N. apply Nat.eqb_neq in N. rewrite N. ring. }
  rewrite (sumn_ext n _ (fun p => sumn n (fun k => x p * A p k * x k) + (c * (x p * A p i) + (if Nat.eqb p i then c else 0) * (sumn n (fun k => A p k * x k) + c * A p i)))).
  - rewrite sumn_add. rewrite sumn_add, Z, sumn_scale. rewrite (sumn_ext n (fun p => x p * A p i) (fun k => A i k * x k)) by (intros p P; rewrite (SY p i) by assumption; ring). ring.
  - intros p P. rewrite (sumn_ext n _ (fun k => x p * A p k * x k + ((if Nat.eqb k i then c else 0) * (x p * A p k) + (if Nat.eqb p i then c else 0) * (A p k * x k + (if Nat.eqb k i then c else 0) * A p k)))) by (intros; ring).
    rewrite !sumn_add, Z, sumn_scale, sumn_add, Z. ring.
Qed.
Lemma form_minus_rank1 n A u x : form n (fun j k => A j k - u j * u k) x = form n A x - sumn n (fun k => u k * x k) ^ 2.
Proof.
  unfold form. cbn [pow]. rewrite Rmult_1_r, sumn_mul.
  rewrite (sumn_ext n _ (fun p => sumn n (fun k => x p * A p k * x k) + (-1) * sumn n (fun k => u p * x p * (u k * x k)))).
  - rewrite sumn_add, sumn_scale. ring.
  - intros p _. rewrite <- sumn_scale, <- sumn_add. apply sumn_ext. intros. ring.
Qed.

Lemma sqrt_eq0 s : sqrt (Rmax s 0) = 0 <-> s <= 0.
Proof.
  split.
  - intros H. apply sqrt_eq_0 in H; [|apply Rmax_r]. pose proof (Rmax_l s 0). lra.
  - intros H. rewrite Rmax_right by lra. apply sqrt_0.
Qed.
Lemma left_sym n a l i : symmetric n a -> symmetric n (left a l i).
Proof. intros H j k J K. unfold left. rewrite (H j k) by assumption. f_equal. apply sumn_ext. intros. ring. Qed.
Lemma left_next a l l' i j k : (forall p t, (t < i)%nat -> l' p t = l p t) -> left a l' (S i) j k = left a l i j k - l' j i * l' k i.
Proof. intros H. rewrite <- (left_ext a l l' i j k H). unfold left. cbn [sumn]. ring. Qed.

Definition psd_from (n i : nat) (A : mat) : Prop := forall x, (forall k, (k < i)%nat -> x k = 0) -> 0 <= form n A x.

Lemma unit_form n A i : (i < n)%nat -> form n A (fun k => if Nat.eqb k i then 1 else 0) = A i i.
Proof.
  intros L. unfold form. rewrite (sumn_one n i); [|exact L|].
  - rewrite (sumn_one n i); [rewrite Nat.eqb_refl; ring|exact L|]. intros k _ N. apply Nat.eqb_neq in N. rewrite N. ring.
  - intros p _ N. apply Nat.eqb_neq in N. apply sumn_zero. intros. rewrite N. ring.
Qed.

Lemma zero_pivot n A i j : symmetric n A -> psd_from n i A -> (i < j < n)%nat -> A i i = 0 -> A j i = 0.
Proof.
  intros SY P J Z. 
  assert (Q : forall c, 0 <= A j j + 2 * c * A j i).
  { intros c. pose proof (P (fun k => (if Nat.eqb k j then 1 else 0) + (if Nat.eqb k i then c else 0))) as H.
    rewrite form_bump in H by (assumption || lia). rewrite unit_form in H by lia. rewrite Z in H.
    rewrite (sumn_one n j) in H; [|lia|intros k _ N; apply Nat.eqb_neq in N; rewrite N; ring]. rewrite Nat.eqb_refl, (SY i j) in H by lia.
    assert (0 <= A j j + 2 * c * (A j i * 1) + c * c * 0); [|lra]. apply H. intros k K. destruct (Nat.eqb_spec k j); [lia|]. destruct (Nat.eqb_spec k i); [lia|]. ring. }
  destruct (Req_dec (A j i) 0) as [E|N]; [exact E|]. exfalso.
  pose proof (Q (- (A j j + 1) / (2 * A j i))) as H. replace (A j j + 2 * (- (A j j + 1) / (2 * A j i)) * A j i) with (-1) in H by (field; exact N). lra.
Qed.

Lemma pivots_complete n a : symmetric n a -> forall d i l, (i + d = n)%nat -> psd_from n i (left a l i) -> exists l', pivots n a l (seq i d) = Some l'.
Proof.
  intros SY. induction d as [|d IH]; intros i l EN P; cbn [seq pivots]; [eauto|].
  assert (LI : (i < n)%nat) by lia.
  pose proof (left_sym n a l i SY) as SL.
  assert (D0 : 0 <= left a l i i i).
  { rewrite <- (unit_form n (left a l i) i LI). apply P. intros k K. destruct (Nat.eqb_spec k i); [lia|reflexivity]. }
  assert (T : exists l', pivot n a i l = Some l').
  { unfold pivot. fold (left a l i i i). destruct (Rlt_dec _ _) as [L|_]. { exfalso. assert (0 < / 10 ^ 18) by (apply Rinv_0_lt_compat; lra). lra. }
    cbv zeta. destruct (Req_EM_T _ _) as [Z|]; [|eauto]. apply sqrt_eq0 in Z. apply column0_some. intros j J. apply in_seq in J.
    rewrite (left_ext a l) by (intros; apply set_other; lia). rewrite (zero_pivot n (left a l i) i j) by (assumption || lia || lra). rewrite Rabs_R0. left. apply Rinv_0_lt_compat. lra. }
  destruct T as (l' & T). rewrite T. apply IH; [lia|]. apply pivot_spec in T. destruct T as (_ & K & D & ZC & NC).
  assert (KE : forall p t, (t < i)%nat -> l' p t = l p t) by (intros; apply K; lia).
  intros x X.
  destruct (Req_dec (l' i i) 0) as [Z|N].
  - replace (form n (left a l' (S i)) x) with (form n (left a l i) x); [apply P; intros; apply X; lia|].
    apply sumn_ext. intros p HP. apply sumn_ext. intros q HQ. rewrite (left_next a l l') by assumption.
    destruct (Nat.le_gt_cases p i); [rewrite (X p) by lia; ring|]. destruct (ZC Z p ltac:(lia)) as (-> & _). ring.
  - set (s := left a l i i i) in *. assert (S0 : 0 < s). { destruct (Rle_lt_dec s 0) as [H|H]; [|exact H]. exfalso. apply N. rewrite D. now apply sqrt_eq0. }
    assert (DD : l' i i * l' i i = s). { rewrite D, Rmax_left by lra. apply sqrt_sqrt. lra. }
    set (b := sumn n (fun k => left a l i i k * x k)).
    replace (form n (left a l' (S i)) x) with (form n (left a l i) (fun k => x k + (if Nat.eqb k i then - b / s else 0))).
    + apply P. intros k H. destruct (Nat.eqb_spec k i); [lia|]. rewrite X by lia. ring.
    + rewrite form_bump by assumption. fold b. fold s.
      transitivity (form n (fun p q => left a l i p q - (left a l i p i / l' i i) * (left a l i q i / l' i i)) x).
      * rewrite form_minus_rank1. replace (sumn n (fun k => left a l i k i / l' i i * x k)) with (b / l' i i).
        -- replace ((b / l' i i) ^ 2) with (b * b / s) by (rewrite <- DD; field; exact N). field. lra.
        -- unfold Rdiv, b. rewrite <- sumn_scale_r. apply sumn_ext. intros k HK. rewrite (SL k i) by assumption. ring.
      * apply sumn_ext. intros p HP. apply sumn_ext. intros q HQ. rewrite (left_next a l l') by assumption.
        destruct (Nat.le_gt_cases p i); [rewrite (X p) by lia; ring|]. destruct (Nat.le_gt_cases q i); [rewrite (X q) by lia; ring|].
        rewrite (NC N p) by lia. rewrite (NC N q) by lia. reflexivity.
Qed.
Theorem psd_accepted n a : symmetric n a -> psd n a -> matrix_is_psd n a = true.
Proof.
  intros SY P. unfold matrix_is_psd. destruct (pivots_complete n a SY n 0%nat zeros ltac:(lia)) as (l' & ->); [|reflexivity].
  intros x _. rewrite (form_ext n _ a x x); [apply P| |reflexivity]. intros i j _ _. unfold left. cbn. ring.
Qed.

(** * What is accepted is semi-definite up to the tolerance *)
(** The state of the factorisation after [i] pivots. *)
Definition so_far (n : nat) (a l : mat) (i : nat) : Prop :=
  (forall j t, (i <= t \/ j < t)%nat -> l j t = 0) /\
  (forall j k, (k < i)%nat -> (k <= j < n)%nat -> Rabs (left a l (S k) j k) <= / 10 ^ 12).
Lemma sq_sqrt_max s : sqrt (Rmax s 0) * sqrt (Rmax s 0) = Rmax s 0.
Proof. apply sqrt_sqrt, Rmax_r. Qed.
Lemma pivot_so_far n a l i l' : (i < n)%nat -> so_far n a l i -> pivot n a i l = Some l' -> so_far n a l' (S i).
Proof.
  intros LI (U & V) H. apply pivot_spec in H. destruct H as (M & K & D & ZC & NC).
  assert (KE : forall p t, (t < i)%nat -> l' p t = l p t) by (intros; apply K; lia).
  split.
  - intros j t T. destruct (Nat.eq_dec t i) as [->|N]; [rewrite K by lia; apply U; lia|]. rewrite K by lia. apply U. lia.
  - intros j k KI J. destruct (Nat.eq_dec k i) as [->|N].
    + rewrite (left_next a l l') by assumption. destruct (Nat.eq_dec j i) as [->|NJ].
      * rewrite D, sq_sqrt_max. set (s := left a l i i i) in *. assert (T : / 10 ^ 18 <= / 10 ^ 12) by lra. unfold Rmax. destruct (Rle_dec s 0); [rewrite Rminus_0_r, Rabs_left1 by lra; lra|]. rewrite Rminus_diag_eq by reflexivity. rewrite Rabs_R0. lra.
      * destruct (Req_dec (l' i i) 0) as [Z|NZ].
        -- destruct (ZC Z j ltac:(lia)) as (-> & B). rewrite Rmult_0_l, Rminus_0_r. exact B.
        -- rewrite (NC NZ j) by lia. replace (left a l i j i - left a l i j i / l' i i * l' i i) with 0 by (field; exact NZ). rewrite Rabs_R0. lra.
    + rewrite (left_ext a l l' (S k)) by (intros; apply KE; lia). apply V; lia.
Qed.
Lemma pivots_so_far n a : forall d i l l', (i + d = n)%nat -> so_far n a l i -> pivots n a l (seq i d) = Some l' -> so_far n a l' n.
Proof.
  induction d as [|d IH]; intros i l l' E SF H; cbn [seq pivots] in H.
  - injection H as <-. rewrite Nat.add_0_r in E. subst i. exact SF.
  - destruct (pivot n a i l) as [l1|] eqn:P; [|discriminate]. apply (IH (S i) l1); [lia| |exact H]. eapply pivot_so_far; [lia|eassumption|exact P].
Qed.
Lemma so_far_start n a : so_far n a zeros 0.
Proof. split; [intros; reflexivity|intros; lia]. Qed.

(** A triangular factor whose square is the matrix up to the tolerance. *)
Theorem accepted_factor n a : symmetric n a -> matrix_is_psd n a = true ->
  exists l, (forall j t, (j < t)%nat -> l j t = 0) /\ forall j k, (j < n)%nat -> (k < n)%nat -> Rabs (a j k - sumn n (fun t => l j t * l k t)) <= / 10 ^ 12.
Proof.
  intros SY H. unfold matrix_is_psd in H. destruct (pivots n a zeros (seq 0 n)) as [l|] eqn:P; [|discriminate].
  apply pivots_so_far in P; [|lia|apply so_far_start]. destruct P as (U & V). exists l. split; [intros; apply U; lia|].
  assert (T : forall j k, (k <= j < n)%nat -> Rabs (a j k - sumn n (fun t => l j t * l k t)) <= / 10 ^ 12).
  { intros j k J. rewrite (sumn_split n (S k)) by lia. rewrite (sumn_zero (n - S k)) by (intros; rewrite (U k) by lia; ring). rewrite Rplus_0_r. apply (V j k); lia. }
  intros j k J K. destruct (Nat.le_gt_cases k j); [apply T; lia|]. rewrite (SY j k) by assumption. rewrite (sumn_ext n _ (fun t => l k t * l j t)) by (intros; ring). apply T. lia.
Qed.
Theorem accepted_nearly n a x : symmetric n a -> matrix_is_psd n a = true -> - / 10 ^ 12 * sumn n (fun i => Rabs (x i)) ^ 2 <= form n a x.
Proof.
  intros SY H. destruct (accepted_factor n a SY H) as (l & _ & B). set (e := / 10 ^ 12) in *.
  assert (S : form n (fun j k => sumn n (fun t => l j t * l k t)) x = sumn n (fun t => sumn n (fun j => l j t * x j) ^ 2)).
  { unfold form. transitivity (sumn n (fun i => sumn n (fun t => sumn n (fun j => l i t * x i * (l j t * x j))))).
    - apply sumn_ext. intros i _. rewrite <- sumn_swap. apply sumn_ext. intros j _. rewrite <- sumn_scale, <- sumn_scale_r. apply sumn_ext. intros. ring.
    - rewrite sumn_swap. apply sumn_ext. intros t _. cbn [pow]. rewrite Rmult_1_r, sumn_mul. reflexivity. }
  assert (Q : 0 <= form n (fun j k => sumn n (fun t => l j t * l k t)) x) by (rewrite S; apply sumn_nonneg; intros; apply pow2_ge_0).
  cut (- e * sumn n (fun i => Rabs (x i)) ^ 2 <= form n a x - form n (fun j k => sumn n (fun t => l j t * l k t)) x); [lra|].
  unfold form. cbn [pow]. rewrite Rmult_1_r, sumn_mul, <- sumn_scale. unfold Rminus. rewrite <- (Rmult_1_l (sumn n (fun i => sumn n (fun j => x i * sumn n _ * x j)))), Ropp_mult_distr_l, <- sumn_scale, <- sumn_add.
  apply sumn_le. intros i I1. rewrite <- !sumn_scale, <- sumn_add. apply sumn_le. intros j J1. pose proof (B i j I1 J1) as BB.
  set (w := sumn n (fun t => l i t * l j t)) in *. clearbody w.
  replace (x i * a i j * x j + - (1) * (x i * w * x j)) with ((a i j - w) * (x i * x j)) by ring. rewrite <- Rabs_mult.
  pose proof (Rabs_mult (a i j - w) (x i * x j)) as M. pose proof (Rabs_pos (x i * x j)). assert (Rabs (a i j - w) * Rabs (x i * x j) <= e * Rabs (x i * x j)) by (apply Rmult_le_compat_r; assumption).
  pose proof (Rle_abs (- ((a i j - w) * (x i * x j)))) as L. rewrite Rabs_Ropp in L. lra.
Qed.

(** * The schedule *)
(** The sum of the first [k] durations. *)
Fixpoint until (l : list segment) (k : nat) {struct k} : R := match k, l with S k, s :: r => s_duration s + until r k | _, _ => 0 end.

Lemma search_some l : forall c e s, search c e l = Some s -> exists i, nth_error l i = Some s /\ e < c + until l (S i) /\ forall j, (j < i)%nat -> c + until l (S j) <= e.
Proof.
  induction l as [|h r IH]; intros c e s H; cbn [search] in H; [discriminate|]. destruct (Rlt_dec e (c + s_duration h)) as [L|L].
  - injection H as <-. exists 0%nat. split; [reflexivity|]. split; [cbn; lra|]. intros; lia.
  - destruct (IH _ _ _ H) as (i & A & B & C). exists (S i). split; [exact A|]. split; [cbn in *; lra|]. intros [|j] J; [cbn; lra|]. pose proof (C j ltac:(lia)). cbn in *. lra.
Qed.
Lemma search_none l : forall c e, search c e l = None -> forall j, (j < length l)%nat -> c + until l (S j) <= e.
Proof.
  induction l as [|h r IH]; intros c e H j J; cbn [search] in H; [cbn in J; lia|]. destruct (Rlt_dec e (c + s_duration h)) as [L|L]; [discriminate|].
  destruct j as [|j]; [cbn; lra|]. pose proof (IH _ _ H j). cbn [length] in J. assert (c + s_duration h + until r (S j) <= e) by (apply H0; lia). cbn in *. lra.
Qed.
Lemma until_mono l : Forall (fun s => 0 <= s_duration s) l -> forall i j, (i <= j)%nat -> until l i <= until l j.
Proof.
  induction l as [|h r IH]; intros F i j L; [destruct i, j; cbn; lra|]. inversion F; subst. destruct i as [|i], j as [|j]; try lia; cbn.
  - lra.
  - pose proof (IH H2 0%nat j ltac:(lia)) as Q. replace (until r 0) with 0 in Q by (destruct r; reflexivity). lra.
  - pose proof (IH H2 i j ltac:(lia)). lra.
Qed.
