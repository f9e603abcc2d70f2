(** Finite sums, vectors and matrices over the rationals, indexed by [nat]. *)
From Coq Require Import List ZArith QArith Lqa Lia PeanoNat Setoid Morphisms.
Import ListNotations.
Local Open Scope Q_scope.

Fixpoint sum (n : nat) (f : nat -> Q) : Q := match n with O => 0 | S k => sum k f + f k end.
Lemma sum_ext n f g : (forall i, (i < n)%nat -> f i == g i) -> sum n f == sum n g.
Proof. induction n as [|n IH]; intros H; [reflexivity|]. cbn [sum]. rewrite IH, H by auto. reflexivity. Qed.
Lemma sum_add n f g : sum n (fun i => f i + g i) == sum n f + sum n g.
Proof. induction n as [|n IH]; cbn [sum]; [ring|]. rewrite IH. ring. Qed.
Lemma sum_scale n c f : sum n (fun i => c * f i) == c * sum n f.
Proof. induction n as [|n IH]; cbn [sum]; [ring|]. rewrite IH. ring. Qed.
Lemma sum_scale_r n c f : sum n (fun i => f i * c) == sum n f * c.
Proof. induction n as [|n IH]; cbn [sum]; [ring|]. rewrite IH. ring. Qed.
Lemma sum_zero n f : (forall i, (i < n)%nat -> f i == 0) -> sum n f == 0.
Proof. induction n as [|n IH]; intros H; [reflexivity|]. cbn [sum]. rewrite IH, H by auto. ring. Qed.
Lemma sum_swap n m f : sum n (fun i => sum m (fun j => f i j)) == sum m (fun j => sum n (fun i => f i j)).
Proof. induction n as [|n IH]; cbn [sum]; [symmetry; now apply sum_zero|]. rewrite IH. symmetry. apply sum_add. Qed.
Lemma sum_one n k f : (k < n)%nat -> (forall i, (i < n)%nat -> i <> k -> f i == 0) -> sum n f == f k.
Proof.
  induction n as [|n IH]; intros L H; [lia|]. cbn [sum]. destruct (Nat.eq_dec k n) as [->|N]; [rewrite sum_zero; [ring|]; intros i I; apply H; lia|].
  rewrite IH; [|lia|intros; apply H; lia]. rewrite (H n) by lia. ring.
Qed.
Lemma sum_nonneg n f : (forall i, (i < n)%nat -> 0 <= f i) -> 0 <= sum n f.
Proof. induction n as [|n IH]; intros H; cbn [sum]; [lra|]. specialize (H n) as Hn. assert (0 <= sum n f) by (apply IH; auto). assert (0 <= f n) by auto. lra. Qed.
Lemma sum_mul n m f g : sum n f * sum m g == sum n (fun i => sum m (fun j => f i * g j)).
Proof. rewrite <- sum_scale_r. apply sum_ext. intros i _. symmetry. apply sum_scale. Qed.

Definition vec := nat -> Q.
Definition mat := nat -> nat -> Q.
Definition dot (n : nat) (x y : vec) : Q := sum n (fun i => x i * y i).
Definition mulv (n : nat) (A : mat) (x : vec) : vec := fun i => sum n (fun j => A i j * x j).
Definition mulm (n : nat) (A B : mat) : mat := fun i j => sum n (fun k => A i k * B k j).
Definition tr (A : mat) : mat := fun i j => A j i.
Definition id_mat : mat := fun i j => if Nat.eqb i j then 1 else 0.
(** The quadratic form of [A]. *)
Definition form (n : nat) (A : mat) (x : vec) : Q := dot n x (mulv n A x).
Definition symmetric (n : nat) (A : mat) : Prop := forall i j, (i < n)%nat -> (j < n)%nat -> A i j == A j i.
Definition psd (n : nat) (A : mat) : Prop := forall x, 0 <= form n A x.

Lemma dot_ext n x x' y y' : (forall i, (i < n)%nat -> x i == x' i) -> (forall i, (i < n)%nat -> y i == y' i) -> dot n x y == dot n x' y'.
Proof. intros H K. apply sum_ext. intros i I. now rewrite H, K. Qed.
Lemma mulv_ext n A A' x x' i : (forall j, (j < n)%nat -> A i j == A' i j) -> (forall j, (j < n)%nat -> x j == x' j) -> mulv n A x i == mulv n A' x' i.
Proof. intros H K. apply sum_ext. intros j J. now rewrite H, K. Qed.
Lemma form_ext n A A' x x' : (forall i j, (i < n)%nat -> (j < n)%nat -> A i j == A' i j) -> (forall i, (i < n)%nat -> x i == x' i) -> form n A x == form n A' x'.
Proof. intros H K. apply dot_ext; [assumption|]. intros i I. apply mulv_ext; auto. Qed.
Lemma dot_comm n x y : dot n x y == dot n y x.
Proof. apply sum_ext. intros; ring. Qed.
Lemma dot_add_r n x y z : dot n x (fun i => y i + z i) == dot n x y + dot n x z.
Proof. unfold dot. rewrite <- sum_add. apply sum_ext. intros; ring. Qed.
Lemma dot_scale_r n x c y : dot n x (fun i => c * y i) == c * dot n x y.
Proof. unfold dot. rewrite <- sum_scale. apply sum_ext. intros; ring. Qed.
Lemma dot_sub_r n x y z : dot n x (fun i => y i - z i) == dot n x y - dot n x z.
Proof.
  assert (E : dot n x (fun i => y i - z i) == dot n x (fun i => y i + (-1) * z i)) by (apply dot_ext; intros; ring).
  rewrite E, dot_add_r, dot_scale_r. ring.
Qed.
Lemma dot_self_nonneg n x : 0 <= dot n x x.
Proof. apply sum_nonneg. intros i _. nra. Qed.
Lemma mulv_add n A x y i : mulv n A (fun j => x j + y j) i == mulv n A x i + mulv n A y i.
Proof. unfold mulv. rewrite <- sum_add. apply sum_ext. intros; ring. Qed.
Lemma mulv_scale n A c x i : mulv n A (fun j => c * x j) i == c * mulv n A x i.
Proof. unfold mulv. rewrite <- sum_scale. apply sum_ext. intros; ring. Qed.
Lemma mulv_sub n A x y i : mulv n A (fun j => x j - y j) i == mulv n A x i - mulv n A y i.
Proof.
  assert (E : mulv n A (fun j => x j - y j) i == mulv n A (fun j => x j + (-1) * y j) i) by (apply mulv_ext; intros; ring).
  rewrite E, mulv_add, mulv_scale. ring.
Qed.
Lemma dot_mulv n A x y : dot n x (mulv n A y) == dot n (mulv n (tr A) x) y.
Proof.
  unfold dot, mulv, tr.
  transitivity (sum n (fun i => sum n (fun j => x i * (A i j * y j)))); [apply sum_ext; intros; symmetry; apply sum_scale|].
  rewrite sum_swap. apply sum_ext. intros j _. rewrite <- sum_scale_r. apply sum_ext. intros; ring.
Qed.
Lemma mulm_mulv n A B x i : mulv n (mulm n A B) x i == mulv n A (mulv n B x) i.
Proof.
  unfold mulv, mulm. transitivity (sum n (fun j => sum n (fun k => A i k * B k j * x j))); [apply sum_ext; intros; symmetry; apply sum_scale_r|].
  rewrite sum_swap. apply sum_ext. intros k _. rewrite <- sum_scale. apply sum_ext. intros; ring.
Qed.
Lemma sym_dot n A x y : symmetric n A -> dot n x (mulv n A y) == dot n y (mulv n A x).
Proof. intros S. rewrite dot_mulv, dot_comm. apply dot_ext; [reflexivity|]. intros i I. apply mulv_ext; [|reflexivity]. intros j J. unfold tr. now apply S. Qed.
(** Congruence: the form of [B A Bᵀ] at [x] is that of [A] at [Bᵀ x]. *)
Lemma form_congruence n A B x : form n (mulm n (mulm n B A) (tr B)) x == form n A (mulv n (tr B) x).
Proof.
  unfold form. transitivity (dot n x (mulv n B (mulv n A (mulv n (tr B) x)))).
  - apply dot_ext; [reflexivity|]. intros i _. rewrite mulm_mulv, mulm_mulv. reflexivity.
  - apply dot_mulv.
Qed.
Lemma form_add n A B x : form n (fun i j => A i j + B i j) x == form n A x + form n B x.
Proof. unfold form. rewrite <- dot_add_r. apply dot_ext; [reflexivity|]. intros i _. unfold mulv. rewrite <- sum_add. apply sum_ext. intros; ring. Qed.
Lemma form_rank1 n c u x : form n (fun i j => c * (u i * u j)) x == c * (dot n u x * dot n u x).
Proof.
  unfold form. transitivity (dot n x (fun i => c * dot n u x * u i)).
  - apply dot_ext; [reflexivity|]. intros i _. unfold mulv, dot. transitivity (sum n (fun j => c * u i * (u j * x j))); [apply sum_ext; intros; ring|]. rewrite sum_scale. ring.
  - rewrite dot_scale_r, (dot_comm n x u). ring.
Qed.
Lemma congruence_sym n A B : symmetric n A -> symmetric n (mulm n (mulm n B A) (tr B)).
Proof.
  intros S i j I J. unfold mulm, tr.
  transitivity (sum n (fun k => sum n (fun l => B i l * A l k * B j k))); [apply sum_ext; intros; symmetry; apply sum_scale_r|].
  transitivity (sum n (fun k => sum n (fun l => B j l * A l k * B i k))); [|apply sum_ext; intros; apply sum_scale_r].
  rewrite sum_swap. apply sum_ext. intros k K. apply sum_ext. intros l L. rewrite (S k l) by assumption. ring.
Qed.
