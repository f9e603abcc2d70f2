(** Stable sorting, as [slice::sort_by]: the result is the only sorted list that keeps the order of
    equal elements, so insertion sort stands for the library's merge sort. *)
From Coq Require Import List Bool Arith Lia Permutation Sorted.
Import ListNotations.

Section Sort.
  Context {A : Type} (leb : A -> A -> bool).
  Fixpoint insert (x : A) (l : list A) : list A :=
    match l with
    | [] => [x]
    | y :: t => if leb x y then x :: l else y :: insert x t
    end.
  Definition isort (l : list A) : list A := fold_right insert [] l.

  Definition total := forall x y, leb x y = true \/ leb y x = true.
  Definition transitive := forall x y z, leb x y = true -> leb y z = true -> leb x z = true.
  Definition ordered (l : list A) := StronglySorted (fun x y => leb x y = true) l.

  Lemma insert_perm x l : Permutation (insert x l) (x :: l).
  Proof.
    induction l as [|y t IH]; cbn [insert]; [constructor; constructor|].
    destruct (leb x y); [apply Permutation_refl|]. rewrite IH. apply perm_swap.
  Qed.
  Lemma isort_perm l : Permutation (isort l) l.
  Proof. induction l as [|x l IH]; [constructor|]. cbn [isort fold_right]. fold (isort l). rewrite insert_perm. now constructor. Qed.
  Lemma insert_in x l y : In y (insert x l) <-> y = x \/ In y l.
  Proof.
    split; intros H.
    - apply (Permutation_in _ (insert_perm x l)) in H. destruct H; auto.
    - apply (Permutation_in _ (Permutation_sym (insert_perm x l))). destruct H; [left|right]; auto.
  Qed.
  Lemma isort_in l y : In y (isort l) <-> In y l.
  Proof. split; apply Permutation_in; [|apply Permutation_sym]; apply isort_perm. Qed.
  Lemma isort_length l : length (isort l) = length l.
  Proof. apply Permutation_length, isort_perm. Qed.
  Lemma insert_ordered x l : total -> transitive -> ordered l -> ordered (insert x l).
  Proof.
    intros T R H. induction H as [|y t H IH Hy]; cbn [insert]; [repeat constructor|].
    destruct (leb x y) eqn:E.
    - constructor; [now constructor|]. constructor; [assumption|]. eapply Forall_impl; [|exact Hy]. intros z Hz. eapply R; eauto.
    - constructor; [assumption|]. apply Forall_forall. intros z Hz. apply insert_in in Hz as [->|Hz].
      + destruct (T x y); congruence.
      + rewrite Forall_forall in Hy. auto.
  Qed.
  Lemma isort_ordered l : total -> transitive -> ordered (isort l).
  Proof. intros T R. induction l as [|x l IH]; [constructor|]. now apply insert_ordered. Qed.
  Lemma isort_id l : ordered l -> isort l = l.
  Proof.
    induction 1 as [|x l H IH Hx]; [reflexivity|]. cbn [isort fold_right]. fold (isort l). rewrite IH.
    destruct l as [|y t]; [reflexivity|]. cbn [insert]. apply Forall_inv in Hx. now rewrite Hx.
  Qed.
  Lemma insert_filter p x l : transitive -> ordered l -> filter p (insert x l) = if p x then insert x (filter p l) else filter p l.
  Proof.
    intros R H. induction H as [|y t H IH Hy]; cbn [insert filter]; [destruct (p x); reflexivity|].
    destruct (leb x y) eqn:E.
    - cbn [filter]. destruct (p x); [|reflexivity]. destruct (p y) eqn:Py; cbn [insert]; [now rewrite E|].
      destruct (filter p t) as [|z u] eqn:F; [reflexivity|]. cbn [insert].
      assert (Z : In z t) by (apply (filter_In p); rewrite F; now left). rewrite Forall_forall in Hy. now rewrite (R x y z E (Hy z Z)).
    - cbn [filter]. rewrite IH. destruct (p x), (p y); cbn [insert]; rewrite ?E; reflexivity.
  Qed.
  Lemma isort_filter p l : total -> transitive -> filter p (isort l) = isort (filter p l).
  Proof.
    intros T R. induction l as [|x l IH]; [reflexivity|]. cbn [isort fold_right filter]. fold (isort l).
    rewrite insert_filter by (auto using isort_ordered). rewrite IH. destruct (p x); reflexivity.
  Qed.
  Lemma insert_last x s : Forall (fun y => leb x y = false) s -> insert x s = s ++ [x].
  Proof. induction 1 as [|y s H _ IH]; [reflexivity|]. cbn [insert app]. now rewrite H, IH. Qed.
  Lemma insert_before x y s : leb x y = true -> insert x (s ++ [y]) = insert x s ++ [y].
  Proof. intros H. induction s as [|z s IH]; cbn [app insert]; [now rewrite H|]. destruct (leb x z); [reflexivity|]. now rewrite IH. Qed.
  (** The last of the sorted list: a greatest element, the latest of its equals. *)
  Lemma isort_last a x b : Forall (fun y => leb y x = true) a -> Forall (fun y => leb x y = false) b ->
    exists s, isort (a ++ x :: b) = s ++ [x].
  Proof.
    intros Ha Hb. induction Ha as [|y a H _ IH]; cbn [app isort fold_right].
    - fold (isort b). exists (isort b). apply insert_last. apply Forall_forall. intros z Z. rewrite Forall_forall in Hb. apply Hb. now apply isort_in.
    - fold (isort (a ++ x :: b)). destruct IH as (s & ->). exists (insert y s). now apply insert_before.
  Qed.
End Sort.
