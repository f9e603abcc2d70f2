(** Shared vocabulary of the model. *)
From Coq Require Import List NArith ZArith Lia.
Import ListNotations.

(** Result of a Rust call: a value, a recoverable [Err], or a panic
    (index/slice out of range, overflow in a debug build, [unwrap] on [None],
    explicit [panic!]). *)
Inductive outcome (A E : Type) : Type :=
| Ok (a : A)
| Err (e : E)
| Panic.
Arguments Ok {A E} a.
Arguments Err {A E} e.
Arguments Panic {A E}.

Definition obind {A B E} (x : outcome A E) (f : A -> outcome B E) : outcome B E :=
  match x with
  | Ok a => f a
  | Err e => Err e
  | Panic => Panic
  end.

Declare Scope outcome_scope.
Delimit Scope outcome_scope with outcome.
Notation "x <- e1 ;; e2" := (obind e1 (fun x => e2))
  (at level 61, e1 at next level, right associativity) : outcome_scope.

Definition is_ok {A E} (x : outcome A E) : bool :=
  match x with Ok _ => true | _ => false end.

(** Array write [l[i] = v]; a write past the end leaves the list unchanged
    (callers of the model prove the index in range where it matters). *)
Fixpoint upd {A} (l : list A) (i : nat) (v : A) : list A :=
  match l, i with
  | [], _ => []
  | _ :: t, O => v :: t
  | h :: t, S j => h :: upd t j v
  end.

Lemma upd_length {A} (l : list A) i v : length (upd l i v) = length l.
Proof. revert i; induction l as [|h t IH]; intros [|i]; simpl; auto. Qed.

Lemma upd_app {A} (l1 l2 : list A) x v :
  upd (l1 ++ x :: l2) (length l1) v = l1 ++ v :: l2.
Proof. induction l1 as [|h t IH]; simpl; [reflexivity|]. now rewrite IH. Qed.

Lemma nth_upd_eq {A} (l : list A) i v d : i < length l -> nth i (upd l i v) d = v.
Proof.
  revert i; induction l as [|h t IH]; intros [|i] H; simpl in *; try lia; auto.
  apply IH; lia.
Qed.

Lemma nth_upd_neq {A} (l : list A) i j v d : i <> j -> nth i (upd l j v) d = nth i l d.
Proof.
  revert i j; induction l as [|h t IH]; intros [|i] [|j] H; simpl in *; try lia; auto.
Qed.

Lemma app_inj_len {A} (x y a b : list A) :
  length x = length y -> x ++ a = y ++ b -> x = y /\ a = b.
Proof.
  revert y. induction x as [|u x IH]; intros [|v y] HL E; try discriminate; [auto|].
  cbn in E. injection E as -> E. apply IH in E as [-> ->]; [auto|]. now injection HL.
Qed.

Lemma fold_left_cons {A B} (f : A -> B -> A) x l a : fold_left f (x :: l) a = fold_left f l (f a x).
Proof. reflexivity. Qed.
