(** What a bracketed root finder promises. *)
From Coq Require Import QArith Qabs Bool.
From Verif Require Import Qb Root_Model.
Local Open Scope Q_scope.

Definition between (lo hi x : Q) : Prop := lo <= x <= hi \/ hi <= x <= lo.
(** The values differ in sign, zero counting as positive. *)
Definition sign_change (a b : Q) : Prop := (a < 0 /\ 0 <= b) \/ (0 <= a /\ b < 0).
(** [n] passes of the loop that did not return. *)
Inductive passes (step : bst -> Q + bst) : nat -> bst -> bst -> Prop :=
| passes0 s : passes step 0 s s
| passesS n s s' s'' : step s = inr s' -> passes step n s' s'' -> passes step (S n) s s''.
