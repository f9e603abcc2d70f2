(** Chains of segments, defined on the segment set only. *)
From Coq Require Import List ZArith QArith.
From Verif Require Import Base Kern_Model.
Import ListNotations.
Local Open Scope Z_scope.

Section Spec.
  Context {V : Type}.
  (** [t] is not before the start and not after the end (NaN bounds or times never exclude). *)
  Definition covers (t : fnum) (s : lseg V) : Prop :=
    (forall x y, t = Some x -> l_start s = Some y -> ~ (x < y)%Q) /\
    (forall x y, t = Some x -> l_end s = Some y -> ~ (y < x)%Q).

  Inductive linked (segs : list (lseg V)) (P : lseg V -> Prop) (a : Z) : Z -> Prop :=
  | linked_refl : linked segs P a a
  | linked_down s : linked segs P a (l_target s) -> In s segs -> P s -> linked segs P a (l_center s)
  | linked_up s : linked segs P a (l_center s) -> In s segs -> P s -> linked segs P a (l_target s).

  Variables (vzero : V) (vadd vsub : V -> V -> V).
  Definition evals (t : fnum) (s : lseg V) (v : V) : Prop := exists f, l_eval s = Some f /\ f t = Ok v.
  (** The signed sum along a chain of covering segments. *)
  Inductive chain_sum (segs : list (lseg V)) (t : fnum) (a : Z) : Z -> V -> Prop :=
  | cs_refl : chain_sum segs t a a vzero
  | cs_down s v w : chain_sum segs t a (l_target s) v -> In s segs -> covers t s -> evals t s w ->
      chain_sum segs t a (l_center s) (vadd v w)
  | cs_up s v w : chain_sum segs t a (l_center s) v -> In s segs -> covers t s -> evals t s w ->
      chain_sum segs t a (l_target s) (vsub v w).

  (** Abelian group laws. *)
  Record group_laws : Prop := {
    g_assoc : forall x y z, vadd x (vadd y z) = vadd (vadd x y) z;
    g_comm : forall x y, vadd x y = vadd y x;
    g_zero : forall x, vadd x vzero = x;
    g_sub : forall x y, vadd (vsub x y) y = x }.
  (** Every covering segment states the difference of two positions. *)
  Definition consistent (segs : list (lseg V)) (t : fnum) (pos : Z -> V) : Prop :=
    forall s v, In s segs -> covers t s -> evals t s v -> v = vsub (pos (l_target s)) (pos (l_center s)).
End Spec.
