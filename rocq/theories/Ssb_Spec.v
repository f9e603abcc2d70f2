(** Chains to the barycentre. *)
From Coq Require Import List ZArith QArith.
From Verif Require Import Base Kern_Model Ssb_Model.
Import ListNotations.
Local Open Scope Z_scope.

Section Spec.
  Context {V : Type}.
  Definition within (et : fnum) (s : kseg V) : Prop :=
    exists x a b, et = Some x /\ k_start s = Some a /\ k_end s = Some b /\ (a <= x)%Q /\ (x <= b)%Q.
  (** [s] answers at [et] with [w]. *)
  Definition answers (segs : list (kseg V)) (et : fnum) (s : kseg V) (w : V) : Prop :=
    In s segs /\ within et s /\ k_pos s et = EvOk w.

  Variables (vzero : V) (vadd vsub : V -> V -> V) (vmoon : V -> V).
  (** Positions obtained by adding offsets along segments down to the barycentre; the Earth may also
      be placed from the Earth-Moon barycentre and the Moon. *)
  Inductive from_ssb (segs : list (kseg V)) (et : fnum) : Z -> V -> Prop :=
  | fs_zero : from_ssb segs et 0 vzero
  | fs_seg s w u : answers segs et s w -> from_ssb segs et (k_center s) u -> from_ssb segs et (k_target s) (vadd u w)
  | fs_earth m w u : answers segs et m w -> k_target m = 301 -> k_center m = 3 -> from_ssb segs et 3 u ->
      from_ssb segs et 399 (vsub u (vmoon w)).
  (** No segment fails other than by being out of range. *)
  Definition readable (segs : list (kseg V)) (et : fnum) : Prop :=
    forall s, In s segs -> within et s -> k_pos s et <> EvHard.
End Spec.
