(** What the daily search for the Sun's crossings promises. *)
From Coq Require Import List ZArith QArith Qabs Qminmax Bool.
From Verif Require Import Qb Root_Model Root_Spec Cross_Model Cross_Spec Sweep_Model Sweep_Spec.
Import ListNotations.
Local Open Scope Q_scope.

(** At [x] the signal is within ten times the residual tolerance of zero, or it changes sign within
    a few time tolerances of it, or a refinement used up its passes. *)
Definition rooted (tt rt : Q) (g : Q -> Q) (p : interval) (x : Q) : Prop :=
  inside p x /\
  (Qabs (g x) <= rt * 10 \/
   (exists y, inside p y /\ sign_change (g x) (g y) /\ Qabs (x - y) <= Qmax (4 * Qmax tt epsilon) f_eps) \/
   exhausted g tt rt p \/ exhausted g (Qmax tt epsilon) rt p).
