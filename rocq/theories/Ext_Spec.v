(** Extrema: what the search should find. *)
From Coq Require Import List ZArith QArith Qabs Bool.
From Verif Require Import Qb Cross_Model Cross_Spec Ext_Model.
Import ListNotations.
Local Open Scope Q_scope.

(** Strictly falling to [z], strictly rising from it. *)
Definition valley (f : Q -> Q) (p : interval) (z : Q) : Prop :=
  inside p z /\ (forall x y, fst p <= x -> x < y -> y <= z -> f y < f x) /\ (forall x y, z <= x -> x < y -> y <= snd p -> f x < f y).
Definition peak (f : Q -> Q) (p : interval) (z : Q) : Prop := valley (fun t => - f t) p z.
Definition extreme (k : kind) : (Q -> Q) -> interval -> Q -> Prop := match k with Minimum => valley | Maximum => peak end.
(** Windows of two steps between which the samples turn. *)
Definition rising (f : Q -> Q) (s : interval) : bool := qltb (f (fst s)) (f (snd s)).
Fixpoint turns (f : Q -> Q) (l : list interval) : list (interval * kind) :=
  match l with
  | s1 :: t => match t with
               | s2 :: _ => (if Bool.eqb (rising f s1) (rising f s2) then [] else [((fst s1, snd s2), if rising f s1 then Maximum else Minimum)]) ++ turns f t
               | [] => []
               end
  | [] => []
  end.
(** What one window yields. *)
Definition settled (f : Q -> Q) (tol : Q) (w : interval * kind) (e : extremum) : Prop :=
  ek e = snd w /\ ev e = f (et e) /\ inside (fst w) (et e) /\
  (snd (fst w) - fst (fst w) <= inject_Z (10 ^ 13) * tol -> forall z, extreme (snd w) f (fst w) z -> Qabs (et e - z) <= tol / 2).
