(** What a crossing search promises. *)
From Coq Require Import List ZArith QArith Qabs Qminmax Bool Sorting.Sorted.
From Verif Require Import Qb Root_Model Root_Spec Root_Proofs Cross_Model Cross_Spec Cross_Proofs Sweep_Model.
Import ListNotations.
Local Open Scope Q_scope.

(** The tolerance is above the resolution of the times of the window. *)
Definition resolves (p : interval) (tt : Q) : Prop := 4 * epsilon * Qmax (Qabs (fst p)) (Qabs (snd p)) <= 3 * tt.
(** The refinement of a sign change inside [s] went through all its hundred passes. *)
Definition exhausted (g : Q -> Q) (tt rt : Q) (s : interval) : Prop :=
  exists lo hi s', fst s <= lo /\ lo <= hi /\ hi <= snd s /\ sign_change (g lo) (g hi) /\ passes (brent2_step g tt rt) 100 (first_state2 lo hi (g lo) (g hi)) s'.
(** [x] is a root of [g] inside [s], up to the tolerances. *)
Definition root_near (g : Q -> Q) (tt rt : Q) (s : interval) (x : Q) : Prop :=
  inside s x /\ (Qabs (g x) <= rt \/ (exists y, inside s y /\ sign_change (g x) (g y) /\ Qabs (x - y) <= 4 * tt) \/ exhausted g tt rt s).
(** The sign on either side of a time that is a root, away from the ends of the interval [p]; at the
    ends the one side inside it decides. *)
Definition uphill (g : Q -> Q) (p : interval) (t : Q) : Prop :=
  exists l r, fst p <= l /\ l <= t /\ t <= r /\ r <= snd p /\ l < r /\ t - l <= milli /\ r - t <= milli /\
    (epsilon < t - fst p -> g l <= 0) /\ (epsilon < snd p - t \/ t - fst p <= epsilon -> 0 < g r) /\ (epsilon < t - fst p -> snd p - t <= epsilon -> g l < 0).
Definition downhill (g : Q -> Q) (p : interval) (t : Q) : Prop :=
  exists l r, fst p <= l /\ l <= t /\ t <= r /\ r <= snd p /\ l < r /\ t - l <= milli /\ r - t <= milli /\
    (epsilon < t - fst p -> 0 < g l) /\ (epsilon < snd p - t \/ t - fst p <= epsilon -> g r <= 0) /\ (t - fst p <= epsilon -> g r < 0).
Definition heads (g : Q -> Q) (p : interval) (c : crossing) : Prop :=
  (cdir c = 1%Z /\ uphill g p (ct c)) \/ (cdir c = (-1)%Z /\ downhill g p (ct c)).
(** What the scan of [p] in steps of [step] may report: a node of the grid where [g] is small, or a
    refined sign change of a step, with its direction. *)
Definition scanned (g : Q -> Q) (p : interval) (step tt rt : Q) (c : crossing) : Prop :=
  exists l s, grid (snd p) step (fst p) l /\ In s l /\
    ((((ct c = fst s \/ ct c = snd s) /\ Qabs (g (ct c)) <= rt) /\ heads g p c) \/
     (sign_change (g (fst s)) (g (snd s)) /\ root_near g tt rt s (ct c) /\ cdir c = if qltb (g (fst s)) 0 then 1%Z else (-1)%Z)).
(** Within a thousandth of a day the signal passes through the band of half-width [eps]. *)
Definition passes_up (g : Q -> Q) (p : interval) (eps t : Q) : Prop :=
  exists l r, fst p <= l /\ l <= t /\ t <= r /\ r <= snd p /\ l < r /\ t - l <= milli /\ r - t <= milli /\ ((g l <= eps /\ eps < g r) \/ (g l < - eps /\ - eps <= g r)).
Definition passes_down (g : Q -> Q) (p : interval) (eps t : Q) : Prop :=
  exists l r, fst p <= l /\ l <= t /\ t <= r /\ r <= snd p /\ l < r /\ t - l <= milli /\ r - t <= milli /\ ((eps < g l /\ g r <= eps) \/ (- eps <= g l /\ g r < - eps)).
(** What a polynomial root may become. *)
Definition verified (g : Q -> Q) (p : interval) (max_res : Q) (c : crossing) : Prop :=
  inside p (ct c) /\ Qabs (g (ct c)) <= max_res /\
  let eps := Qmax max_res poly_zero_tol in (cdir c = 1%Z /\ passes_up g p eps (ct c)) \/ (cdir c = (-1)%Z /\ passes_down g p eps (ct c)).
