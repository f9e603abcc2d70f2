(** Scan grids, labelled crossings and the sets they describe. *)
From Coq Require Import List ZArith QArith Qabs Bool Sorting.Sorted.
From Verif Require Import Qb Root_Model Root_Spec Root_Proofs Cross_Model.
Import ListNotations.
Local Open Scope Q_scope.

(** The steps of a scan from [t] to [stop]: each of length [step], the last one shorter. *)
Inductive grid (stop step : Q) : Q -> list interval -> Prop :=
| grid_end t : stop <= t -> grid stop step t []
| grid_step t b l : t < stop -> t <= b <= stop -> (b == t + step \/ (b = stop /\ stop < t + step)) -> grid stop step b l -> grid stop step t ((t, b) :: l).
Definition opposite (g : Q -> Q) (s : interval) : bool :=
  (qltb (g (fst s)) 0 && qltb 0 (g (snd s))) || (qltb 0 (g (fst s)) && qltb (g (snd s)) 0).
(** The refinement ran out of passes on this step. *)
Definition unconverged (g : Q -> Q) (s : interval) (x : Q) : Prop :=
  exists s', passes (brent_step (fun o => g (Qred (fst s + o))) default_tol) 100 (first_offset (fst s) (snd s) (g (fst s)) (g (snd s))) s' /\ x = Qred (fst s + bb s').
(** A refined crossing of a step. *)
Definition refined (g : Q -> Q) (s : interval) (x : Q) : Prop :=
  fst s <= x <= snd s /\
  (Qabs (g x) < f_eps \/ exists y, fst s <= y <= snd s /\ sign_change (g x) (g y) /\ (Qabs (x - y) <= 2 * default_tol \/ unconverged g s x)).
(** Upward or downward. *)
Definition heading (g : Q -> Q) (s : interval) : Z := if qltb (g (fst s)) 0 then 1%Z else (-1)%Z.

(** ** Labelled crossings *)
Definition inside (p : interval) (t : Q) : Prop := fst p <= t <= snd p.
Definition in_some (ps : list interval) (t : Q) : Prop := exists p, In p ps /\ inside p t.
(** Times increase strictly inside the window. *)
Definition timely (p : interval) (l : list crossing) : Prop :=
  StronglySorted (fun a b => ct a < ct b) l /\ Forall (fun c => inside p (ct c)) l.
(** Directions alternate, the first one leaving the initial state. *)
Fixpoint alternate (above : bool) (l : list crossing) : Prop :=
  match l with [] => True | c :: t => cdir c = (if above then -1 else 1)%Z /\ alternate (negb above) t end.
(** The state at a time that is not a crossing: that of the last crossing before it. *)
Inductive state (above : bool) (l : list crossing) (t : Q) : bool -> Prop :=
| state_first : Forall (fun c => t < ct c) l -> state above l t above
| state_after a c b : l = a ++ c :: b -> ct c < t -> Forall (fun c => t < ct c) b -> state above l t (Z.eqb (cdir c) 1).
(** The crossings tell where the signal is above. *)
Definition describes (p : interval) (above : bool) (l : list crossing) (signal : Q -> Prop) : Prop :=
  forall t b, inside p t -> state above l t b -> (signal t <-> b = true).
(** Periods in order, apart from each other and of positive length. *)
Definition tidy (p : interval) (ps : list interval) : Prop :=
  StronglySorted (fun a b => snd a < fst b) ps /\ Forall (fun q => fst p <= fst q /\ fst q < snd q /\ snd q <= snd p) ps.

(** What the external period algebra promises on tidy lists, away from the ends of periods. *)
Definition edge_of (ps : list interval) (t : Q) : Prop := exists p, In p ps /\ (t == fst p \/ t == snd p).
Definition complement_ok (complement : interval -> list interval -> list interval) : Prop :=
  forall p ps, fst p < snd p -> tidy p ps -> tidy p (complement p ps) /\ forall t, inside p t -> ~ edge_of ps t -> (in_some (complement p ps) t <-> ~ in_some ps t).
Definition intersect_ok (intersect : list interval -> list interval -> list interval) : Prop :=
  forall p ps qs, tidy p ps -> tidy p qs -> tidy p (intersect ps qs) /\ forall t, inside p t -> ~ edge_of ps t -> ~ edge_of qs t -> (in_some (intersect ps qs) t <-> in_some ps t /\ in_some qs t).

(** ** Signals that the scan can resolve *)
(** At most one sign change in a step, none at its ends. *)
Definition resolved (g : Q -> Q) (s : interval) (z : Q) : Prop :=
  fst s < z < snd s /\ (forall t, fst s <= t -> t < z -> (0 < g t <-> 0 < g (fst s))) /\ (forall t, z < t -> t <= snd s -> (0 < g t <-> 0 < g (snd s))).
Definition simple (g : Q -> Q) (s : interval) : Prop :=
  ~ g (fst s) == 0 /\ ~ g (snd s) == 0 /\
  if opposite g s then exists z, resolved g s z else forall t, fst s <= t <= snd s -> (0 < g t <-> 0 < g (fst s)).

(** A period algebra with these promises. *)
Fixpoint gaps (from stop : Q) (ps : list interval) : list interval :=
  match ps with
  | [] => if qltb from stop then [(from, stop)] else []
  | q :: t => (if qltb from (fst q) then [(from, fst q)] else []) ++ gaps (snd q) stop t
  end.
Definition complement_ref (p : interval) (ps : list interval) : list interval := gaps (fst p) (snd p) ps.
Definition overlap (a b : interval) : list interval :=
  let lo := if qltb (fst a) (fst b) then fst b else fst a in
  let hi := if qltb (snd a) (snd b) then snd a else snd b in
  if qltb lo hi then [(lo, hi)] else [].
Definition intersect_ref (ps qs : list interval) : list interval := flat_map (fun a => flat_map (overlap a) qs) ps.
