(** Brackets around the maxima of a function: src/event/search/bracketing.rs:174-336.

    Times and values are exact rationals, times in lowest terms, as in [Cross_Model]. *)
From Coq Require Import List ZArith QArith Qabs Bool.
From Verif Require Import Qb Sort Root_Model Cross_Model Ext_Model.
Import ListNotations.
Local Open Scope Q_scope.

(** the literals 0.1 and 1e-10 *)
Definition tenth : Q := 3602879701896397 # 36028797018963968.
Definition tiny_step : Q := 7737125245533627 # 77371252455336267181195264.
(** bracketing.rs:242-245, 298-301 *)
Definition search_step (range : Q) : Q := let step := range * tenth in if qltb step tiny_step then range * (1 # 2) else step.
(** bracketing.rs:247-254, 266-273 *)
Definition prev_time (start step t : Q) : Q := if qleb start (t - step) then Qred (t - step) else start.
(** bracketing.rs:259-281 *)
Fixpoint back_loop (fuel : nat) (start step : Q) (g : Q -> Q) (lo hi g_lo g_hi : Q) : option (option interval) :=
  if qltb start lo then
    match fuel with
    | O => None
    | S n =>
        if opposite_sign g_lo g_hi then Some (Some (lo, hi))
        else let lo' := prev_time start step lo in back_loop n start step g lo' lo (g lo') g_lo
    end
  else Some (if opposite_sign g_lo g_hi then Some (lo, hi) else None).
(** bracketing.rs:229-282 *)
Definition search_crossing_backward (fuel : nat) (p : interval) (f : Q -> Q) (threshold : Q) : option (option interval) :=
  let g := fun t => f t - threshold in
  let step := search_step (snd p - fst p) in
  let lo := prev_time (fst p) step (snd p) in
  back_loop fuel (fst p) step g lo (snd p) (g lo) (g (snd p)).
(** bracketing.rs:313-335 *)
Fixpoint forth_loop (fuel : nat) (stop step : Q) (g : Q -> Q) (lo hi g_lo g_hi : Q) : option (option interval) :=
  if qltb hi stop then
    match fuel with
    | O => None
    | S n =>
        if opposite_sign g_lo g_hi then Some (Some (lo, hi))
        else let hi' := next_time stop step hi in forth_loop n stop step g hi hi' g_hi (g hi')
    end
  else Some (if opposite_sign g_lo g_hi then Some (lo, hi) else None).
(** bracketing.rs:285-336 *)
Definition search_crossing_forward (fuel : nat) (p : interval) (f : Q -> Q) (threshold : Q) : option (option interval) :=
  let g := fun t => f t - threshold in
  let step := search_step (snd p - fst p) in
  let hi := next_time (snd p) step (fst p) in
  forth_loop fuel (snd p) step g (fst p) hi (g (fst p)) (g hi).

Definition opt_list {A} (o : option A) : list A := match o with Some x => [x] | None => [] end.
(** bracketing.rs:196-215 *)
Fixpoint around_extrema (fuel : nat) (p : interval) (f : Q -> Q) (threshold : Q) (l : list extremum) : option (list interval) :=
  match l with
  | [] => Some []
  | e :: t =>
      match around_extrema fuel p f threshold t with
      | None => None
      | Some r =>
          match ek e with
          | Maximum =>
              if qltb threshold (ev e) then
                match search_crossing_backward fuel (fst p, et e) f threshold, search_crossing_forward fuel (et e, snd p) f threshold with
                | Some a, Some b => Some (opt_list a ++ opt_list b ++ r)
                | _, _ => None
                end
              else Some r
          | Minimum => Some r
          end
      end
  end.
(** bracketing.rs:219-224: [dedup_by] drops a bracket close to the last one kept *)
Definition close (a b : interval) : bool := qltb (Qabs (fst a - fst b)) dedupe_eps && qltb (Qabs (snd a - snd b)) dedupe_eps.
Fixpoint dedup_brackets_from (kept : interval) (l : list interval) : list interval :=
  match l with
  | [] => [kept]
  | x :: t => if close x kept then dedup_brackets_from kept t else kept :: dedup_brackets_from x t
  end.
Definition dedup_brackets (l : list interval) : list interval := match l with [] => [] | x :: t => dedup_brackets_from x t end.
(** bracketing.rs:194-225 *)
Definition brackets_of_extrema (fuel : nat) (p : interval) (f : Q -> Q) (threshold : Q) (l : list extremum) : option (list interval) :=
  match around_extrema fuel p f threshold l with
  | None => None
  | Some bs => Some (dedup_brackets (isort (fun a b => qleb (fst a) (fst b)) bs))
  end.
(** bracketing.rs:183-226 *)
Definition extrema_based_brackets (fuel : nat) (p : interval) (step : Q) (f : Q -> Q) (threshold : Q) : option (list interval) :=
  match find_extrema fuel p step f with
  | None => None
  | Some l => brackets_of_extrema fuel p f threshold l
  end.
