(** The fused search for labelled crossings: src/event/lunar/moon_cache.rs:514-580.

    Times and values are exact rationals, as in [Cross_Model]; the sign of zero is positive, negative zero is not modelled. *)
From Coq Require Import List ZArith QArith Qabs Bool.
From Verif Require Import Qb Sort Root_Model Cross_Model.
Import ListNotations.
Local Open Scope Q_scope.

(** moon_cache.rs:548-562; the product of two signs is negative *)
Definition sign_hit (start stop : Q) (g : Q -> Q) (t prev next_t next_v : Q) : list crossing :=
  if opposite_sign prev next_v then
    match brent_with_values t next_t prev next_v g with
    | Some r => if qleb start r && qleb r stop then [Cr r (if qltb prev 0 then 1 else -1)%Z] else []
    | None => []
    end
  else [].
(** moon_cache.rs:514-580 *)
Definition find_and_label_crossings (fuel : nat) (p : interval) (step : Q) (f : Q -> Q) (threshold : Q) : option (list crossing * bool) :=
  let g := fun t => f t - threshold in
  match scan fuel (snd p) step g (sign_hit (fst p) (snd p) g) (fst p) (g (fst p)) with
  | Some cs => Some (sort_dedup ct cs, qltb 0 (g (fst p)))
  | None => None
  end.
