(** Meaning of a spacecraft-clock table. *)
From Coq Require Import List ZArith QArith Sorted.
From Verif Require Import Sclk_Model.
Import ListNotations.
Local Open Scope Q_scope.

(** Times and ticks both grow from entry to entry, and the clock runs forward. *)
Definition growing (l : list coeff) : Prop :=
  StronglySorted (fun c n => c_et c < c_et n /\ c_ticks c < c_ticks n) l /\ Forall (fun c => 0 < c_rate c) l.
Definition follows (l : list coeff) (c n : coeff) : Prop := exists a b, l = a ++ c :: n :: b.
(** Ticks counted by an entry up to the start of the next. *)
Definition reach (c n : coeff) : Q := c_ticks c + (c_et n - c_et c) * c_rate c.
Definition no_overlap (l : list coeff) : Prop := forall c n, follows l c n -> reach c n <= c_ticks n.
Definition no_gap (l : list coeff) : Prop := forall c n, follows l c n -> c_ticks n <= reach c n.
(** [c] is the entry in force at [x]: it started, and no later one did. *)
Definition in_force (key : coeff -> Q) (l : list coeff) (x : Q) (c : coeff) : Prop :=
  In c l /\ key c <= x /\ forall n, In n l -> key n <= key c \/ x < key n.
