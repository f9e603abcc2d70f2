(** What interpolating segments are expected to deliver. *)
From Coq Require Import List NArith ZArith QArith Qabs Bool.
From Verif Require Import Base DecFloat Fnum Poly Seg_Model.
Import ListNotations.
Local Open Scope Q_scope.

Definition epoch (s : discrete) (i : nat) : Q := nth i (di_epochs s) 0.
Definition value (s : discrete) (i component : nat) : Q := nth (i * 6 + component) (di_states s) 0.

(** Shape of a usable segment. *)
Record usable (s : discrete) : Prop := {
  u_epochs : length (di_epochs s) = di_n s;
  u_states : length (di_states s) = (di_n s * 6)%nat;
  u_order : forall i j, (i < j < di_n s)%nat -> epoch s i < epoch s j;
  u_size : (1 <= di_size s)%nat /\ (if (di_type s =? 9)%N then (di_size s + 1 <= di_n s)%nat else (2 <= di_size s <= di_n s)%nat) }.
Definition covered (s : discrete) (t : Q) : Prop := (0 < di_n s)%nat /\ epoch s 0 <= t <= epoch s (di_n s - 1).
(** Neighbouring epochs further apart than the tolerance of the interpolators. *)
Definition spaced (s : discrete) : Prop := forall i j, (i < di_n s)%nat -> (j < di_n s)%nat -> i <> j -> eps < Qabs (epoch s i - epoch s j).
(** The states are samples of polynomials, one per component. *)
Definition sampled (s : discrete) (p : nat -> list Q) : Prop :=
  forall i c, (i < di_n s)%nat -> (c < 6)%nat -> value s i c == peval (p c) (epoch s i).
(** The states are samples of polynomials and of their derivatives, one per axis. *)
Definition sampled_rates (s : discrete) (p : nat -> list Q) : Prop :=
  forall i a, (i < di_n s)%nat -> (a < 3)%nat -> value s i a == peval (p a) (epoch s i) /\ value s i (a + 3) == pderiv (p a) (epoch s i).

(** A window of [count] records out of [n], with [before] of them before the epoch, has half of
    them there unless it touches an end of the table. *)
Definition centred (n first count before : nat) : Prop :=
  (before = Nat.div count 2 \/ (first = O /\ before <= Nat.div count 2) \/ (first + count = n /\ Nat.div count 2 <= before))%nat.

(** Shape of a Chebyshev segment with [components] series per record. *)
Record cheb_ok (c : cheb) (components : N) : Prop := {
  k_len : 0 < ch_intlen c;
  k_n : (0 < ch_n c)%N;
  k_size : ch_rsize c = (2 + components * ch_ncoeff c)%N;
  k_records : length (ch_records c) = N.to_nat (ch_n c * ch_rsize c) }.
Definition edge (c : cheb) (i : N) : Q := ch_init c + ch_intlen c * inject_Z (Z.of_N i).
Definition record_word (c : cheb) (i : N) (w : nat) : fnum := nth (N.to_nat (i * ch_rsize c) + w) (ch_records c) NaN.
(** Record [i] describes the [i]-th interval. *)
Definition regular (c : cheb) : Prop := forall i, (i < ch_n c)%N -> exists m r, record_word c i 0 = Fin m /\ record_word c i 1 = Fin r /\
  m == (edge c i + edge c (i + 1)) / 2 /\ r == ch_intlen c / 2.
