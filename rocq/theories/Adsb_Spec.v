(** Independent vocabulary for the ADS-B properties. *)
From Coq Require Import List NArith ZArith QArith.
Import ListNotations.
Local Open Scope N_scope.

(** ** Polynomials over GF(2): bit [i] of the number is the coefficient of [x^i].
    Addition is [N.lxor]; multiplication by [x^k] is [N.shiftl _ k]. *)
Fixpoint pmul_pos (a : positive) (b : N) : N :=
  match a with
  | xH => b
  | xO a' => N.double (pmul_pos a' b)
  | xI a' => N.lxor b (N.double (pmul_pos a' b))
  end.
Definition pmul (a b : N) : N :=
  match a with N0 => 0 | Npos p => pmul_pos p b end.

(** The Mode-S generator, with its leading [x^24]:
    x^24 + x^23 + ... + x^12 + x^10 + x^3 + 1. *)
Definition G : N := 2 ^ 24 + 0xFFF409.

(** [r] is the remainder of [m] divided by [G]. *)
Definition is_rem (m r : N) : Prop := r < 2 ^ 24 /\ exists q, m = N.lxor (pmul q G) r.
Definition G_divides (m : N) : Prop := exists q, m = pmul q G.

(** A byte string as one polynomial, first byte most significant. *)
Definition msg_value (l : list N) : N := fold_left (fun acc b => acc * 256 + b) l 0.

(** Number of one bits among the [n] lowest bits. *)
Definition ones (n : nat) (m : N) : nat :=
  length (filter (fun i => N.testbit m (N.of_nat i)) (seq 0 n)).

(** ** Hexadecimal text *)
Inductive hexval : N -> N -> Prop :=
| hv_dec c : 48 <= c <= 57 -> hexval c (c - 48)
| hv_low c : 97 <= c <= 102 -> hexval c (c - 87)
| hv_upp c : 65 <= c <= 70 -> hexval c (c - 55).
Inductive hextext : list N -> list N -> Prop :=
| ht_nil : hextext [] []
| ht_cons h l s vh vl d : hexval h vh -> hexval l vl -> hextext s d ->
    hextext (h :: l :: s) (16 * vh + vl :: d).

(** ** Six-bit characters (ICAO Annex 10 vol IV table 3-9) *)
Inductive sixbit : N -> N -> Prop :=
| sb_letter c : 65 <= c <= 90 -> sixbit c (c - 64)    (* 'A'..'Z' = 1..26 *)
| sb_space : sixbit 32 32
| sb_digit c : 48 <= c <= 57 -> sixbit c c.           (* '0'..'9' = 48..57 *)

(** Eight six-bit values packed most significant first. *)
Definition pack6 (vs : list N) : N := fold_left (fun acc v => acc * 64 + v) vs 0.

(** [s'] is [s] without its trailing blanks. *)
Definition stripped (s s' : list N) : Prop :=
  (exists k, s = s' ++ repeat 32 k) /\ (forall t, s' <> t ++ [32]).

(** ** Bit fields. A 14-byte frame read as one 112-bit number [M] (first bit on air is
    the most significant); [field M lo w] is the [w]-bit field whose last bit has [lo]
    bits after it. *)
Definition field (M lo w : N) : N := (M / 2 ^ lo) mod 2 ^ w.
