(** FIPS 180-4 SHA-256, written independently of the code model:
    arithmetic rotations, recursive message schedule, whole-message padding. *)
From Coq Require Import List NArith PeanoNat.
Import ListNotations.
Local Open Scope N_scope.

Definition SHR (n x : N) : N := x / 2 ^ n.
Definition ROTR (n x : N) : N := x / 2 ^ n + (x mod 2 ^ n) * 2 ^ (32 - n).
Definition plus32 (a b : N) : N := (a + b) mod 2 ^ 32.
Definition compl (x : N) : N := 2 ^ 32 - 1 - x.

(** FIPS 180-4 section 4.1.2 *)
Definition Ch (x y z : N) : N := N.lxor (N.land x y) (N.land (compl x) z).
Definition Maj (x y z : N) : N := N.lxor (N.land x y) (N.lxor (N.land x z) (N.land y z)).
Definition Sigma0 (x : N) : N := N.lxor (ROTR 2 x) (N.lxor (ROTR 13 x) (ROTR 22 x)).
Definition Sigma1 (x : N) : N := N.lxor (ROTR 6 x) (N.lxor (ROTR 11 x) (ROTR 25 x)).
Definition sigma0 (x : N) : N := N.lxor (ROTR 7 x) (N.lxor (ROTR 18 x) (SHR 3 x)).
Definition sigma1 (x : N) : N := N.lxor (ROTR 17 x) (N.lxor (ROTR 19 x) (SHR 10 x)).

(** The first 64 primes. *)
Definition primes64 : list N :=
  [2; 3; 5; 7; 11; 13; 17; 19; 23; 29; 31; 37; 41; 43; 47; 53; 59; 61; 67; 71; 73; 79; 83; 89; 97;
   101; 103; 107; 109; 113; 127; 131; 137; 139; 149; 151; 157; 163; 167; 173; 179; 181; 191; 193;
   197; 199; 211; 223; 227; 229; 233; 239; 241; 251; 257; 263; 269; 271; 277; 281; 283; 293; 307; 311].

(** [k] is the first 32 bits of the fractional part of the cube root of [p]:
    [i * 2^32 + k = floor (2^32 * cbrt p)] with [i < 8] (since [p < 512]). *)
Definition is_cbrt_frac (p k : N) : Prop :=
  exists i, k < 2 ^ 32 /\
    (i * 2 ^ 32 + k) ^ 3 <= p * 2 ^ 96 < (i * 2 ^ 32 + k + 1) ^ 3.
(** Same for square roots (initial hash value, section 5.3.3). *)
Definition is_sqrt_frac (p k : N) : Prop :=
  exists i, k < 2 ^ 32 /\
    (i * 2 ^ 32 + k) ^ 2 <= p * 2 ^ 64 < (i * 2 ^ 32 + k + 1) ^ 2.

(** Big-endian value of a byte string. *)
Definition be_value (l : list N) : N := fold_left (fun acc b => acc * 256 + b) l 0.

Section Hash.
(** Round constants and initial value are parameters here; the theorem supplies
    tables proved to be the cube/square-root fractions. *)
Variable K : list N.
Variable IV : list N.

(** Section 6.2.2 step 1: message schedule [W_t] of a 64-byte block. *)
Fixpoint W (fuel : nat) (block : list N) (t : nat) : N :=
  match fuel with
  | O => 0
  | S k =>
      if Nat.ltb t 16 then be_value (firstn 4 (skipn (4 * t) block))
      else plus32 (plus32 (plus32 (sigma1 (W k block (t - 2))) (W k block (t - 7)))
                          (sigma0 (W k block (t - 15))))
                  (W k block (t - 16))
  end.
Definition Wt (block : list N) (t : nat) : N := W (S t) block t.

Record st := { va : N; vb : N; vc : N; vd : N; ve : N; vf : N; vg : N; vh : N }.

(** Section 6.2.2 step 3. *)
Definition step (block : list N) (t : nat) (s : st) : st :=
  let T1 := plus32 (plus32 (plus32 (plus32 (vh s) (Sigma1 (ve s))) (Ch (ve s) (vf s) (vg s)))
                           (nth t K 0)) (Wt block t) in
  let T2 := plus32 (Sigma0 (va s)) (Maj (va s) (vb s) (vc s)) in
  {| vh := vg s; vg := vf s; vf := ve s; ve := plus32 (vd s) T1;
     vd := vc s; vc := vb s; vb := va s; va := plus32 T1 T2 |}.

Fixpoint steps (block : list N) (n : nat) (s : st) : st :=
  match n with
  | O => s
  | S k => step block k (steps block k s)
  end.

(** Section 6.2.2 steps 2 and 4. *)
Definition hash_block (H block : list N) : list N :=
  match H with
  | [h0; h1; h2; h3; h4; h5; h6; h7] =>
      let s := steps block 64
        {| va := h0; vb := h1; vc := h2; vd := h3; ve := h4; vf := h5; vg := h6; vh := h7 |} in
      [plus32 (va s) h0; plus32 (vb s) h1; plus32 (vc s) h2; plus32 (vd s) h3;
       plus32 (ve s) h4; plus32 (vf s) h5; plus32 (vg s) h6; plus32 (vh s) h7]
  | _ => []
  end.

(** Big-endian encoding of [x] on [n] bytes. *)
Fixpoint be_encode (n : nat) (x : N) : list N :=
  match n with
  | O => []
  | S k => be_encode k (x / 256) ++ [x mod 256]
  end.

(** Section 5.1.1: [p] is the padded form of [m]: a one bit, the least number of
    zero bytes that makes the total a multiple of 64 bytes, the bit length on 64
    bits. *)
Definition is_padding (m p : list N) : Prop :=
  exists k, p = m ++ [128] ++ repeat 0 k ++ be_encode 8 (8 * N.of_nat (length m)) /\
    (length p mod 64 = 0)%nat /\ (k < 64)%nat.

(** [d] is the digest of [m]. *)
Definition is_digest (m d : list N) : Prop :=
  exists p blocks,
    is_padding m p /\
    p = concat blocks /\ Forall (fun b => length b = 64%nat) blocks /\
    d = flat_map (be_encode 4) (fold_left hash_block blocks IV).
End Hash.

(** ** Hexadecimal text *)
Inductive hex_digit_value : N -> N -> Prop :=
| hd_dec c : 48 <= c <= 57 -> hex_digit_value c (c - 48)       (* '0'..'9' *)
| hd_low c : 97 <= c <= 102 -> hex_digit_value c (c - 87)      (* 'a'..'f' *)
| hd_upp c : 65 <= c <= 70 -> hex_digit_value c (c - 55).      (* 'A'..'F' *)

(** The text [s] denotes the byte string [d], two digits per byte. *)
Inductive denotes : list N -> list N -> Prop :=
| den_nil : denotes [] []
| den_cons h l s vh vl d :
    hex_digit_value h vh -> hex_digit_value l vl -> denotes s d ->
    denotes (h :: l :: s) (16 * vh + vl :: d).

(** Upper-casing of an ASCII code. *)
Definition to_upper (c : N) : N := if (97 <=? c) then if (c <=? 122) then c - 32 else c else c.

(** Primality. *)
Definition is_prime (n : N) : Prop := 2 <= n /\ forall d, N.divide d n -> d = 1 \/ d = n.
