(** C01, C02: the checksum helpers. *)
From Coq Require Import List NArith.
From Verif Require Import Base Sha256_Model Sha256_Spec Sha256_Proofs Sha256_Hex.
Import ListNotations.
Local Open Scope N_scope.

(** ** C01 *)
(** For every byte string shorter than 2^61 bytes the code returns the FIPS 180-4
    digest, and nothing else is the digest. *)
Theorem C01_sha256_is_fips (m d : list N) :
  Forall (fun b => b < 256) m -> N.of_nat (length m) < 2 ^ 61 ->
  (is_digest K H0 m d <-> d = sha256 m).
Proof. exact (sha256_iff m d). Qed.

(** The constant tables are the ones FIPS 180-4 defines: cube-root fractions of the
    first 64 primes, square-root fractions of the first 8. *)
Theorem C01_constants :
  Forall2 is_cbrt_frac primes64 K /\ Forall2 is_sqrt_frac (firstn 8 primes64) H0.
Proof. exact (conj K_ok H0_ok). Qed.

Theorem C01_prime_table (n : N) : In n primes64 <-> is_prime n /\ n <= 311.
Proof. exact (primes64_spec n). Qed.

(** The digest always has 32 bytes. *)
Theorem C01_digest_shape (m : list N) :
  length (sha256 m) = 32%nat /\ Forall (fun b => b < 256) (sha256 m).
Proof. exact (sha256_shape m). Qed.

(** "abc" *)
Example C01_abc : is_digest K H0 [97; 98; 99]
  [0xba; 0x78; 0x16; 0xbf; 0x8f; 0x01; 0xcf; 0xea; 0x41; 0x41; 0x40; 0xde; 0x5d; 0xae; 0x22; 0x23;
   0xb0; 0x03; 0x61; 0xa3; 0x96; 0x17; 0x7a; 0x9c; 0xb4; 0x10; 0xff; 0x61; 0xf2; 0x00; 0x15; 0xad].
Proof.
  apply C01_sha256_is_fips; [repeat constructor | reflexivity | vm_compute; reflexivity].
Qed.

(** ** C02 *)
Theorem C02_hex_round_trip (d : list N) :
  length d = 32%nat -> Forall (fun b => b < 256) d -> hex32 (to_hex d) = Some d.
Proof. exact (hex_round_trip d). Qed.

Theorem C02_hex_decodes_denotation (s d : list N) :
  hex32 s = Some d <-> length s = 64%nat /\ denotes s d.
Proof. exact (hex32_spec s d). Qed.

Theorem C02_hex_accepts_exactly (s : list N) :
  (exists d, hex32 s = Some d) <->
  length s = 64%nat /\ Forall (fun c => exists v, hex_digit_value c v) s.
Proof. exact (hex32_accepts s). Qed.

Theorem C02_hex_case_insensitive (s : list N) : hex32 (map to_upper s) = hex32 s.
Proof. exact (hex32_upper s). Qed.

(** The comparison passes exactly when the text denotes the FIPS digest of the data. *)
Theorem C02_compare_exact (data text : list N) :
  Forall (fun b => b < 256) data -> N.of_nat (length data) < 2 ^ 61 ->
  (assert_sha256_eq data text = true <->
   length text = 64%nat /\ exists d, is_digest K H0 data d /\ denotes text d).
Proof. exact (compare_exact data text). Qed.

Example C02_case : hex32 (to_hex (sha256 [1; 2; 3])) = Some (sha256 [1; 2; 3]) /\
  assert_sha256_eq [1; 2; 3] (map to_upper (to_hex (sha256 [1; 2; 3]))) = true /\
  assert_sha256_eq [1; 2; 4] (to_hex (sha256 [1; 2; 3])) = false.
Proof. vm_compute. auto. Qed.

Print Assumptions C01_sha256_is_fips.
Print Assumptions C01_constants.
Print Assumptions C01_prime_table.
Print Assumptions C01_digest_shape.
Print Assumptions C02_hex_round_trip.
Print Assumptions C02_hex_decodes_denotation.
Print Assumptions C02_hex_accepts_exactly.
Print Assumptions C02_hex_case_insensitive.
Print Assumptions C02_compare_exact.
