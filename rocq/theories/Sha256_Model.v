(** Model of /repo/src/checksum.rs (SHA-256 and hex helpers). *)
From Coq Require Import List NArith PeanoNat Bool Lia.
From Verif Require Import Base.
Import ListNotations.
Local Open Scope N_scope.

Definition two32 : N := 4294967296.

(** [u32::wrapping_add] *)
Definition wadd (a b : N) : N := (a + b) mod two32.

(** src/checksum.rs:101-103 [rotr] = [u32::rotate_right]. *)
Definition rotr (x n : N) : N :=
  N.lor (N.shiftr x n) (N.land (N.shiftl x (32 - n)) 0xffffffff).

(** [!x] on [u32] *)
Definition not32 (x : N) : N := N.lxor x 0xffffffff.

(** src/checksum.rs:86-95 *)
Definition K : list N :=
  [0x428a2f98; 0x71374491; 0xb5c0fbcf; 0xe9b5dba5; 0x3956c25b; 0x59f111f1; 0x923f82a4; 0xab1c5ed5;
   0xd807aa98; 0x12835b01; 0x243185be; 0x550c7dc3; 0x72be5d74; 0x80deb1fe; 0x9bdc06a7; 0xc19bf174;
   0xe49b69c1; 0xefbe4786; 0x0fc19dc6; 0x240ca1cc; 0x2de92c6f; 0x4a7484aa; 0x5cb0a9dc; 0x76f988da;
   0x983e5152; 0xa831c66d; 0xb00327c8; 0xbf597fc7; 0xc6e00bf3; 0xd5a79147; 0x06ca6351; 0x14292967;
   0x27b70a85; 0x2e1b2138; 0x4d2c6dfc; 0x53380d13; 0x650a7354; 0x766a0abb; 0x81c2c92e; 0x92722c85;
   0xa2bfe8a1; 0xa81a664b; 0xc24b8b70; 0xc76c51a3; 0xd192e819; 0xd6990624; 0xf40e3585; 0x106aa070;
   0x19a4c116; 0x1e376c08; 0x2748774c; 0x34b0bcb5; 0x391c0cb3; 0x4ed8aa4a; 0x5b9cca4f; 0x682e6ff3;
   0x748f82ee; 0x78a5636f; 0x84c87814; 0x8cc70208; 0x90befffa; 0xa4506ceb; 0xbef9a3f7; 0xc67178f2].

(** src/checksum.rs:97-99 *)
Definition H0 : list N :=
  [0x6a09e667; 0xbb67ae85; 0x3c6ef372; 0xa54ff53a; 0x510e527f; 0x9b05688c; 0x1f83d9ab; 0x5be0cd19].

(** src/checksum.rs:109-112: one big-endian word of the block. *)
Definition load_word (block : list N) (i : nat) : N :=
  N.lor (N.lor (N.lor (N.shiftl (nth (i * 4) block 0) 24)
                      (N.shiftl (nth (i * 4 + 1) block 0) 16))
               (N.shiftl (nth (i * 4 + 2) block 0) 8))
        (nth (i * 4 + 3) block 0).

(** src/checksum.rs:106-114: first sixteen schedule words.
    The array [w] is a list that grows; entry [i] is written exactly once. *)
Definition init_w (block : list N) : list N :=
  map (load_word block) (seq 0 16).

(** src/checksum.rs:117-122: one schedule step (index [i >= 16]). *)
Definition sched_word (w : list N) (i : nat) : N :=
  let w15 := nth (i - 15) w 0 in
  let w2 := nth (i - 2) w 0 in
  let s0 := N.lxor (N.lxor (rotr w15 7) (rotr w15 18)) (N.shiftr w15 3) in
  let s1 := N.lxor (N.lxor (rotr w2 17) (rotr w2 19)) (N.shiftr w2 10) in
  wadd (wadd (wadd (nth (i - 16) w 0) s0) (nth (i - 7) w 0)) s1.

(** src/checksum.rs:115-124 *)
Definition schedule (block : list N) : list N :=
  fold_left (fun w i => w ++ [sched_word w i]) (seq 16 48) (init_w block).

Definition regs : Type := N * N * N * N * N * N * N * N.

(** src/checksum.rs:137-154: one round. *)
Definition round (w : list N) (r : regs) (i : nat) : regs :=
  let '(a, b, c, d, e, f, g, h) := r in
  let s1 := N.lxor (N.lxor (rotr e 6) (rotr e 11)) (rotr e 25) in
  let ch := N.lxor (N.land e f) (N.land (not32 e) g) in
  let t1 := wadd (wadd (wadd (wadd h s1) ch) (nth i K 0)) (nth i w 0) in
  let s0 := N.lxor (N.lxor (rotr a 2) (rotr a 13)) (rotr a 22) in
  let mj := N.lxor (N.lxor (N.land a b) (N.land a c)) (N.land b c) in
  let t2 := wadd s0 mj in
  (wadd t1 t2, a, b, c, wadd d t1, e, f, g).

Definition regs_of (s : list N) : regs :=
  (nth 0 s 0, nth 1 s 0, nth 2 s 0, nth 3 s 0, nth 4 s 0, nth 5 s 0, nth 6 s 0, nth 7 s 0).

(** src/checksum.rs:105-166 *)
Definition compress (state block : list N) : list N :=
  let w := schedule block in
  let '(a, b, c, d, e, f, g, h) :=
    fold_left (round w) (seq 0 64) (regs_of state) in
  [wadd (nth 0 state 0) a; wadd (nth 1 state 0) b; wadd (nth 2 state 0) c; wadd (nth 3 state 0) d;
   wadd (nth 4 state 0) e; wadd (nth 5 state 0) f; wadd (nth 6 state 0) g; wadd (nth 7 state 0) h].

(** src/checksum.rs:178-188: loop over full blocks; returns state and offset. *)
Fixpoint full_blocks (fuel : nat) (state input : list N) (off : nat) : list N * nat :=
  match fuel with
  | O => (state, off)
  | S k =>
      if Nat.leb (off + 64) (length input)
      then full_blocks k (compress state (firstn 64 (skipn off input))) input (off + 64)
      else (state, off)
  end.

Definition byte (x : N) : N := x mod 256.

(** src/checksum.rs:194-217: the 128-byte tail buffer. *)
Definition write_bytes (buf : list N) (off : nat) (src : list N) : list N :=
  fst (fold_left (fun '(b, k) v => (upd b k v, S k)) src (buf, off)).

Definition pad_zeros (rem : nat) : nat :=
  (if Nat.ltb (rem mod 64) 56 then 55 - rem mod 64 else 55 + 64 - rem mod 64)%nat.

Definition tail_of (rest : list N) (bit_len : N) : list N * nat :=
  let rem := length rest in
  let t0 := write_bytes (repeat 0 128) 0 rest in
  let t1 := upd t0 rem 0x80 in
  let final_len := (rem + 1 + pad_zeros rem + 8)%nat in
  let len_off := (final_len - 8)%nat in
  let t2 := upd t1 len_off (byte (N.shiftr bit_len 56)) in
  let t3 := upd t2 (len_off + 1) (byte (N.shiftr bit_len 48)) in
  let t4 := upd t3 (len_off + 2) (byte (N.shiftr bit_len 40)) in
  let t5 := upd t4 (len_off + 3) (byte (N.shiftr bit_len 32)) in
  let t6 := upd t5 (len_off + 4) (byte (N.shiftr bit_len 24)) in
  let t7 := upd t6 (len_off + 5) (byte (N.shiftr bit_len 16)) in
  let t8 := upd t7 (len_off + 6) (byte (N.shiftr bit_len 8)) in
  let t9 := upd t8 (len_off + 7) (byte bit_len) in
  (t9, final_len).

(** src/checksum.rs:219-229 *)
Fixpoint tail_blocks (fuel : nat) (state tail : list N) (bi final_len : nat) : list N :=
  match fuel with
  | O => state
  | S k =>
      if Nat.ltb bi final_len
      then tail_blocks k (compress state (firstn 64 (skipn bi tail))) tail (bi + 64) final_len
      else state
  end.

(** src/checksum.rs:231-241 *)
Definition word_bytes (v : N) : list N :=
  [byte (N.shiftr v 24); byte (N.shiftr v 16); byte (N.shiftr v 8); byte v].

(** src/checksum.rs:172-242. [bit_len] wraps at 2^64 as in the code. *)
Definition sha256 (input : list N) : list N :=
  let len := length input in
  let bit_len := (N.of_nat len * 8) mod (2 ^ 64) in
  let '(state, off) := full_blocks (S len) H0 input 0 in
  let rest := skipn off input in
  let '(tail, final_len) := tail_of rest bit_len in
  flat_map word_bytes (tail_blocks 3 state tail 0 final_len).

(** src/checksum.rs:246-253 [hex_nibble]; [None] is the panic. *)
Definition hex_nibble (b : N) : option N :=
  if (48 <=? b) && (b <=? 57) then Some (b - 48)
  else if (97 <=? b) && (b <=? 102) then Some (b - 97 + 10)
  else if (65 <=? b) && (b <=? 70) then Some (b - 65 + 10)
  else None.

(** src/checksum.rs:256-268 [hex32]. *)
Fixpoint hex_pairs (s : list N) : option (list N) :=
  match s with
  | [] => Some []
  | [_] => None
  | h :: l :: t =>
      match hex_nibble h, hex_nibble l with
      | Some hi, Some lo =>
          match hex_pairs t with
          | Some r => Some (N.lor (N.land (N.shiftl hi 4) 0xff) lo :: r)
          | None => None
          end
      | _, _ => None
      end
  end.

Definition hex32 (s : list N) : option (list N) :=
  if Nat.eqb (length s) 64 then hex_pairs s else None.

(** src/checksum.rs:271-279 [to_hex]. *)
Definition hex_table : list N :=
  [48; 49; 50; 51; 52; 53; 54; 55; 56; 57; 97; 98; 99; 100; 101; 102].
Definition hex_digit (n : N) : N := nth (N.to_nat n) hex_table 0.
Definition to_hex (digest : list N) : list N :=
  flat_map (fun b => [hex_digit (N.shiftr b 4); hex_digit (N.land b 0x0f)]) digest.

(** src/checksum.rs:290-306: [false] is the panic on mismatch or bad hex. *)
Fixpoint eq_bytes (a b : list N) : bool :=
  match a, b with
  | [], [] => true
  | x :: a', y :: b' => (x =? y) && eq_bytes a' b'
  | _, _ => false
  end.
Definition assert_sha256_eq (data expected : list N) : bool :=
  match hex32 expected with
  | Some e => eq_bytes (sha256 data) e
  | None => false
  end.
