(** Siderust Chebyshev kernels (src/formats/sck.rs). Doubles are 64-bit patterns. [debug] selects a
    build with overflow checks (a build without them wraps). *)
From Coq Require Import Ascii String List Arith NArith Bool.
From Verif Require Import Base Text Daf_Model.
Import ListNotations.
Local Open Scope N_scope.
Local Open Scope outcome_scope.

Inductive sck_err := Short | BadMagic | Geometry | Payload.
(** sck.rs:29-55 *)
Record sck_header := SckHeader { ncoeff : N; record_count : N; center_id : N; target_id : N; frame_id : N; time_scale_id : N; valid_from : N; valid_to : N }.
Record sck := Sck { hdr : sck_header; records : list N }.
(** sck.rs:61 *)
Definition record_stride (k : sck) : N := 2 + 3 * ncoeff (hdr k).

(** [bytes[a..b]] of a buffer long enough, little-endian: sck.rs:121-131 *)
Definition field (bytes : list N) (a b : nat) : N := le_val (firstn (b - a) (skipn a bytes)).
Definition read_header (bytes : list N) : sck_header :=
  SckHeader (field bytes 8 12) (field bytes 12 16) (field bytes 16 20) (field bytes 20 24) (field bytes 24 28) (field bytes 28 32)
    (field bytes 32 40) (field bytes 40 48).
(** [chunks_exact(8)] *)
Fixpoint chunks8 (fuel : nat) (l : list N) : list (list N) :=
  match fuel with
  | O => []
  | S f => if (length l <? 8)%nat then [] else firstn 8 l :: chunks8 f (skipn 8 l)
  end.
(** usize multiplication *)
Definition mul (debug : bool) (a b : N) : outcome N sck_err :=
  if a * b <? M64 then Ok (a * b) else if debug then Panic else Ok ((a * b) mod M64).
(** [Vec::<f64>::with_capacity]: at most isize::MAX bytes. (Whether the allocation itself succeeds is not modelled.) *)
Definition with_capacity (n : N) : outcome unit sck_err := if n * 8 <=? 9223372036854775807 then Ok tt else Panic.

(** sck.rs:71-119 [parse_sck] *)
Definition parse_sck (debug : bool) (bytes : list N) : outcome sck sck_err :=
  if (length bytes <? 64)%nat then Err Short
  else if negb (str_eqb (firstn 8 bytes) (lit "SCKERN01")) then Err BadMagic
  else
    let h := read_header bytes in
    let stride := 2 + 3 * ncoeff h in
    if stride * record_count h <? M64 then
      let expected := stride * record_count h in
      let payload := skipn 64 bytes in
      e8 <- mul debug expected 8 ;;
      if negb (N.of_nat (length payload) =? e8) then Err Payload
      else
        _ <- with_capacity expected ;;
        Ok (Sck h (map le_val (chunks8 (length payload) payload)))
    else Err Geometry.
