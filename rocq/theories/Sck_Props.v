(** C33: Chebyshev kernel files *)
From Coq Require Import Ascii String List Arith NArith ZArith Bool Lia.
From Verif Require Import Base Text Daf_Model Sck_Model Sck_Proofs.
Import ListNotations.
Local Open Scope N_scope.

(** C33: a buffer is accepted exactly when its magic and its size fit its header. *)
Theorem C33_accepts_iff : forall debug bytes, slice_len bytes ->
  ((exists k, parse_sck debug bytes = Ok k) <-> firstn 8 bytes = lit "SCKERN01" /\
    N.of_nat (length bytes) = 64 + 8 * (record_count (read_header bytes) * (2 + 3 * ncoeff (read_header bytes)))).
Proof.
  intros d b L. split.
  - intros (k & H). destruct (parse_ok _ _ _ H L) as (M & S & _). split; [exact M|exact S].
  - intros (M & S). eexists. exact (parse_accept d b L M S).
Qed.
(** C33: every header and list of records of the right length, laid out as the format says, is read back unchanged. *)
Theorem C33_reads_image : forall debug h pad recs, header_ok h -> length pad = 16%nat -> Forall (fun w => w < 2 ^ 64) recs ->
  N.of_nat (length recs) = record_count h * (2 + 3 * ncoeff h) -> slice_len (sck_image h pad recs) ->
  parse_sck debug (sck_image h pad recs) = Ok (Sck h recs).
Proof. exact parse_image. Qed.
(** C33: and nothing else is: the accepted buffer is the layout of what was read. *)
Theorem C33_reads_only_images : forall debug bytes k, parse_sck debug bytes = Ok k -> slice_len bytes -> Forall (fun b => b < 256) bytes ->
  bytes = sck_image (hdr k) (firstn 16 (skipn 48 bytes)) (records k) /\
  N.of_nat (length (records k)) = record_count (hdr k) * record_stride k.
Proof. intros d b k H L F. split; [exact (parse_unique d b k H L F)|exact (payload_words d b k H L)]. Qed.
Definition h0 : sck_header := SckHeader 1 2 0 301 0 0 4611686018427387904 9223372036854775808.
Definition recs0 : list N := [1; 2; 3; 4; 5; 6; 7; 8; 9; 18446744073709551615].
Example C33_case : header_ok h0 /\ slice_len (sck_image h0 (repeat 7 16) recs0) /\ Forall (fun w => w < 2 ^ 64) recs0 /\
  parse_sck true (sck_image h0 (repeat 7 16) recs0) = Ok (Sck h0 recs0) /\ length (sck_image h0 (repeat 7 16) recs0) = 144%nat.
Proof.
  split; [vm_compute; repeat split|]. split; [vm_compute; reflexivity|]. split; [repeat constructor|]. split; vm_compute; reflexivity.
Qed.

(** C33: the parser does panic: exactly when the record geometry fits 64 bits in words but not in bytes (with overflow
    checks), or wraps around to the size of the payload (without). *)
Theorem C33_no_panic_refuted : forall debug bytes, slice_len bytes -> (parse_sck debug bytes = Panic <->
  (64 <= length bytes)%nat /\ firstn 8 bytes = lit "SCKERN01" /\
  let w := record_count (read_header bytes) * (2 + 3 * ncoeff (read_header bytes)) in
  w < 2 ^ 64 /\ 2 ^ 64 <= 8 * w /\ (debug = true \/ N.of_nat (length bytes) - 64 = (8 * w) mod 2 ^ 64)).
Proof. exact parse_panic. Qed.
(** Sixty-four bytes that crash both builds. *)
Definition killer : list N := sck_image (SckHeader 2863311530 268435456 0 0 0 0 0 0) (repeat 0 16) [].
Example C33_panic_case : length killer = 64%nat /\ parse_sck true killer = Panic /\ parse_sck false killer = Panic.
Proof. repeat split; vm_compute; reflexivity. Qed.
Print Assumptions C33_accepts_iff.
Print Assumptions C33_reads_image.
Print Assumptions C33_reads_only_images.
Print Assumptions C33_no_panic_refuted.
