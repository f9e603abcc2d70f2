(** C16: the DAF directory. *)
From Coq Require Import Ascii String List NArith ZArith Lia Bool.
From Verif Require Import Base Text Daf_Model Daf_Spec Daf_Proofs.
Import ListNotations.
Local Open Scope N_scope.

(** Success is exactly: a DAF file record in either byte order with ND=2, NI=6, a finite chain of
    summary records, every announced summary inside the file; and the result is every summary of
    every record of the chain, in order. *)
Theorem C16_success data out : size data < 9223372036854775808 ->
  ((exists f, daf_parse f data = Some (Ok out)) <->
   exists le l, locator_ok true data = true /\ announces data le 2 6 /\
     chain le data 5 (first_rec le data) l /\
     out = flat_map (fun r => map (val_summary le data) (offsets le data 5 r)) l).
Proof. exact (daf_success data out). Qed.

Theorem C16_raw_success data le nd ni out : size data < 9223372036854775808 ->
  locator_ok false data = true -> announces data le nd ni ->
  ((exists f, raw_parse f data = Some (Ok (nd, ni, out))) <->
   exists l, chain le data (nd + (ni + 1) / 2) (first_rec le data) l /\
     out = flat_map (fun r => map (val_raw le data nd ni) (offsets le data (nd + (ni + 1) / 2) r)) l).
Proof. exact (raw_success data le nd ni out). Qed.

(** The loop ends within one step more than the file has records, or never. *)
Theorem C16_termination data : size data < 9223372036854775808 ->
  (daf_parse (S (length data / 1024)) data = None <-> forall f, daf_parse f data = None).
Proof. intros H. split; [apply (daf_forever data H)|auto]. Qed.

(** The reader panics only on a record number whose byte offset does not fit 64 bits. *)
Theorem C16_panic data f : size data < 9223372036854775808 -> daf_parse f data = Some Panic ->
  exists le i, announces data le 2 6 /\
    (forall j, (j < i)%nat -> whole data (iter le data j (first_rec le data))) /\
    M64 <= iter le data i (first_rec le data) * 1024.
Proof. exact (daf_panic data f). Qed.

(** A file record, and a summary record with one summary. *)
Definition file_rec (fward : list N) : list N :=
  lit "DAF/SPK " ++ [2;0;0;0] ++ [6;0;0;0] ++ repeat 32 60 ++ fward ++ repeat 0 944.
Definition sum_rec (next : list N) : list N :=
  next ++ repeat 0 8 ++ [0;0;0;0;0;0;240;63]
  ++ [0;0;0;0;0;0;240;191] ++ [0;0;0;0;0;0;240;63] ++ [10;0;0;0] ++ [0;0;0;0] ++ [1;0;0;0] ++ [2;0;0;0]
  ++ [1;1;0;0] ++ [2;2;0;0] ++ repeat 0 960.
Definition good_file := file_rec [3;0;0;0] ++ sum_rec (repeat 0 8) ++ sum_rec [0;0;0;0;0;0;0;64].
Example C16_case : size good_file < 9223372036854775808 /\ locator_ok true good_file = true /\
  announces good_file true 2 6 /\ exists s, daf_parse 4 good_file = Some (Ok [s; s]) /\
  s_target s = 10%Z /\ s_start_word s = 257 /\ s_end_word s = 514.
Proof.
  split; [vm_compute; reflexivity|]. split; [vm_compute; reflexivity|].
  split; [unfold announces, small; vm_compute; repeat split; try discriminate; intros; discriminate|].
  eexists. split; [vm_compute; reflexivity|]. vm_compute. repeat split.
Qed.

(** A summary record naming itself as its successor makes the reader loop forever. *)
Definition loop_file := file_rec [2;0;0;0] ++ sum_rec [0;0;0;0;0;0;0;64].
Theorem C16_termination_refuted : size loop_file = 2048 /\ forall f, daf_parse f loop_file = None.
Proof.
  split; [vm_compute; reflexivity|]. apply C16_termination; [vm_compute; reflexivity|]. vm_compute. reflexivity.
Qed.
(** A negative forward pointer overflows the offset computation. *)
Theorem C16_no_panic_refuted : daf_parse 1 (file_rec [255;255;255;255]) = Some Panic.
Proof. vm_compute. reflexivity. Qed.
(** Words are always read little-endian, also from a file whose record announces the opposite. *)
Theorem C16_word_order_refuted : exists data, announces data false 2 6 /\
  read_f64_at_word data 100 = Ok (dword true data 792) /\ dword true data 792 <> dword false data 792.
Proof.
  exists (lit "DAF/SPK " ++ [0;0;0;2] ++ [0;0;0;6] ++ repeat 0 776 ++ [63;240;0;0;0;0;0;0] ++ repeat 0 224).
  split; [unfold announces, small; vm_compute; repeat split; try discriminate; intros _ [[_ X] _]; now apply X|].
  split; vm_compute; [reflexivity|discriminate].
Qed.

Print Assumptions C16_success.
Print Assumptions C16_raw_success.
Print Assumptions C16_termination.
Print Assumptions C16_panic.
Print Assumptions C16_termination_refuted.
