(** C17: SPK segments. *)
From Coq Require Import List NArith ZArith Lia.
From Verif Require Import Base Text Daf_Model Daf_Spec Daf_Proofs Daf_Props Spk_Model Spk_Spec Spk_Proofs.
Import ListNotations.
Local Open Scope N_scope.

(** Reading succeeds exactly on well-formed segments, with the words the file holds. *)
Theorem C17_exact data s g : size data < 9223372036854775808 -> s_start_word s + 3 < M64 ->
  (read_segment data s = Ok g <-> well_formed data s g).
Proof. intros H. exact (segment_exact data H s g). Qed.

(** Otherwise it returns an error: no read leaves the file. *)
Theorem C17_no_panic data s : size data < 9223372036854775808 -> s_start_word s + 3 < M64 ->
  read_segment data s <> Panic.
Proof. intros H H1. destruct (read_segment_inv data H s H1) as [(g & -> & _)|(e & ->)]; discriminate. Qed.

(** Every coefficient read lies in the file and before the four-word trailer. *)
Theorem C17_inside data s g i : size data < 9223372036854775808 -> s_start_word s + 3 < M64 ->
  read_segment data s = Ok g -> (i < length (g_records g))%nat ->
  length (g_records g) = N.to_nat (g_n g * g_rsize g) /\
  nth i (g_records g) 0 = wordv data (s_start_word s + N.of_nat i) /\
  s_start_word s + N.of_nat i <= s_end_word s - 4 /\ s_end_word s * 8 <= size data.
Proof.
  intros H H1 E Hi. apply (segment_exact data H s g H1) in E. destruct E as [W1 W2 W3 W4 W5 W6 W7 W8 W9 W10].
  assert (L : length (g_records g) = N.to_nat (g_n g * g_rsize g)) by (rewrite W10, map_length; apply seq_length).
  split; [exact L|]. split.
  - rewrite W10. set (f := fun j => wordv data (s_start_word s + N.of_nat j)).
    rewrite nth_indep with (d' := f 0%nat) by (rewrite map_length, seq_length; lia).
    rewrite map_nth. rewrite seq_nth by lia. reflexivity.
  - lia.
Qed.

(** A kernel's indexed list is its supported summaries in order, each with its own data. *)
Theorem C17_indexed data l r : size data < 9223372036854775808 ->
  Forall (fun s => s_start_word s + 3 < M64) l ->
  (parse_indexed data l = Ok r <->
   r <> [] /\ map fst r = filter supported l /\ Forall (fun '(s, g) => well_formed data s g) r).
Proof. intros H. exact (indexed_exact data H l r). Qed.

(** One record of two position coefficients per axis: words 1-8 and the trailer 9-12. *)
Definition fl (hi : N) (lo : N) : list N := [0;0;0;0;0;0;lo;hi].
Definition seg_file : list N :=
  flat_map (fun k => fl 64 k) [0;8;16;20;24;28;32;36] ++ fl 0 0 ++ fl 64 144 ++ fl 64 32 ++ fl 63 240.
Definition seg_sum := Summary 0 0 10 0 1 2 1 12.
Example C17_case : exists g, read_segment seg_file seg_sum = Ok g /\ g_n g = 1 /\ g_rsize g = 8 /\ g_ncoeff g = 2 /\
  hd 0 (g_records g) = 4611686018427387904 /\ length (g_records g) = 8%nat /\ parse_indexed seg_file [seg_sum] = Ok [(seg_sum, g)].
Proof. eexists. split; [vm_compute; reflexivity|]. vm_compute. repeat split. Qed.
(** A summary word stored as -1 overflows the span check (overflow-checked build). *)
Theorem C17_no_panic_refuted : exists s, s_end_word s = usize_of_i32 (-1)%Z /\
  forall data, read_segment data s = Panic.
Proof. exists (Summary 0 0 10 0 1 2 (usize_of_i32 (-1)) (usize_of_i32 (-1))). split; reflexivity. Qed.

Print Assumptions C17_exact.
Print Assumptions C17_no_panic.
Print Assumptions C17_inside.
Print Assumptions C17_indexed.
Print Assumptions C17_no_panic_refuted.
