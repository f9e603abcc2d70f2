(** What a well-formed Type 2/3 segment is, read off the bytes. *)
From Coq Require Import List NArith ZArith.
From Verif Require Import Base Daf_Model Daf_Spec Spk_Model.
Import ListNotations.
Local Open Scope N_scope.

(** The 1-based little-endian word [w]. *)
Definition wordv (data : list N) (w : N) : N := dword true data ((w - 1) * 8).

Definition axes_of (t : Z) (a : N) : Prop := (t = 2%Z /\ a = 3) \/ (t = 3%Z /\ a = 6).

(** Whole-number value of a double. *)
Definition f64_is (w n : N) : Prop := f64_finite w = true /\ f64_integral w = true /\ f64_as_usize w = n.

Record well_formed (data : list N) (s : summary) (g : segment_data) : Prop := {
  wf_start : 1 <= s_start_word s;
  wf_end : s_end_word s * 8 <= size data;
  wf_room : s_start_word s + g_n g * g_rsize g + 4 <= s_end_word s + 1;
  wf_n : f64_is (wordv data (s_end_word s)) (g_n g) /\ 1 <= g_n g <= 10000000;
  wf_rsize : f64_is (wordv data (s_end_word s - 1)) (g_rsize g) /\ 5 <= g_rsize g <= 200;
  wf_intlen : g_intlen g = wordv data (s_end_word s - 2) /\ f64_finite (g_intlen g) = true /\ f64_le0 (g_intlen g) = false;
  wf_init : g_init g = wordv data (s_end_word s - 3) /\ f64_finite (g_init g) = true;
  wf_type : g_type g = s_type s;
  wf_shape : exists a, axes_of (s_type s) a /\ g_rsize g = 2 + a * g_ncoeff g;
  wf_records : g_records g = map (fun i => wordv data (s_start_word s + N.of_nat i)) (seq 0 (N.to_nat (g_n g * g_rsize g))) }.
