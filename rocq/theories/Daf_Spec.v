(** What a DAF file contains, read off its bytes: total functions of the byte list and the
    chain of summary records. *)
From Coq Require Import List NArith ZArith.
From Verif Require Import Base Daf_Model.
Import ListNotations.
Local Open Scope N_scope.

Definition size (data : list N) : N := N.of_nat (length data).
Definition cut (data : list N) (off : N) (k : nat) : list N := firstn k (skipn (N.to_nat off) data).
Definition dword (le : bool) (data : list N) (off : N) : N := word_val le (cut data off 8).
Definition iword (le : bool) (data : list N) (off : N) : Z := to_i32 (word_val le (cut data off 4)).

(** Record [r] (1-based) starts here. *)
Definition rec_start (r : N) : N := (r - 1) * 1024.
Definition next_rec le data r : N := usize_of_i64 (f64_as_i64 (dword le data (rec_start r))).
Definition count_of le data r : N := f64_as_usize (dword le data (rec_start r + 16)).
Definition whole (data : list N) (r : N) : Prop := r <> 0 /\ r * 1024 <= size data.
Definition fits_in le data (ss r : N) : Prop :=
  count_of le data r = 0 \/ rec_start r + 24 + count_of le data r * (ss * 8) <= size data.

(** Finite chain of summary records ending with record number 0. *)
Inductive chain (le : bool) (data : list N) (ss : N) : N -> list N -> Prop :=
| chain_end : chain le data ss 0 []
| chain_step r l : whole data r -> fits_in le data ss r ->
    chain le data ss (next_rec le data r) l -> chain le data ss r (r :: l).

(** Offsets of the summaries of a record. *)
Definition offsets le data (ss r : N) : list N :=
  map (fun i => rec_start r + 24 + N.of_nat i * (ss * 8)) (seq 0 (N.to_nat (count_of le data r))).

Definition val_summary le data off : summary :=
  let io := off + 16 in
  Summary (dword le data off) (dword le data (off + 8)) (iword le data io) (iword le data (io + 4))
    (iword le data (io + 8)) (iword le data (io + 12)) (usize_of_i32 (iword le data (io + 16)))
    (usize_of_i32 (iword le data (io + 20))).
Definition val_raw le data (nd ni off : N) : raw_summary :=
  (map (fun j => dword le data (off + N.of_nat j * 8)) (seq 0 (N.to_nat nd)),
   map (fun j => iword le data (off + nd * 8 + N.of_nat j * 4)) (seq 0 (N.to_nat ni))).

(** Byte order and summary format announced by the file record. *)
Definition small (z : Z) : Prop := (1 <= z <= 100)%Z.
Definition announces (data : list N) (le : bool) (nd ni : N) : Prop :=
  1024 <= size data /\ Z.of_N nd = iword le data 8 /\ Z.of_N ni = iword le data 12 /\ small (Z.of_N nd) /\ small (Z.of_N ni) /\
  (le = false -> ~ (small (iword true data 8) /\ small (iword true data 12))).
Definition first_rec le data : N := usize_of_i32 (iword le data 76).
