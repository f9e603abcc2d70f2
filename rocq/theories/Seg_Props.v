(** C25, C26, C27, C28: interpolated and Chebyshev ephemeris segments. *)
From Coq Require Import List NArith ZArith QArith Qabs Bool Lia Lqa.
From Verif Require Import Base DecFloat Fnum Poly Seg_Model Seg_Spec Seg_Proofs.
Import ListNotations.
Local Open Scope Q_scope.

(** *** C25 *)
(** An epoch inside the table is a node, or lies strictly between two neighbouring records of a
    window of the requested size inside the table; half of the window precedes the epoch unless
    the window touches an end. *)
Theorem C25_window s t count : usable s -> covered s t -> (2 <= count <= di_n s)%nat ->
  (exists i, locate_or_window s (Fin t) count = Ok (Exact i) /\ (i < di_n s)%nat /\ epoch s i == t) \/
  (exists first i, locate_or_window s (Fin t) count = Ok (Window first count) /\ (first + count <= di_n s)%nat /\
     (first <= i /\ S i < first + count)%nat /\ epoch s i < t < epoch s (S i) /\ centred (di_n s) first count (S i - first)).
Proof. exact (window s t count). Qed.
Theorem C25_outside s t count : usable s -> ~ covered s t -> locate_or_window s (Fin t) count = Err SegCoverage.
Proof. exact (window_outside s t count). Qed.
(** Segments of types 9 and 13 accepted by the reader are of that kind, and hold the words read. *)
Theorem C25_read words ty s : discrete_of_words words ty = Ok s -> (ty = 9 \/ ty = 13)%N ->
  usable s /\ di_type s = ty /\ exists nq dq, words = map Fin (di_states s ++ di_epochs s ++ di_directory s) ++ [Fin dq; Fin nq] /\
    N.of_nat (di_n s) = as_usize (Fin nq) /\ N.of_nat (di_size s) = (if ty =? 9 then as_usize (Fin dq) else as_usize (Fin dq) + 1)%N.
Proof. exact (discrete_ok words ty s). Qed.
(** The words are those of the segment, from the first address to the last. *)
Theorem C25_segment rd a b ty s : read_discrete_states rd a b ty = Ok s ->
  exists words, discrete_of_words words ty = Ok s /\ (a <= b)%N /\ N.of_nat (length words) = (b - a + 1)%N /\ (9 <= length words)%nat /\
    forall i, (i < length words)%nat -> rd (a + N.of_nat i)%N = Some (nth i words NaN).
Proof.
  unfold read_discrete_states. destruct (N.ltb_spec b a); [discriminate|]. destruct (N.ltb_spec usize_max (b - a + 1)); [discriminate|]. destruct (N.ltb_spec (b - a + 1) 9); [discriminate|].
  destruct (read_from rd a (N.to_nat (b - a + 1))) as [w|e|] eqn:F; try discriminate. cbn [obind]. intros D. apply read_from_length in F as [L G]. exists w. repeat split; auto; try lia. intros i I. apply G. lia.
Qed.

(** Three records of type 9 and degree 1; the position of the first component is [t*t]. *)
Definition three : list fnum := map Fin [0;0;0;0;0;0; 1;0;0;0;0;0; 4;0;0;0;0;0; 0; 1; 2; 1; 3].
Example C25_case : exists s, discrete_of_words three 9 = Ok s /\ usable s /\ covered s (3 # 2) /\
  locate_or_window s (Fin (3 # 2)) 2 = Ok (Window 1 2) /\ locate_or_window s (Fin (1 # 2)) 3 = Ok (Window 0 3) /\ locate_or_window s (Fin 1) 2 = Ok (Exact 1).
Proof.
  eexists. split; [vm_compute; reflexivity|]. split; [|split; [split; [cbn; lia|split; vm_compute; discriminate]|repeat split; vm_compute; reflexivity]].
  eapply (C25_read three 9); [vm_compute; reflexivity|now left].
Qed.
(** A window of one record does not bracket the epoch. *)
Theorem C25_single_refuted : exists s t, usable s /\ covered s t /\ locate_or_window s (Fin t) 1 = Ok (Window 2 1) /\ t < epoch s 2.
Proof.
  destruct C25_case as (s & R & U & C & _). exists s, (3 # 2). split; [exact U|]. split; [exact C|].
  vm_compute in R. injection R as <-. split; vm_compute; reflexivity.
Qed.
(** A descriptor beyond the largest machine integer overflows instead of being refused. *)
Theorem C25_overflow_refuted : exists words, discrete_of_words words 9 = Panic.
Proof. exists (map Fin [0;0;0;0;0;0; 0; inject_Z (2 ^ 70); 1]). vm_compute. reflexivity. Qed.

(** *** C26 *)
Theorem C26_exact xs ys p x : pairwise_far xs -> xs <> [] -> Forall2 (fun a y => y == peval p a) xs ys -> (length p <= length xs)%nat ->
  exists v, lagrange_value xs ys x = Ok v /\ v == peval p x.
Proof. exact (lagrange_exact xs ys p x). Qed.
Theorem C26_node xs ys k x y : pairwise_far xs -> length xs = length ys -> nth_error xs k = Some x -> nth_error ys k = Some y ->
  exists v, lagrange_value xs ys x = Ok v /\ v == y.
Proof. exact (lagrange_node xs ys k x y). Qed.
(** A type 9 segment holding samples of polynomials of at most its degree is evaluated to them. *)
Theorem C26_segment s p t : usable s -> spaced s -> di_type s = 9%N -> sampled s p -> (forall c, (c < 6)%nat -> (length (p c) <= di_size s + 1)%nat) -> covered s t ->
  exists out, evaluate_lagrange s (Fin t) = Ok out /\ length out = 6%nat /\ forall c, (c < 6)%nat -> nth c out 0 == peval (p c) t.
Proof. exact (lagrange_segment s p t). Qed.
(** Every type 9 segment from the reader passes through its records. *)
Theorem C26_record words s i : discrete_of_words words 9 = Ok s -> (i < di_n s)%nat ->
  exists out, evaluate_lagrange s (Fin (epoch s i)) = Ok out /\ length out = 6%nat /\ forall c, (c < 6)%nat -> nth c out 0 = value s i c.
Proof.
  intros R L. destruct (discrete_ok words 9 s R) as (U & T & _); [now left|].
  pose proof (u_size s U) as [_ Z]. rewrite T in Z. cbn [N.eqb Pos.eqb] in Z.
  assert (O : forall a b, (a <= b < di_n s)%nat -> epoch s a <= epoch s b).
  { intros a b H. destruct (Nat.eq_dec a b) as [->|N]; [apply Qle_refl|]. apply Qlt_le_weak, (u_order s U). lia. }
  unfold evaluate_lagrange. destruct (window s (epoch s i) (di_size s + 1) U) as [(k & -> & K & E)|(f & k & _ & H0 & H & B & _)].
  - split; [lia|]. split; apply O; lia.
  - pose proof (u_size s U). lia.
  - cbn [obind]. replace k with i; [now apply record_spec|].
    destruct (Nat.lt_trichotomy k i) as [X|[X|X]]; [|lia|]; exfalso; [assert (epoch s k < epoch s i) by (apply (u_order s U); lia)|assert (epoch s i < epoch s k) by (apply (u_order s U); lia)]; lra.
  - exfalso. destruct B as [B1 B2]. destruct (Nat.le_gt_cases i k) as [X|X].
    + assert (epoch s i <= epoch s k) by (apply O; lia). lra.
    + assert (epoch s (S k) <= epoch s i) by (apply O; lia). lra.
Qed.
Example C26_case : lagrange_value [0; 1; 3] [5; 7; 17] 2 = Ok (396 # 36) /\ (396 # 36) == peval [5; 1; 1] 2 /\ pairwise_far [0; 1; 3] /\
  exists s, discrete_of_words three 9 = Ok s /\ evaluate_lagrange s (Fin (3 # 2)) <> Panic /\ exists out, evaluate_lagrange s (Fin (3 # 2)) = Ok out /\ nth 0 out 0 == 5 # 2.
Proof.
  split; [vm_compute; reflexivity|]. split; [vm_compute; reflexivity|]. split.
  - intros i j a b Hi Hj N. destruct i as [|[|[|[|]]]], j as [|[|[|[|]]]]; cbn in Hi, Hj; try discriminate; try lia; injection Hi as <-; injection Hj as <-; vm_compute; reflexivity.
  - eexists. split; [vm_compute; reflexivity|]. split; [vm_compute; discriminate|]. eexists. split; vm_compute; reflexivity.
Qed.
(** Increasing epochs closer than the tolerance are read but cannot be interpolated. *)
Theorem C26_close_refuted : exists words s t, discrete_of_words words 9 = Ok s /\ covered s t /\ evaluate_lagrange s (Fin t) = Err SegCorrupted.
Proof.
  exists (map Fin [0;0;0;0;0;0; 1;0;0;0;0;0; 0; 1 # 2^60; 1; 2]). eexists. exists (1 # 2^61). split; [vm_compute; reflexivity|].
  split; [split; [cbn; lia|split; vm_compute; discriminate]|vm_compute; reflexivity].
Qed.

(** *** C27 *)
Theorem C27_exact xs ys ds p x : pairwise_far xs -> xs <> [] -> Forall2 (fun a y => y == peval p a) xs ys -> Forall2 (fun a d => d == pderiv p a) xs ds ->
  (length p <= 2 * length xs)%nat -> exists v d, hermite xs ys ds x = Ok (v, d) /\ v == peval p x /\ d == pderiv p x.
Proof. exact (hermite_exact xs ys ds p x). Qed.
Theorem C27_node xs ys ds k x y d : pairwise_far xs -> length xs = length ys -> length xs = length ds ->
  nth_error xs k = Some x -> nth_error ys k = Some y -> nth_error ds k = Some d ->
  exists v r, hermite xs ys ds x = Ok (v, r) /\ v == y /\ r == d.
Proof. exact (hermite_node xs ys ds k x y d). Qed.
Theorem C27_segment s p t : usable s -> spaced s -> di_type s = 13%N -> sampled_rates s p -> (forall a, (a < 3)%nat -> (length (p a) <= 2 * di_size s)%nat) -> covered s t ->
  exists out, evaluate_hermite s (Fin t) = Ok out /\ length out = 6%nat /\
    forall a, (a < 3)%nat -> nth a out 0 == peval (p a) t /\ nth (a + 3) out 0 == pderiv (p a) t.
Proof. exact (hermite_segment s p t). Qed.
Example C27_case : exists v d, hermite [0; 1] [1; 4] [1; 6] 2 = Ok (v, d) /\ v == peval [1; 1; 1; 1] 2 /\ d == pderiv [1; 1; 1; 1] 2.
Proof. eexists. eexists. split; [vm_compute; reflexivity|]. split; vm_compute; reflexivity. Qed.

(** *** C28 *)
(** The record found for an epoch of the segment exists and its interval holds the epoch. *)
Theorem C28_inside c components t : cheb_ok c components -> ch_init c <= t <= edge c (ch_n c) ->
  exists idx, (idx < ch_n c)%N /\ edge c idx <= t <= edge c (idx + 1) /\
   match record_word c idx 0, record_word c idx 1 with
   | Fin m, Fin r => locate c (Fin t) = if Qle_bool r 0 then Err SegCorrupted else Ok (idx, m, r)
   | _, _ => locate c (Fin t) = Err SegCorrupted
   end.
Proof. exact (locate_inside c components t). Qed.
Theorem C28_outside c t : ~ (ch_init c <= t <= edge c (ch_n c)) -> locate c (Fin t) = Err SegCoverage.
Proof. exact (locate_outside c t). Qed.
(** With records that describe their intervals, the series are evaluated at the position of the
    epoch in its interval, scaled to [-1, 1], with the coefficients of that record. *)
Theorem C28_series c components t : cheb_ok c components -> regular c -> ch_init c <= t <= edge c (ch_n c) ->
  exists idx tau, (idx < ch_n c)%N /\ edge c idx <= t <= edge c (idx + 1) /\ -(1) <= tau <= 1 /\
    t == edge c idx + (tau + 1) / 2 * ch_intlen c /\
    series c (N.to_nat components) (Fin t) = Ok (tau, map (fun i => map (fun j => record_word c idx (2 + i * N.to_nat (ch_ncoeff c) + j)) (seq 0 (N.to_nat (ch_ncoeff c)))) (seq 0 (N.to_nat components))).
Proof. exact (series_regular c components t). Qed.
Theorem C28_read rd a b components c : (components = 3 \/ components = 6)%N -> read_chebyshev rd a b components = Ok c ->
  cheb_ok c components /\ (forall w, (w < N.to_nat (ch_n c * ch_rsize c))%nat -> rd (a + N.of_nat w)%N = Some (nth w (ch_records c) NaN)) /\
  rd (b - 3)%N = Some (Fin (ch_init c)) /\ rd (b - 2)%N = Some (Fin (ch_intlen c)) /\ (a + ch_n c * ch_rsize c <= b + 1)%N.
Proof. exact (cheb_read rd a b components c). Qed.
(** Two records of one coefficient per axis, over [10, 30]. *)
Definition two_records : list fnum := map Fin [15; 5; 1; 2; 3; 25; 5; 4; 5; 6; 10; 10; 5; 2].
Definition file_of (l : list fnum) : reader := fun w => if (w =? 0)%N then None else nth_error l (N.to_nat w - 1).
Example C28_case : exists c, read_chebyshev (file_of two_records) 1 14 3 = Ok c /\ regular c /\
  locate c (Fin 30) = Ok (1%N, 25, 5) /\ locate c (Fin 20) = Ok (1%N, 25, 5) /\ locate c (Fin 10) = Ok (0%N, 15, 5) /\
  series c 3 (Fin 20) = Ok (-(5) / 5, [[Fin 4]; [Fin 5]; [Fin 6]]).
Proof.
  eexists. split; [vm_compute; reflexivity|]. split; [|repeat split; vm_compute; reflexivity].
  intros i Hi. assert (i = 0%N \/ i = 1%N) as [-> | ->] by (cbn [ch_n] in Hi; lia); eexists; eexists; repeat split; vm_compute; reflexivity.
Qed.
(** A file that ends before the last word of the segment is not refused. *)
Theorem C28_short_refuted : exists rd, read_chebyshev rd 1 14 3 = Panic.
Proof. exists (file_of (firstn 13 two_records)). vm_compute. reflexivity. Qed.
(** Nor is a record count that makes the records run into the trailing four words. *)
Theorem C28_trailer_refuted : exists rd c, read_chebyshev rd 1 10 3 = Ok c /\ nth 9 (ch_records c) NaN = Fin 2 /\ rd 10%N = Some (Fin 2).
Proof. exists (file_of (map Fin [15; 5; 1; 2; 3; 25; 10; 10; 5; 2])). eexists. split; [vm_compute; reflexivity|]. split; reflexivity. Qed.

Print Assumptions C25_window.
Print Assumptions C25_read.
Print Assumptions C26_segment.
Print Assumptions C26_record.
Print Assumptions C27_exact.
Print Assumptions C27_segment.
Print Assumptions C28_series.
Print Assumptions C28_read.
