(** Properties C65 (process-noise covariance) and C66 (noise schedule). *)
From Coq Require Import List PeanoNat Bool Lia Reals Lra Psatz.
From Verif Require Import Base Noise_Model Noise_Proofs Noise_Psd.
Import ListNotations.
Local Open Scope R_scope.

(** * C65 *)
(** Exactly the sensible inputs are accepted: a finite step of at least zero,
    densities and standard deviations that are finite and at least zero, and
    finite positive time constants. Nothing panics. *)
Theorem C65_accepts m dt : (exists r, q_matrix m dt = Ok r) <-> nonneg dt /\ good m.
Proof. exact (q_matrix_accepts m dt). Qed.
Theorem C65_no_panic m dt : q_matrix m dt <> Panic.
Proof. exact (q_matrix_no_panic m dt). Qed.
Theorem C65_bad_step m dt : q_matrix m dt = Err BadDt <-> ~ nonneg dt.
Proof.
  split.
  - intros H (t & -> & T). assert (X : forall n i q, axis n m (rv (RF t)) i q <> Err BadDt).
    { intros n i q. unfold axis, put. destruct (below0 _ || _); [discriminate|]. cbv zeta. repeat (destruct (_ && _)%bool; cbn [obind]; try discriminate). }
    assert (V : forall n o st, scale_term n o (rv (RF t)) st <> Err BadDt).
    { intros n [g|] (i, q); cbn [scale_term]; [|discriminate]. unfold variance_after, put. destruct (below0 _ || _); [discriminate|]. destruct (atmost0 _ || _); [discriminate|]. cbn [obind]. destruct (_ && _)%bool; discriminate. }
    assert (W : forall n e i k q, emp_axis n e (rv (RF t)) i k q <> Err BadDt).
    { intros n e i k q. unfold emp_axis, put. destruct (below0 _ || _); [discriminate|]. destruct (_ && _)%bool; discriminate. }
    unfold q_matrix in H. rewrite nonneg_check in H by (exists t; auto).
    repeat (match type of H with context[axis ?n m ?d ?i ?q] => let A := fresh in destruct (axis n m d i q) eqn:A; cbn [obind] in H; [clear A|apply (X n i q); congruence|discriminate] end).
    repeat (match type of H with context[scale_term ?n ?o ?d ?s] => let A := fresh in destruct (scale_term n o d s) eqn:A; cbn [obind] in H; [clear A|apply (V n o s); congruence|discriminate] end).
    destruct a3 as (i, q). destruct (n_emp m) as [e|]; [|discriminate].
    repeat (match type of H with context[emp_axis ?n ?e ?d ?i ?k ?q] => let A := fresh in destruct (emp_axis n e d i k q) eqn:A; cbn [obind] in H; [clear A|apply (W n e i k q); congruence|discriminate] end). discriminate.
  - intros H. unfold q_matrix. destruct (below0 dt || negb (finite dt)) eqn:E; [reflexivity|]. exfalso. apply H. now apply nonneg_dec.
Qed.

(** The cells that carry noise have the published values, every other cell is
    zero, and the matrix is as large as the model says. *)
Theorem C65_layout m t n q : q_matrix m (RF t) = Ok (n, q) ->
  n = (6 + one_if (n_drag m) + one_if (n_srp m) + 3 * one_if (n_emp m))%nat /\
  (forall a b v, cell m t a b v -> q a b = v) /\ (forall a b, (forall v, ~ cell m t a b v) -> q a b = 0) /\
  (forall a b v, cell m t a b v -> (a < n)%nat /\ (b < n)%nat).
Proof.
  intros H. destruct (q_matrix_value _ _ _ _ H) as (t' & E & _ & _ & N & Q). injection E as <-. subst q.
  assert (N' : n = (6 + one_if (n_drag m) + one_if (n_srp m) + 3 * one_if (n_emp m))%nat) by (rewrite N; unfold dim; destruct (n_emp m); cbn; lia).
  split; [exact N'|]. split; [intros; now apply written_cell|]. split; [intros; now apply written_zero|].
  intros a b v C. rewrite N'. inversion C; subst; unfold srp_at, emp_at; repeat match goal with X : _ = Some _ |- _ => rewrite X end; cbn [one_if]; lia.
Qed.

(** A covariance: symmetric, and no combination of the components has a
    negative variance. *)
Theorem C65_covariance m dt n q : q_matrix m dt = Ok (n, q) -> (forall a b, q a b = q b a) /\ forall x, 0 <= form n q x.
Proof. intros H. destruct (q_matrix_value _ _ _ _ H) as (t & -> & T & G & -> & ->). split; [apply written_sym|now apply written_psd]. Qed.

(** Noise over two steps in a row is the noise over the whole step: the first
    step's noise carried over the second, plus the second step's. *)
Theorem C65_two_steps m s t n qs qt qst : q_matrix m (RF s) = Ok (n, qs) -> q_matrix m (RF t) = Ok (n, qt) -> q_matrix m (RF (s + t)) = Ok (n, qst) ->
  forall x, form n qst x = form n qs (carried m t x) + form n qt x.
Proof.
  intros A B C x. destruct (q_matrix_value _ _ _ _ A) as (s' & E1 & _ & _ & N & ->), (q_matrix_value _ _ _ _ B) as (t' & E2 & _ & _ & _ & ->), (q_matrix_value _ _ _ _ C) as (u & E3 & _ & _ & _ & ->).
  injection E1 as <-. injection E2 as <-. injection E3 as <-. subst n. apply written_add.
Qed.
(** A longer step never brings less noise. *)
Theorem C65_longer m s t n qs qt x : s <= t -> q_matrix m (RF s) = Ok (n, qs) -> q_matrix m (RF t) = Ok (n, qt) -> form n qs x <= form n qt x.
Proof.
  intros L A B. destruct (q_matrix_value _ _ _ _ A) as (s' & E1 & S0 & G & -> & ->), (q_matrix_value _ _ _ _ B) as (t' & E2 & _ & _ & _ & ->).
  injection E1 as <-. injection E2 as <-. replace t with ((t - s) + s) by ring. rewrite written_add. pose proof (written_psd m (t - s) G ltac:(lra) (carried m s x)). lra.
Qed.
(** A zero step brings none. *)
Theorem C65_zero_step m n q : q_matrix m (RF 0) = Ok (n, q) -> forall x, form n q x = 0.
Proof.
  intros H x. destruct (q_matrix_value _ _ _ _ H) as (t & E & _ & _ & -> & ->). injection E as <-.
  pose proof (written_add m 0 0 x) as A. rewrite Rplus_0_r in A.
  rewrite (form_ext (dim m) (written m 0) (written m 0) (carried m 0 x) x) in A; [lra|reflexivity|].
  intros i _. unfold carried. destruct (i <? 3)%nat; [reflexivity|]. destruct (i <? 6)%nat; [ring|].
  assert (D : forall g, decay g 0 = 1). { intros g. unfold decay. replace (- 0 / rv (g_tau g)) with 0 by (unfold Rdiv; ring). apply exp_0. }
  destruct (n_drag m), (n_srp m); repeat match goal with |- context[(?a =? ?b)%nat] => destruct (a =? b)%nat end; rewrite ?D; ring.
Qed.
(** A scale's variance never exceeds its steady-state variance. *)
Theorem C65_steady g t v : 0 <= t -> variance_after g t = Ok v -> 0 <= v <= rv (g_sigma g) ^ 2.
Proof.
  intros T H. pose proof (variance_good _ _ _ H) as G. rewrite (variance_ok g t G) in H. injection H as <-. split; [now apply gm_var_nonneg|].
  unfold gm_var. pose proof (exp_pos (-2 * t / rv (g_tau g))). pose proof (pow2_ge_0 (rv (g_sigma g))). nra.
Qed.
(** The single-term function does not check the step: back in time it returns a
    negative variance. *)
Theorem C65_variance_refuted : ~ (forall g t v, variance_after g t = Ok v -> 0 <= v).
Proof.
  intros H. set (g := {| g_sigma := RF 1; g_tau := RF 1 |}).
  assert (G : gm_good g) by (split; exists 1; split; reflexivity || lra).
  pose proof (H g (-1) _ (variance_ok g (-1) G)) as N. unfold gm_var in N. cbn [g g_sigma g_tau rv] in N.
  assert (exp 0 < exp (-2 * -1 / 1)) by (apply exp_increasing; lra). rewrite exp_0 in H0. lra.
Qed.

(** The semi-definiteness test accepts every positive semi-definite matrix. *)
Theorem C65_test_accepts n a : symmetric n a -> psd n a -> matrix_is_psd n a = true.
Proof. exact (psd_accepted n a). Qed.
(** What it accepts has a triangular factor up to the tolerance, so no
    combination has a variance below minus the tolerance. *)
Theorem C65_test_sound n a : symmetric n a -> matrix_is_psd n a = true ->
  (exists l, (forall j t, (j < t)%nat -> l j t = 0) /\ forall j k, (j < n)%nat -> (k < n)%nat -> Rabs (a j k - sumn n (fun t => l j t * l k t)) <= / 10 ^ 12) /\
  forall x, - / 10 ^ 12 * sumn n (fun i => Rabs (x i)) ^ 2 <= form n a x.
Proof. intros S H. split; [now apply accepted_factor|]. intros x. now apply accepted_nearly. Qed.
(** It is not exact: the tolerance lets indefinite matrices through. *)
Theorem C65_test_exact_refuted : ~ (forall n a, symmetric n a -> matrix_is_psd n a = true -> psd n a).
Proof.
  intros H. set (a := (fun i j => if Nat.eqb i j then 0 else / 10 ^ 13) : mat).
  assert (S : symmetric 2 a) by (intros i j _ _; unfold a; now rewrite Nat.eqb_sym).
  assert (T : matrix_is_psd 2 a = true).
  { unfold matrix_is_psd. cbn [seq pivots]. unfold pivot at 1. cbn [sumn]. change (a 0%nat 0%nat) with 0. destruct (Rlt_dec (0 - 0) (- / 10 ^ 18)); [exfalso; lra|]. cbv zeta.
    destruct (Req_EM_T (sqrt (Rmax (0 - 0) 0)) 0) as [_|N]; [|exfalso; apply N, sqrt_eq0; lra]. cbn [Nat.sub seq column0 sumn]. change (a 1%nat 0%nat) with (/ 10 ^ 13).
    destruct (Rlt_dec (/ 10 ^ 12) (Rabs (/ 10 ^ 13 - 0))) as [L|_]; [exfalso; rewrite Rminus_0_r, Rabs_right in L; lra|].
    unfold pivot. cbn [sumn Nat.sub seq]. change (a 1%nat 1%nat) with 0. rewrite !set_same. destruct (Rlt_dec _ _) as [L|_]; [exfalso; lra|]. cbv zeta. now destruct (Req_EM_T _ _). }
  pose proof (H 2%nat a S T (fun i => if Nat.eqb i 0 then 1 else -1)) as P. unfold form in P. cbn [sumn] in P.
  change (a 0%nat 0%nat) with 0 in P. change (a 1%nat 1%nat) with 0 in P. change (a 1%nat 0%nat) with (/ 10 ^ 13) in P. change (a 0%nat 1%nat) with (/ 10 ^ 13) in P. cbn [Nat.eqb] in P. lra.
Qed.
(** For the matrices of accepted models the test always says yes. *)
Theorem C65_is_psd m dt : nonneg dt -> good m -> is_psd m dt = Ok true.
Proof.
  intros D G. destruct (proj2 (q_matrix_accepts m dt) (conj D G)) as ((n, q) & H). unfold is_psd. rewrite H. cbn [obind]. f_equal.
  destruct (C65_covariance m dt n q H) as (S & P). apply psd_accepted; [intros i j _ _; apply S|exact P].
Qed.

(** A model with every term, over a minute. *)
Definition full : noise := {| n_psd := (RF 1, RF 2, RF 0); n_drag := Some {| g_sigma := RF 3; g_tau := RF 60 |}; n_srp := Some {| g_sigma := RF 0; g_tau := RF 1 |}; n_emp := Some (RF 1, RF 2, RF 3) |}.
Example C65_case : nonneg (RF 60) /\ good full /\ (exists q, q_matrix full (RF 60) = Ok (11%nat, q) /\ q 0%nat 3%nat = 1800 /\ q 6%nat 6%nat = 9 * (1 - exp (-2)) /\ q 10%nat 10%nat = 540) /\ ~ good {| n_psd := (RF 1, RNaN, RF 0); n_drag := None; n_srp := None; n_emp := None |}.
Proof.
  assert (N : nonneg (RF 60)) by (exists 60; split; [reflexivity|lra]).
  assert (G : good full). { repeat split; try (eexists; split; [reflexivity|lra]). }
  split; [exact N|]. split; [exact G|]. split.
  - exists (written full 60). split; [now apply q_matrix_ok; [|lra]|].
    rewrite (written_cell full 60 0 3 _ (c_pos_vel full 60 0 ltac:(lia))), (written_cell full 60 6 6 _ (c_drag full 60 _ eq_refl)), (written_cell full 60 10 10 _ (c_emp full 60 _ 2 eq_refl ltac:(lia))).
    unfold gm_var. cbn [full n_psd n_drag n_emp pick rv g_sigma g_tau]. split; [lra|]. split; [|lra]. replace (-2 * 60 / 60) with (-2) by field. ring.
  - intros ((_ & (r & E & _) & _) & _). discriminate.
Qed.

(** * C66 *)
(** A time inside the schedule gets the level of the interval that contains it. *)
Theorem C66_inside l i s e : Forall (fun s => 0 <= s_duration s) l -> nth_error l i = Some s -> until l i <= e < until l (S i) -> sigma_at (PPiecewise l) e = (s_pos s, s_vel s).
Proof.
  intros F N (A & B). destruct l as [|h r]; [destruct i; discriminate|]. cbn [sigma_at]. destruct (search 0 e (h :: r)) as [s'|] eqn:E.
  - destruct (search_some _ _ _ _ E) as (j & NJ & BJ & CJ). destruct (Nat.lt_trichotomy i j) as [L|[->|L]].
    + pose proof (CJ i L). lra.
    + rewrite N in NJ. injection NJ as ->. reflexivity.
    + pose proof (until_mono _ F (S j) i ltac:(lia)). lra.
  - pose proof (search_none _ _ _ E i) as Q. assert ((i < length (h :: r))%nat) by (apply nth_error_Some; congruence). specialize (Q H). lra.
Qed.
(** A time after the schedule gets the last level. *)
Theorem C66_after l s e : Forall (fun s => 0 <= s_duration s) l -> until (l ++ [s]) (S (length l)) <= e -> 0 <= s_duration s -> sigma_at (PPiecewise (l ++ [s])) e = (s_pos s, s_vel s).
Proof.
  intros F A P. assert (F' : Forall (fun s => 0 <= s_duration s) (l ++ [s])) by (apply Forall_app; split; [exact F|constructor; [exact P|constructor]]).
  destruct (l ++ [s]) as [|h r] eqn:E; [destruct l; discriminate|]. cbn [sigma_at]. destruct (search 0 e (h :: r)) as [s'|] eqn:Q.
  - destruct (search_some _ _ _ _ Q) as (j & NJ & BJ & _). assert (L : (j < length (l ++ [s]))%nat) by (rewrite E; apply nth_error_Some; congruence). rewrite app_length in L. cbn in L.
    pose proof (until_mono _ F' (S j) (S (length l)) ltac:(lia)). lra.
  - replace (last (h :: r) h) with s; [reflexivity|]. rewrite <- E. symmetry. apply last_last.
Qed.
(** A time before the schedule gets the first level. *)
Theorem C66_before h r e : 0 <= s_duration h -> e < 0 -> sigma_at (PPiecewise (h :: r)) e = (s_pos h, s_vel h).
Proof. intros D E. cbn [sigma_at search]. destruct (Rlt_dec e (0 + s_duration h)); [reflexivity|lra]. Qed.
(** Whatever the durations, the answer of a schedule is the level of one of its
    segments; without segments, and without noise, it is zero. *)
Theorem C66_of_schedule l e : l <> [] -> exists s, In s l /\ sigma_at (PPiecewise l) e = (s_pos s, s_vel s).
Proof.
  intros N. destruct l as [|h r]; [contradiction|]. cbn [sigma_at]. destruct (search 0 e (h :: r)) as [s|] eqn:E.
  - exists s. split; [|reflexivity]. destruct (search_some _ _ _ _ E) as (i & I1 & _). eapply nth_error_In; eassumption.
  - eexists. split; [|reflexivity]. destruct (exists_last N) as (l' & a & EQ). rewrite EQ, last_last. apply in_or_app. right. now left.
Qed.
Theorem C66_others e a b : sigma_at PNone e = (0, 0) /\ sigma_at (PPiecewise []) e = (0, 0) /\ sigma_at (PWhite a b) e = (a, b) /\ is_active PNone = false /\ is_active (PWhite a b) = true.
Proof. repeat split. Qed.
Example C66_case : let l := [ {| s_duration := 60; s_pos := 5; s_vel := 1 |}; {| s_duration := 300; s_pos := 10; s_vel := 2 |} ] in
  Forall (fun s => 0 <= s_duration s) l /\ sigma_at (PPiecewise l) 60 = (10, 2) /\ sigma_at (PPiecewise l) 59 = (5, 1) /\ sigma_at (PPiecewise l) 360 = (10, 2).
Proof.
  intros l. assert (F : Forall (fun s => 0 <= s_duration s) l) by (repeat constructor; cbn; lra). split; [exact F|].
  split; [apply (C66_inside l 1 _ 60 F eq_refl); cbn; lra|]. split; [apply (C66_inside l 0 _ 59 F eq_refl); cbn; lra|].
  apply (C66_after [ {| s_duration := 60; s_pos := 5; s_vel := 1 |} ] {| s_duration := 300; s_pos := 10; s_vel := 2 |} 360); cbn; [repeat constructor; cbn; lra|lra|lra].
Qed.

Print Assumptions C65_accepts. Print Assumptions C65_no_panic. Print Assumptions C65_bad_step. Print Assumptions C65_layout. Print Assumptions C65_covariance. Print Assumptions C65_two_steps. Print Assumptions C65_longer. Print Assumptions C65_zero_step. Print Assumptions C65_steady. Print Assumptions C65_variance_refuted. Print Assumptions C65_test_accepts. Print Assumptions C65_test_sound. Print Assumptions C65_test_exact_refuted. Print Assumptions C65_is_psd.
Print Assumptions C66_inside. Print Assumptions C66_after. Print Assumptions C66_before. Print Assumptions C66_of_schedule. Print Assumptions C66_others.
