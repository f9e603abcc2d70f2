(** C176: the fixed-step integrator never takes a longer step than configured,
    never turns round, and refuses steps it cannot take. *)
From Coq Require Import QArith Qabs Bool List Lqa Lia.
From Verif Require Import Base DecFloat Fnum Rk4_Model.
Import ListNotations.
Local Open Scope Q_scope.

Lemma signum_abs x y : 0 <= y -> Qabs (signum x * y) == y.
Proof.
  intros Y. unfold signum. destruct (Qle_bool 0 x).
  - setoid_replace (1 * y) with y by ring. now apply Qabs_pos.
  - setoid_replace (-1 * y) with (- y) by ring. rewrite Qabs_opp. now apply Qabs_pos.
Qed.

Section Laws.
  Context {State E : Type}.
  Variable rk4 : State -> Q -> outcome State E.

  (** A step is attempted exactly when the request and the configured size are
      finite and the size is not zero; otherwise the matching error comes back
      and the integrator is not called. *)
  Theorem C176_refuses : forall stp h s,
    (step rk4 stp h s = Err TryNotFinite <-> forall q, h <> Fin q) /\
    (step rk4 stp h s = Err BadStep <->
       (exists q, h = Fin q) /\ forall q, stp = Fin q -> q == 0).
  Proof.
    intros stp h s. split; split.
    - intros H q ->. cbn in H. destruct stp as [st|b|]; try discriminate H.
      destruct (Qeq_bool (Qabs st) 0); [discriminate H|]. destruct (rk4 s _); discriminate H.
    - intros H. destruct h as [q|b|]; [now destruct (H q)| |]; reflexivity.
    - intros H. destruct h as [q|b|]; try discriminate H. split; [now exists q|]. intros st ->. cbn in H.
      destruct (Qeq_bool (Qabs st) 0) eqn:Z.
      + apply Qeq_bool_eq in Z. revert Z. apply Qabs_case; intros; lra.
      + destruct (rk4 s _); discriminate H.
    - intros ((q & ->) & H). cbn. destruct stp as [st|b|]; try reflexivity. specialize (H st eq_refl).
      assert (Z : Qabs st == 0) by (rewrite H; reflexivity). apply Qeq_bool_iff in Z. now rewrite Z.
  Qed.

  (** What an accepted step looks like: the integrator was called once, with
      the request itself when that is shorter than the configured size and
      with the configured size in the request's direction otherwise. *)
  Theorem C176_step : forall st q s n h g r,
    step rk4 (Fin st) (Fin q) s = Ok (n, h, g, r) ->
    rk4 s h = Ok n /\ g = h /\ r = O /\
    (Qabs q < Qabs st -> h = q) /\
    (Qabs st <= Qabs q -> Qabs h == Qabs st) /\
    0 <= h * q /\ (q == 0 -> h == 0).
  Proof.
    intros st q s n h g r H. cbn in H. destruct (Qeq_bool (Qabs st) 0) eqn:Z; [discriminate H|].
    assert (Z' : ~ Qabs st == 0) by (now apply Qeq_bool_neq). pose proof (Qabs_nonneg st) as P.
    destruct (Qle_bool (Qabs st) (Qabs q)) eqn:L; cbn [negb] in H;
      match type of H with context [rk4 s ?x] => destruct (rk4 s x) as [m|e|] eqn:K; try discriminate H end;
      injection H as <- <- <- <-.
    - apply Qle_bool_iff in L. assert (A : Qabs (signum q * Qabs st) == Qabs st) by now apply signum_abs.
      repeat split; try assumption; try reflexivity.
      + intros; lra.
      + intros _. exact A.
      + unfold signum. destruct (Qle_bool 0 q) eqn:S0.
        * apply Qle_bool_iff in S0. setoid_replace (1 * Qabs st * q) with (Qabs st * q) by ring. now apply Qmult_le_0_compat.
        * assert (q < 0). { apply Qnot_le_lt. intros C. apply Qle_bool_iff in C. congruence. }
          setoid_replace (-1 * Qabs st * q) with (Qabs st * (- q)) by ring. apply Qmult_le_0_compat; lra.
      + intros C. exfalso. assert (Qabs q == 0) by (rewrite C; reflexivity). apply Z'. lra.
    - assert (L' : Qabs q < Qabs st). { apply Qnot_le_lt. intros C. apply Qle_bool_iff in C. congruence. }
      repeat split; try assumption; try reflexivity.
      + intros; lra.
      + nra.
      + intros C. exact C.
  Qed.

  (** So no step exceeds the configured size or the request. *)
  Theorem C176_cap : forall st q s n h g r,
    step rk4 (Fin st) (Fin q) s = Ok (n, h, g, r) -> Qabs h <= Qabs st /\ Qabs h <= Qabs q.
  Proof.
    intros st q s n h g r H. destruct (C176_step _ _ _ _ _ _ _ H) as (_ & _ & _ & A & B & _).
    destruct (Qlt_le_dec (Qabs q) (Qabs st)) as [L|L].
    - rewrite (A L). lra.
    - specialize (B L). lra.
  Qed.

  (** A driver that never asks for more than the last suggestion (which is what
      a suggestion is for), started at [h0]. *)
  Fixpoint obeys (last : Q) (reqs : list fnum) (hs : list Q) : Prop :=
    match reqs, hs with
    | Fin q :: rest, h :: hs' => Qabs q <= Qabs last /\ obeys h rest hs'
    | [], [] => True
    | _, _ => False
    end.

  (** Over a whole run every step stays within the configured size. Under an
      obedient driver it also stays within the first request for ever: the
      adapter's suggestion is the step just taken, so one short step (the
      30 s first step of the propagator, or a step cut to hit an output
      instant) caps all later ones. *)
  Theorem C176_run : forall st reqs s z hs,
    run rk4 (Fin st) reqs s = Ok (z, hs) ->
    length hs = length reqs /\ Forall (fun h => Qabs h <= Qabs st) hs.
  Proof.
    intros st. induction reqs as [|r rest IH]; intros s z hs H; cbn [run] in H.
    - injection H as <- <-. now split.
    - destruct (step rk4 (Fin st) r s) as [[[[n h] g] k]|e|] eqn:K; try discriminate H.
      destruct (run rk4 (Fin st) rest n) as [[z' hs']|e|] eqn:G; try discriminate H. injection H as <- <-.
      destruct (IH _ _ _ G) as (A & B). split; [cbn; now rewrite A|]. constructor; [|exact B].
      destruct r as [q|b|]; try discriminate K. now destruct (C176_cap _ _ _ _ _ _ _ K).
  Qed.

  Theorem C176_shrinks : forall st reqs h0 s z hs,
    run rk4 (Fin st) reqs s = Ok (z, hs) -> obeys h0 reqs hs ->
    Forall (fun h => Qabs h <= Qabs h0) hs.
  Proof.
    intros st. induction reqs as [|r rest IH]; intros h0 s z hs H O; cbn [run] in H.
    - injection H as <- <-. constructor.
    - destruct (step rk4 (Fin st) r s) as [[[[n h] g] k]|e|] eqn:K; try discriminate H.
      destruct (run rk4 (Fin st) rest n) as [[z' hs']|e|] eqn:G; try discriminate H. injection H as <- <-.
      destruct r as [q|b|]; try discriminate K. destruct O as (O1 & O2).
      destruct (C176_cap _ _ _ _ _ _ _ K) as (_ & C). constructor; [lra|].
      specialize (IH h _ _ _ G O2). revert IH. apply Forall_impl. intros x X. lra.
  Qed.

  (** The requests [n] steps of size [st] then a remainder cover a span: the
      adapter takes them unchanged, so the run ends exactly at the target. *)
  Fixpoint total (hs : list Q) : Q := match hs with [] => 0 | h :: r => h + total r end.
  Fixpoint reqs_for (st : Q) (rest : Q) (n : nat) : list fnum :=
    match n with O => [Fin rest] | S m => Fin (st * inject_Z (Z.of_nat (S m)) + rest) :: reqs_for st rest m end.

  Theorem C176_covers : forall st rest n s z hs,
    0 < st -> 0 <= rest -> rest < st ->
    run rk4 (Fin st) (reqs_for st rest n) s = Ok (z, hs) ->
    total hs == st * inject_Z (Z.of_nat n) + rest /\ length hs = S n.
  Proof.
    intros st rest n. induction n as [|n IH]; intros s z hs P R0 R1 H.
    - unfold reqs_for in H. cbn [run] in H.
      destruct (step rk4 (Fin st) (Fin rest) s) as [[[[m h] g] k]|e|] eqn:K; try discriminate H. injection H as <- <-.
      destruct (C176_step _ _ _ _ _ _ _ K) as (_ & _ & _ & A & _). rewrite (A ltac:(rewrite !Qabs_pos by lra; lra)).
      cbn [total length]. split; [|reflexivity]. change (inject_Z (Z.of_nat 0)) with 0. ring.
    - change (reqs_for st rest (S n)) with (Fin (st * inject_Z (Z.of_nat (S n)) + rest) :: reqs_for st rest n) in H. cbn [run] in H.
      assert (N0 : 1 <= inject_Z (Z.of_nat (S n))) by (change 1 with (inject_Z 1); rewrite <- Zle_Qle; lia).
      set (q := st * inject_Z (Z.of_nat (S n)) + rest) in *.
      assert (Q0 : st <= q) by (unfold q; nra).
      destruct (step rk4 (Fin st) (Fin q) s) as [[[[m h] g] k]|e|] eqn:K; try discriminate H.
      destruct (run rk4 (Fin st) (reqs_for st rest n) m) as [[z' hs']|e|] eqn:G; try discriminate H. injection H as <- <-.
      destruct (IH _ _ _ P R0 R1 G) as (T & L). cbn [total length]. rewrite T, L. split; [|reflexivity].
      destruct (C176_step _ _ _ _ _ _ _ K) as (_ & _ & _ & _ & B & S0 & _).
      assert (B' : Qabs h == st). { rewrite B by (rewrite !Qabs_pos by lra; exact Q0). apply Qabs_pos. lra. }
      assert (Hh : h == st). { revert B'. apply Qabs_case; intros; nra. }
      rewrite Hh. unfold q. replace (Z.of_nat (S n)) with (Z.of_nat n + 1)%Z by lia. rewrite inject_Z_plus. change (inject_Z 1) with 1. ring.
  Qed.
End Laws.

(** The front end: the driver is asked for exactly the span from the state's
    epoch to [dt] later, under the configured limit and tolerances, with a
    first step of 30 s whatever the direction, and the caller gets its last sample or its error; it panics only if the driver
    succeeds without a sample or panics. *)
Theorem C176_front : forall (State Tol Err0 : Type) (epoch : State -> Q) drive (c : prop_cfg Tol) (s : State) dt,
  exists cfg : run_cfg Q Tol,
    r_start cfg = epoch s /\ r_end cfg = epoch s + dt /\ r_max cfg = p_max c /\ r_tol cfg = p_tol c /\
    r_first cfg = 30 /\ r_every cfg = None /\
    (forall z, propagate epoch drive c s dt = Ok z <-> exists l, drive s cfg = Ok (l ++ [z])) /\
    (forall e : Err0, propagate epoch drive c s dt = Err e <-> drive s cfg = Err e) /\
    (propagate epoch drive c s dt = Panic <-> drive s cfg = Panic \/ drive s cfg = Ok []).
Proof.
  intros. exists (RunCfg (epoch s) (epoch s + dt) 30 (p_max c) (p_tol c) None). cbn [r_start r_end r_max r_tol r_first r_every].
  do 6 (split; [reflexivity|]). unfold propagate. cbn zeta.
  destruct (drive s _) as [samples|e|].
  - destruct (rev samples) as [|last r] eqn:R.
    + assert (samples = []). { rewrite <- (rev_involutive samples), R. reflexivity. } subst.
      repeat split; intros; try discriminate; auto. destruct H as (l & H). injection H as H. destruct l; discriminate.
    + assert (X : samples = rev r ++ [last]). { rewrite <- (rev_involutive samples), R. reflexivity. } subst samples.
      repeat split; intros; try discriminate.
      * injection H as <-. now exists (rev r).
      * destruct H as (l & H). injection H as H. apply app_inj_tail in H. now destruct H as (_ & ->).
      * destruct H as [H|H]; [discriminate|]. injection H as H. destruct (rev r); discriminate.
  - repeat split; intros; try discriminate; try congruence. destruct H as (l & H). discriminate. destruct H; discriminate.
  - repeat split; intros; try discriminate; auto. destruct H as (l & H). discriminate.
Qed.

(** With event detection the output interval is the configured one, and the
    span, limit and tolerances are the same. *)
Theorem C176_events : forall (State Tol Err0 : Type) (epoch : State -> Q)
    (drive : State -> run_cfg Q Tol -> outcome (list State) Err0) (c : prop_cfg Tol) (s : State) dt,
  exists cfg, propagate_with_events epoch drive c s dt = drive s cfg /\
    r_start cfg = epoch s /\ r_end cfg = epoch s + dt /\ r_max cfg = p_max c /\ r_tol cfg = p_tol c /\
    r_first cfg = 30 /\ r_every cfg = p_event_dt c.
Proof. intros. eexists. repeat split. Qed.

(** Ten-second steps over 25 s backwards and forwards on a clock-like state;
    then the same adapter obeying a 4 s start never gets back to ten. *)
Definition tick (s h : Q) : outcome Q bool := Ok (s + h)%Q.
Example C176_case :
  run tick (Fin 10) (reqs_for 10 5 2) 0 = Ok (25, [10; 10; 5]) /\
  step tick (Fin 10) (Fin (-25)) 0 = Ok (-10, -10, -10, O) /\
  run tick (Fin 10) [Fin 4; Fin 4; Fin 4] 0 = Ok (12, [4; 4; 4]) /\
  obeys 4 [Fin 4; Fin 4; Fin 4] [4; 4; 4] /\
  step tick (Fin 0) (Fin 1) 0 = Err BadStep /\ step tick (Fin 1) NaN 0 = Err TryNotFinite.
Proof. repeat split; try reflexivity; cbn; unfold Qle; cbn; lia. Qed.

Print Assumptions C176_refuses.
Print Assumptions C176_step.
Print Assumptions C176_cap.
Print Assumptions C176_run.
Print Assumptions C176_shrinks.
Print Assumptions C176_covers.
Print Assumptions C176_front.
Print Assumptions C176_events.
