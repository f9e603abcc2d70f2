(** C161 handles of the dynamics interface, C162 its errors and callbacks,
    C163 spacecraft properties, C164 lunar photometry. *)
From Coq Require Import List PeanoNat NArith Reals Bool String Lia Lra.
From Verif Require Import Base Noise_Model Dyn_Model Lum_Model.
Import ListNotations.
Local Open Scope R_scope.

(** * C161 Handles *)
Section Handles.
Context {eph : Type} (integrate : R -> orbit -> R -> context eph -> outcome orbit prin_err) (gm_earth : R).
Notation step := (step eph integrate gm_earth).
Notation run := (run eph integrate gm_earth).
(** the heaps a program can see: addresses not yet handed out are empty, and the null address never holds anything *)
Definition sound (h : heap eph) : Prop := (1 <= h_next _ h)%nat /\ h_at _ h 0 = None /\ forall a, (h_next _ h <= a)%nat -> h_at _ h a = None.
Definition returned (r : reply) : option nat := match r with RHandle _ w | RDynamics _ w => w | _ => None end.
Definition failed (r : reply) : Prop := match r with RHandle s _ | RNumbers s _ => s <> COk | RDynamics s _ => s <> DOk | RNothing => False end.
Definition silent (r : reply) : Prop := match r with RHandle _ w | RDynamics _ w => w = None | RNumbers _ l => l = [] | RNothing => True end.
Definition frees (a : nat) (c : call) : Prop :=
  match c with ContextFree b | StateFree b | PropFree b | EphemerisFree b => b = a | _ => False end.
Definition attaches (a : nat) (c : call) : Prop :=
  match c with WithEphemeris b _ | WithAtmosphere b _ | WithGravity b _ => b = a | _ => False end.

(** the only things a step does to the heap: nothing, a new box, a context update, a free *)
Lemma step_cases h c h' r : step h c = Some (h', r) ->
  (h' = h /\ returned r = None) \/
  (exists b, h' = snd (alloc _ h b) /\ returned r = Some (h_next _ h) /\ ~ failed r /\ (forall a, ~ frees a c) /\ (forall a, ~ attaches a c)) \/
  (exists a x x', attaches a c /\ a <> 0%nat /\ h_at _ h a = Some (BContext _ x) /\ h' = put _ h a (Some (BContext _ x')) /\ returned r = None /\ ~ failed r) \/
  (exists a b, frees a c /\ a <> 0%nat /\ h_at _ h a = Some b /\ h' = put _ h a None /\ returned r = None /\ ~ failed r).
Proof.
  assert (N : forall a, null a = false -> a <> 0%nat) by (intros a H; now apply Nat.eqb_neq).
  destruct c; cbn [Dyn_Model.step]; intros H;
  repeat match type of H with
  | (if ?b then _ else _) = _ => destruct b eqn:?
  | match ?b with _ => _ end = _ => destruct b eqn:?
  end; try discriminate H;
  repeat match goal with K : alloc _ _ _ = _ |- _ => unfold alloc in K; injection K as <- <- end;
  injection H as <- <-; try (left; split; reflexivity);
  repeat match goal with K : (_ || _)%bool = false |- _ => apply orb_false_elim in K; destruct K end;
  try (right; left; eexists; split; [reflexivity|]; cbn; repeat split; try tauto; intros a K; destruct K);
  repeat match goal with
  | K : get_context _ ?h ?a = Some _ |- _ => unfold get_context in K; destruct (h_at _ h a) as [[]|] eqn:?; try discriminate K
  | K : get_eph _ ?h ?a = Some _ |- _ => unfold get_eph in K; destruct (h_at _ h a) as [[]|] eqn:?; try discriminate K
  | K : get_state _ ?h ?a = Some _ |- _ => unfold get_state in K; destruct (h_at _ h a) as [[]|] eqn:?; try discriminate K
  | K : get_prop _ ?h ?a = Some _ |- _ => unfold get_prop in K; destruct (h_at _ h a) as [[]|] eqn:?; try discriminate K
  end.
  all: repeat match goal with K : Some _ = Some _ |- _ => injection K as <- end.
  all: first
    [ right; right; right; eexists; eexists; split; [cbn; reflexivity|]; split; [now apply N|]; split; [eassumption|]; split; [reflexivity|]; split; [reflexivity|cbn; tauto]
    | right; right; left; eexists; eexists; eexists; split; [cbn; reflexivity|]; split; [now apply N|]; split; [eassumption|]; split; [reflexivity|]; split; [reflexivity|cbn; tauto] ].
Qed.
(** a call that reports a failure changes nothing and writes nothing *)
Theorem C161_failure h c h' r : step h c = Some (h', r) -> failed r -> h' = h /\ silent r.
Proof.
  intros H F. split.
  - destruct (step_cases _ _ _ _ H) as [(E & _)|[(b & _ & _ & K & _)|[(a & x & x' & _ & _ & _ & _ & _ & K)|(a & b & _ & _ & _ & _ & _ & K)]]]; tauto.
  - destruct c; cbn [Dyn_Model.step] in H;
    repeat match type of H with
    | (if ?b then _ else _) = _ => destruct b eqn:?
    | match ?b with _ => _ end = _ => destruct b eqn:?
    end; try discriminate H; injection H as <- <-; cbn in *; tauto.
Qed.
Lemma sound_step h c h' r : sound h -> step h c = Some (h', r) -> sound h' /\ (h_next _ h <= h_next _ h')%nat.
Proof.
  intros (N1 & Z & F) H. unfold sound. destruct (step_cases _ _ _ _ H) as [(-> & _)|[(b & -> & _)|[(a & x & x' & _ & NA & L & -> & _)|(a & b & _ & NA & L & -> & _)]]].
  - repeat split; auto.
  - cbn [snd alloc h_next h_at]. repeat split; try lia.
    + destruct (Nat.eqb_spec 0 (h_next _ h)); [lia|exact Z].
    + intros i I. destruct (Nat.eqb_spec i (h_next _ h)); [lia|]. apply F. lia.
  - cbn [put h_next h_at]. repeat split; try lia.
    + destruct (Nat.eqb_spec 0 a); [congruence|exact Z].
    + intros i I. destruct (Nat.eqb_spec i a) as [->|]; [rewrite F in L by lia; discriminate|]. apply F. lia.
  - cbn [put h_next h_at]. repeat split; try lia.
    + destruct (Nat.eqb_spec 0 a); [congruence|exact Z].
    + intros i I. destruct (Nat.eqb_spec i a) as [->|]; [reflexivity|]. apply F. lia.
Qed.
Lemma sound_run h cs h' rs : sound h -> run h cs = Some (h', rs) -> sound h'.
Proof.
  revert h rs. induction cs as [|c cs IH]; intros h rs Sd H; cbn [Dyn_Model.run] in H; [injection H as <- <-; exact Sd|].
  destruct (step h c) as [(h1, r)|] eqn:E; [|discriminate]. destruct (run h1 cs) as [(h2, rs')|] eqn:E2; [|discriminate]. injection H as <- <-.
  eapply IH; [|exact E2]. eapply sound_step; eassumption.
Qed.
(** every program starts from a sound heap and keeps it sound *)
Theorem C161_sound cs h' rs : run (empty_heap _) cs = Some (h', rs) -> sound h'.
Proof. apply sound_run. repeat split; cbn; auto. Qed.
(** a handle that comes back is not null, was not in use, and now is *)
Theorem C161_fresh h c h' r a : sound h -> step h c = Some (h', r) -> returned r = Some a ->
  a <> 0%nat /\ h_at _ h a = None /\ exists b, h_at _ h' a = Some b.
Proof.
  intros (N1 & Z & F) H R. destruct (step_cases _ _ _ _ H) as [(_ & K)|[(b & -> & K & _)|[(a' & x & x' & _ & _ & _ & _ & K & _)|(a' & b & _ & _ & _ & _ & K & _)]]]; try congruence.
  rewrite K in R. injection R as <-. repeat split; [lia|apply F; lia|]. exists b. cbn. now rewrite Nat.eqb_refl.
Qed.
Lemma step_keeps h c h' r a b : sound h -> step h c = Some (h', r) -> h_at _ h a = Some b -> ~ frees a c -> ~ attaches a c -> h_at _ h' a = Some b.
Proof.
  intros (N1 & Z & F) H L NF NA. destruct (step_cases _ _ _ _ H) as [(-> & _)|[(b' & -> & _)|[(a' & x & x' & A & _ & _ & -> & _)|(a' & b' & A & _ & _ & -> & _)]]]; [exact L| | |].
  - cbn [snd alloc h_at]. destruct (Nat.eqb_spec a (h_next _ h)) as [->|]; [rewrite F in L by lia; discriminate|exact L].
  - cbn [put h_at]. destruct (Nat.eqb_spec a a') as [->|]; [contradiction|exact L].
  - cbn [put h_at]. destruct (Nat.eqb_spec a a') as [->|]; [contradiction|exact L].
Qed.
(** whatever else a program does, a box it neither frees nor attaches to keeps its contents *)
Theorem C161_isolated h cs h' rs a b : sound h -> run h cs = Some (h', rs) -> h_at _ h a = Some b ->
  Forall (fun c => ~ frees a c /\ ~ attaches a c) cs -> h_at _ h' a = Some b.
Proof.
  revert h rs. induction cs as [|c cs IH]; intros h rs Sd H L A; cbn [Dyn_Model.run] in H; [injection H as <- <-; exact L|].
  destruct (step h c) as [(h1, r)|] eqn:E; [|discriminate]. destruct (run h1 cs) as [(h2, rs')|] eqn:E2; [|discriminate]. injection H as <- <-.
  inversion A as [|? ? (A1 & A1') A2]; subst. eapply IH; [|exact E2| |exact A2]; [eapply sound_step; eassumption|]. eapply step_keeps; eassumption.
Qed.
(** attaching to a state is undefined, so a state that is not freed survives any program *)
Lemma run_no_attach h c h' r a s : step h c = Some (h', r) -> h_at _ h a = Some (BState _ s) -> attaches a c -> h' = h.
Proof.
  intros H L A. destruct (step_cases _ _ _ _ H) as [(-> & _)|[(b' & _ & _ & _ & _ & K)|[(a' & x & x' & A' & _ & K & _)|(a' & b' & A' & _)]]]; [reflexivity|now apply K in A| |].
  - exfalso. destruct c; cbn in A, A'; try contradiction; subst; congruence.
  - exfalso. destruct c; cbn in A, A'; contradiction.
Qed.
Theorem C161_survives h cs h' rs a s : sound h -> run h cs = Some (h', rs) -> h_at _ h a = Some (BState _ s) ->
  Forall (fun c => c <> StateFree a) cs -> h_at _ h' a = Some (BState _ s).
Proof.
  revert h rs. induction cs as [|c cs IH]; intros hh rs Sd1 H2 L0 F; cbn [Dyn_Model.run] in H2; [injection H2 as <- <-; exact L0|].
  destruct (step hh c) as [(h3, r)|] eqn:E; [|discriminate]. destruct (run h3 cs) as [(h4, rs')|] eqn:E2; [|discriminate]. injection H2 as <- <-. inversion F as [|? ? F1 F2]; subst.
  eapply (IH h3 rs'); [eapply sound_step; eassumption|exact E2| |exact F2].
  assert (D : attaches a c \/ ~ attaches a c) by (destruct c; cbn; try tauto; match goal with |- ?p = ?q \/ _ => destruct (Nat.eq_dec p q); tauto end).
  destruct D as [D|D]; [now rewrite (run_no_attach _ _ _ _ _ _ E L0 D)|].
  eapply step_keeps; try eassumption. intros G.
  assert (A0 : null a = false) by (apply Nat.eqb_neq; intros ->; destruct Sd1 as (_ & Z & _); congruence).
  destruct c; cbn in G; try contradiction; subst; cbn [Dyn_Model.step] in E; rewrite A0 in E; unfold get_context, get_state, get_prop, get_eph in E; rewrite L0 in E; try discriminate. now apply F1.
Qed.
(** the numbers a state was made from are the numbers it reads back, after any calls that do not free it *)
Theorem C161_reads_back h jd x y z vx vy vz h1 a cs h2 rs : sound h ->
  step h (StateNew (RF jd) (RF x) (RF y) (RF z) (RF vx) (RF vy) (RF vz) true) = Some (h1, RHandle COk (Some a)) ->
  run h1 cs = Some (h2, rs) -> Forall (fun c => c <> StateFree a) cs ->
  step h2 (StatePosition a true true true) = Some (h2, RNumbers COk [x; y; z]) /\
  step h2 (StateVelocity a true true true) = Some (h2, RNumbers COk [vx; vy; vz]) /\
  step h2 (StateEpoch a true) = Some (h2, RNumbers COk [jd]).
Proof.
  intros Sd H H2 F. pose proof (C161_fresh _ _ _ _ a Sd H eq_refl) as (A0 & _ & _). pose proof (sound_step _ _ _ _ Sd H) as (Sd1 & _).
  cbn in H. injection H as <- <-. set (st := Build_orbit _ _ _) in *.
  assert (L : h_at _ h2 (h_next _ h) = Some (BState _ st)).
  { eapply C161_survives; [exact Sd1|exact H2| |exact F]. cbn. now rewrite Nat.eqb_refl. }
  cbn [Dyn_Model.step]. unfold null, get_state. destruct (Nat.eqb_spec (h_next _ h) 0); [contradiction|]. cbn. rewrite L. unfold st, to_jd, j2000s. cbn. repeat split. do 4 f_equal. field.
Qed.
(** each slot of a context holds what the last successful call put there *)
Definition supplied_atm (a : nat) (c : call) : option atm_table := match c with WithAtmosphere b t => if Nat.eq_dec b a then t else None | _ => None end.
Definition supplied_grav (a : nat) (c : call) : option grav_table :=
  match c with
  | WithGravity b (Some t) => if Nat.eq_dec b a then match v_gm t, v_radius t with RF g, RF r => if Rlt_dec 0 g then if Rlt_dec 0 r then Some t else None else None | _, _ => None end else None
  | _ => None
  end.
Fixpoint last_of {A} (f : call -> option A) (old : option A) (cs : list call) : option A :=
  match cs with [] => old | c :: cs => last_of f (match f c with Some t => Some t | None => old end) cs end.
Lemma attach_step h c h' r a x : sound h -> step h c = Some (h', r) -> h_at _ h a = Some (BContext _ x) -> c <> ContextFree a ->
  exists x', h_at _ h' a = Some (BContext _ x') /\
    x_atm _ x' = match supplied_atm a c with Some t => Some t | None => x_atm _ x end /\
    x_grav _ x' = match supplied_grav a c with Some t => Some t | None => x_grav _ x end /\
    (x_eph _ x' = x_eph _ x \/ exists e v, c = WithEphemeris a e /\ h_at _ h e = Some (BEph _ v) /\ x_eph _ x' = Some v).
Proof.
  intros Sd H L NF. assert (A0 : a <> 0%nat) by (intros ->; destruct Sd as (_ & Z & _); congruence).
  assert (B0 : null a = false) by (now apply Nat.eqb_neq).
  assert (D : (frees a c \/ attaches a c) \/ (~ frees a c /\ ~ attaches a c)) by (destruct c; cbn; try tauto; match goal with |- (?p = ?q \/ _) \/ _ => destruct (Nat.eq_dec p q); tauto | |- (_ \/ ?p = ?q) \/ _ => destruct (Nat.eq_dec p q); tauto end).
  destruct D as [[D|D]|(D1 & D2)].
  - exfalso. destruct c; cbn in D; try contradiction; subst; cbn [Dyn_Model.step] in H; rewrite B0 in H; unfold get_context, get_state, get_prop, get_eph in H; rewrite L in H; try discriminate. now apply NF.
  - destruct c; cbn in D; try contradiction; subst; cbn [Dyn_Model.step supplied_atm supplied_grav] in *; rewrite B0 in H; unfold get_context in H; rewrite L in H.
    + cbn [orb] in H. destruct (null e) eqn:NE; [injection H as <- <-; exists x; repeat split; auto|]. unfold get_eph in H. destruct (h_at _ h e) as [[]|] eqn:LE; try discriminate. injection H as <- <-. eexists. split; [cbn; now rewrite Nat.eqb_refl|]. cbn. repeat split. right. now exists e, e0.
    + destruct (Nat.eq_dec a a) as [_|]; [|contradiction]. destruct t as [t|]; injection H as <- <-; [eexists; split; [cbn; now rewrite Nat.eqb_refl|]; cbn; repeat split; auto|exists x; repeat split; auto].
    + destruct t as [t|]; [|injection H as <- <-; exists x; repeat split; auto]. destruct (Nat.eq_dec a a) as [_|]; [|contradiction].
      destruct (v_gm t) as [g|ng|]; cbn [finite negb orb atmost0] in H; try (injection H as <- <-; exists x; repeat split; now auto).
      destruct (Rle_dec g 0); cbn [orb] in H; (destruct (Rlt_dec 0 g); [|]); try lra.
      * injection H as <- <-. exists x. destruct (v_radius t); repeat split; auto.
      * destruct (v_radius t) as [q|nq|]; cbn [finite negb orb atmost0] in H; try (injection H as <- <-; exists x; repeat split; now auto).
        destruct (Rle_dec q 0); (destruct (Rlt_dec 0 q); [|]); try lra; injection H as <- <-; [exists x; repeat split; auto|eexists; split; [cbn; now rewrite Nat.eqb_refl|]; cbn; repeat split; auto].
  - exists x. split; [eapply step_keeps; eassumption|]. destruct c; cbn in D2; cbn [supplied_atm supplied_grav]; repeat split; auto; try (destruct t; reflexivity).
    + destruct (Nat.eq_dec a0 a); [contradiction|reflexivity].
    + destruct t; [destruct (Nat.eq_dec a0 a); [contradiction|reflexivity]|reflexivity].
Qed.
Theorem C161_latest h cs h' rs a x : sound h -> run h cs = Some (h', rs) -> h_at _ h a = Some (BContext _ x) -> Forall (fun c => c <> ContextFree a) cs ->
  exists x', h_at _ h' a = Some (BContext _ x') /\
    x_atm _ x' = last_of (supplied_atm a) (x_atm _ x) cs /\ x_grav _ x' = last_of (supplied_grav a) (x_grav _ x) cs /\
    (Forall (fun c => forall e, c <> WithEphemeris a e) cs -> x_eph _ x' = x_eph _ x).
Proof.
  revert h rs x. induction cs as [|c cs IH]; intros h rs x Sd H L A; cbn [Dyn_Model.run] in H; [injection H as <- <-; exists x; repeat split; auto|].
  destruct (step h c) as [(h1, r)|] eqn:E; [|discriminate]. destruct (run h1 cs) as [(h2, rs')|] eqn:E2; [|discriminate]. injection H as <- <-. inversion A as [|? ? A1 A2]; subst.
  destruct (attach_step _ _ _ _ _ _ Sd E L A1) as (x1 & L1 & T1 & G1 & P1). pose proof (sound_step _ _ _ _ Sd E) as (Sd1 & _).
  destruct (IH _ _ _ Sd1 E2 L1 A2) as (x2 & L2 & T2 & G2 & P2). exists x2. split; [exact L2|]. cbn [last_of]. rewrite <- T1, <- G1. repeat split; auto.
  intros F. inversion F as [|? ? F1 F2]; subst. rewrite (P2 F2). destruct P1 as [P1|(e & v & K & _)]; [exact P1|]. now apply F1 in K.
Qed.
(** the ephemeris is copied: the context keeps it when the handle it came from is freed *)
Theorem C161_copied h a e h1 r v cs h2 rs : sound h -> a <> 0%nat -> e <> 0%nat -> h_at _ h e = Some (BEph _ v) ->
  step h (WithEphemeris a e) = Some (h1, r) -> run h1 cs = Some (h2, rs) ->
  Forall (fun c => c <> ContextFree a /\ forall e', c <> WithEphemeris a e') cs ->
  exists x, h_at _ h2 a = Some (BContext _ x) /\ x_eph _ x = Some v.
Proof.
  intros Sd A0 E0 LE H R F. pose proof (sound_step _ _ _ _ Sd H) as (Sd1 & _). cbn [Dyn_Model.step] in H. unfold null in H.
  destruct (Nat.eqb_spec a 0); [contradiction|]. destruct (Nat.eqb_spec e 0); [contradiction|]. cbn [orb] in H. unfold get_context, get_eph in H. rewrite LE in H.
  destruct (h_at _ h a) as [[x| | |]|] eqn:L; try discriminate. injection H as <- <-.
  destruct (C161_latest _ _ _ _ a (Build_context _ (Some v) (x_atm _ x) (x_grav _ x)) Sd1 R) as (x' & L' & _ & _ & P).
  - cbn. now rewrite Nat.eqb_refl.
  - eapply Forall_impl; [|exact F]. intros c K. apply K.
  - exists x'. split; [exact L'|]. apply P. eapply Forall_impl; [|exact F]. intros c K. apply K.
Qed.
(** a null context propagates exactly as a context nothing was attached to *)
Theorem C161_null_context h p s dt c : c <> 0%nat -> h_at _ h c = Some (BContext _ (no_context _)) ->
  step h (Propagate p s dt 0 true) = step h (Propagate p s dt c true).
Proof. intros C L. cbn [Dyn_Model.step]. unfold null. cbn [Nat.eqb]. destruct (Nat.eqb_spec c 0); [contradiction|]. unfold get_context at 1. now rewrite L. Qed.
(** a propagation leaves the state it started from, the propagator and the context as they were *)
Theorem C161_propagate h p s dt c h' a : sound h -> step h (Propagate p s dt c true) = Some (h', RDynamics DOk (Some a)) ->
  (forall i b, h_at _ h i = Some b -> h_at _ h' i = Some b) /\
  exists gm s0 t x s1, dt = RF t /\ h_at _ h p = Some (BProp _ gm) /\ h_at _ h s = Some (BState _ s0) /\
    ((c = 0%nat /\ x = no_context _) \/ h_at _ h c = Some (BContext _ x)) /\ integrate gm s0 t x = Ok s1 /\ h_at _ h' a = Some (BState _ s1).
Proof.
  intros Sd H. split; [intros i b L; eapply step_keeps; try eassumption; cbn; tauto|].
  cbn [Dyn_Model.step] in H. destruct (null p) eqn:NP; [discriminate|]. destruct (null s) eqn:NS; [discriminate|]. cbn [orb negb] in H. destruct dt as [t| |]; try discriminate. cbn [finite negb rv] in H.
  unfold get_prop, get_state in H. destruct (h_at _ h p) as [[]|] eqn:LP; try discriminate. destruct (h_at _ h s) as [[]|] eqn:LS; try discriminate.
  destruct (if null c then Some (no_context eph) else get_context eph h c) as [x|] eqn:LC; [|discriminate].
  destruct (integrate gm s0 t x) as [s1| |] eqn:I; try discriminate. cbn in H. injection H as <- <-.
  exists gm, s0, t, x, s1. repeat split; auto.
  - unfold null, get_context in LC. destruct (Nat.eqb_spec c 0); [left; split; congruence|right]. destruct (h_at _ h c) as [[]|]; try discriminate. congruence.
  - cbn. now rewrite Nat.eqb_refl.
Qed.
(** freeing a live handle empties it: nothing that was allocated stays behind *)
Theorem C161_released h c h' r a : a <> 0%nat -> frees a c -> step h c = Some (h', r) ->
  h_at _ h a <> None /\ h_at _ h' a = None /\ r = RNothing /\ forall b, b <> a -> h_at _ h' b = h_at _ h b.
Proof.
  intros A F H. assert (N : null a = false) by now apply Nat.eqb_neq.
  destruct c; cbn in F; try contradiction; subst; cbn [Dyn_Model.step] in H; rewrite N in H;
  unfold get_context, get_state, get_prop, get_eph in H; destruct (h_at _ h a) as [[]|] eqn:L; try discriminate H; injection H as <- <-;
  cbn; rewrite Nat.eqb_refl; repeat split; try discriminate; intros b B; destruct (Nat.eqb_spec b a); congruence.
Qed.
(** what each constructor accepts: an output pointer and finite (for constants also positive) numbers *)
Definition number (x : rnum) : Prop := exists v, x = RF v.
Definition above_zero (x : rnum) : Prop := exists v, x = RF v /\ 0 < v.
Lemma finite_number x : finite x = true <-> number x.
Proof. unfold number. destruct x; cbn; split; intros H; try discriminate; eauto; destruct H; discriminate. Qed.
Lemma positive_test x : (negb (finite x) || atmost0 x)%bool = false <-> above_zero x.
Proof.
  unfold above_zero, atmost0. destruct x as [v| |]; cbn; split; intros H; try discriminate; try (destruct H as (? & H & _); discriminate).
  - exists v. split; [reflexivity|]. destruct (Rle_dec v 0); [discriminate|lra].
  - destruct H as (w & K & P). injection K as <-. destruct (Rle_dec v 0); [lra|reflexivity].
Qed.
Theorem C161_accepts h :
  (forall out, exists h', step h (ContextNew out) = Some (h', if out then RHandle COk (Some (h_next _ h)) else RHandle CNull None)) /\
  (forall jd x y z vx vy vz out, exists h' r, step h (StateNew jd x y z vx vy vz out) = Some (h', r) /\
     (r = RHandle CNull None <-> out = false) /\
     (r = RHandle COk (Some (h_next _ h)) <-> out = true /\ Forall number [jd; x; y; z; vx; vy; vz]) /\
     (r = RHandle CArgument None <-> out = true /\ ~ Forall number [jd; x; y; z; vx; vy; vz])) /\
  (forall gm out, exists h' r, step h (PropNew gm out) = Some (h', r) /\
     (r = RHandle CNull None <-> out = false) /\
     (r = RHandle COk (Some (h_next _ h)) <-> out = true /\ above_zero gm) /\
     (r = RHandle CArgument None <-> out = true /\ ~ above_zero gm)).
Proof.
  split; [|split].
  - intros []; cbn; eexists; reflexivity.
  - intros. cbn [Dyn_Model.step]. destruct out; cbn [negb].
    + assert (E : forallb finite [jd; x; y; z; vx; vy; vz] = true <-> Forall number [jd; x; y; z; vx; vy; vz]).
      { rewrite forallb_forall, Forall_forall. split; intros H k K; apply finite_number; now apply H. }
      destruct (forallb finite [jd; x; y; z; vx; vy; vz]); cbn [negb alloc].
      * eexists _, _. split; [reflexivity|]. assert (Forall number [jd; x; y; z; vx; vy; vz]) by now apply E. repeat split; intros; try discriminate; tauto.
      * assert (~ Forall number [jd; x; y; z; vx; vy; vz]) by (intros C; apply E in C; discriminate).
        eexists _, _. split; [reflexivity|]. repeat split; intros; try discriminate; tauto.
    + eexists _, _. split; [reflexivity|]. repeat split; intros; try discriminate; destruct H; discriminate.
  - intros. cbn [Dyn_Model.step]. destruct out; cbn [negb].
    + pose proof (positive_test gm) as E. destruct (negb (finite gm) || atmost0 gm)%bool; cbn [alloc].
      * assert (~ above_zero gm) by (intros C; apply E in C; discriminate).
        eexists _, _. split; [reflexivity|]. repeat split; intros; try discriminate; tauto.
      * assert (above_zero gm) by now apply E. eexists _, _. split; [reflexivity|]. repeat split; intros; try discriminate; tauto.
    + eexists _, _. split; [reflexivity|]. repeat split; intros; try discriminate; destruct H; discriminate.
Qed.
(** attaching: null pointers first, then the constants, then the update of that part alone *)
Theorem C161_attach h a x : a <> 0%nat -> h_at _ h a = Some (BContext _ x) ->
  step h (WithAtmosphere a None) = Some (h, RHandle CNull None) /\
  step h (WithGravity a None) = Some (h, RHandle CNull None) /\
  (forall t, exists h', step h (WithAtmosphere a (Some t)) = Some (h', RHandle COk None) /\
     h_at _ h' a = Some (BContext _ {| x_eph := x_eph _ x; x_atm := Some t; x_grav := x_grav _ x |})) /\
  (forall t, above_zero (v_gm t) -> above_zero (v_radius t) -> exists h', step h (WithGravity a (Some t)) = Some (h', RHandle COk None) /\
     h_at _ h' a = Some (BContext _ {| x_eph := x_eph _ x; x_atm := x_atm _ x; x_grav := Some t |})) /\
  (forall t, ~ (above_zero (v_gm t) /\ above_zero (v_radius t)) -> step h (WithGravity a (Some t)) = Some (h, RHandle CArgument None)) /\
  (forall e v, e <> 0%nat -> h_at _ h e = Some (BEph _ v) -> exists h', step h (WithEphemeris a e) = Some (h', RHandle COk None) /\
     h_at _ h' a = Some (BContext _ {| x_eph := Some v; x_atm := x_atm _ x; x_grav := x_grav _ x |})).
Proof.
  intros A L. assert (N : null a = false) by now apply Nat.eqb_neq.
  assert (G : get_context _ h a = Some x) by (unfold get_context; now rewrite L).
  cbn [Dyn_Model.step]. rewrite N, G. repeat split.
  - intros t. eexists. split; [reflexivity|]. cbn. now rewrite Nat.eqb_refl.
  - intros t P Q. apply positive_test in P, Q. apply orb_false_elim in P, Q. destruct P as (-> & ->), Q as (-> & ->). cbn [orb].
    eexists. split; [reflexivity|]. cbn. now rewrite Nat.eqb_refl.
  - intros t P. destruct (negb (finite (v_gm t)) || atmost0 (v_gm t) || negb (finite (v_radius t)) || atmost0 (v_radius t))%bool eqn:E; [reflexivity|].
    exfalso. apply P. apply orb_false_elim in E. destruct E as (E & R4). apply orb_false_elim in E. destruct E as (E & R3).
    split; apply positive_test; [exact E|]. now rewrite R3, R4.
  - intros e v E K. apply Nat.eqb_neq in E. unfold null at 1. rewrite E. unfold get_eph. rewrite K. cbn [orb].
    eexists. split; [reflexivity|]. cbn. now rewrite Nat.eqb_refl.
Qed.
(** null handles and null outputs are reported by every call; the readers and the propagation name them before anything else *)
Theorem C161_null h a ox oy oz out p s dt c :
  (a = 0%nat \/ ox = false \/ oy = false \/ oz = false ->
     step h (StatePosition a ox oy oz) = Some (h, RNumbers CNull []) /\ step h (StateVelocity a ox oy oz) = Some (h, RNumbers CNull [])) /\
  (a = 0%nat \/ out = false -> step h (StateEpoch a out) = Some (h, RNumbers CNull [])) /\
  (p = 0%nat \/ s = 0%nat \/ out = false -> step h (Propagate p s dt c out) = Some (h, RDynamics DNull None)) /\
  (forall e t, step h (WithEphemeris 0 e) = Some (h, RHandle CNull None) /\ step h (WithEphemeris a 0) = Some (h, RHandle CNull None) /\
     step h (WithAtmosphere 0 t) = Some (h, RHandle CNull None)) /\
  (forall t, step h (WithGravity 0 t) = Some (h, RHandle CNull None)) /\
  Forall (fun k => step h k = Some (h, RNothing)) [ContextFree 0; StateFree 0; PropFree 0; EphemerisFree 0] /\
  step h (PropEarth false) = Some (h, RHandle CNull None).
Proof.
  repeat split; try (intros; cbn [Dyn_Model.step]; unfold null; cbn; rewrite ?orb_true_r; reflexivity); cbn [Dyn_Model.step]; unfold null.
  - destruct H as [->|[->|[->| ->]]]; cbn [Nat.eqb negb orb]; rewrite ?orb_true_r; reflexivity.
  - destruct H as [->|[->|[->| ->]]]; cbn [Nat.eqb negb orb]; rewrite ?orb_true_r; reflexivity.
  - intros [-> | ->]; cbn [Nat.eqb negb orb]; rewrite ?orb_true_r; reflexivity.
  - intros [->|[->| ->]]; cbn [Nat.eqb negb orb]; rewrite ?orb_true_r; reflexivity.
  - repeat constructor.
Qed.
(** a propagation that reaches the integrator reports its verdict, and a panic inside it becomes a status *)
Theorem C161_verdict h p s c gm s0 x dt : p <> 0%nat -> s <> 0%nat ->
  h_at _ h p = Some (BProp _ gm) -> h_at _ h s = Some (BState _ s0) ->
  (c = 0%nat /\ x = no_context _ \/ c <> 0%nat /\ h_at _ h c = Some (BContext _ x)) ->
  (~ number dt -> step h (Propagate p s dt c true) = Some (h, RDynamics DStep None)) /\
  (forall t, dt = RF t -> exists h' r, step h (Propagate p s dt c true) = Some (h', r) /\
     match integrate gm s0 t x with
     | Ok s1 => r = RDynamics DOk (Some (h_next _ h)) /\ h_at _ h' (h_next _ h) = Some (BState _ s1)
     | Err e => h' = h /\ r = RDynamics (from_dynamics_error (from_principia e)) None
     | Panic => h' = h /\ r = RDynamics DPanic None
     end).
Proof.
  intros P Q LP LS LC. apply Nat.eqb_neq in P, Q. cbn [Dyn_Model.step]. unfold null. rewrite P, Q. cbn [orb negb]. split.
  - intros N. destruct (finite dt) eqn:F; [|reflexivity]. apply finite_number in F. contradiction.
  - intros t ->. cbn [finite negb rv]. unfold get_prop, get_state. rewrite LP, LS.
    replace (if Nat.eqb c 0 then Some (no_context eph) else get_context eph h c) with (Some x).
    2:{ destruct LC as [(-> & ->)|(C & K)]; [reflexivity|]. apply Nat.eqb_neq in C. rewrite C. unfold get_context. now rewrite K. }
    destruct (integrate gm s0 t x) as [s1|e|]; cbn [alloc]; eexists _, _; (split; [reflexivity|]); cbn; rewrite ?Nat.eqb_refl; now split.
Qed.
End Handles.
Print Assumptions C161_failure.
Print Assumptions C161_sound.
Print Assumptions C161_fresh.
Print Assumptions C161_isolated.
Print Assumptions C161_survives.
Print Assumptions C161_reads_back.
Print Assumptions C161_latest.
Print Assumptions C161_copied.
Print Assumptions C161_null_context.
Print Assumptions C161_propagate.
Print Assumptions C161_released.
Print Assumptions C161_accepts.
Print Assumptions C161_attach.
Print Assumptions C161_null.
Print Assumptions C161_verdict.
(** a context, a state, a second context with an atmosphere, and the state read back *)
Example C161_case : exists h, 
  run nat (fun _ s _ _ => Ok s) 1 (empty_heap nat)
    [ContextNew true; StateNew (RF 2451545) (RF 7000) (RF 0) (RF 0) (RF 0) (RF 7) (RF 1) true; WithAtmosphere 1%nat (Some (fun _ => RF 1)); WithAtmosphere 1%nat None; PropNew (RF 398600) true; Propagate 3%nat 2%nat (RF 60) 0%nat true; StatePosition 4%nat true true true]
  = Some (h, [RHandle COk (Some 1%nat); RHandle COk (Some 2%nat); RHandle COk None; RHandle CNull None; RHandle COk (Some 3%nat); RDynamics DOk (Some 4%nat); RNumbers COk [7000; 0; 0]]).
Proof.
  cbn. destruct (Rle_dec 398600 0); [lra|]. cbn. eexists. reflexivity.
Qed.
Print Assumptions C161_case.

(** * C162 Errors and callbacks *)
(** an error keeps its kind and its payload through the integrator, except "altitude below surface" *)
Theorem C162_round_trip e : e <> EBelowSurface -> from_principia (into_principia e) = e.
Proof. destruct e; intros H; try reflexivity. now destruct H. Qed.
Theorem C162_surface_refuted : from_principia (into_principia EBelowSurface) = EDegenerate "altitude below surface".
Proof. reflexivity. Qed.
(** the error classes a caller can tell apart *)
Definition kind (e : dyn_err) : nat :=
  match e with
  | EEphemeris => 0 | EEop => 1 | ECoefficient _ _ => 2 | EBelowSurface => 3 | EDegenerate _ => 4 | EStep _ => 5
  | EAtmosphere => 6 | EProvider => 7 | EGravityField => 8 | EDegreeRange _ _ => 9
  end%nat.
(** every class of error has a code of its own, different from success, the null pointer and the panic *)
Theorem C162_codes e e' :
  (dcode (from_dynamics_error e) = dcode (from_dynamics_error e') <-> kind e = kind e') /\
  dcode (from_dynamics_error e) <> 0%N /\ dcode (from_dynamics_error e) <> 1%N /\ dcode (from_dynamics_error e) <> 99%N.
Proof. split; [|destruct e; cbn; repeat split; discriminate]. destruct e, e'; cbn; split; intros H; try reflexivity; discriminate H. Qed.
Theorem C162_distinct s s' : dcode s = dcode s' -> s = s'.
Proof. destruct s, s'; cbn; intros H; try reflexivity; discriminate H. Qed.
(** so no propagation ever reports code 5, whatever the integrator and its force models do *)
Theorem C162_unreachable (eph : Type) integ gm h p s dt c out h' st w :
  step eph integ gm h (Propagate p s dt c out) = Some (h', RDynamics st w) -> dcode st <> 5%N.
Proof.
  cbn [step]. intros H K. assert (E : st = DBelowSurface) by (now apply C162_distinct). subst st.
  repeat match type of H with
  | (if ?b then _ else _) = _ => destruct b eqn:?
  | match ?b with _ => _ end = _ => destruct b eqn:?
  end; try discriminate H. injection H as _ H _.
  match type of H with from_dynamics_error (from_principia ?e) = _ => destruct e; cbn in H; try discriminate H end.
  repeat match type of H with context [if ?b then _ else _] => destruct b end; discriminate H.
Qed.
(** a zero code and a written handle go together *)
Theorem C162_zero (eph : Type) integ gm h p s dt c out h' st w :
  step eph integ gm h (Propagate p s dt c out) = Some (h', RDynamics st w) -> (dcode st = 0%N <-> exists a, w = Some a).
Proof.
  cbn [step]. intros H.
  repeat match type of H with
  | (if ?b then _ else _) = _ => destruct b eqn:?
  | match ?b with _ => _ end = _ => destruct b eqn:?
  end; try discriminate H; injection H as <- <- <-; (split; [intros K|intros (a9 & K)]); try discriminate; eauto.
  exfalso. match type of K with dcode (from_dynamics_error ?e) = _ => destruct (C162_codes e e) as (_ & Z & _); contradiction end.
Qed.
(** the density callback: a number that is not negative is passed on, a negative one means below the surface, anything else is a provider error *)
Theorem C162_density t a :
  (forall rho, density t a = Ok rho <-> t a = RF rho /\ 0 <= rho) /\
  (density t a = Err EBelowSurface <-> exists rho, t a = RF rho /\ rho < 0) /\
  (density t a = Err EProvider <-> forall rho, t a <> RF rho).
Proof.
  unfold density. destruct (t a) as [r|ng|]; cbn.
  - destruct (Rlt_dec r 0) as [L|L]; (split; [|split]).
    + intros rho. split; [discriminate|intros (K & K')]. injection K as ->. lra.
    + split; [intros _; now exists r|reflexivity].
    + split; [discriminate|]. intros K. now destruct (K r).
    + intros rho. split; [intros K; injection K as ->; split; [reflexivity|lra]|intros (K & _); now injection K as ->].
    + split; [discriminate|]. intros (q & K & K'). injection K as ->. lra.
    + split; [discriminate|]. intros K. now destruct (K r).
  - split; [|split]; [intros rho; split; [discriminate|now intros (K & _)]|split; [discriminate|now intros (q & K & _)]|split; [intros _ rho; discriminate|reflexivity]].
  - split; [|split]; [intros rho; split; [discriminate|now intros (K & _)]|split; [discriminate|now intros (q & K & _)]|split; [intros _ rho; discriminate|reflexivity]].
Qed.
(** the coefficient callback: asked for the degree and order it was asked for, and named in the error, while both are below 65536 *)
Theorem C162_coefficient f n m : (n < 65536)%N -> (m < 65536)%N ->
  (forall v, coefficient f n m = Ok v <-> f n m = RF v) /\ (coefficient f n m = Err (PCoefficient n m) <-> forall v, f n m <> RF v).
Proof.
  intros Hn Hm. unfold coefficient, as_u32, as_u16. rewrite !N.mod_small by lia. destruct (f n m) as [r|g|]; cbn; split.
  - intros v. split; intros K; injection K as ->; reflexivity.
  - split; [discriminate|]. intros K. now destruct (K r).
  - intros v. split; discriminate.
  - split; [intros _ v; discriminate|reflexivity].
  - intros v. split; discriminate.
  - split; [intros _ v; discriminate|reflexivity].
Qed.
(** beyond that the error names another coefficient, and from 2^32 on another coefficient is read *)
Theorem C162_wrap_refuted : (forall f, (forall n m, f n m = RNaN) -> coefficient f 65538 0 = Err (PCoefficient 2 0)) /\
  exists f, coefficient f 4294967298 0 = Ok 1 /\ f 4294967298%N 0%N = RF 0.
Proof.
  split; [intros f H; unfold coefficient; rewrite H; reflexivity|].
  exists (fun n _ => if N.eqb n 2 then RF 1 else RF 0). split; reflexivity.
Qed.
Example C162_case : density (fun h => RF (- h)) 1 = Err EBelowSurface /\ dcode (from_dynamics_error (from_principia (into_principia EBelowSurface))) = 6%N /\
  from_principia (PContext "eop") = EEop /\ coefficient (fun n m => if N.eqb n 2 then RF 1 else RNaN) 3 1 = Err (PCoefficient 3 1).
Proof. repeat split. unfold density. cbn. destruct (Rlt_dec (- (1)) 0); [reflexivity|lra]. Qed.
Print Assumptions C162_round_trip.
Print Assumptions C162_surface_refuted.
Print Assumptions C162_codes.
Print Assumptions C162_distinct.
Print Assumptions C162_unreachable.
Print Assumptions C162_zero.
Print Assumptions C162_density.
Print Assumptions C162_coefficient.
Print Assumptions C162_wrap_refuted.
Print Assumptions C162_case.

(** * C163 Spacecraft properties *)
(** accepted exactly when the mass is a positive number and the other four are numbers not below zero; what is stored is
    what was given, and each ratio times the mass is its area *)
Theorem C163_accepts m da cd sa cr k : try_new m da cd sa cr = Ok k <->
  m = RF (k_mass k) /\ da = RF (k_drag_area k) /\ cd = RF (k_cd k) /\ sa = RF (k_srp_area k) /\ cr = RF (k_cr k) /\
  0 < k_mass k /\ 0 <= k_drag_area k /\ 0 <= k_cd k /\ 0 <= k_srp_area k /\ 0 <= k_cr k /\
  k_drag_ratio k * k_mass k = k_drag_area k /\ k_srp_ratio k * k_mass k = k_srp_area k.
Proof.
  unfold try_new. split.
  - destruct m as [m| |]; cbn [finite negb orb atmost0]; try discriminate. destruct (Rle_dec m 0); [discriminate|].
    destruct da as [da| |]; cbn [finite negb orb below0]; try discriminate. destruct (Rlt_dec da 0); [discriminate|].
    destruct sa as [sa| |]; cbn [finite negb orb below0]; try discriminate. destruct (Rlt_dec sa 0); [discriminate|].
    destruct cd as [cd| |]; cbn [finite negb orb below0]; try discriminate. destruct (Rlt_dec cd 0); [discriminate|].
    destruct cr as [cr| |]; cbn [finite negb orb below0]; try discriminate. destruct (Rlt_dec cr 0); [discriminate|].
    intros H. injection H as <-. cbn. repeat split; try lra; field; lra.
  - destruct k as [km kda kcd ksa kcr r1 r2]. cbn. intros (-> & -> & -> & -> & -> & P & A & B & C & D & E1 & E2). cbn.
    destruct (Rle_dec km 0); [lra|]. destruct (Rlt_dec kda 0); [lra|]. destruct (Rlt_dec ksa 0); [lra|]. destruct (Rlt_dec kcd 0); [lra|]. destruct (Rlt_dec kcr 0); [lra|].
    cbn. rewrite <- E1, <- E2. do 2 f_equal; field; lra.
Qed.
Definition positive (x : rnum) : Prop := exists r, x = RF r /\ 0 < r.
Definition nonneg (x : rnum) : Prop := exists r, x = RF r /\ 0 <= r.
Lemma not_positive x : negb (finite x) || atmost0 x = false <-> positive x.
Proof.
  unfold positive. destruct x as [r| |]; cbn; [|split; [discriminate|intros (q & K & _); discriminate]..].
  destruct (Rle_dec r 0); split; intros H; try discriminate; try reflexivity; [destruct H as (q & K & L); injection K as ->; lra|exists r; split; [reflexivity|lra]].
Qed.
Lemma not_nonneg x : negb (finite x) || below0 x = false <-> nonneg x.
Proof.
  unfold nonneg. destruct x as [r| |]; cbn; [|split; [discriminate|intros (q & K & _); discriminate]..].
  destruct (Rlt_dec r 0); split; intros H; try discriminate; try reflexivity; [destruct H as (q & K & L); injection K as ->; lra|exists r; split; [reflexivity|lra]].
Qed.
Lemma bool_of (b : bool) (P : Prop) : (b = false <-> P) -> b = true -> ~ P.
Proof. intros H -> K. now apply H in K. Qed.
(** the error names the first bad value in the order mass, drag area, radiation area, drag and radiation coefficient *)
Theorem C163_first m da cd sa cr :
  (try_new m da cd sa cr = Err BadMass <-> ~ positive m) /\
  (try_new m da cd sa cr = Err BadDragArea <-> positive m /\ ~ nonneg da) /\
  (try_new m da cd sa cr = Err BadSrpArea <-> positive m /\ nonneg da /\ ~ nonneg sa) /\
  (try_new m da cd sa cr = Err BadCd <-> positive m /\ nonneg da /\ nonneg sa /\ ~ nonneg cd) /\
  (try_new m da cd sa cr = Err BadCr <-> positive m /\ nonneg da /\ nonneg sa /\ nonneg cd /\ ~ nonneg cr).
Proof.
  unfold try_new.
  destruct (negb (finite m) || atmost0 m) eqn:E1; [apply (bool_of _ _ (not_positive m)) in E1|apply not_positive in E1]; [repeat split; try discriminate; tauto|].
  destruct (negb (finite da) || below0 da) eqn:E2; [apply (bool_of _ _ (not_nonneg da)) in E2|apply not_nonneg in E2]; [repeat split; try discriminate; tauto|].
  destruct (negb (finite sa) || below0 sa) eqn:E3; [apply (bool_of _ _ (not_nonneg sa)) in E3|apply not_nonneg in E3]; [repeat split; try discriminate; tauto|].
  destruct (negb (finite cd) || below0 cd) eqn:E4; [apply (bool_of _ _ (not_nonneg cd)) in E4|apply not_nonneg in E4]; [repeat split; try discriminate; tauto|].
  destruct (negb (finite cr) || below0 cr) eqn:E5; [apply (bool_of _ _ (not_nonneg cr)) in E5|apply not_nonneg in E5]; repeat split; try discriminate; tauto.
Qed.
(** the unchecked constructor panics exactly where the checked one reports an error, and otherwise agrees with it *)
Theorem C163_panics m da cd sa cr : (new m da cd sa cr = Panic <-> exists e, try_new m da cd sa cr = Err e) /\
  forall k, new m da cd sa cr = Ok k <-> try_new m da cd sa cr = Ok k.
Proof.
  assert (NP : try_new m da cd sa cr <> Panic) by (unfold try_new; repeat match goal with |- (if ?b then _ else _) <> _ => destruct b end; discriminate).
  unfold new. destruct (try_new m da cd sa cr) as [k|e|]; [| |contradiction]; (split; [|intros k']); split; intros H; try discriminate; eauto; try (destruct H; discriminate).
Qed.
Example C163_case : (exists k, try_new (RF 500) (RF 2) (RF (22 / 10)) (RF 3) (RF (13 / 10)) = Ok k /\ k_drag_ratio k = 4 / 1000 /\ k_srp_ratio k = 6 / 1000) /\
  try_new (RF 500) (RF (-1)) (RF (-1)) (RF 0) RNaN = Err BadDragArea /\ new (RF 0) (RF 1) (RF 1) (RF 1) (RF 1) = Panic.
Proof.
  split; [|split].
  - exists (Build_craft 500 2 (22 / 10) 3 (13 / 10) (4 / 1000) (6 / 1000)). split; [|split; reflexivity]. apply C163_accepts. cbn. repeat split; lra.
  - apply C163_first. split; [exists 500; split; [reflexivity|lra]|]. intros (r & K & L). injection K as <-. lra.
  - apply C163_panics. exists BadMass. apply C163_first. intros (r & K & L). injection K as <-. lra.
Qed.
Print Assumptions C163_accepts.
Print Assumptions C163_first.
Print Assumptions C163_panics.
Print Assumptions C163_case.

(** * C164 Lunar photometry *)
Theorem C164_albedo w : (forall x, w = RF x -> exists a, full_albedo w = Some a /\ 75 / 1000 <= a <= 14 / 100) /\
  (w = RNaN <-> full_albedo w = None).
Proof.
  unfold full_albedo, clamp_nm. split; [|destruct w as [|[]|]; split; congruence].
  intros x ->. destruct (Rlt_dec x 300); [|destruct (Rlt_dec 1100 x)]; eexists; (split; [reflexivity|]); lra.
Qed.
(** redder is never darker, and strictly brighter inside 300 to 1100 nanometres *)
Theorem C164_redder x y a b : x <= y -> full_albedo (RF x) = Some a -> full_albedo (RF y) = Some b ->
  a <= b /\ (300 <= x < y -> x < 1100 -> a < b).
Proof.
  intros H. unfold full_albedo, clamp_nm. intros A B. injection A as <-. injection B as <-.
  destruct (Rlt_dec x 300); [|destruct (Rlt_dec 1100 x)]; (destruct (Rlt_dec y 300); [|destruct (Rlt_dec 1100 y)]); split; intros; lra.
Qed.
Lemma deg_pos x : 0 <= x -> 0 <= to_deg x.
Proof. intros H. unfold to_deg. pose proof PI_RGT_0. apply Rmult_le_pos; [lra|left; now apply Rinv_0_lt_compat]. Qed.
Lemma deg_mono x y : x < y -> to_deg x < to_deg y.
Proof. intros H. unfold to_deg. pose proof PI_RGT_0. apply Rmult_lt_compat_r; [now apply Rinv_0_lt_compat|lra]. Qed.
Lemma law_mono a b : 0 <= a < b -> 26 / 1000 * a + 4 / 1000000000 * a ^ 4 < 26 / 1000 * b + 4 / 1000000000 * b ^ 4.
Proof. intros H. assert (a ^ 4 <= b ^ 4) by (apply pow_incr; lra). lra. Qed.
(** one at full Moon, even in the phase angle, strictly falling as the angle opens, never above one and never gone at a finite angle *)
Theorem C164_phase : attenuation (RF 0) = Some 1 /\ (forall x, attenuation (RF (- x)) = attenuation (RF x)) /\
  (forall x y a b, 0 <= x < y -> attenuation (RF x) = Some a -> attenuation (RF y) = Some b -> b < a) /\
  (forall x a, attenuation (RF x) = Some a -> 0 < a <= 1).
Proof.
  assert (M : forall x y a b, 0 <= x < y -> attenuation (RF x) = Some a -> attenuation (RF y) = Some b -> b < a).
  { intros x y a b H A B. unfold attenuation in A, B. injection A as <-. injection B as <-. rewrite !Rabs_pos_eq by lra. apply Rpower_lt; [lra|].
    pose proof (law_mono (to_deg x) (to_deg y)) as L. specialize (L (conj (deg_pos x ltac:(lra)) (deg_mono x y ltac:(lra)))). lra. }
  assert (Z : attenuation (RF 0) = Some 1).
  { unfold attenuation. rewrite Rabs_R0. f_equal. unfold to_deg. replace (0 * 180 / PI) with 0 by (field; apply PI_neq0). replace (- (4 / 10) * (26 / 1000 * 0 + 4 / 1000000000 * 0 ^ 4)) with 0 by (cbn; ring). apply Rpower_O. lra. }
  repeat split; auto.
  - intros x. unfold attenuation. now rewrite Rabs_Ropp.
  - unfold attenuation in H. injection H as <-. apply exp_pos.
  - destruct (Req_dec x 0) as [->|N]; [rewrite Z in H; injection H as <-; lra|]. left. apply (M 0 (Rabs x) 1 a); [pose proof (Rabs_pos_lt x N); lra|exact Z|].
    rewrite <- H. unfold attenuation. now rewrite Rabs_Rabsolu.
Qed.
(** NaN exactly for an irradiance or a distance that is not finite, a distance not above zero, or a NaN wavelength or phase *)
Theorem C164_not_a_number e w p d : radiance e w p d = None <->
  (forall r, e <> RF r) \/ (forall r, d = RF r -> r <= 0) \/ w = RNaN \/ p = RNaN.
Proof.
  unfold radiance. destruct e as [e|ne|]; cbn [finite negb orb]; [|split; [left; intros; discriminate|reflexivity]..].
  destruct d as [d|nd|]; cbn [finite negb orb atmost0]; [|split; [right; left; intros; discriminate|reflexivity]..].
  destruct (Rle_dec d 0) as [L|L].
  - split; [|reflexivity]. intros _. right. left. intros r K. injection K as <-. exact L.
  - unfold albedo, full_albedo, clamp_nm, attenuation. split.
    + intros H. right. right. destruct w as [|[]|], p as [|[]|]; try discriminate H; tauto.
    + intros [H|[H|[->| ->]]]; [now destruct (H e)|specialize (H d eq_refl); lra|reflexivity|]. destruct w as [|[]|]; reflexivity.
Qed.
(** so "NaN if any input is non-finite" is false for the wavelength and the phase angle: an infinite one gives a number *)
Theorem C164_nonfinite_refuted : radiance (RF 1) (RF 500) (RInf false) (RF moon_distance) = Some 0 /\
  exists r, radiance (RF 1) (RInf false) (RF 0) (RF moon_distance) = Some r /\ 0 < r.
Proof.
  unfold radiance, moon_distance. cbn [finite negb orb atmost0]. destruct (Rle_dec 384400 0); [lra|]. split.
  - unfold albedo, full_albedo, clamp_nm, attenuation. f_equal. ring.
  - unfold albedo. destruct C164_phase as (-> & _). unfold full_albedo, clamp_nm. eexists. split; [reflexivity|]. unfold moon_radius. cbn [rv].
    repeat apply Rmult_lt_0_compat; try lra; apply pow_lt; lra.
Qed.
(** proportional to the sunlight, and falling with the FOURTH power of the distance: the solid angle and the distance
    correction each count it *)
Theorem C164_distance e w p d k r r' : 0 < d -> 0 < k -> radiance (RF e) w p (RF d) = Some r -> radiance (RF e) w p (RF (k * d)) = Some r' ->
  r' * k ^ 4 = r.
Proof.
  intros Hd Hk. assert (0 < k * d) by (now apply Rmult_lt_0_compat). unfold radiance. cbn [finite negb orb atmost0 rv]. destruct (Rle_dec d 0); [lra|]. destruct (Rle_dec (k * d) 0); [lra|].
  destruct (albedo p w); [|discriminate]. intros A B. injection A as <-. injection B as <-. field. split; lra.
Qed.
Theorem C164_sunlight e k w p d r r' : radiance (RF e) w p (RF d) = Some r -> radiance (RF (k * e)) w p (RF d) = Some r' -> r' = k * r.
Proof.
  unfold radiance. cbn [finite negb orb atmost0 rv]. destruct (Rle_dec d 0); [discriminate|]. destruct (albedo p w); [|discriminate]. intros A B. injection A as <-. injection B as <-. ring.
Qed.
(** the inverse-square law of the paper (the solid angle taken at the mean distance) therefore fails *)
Theorem C164_square_refuted : exists e w p d r r', 0 < d /\ radiance (RF e) w p (RF d) = Some r /\ radiance (RF e) w p (RF (2 * d)) = Some r' /\ r' * 2 ^ 2 <> r.
Proof.
  destruct C164_nonfinite_refuted as (_ & r & R & P). exists 1, (RInf false), (RF 0), moon_distance, r.
  assert (D : 0 < moon_distance) by (unfold moon_distance; lra).
  destruct (radiance (RF 1) (RInf false) (RF 0) (RF (2 * moon_distance))) as [r'|] eqn:E.
  - exists r'. repeat split; auto. pose proof (C164_distance _ _ _ _ 2 _ _ D ltac:(lra) R E). lra.
  - exfalso. apply C164_not_a_number in E. destruct E as [E|[E|[E|E]]]; try discriminate; [now destruct (E 1)|]. specialize (E _ eq_refl). lra.
Qed.
Example C164_case : full_albedo (RF 700) = Some (75 / 1000 + 65 / 1000 * ((700 - 300) / 800)) /\ full_albedo (RF 100) = full_albedo (RF 300) /\ radiance (RF 1) (RF 500) (RF 0) (RF 0) = None.
Proof.
  split; [|split].
  - unfold full_albedo, clamp_nm. destruct (Rlt_dec 700 300); [lra|]. destruct (Rlt_dec 1100 700); [lra|reflexivity].
  - unfold full_albedo, clamp_nm. destruct (Rlt_dec 100 300); [|lra]. destruct (Rlt_dec 300 300); [lra|]. destruct (Rlt_dec 1100 300); [lra|reflexivity].
  - apply C164_not_a_number. right. left. intros r K. injection K as <-. lra.
Qed.
Print Assumptions C164_albedo.
Print Assumptions C164_redder.
Print Assumptions C164_phase.
Print Assumptions C164_not_a_number.
Print Assumptions C164_nonfinite_refuted.
Print Assumptions C164_distance.
Print Assumptions C164_sunlight.
Print Assumptions C164_square_refuted.
Print Assumptions C164_case.
