(** C187: prepared orbit handles. *)
From Coq Require Import List NArith Bool Lia.
From Verif Require Import Prep_Model.
Import ListNotations.
Local Open Scope N_scope.

Section Prepared.
Context {elements prepared scalar date vec : Type}.
Context (epoch : elements -> scalar) (check : elements -> date -> option prepared) (jd_of : scalar -> option date) (propagate : prepared -> date -> option vec) (fresh : list N -> N).
Local Notation create := (create epoch check jd_of fresh).
Local Notation position := (position jd_of propagate).
Local Notation step := (step epoch check jd_of propagate fresh).
Local Notation run := (run epoch check jd_of propagate fresh).
Local Notation heap := (@heap prepared).
Local Notation op := (@op elements scalar).
Local Notation reply := (@reply vec).
(** the allocator hands out an address that is not null and not in use *)
Definition allocator : Prop := forall l, fresh l <> 0 /\ ~ In (fresh l) l.
(** what the caller knows to be live: handles it was given and has not given back *)
Fixpoint ledger (live : list N) (os : list op) (rs : list reply) : list N :=
  match os, rs with
  | Create _ _ :: os, RHandle _ (Some a) :: rs => ledger (a :: live) os rs
  | Destroy a :: os, _ :: rs => ledger (filter (fun b => negb (a =? b)) live) os rs
  | _ :: os, _ :: rs => ledger live os rs
  | _, _ => live
  end.
(** addresses are not null and not shared *)
Definition sound (h : heap) : Prop := NoDup (map fst h) /\ ~ In 0 (map fst h).

Lemma lookup_in (h : heap) a : In a (map fst h) <-> exists p, lookup h a = Some p.
Proof.
  induction h as [|(b, p) h IH]; cbn [map fst lookup In]; [split; [intros []|intros (? & [=])]|]. destruct (N.eqb_spec a b) as [->|N]; [split; [intros _; now exists p|now left]|].
  rewrite <- IH. split; [intros [E|E]; [congruence|exact E]|now right].
Qed.
Lemma remove_keys (h : heap) a : NoDup (map fst h) -> map fst (remove h a) = filter (fun b => negb (a =? b)) (map fst h).
Proof.
  induction h as [|(b, p) h IH]; intros D; [reflexivity|]. cbn [map fst remove filter] in *. inversion D as [|? ? NI D']; subst. destruct (N.eqb_spec a b) as [->|N]; cbn [negb].
  - clear - NI. induction (map fst h) as [|c l IH]; [reflexivity|]. cbn [filter]. destruct (N.eqb_spec b c) as [->|N]; [exfalso; apply NI; now left|]. cbn [negb]. f_equal. apply IH. intros I. apply NI. now right.
  - cbn [map fst]. f_equal. now apply IH.
Qed.
Lemma remove_other (h : heap) a b : a <> b -> lookup (remove h a) b = lookup h b.
Proof.
  intros N. induction h as [|(c, p) h IH]; [reflexivity|]. cbn [remove lookup]. destruct (N.eqb_spec a c) as [->|M]; [destruct (N.eqb_spec b c); [congruence|reflexivity]|]. cbn [lookup]. now rewrite IH.
Qed.
Lemma step_sound h o h' r : allocator -> sound h -> step h o = Some (h', r) -> sound h' /\ map fst h' = ledger (map fst h) [o] [r].
Proof.
  intros A (D & Z) E. destruct o as [e n|a jd n|a]; cbn [Prep_Model.step] in E.
  - unfold Prep_Model.create in E. destruct n; [injection E as <- <-; split; [split; assumption|reflexivity]|].
    destruct (jd_of (epoch e)) as [d|]; [|injection E as <- <-; split; [split; assumption|reflexivity]].
    destruct (check e d) as [p|]; injection E as <- <-; [|split; [split; assumption|reflexivity]].
    split; [|reflexivity]. destruct (A (map fst h)) as (A1 & A2). split; cbn [map fst]; [now constructor|]. intros [E|E]; [now apply A1|now apply Z].
  - destruct (position h a jd n) as [(s, p)|]; [|discriminate]. injection E as <- <-. split; [split; assumption|reflexivity].
  - unfold destroy in E. destruct (N.eqb_spec a 0) as [->|N].
    + injection E as <- <-. split; [split; assumption|]. cbn [ledger]. clear - Z. induction (map fst h) as [|b l IH]; [reflexivity|]. cbn [filter]. destruct (N.eqb_spec 0 b) as [<-|N]; [exfalso; apply Z; now left|].
      cbn [negb]. f_equal. apply IH. intros I. apply Z. now right.
    + destruct (lookup h a) eqn:L; [|discriminate]. injection E as <- <-. cbn [ledger]. split; [|now apply remove_keys]. unfold sound. rewrite (remove_keys _ _ D). split; [now apply NoDup_filter|].
      intros I. apply filter_In in I as (I & _). now apply Z.
Qed.
Lemma ledger_cons live o os r rs : ledger live (o :: os) (r :: rs) = ledger (ledger live [o] [r]) os rs.
Proof. destruct o; cbn [ledger]; try reflexivity. destruct r; try reflexivity. destruct a; reflexivity. Qed.

(** after any run the live boxes are exactly those the caller was given and has not given back, each once; no handle given is null or in use *)
Theorem C187_live os h h' rs : allocator -> sound h -> run h os = Some (h', rs) -> sound h' /\ map fst h' = ledger (map fst h) os rs /\ length rs = length os.
Proof.
  intros A. revert h rs. induction os as [|o os IH]; intros h rs S E; cbn [Prep_Model.run] in E; [injection E as <- <-; split; [exact S|split; reflexivity]|].
  destruct (step h o) as [(h1, r)|] eqn:E1; [|discriminate]. destruct (run h1 os) as [(h2, rs')|] eqn:E2; [|discriminate]. injection E as <- <-.
  destruct (step_sound _ _ _ _ A S E1) as (S1 & K1). destruct (IH _ _ S1 E2) as (S2 & K2 & L). split; [exact S2|]. split; [rewrite K2, K1; symmetry; apply ledger_cons|cbn [length]; now rewrite L].
Qed.
Theorem C187_fresh h e n a h' : allocator -> create h e n = (SOk, Some a, h') -> a <> 0 /\ ~ In a (map fst h).
Proof.
  intros A. unfold Prep_Model.create. destruct n; [discriminate|]. destruct (jd_of _) as [d|]; [|discriminate]. destruct (check e d); [|discriminate]. intros [= <- _]. apply A.
Qed.
(** after any run the next call is defined exactly when it uses null, has no place to write, or uses a handle still live *)
Theorem C187_defined os h h' rs o : allocator -> sound h -> run h os = Some (h', rs) ->
  (step h' o <> None <-> match o with Create _ _ => True | Position a _ n => a = 0 \/ n = true \/ In a (ledger (map fst h) os rs) | Destroy a => a = 0 \/ In a (ledger (map fst h) os rs) end).
Proof.
  intros A S E. destruct (C187_live _ _ _ _ A S E) as (_ & K & _). rewrite <- K. destruct o as [e n|a jd n|a]; cbn [Prep_Model.step].
  - destruct (create h' e n) as ((s, x), y). split; [trivial|discriminate].
  - unfold Prep_Model.position. rewrite lookup_in. destruct (N.eqb_spec a 0) as [->|N]; cbn [orb]; [split; [now left|discriminate]|]. destruct n; [split; [right; now left|discriminate]|].
    destruct (lookup h' a) as [p|] eqn:L; [|split; [intros H; now elim H|intros [H|[H|(p & H)]]; [contradiction|discriminate|discriminate]]].
    split; [intros _; right; right; now exists p|intros _]. destruct (jd_of jd) as [d|]; [destruct (propagate p d); discriminate|discriminate].
  - unfold destroy. rewrite lookup_in. destruct (N.eqb_spec a 0) as [->|N]; [split; [now left|discriminate]|].
    destruct (lookup h' a) as [p|] eqn:L; [split; [intros _; right; now exists p|discriminate]|split; [intros H; now elim H|intros [H|(p & H)]; [contradiction|discriminate]]].
Qed.
Lemma step_keeps h o h' r a p : allocator -> lookup h a = Some p -> o <> Destroy a -> step h o = Some (h', r) -> lookup h' a = Some p.
Proof.
  intros A L N E. destruct o as [e n|b jd n|b]; cbn [Prep_Model.step] in E.
  - unfold Prep_Model.create in E. destruct n; [now injection E as <- _|]. destruct (jd_of (epoch e)) as [d|]; [|now injection E as <- _]. destruct (check e d) as [q|]; injection E as <- _; [|exact L].
    cbn [lookup]. destruct (N.eqb_spec a (fresh (map fst h))) as [Ea|_]; [|exact L]. exfalso. apply (proj2 (A (map fst h))). rewrite <- Ea. apply lookup_in. now exists p.
  - destruct (position h b jd n) as [(s, q)|]; [|discriminate]. now injection E as <- _.
  - unfold destroy in E. destruct (b =? 0); [now injection E as <- _|]. destruct (lookup h b); [|discriminate]. injection E as <- _. rewrite remove_other; [exact L|congruence].
Qed.
(** a handle answers for the elements it was made from, whatever else is created, asked or destroyed in between *)
Theorem C187_own h e h1 a os h2 rs jd : allocator -> create h e false = (SOk, Some a, h1) -> run h1 os = Some (h2, rs) -> ~ In (Destroy a) os ->
  exists d0 p, jd_of (epoch e) = Some d0 /\ check e d0 = Some p /\
  position h2 a jd false = Some match jd_of jd with
    | None => (SInvalid, None)
    | Some d => match propagate p d with None => (SPanic, None) | Some v => (SOk, Some (Cartesian v EclipticMeanJ2000 Heliocentric AU)) end
    end.
Proof.
  intros A C. pose proof (C187_fresh _ _ _ _ _ A C) as (Z & _). unfold Prep_Model.create in C. destruct (jd_of (epoch e)) as [d0|]; [|discriminate]. destruct (check e d0) as [p|] eqn:Ck; [|discriminate]. injection C as Ea <-.
  assert (L : lookup ((fresh (map fst h), p) :: h) a = Some p) by (cbn [lookup]; now rewrite Ea, N.eqb_refl). revert L. generalize ((fresh (map fst h), p) :: h). intros g L R N.
  exists d0, p. split; [reflexivity|]. split; [exact Ck|].
  assert (L2 : lookup h2 a = Some p).
  { revert g rs L R N. induction os as [|o os IH]; intros g rs L R N; cbn [Prep_Model.run] in R; [now injection R as <- _|].
    destruct (step g o) as [(g', r)|] eqn:E; [|discriminate]. destruct (run g' os) as [(g'', rs')|] eqn:R'; [|discriminate]. injection R as <- _.
    apply (IH g' rs'); [|exact R'|intros I; apply N; now right]. apply (step_keeps _ _ _ _ _ _ A L) in E; [exact E|]. intros ->. apply N. now left. }
  unfold Prep_Model.position. apply N.eqb_neq in Z. rewrite Z, L2. reflexivity.
Qed.
(** a call that does not say Ok writes nothing and changes no box; each failure has its own status *)
Theorem C187_failures h e n a jd :
  (forall s w h', create h e n = (s, w, h') -> s <> SOk -> w = None /\ h' = h) /\ (forall s w, position h a jd n = Some (s, w) -> (s = SOk <-> w <> None)) /\
  (forall s h', destroy h a = Some (s, h') -> s <> SOk -> h' = h) /\
  create h e true = (SNull, None, h) /\ position h 0 jd n = Some (SNull, None) /\ position h a jd true = Some (SNull, None) /\ destroy h 0 = Some (SNull, h) /\
  (n = false -> (fst (fst (create h e n)) = SInvalid <-> match jd_of (epoch e) with None => True | Some d => check e d = None end)).
Proof.
  split; [|split; [|split; [|split; [reflexivity|split; [reflexivity|split; [|split; [reflexivity|]]]]]]].
  - intros s w h'. unfold Prep_Model.create. destruct n; [intros [= <- <- <-] _; now split|]. destruct (jd_of _) as [d|]; [|intros [= <- <- <-] _; now split].
    destruct (check e d); intros [= <- <- <-] H; [now elim H|now split].
  - intros s w. unfold Prep_Model.position. destruct (_ || _); [intros [= <- <-]; split; [discriminate|intros H; now elim H]|]. destruct (lookup h a) as [p|]; [|discriminate]. destruct (jd_of jd) as [d|]; [|intros [= <- <-]; split; [discriminate|intros H; now elim H]].
    destruct (propagate p d); intros [= <- <-]; split; try discriminate; try reflexivity. intros H; now elim H.
  - intros s h'. unfold destroy. destruct (a =? 0); [now intros [= <- <-] _|]. destruct (lookup h a); [|discriminate]. intros [= <- <-] H. now elim H.
  - unfold Prep_Model.position. now rewrite orb_true_r.
  - intros ->. unfold Prep_Model.create. destruct (jd_of (epoch e)) as [d|]; [|split; [trivial|reflexivity]]. destruct (check e d); cbn [fst]; split; try discriminate; reflexivity.
Qed.
End Prepared.

(** two orbits over numbers: the first is asked after the second was made and destroyed; asking the second again is undefined *)
Definition next_free (l : list N) : N := 1 + fold_right N.max 0 l.
Lemma next_free_ok : allocator next_free.
Proof.
  intros l. unfold next_free. split; [lia|]. intros I. assert (H : forall x, In x l -> x <= fold_right N.max 0 l).
  { clear. induction l as [|y l IH]; intros x []; cbn [fold_right]; [subst; lia|]. specialize (IH x H). lia. }
  specialize (H _ I). lia.
Qed.
Definition ex_run := run (fun e : N => e) (fun e _ => if e <? 10 then Some e else None) Some (fun p d => Some (p + d)) next_free.
Example C187_case : ex_run [] [Create 3 false; Create 5 false; Create 12 false; Destroy 2; Position 1 100 false] =
  Some ([(1, 3)], [RHandle SOk (Some 1); RHandle SOk (Some 2); RHandle SInvalid None; RStatus SOk; RPlace SOk (Some (Cartesian 103 EclipticMeanJ2000 Heliocentric AU))]) /\
  ex_run [] [Create 3 false; Destroy 1; Position 1 0 false] = None /\ allocator next_free.
Proof. split; [reflexivity|]. split; [reflexivity|]. exact next_free_ok. Qed.
Print Assumptions C187_live.
Print Assumptions C187_fresh.
Print Assumptions C187_defined.
Print Assumptions C187_own.
Print Assumptions C187_failures.
