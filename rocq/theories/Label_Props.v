(** C186: the fused search for labelled crossings. *)
From Coq Require Import List ZArith QArith Qabs Bool Lia Lqa Sorted.
From Verif Require Import Qb Sort Root_Model Root_Spec Root_Proofs Cross_Model Cross_Spec Cross_Proofs Range_Proofs Label_Model.
Import ListNotations.
Local Open Scope Q_scope.

Definition flips (g : Q -> Q) (s : interval) : bool := opposite_sign (g (fst s)) (g (snd s)).
(** a refined root of its step, upward if the step begins below *)
Definition labelled (g : Q -> Q) (s : interval) (c : crossing) : Prop :=
  refined g s (ct c) /\ ((g (fst s) < 0 /\ 0 <= g (snd s) /\ cdir c = 1%Z) \/ (0 <= g (fst s) /\ g (snd s) < 0 /\ cdir c = (-1)%Z)).
Lemma flip_found start stop g s : flips g s = true -> start <= fst s -> fst s <= snd s -> snd s <= stop -> canon (fst s) -> canon (snd s) ->
  exists c, sign_hit start stop g (fst s) (g (fst s)) (snd s) (g (snd s)) = [c] /\ labelled g s c.
Proof.
  intros O A L B C1 C2. unfold flips in O. unfold sign_hit. rewrite O. apply opposite_sign_spec in O. unfold brent_with_values. destruct (brent_core _ _ _ _ _ _) as [x|] eqn:E.
  - apply core in E; [|now rewrite C1|now rewrite C2]. destruct E as (Bx & C).
    assert (Bt : forall z, between (fst s) (snd s) z -> fst s <= z <= snd s) by (unfold between; intros; lra).
    pose proof (Bt x Bx) as X. assert (R : qleb start x && qleb x stop = true) by (apply andb_true_iff; rewrite !qleb_true; lra). rewrite R.
    eexists. split; [reflexivity|]. split; cbn [ct cdir].
    + split; [exact X|]. destruct C as [C|(y & Y & S & C)]; [now left|]. right. exists y. split; [now apply Bt|]. split; [assumption|]. destruct C as [C|C]; [now left|right; exact C].
    + destruct (qltb_r (g (fst s)) 0); destruct O as [O|O]; [left; split; [lra|]; split; [lra|reflexivity]|lra|lra|right; split; [lra|]; split; [lra|reflexivity]].
  - apply core_none in E. unfold sign_change in E. lra.
Qed.
Lemma flip_list start stop g l : Forall (fun s => canon (fst s) /\ canon (snd s)) l -> Forall (fun s => start <= fst s /\ fst s <= snd s /\ snd s <= stop) l ->
  Forall2 (labelled g) (filter (flips g) l) (flat_map (fun s => sign_hit start stop g (fst s) (g (fst s)) (snd s) (g (snd s))) l).
Proof.
  induction l as [|s l IH]; intros C R; [constructor|]. inversion C as [|? ? [C1 C2] C']; subst. inversion R as [|? ? R1 R']; subst. cbn [filter flat_map]. destruct (flips g s) eqn:O.
  - destruct (flip_found start stop g s O) as (c & -> & L); try tauto. cbn [app]. constructor; auto.
  - unfold sign_hit at 1. unfold flips in O. rewrite O. now apply IH.
Qed.
Lemma labelled_sorted g l xs : StronglySorted (fun a b => snd a <= fst b) l -> Forall2 (labelled g) l xs -> StronglySorted (fun a b => ct a <= ct b) xs.
Proof.
  intros S F. induction F as [|s c l xs L F IH]; [constructor|]. apply StronglySorted_inv in S as (S & A). constructor; [now apply IH|].
  clear IH S. induction F as [|s' c' l xs L' F IH]; [constructor|]. inversion A; subst. constructor; [|now apply IH]. destruct L as ((L1 & _) & _), L' as ((L2 & _) & _). lra.
Qed.
Lemma labelled_alternate g stop step t l xs : grid stop step t l -> Forall2 (labelled g) (filter (flips g) l) xs -> alternate (qleb 0 (g t)) xs.
Proof.
  intros G. revert xs. induction G as [t H|t b l T B S G IH]; intros xs F; [inversion F; exact I|]. cbn [filter] in F. destruct (flips g (t, b)) eqn:O.
  - inversion F as [|? c ? xs' L F']; subst. destruct L as (_ & L). cbn [fst snd] in L. cbn [alternate]. specialize (IH xs' F').
    destruct L as [(L1 & L2 & ->)|(L1 & L2 & ->)]; destruct (qleb_r 0 (g t)), (qleb_r 0 (g b)); try lra; split; try reflexivity; exact IH.
  - specialize (IH xs F). unfold flips in O. cbn [fst snd] in O. assert (E : qleb 0 (g t) = qleb 0 (g b)); [|now rewrite E].
    destruct (qleb_r 0 (g t)), (qleb_r 0 (g b)); try reflexivity; rewrite (proj2 (opposite_sign_spec _ _)) in O by lra; discriminate.
Qed.

(** one crossing for each step of the scan that changes sign, refined and labelled by that change; crossings closer than 1e-8 days are merged *)
Theorem C186_found fuel p step f threshold cs sa : canon (fst p) -> canon (snd p) -> 0 < step -> find_and_label_crossings fuel p step f threshold = Some (cs, sa) ->
  let g := fun t => f t - threshold in exists l raw, grid (snd p) step (fst p) l /\
    Forall2 (labelled g) (filter (fun s => opposite_sign (g (fst s)) (g (snd s))) l) raw /\ StronglySorted (fun a b => ct a <= ct b) raw /\ alternate (qleb threshold (f (fst p))) raw /\
    incl cs raw /\ (forall c, In c raw -> exists d, In d cs /\ (c = d \/ Qabs (ct c - ct d) < dedupe_eps)) /\ (apart ct raw -> cs = raw) /\ apart ct cs /\
    sa = qltb threshold (f (fst p)).
Proof.
  intros C1 C2 S E g. unfold find_and_label_crossings in E. fold g in E. destruct (scan fuel _ _ _ _ _ _) as [raw|] eqn:Sc; [|discriminate]. injection E as <- <-.
  apply scan_spec in Sc as (G & R & Cn); auto. set (l := steps _ _ _ _) in *. exists l, raw.
  assert (F : Forall2 (labelled g) (filter (flips g) l) raw) by (rewrite R; exact (flip_list _ _ g l (Cn C1 C2) (grid_range _ _ _ _ G))).
  assert (So : StronglySorted (fun a b => ct a <= ct b) raw) by (apply (labelled_sorted g (filter (flips g) l)); [apply filter_sorted; exact (grid_chain _ _ _ _ G)|exact F]).
  destruct (sort_dedup_ok ct raw) as (A1 & A2 & A3). split; [exact G|]. split; [exact F|]. split; [exact So|]. split.
  - replace (qleb threshold (f (fst p))) with (qleb 0 (g (fst p))); [exact (labelled_alternate g _ _ _ _ _ G F)|].
    unfold g. destruct (qleb_r 0 (f (fst p) - threshold)), (qleb_r threshold (f (fst p))); try reflexivity; lra.
  - split; [exact A2|]. split; [exact A3|]. split; [intros Ap; exact (sort_dedup_id ct raw So Ap)|]. split; [exact A1|].
    unfold g. destruct (qltb_r 0 (f (fst p) - threshold)), (qltb_r threshold (f (fst p))); try reflexivity; lra.
Qed.

(** it answers as the search of intervals.rs whenever no sample stands exactly on the threshold *)
Theorem C186_same fuel p step f threshold : (forall t, fst p <= t <= snd p -> ~ f t == threshold) -> 0 < step -> fst p <= snd p ->
  find_and_label_crossings fuel p step f threshold = find_directed_crossings fuel p step f threshold.
Proof.
  intros N S W. unfold find_and_label_crossings, find_directed_crossings. set (g := fun t => f t - threshold).
  assert (E : forall n t prev, fst p <= t <= snd p -> ~ prev == 0 ->
    scan n (snd p) step g (sign_hit (fst p) (snd p) g) t prev = scan n (snd p) step g (directed_hit (fst p) (snd p) g) t prev).
  { induction n as [|n IH]; intros t prev R Z; cbn [scan]; [reflexivity|]. destruct (qltb_r t (snd p)) as [T|T]; [|reflexivity].
    assert (NT : fst p <= next_time (snd p) step t <= snd p) by (unfold next_time; destruct (qleb_r (t + step) (snd p)); [pose proof (Qred_correct (t + step)) as Rc; revert Rc; generalize (Qred (t + step)); intros z Rc; lra|lra]).
    set (nt := next_time (snd p) step t) in *. cbn zeta.
    assert (Z' : ~ g nt == 0) by (intros Q0; apply (N nt NT); unfold g in Q0; lra). rewrite (IH nt (g nt) NT Z').
    assert (H : sign_hit (fst p) (snd p) g t prev nt (g nt) = directed_hit (fst p) (snd p) g t prev nt (g nt)); [|now rewrite H].
    unfold sign_hit, directed_hit, direction, opposite_sign, same_sign, neg.
    destruct (qltb_r prev 0), (qltb_r (g nt) 0), (qltb_r 0 prev), (qltb_r 0 (g nt)); cbn; try reflexivity; exfalso; lra. }
  rewrite E; [reflexivity|lra|]. intros Q0. apply (N (fst p)); [lra|]. unfold g in Q0. lra.
Qed.
Theorem C186_ends p step f threshold fuel : 0 < step -> snd p - fst p <= inject_Z (Z.of_nat fuel) * step -> exists r, find_and_label_crossings fuel p step f threshold = Some r.
Proof.
  intros S L. unfold find_and_label_crossings. cbn zeta. match goal with |- context [scan fuel ?a ?b ?c ?d ?e ?f] => destruct (scan_ends a b c d fuel e f S L) as (r & ->) end. eexists; reflexivity.
Qed.

(** a signal that rises through the threshold exactly at a sample is found here and missed there *)
Theorem C186_sample_refuted : find_directed_crossings 5 (-(1), 1) 1 (fun t => t) 0 = Some ([], false) /\
  exists x, find_and_label_crossings 5 (-(1), 1) 1 (fun t => t) 0 = Some ([Cr x 1], false) /\ x == 0.
Proof. split; [vm_compute; reflexivity|]. exists 0. split; [vm_compute; reflexivity|reflexivity]. Qed.
(** a signal that begins on the threshold and falls is said to begin below and then to leave *)
Theorem C186_start_refuted : exists x, find_and_label_crossings 5 (0, 2) 1 (fun t => - t) 0 = Some ([Cr x (-1)], false).
Proof. exists 0. vm_compute. reflexivity. Qed.
Example C186_case : exists x y, find_and_label_crossings 9 (0, 8) 1 (fun t => (t - (5 # 2)) * ((11 # 2) - t)) 0 = Some ([Cr x 1; Cr y (-1)], false) /\ 2 < x < 3 /\ 5 < y < 6.
Proof.
  destruct (find_and_label_crossings 9 (0, 8) 1 (fun t => (t - (5 # 2)) * ((11 # 2) - t)) 0) as [(cs, sa)|] eqn:E; [|exfalso; destruct (C186_ends (0, 8) 1 (fun t => (t - (5 # 2)) * ((11 # 2) - t)) 0 9) as (r & R); [reflexivity|discriminate|congruence]].
  destruct cs as [|c [|d [|e cs]]]; vm_compute in E; try discriminate. injection E as <- <- <-. eexists. eexists. split; [reflexivity|]. repeat split; reflexivity.
Qed.
Print Assumptions C186_found.
Print Assumptions C186_same.
Print Assumptions C186_ends.
Print Assumptions C186_sample_refuted.
Print Assumptions C186_start_refuted.
