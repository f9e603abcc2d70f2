(** Lemmas about brackets around maxima. *)
From Coq Require Import List ZArith QArith Qabs Bool Lia Lqa Sorted Permutation.
From Verif Require Import Qb Sort Root_Model Cross_Model Cross_Spec Cross_Proofs Range_Proofs Ext_Model Ext_Spec Ext_Proofs Seed_Model.
Import ListNotations.
Local Open Scope Q_scope.

Lemma search_step_range r : 0 <= r -> 0 <= search_step r /\ (0 < r -> 0 < search_step r) /\ r <= 10 * search_step r.
Proof.
  intros H. unfold search_step. cbn zeta. assert (T : (1 # 10) <= tenth) by (unfold tenth; lra).
  assert (0 <= r * tenth) by (unfold tenth; lra). assert (r <= 10 * (r * tenth)) by (unfold tenth; lra).
  destruct (qltb_r (r * tenth) tiny_step); repeat split; try lra; intros; unfold tenth; lra.
Qed.
Lemma prev_time_spec start step t : start <= t -> 0 <= step -> start <= prev_time start step t <= t /\
  (prev_time start step t == t - step \/ prev_time start step t = start /\ t - step < start).
Proof.
  intros L S. unfold prev_time. destruct (qleb_r start (t - step)); [pose proof (Qred_correct (t - step)) as C; revert C; generalize (Qred (t - step)); intros z C; split; [lra|now left]|].
  split; [lra|]. right. split; [reflexivity|lra].
Qed.
Lemma next_time_spec stop step t : t <= stop -> 0 <= step -> t <= next_time stop step t <= stop /\
  (next_time stop step t == t + step \/ next_time stop step t = stop /\ stop < t + step).
Proof.
  intros L S. unfold next_time. destruct (qleb_r (t + step) stop); [pose proof (Qred_correct (t + step)) as C; revert C; generalize (Qred (t + step)); intros z C; split; [lra|now left]|].
  split; [lra|]. right. split; [reflexivity|lra].
Qed.
Definition nq (n : nat) : Q := inject_Z (Z.of_nat n).
Lemma nq_S n : nq (S n) == nq n + 1.
Proof. unfold nq. rewrite Nat2Z.inj_succ, <- Z.add_1_r, inject_Z_plus. reflexivity. Qed.

Section Search.
Variables (f : Q -> Q) (threshold : Q).
Hypothesis ext : forall a b, a == b -> f a == f b.
Let g := fun t => f t - threshold.

Lemma back_ends n : forall start step lo hi a b, start <= lo -> 0 < step -> lo - start <= nq n * step -> exists r, back_loop n start step g lo hi a b = Some r.
Proof.
  induction n as [|n IH]; intros start step lo hi a b L S W; cbn [back_loop].
  - destruct (qltb_r start lo) as [X|X]; [change (nq 0) with 0 in W; lra|]. eexists; reflexivity.
  - destruct (qltb_r start lo) as [X|X]; [|eexists; reflexivity]. destruct (opposite_sign a b); [eexists; reflexivity|]. cbn zeta.
    destruct (prev_time_spec start step lo L ltac:(lra)) as (R & C). apply IH; [lra|exact S|]. rewrite nq_S in W. assert (0 <= nq n) by (unfold nq; rewrite <- (Zle_Qle 0); lia).
    assert (0 <= nq n * step) by (apply Qmult_le_0_compat; lra). destruct C as [C|(C & _)]; rewrite C; lra.
Qed.
Lemma forth_ends n : forall stop step lo hi a b, hi <= stop -> 0 < step -> stop - hi <= nq n * step -> exists r, forth_loop n stop step g lo hi a b = Some r.
Proof.
  induction n as [|n IH]; intros stop step lo hi a b L S W; cbn [forth_loop].
  - destruct (qltb_r hi stop) as [X|X]; [change (nq 0) with 0 in W; lra|]. eexists; reflexivity.
  - destruct (qltb_r hi stop) as [X|X]; [|eexists; reflexivity]. destruct (opposite_sign a b); [eexists; reflexivity|]. cbn zeta.
    destruct (next_time_spec stop step hi L ltac:(lra)) as (R & C). apply IH; [lra|exact S|]. rewrite nq_S in W. assert (0 <= nq n) by (unfold nq; rewrite <- (Zle_Qle 0); lia).
    assert (0 <= nq n * step) by (apply Qmult_le_0_compat; lra). destruct C as [C|(C & _)]; rewrite C; lra.
Qed.
(** what a search that walks down from a point at or above the threshold finds *)
Definition found_below (start step top : Q) (r : option interval) : Prop :=
  match r with
  | Some (a, b) => start <= a < b /\ b <= top /\ f a < threshold /\ threshold <= f b /\
      exists k : nat, b == top - nq k * step /\ (a == b - step \/ a == start /\ b - step < start) /\ forall j : nat, (j <= k)%nat -> threshold <= f (top - nq j * step)
  | None => threshold <= f start
  end.
Definition found_above (stop step bottom : Q) (r : option interval) : Prop :=
  match r with
  | Some (a, b) => a < b <= stop /\ bottom <= a /\ f b < threshold /\ threshold <= f a /\
      exists k : nat, a == bottom + nq k * step /\ (b == a + step \/ b == stop /\ stop < a + step) /\ forall j : nat, (j <= k)%nat -> threshold <= f (bottom + nq j * step)
  | None => threshold <= f stop
  end.
Lemma back_spec n : forall start step top k hi r, start <= hi <= top -> 0 <= step -> hi == top - nq k * step ->
  (forall j : nat, (j <= k)%nat -> threshold <= f (top - nq j * step)) ->
  back_loop n start step g (prev_time start step hi) hi (g (prev_time start step hi)) (g hi) = Some r -> found_below start step top r.
Proof.
  assert (D : forall start step top k hi, start <= hi <= top -> 0 <= step -> hi == top - nq k * step ->
    (forall j : nat, (j <= k)%nat -> threshold <= f (top - nq j * step)) -> opposite_sign (g (prev_time start step hi)) (g hi) = true ->
    found_below start step top (Some (prev_time start step hi, hi))).
  { intros start step top k hi L S H A O. destruct (prev_time_spec start step hi ltac:(lra) S) as (R & C). apply opposite_sign_spec in O. unfold g in O.
    assert (F : threshold <= f hi) by (rewrite (ext _ _ H); apply A; lia).
    assert (G : f (prev_time start step hi) < threshold) by lra.
    assert (NE : ~ prev_time start step hi == hi) by (intros E; apply ext in E; lra).
    cbn [found_below]. repeat split; try lra; try assumption.
    exists k. split; [exact H|]. split; [|exact A]. destruct C as [C|(C & C')]; [now left|right]. rewrite C. split; [reflexivity|exact C']. }
  induction n as [|n IH]; intros start step top k hi r L S H A; cbn [back_loop]; destruct (prev_time_spec start step hi ltac:(lra) S) as (R & C);
    destruct (qltb_r start (prev_time start step hi)) as [X|X]; try discriminate.
  1,3: destruct (opposite_sign _ _) eqn:O; intros [= <-]; [now apply (D start step top k hi)|];
    cbn [found_below]; assert (E : prev_time start step hi == start) by lra; rewrite <- (ext _ _ E);
    assert (F : threshold <= f hi) by (rewrite (ext _ _ H); apply A; lia);
    destruct (Qlt_le_dec (f (prev_time start step hi)) threshold) as [Z|Z]; [|exact Z]; exfalso;
    rewrite (proj2 (opposite_sign_spec _ _)) in O; [discriminate|left; unfold g; lra].
  destruct (opposite_sign _ _) eqn:O; [intros [= <-]; now apply (D start step top k hi)|]. cbn zeta.
  assert (F : threshold <= f hi) by (rewrite (ext _ _ H); apply A; lia).
  assert (G : threshold <= f (prev_time start step hi)).
  { destruct (Qlt_le_dec (f (prev_time start step hi)) threshold) as [Z|Z]; [|exact Z]. rewrite (proj2 (opposite_sign_spec _ _)) in O; [discriminate|left; unfold g; lra]. }
  assert (E : prev_time start step hi == hi - step) by (destruct C as [C|(C & C')]; [exact C|rewrite C in X; lra]).
  assert (E' : prev_time start step hi == top - nq (Datatypes.S k) * step) by (rewrite E, H, nq_S; ring).
  apply (IH start step top (Datatypes.S k)); [lra|exact S|exact E'|].
  intros j J. destruct (Nat.eq_dec j (Datatypes.S k)) as [->|N]; [rewrite <- (ext _ _ E'); exact G|apply A; lia].
Qed.
Lemma forth_spec n : forall stop step bottom k lo r, bottom <= lo <= stop -> 0 <= step -> lo == bottom + nq k * step ->
  (forall j : nat, (j <= k)%nat -> threshold <= f (bottom + nq j * step)) ->
  forth_loop n stop step g lo (next_time stop step lo) (g lo) (g (next_time stop step lo)) = Some r -> found_above stop step bottom r.
Proof.
  assert (D : forall stop step bottom k lo, bottom <= lo <= stop -> 0 <= step -> lo == bottom + nq k * step ->
    (forall j : nat, (j <= k)%nat -> threshold <= f (bottom + nq j * step)) -> opposite_sign (g lo) (g (next_time stop step lo)) = true ->
    found_above stop step bottom (Some (lo, next_time stop step lo))).
  { intros stop step bottom k lo L S H A O. destruct (next_time_spec stop step lo ltac:(lra) S) as (R & C). apply opposite_sign_spec in O. unfold g in O.
    assert (F : threshold <= f lo) by (rewrite (ext _ _ H); apply A; lia).
    assert (G : f (next_time stop step lo) < threshold) by lra.
    assert (NE : ~ next_time stop step lo == lo) by (intros E; apply ext in E; lra).
    cbn [found_above]. repeat split; try lra; try assumption.
    exists k. split; [exact H|]. split; [|exact A]. destruct C as [C|(C & C')]; [now left|right]. rewrite C. split; [reflexivity|exact C']. }
  induction n as [|n IH]; intros stop step bottom k lo r L S H A; cbn [forth_loop]; destruct (next_time_spec stop step lo ltac:(lra) S) as (R & C);
    destruct (qltb_r (next_time stop step lo) stop) as [X|X]; try discriminate.
  1,3: destruct (opposite_sign _ _) eqn:O; intros [= <-]; [now apply (D stop step bottom k lo)|];
    cbn [found_above]; assert (E : next_time stop step lo == stop) by lra; rewrite <- (ext _ _ E);
    assert (F : threshold <= f lo) by (rewrite (ext _ _ H); apply A; lia);
    destruct (Qlt_le_dec (f (next_time stop step lo)) threshold) as [Z|Z]; [|exact Z]; exfalso;
    rewrite (proj2 (opposite_sign_spec _ _)) in O; [discriminate|right; unfold g; lra].
  destruct (opposite_sign _ _) eqn:O; [intros [= <-]; now apply (D stop step bottom k lo)|]. cbn zeta.
  assert (F : threshold <= f lo) by (rewrite (ext _ _ H); apply A; lia).
  assert (G : threshold <= f (next_time stop step lo)).
  { destruct (Qlt_le_dec (f (next_time stop step lo)) threshold) as [Z|Z]; [|exact Z]. rewrite (proj2 (opposite_sign_spec _ _)) in O; [discriminate|right; unfold g; lra]. }
  assert (E : next_time stop step lo == lo + step) by (destruct C as [C|(C & C')]; [exact C|rewrite C in X; lra]).
  assert (E' : next_time stop step lo == bottom + nq (Datatypes.S k) * step) by (rewrite E, H, nq_S; ring).
  apply (IH stop step bottom (Datatypes.S k)); [lra|exact S|exact E'|].
  intros j J. destruct (Nat.eq_dec j (Datatypes.S k)) as [->|N]; [rewrite <- (ext _ _ E'); exact G|apply A; lia].
Qed.
Lemma backward_ok fuel p r : fst p <= snd p -> threshold <= f (snd p) -> search_crossing_backward fuel p f threshold = Some r ->
  found_below (fst p) (search_step (snd p - fst p)) (snd p) r.
Proof.
  intros L T E. destruct (search_step_range (snd p - fst p) ltac:(lra)) as (S & _). unfold search_crossing_backward in E. cbn zeta in E. fold g in E.
  assert (E0 : snd p == snd p - nq 0 * search_step (snd p - fst p)) by (unfold nq; cbn [Z.of_nat]; ring).
  eapply (back_spec fuel (fst p) _ (snd p) 0 (snd p)); [lra|exact S|exact E0| |exact E].
  intros j J. assert (j = 0)%nat as -> by lia. now rewrite <- (ext _ _ E0).
Qed.
Lemma forward_ok fuel p r : fst p <= snd p -> threshold <= f (fst p) -> search_crossing_forward fuel p f threshold = Some r ->
  found_above (snd p) (search_step (snd p - fst p)) (fst p) r.
Proof.
  intros L T E. destruct (search_step_range (snd p - fst p) ltac:(lra)) as (S & _). unfold search_crossing_forward in E. cbn zeta in E. fold g in E.
  assert (E0 : fst p == fst p + nq 0 * search_step (snd p - fst p)) by (unfold nq; cbn [Z.of_nat]; ring).
  eapply (forth_spec fuel (snd p) _ (fst p) 0 (fst p)); [lra|exact S|exact E0| |exact E].
  intros j J. assert (j = 0)%nat as -> by lia. now rewrite <- (ext _ _ E0).
Qed.
End Search.
Lemma loop0_back fuel start step g lo hi a b : lo <= start -> exists r, back_loop fuel start step g lo hi a b = Some r.
Proof. intros H. destruct fuel; cbn [back_loop]; destruct (qltb_r start lo) as [X|X]; try lra; eexists; reflexivity. Qed.
Lemma loop0_forth fuel stop step g lo hi a b : stop <= hi -> exists r, forth_loop fuel stop step g lo hi a b = Some r.
Proof. intros H. destruct fuel; cbn [forth_loop]; destruct (qltb_r hi stop) as [X|X]; try lra; eexists; reflexivity. Qed.
Lemma nq_ge n : (10 <= n)%nat -> 10 <= nq n.
Proof. intros H. unfold nq. change 10 with (inject_Z 10). rewrite <- Zle_Qle. lia. Qed.
Lemma backward_ends fuel p f threshold : (10 <= fuel)%nat -> fst p <= snd p -> exists r, search_crossing_backward fuel p f threshold = Some r.
Proof.
  intros N L. destruct (search_step_range (snd p - fst p) ltac:(lra)) as (S & S' & W). unfold search_crossing_backward. cbn zeta.
  destruct (prev_time_spec (fst p) (search_step (snd p - fst p)) (snd p) L S) as (R & C).
  destruct (Qlt_le_dec (fst p) (snd p)) as [Lt|Ge]; [|apply loop0_back; lra].
  apply back_ends; [lra|apply S'; lra|]. specialize (S' ltac:(lra)). pose proof (nq_ge fuel N) as NG.
  assert (10 * search_step (snd p - fst p) <= nq fuel * search_step (snd p - fst p)) by (apply Qmult_le_compat_r; lra). lra.
Qed.
Lemma forward_ends fuel p f threshold : (10 <= fuel)%nat -> fst p <= snd p -> exists r, search_crossing_forward fuel p f threshold = Some r.
Proof.
  intros N L. destruct (search_step_range (snd p - fst p) ltac:(lra)) as (S & S' & W). unfold search_crossing_forward. cbn zeta.
  destruct (next_time_spec (snd p) (search_step (snd p - fst p)) (fst p) L S) as (R & C).
  destruct (Qlt_le_dec (fst p) (snd p)) as [Lt|Ge]; [|apply loop0_forth; lra].
  apply forth_ends; [lra|apply S'; lra|]. specialize (S' ltac:(lra)). pose proof (nq_ge fuel N) as NG.
  assert (10 * search_step (snd p - fst p) <= nq fuel * search_step (snd p - fst p)) by (apply Qmult_le_compat_r; lra). lra.
Qed.
Lemma extrema_inside fuel p step f l e : find_extrema fuel p step f = Some l -> In e l -> fst p <= et e <= snd p /\ ev e = f (et e).
Proof.
  intros E I. destruct (Qlt_le_dec 0 step) as [S|S]; [|unfold find_extrema in E; rewrite extrema_empty in E by (left; lra); injection E as <-; destruct I].
  destruct (Qlt_le_dec (fst p) (snd p)) as [W|W]; [|unfold find_extrema in E; rewrite extrema_empty in E by (right; lra); injection E as <-; destruct I].
  destruct (extrema_ok _ _ _ _ _ _ W S E) as (gr & xs & G & F & P & _). apply (Permutation_in _ P) in I.
  pose proof (fun w => turns_window f _ _ _ _ w G) as Tw. clear - F I Tw. induction F as [|w x ws xs' Sx F IH]; [destruct I|]. destruct I as [->|I].
  - destruct Sx as (_ & V & (A & B) & _). destruct (Tw w (or_introl eq_refl)). split; [lra|exact V].
  - apply IH; [exact I|]. intros w' I'. apply Tw. now right.
Qed.
Lemma dedup_from_in kept l x : In x (dedup_brackets_from kept l) -> x = kept \/ In x l.
Proof.
  revert kept. induction l as [|y t IH]; intros kept; cbn [dedup_brackets_from]; [intros [->|[]]; now left|].
  destruct (close y kept); [intros H; apply IH in H as [H|H]; [now left|right; now right]|]. intros [->|H]; [now left|]. apply IH in H as [->|H]; right; [now left|now right].
Qed.
Lemma dedup_in l x : In x (dedup_brackets l) -> In x l.
Proof. destruct l as [|y t]; [intros []|]. intros H. apply dedup_from_in in H as [->|H]; [now left|now right]. Qed.
Lemma dedup_from_kept kept l x : x = kept \/ In x l -> exists y, In y (dedup_brackets_from kept l) /\ (y = x \/ close x y = true).
Proof.
  revert kept x. induction l as [|y t IH]; intros kept x; cbn [dedup_brackets_from].
  - intros [->|[]]. exists kept. split; [now left|now left].
  - destruct (close y kept) eqn:C.
    + intros [->|[->|H]]; [apply IH; now left| |apply IH; now right].
      destruct (IH kept kept (or_introl eq_refl)) as (z & Z & [->|Z']); [exists kept; split; [exact Z|now right]|].
      clear IH Z'. exists kept. split; [clear - t; revert kept; induction t as [|u t IH]; intros kept; cbn [dedup_brackets_from]; [now left|]; destruct (close u kept); [apply IH|now left]|now right].
    + intros [->|H]; [exists kept; split; [now left|now left]|]. destruct (IH y x) as (z & Z & Z'); [destruct H as [->|H]; [now left|now right]|]. exists z. split; [now right|exact Z'].
Qed.
Lemma dedup_kept l x : In x l -> exists y, In y (dedup_brackets l) /\ (y = x \/ close x y = true).
Proof. destruct l as [|y t]; [intros []|]. intros [->|H]; apply dedup_from_kept; [now left|now right]. Qed.
Lemma dedup_from_sorted kept l : StronglySorted (fun a b : interval => fst a <= fst b) (kept :: l) -> StronglySorted (fun a b : interval => fst a <= fst b) (dedup_brackets_from kept l).
Proof.
  revert kept. induction l as [|y t IH]; intros kept H; cbn [dedup_brackets_from]; [exact H|]. apply StronglySorted_inv in H as (H & F). destruct (close y kept).
  - apply IH. constructor; [now apply StronglySorted_inv in H|now inversion F].
  - constructor; [now apply IH|]. rewrite Forall_forall in *. intros x I. apply F. apply dedup_from_in in I as [->|I]; [now left|now right].
Qed.
