(** C184: brackets around the maxima of a function. *)
From Coq Require Import List ZArith QArith Qabs Bool Lia Lqa Sorted Permutation.
From Verif Require Import Qb Sort Root_Model Cross_Model Ext_Model Ext_Spec Ext_Proofs Ext_Props Seed_Model Seed_Proofs.
Import ListNotations.
Local Open Scope Q_scope.

Lemma around_in fuel p f threshold l raw b : around_extrema fuel p f threshold l = Some raw -> In b raw ->
  exists e, In e l /\ ek e = Maximum /\ threshold < ev e /\
    (search_crossing_backward fuel (fst p, et e) f threshold = Some (Some b) \/ search_crossing_forward fuel (et e, snd p) f threshold = Some (Some b)).
Proof.
  revert raw. induction l as [|e l IH]; intros raw; cbn [around_extrema]; [intros [= <-] []|].
  destruct (around_extrema fuel p f threshold l) as [r|]; [|discriminate].
  assert (K : In b r -> exists e', In e' (e :: l) /\ ek e' = Maximum /\ threshold < ev e' /\
    (search_crossing_backward fuel (fst p, et e') f threshold = Some (Some b) \/ search_crossing_forward fuel (et e', snd p) f threshold = Some (Some b))).
  { intros I. destruct (IH r eq_refl I) as (e' & I' & R). exists e'. split; [now right|exact R]. }
  destruct (ek e) eqn:Ek; [|now intros [= <-]]. destruct (qltb_r threshold (ev e)) as [T|T]; [|now intros [= <-]].
  destruct (search_crossing_backward _ _ _ _) as [x|] eqn:B; [|discriminate]. destruct (search_crossing_forward _ _ _ _) as [y|] eqn:F; [|discriminate].
  intros [= <-] I. apply in_app_or in I as [I|I]; [|apply in_app_or in I as [I|I]; [|now apply K]]; exists e; (split; [now left|]; split; [exact Ek|]; split; [exact T|]).
  - left. rewrite B. destruct x; [destruct I as [->|[]]; reflexivity|destruct I].
  - right. rewrite F. destruct y; [destruct I as [->|[]]; reflexivity|destruct I].
Qed.
Lemma around_all fuel p f threshold l raw e : around_extrema fuel p f threshold l = Some raw -> In e l -> ek e = Maximum -> threshold < ev e ->
  exists x y, search_crossing_backward fuel (fst p, et e) f threshold = Some x /\ search_crossing_forward fuel (et e, snd p) f threshold = Some y /\
    (forall b, x = Some b \/ y = Some b -> In b raw).
Proof.
  revert raw. induction l as [|e' l IH]; intros raw; cbn [around_extrema]; [intros _ []|].
  destruct (around_extrema fuel p f threshold l) as [r|] eqn:A; [|discriminate]. intros H [->|I] Ek T.
  - rewrite Ek in H. destruct (qltb_r threshold (ev e)) as [_|N]; [|lra].
    destruct (search_crossing_backward _ _ _ _) as [x|]; [|discriminate]. destruct (search_crossing_forward _ _ _ _) as [y|]; [|discriminate]. injection H as <-.
    exists x, y. split; [reflexivity|]. split; [reflexivity|]. intros b [->| ->]; [now left|]. apply in_or_app. right. now left.
  - destruct (IH r eq_refl I Ek T) as (x & y & B & F & K). exists x, y. split; [exact B|]. split; [exact F|]. intros b D. specialize (K b D).
    destruct (ek e'); [|now injection H as <-]. destruct (qltb threshold (ev e')); [|now injection H as <-].
    destruct (search_crossing_backward fuel (fst p, et e') f threshold) as [u|]; [|discriminate]. destruct (search_crossing_forward fuel (et e', snd p) f threshold) as [v|]; [|discriminate].
    injection H as <-. apply in_or_app. right. apply in_or_app. now right.
Qed.

(** every bracket lies in the window and holds a crossing: a rise that ends at or before some maximum above the threshold, or a set that begins at or after one *)
Theorem C184_brackets fuel p step f threshold bs a b : (forall s t, s == t -> f s == f t) -> extrema_based_brackets fuel p step f threshold = Some bs -> In (a, b) bs ->
  fst p <= a /\ a < b /\ b <= snd p /\ exists l e, find_extrema fuel p step f = Some l /\ In e l /\ ek e = Maximum /\ threshold < f (et e) /\
    ((b <= et e /\ f a < threshold <= f b) \/ (et e <= a /\ f b < threshold <= f a)).
Proof.
  intros X E I. unfold extrema_based_brackets, brackets_of_extrema in E. destruct (find_extrema fuel p step f) as [l|] eqn:L; [|discriminate].
  destruct (around_extrema fuel p f threshold l) as [raw|] eqn:A; [|discriminate]. injection E as <-. apply dedup_in, isort_in in I.
  destruct (around_in _ _ _ _ _ _ _ A I) as (e & Ie & Ek & T & B). destruct (extrema_inside _ _ _ _ _ _ L Ie) as (W & V). rewrite V in T.
  destruct B as [B|B].
  - apply backward_ok in B; [|exact X|cbn [fst snd]; lra|cbn [snd]; lra]. cbn [found_below fst snd] in B. destruct B as ((B1 & B2) & B3 & B4 & B5 & _).
    repeat split; try lra. exists l, e. repeat split; try assumption. left. repeat split; assumption.
  - apply forward_ok in B; [|exact X|cbn [fst snd]; lra|cbn [fst]; lra]. cbn [found_above fst snd] in B. destruct B as ((B1 & B2) & B3 & B4 & B5 & _).
    repeat split; try lra. exists l, e. repeat split; try assumption. right. repeat split; assumption.
Qed.

(** a window that begins, or ends, below the threshold has a bracket on that side of every maximum above it, to within 1e-8 days *)
Theorem C184_found fuel p step f threshold l bs e : (forall s t, s == t -> f s == f t) -> find_extrema fuel p step f = Some l -> extrema_based_brackets fuel p step f threshold = Some bs ->
  In e l -> ek e = Maximum -> threshold < f (et e) ->
  (f (fst p) < threshold -> exists a b a' b', b <= et e /\ f a < threshold <= f b /\ In (a', b') bs /\ Qabs (a - a') < 1 # 99999999 /\ Qabs (b - b') < 1 # 99999999) /\
  (f (snd p) < threshold -> exists a b a' b', et e <= a /\ f b < threshold <= f a /\ In (a', b') bs /\ Qabs (a - a') < 1 # 99999999 /\ Qabs (b - b') < 1 # 99999999).
Proof.
  intros X L E Ie Ek T. unfold extrema_based_brackets, brackets_of_extrema in E. rewrite L in E. destruct (around_extrema fuel p f threshold l) as [raw|] eqn:A; [|discriminate]. injection E as <-.
  destruct (extrema_inside _ _ _ _ _ _ L Ie) as (W & V). destruct (around_all _ _ _ _ _ _ e A Ie Ek ltac:(rewrite V; exact T)) as (x & y & B & F & K).
  assert (D : forall a b, In (a, b) raw -> exists a' b', In (a', b') (dedup_brackets (isort (fun a b => qleb (fst a) (fst b)) raw)) /\ Qabs (a - a') < 1 # 99999999 /\ Qabs (b - b') < 1 # 99999999).
  { intros a b I. apply (isort_in (fun a b : interval => qleb (fst a) (fst b))) in I. apply dedup_kept in I as ((a', b') & I & C). exists a', b'. split; [exact I|].
    destruct C as [[= -> ->]|C].
    - split; [setoid_replace (a - a) with 0 by ring|setoid_replace (b - b) with 0 by ring]; reflexivity.
    - unfold close in C. cbn [fst snd] in C. apply andb_true_iff in C as (C1 & C2). apply qltb_true in C1, C2.
      assert (Z : dedupe_eps < 1 # 99999999) by reflexivity. split; eapply Qlt_trans; eassumption. }
  split; intros S.
  - apply backward_ok in B; [|exact X|cbn [fst snd]; lra|cbn [snd]; lra]. destruct x as [(a, b)|]; cbn [found_below fst snd] in B; [|lra].
    destruct (D a b (K _ (or_introl eq_refl))) as (a' & b' & I & C). destruct B as ((B1 & B2) & B3 & B4 & B5 & _). exists a, b, a', b'. repeat split; tauto.
  - apply forward_ok in F; [|exact X|cbn [fst snd]; lra|cbn [fst]; lra]. destruct y as [(a, b)|]; cbn [found_above fst snd] in F; [|lra].
    destruct (D a b (K _ (or_intror eq_refl))) as (a' & b' & I & C). destruct F as ((B1 & B2) & B3 & B4 & B5 & _). exists a, b, a', b'. repeat split; tauto.
Qed.

(** each search takes the first change of sign met on steps of about a tenth of its range, walking away from where it begins *)
Theorem C184_nearest fuel p f threshold r : (forall s t, s == t -> f s == f t) -> fst p < snd p ->
  exists step, (snd p - fst p) * (1 # 10) <= step <= (snd p - fst p) * (1 # 2) /\
  (threshold <= f (snd p) -> search_crossing_backward fuel p f threshold = Some r ->
    match r with
    | Some (a, b) => f a < threshold /\ exists k : nat, b == snd p - inject_Z (Z.of_nat k) * step /\ (a == b - step \/ a == fst p /\ b - step < fst p) /\
        forall j : nat, (j <= k)%nat -> threshold <= f (snd p - inject_Z (Z.of_nat j) * step)
    | None => threshold <= f (fst p)
    end) /\
  (threshold <= f (fst p) -> search_crossing_forward fuel p f threshold = Some r ->
    match r with
    | Some (a, b) => f b < threshold /\ exists k : nat, a == fst p + inject_Z (Z.of_nat k) * step /\ (b == a + step \/ b == snd p /\ snd p < a + step) /\
        forall j : nat, (j <= k)%nat -> threshold <= f (fst p + inject_Z (Z.of_nat j) * step)
    | None => threshold <= f (snd p)
    end).
Proof.
  intros X W. exists (search_step (snd p - fst p)). split; [|split; intros T E].
  - unfold search_step. cbn zeta. unfold tenth. match goal with |- context [qltb ?x tiny_step] => destruct (qltb_r x tiny_step) end; lra.
  - apply backward_ok in E; [|exact X|lra|exact T]. destruct r as [(a, b)|]; cbn [found_below] in E; [|exact E]. destruct E as (_ & _ & E1 & _ & E2). split; [exact E1|exact E2].
  - apply forward_ok in E; [|exact X|lra|exact T]. destruct r as [(a, b)|]; cbn [found_above] in E; [|exact E]. destruct E as (_ & _ & E1 & _ & E2). split; [exact E1|exact E2].
Qed.

Lemma ordered_sorted (z : list interval) : ordered (fun a b : interval => qleb (fst a) (fst b)) z -> StronglySorted (fun a b : interval => fst a <= fst b) z.
Proof. intros O. induction O as [|x t O IH F]; constructor; [exact IH|]. rewrite Forall_forall in *. intros y I. now apply qleb_true, F. Qed.
Theorem C184_sorted fuel p step f threshold bs : extrema_based_brackets fuel p step f threshold = Some bs -> StronglySorted (fun a b => fst a <= fst b) bs.
Proof.
  unfold extrema_based_brackets, brackets_of_extrema. destruct (find_extrema _ _ _ _) as [l|]; [|discriminate]. destruct (around_extrema _ _ _ _ _) as [raw|]; [|discriminate]. intros [= <-].
  assert (S : StronglySorted (fun a b : interval => fst a <= fst b) (isort (fun a b => qleb (fst a) (fst b)) raw)).
  { assert (O : ordered (fun a b : interval => qleb (fst a) (fst b)) (isort (fun a b : interval => qleb (fst a) (fst b)) raw)).
    { apply isort_ordered; [intros a b; destruct (qleb_r (fst a) (fst b)), (qleb_r (fst b) (fst a)); auto; lra|].
      intros a b c H K. apply qleb_true in H, K. apply qleb_true. lra. }
    exact (ordered_sorted _ O). }
  revert S. match goal with |- context [dedup_brackets ?z] => generalize z end. intros z S. destruct z as [|x t]; [constructor|]. now apply dedup_from_sorted.
Qed.

(** it always ends *)
Theorem C184_ends p step f threshold k : 0 < step -> snd p - fst p <= inject_Z (Z.of_nat k) * step -> (10 <= k)%nat -> exists bs, extrema_based_brackets (S k) p step f threshold = Some bs.
Proof.
  intros Sp W K. unfold extrema_based_brackets, brackets_of_extrema. destruct (C38_ends k p step f ext_tol W) as (l & L). change (find_extrema (S k) p step f) with (find_extrema_tol (S k) p step f ext_tol). rewrite L.
  assert (A : exists raw, around_extrema (S k) p f threshold l = Some raw).
  { assert (H : forall e, In e l -> fst p <= et e <= snd p) by (intros e I; now apply (extrema_inside (S k) p step f l e L) in I).
    clear L. induction l as [|e l IH]; cbn [around_extrema]; [eexists; reflexivity|]. destruct IH as (r & ->); [intros e' I; apply H; now right|].
    destruct (ek e); [|eexists; reflexivity]. destruct (qltb threshold (ev e)); [|eexists; reflexivity]. specialize (H e (or_introl eq_refl)).
    destruct (backward_ends (S k) (fst p, et e) f threshold ltac:(lia) ltac:(cbn [fst snd]; lra)) as (x & ->).
    destruct (forward_ends (S k) (et e, snd p) f threshold ltac:(lia) ltac:(cbn [fst snd]; lra)) as (y & ->). eexists; reflexivity. }
  destruct A as (raw & ->). eexists; reflexivity.
Qed.

(** two passes above the threshold 0, from 0.8 to 1.2 and from 1.7 to 2.1 *)
Definition hat (c t : Q) : Q := 1 - 5 * Qabs (t - c).
Definition two_passes (t : Q) : Q := if qltb (hat 1 t) (hat (19 # 10) t) then hat (19 # 10) t else hat 1 t.
Definition the_brackets : list interval := match brackets_of_extrema 20 (0, 10) two_passes 0 [Ext 1 1 Maximum; Ext (19 # 10) 1 Maximum] with Some bs => bs | None => [] end.
(** with both maxima given exactly, the end of the first pass stands in no bracket, and the end of the second is in two overlapping ones *)
Theorem C184_missed_refuted : exists bs, brackets_of_extrema 20 (0, 10) two_passes 0 [Ext 1 1 Maximum; Ext (19 # 10) 1 Maximum] = Some bs /\
  two_passes 1 == 1 /\ two_passes (6 # 5) == 0 /\ two_passes (13 # 10) == - (1 # 2) /\ two_passes (19 # 10) == 1 /\ (forall a b, In (a, b) bs -> ~ (a <= 6 # 5 <= b)) /\
  exists a b a' b', In (a, b) bs /\ In (a', b') bs /\ a <= 21 # 10 <= b /\ a' <= 21 # 10 <= b' /\ b < b'.
Proof.
  assert (E : brackets_of_extrema 20 (0, 10) two_passes 0 [Ext 1 1 Maximum; Ext (19 # 10) 1 Maximum] = Some the_brackets) by (vm_compute; reflexivity).
  exists the_brackets. split; [exact E|]. split; [vm_compute; reflexivity|]. split; [vm_compute; reflexivity|]. split; [vm_compute; reflexivity|]. split; [vm_compute; reflexivity|]. split.
  - intros a b I (L & R). assert (F : forallb (fun x => qltb (snd x) (6 # 5) || qltb (6 # 5) (fst x)) the_brackets = true) by (vm_compute; reflexivity).
    rewrite forallb_forall in F. specialize (F _ I). cbn [fst snd] in F. apply orb_true_iff in F as [F|F]; apply qltb_true in F; lra.
  - assert (F : existsb (fun x => existsb (fun y => qleb (fst x) (21 # 10) && qleb (21 # 10) (snd x) && qleb (fst y) (21 # 10) && qleb (21 # 10) (snd y) && qltb (snd x) (snd y)) the_brackets) the_brackets = true) by (vm_compute; reflexivity).
    apply existsb_exists in F as ((a, b) & I & F). apply existsb_exists in F as ((a', b') & I' & F). cbn [fst snd] in F.
    repeat (apply andb_true_iff in F as (F & ?)). exists a, b, a', b'.
    repeat match goal with H : qleb _ _ = true |- _ => apply qleb_true in H | H : qltb _ _ = true |- _ => apply qltb_true in H end. split; [exact I|]. split; [exact I'|]. repeat split; assumption.
Qed.

(** one pass: both sides of it are found *)
Lemma hat_ext c s t : s == t -> hat c s == hat c t.
Proof. intros H. unfold hat. now rewrite H. Qed.
Lemma hat_peak : extreme Maximum (hat 1) (0, 2) 1.
Proof.
  cbn [extreme]. unfold peak, valley, Cross_Spec.inside. cbn [fst snd]. split; [lra|]. split; intros x y A B C; unfold hat.
  - rewrite (Qabs_neg (y - 1)), (Qabs_neg (x - 1)) by lra. lra.
  - rewrite (Qabs_pos (y - 1)), (Qabs_pos (x - 1)) by lra. lra.
Qed.
Lemma one_pass fuel bs : extrema_based_brackets fuel (0, 2) (3 # 10) (hat 1) 0 = Some bs ->
  (exists a b, In (a, b) bs /\ a < 81 # 100) /\ (exists a b, In (a, b) bs /\ 119 # 100 < b).
Proof.
  intros E.
  destruct (find_extrema fuel (0, 2) (3 # 10) (hat 1)) as [l|] eqn:L; [|unfold extrema_based_brackets in E; rewrite L in E; discriminate].
  assert (T0 : ext_tol / 2 <= 1 # 1000) by (unfold ext_tol; discriminate).
  destruct (C38_single fuel (0, 2) (3 # 10) (hat 1) ext_tol l Maximum 1) as (e & -> & Ek & Ev & In_ & D); [reflexivity|reflexivity|unfold ext_tol; discriminate|exact hat_peak|discriminate|discriminate|exact L|].
  assert (T : 0 < hat 1 (et e)) by (unfold hat; lra).
  destruct (C184_found fuel (0, 2) (3 # 10) (hat 1) 0 [e] bs e (hat_ext 1) L E (or_introl eq_refl) Ek T) as (R & S). cbn [fst snd] in R, S.
  assert (B : forall u v, Qabs (u - v) < 1 # 99999999 -> u - (1 # 99999999) < v < u + (1 # 99999999)) by (intros u v H; apply Qabs_Qlt_condition in H; lra).
  assert (De : 1 - (1 # 1000) <= et e <= 1 + (1 # 1000)) by (assert (H : Qabs (et e - 1) <= 1 # 1000) by lra; apply Qabs_Qle_condition in H; lra).
  split.
  - destruct R as (a & b & a' & b' & H1 & (H2 & _) & I & H3 & H4); [reflexivity|]. exists a', b'. split; [exact I|]. apply B in H3, H4.
    destruct (C184_brackets fuel (0, 2) (3 # 10) (hat 1) 0 bs a' b' (hat_ext 1) E I) as (G1 & G2 & G3 & _). unfold hat in H2.
    destruct (Qlt_le_dec a (805 # 1000)) as [Z|Z]; [lra|]. exfalso. assert (a < 1 + (1 # 100)) by lra. assert (Qabs (a - 1) <= 2 # 10) by (apply Qabs_Qle_condition; lra). lra.
  - destruct S as (a & b & a' & b' & H1 & (H2 & _) & I & H3 & H4); [reflexivity|]. exists a', b'. split; [exact I|]. apply B in H3, H4.
    destruct (C184_brackets fuel (0, 2) (3 # 10) (hat 1) 0 bs a' b' (hat_ext 1) E I) as (G1 & G2 & G3 & _). unfold hat in H2.
    destruct (Qlt_le_dec (1195 # 1000) b) as [Z|Z]; [lra|]. exfalso. assert (1 - (1 # 100) < b) by lra. assert (Qabs (b - 1) <= 2 # 10) by (apply Qabs_Qle_condition; lra). lra.
Qed.
Example C184_case : exists bs, extrema_based_brackets 30 (0, 2) (3 # 10) (hat 1) 0 = Some bs /\ hat 1 0 < 0 /\ hat 1 2 < 0 /\
  (exists a b, In (a, b) bs /\ a < 81 # 100) /\ (exists a b, In (a, b) bs /\ 119 # 100 < b).
Proof.
  destruct (C184_ends (0, 2) (3 # 10) (hat 1) 0 29) as (bs & E); [reflexivity|discriminate|lia|]. exists bs. split; [exact E|]. split; [reflexivity|]. split; [reflexivity|]. exact (one_pass 30 bs E).
Qed.
Print Assumptions C184_brackets.
Print Assumptions C184_found.
Print Assumptions C184_nearest.
Print Assumptions C184_sorted.
Print Assumptions C184_ends.
Print Assumptions C184_missed_refuted.
