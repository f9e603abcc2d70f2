From Coq Require Import Ascii String List NArith ZArith QArith Bool Lia Lqa Sorted Qfield.
From Coq Require Import ZifyBool ZifyNat ZifyN.
From Verif Require Import Base Text DecFloat Sort Fnum Omm_Model Tk_Model Sclk_Model Sclk_Spec.
Import ListNotations.
Local Open Scope list_scope.
Local Open Scope Q_scope.
Local Open Scope outcome_scope.

Lemma qltb_spec a b : reflect (a < b) (qltb a b).
Proof.
  unfold qltb. destruct (Qle_bool b a) eqn:E; cbn; constructor.
  - apply Qle_bool_iff in E. lra.
  - destruct (Qlt_le_dec a b) as [H|H]; [assumption|]. apply Qle_bool_iff in H. congruence.
Qed.
Lemma qleb_spec a b : reflect (a <= b) (Qle_bool a b).
Proof.
  destruct (Qle_bool a b) eqn:E; constructor; [now apply Qle_bool_iff|]. intros H. apply Qle_bool_iff in H. congruence.
Qed.

Lemma last_default {A} (l : list A) d d' : l <> [] -> last l d = last l d'.
Proof.
  induction l as [|x [|y t] IH]; intros H; [congruence|reflexivity|]. change (last (y :: t) d = last (y :: t) d'). apply IH. discriminate.
Qed.
Section Select.
  Variable key : coeff -> Q.
  Definition ascending (l : list coeff) := StronglySorted (fun c n => key c < key n) l.

  Lemma bracket_some l x c : bracket key l x = Some c -> ascending l -> in_force key l x c.
  Proof.
    induction l as [|d [|n t] IH]; cbn [bracket]; try discriminate. intros H A. apply StronglySorted_inv in A as [A D].
    destruct (qleb_spec (key d) x); cbn [andb] in H.
    - destruct (qltb_spec x (key n)); cbn [andb] in H.
      + injection H as <-. split; [now left|]. split; [assumption|]. intros m [<-|M]; [left; lra|]. right.
        apply StronglySorted_inv in A as [_ B]. destruct M as [<-|M]; [assumption|]. rewrite Forall_forall in B. specialize (B _ M). lra.
      + destruct (IH H A) as (I & L & F). split; [now right|]. split; [assumption|]. intros m [<-|M]; [|auto]. left. rewrite Forall_forall in D. specialize (D _ I). lra.
    - destruct (IH H A) as (I & L & F). exfalso. rewrite Forall_forall in D. specialize (D _ I). lra.
  Qed.
  Lemma bracket_none l x d : bracket key (d :: l) x = None -> ascending (d :: l) -> key d <= x -> in_force key (d :: l) x (last (d :: l) d).
  Proof.
    revert d. induction l as [|n t IH]; intros d H A L.
    - split; [now left|]. split; [assumption|]. intros m [<-|[]]. left. cbn. lra.
    - cbn [bracket] in H. apply StronglySorted_inv in A as [A D]. destruct (qleb_spec (key d) x); [|contradiction]. cbn [andb] in H.
      destruct (qltb_spec x (key n)); [discriminate|]. destruct (IH n H A) as (I & L' & F); [lra|].
      replace (last (d :: n :: t) d) with (last (n :: t) n).
      2:{ change (last (d :: n :: t) d) with (last (n :: t) d). now apply last_default. }
      split; [now right|]. split; [assumption|]. intros m [<-|M]; [|auto]. left. rewrite Forall_forall in D. specialize (D _ I). lra.
  Qed.
  Lemma asc_unique l c d : ascending l -> In c l -> In d l -> key c == key d -> c = d.
  Proof.
    induction 1 as [|x l A IH D]; intros I J E; [contradiction|]. rewrite Forall_forall in D.
    destruct I as [<-|I], J as [<-|J]; auto; [specialize (D _ J)|specialize (D _ I)]; exfalso; lra.
  Qed.
  Lemma in_force_unique l x c d : ascending l -> in_force key l x c -> in_force key l x d -> c = d.
  Proof.
    intros A (I & L & F) (J & M & G). apply (asc_unique l); auto. destruct (F d J), (G c I); lra.
  Qed.
  Theorem select l x c : ascending l -> (partition_for key l x = Ok c <-> in_force key l x c).
  Proof.
    intros A. assert (S : forall c, partition_for key l x = Ok c -> in_force key l x c).
    { intros e. unfold partition_for. destruct l as [|d l]; [discriminate|]. destruct (qltb_spec x (key d)); [discriminate|].
      destruct (bracket key (d :: l) x) eqn:B.
      - intros E. injection E as <-. now apply bracket_some.
      - intros E. injection E as <-. apply bracket_none; auto. lra. }
    split; [apply S|]. intros F. destruct (partition_for key l x) as [e|e|] eqn:P.
    - f_equal. apply (in_force_unique l x); auto.
    - exfalso. unfold partition_for in P. destruct l as [|d l]; [now destruct F|]. destruct (qltb_spec x (key d)).
      + destruct F as ([<-|I] & L & _); [lra|]. apply StronglySorted_inv in A as [_ D]. rewrite Forall_forall in D. specialize (D _ I). lra.
      + destruct (bracket key (d :: l) x); discriminate.
    - exfalso. unfold partition_for in P. destruct l as [|d l]; [discriminate|]. destruct (qltb x (key d)); [discriminate|]. destruct (bracket key (d :: l) x); discriminate.
  Qed.
  Theorem select_before d l x : (partition_for key (d :: l) x = Err SBefore <-> x < key d).
  Proof.
    unfold partition_for. destruct (qltb_spec x (key d)); split; auto; [|contradiction]. destruct (bracket key (d :: l) x); discriminate.
  Qed.
  Theorem select_ok d l x : key d <= x -> exists c, partition_for key (d :: l) x = Ok c.
  Proof. intros H. unfold partition_for. destruct (qltb_spec x (key d)); [lra|]. destruct (bracket key (d :: l) x); eauto. Qed.
End Select.

Lemma growing_asc l : growing l -> ascending c_et l /\ ascending c_ticks l.
Proof.
  intros [G _]. split; induction G as [|c l G IH H]; constructor; auto; (eapply Forall_impl; [|exact H]); cbn; intros n [? ?]; assumption.
Qed.
Lemma next_or_last key l c : ascending key l -> In c l ->
  (forall n, In n l -> key n <= key c) \/ exists n, follows l c n /\ In n l /\ key c < key n /\ forall m, In m l -> key m <= key c \/ key n <= key m.
Proof.
  induction 1 as [|x l A IH D]; intros I; [contradiction|]. rewrite Forall_forall in D. destruct I as [<-|I].
  - destruct l as [|n t]; [left; intros n [<-|[]]; lra|]. right. exists n. split; [exists [], t; reflexivity|]. split; [right; now left|]. split; [apply D; now left|].
    intros m [<-|[<-|M]]; [left; lra|right; lra|right]. apply StronglySorted_inv in A as [_ B]. rewrite Forall_forall in B. specialize (B _ M). lra.
  - destruct (IH I) as [H|(n & (a & b & ->) & J & K & H)].
    + left. intros n [<-|N]; [specialize (D _ I); lra|auto].
    + right. exists n. split; [exists (x :: a), b; reflexivity|]. split; [now right|]. split; [assumption|]. intros m [<-|M]; [left; specialize (D _ I); lra|auto].
Qed.

Lemma follows_in l c n : follows l c n -> In c l /\ In n l.
Proof. intros (a & b & ->). split; apply in_app_iff; right; [left|right; left]; reflexivity. Qed.
Lemma key_order l c d : growing l -> In c l -> In d l -> c_et c <= c_et d -> c_ticks c <= c_ticks d.
Proof.
  intros [G _]. induction G as [|x l G IH D]; intros I J H; [contradiction|]. rewrite Forall_forall in D.
  destruct I as [<-|I], J as [<-|J]; auto; [lra|specialize (D _ J); lra|specialize (D _ I); lra].
Qed.
Lemma key_order' l c d : growing l -> In c l -> In d l -> c_ticks c <= c_ticks d -> c_et c <= c_et d.
Proof.
  intros [G _]. induction G as [|x l G IH D]; intros I J H; [contradiction|]. rewrite Forall_forall in D.
  destruct I as [<-|I], J as [<-|J]; auto; [lra|specialize (D _ J); lra|specialize (D _ I); lra].
Qed.

Lemma ticks_in_force l et c : growing l -> no_overlap l -> in_force c_et l et c ->
  in_force c_ticks l (c_ticks c + (et - c_et c) * c_rate c) c.
Proof.
  intros G O (I & L & F). assert (R : 0 < c_rate c) by (destruct G as [_ G]; rewrite Forall_forall in G; auto).
  split; [assumption|]. split; [nra|]. intros m M. destruct (F m M) as [K|K]; [left; now apply (key_order l)|right].
  destruct (next_or_last c_et l c) as [N|(n & N & J & C & H)]; [apply growing_asc, G|assumption| |].
  - specialize (N m M). lra.
  - destruct (H m M) as [W|W]; [lra|]. specialize (O c n N). unfold reach in O. pose proof (key_order l n m G J M W).
    destruct (F n J) as [X|X]; [lra|]. nra.
Qed.
Lemma et_in_force l s c : growing l -> no_gap l -> in_force c_ticks l s c ->
  in_force c_et l (c_et c + (s - c_ticks c) / c_rate c) c.
Proof.
  intros G O (I & L & F). assert (R : 0 < c_rate c) by (destruct G as [_ G]; rewrite Forall_forall in G; auto).
  set (y := (s - c_ticks c) / c_rate c). assert (Y : y * c_rate c == s - c_ticks c) by (unfold y; field; lra). clearbody y.
  split; [assumption|]. split; [nra|]. intros m M. destruct (F m M) as [K|K]; [left; now apply (key_order' l)|right].
  destruct (next_or_last c_ticks l c) as [N|(n & N & J & C & H)]; [apply growing_asc, G|assumption| |].
  - specialize (N m M). lra.
  - destruct (H m M) as [W|W]; [lra|]. specialize (O c n N). unfold reach in O. pose proof (key_order' l n m G J M W).
    destruct (F n J) as [X|X]; [lra|]. nra.
Qed.

Theorem there_and_back k et s : growing (coefficients k) -> no_overlap (coefficients k) -> et_to_sclkdp k et = Ok s ->
  exists e, sclkdp_to_et k s = Ok e /\ e == et.
Proof.
  intros G O H. unfold et_to_sclkdp in H. destruct (partition_for c_et (coefficients k) et) as [c| |] eqn:P; try discriminate. cbn [obind] in H. injection H as <-.
  apply select in P; [|apply growing_asc, G]. pose proof (ticks_in_force _ _ _ G O P) as Q. apply select in Q; [|apply growing_asc, G].
  assert (R : 0 < c_rate c) by (destruct G as [_ G]; rewrite Forall_forall in G; apply G, P).
  unfold sclkdp_to_et. rewrite Q. cbn [obind]. destruct (Qeq_bool (c_rate c) 0) eqn:E; [apply Qeq_bool_iff in E; lra|]. eexists. split; [reflexivity|]. field. lra.
Qed.
Theorem back_and_there k et s : growing (coefficients k) -> no_gap (coefficients k) -> sclkdp_to_et k s = Ok et ->
  exists s', et_to_sclkdp k et = Ok s' /\ s' == s.
Proof.
  intros G O H. unfold sclkdp_to_et in H. destruct (partition_for c_ticks (coefficients k) s) as [c| |] eqn:P; try discriminate. cbn [obind] in H.
  destruct (Qeq_bool (c_rate c) 0) eqn:E; [discriminate|]. injection H as <-.
  apply select in P; [|apply growing_asc, G]. pose proof (et_in_force _ _ _ G O P) as Q. apply select in Q; [|apply growing_asc, G].
  assert (R : 0 < c_rate c) by (destruct G as [_ G]; rewrite Forall_forall in G; apply G, P).
  unfold et_to_sclkdp. rewrite Q. cbn [obind]. eexists. split; [reflexivity|]. field. lra.
Qed.
Theorem ticks_increase k e1 e2 s1 s2 : growing (coefficients k) -> no_overlap (coefficients k) ->
  et_to_sclkdp k e1 = Ok s1 -> et_to_sclkdp k e2 = Ok s2 -> e1 < e2 -> s1 < s2.
Proof.
  intros G O H1 H2 L. unfold et_to_sclkdp in *.
  destruct (partition_for c_et (coefficients k) e1) as [c| |] eqn:P; try discriminate. cbn [obind] in H1. injection H1 as <-.
  destruct (partition_for c_et (coefficients k) e2) as [d| |] eqn:Q; try discriminate. cbn [obind] in H2. injection H2 as <-.
  apply select in P; [|apply growing_asc, G]. apply select in Q; [|apply growing_asc, G].
  assert (R : 0 < c_rate c) by (destruct G as [_ G]; rewrite Forall_forall in G; apply G, P).
  pose proof (ticks_in_force _ _ _ G O P) as (_ & T1 & T2). pose proof (ticks_in_force _ _ _ G O Q) as (_ & U1 & U2).
  destruct P as (I & P1 & P2), Q as (J & Q1 & Q2). destruct (Q2 c I) as [K|K]; [|lra].
  destruct (T2 d J) as [V|V]; [|lra]. pose proof (key_order' _ _ _ G J I V). assert (c = d) by (apply (asc_unique c_et (coefficients k)); auto; [apply growing_asc, G|lra]). subst d. nra.
Qed.
Theorem et_increase k e1 e2 s1 s2 : growing (coefficients k) -> no_gap (coefficients k) ->
  sclkdp_to_et k s1 = Ok e1 -> sclkdp_to_et k s2 = Ok e2 -> s1 < s2 -> e1 < e2.
Proof.
  intros G O H1 H2 L. unfold sclkdp_to_et in *.
  destruct (partition_for c_ticks (coefficients k) s1) as [c| |] eqn:P; try discriminate. cbn [obind] in H1. destruct (Qeq_bool (c_rate c) 0); [discriminate|]. injection H1 as <-.
  destruct (partition_for c_ticks (coefficients k) s2) as [d| |] eqn:Q; try discriminate. cbn [obind] in H2. destruct (Qeq_bool (c_rate d) 0); [discriminate|]. injection H2 as <-.
  apply select in P; [|apply growing_asc, G]. apply select in Q; [|apply growing_asc, G].
  assert (R : 0 < c_rate c) by (destruct G as [_ G]; rewrite Forall_forall in G; apply G, P).
  pose proof (et_in_force _ _ _ G O P) as (_ & T1 & T2). pose proof (et_in_force _ _ _ G O Q) as (_ & U1 & U2).
  destruct P as (I & P1 & P2), Q as (J & Q1 & Q2). destruct (Q2 c I) as [K|K]; [|lra].
  destruct (T2 d J) as [V|V]; [|lra]. pose proof (key_order _ _ _ G J I V). assert (c = d) by (apply (asc_unique c_ticks (coefficients k)); auto; [apply growing_asc, G|lra]). subst d.
  assert (X : (s1 - c_ticks c) / c_rate c < (s2 - c_ticks c) / c_rate c); [|lra]. apply Qlt_shift_div_r; [assumption|]. setoid_replace ((s2 - c_ticks c) / c_rate c * c_rate c) with (s2 - c_ticks c) by (field; lra). lra.
Qed.

(** ** Reading clocks *)
Local Open Scope Z_scope.
Lemma dedup_in l x : In x (dedup l) <-> In x l.
Proof.
  induction l as [|y t IH]; [reflexivity|]. destruct t as [|z t]; [reflexivity|].
  change (dedup (y :: z :: t)) with (if y =? z then dedup (z :: t) else y :: dedup (z :: t)).
  destruct (Z.eqb_spec y z) as [->|N].
  - rewrite IH. split; [now right|]. intros [<-|H]; [now left|assumption].
  - cbn [In]. rewrite IH. reflexivity.
Qed.
Lemma dedup_strict l : ordered Z.leb l -> StronglySorted Z.lt (dedup l).
Proof.
  induction 1 as [|y t O IH H]; [constructor|]. destruct t as [|z t]; [repeat constructor|].
  change (dedup (y :: z :: t)) with (if y =? z then dedup (z :: t) else y :: dedup (z :: t)).
  destruct (Z.eqb_spec y z) as [->|N]; [assumption|]. constructor; [assumption|]. apply Forall_forall. intros w W. rewrite dedup_in in W.
  assert (z <= w) by (destruct W as [<-|W]; [lia|apply StronglySorted_inv in O as [_ O]; rewrite Forall_forall in O; specialize (O _ W); lia]).
  apply Forall_inv in H. lia.
Qed.
Lemma ids_in keys i : In i (ids_of keys) <-> exists k, In k keys /\ key_id k = Some i.
Proof.
  induction keys as [|k t IH]; cbn [ids_of]; [split; [contradiction|intros (k & [] & _)]|].
  destruct (key_id k) as [j|] eqn:E.
  - cbn [In]. rewrite IH. split.
    + intros [<-|(q & K & F)]; [exists k; split; [now left|assumption]|exists q; split; [now right|assumption]].
    + intros (q & [<-|K] & F); [left; congruence|right; eauto].
  - rewrite IH. split; [intros (q & K & F); exists q; split; [now right|assumption]|]. intros (q & [<-|K] & F); [congruence|eauto].
Qed.
Lemma zleb_total : total Z.leb. Proof. intros x y. lia. Qed.
Lemma zleb_trans : transitive Z.leb. Proof. intros x y z. lia. Qed.
Definition etleb (a b : coeff) := Qle_bool (c_et a) (c_et b).
Lemma clocks_spec d ids ks : clocks d ids = Ok ks ->
  map sc_id ks = ids /\ Forall (fun k => exists v values, get d (prefix ++ show_int (sc_id k)) = Some v /\ value_as_f64_array v = Ok values /\
     Nat.modulo (List.length values) 3 = O /\ coefficients k = isort etleb (triples values)) ks.
Proof.
  revert ks. induction ids as [|i t IH]; intros ks H; cbn [clocks] in H; [injection H as <-; split; [reflexivity|constructor]|].
  destruct (one_clock d i) as [k| |] eqn:O; try discriminate. cbn [obind] in H. destruct (clocks d t) as [r| |]; try discriminate. cbn [obind] in H. injection H as <-.
  destruct (IH r eq_refl) as (E & F). unfold one_clock in O. destruct (get d (prefix ++ show_int i)) as [v|] eqn:G; [|discriminate].
  destruct (value_as_f64_array v) as [values| |] eqn:V; try discriminate. cbn [obind] in O. destruct (Nat.eqb_spec (Nat.modulo (List.length values) 3) 0); [|discriminate].
  injection O as <-. split; [cbn [map sc_id]; now rewrite E|]. constructor; [|assumption]. exists v, values. repeat split; auto.
Qed.
Theorem clocks_ids d ks : from_table d = Ok ks ->
  StronglySorted Z.lt (map sc_id ks) /\ (forall i, In i (map sc_id ks) <-> exists k, In k (map fst d) /\ key_id k = Some i).
Proof.
  intros H. apply clocks_spec in H as (E & _). rewrite E. split.
  - apply dedup_strict, isort_ordered; [apply zleb_total|apply zleb_trans].
  - intros i. rewrite dedup_in, isort_in. apply ids_in.
Qed.
Lemma etleb_total : total etleb.
Proof. intros x y. unfold etleb. destruct (Qlt_le_dec (c_et x) (c_et y)); [left|right]; apply Qle_bool_iff; lra. Qed.
Lemma etleb_trans : transitive etleb.
Proof. intros x y z. unfold etleb. rewrite !Qle_bool_iff. lra. Qed.
