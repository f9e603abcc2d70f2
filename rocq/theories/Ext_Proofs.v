(** Proofs about extremum search. *)
From Coq Require Import List ZArith QArith Qabs Qround Bool Lqa Lia Setoid Sorting.Sorted Sorting.Permutation.
From Verif Require Import Qb Sort Root_Model Root_Spec Root_Proofs Cross_Model Cross_Spec Cross_Proofs Range_Proofs Ext_Model Ext_Spec.
Import ListNotations.
Local Open Scope Q_scope.

(** ** The bracket *)
Lemma half x y : (x + y) / 2 == (x + y) * (1 # 2).
Proof. reflexivity. Qed.
Definition contained (p : interval) (s : golden) : Prop := inside p (gs s) /\ inside p (ge s) /\ inside p (gx1 s) /\ inside p (gx2 s).
Lemma mix_low p x y : inside p x -> inside p y -> inside p (Qred (x - phi * (x - y))).
Proof. unfold inside. intros. rewrite Qred_correct. unfold phi. lra. Qed.
Lemma mix_high p x y : inside p x -> inside p y -> inside p (Qred (x + phi * (y - x))).
Proof. unfold inside. intros. rewrite Qred_correct. unfold phi. lra. Qed.
Lemma step_contained p f s : contained p s -> contained p (golden_step f s).
Proof.
  intros (H1 & H2 & H3 & H4). unfold golden_step, contained. destruct (qltb _ _); cbn [gs ge gx1 gx2]; (split; [assumption|]; split; [assumption|]; split; try assumption); [now apply mix_low|now apply mix_high].
Qed.
Lemma loop_contained p f tol n s : contained p s -> contained p (golden_loop f tol n s).
Proof. revert s. induction n as [|n IH]; intros s C; cbn [golden_loop]; [assumption|]. destruct (qltb _ _); [assumption|]. apply IH. now apply step_contained. Qed.
Lemma start_contained p f : fst p <= snd p -> contained p (golden_start p f).
Proof. intros L. unfold golden_start, contained, inside; cbn [gs ge gx1 gx2]. rewrite !Qred_correct. unfold phi. repeat split; lra. Qed.
Theorem min_inside p f tol : fst p <= snd p -> inside p (fst (minimize_tol p f tol)) /\ snd (minimize_tol p f tol) = f (fst (minimize_tol p f tol)).
Proof.
  intros L. unfold minimize_tol. cbn [fst snd]. split; [|reflexivity]. destruct (loop_contained p f tol max_iter _ (start_contained p f L)) as (A & B & _). unfold inside in *. rewrite Qred_correct, half. lra.
Qed.
Theorem max_inside p f tol : fst p <= snd p -> inside p (fst (maximize_tol p f tol)) /\ snd (maximize_tol p f tol) = f (fst (maximize_tol p f tol)).
Proof. intros L. unfold maximize_tol. cbn [fst snd]. split; [|reflexivity]. now apply min_inside. Qed.

(** ** One valley *)
Definition kappa : Q := phi * phi + phi - 1.
(** How far the two probes are from mirroring each other. *)
Definition skew (s : golden) : Q := (gx2 s - gs s) - (ge s - gx1 s).
Definition tight (w0 : Q) (s : golden) : Prop :=
  (gx1 s == ge s - phi * (ge s - gs s) \/ gx2 s == gs s + phi * (ge s - gs s)) /\
  skew s + 3 * kappa * (ge s - gs s) <= 3 * kappa * w0 /\ - skew s + 3 * kappa * (ge s - gs s) <= 3 * kappa * w0.
Definition keeps (f : Q -> Q) (p : interval) (z : Q) (s : golden) : Prop :=
  fst p <= gs s /\ gs s <= z /\ z <= ge s /\ ge s <= snd p /\ gf1 s = f (gx1 s) /\ gf2 s = f (gx2 s).
Lemma golden_step_ok f p z s w0 : valley f p z -> keeps f p z s -> tight w0 s -> 0 < ge s - gs s -> w0 <= inject_Z (10 ^ 13) * (ge s - gs s) ->
  keeps f p z (golden_step f s) /\ tight w0 (golden_step f s) /\ 0 < ge (golden_step f s) - gs (golden_step f s) /\ ge (golden_step f s) - gs (golden_step f s) <= (2 # 3) * (ge s - gs s).
Proof.
  intros (_ & V1 & V2) (K1 & K2 & K3 & K4 & K5 & K6) (T1 & T2 & T3) L W. change (inject_Z (10 ^ 13)) with (10000000000000 # 1) in W. unfold skew in *.
  assert (Kp : kappa == 29995185326951329 # 81129638414606681695789005144064) by reflexivity. rewrite Kp in *. clear Kp.
  assert (O : gs s < gx1 s /\ gx1 s < gx2 s /\ gx2 s < ge s /\ gx2 s - gs s <= (2 # 3) * (ge s - gs s) /\ ge s - gx1 s <= (2 # 3) * (ge s - gs s)) by (unfold phi in *; destruct T1; repeat split; lra).
  unfold golden_step. destruct (qltb_r (gf1 s) (gf2 s)) as [F|F]; unfold keeps, tight, skew; cbn [gs ge gx1 gx2 gf1 gf2].
  - assert (Z : z <= gx2 s). { destruct (Qlt_le_dec (gx2 s) z) as [H|H]; [|assumption]. assert (f (gx2 s) < f (gx1 s)) by (apply V1; lra). rewrite K5, K6 in F. lra. }
    pose proof (Qred_correct (gx2 s - phi * (gx2 s - gs s))) as R. set (x := Qred _) in *. clearbody x. assert (Kp : kappa == 29995185326951329 # 81129638414606681695789005144064) by reflexivity. rewrite Kp.
    split; [repeat split; try lra; assumption|]. split; [|lra]. split; [left; exact R|]. unfold phi in *. destruct T1; split; lra.
  - assert (Z : gx1 s <= z). { destruct (Qlt_le_dec z (gx1 s)) as [H|H]; [|assumption]. assert (f (gx1 s) < f (gx2 s)) by (apply V2; lra). rewrite K5, K6 in F. lra. }
    pose proof (Qred_correct (gx1 s + phi * (ge s - gx1 s))) as R. set (x := Qred _) in *. clearbody x. assert (Kp : kappa == 29995185326951329 # 81129638414606681695789005144064) by reflexivity. rewrite Kp.
    split; [repeat split; try lra; assumption|]. split; [|lra]. split; [right; exact R|]. unfold phi in *. destruct T1; split; lra.
Qed.
Lemma golden_loop_ok f p z tol n : forall s w0, valley f p z -> w0 <= inject_Z (10 ^ 13) * tol -> keeps f p z s -> tight w0 s -> 0 < ge s - gs s -> ge s - gs s <= inject_Z (3 ^ Z.of_nat n) / inject_Z (2 ^ Z.of_nat n) * tol ->
  let s' := golden_loop f tol n s in gs s' <= z /\ z <= ge s' /\ ge s' - gs s' <= tol.
Proof.
  induction n as [|n IH]; intros s w0 V W K T L B; cbn [golden_loop]; cbv zeta.
  - change (inject_Z (3 ^ Z.of_nat 0) / inject_Z (2 ^ Z.of_nat 0)) with (1 / 1) in B. unfold keeps in K. assert (E : 1 / 1 * tol == tol) by field. rewrite E in B. lra.
  - destruct (qltb_r (ge s - gs s) tol) as [D|D]; [unfold keeps in K; lra|].
    destruct (golden_step_ok f p z s w0 V K T L) as (K' & T' & L' & S'); [change (inject_Z (10 ^ 13)) with (10000000000000 # 1) in *; lra|].
    apply (IH _ w0); auto. eapply Qle_trans; [exact S'|].
    assert (E : inject_Z (3 ^ Z.of_nat (S n)) / inject_Z (2 ^ Z.of_nat (S n)) * tol == (3 # 2) * (inject_Z (3 ^ Z.of_nat n) / inject_Z (2 ^ Z.of_nat n) * tol)).
    { rewrite !Nat2Z.inj_succ, !Z.pow_succ_r by lia. rewrite !inject_Z_mult. change (inject_Z 3) with 3. change (inject_Z 2) with 2. field. change 0 with (inject_Z 0). rewrite inject_Z_injective. pose proof (Z.pow_pos_nonneg 2 (Z.of_nat n)). lia. }
    rewrite E in B. set (q := inject_Z (3 ^ Z.of_nat n) / inject_Z (2 ^ Z.of_nat n) * tol) in *. lra.
Qed.
Theorem min_found p f tol z : fst p <= snd p -> snd p - fst p <= inject_Z (10 ^ 13) * tol -> valley f p z -> Qabs (fst (minimize_tol p f tol) - z) <= tol / 2.
Proof.
  intros L W V. assert (H2 : tol / 2 == tol * (1 # 2)) by reflexivity. rewrite H2. destruct (Qlt_le_dec (fst p) (snd p)) as [Lt|Ge].
  - assert (Hw : snd p - fst p <= inject_Z (10 ^ 13) * tol) by exact W.
    destruct (golden_loop_ok f p z tol max_iter (golden_start p f) (snd p - fst p) V W) as (A & B & C).
    + destruct V as ((V1 & V2) & _). unfold keeps, golden_start; cbn [gs ge gx1 gx2 gf1 gf2]. repeat split; try lra; reflexivity.
    + unfold tight, skew, golden_start; cbn [gs ge gx1 gx2]. pose proof (Qred_correct (snd p - (snd p - fst p) * phi)) as R1. pose proof (Qred_correct (fst p + (snd p - fst p) * phi)) as R2. set (x1 := Qred (snd p - _)) in *. set (x2 := Qred (fst p + _)) in *. clearbody x1 x2.
      unfold kappa, phi in *. repeat split; lra.
    + unfold golden_start; cbn [gs ge]. lra.
    + unfold golden_start, max_iter; cbn [gs ge]. eapply Qle_trans; [exact W|]. 
      assert (Tp : 0 <= tol) by (change (inject_Z (10 ^ 13)) with (10000000000000 # 1) in W; lra). apply Qmult_le_compat_r; [|exact Tp]. vm_compute. discriminate.
    + unfold minimize_tol. cbn [fst]. set (s := golden_loop _ _ _ _) in *. pose proof (Qred_correct ((gs s + ge s) / 2)) as R. rewrite half in R. set (t := Qred _) in *. clearbody t. apply Qabs_Qle_condition. lra.
  - destruct (min_inside p f tol L) as ((I1 & I2) & _). destruct V as ((V1 & V2) & _). set (t := fst (minimize_tol p f tol)) in *. clearbody t. change (inject_Z (10 ^ 13)) with (10000000000000 # 1) in W. apply Qabs_Qle_condition. lra.
Qed.
Theorem max_found p f tol z : fst p <= snd p -> snd p - fst p <= inject_Z (10 ^ 13) * tol -> peak f p z -> Qabs (fst (maximize_tol p f tol) - z) <= tol / 2.
Proof. intros L W V. unfold maximize_tol. cbn [fst]. now apply min_found. Qed.

(** ** Scanning for turns *)
Definition pick (f : Q -> Q) (tol : Q) (w : interval * kind) : extremum :=
  let '(t, v) := match snd w with Maximum => maximize_tol (fst w) f tol | Minimum => minimize_tol (fst w) f tol end in Ext t v (snd w).
Lemma pick_settled f tol w : fst (fst w) <= snd (fst w) -> settled f tol w (pick f tol w).
Proof.
  intros L. destruct w as [p k]. cbn [fst snd] in *. unfold settled, pick. cbn [fst snd]. destruct k; cbn [extreme].
  - destruct (max_inside p f tol L) as [I V]. destruct (maximize_tol p f tol) as [t v] eqn:E. cbn [fst snd et ev ek] in *. split; [reflexivity|]. split; [assumption|]. split; [assumption|]. intros W z P. pose proof (max_found p f tol z L W P) as F. rewrite E in F. exact F.
  - destruct (min_inside p f tol L) as [I V]. destruct (minimize_tol p f tol) as [t v] eqn:E. cbn [fst snd et ev ek] in *. split; [reflexivity|]. split; [assumption|]. split; [assumption|]. intros W z P. pose proof (min_found p f tol z L W P) as F. rewrite E in F. exact F.
Qed.
Lemma loop_turns fuel stop step tol f : 0 < step -> forall t0 t1 r, t1 <= stop -> extrema_loop fuel stop step tol f t0 t1 (f t1) (qltb (f t0) (f t1)) = Some r ->
  exists l, grid stop step t1 l /\ r = map (pick f tol) (turns f ((t0, t1) :: l)).
Proof.
  intros Sp. induction fuel as [|n IH]; intros t0 t1 r Le E; [discriminate|]. cbn [extrema_loop] in E.
  assert (N : t1 <= next_time stop step t1 <= stop /\ (next_time stop step t1 == t1 + step \/ next_time stop step t1 = stop /\ stop < t1 + step)).
  { unfold next_time. destruct (qleb_r (t1 + step) stop); [pose proof (Qred_correct (t1 + step)) as Rc; revert Rc; generalize (Qred (t1 + step)); intros z Rc; split; [lra|]; now left|]. split; [lra|]. right. split; [reflexivity|lra]. }
  set (t2 := next_time stop step t1) in *. destruct (qleb_r t2 t1) as [L|L].
  - injection E as <-. exists []. split; [|reflexivity]. constructor. destruct N as [N [N'|[N' _]]]; [lra|]. rewrite <- N'. lra.
  - destruct (extrema_loop n stop step tol f t1 t2 (f t2) (qltb (f t1) (f t2))) as [r'|] eqn:R; [|discriminate]. apply some_inj in E. subst r. destruct (IH t1 t2 r' ltac:(lra) R) as (l & G & ->). exists ((t1, t2) :: l). split; [constructor; try tauto; lra|].
    change (turns f ((t0, t1) :: (t1, t2) :: l)) with ((if Bool.eqb (rising f (t0, t1)) (rising f (t1, t2)) then [] else [((fst (t0, t1), snd (t1, t2)), if rising f (t0, t1) then Maximum else Minimum)]) ++ turns f ((t1, t2) :: l)).
    rewrite map_app. f_equal. unfold rising. cbn [fst snd]. destruct (qltb (f t0) (f t1)), (qltb (f t1) (f t2)); try reflexivity; cbn [andb negb Bool.eqb map]; unfold pick; cbn [fst snd].
Qed.
Lemma sorted_by (r : list extremum) : StronglySorted (fun a b => et a <= et b) (isort (fun a b => qleb (et a) (et b)) r).
Proof.
  assert (C : forall z : list extremum, StronglySorted (fun x y => qleb (et x) (et y) = true) z -> StronglySorted (fun a b => et a <= et b) z).
  { intros z. induction 1 as [|x s S IH F]; constructor; [assumption|]. eapply Forall_impl; [|exact F]. cbn. intros a. now rewrite qleb_true. }
  apply C. apply isort_ordered; [intros x y; rewrite !qleb_true; destruct (Qlt_le_dec (et x) (et y)); [left; lra|now right]|intros x y z; rewrite !qleb_true; intros; lra].
Qed.
Lemma turns_in f l w : In w (turns f l) -> exists s1 s2, In s1 l /\ In s2 l /\ fst w = (fst s1, snd s2).
Proof.
  induction l as [|s1 [|s2 l] IH]; try (intros []). intros I. change (turns f (s1 :: s2 :: l)) with ((if Bool.eqb (rising f s1) (rising f s2) then [] else [((fst s1, snd s2), if rising f s1 then Maximum else Minimum)]) ++ turns f (s2 :: l)) in I.
  apply in_app_or in I as [I|I].
  - destruct (Bool.eqb _ _); [destruct I|]. destruct I as [<-|[]]. exists s1, s2. split; [now left|]. split; [right; now left|reflexivity].
  - destruct (IH I) as (a & b & Ia & Ib & E). exists a, b. split; [now right|]. split; [now right|assumption].
Qed.
Lemma turns_window f stop step t l w : grid stop step t l -> In w (turns f l) -> t <= fst (fst w) /\ fst (fst w) <= snd (fst w) /\ snd (fst w) <= stop.
Proof.
  intros G. revert w. induction G as [|t b l T B S G IH]; intros w I; [destruct I|]. destruct l as [|s2 l]; [destruct I|].
  change (turns f ((t, b) :: s2 :: l)) with ((if Bool.eqb (rising f (t, b)) (rising f s2) then [] else [((fst (t, b), snd s2), if rising f (t, b) then Maximum else Minimum)]) ++ turns f (s2 :: l)) in I.
  apply in_app_or in I as [I|I].
  - destruct (Bool.eqb _ _); [destruct I|]. destruct I as [<-|[]]. cbn [fst snd]. apply grid_range in G. inversion G as [|? ? H _]; subst. lra.
  - apply IH in I. lra.
Qed.
Theorem extrema_ok fuel p step f tol r : fst p < snd p -> 0 < step -> find_extrema_tol fuel p step f tol = Some r ->
  exists l xs, grid (snd p) step (fst p) l /\ Forall2 (settled f tol) (turns f l) xs /\ Permutation r xs /\ StronglySorted (fun a b => et a <= et b) r.
Proof.
  intros W S E. unfold find_extrema_tol in E. destruct (qleb_r step 0); [lra|]. destruct (qleb_r (snd p) (fst p)); [lra|]. cbn [orb] in E.
  destruct (extrema_loop _ _ _ _ _ _ _ _ _) as [r'|] eqn:R; [|discriminate]. apply some_inj in E. subst r.
  assert (N : fst p <= next_time (snd p) step (fst p) <= snd p /\ (next_time (snd p) step (fst p) == fst p + step \/ next_time (snd p) step (fst p) = snd p /\ snd p < fst p + step)).
  { unfold next_time. destruct (qleb_r (fst p + step) (snd p)); [pose proof (Qred_correct (fst p + step)) as Rc; revert Rc; generalize (Qred (fst p + step)); intros z Rc; split; [lra|]; now left|]. split; [lra|]. right. split; [reflexivity|lra]. }
  apply loop_turns in R as (l & G & ->); [|assumption|tauto]. set (t1 := next_time _ _ _) in *. assert (G' : grid (snd p) step (fst p) ((fst p, t1) :: l)) by (constructor; tauto).
  exists ((fst p, t1) :: l), (map (pick f tol) (turns f ((fst p, t1) :: l))). split; [exact G'|]. split; [|split; [apply isort_perm|apply sorted_by]].
  pose proof (fun w => turns_window f _ _ _ _ w G') as Tw. revert Tw. generalize (turns f ((fst p, t1) :: l)). intros m. induction m as [|w m IH]; intros Tw; [constructor|]. cbn [map]. constructor; [apply pick_settled; destruct (Tw w (or_introl eq_refl)); tauto|]. apply IH. intros x I. apply Tw. now right.
Qed.
Theorem extrema_empty fuel p step f tol : step <= 0 \/ snd p <= fst p -> find_extrema_tol fuel p step f tol = Some [].
Proof. intros H. unfold find_extrema_tol. destruct (qleb_r step 0); [reflexivity|]. destruct (qleb_r (snd p) (fst p)); [reflexivity|]. lra. Qed.
Lemma loop_ends k : forall stop step tol f t0 t1 f1 b, 0 < step -> stop - t1 <= inject_Z (Z.of_nat k) * step -> t1 <= stop -> exists r, extrema_loop (S k) stop step tol f t0 t1 f1 b = Some r.
Proof.
  induction k as [|k IH]; intros stop step tol f t0 t1 f1 b S L T.
  - change (inject_Z (Z.of_nat 0)) with 0 in L. cbn [extrema_loop]. destruct (qleb_r (next_time stop step t1) t1) as [H|H]; [eexists; reflexivity|]. exfalso. apply H. unfold next_time. destruct (qleb_r (t1 + step) stop); lra.
  - remember (Datatypes.S k) as n. cbn [extrema_loop]. destruct (qleb_r (next_time stop step t1) t1) as [H|H]; [eexists; reflexivity|]. subst n.
    destruct (IH stop step tol f t1 (next_time stop step t1) (f (next_time stop step t1)) (qltb f1 (f (next_time stop step t1)))) as (r & E); try assumption; [| |rewrite E; eexists; reflexivity].
    + rewrite Nat2Z.inj_succ in L. unfold Z.succ in L. rewrite inject_Z_plus in L. change (inject_Z 1) with 1 in L. set (q := inject_Z (Z.of_nat k)) in *. assert (K : 0 <= q) by (unfold q; change 0 with (inject_Z 0); rewrite <- Zle_Qle; lia). clearbody q.
      unfold next_time in *. destruct (qleb_r (t1 + step) stop); [rewrite Qred_correct; lra|]. assert (0 <= q * step) by (apply Qmult_le_0_compat; lra). lra.
    + unfold next_time. destruct (qleb_r (t1 + step) stop); [rewrite Qred_correct; lra|lra].
Qed.
(** ** A single extremum of the window is found *)
Definition turn_kind (b : bool) : kind := if b then Maximum else Minimum.
Lemma turns_cons f s1 s2 l : turns f (s1 :: s2 :: l) = (if Bool.eqb (rising f s1) (rising f s2) then [] else [((fst s1, snd s2), turn_kind (rising f s1))]) ++ turns f (s2 :: l).
Proof. reflexivity. Qed.
Lemma no_turn f l b : Forall (fun s => rising f s = b) l -> turns f l = [].
Proof.
  induction 1 as [|s l H F IH]; [reflexivity|]. destruct l as [|s2 l]; [reflexivity|]. rewrite turns_cons, IH. inversion F; subst. rewrite H2, eqb_reflx. reflexivity.
Qed.
Lemma one_turn f b z stop step : 0 < step -> forall t l, grid stop step t l -> forall s0, snd s0 = t -> fst s0 <= t -> t <= fst s0 + step -> t <= z -> rising f s0 = b ->
  (forall s, In s l -> snd s <= z -> rising f s = b) -> (forall s, In s l -> z <= fst s -> rising f s = negb b) -> (exists s, In s l /\ z <= fst s) ->
  exists w, turns f (s0 :: l) = [(w, turn_kind b)] /\ fst s0 <= fst w /\ fst w <= z /\ z <= snd w /\ snd w <= stop /\ snd w - fst w <= 2 * step.
Proof.
  intros Sp. induction 1 as [t L|t u l T B S G IH]; intros s0 E0 L0 L2 Z R0 Ra Rb (s & Is & Zs); [destruct Is|]. rewrite turns_cons.
  assert (Rest : u >= z -> turns f l = [] /\ Forall (fun s => rising f s = negb b) l).
  { intros U. assert (F : Forall (fun s => rising f s = negb b) l). { apply Forall_forall. intros x I. apply Rb; [now right|]. apply grid_range in G. rewrite Forall_forall in G. apply G in I. lra. } split; [now apply (no_turn f l (negb b))|assumption]. }
  destruct (Qlt_le_dec z u) as [Zu|Zu].
  - destruct Rest as [Rt Fl]; [lra|]. destruct (bool_dec (rising f (t, u)) b) as [E|E].
    + rewrite E, R0, eqb_reflx. cbn [app]. destruct l as [|s2 l]; [destruct Is as [<-|[]]; cbn in Zs; exfalso|].
      * assert (rising f (t, u) = negb b) by (apply Rb; [now left|exact Zs]). destruct b; rewrite E in *; discriminate.
      * assert (L1 : fst s0 <= snd s0) by (rewrite E0; assumption). clear E0. rewrite turns_cons. inversion Fl as [|? ? F1 _]; subst. rewrite Rt, F1, E. rewrite eqb_negb2. cbn [app]. exists (t, snd s2). inversion G as [|? u2 l2 T2 B2 S2 G2]; subst. cbn [fst snd] in *.
        assert (u2 <= u + step) by (destruct S2 as [S2|[-> S2]]; lra). assert (u <= t + step) by (destruct S as [S|[-> S]]; lra). split; [reflexivity|]. lra.
    + assert (E' : rising f (t, u) = negb b) by (destruct (rising f (t, u)) eqn:Er, b; cbn; congruence). rewrite E', R0, eqb_negb2.
      assert (Nt : turns f ((t, u) :: l) = []) by (apply (no_turn f _ (negb b)); constructor; assumption).
      exists (fst s0, u). assert (u <= t + step) by (destruct S as [S|[-> S]]; lra). split; [etransitivity; [apply f_equal; exact Nt|reflexivity]|]. cbn [fst snd]. lra.
  - assert (E : rising f (t, u) = b) by (apply Ra; [now left|exact Zu]). rewrite E, R0, eqb_reflx. cbn [app].
    destruct (IH (t, u) eq_refl) as (w & H1 & H2 & H3 & H4 & H5 & H6); cbn [fst snd] in *; try lra; try assumption.
    + intros x I. apply Ra. now right.
    + intros x I. apply Rb. now right.
    + destruct Is as [<-|Is]; [exfalso; cbn in Zs; destruct S as [S|[-> S]]; lra|]. exists s. split; assumption.
    + exists w. split; [assumption|]. assert (u <= t + step) by (destruct S as [S|[-> S]]; lra). lra.
Qed.
Lemma grid_split stop step t l : grid stop step t l -> t < stop -> exists u l', l = (t, u) :: l' /\ t <= u /\ u <= stop /\ u <= t + step /\ grid stop step u l'.
Proof. intros G T. inversion G as [|? u l' T' B S G']; subst; [lra|]. exists u, l'. repeat split; try tauto; destruct S as [S|[-> S]]; lra. Qed.
Theorem single_found fuel p step f tol r k z : fst p < snd p -> 0 < step -> 2 * step <= inject_Z (10 ^ 13) * tol -> extreme k f p z -> fst p + step <= z -> z + step <= snd p ->
  find_extrema_tol fuel p step f tol = Some r -> exists e, r = [e] /\ ek e = k /\ ev e = f (et e) /\ inside p (et e) /\ Qabs (et e - z) <= tol / 2.
Proof.
  intros W S Wt X Z1 Z2 E. destruct (extrema_ok fuel p step f tol r W S E) as (l & xs & G & F & P & _).
  destruct (grid_split _ _ _ _ G W) as (u & l' & -> & U1 & U2 & U3 & G').
  assert (Up : forall s, fst p <= fst s -> fst s < snd s -> snd s <= snd p -> (snd s <= z -> rising f s = match k with Maximum => true | Minimum => false end) /\ (z <= fst s -> rising f s = negb match k with Maximum => true | Minimum => false end)).
  { intros s H1 H2 H3. unfold rising. destruct k; cbn [negb]; destruct X as (_ & X1 & X2); split; intros H.
    - apply qltb_true. assert (- f (snd s) < - f (fst s)) by (apply X1; assumption). lra.
    - apply qltb_false. assert (- f (fst s) < - f (snd s)) by (apply X2; assumption). lra.
    - apply qltb_false. assert (f (snd s) < f (fst s)) by (apply X1; assumption). lra.
    - apply qltb_true. apply X2; assumption. }
  set (b := match k with Maximum => true | Minimum => false end) in *.
  assert (Gs : forall t l, grid (snd p) step t l -> fst p <= t -> forall s, In s l -> fst p <= fst s /\ fst s < snd s /\ snd s <= snd p).
  { clear - S. induction 1 as [|t u l T B H G IH]; intros Ft s I; [destruct I|]. destruct I as [<-|I]; [cbn; destruct H as [H|[-> H]]; lra|]. apply IH; [lra|assumption]. }
  assert (Last : exists s, In s l' /\ z <= fst s).
  { destruct (grid_cover _ _ _ _ G (snd p)) as (s & I & R1 & R2); [lra|lra|assumption|]. exists s. pose proof (Gs _ _ G (Qle_refl _) s I) as Hs. assert (Wd : snd s <= fst s + step).
    { clear - G I. induction G as [|t u' l T B H G IH]; [destruct I|]. destruct I as [<-|I]; [cbn; destruct H as [H|[-> H]]; lra|now apply IH]. }
    split; [|lra]. destruct I as [<-|I]; [|assumption]. exfalso. cbn in *. lra. }
  assert (Fu : fst p < u) by (apply (Gs _ _ G (Qle_refl _) (fst p, u)); now left).
  destruct (one_turn f b z (snd p) step S u l' G' (fst p, u) eq_refl) as (w & T & B1 & B2 & B3 & B4 & B5); try assumption; cbn [fst snd] in *; try lra.
  - apply (Up (fst p, u)); cbn; lra.
  - intros s I H. pose proof (Gs _ _ G' U1 s I) as Hs. apply Up; tauto.
  - intros s I H. pose proof (Gs _ _ G' U1 s I) as Hs. apply Up; tauto.
  - rewrite T in F. inversion F as [|? e ? xs' St F']; subst. inversion F'; subst. apply Permutation_sym, Permutation_length_1_inv in P. subst r. destruct St as (E1 & E2 & E3 & E4). cbn [fst snd] in *. exists e.
    assert (Kb : turn_kind b = k) by (unfold b; destruct k; reflexivity). rewrite Kb in *.
    split; [reflexivity|]. split; [assumption|]. split; [assumption|]. split; [unfold inside in *; lra|]. apply E4; [lra|].
    destruct k; destruct X as (_ & X1 & X2); (split; [unfold inside; lra|]; split; intros; [apply X1|apply X2]; lra).
Qed.

(** ** Turns of the derivative *)
Definition marked (f d : Q -> Q) (s : interval) (e : extremum) : Prop :=
  ev e = f (et e) /\ refined d s (et e) /\
  (classify (et e) f = Some (ek e) \/ (classify (et e) f = None /\ (ek e = Maximum <-> 0 < d (fst s)))).
Lemma sign_found g s : opposite_sign (g (fst s)) (g (snd s)) = true -> fst s <= snd s -> canon (fst s) -> canon (snd s) ->
  exists x, brent_with_values (fst s) (snd s) (g (fst s)) (g (snd s)) g = Some x /\ refined g s x.
Proof.
  intros O L C1 C2. apply opposite_sign_spec in O. unfold brent_with_values. destruct (brent_core _ _ _ _ _ _) as [x|] eqn:E.
  - exists x. split; [reflexivity|]. apply core in E; [|now rewrite C1|now rewrite C2]. destruct E as (B & C). 
    assert (Bt : forall z, between (fst s) (snd s) z -> fst s <= z <= snd s) by (unfold between; intros; lra).
    split; [now apply Bt|]. destruct C as [C|(y & Y & S & C)]; [now left|]. right. exists y. split; [now apply Bt|]. split; [assumption|]. destruct C as [C|C]; [now left|right; exact C].
  - apply core_none in E. unfold sign_change in E. lra.
Qed.
Theorem derivative_ok fuel p step f h r : fst p < snd p -> canon (fst p) -> canon (snd p) -> find_extrema_via_derivative fuel p step f h = Some r ->
  let d := deriv f h in exists l xs, grid (snd p) step (fst p) l /\ Forall2 (marked f d) (filter (fun s => opposite_sign (d (fst s)) (d (snd s))) l) xs /\
    Permutation r xs /\ StronglySorted (fun a b => et a <= et b) r.
Proof.
  intros W C1 C2 E d. unfold find_extrema_via_derivative in E. fold d in E. destruct (scan _ _ _ _ _ _ _) as [r'|] eqn:Sc; [|discriminate]. apply some_inj in E. subst r.
  pose proof (scan_step _ _ _ _ _ _ _ _ Sc W) as S. apply scan_spec in Sc as (G & R & Cn); auto. set (l := steps _ _ _ _) in *. specialize (Cn C1 C2). exists l, r'. split; [assumption|]. split; [|split; [apply isort_perm|apply sorted_by]].
  rewrite R. pose proof (grid_range _ _ _ _ G) as Gr. clear - Cn Gr. induction l as [|s l IH]; [constructor|]. inversion Cn as [|? ? [K1 K2] Cn']; subst. inversion Gr as [|? ? G1 Gr']; subst. specialize (IH Cn' Gr'). cbn [filter flat_map]. unfold deriv_hit at 1.
  destruct (opposite_sign (d (fst s)) (d (snd s))) eqn:O; [|exact IH]. destruct (sign_found d s O) as (x & B & X); try tauto. rewrite B. cbn [app]. constructor; [|exact IH]. split; [reflexivity|]. split; [exact X|]. cbn [et ek].
  destruct (classify x f); [now left|]. right. split; [reflexivity|]. destruct (qltb_r 0 (d (fst s))); split; intros; try assumption; try reflexivity; try discriminate; contradiction.
Qed.
Theorem classify_ok t f k : classify t f = Some k -> match k with
  | Maximum => f (Qred (t - probe_eps)) <= f t /\ f (Qred (t + probe_eps)) <= f t
  | Minimum => f t <= f (Qred (t - probe_eps)) /\ f t <= f (Qred (t + probe_eps)) /\ (f t < f (Qred (t - probe_eps)) \/ f t < f (Qred (t + probe_eps))) end.
Proof.
  unfold classify. destruct (qleb_r (f (Qred (t - probe_eps))) (f t)), (qleb_r (f (Qred (t + probe_eps))) (f t)), (qleb_r (f t) (f (Qred (t - probe_eps)))), (qleb_r (f t) (f (Qred (t + probe_eps)))); cbn [andb]; intros E; try discriminate; injection E as <-; repeat split; lra.
Qed.
Theorem classify_none t f : classify t f = None <-> (f (Qred (t - probe_eps)) < f t /\ f t < f (Qred (t + probe_eps))) \/ (f t < f (Qred (t - probe_eps)) /\ f (Qred (t + probe_eps)) < f t).
Proof.
  unfold classify. destruct (qleb_r (f (Qred (t - probe_eps))) (f t)), (qleb_r (f (Qred (t + probe_eps))) (f t)), (qleb_r (f t) (f (Qred (t - probe_eps)))), (qleb_r (f t) (f (Qred (t + probe_eps)))); cbn [andb]; split; intros E; try discriminate; try reflexivity; lra.
Qed.
