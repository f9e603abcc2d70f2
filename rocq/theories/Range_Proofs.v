(** Proofs about ranges of periods and bracket seeding. *)
From Coq Require Import List ZArith QArith Qabs Qround Bool Lqa Lia Setoid Sorting.Sorted.
From Verif Require Import Qb Sort Root_Model Root_Spec Root_Proofs Cross_Model Cross_Spec Cross_Proofs.
Import ListNotations.
Local Open Scope Q_scope.

(** ** A period algebra meeting its contract *)
Lemma gaps_ok stop ps : forall from, tidy (from, stop) ps -> from <= stop ->
  tidy (from, stop) (gaps from stop ps) /\ forall t, inside (from, stop) t -> ~ edge_of ps t -> ~ t == from -> ~ t == stop -> (in_some (gaps from stop ps) t <-> ~ in_some ps t).
Proof.
  induction ps as [|q ps IH]; intros from [S F] W; cbn [gaps].
  - destruct (qltb_r from stop) as [L|L].
    + split; [split; [apply one_sorted|constructor; [cbn; lra|constructor]]|]. intros t It _ _ _. split; [intros _ (x & [] & _)|intros _; exists (from, stop); split; [now left|assumption]].
    + split; [split; constructor|]. intros t It _ N _. unfold inside in It; cbn in It. exfalso. apply N. lra.
  - inversion S as [|? ? S' Hq]; subst. inversion F as [|? ? Fq F']; subst. cbn [fst snd] in Fq.
    assert (T' : tidy (snd q, stop) ps). { split; [assumption|]. rewrite Forall_forall in *. intros x I. specialize (Hq x I). specialize (F' x I). cbn in *. lra. }
    destruct (IH (snd q) T' ltac:(lra)) as [[G1 G2] G3]. split.
    + split.
      * destruct (qltb from (fst q)); [|exact G1]. constructor; [exact G1|]. eapply Forall_impl; [|exact G2]. cbn. intros; lra.
      * apply Forall_app. split; [destruct (qltb_r from (fst q)); constructor; [cbn; lra|constructor]|]. eapply Forall_impl; [|exact G2]. cbn. intros; lra.
    + intros t It Ne N1 N2. unfold inside in It. cbn in It.
      assert (Nq : ~ t == fst q /\ ~ t == snd q) by (split; intros H; apply Ne; exists q; split; [now left|auto|now left|auto]).
      assert (Ne' : ~ edge_of ps t) by (intros (x & I & H); apply Ne; exists x; split; [now right|assumption]).
      assert (Low : t < snd q -> ~ in_some (gaps (snd q) stop ps) t). { intros L (x & I & Ix). rewrite Forall_forall in G2. apply G2 in I. unfold inside in Ix. cbn in I. lra. }
      assert (Low' : t < snd q -> ~ in_some ps t). { intros L (x & I & Ix). rewrite Forall_forall in Hq. apply Hq in I. unfold inside in Ix. lra. }
      destruct (Qlt_le_dec t (snd q)) as [L|L].
      * destruct (Qlt_le_dec t (fst q)) as [L2|L2].
        -- split; [intros _ (x & [<-|I] & Ix); [unfold inside in Ix; lra|apply Low'; [assumption|now exists x]]|]. intros _. exists (from, fst q). split; [apply in_or_app; left; destruct (qltb_r from (fst q)); [now left|lra]|unfold inside; cbn; lra].
        -- split; [|intros H; exfalso; apply H; exists q; split; [now left|unfold inside; lra]]. intros (x & I & Ix) _. apply in_app_or in I as [I|I]; [|apply Low; [assumption|now exists x]].
           destruct (qltb from (fst q)); [destruct I as [<-|[]]|destruct I]. unfold inside in Ix; cbn in Ix. apply (proj1 Nq). lra.
      * assert (snd q < t) by (destruct (Qlt_le_dec (snd q) t); [assumption|exfalso; apply (proj2 Nq); lra]).
        assert (Hs : in_some (q :: ps) t <-> in_some ps t). { split; intros (x & I & Ix); [destruct I as [<-|I]; [unfold inside in Ix; lra|now exists x]|exists x; split; [now right|assumption]]. }
        rewrite Hs. rewrite <- (G3 t); [|unfold inside; cbn; lra|assumption|tauto|assumption].
        split; intros (x & I & Ix); [|exists x; split; [apply in_or_app; now right|assumption]]. apply in_app_or in I as [I|I]; [|now exists x]. destruct (qltb from (fst q)); [destruct I as [<-|[]]|destruct I]. unfold inside in Ix; cbn in Ix. lra.
Qed.
(** The ends of the window need their own look: there the complement holds its closed end exactly when no period does. *)
Lemma gaps_first stop ps from : tidy (from, stop) ps -> from < stop -> ~ edge_of ps from -> in_some (gaps from stop ps) from /\ ~ in_some ps from.
Proof.
  intros [S F] W Ne. destruct ps as [|q ps]; cbn [gaps].
  - split; [|intros (x & [] & _)]. rewrite (proj2 (qltb_true from stop) W). exists (from, stop). split; [now left|unfold inside; cbn; lra].
  - inversion F as [|? ? Fq F']; subst. cbn in Fq. inversion S as [|? ? S' Hq]; subst. assert (L : from < fst q). { destruct (Qlt_le_dec from (fst q)); [assumption|]. exfalso. apply Ne. exists q. split; [now left|left; lra]. }
    rewrite (proj2 (qltb_true _ _) L). split; [exists (from, fst q); split; [now left|unfold inside; cbn; lra]|]. intros (x & [<-|I] & Ix); unfold inside in Ix; [lra|]. rewrite Forall_forall in Hq. apply Hq in I. lra.
Qed.
Lemma gaps_last stop ps : forall from, tidy (from, stop) ps -> from < stop -> ~ edge_of ps stop -> in_some (gaps from stop ps) stop /\ ~ in_some ps stop.
Proof.
  induction ps as [|q ps IH]; intros from [S F] W Ne; cbn [gaps].
  - split; [|intros (x & [] & _)]. rewrite (proj2 (qltb_true from stop) W). exists (from, stop). split; [now left|unfold inside; cbn; lra].
  - inversion F as [|? ? Fq F']; subst. cbn in Fq. inversion S as [|? ? S' Hq]; subst.
    assert (L : snd q < stop). { destruct (Qlt_le_dec (snd q) stop); [assumption|]. exfalso. apply Ne. exists q. split; [now left|right; lra]. }
    assert (T' : tidy (snd q, stop) ps). { split; [assumption|]. rewrite Forall_forall in *. intros x I. specialize (Hq x I). specialize (F' x I). cbn in *. lra. }
    destruct (IH (snd q) T' L) as (A & B); [intros (x & I & H); apply Ne; exists x; split; [now right|assumption]|]. split.
    + destruct A as (x & I & Ix). exists x. split; [apply in_or_app; now right|assumption].
    + intros (x & [<-|I] & Ix); [unfold inside in Ix; lra|apply B; now exists x].
Qed.
Lemma in_some_eq ps t u : t == u -> in_some ps t -> in_some ps u.
Proof. intros E (x & I & Ix). exists x. split; [assumption|]. unfold inside in *. lra. Qed.
Lemma edge_eq ps t u : t == u -> edge_of ps t -> edge_of ps u.
Proof. intros E (x & I & Ix). exists x. split; [assumption|]. destruct Ix; [left|right]; lra. Qed.
Theorem complement_ref_ok p ps : fst p < snd p -> tidy p ps ->
  tidy p (complement_ref p ps) /\ forall t, inside p t -> ~ edge_of ps t -> (in_some (complement_ref p ps) t <-> ~ in_some ps t).
Proof.
  destruct p as [a b]. cbn [fst snd]. intros W T. unfold complement_ref. cbn [fst snd]. destruct (gaps_ok b ps a T ltac:(lra)) as [G1 G2]. split; [exact G1|]. intros t It Ne.
  destruct (Qeq_dec t a) as [Ea|Na]; [|destruct (Qeq_dec t b) as [Eb|Nb]; [|now apply G2]].
  - destruct (gaps_first b ps a T W) as [H1 H2]; [intros H; apply Ne; apply (edge_eq _ a); [now symmetry|assumption]|]. split; [intros _ H; apply H2; now apply (in_some_eq _ t)|intros _; apply (in_some_eq _ a); [now symmetry|assumption]].
  - destruct (gaps_last b ps a T W) as [H1 H2]; [intros H; apply Ne; apply (edge_eq _ b); [now symmetry|assumption]|]. split; [intros _ H; apply H2; now apply (in_some_eq _ t)|intros _; apply (in_some_eq _ b); [now symmetry|assumption]].
Qed.
Lemma overlap_spec a b q : In q (overlap a b) -> fst a <= fst q /\ fst b <= fst q /\ fst q < snd q /\ snd q <= snd a /\ snd q <= snd b /\ forall t, inside q t -> inside a t /\ inside b t.
Proof.
  unfold overlap. destruct (qltb_r (fst a) (fst b)), (qltb_r (snd a) (snd b)); match goal with |- In _ (if qltb ?x ?y then _ else _) -> _ => destruct (qltb_r x y) end; intros []; subst; try contradiction; unfold inside; cbn; repeat split; lra.
Qed.
Lemma sorted_app {A} (R : A -> A -> Prop) l m : StronglySorted R l -> StronglySorted R m -> (forall x y, In x l -> In y m -> R x y) -> StronglySorted R (l ++ m).
Proof.
  intros S T H. induction S as [|x l S IH F]; [assumption|]. cbn [app]. constructor; [apply IH; intros; apply H; [now right|assumption]|]. apply Forall_app. split; [assumption|]. apply Forall_forall. intros y I. apply H; [now left|assumption].
Qed.
Theorem intersect_ref_ok p ps qs : tidy p ps -> tidy p qs -> tidy p (intersect_ref ps qs) /\
  forall t, inside p t -> ~ edge_of ps t -> ~ edge_of qs t -> (in_some (intersect_ref ps qs) t <-> in_some ps t /\ in_some qs t).
Proof.
  intros [S1 F1] [S2 F2]. unfold intersect_ref.
  assert (Row : forall a, StronglySorted (fun a b => snd a < fst b) (flat_map (overlap a) qs)).
  { intros a. clear F2. induction S2 as [|q qs S IH F]; [constructor|]. cbn [flat_map]. apply sorted_app.
    - unfold overlap. cbv zeta. match goal with |- StronglySorted _ (if ?b then _ else _) => destruct b end; [apply one_sorted|constructor].
    - exact IH.
    - intros x y Ix Iy. apply overlap_spec in Ix. apply in_flat_map in Iy as (z & Iz & Iy). apply overlap_spec in Iy. rewrite Forall_forall in F. apply F in Iz. lra. }
  split; [split|].
  - clear F1. induction S1 as [|a ps S IH F]; [constructor|]. cbn [flat_map]. apply sorted_app; [apply Row|exact IH|].
    intros x y Ix Iy. apply in_flat_map in Ix as (u & Iu & Ix). apply overlap_spec in Ix. apply in_flat_map in Iy as (z & Iz & Iy). apply in_flat_map in Iy as (v & Iv & Iy). apply overlap_spec in Iy. rewrite Forall_forall in F. apply F in Iz. lra.
  - apply Forall_forall. intros q I. apply in_flat_map in I as (a & Ia & I). apply in_flat_map in I as (b & Ib & I). apply overlap_spec in I. rewrite Forall_forall in F1. apply F1 in Ia. lra.
  - intros t It N1 N2. split.
    + intros (q & I & Iq). apply in_flat_map in I as (a & Ia & I). apply in_flat_map in I as (b & Ib & I). apply overlap_spec in I as (_ & _ & _ & _ & _ & I). split; [exists a|exists b]; (split; [assumption|now apply I]).
    + intros [(a & Ia & Ta) (b & Ib & Tb)].
      assert (Sa : fst a < t /\ t < snd a). { unfold inside in Ta. split; (match goal with |- ?x < ?y => destruct (Qlt_le_dec x y) as [?|?]; [assumption|exfalso; apply N1; exists a; split; [assumption|(left; lra) || (right; lra)]] end). }
      assert (Sb : fst b < t /\ t < snd b). { unfold inside in Tb. split; (match goal with |- ?x < ?y => destruct (Qlt_le_dec x y) as [?|?]; [assumption|exfalso; apply N2; exists b; split; [assumption|(left; lra) || (right; lra)]] end). }
      assert (O : exists q, In q (overlap a b) /\ inside q t).
      { unfold overlap. destruct (qltb_r (fst a) (fst b)), (qltb_r (snd a) (snd b)); (match goal with |- exists q, In q (if qltb ?x ?y then _ else _) /\ _ => destruct (qltb_r x y); [exists (x, y); split; [now left|unfold inside; cbn; lra]|lra] end). }
      destruct O as (q & Iq & Tq). exists q. split; [|assumption]. apply in_flat_map. exists a. split; [assumption|]. apply in_flat_map. exists b. split; assumption.
Qed.

(** ** Ranges *)
Section Ranges.
Variables (complement : interval -> list interval -> list interval) (intersect : list interval -> list interval -> list interval).
Hypotheses (Co : complement_ok complement) (Io : intersect_ok intersect).
Theorem assemble_ok p cmin smin cmax smax : fst p < snd p -> timely p cmin -> alternate smin cmin -> timely p cmax -> alternate smax cmax ->
  let above := build_above_periods_directed cmin p smin in let over := build_above_periods_directed cmax p smax in let r := assemble_in_range_periods complement intersect cmin smin cmax smax p in
  tidy p r /\ forall t lo hi, inside p t -> ~ edge_of above t -> ~ edge_of over t -> ~ edge_of (complement p over) t ->
    Forall (fun c => ~ ct c == t) cmin -> Forall (fun c => ~ ct c == t) cmax -> state smin cmin t lo -> state smax cmax t hi ->
    (in_some r t <-> lo = true /\ hi = false).
Proof.
  intros W T1 A1 T2 A2 above over r. destruct (periods_ok p cmin smin W T1 A1) as [Ti1 M1]. destruct (periods_ok p cmax smax W T2 A2) as [Ti2 M2]. fold above in Ti1, M1. fold over in Ti2, M2.
  destruct (Co p over W Ti2) as [Tc Mc]. destruct (Io p above (complement p over) Ti1 Tc) as [Tr Mr]. split; [exact Tr|]. intros t lo hi It E1 E2 E3 N1 N2 S1 S2.
  unfold r, assemble_in_range_periods. fold above over. rewrite (Mr t It E1 E3), (M1 t lo It N1 S1), (Mc t It E2), (M2 t hi It N2 S2). destruct hi; split; intros [? ?]; split; try assumption; try reflexivity; congruence.
Qed.
End Ranges.

(** ** Fixed steps *)
Lemma opposite_sign_spec a b : opposite_sign a b = true <-> ((a < 0 /\ 0 <= b) \/ (0 <= a /\ b < 0)).
Proof. unfold opposite_sign, same_sign, neg. destruct (qltb_r a 0), (qltb_r b 0); cbn; split; intros; try discriminate; try reflexivity; lra. Qed.
Theorem fixed_ok fuel p step f threshold bs : fst p < snd p -> fixed_step_brackets fuel p step f threshold = Some bs ->
  let g := fun t => f t - threshold in exists l, grid (snd p) step (fst p) l /\ bs = filter (fun s => opposite_sign (g (fst s)) (g (snd s))) l.
Proof.
  intros W E g. unfold fixed_step_brackets in E. fold g in E. pose proof (scan_step _ _ _ _ _ _ _ _ E W) as S. apply scan_spec in E as (G & R & _); auto. set (l := steps _ _ _ _) in *. exists l. split; [assumption|]. rewrite R. clear.
  induction l as [|[a b] l IH]; [reflexivity|]. cbn [flat_map filter fst snd]. rewrite IH. destruct (opposite_sign (g a) (g b)); reflexivity.
Qed.

(** ** Adaptive steps *)
Section Adaptive.
Variables (min_step : Q) (g : Q -> Q).
Definition good (fr : frame) : Prop := fr_glo fr = g (fr_lo fr) /\ fr_ghi fr = g (fr_hi fr) /\ fr_lo fr <= fr_hi fr.
Definition changes (s : interval) : Prop := opposite_sign (g (fst s)) (g (snd s)) = true.
Definition within (s : interval) (fr : frame) : Prop := fr_lo fr <= fst s /\ fst s <= snd s /\ snd s <= fr_hi fr.
Lemma subdivide_ok fuel : forall stack bs, Forall good stack -> subdivide fuel min_step g stack = Some bs ->
  Forall (fun s => changes s /\ snd s - fst s <= 2 * min_step /\ exists fr, In fr stack /\ opposite_sign (fr_glo fr) (fr_ghi fr) = true /\ within s fr) bs /\
  (forall fr, In fr stack -> opposite_sign (fr_glo fr) (fr_ghi fr) = true -> exists s, In s bs /\ within s fr).
Proof.
  induction fuel as [|n IH]; intros [|fr rest] bs G E; cbn [subdivide] in E; try discriminate; try (injection E as <-; split; [constructor|intros ? []]).
  inversion G as [|? ? [G1 [G2 G3]] G']; subst. destruct (opposite_sign (fr_glo fr) (fr_ghi fr)) eqn:O.
  - destruct (qleb_r (fr_hi fr - fr_lo fr) (min_step + min_step)) as [L|L].
    + destruct (subdivide n min_step g rest) as [r|] eqn:Sr; [|discriminate]. injection E as <-. destruct (IH _ _ G' Sr) as [A B]. split.
      * constructor; [|eapply Forall_impl; [|exact A]; intros s (H1 & H2 & fr' & H3); split; [assumption|split; [assumption|exists fr'; split; [now right|tauto]]]].
        split; [unfold changes; cbn [fst snd]; now rewrite <- G1, <- G2|]. split; [cbn; lra|]. exists fr. split; [now left|]. split; [assumption|]. unfold within. cbn. lra.
      * intros x [<-|I] Ox; [exists (fr_lo fr, fr_hi fr); split; [now left|unfold within; cbn; lra]|]. destruct (B x I Ox) as (s & Is & Ws). exists s. split; [now right|assumption].
    + set (mid := Qred (fr_lo fr + (fr_hi fr - fr_lo fr) * (1 # 2))) in *. assert (Hm : mid == fr_lo fr + (fr_hi fr - fr_lo fr) * (1 # 2)) by apply Qred_correct. clearbody mid.
      apply IH in E as [A B]; [|constructor; [split; [reflexivity|split; [assumption|cbn; lra]]|constructor; [split; [assumption|split; [reflexivity|cbn; lra]]|assumption]]]. split.
      * eapply Forall_impl; [|exact A]. intros s (H1 & H2 & x & [<-|[<-|I]] & Ox & Wx); (split; [assumption|split; [assumption|]]).
        -- exists fr. split; [now left|]. split; [assumption|]. unfold within in *. cbn in *. lra.
        -- exists fr. split; [now left|]. split; [assumption|]. unfold within in *. cbn in *. lra.
        -- exists x. split; [now right|]. split; assumption.
      * intros x [<-|I] Ox; [|apply B; [right; now right|assumption]].
        assert (H : opposite_sign (g mid) (fr_ghi fr) = true \/ opposite_sign (fr_glo fr) (g mid) = true). { rewrite !opposite_sign_spec. apply opposite_sign_spec in Ox. destruct (Qlt_le_dec (g mid) 0); lra. }
        destruct H as [H|H].
        -- destruct (B (Frame mid (fr_hi fr) (g mid) (fr_ghi fr)) (or_introl eq_refl) H) as (s & Is & Ws). exists s. split; [assumption|]. unfold within in *. cbn in *. lra.
        -- destruct (B (Frame (fr_lo fr) mid (fr_glo fr) (g mid)) (or_intror (or_introl eq_refl)) H) as (s & Is & Ws). exists s. split; [assumption|]. unfold within in *. cbn in *. lra.
  - destruct (IH _ _ G' E) as [A B]. split.
    + eapply Forall_impl; [|exact A]. intros s (H1 & H2 & x & I & H). split; [assumption|]. split; [assumption|]. exists x. split; [now right|assumption].
    + intros x [<-|I] Ox; [congruence|now apply B].
Qed.
(** Enough passes for a frame of a given depth. *)
Lemma subdivide_more n m stack r : (n <= m)%nat -> subdivide n min_step g stack = Some r -> subdivide m min_step g stack = Some r.
Proof.
  revert m stack r. induction n as [|n IH]; intros [|m] [|fr rest] r L E; cbn [subdivide] in *; try assumption; try discriminate; try lia.
  destruct (opposite_sign _ _); [|apply IH; [lia|assumption]]. destruct (qleb _ _); [|apply IH; [lia|assumption]].
  destruct (subdivide n min_step g rest) as [r'|] eqn:E'; [|discriminate]. rewrite (IH m _ r'); [assumption|lia|assumption].
Qed.
Lemma subdivide_depth d : forall fr rest n r, fr_hi fr - fr_lo fr <= inject_Z (2 ^ Z.of_nat d) * (2 * min_step) -> subdivide n min_step g rest = Some r ->
  exists m r', subdivide m min_step g (fr :: rest) = Some r'.
Proof.
  induction d as [|d IH]; intros fr rest n r W E.
  - exists (S n). cbn [subdivide]. destruct (opposite_sign _ _); [|now exists r]. change (inject_Z (2 ^ Z.of_nat 0)) with 1 in W. destruct (qleb_r (fr_hi fr - fr_lo fr) (min_step + min_step)); [|lra]. rewrite E. eexists; reflexivity.
  - destruct (opposite_sign (fr_glo fr) (fr_ghi fr)) eqn:O; [|exists (S n), r; cbn [subdivide]; now rewrite O].
    destruct (qleb (fr_hi fr - fr_lo fr) (min_step + min_step)) eqn:L; [exists (S n); cbn [subdivide]; rewrite O, L, E; eexists; reflexivity|].
    set (mid := Qred (fr_lo fr + (fr_hi fr - fr_lo fr) * (1 # 2))). assert (Hm : mid == fr_lo fr + (fr_hi fr - fr_lo fr) * (1 # 2)) by apply Qred_correct.
    rewrite Nat2Z.inj_succ, Z.pow_succ_r in W by lia. rewrite inject_Z_mult in W. change (inject_Z 2) with 2 in W. set (k := inject_Z (2 ^ Z.of_nat d)) in *. clearbody k. assert (W2 : fr_hi fr - fr_lo fr <= 2 * (k * (2 * min_step))) by (eapply Qle_trans; [exact W|]; lra).
    destruct (IH (Frame (fr_lo fr) mid (fr_glo fr) (g mid)) rest n r) as (m1 & r1 & E1); [cbn [fr_lo fr_hi]; clearbody mid; lra|assumption|].
    destruct (IH (Frame mid (fr_hi fr) (g mid) (fr_ghi fr)) (Frame (fr_lo fr) mid (fr_glo fr) (g mid) :: rest) m1 r1) as (m2 & r2 & E2); [cbn [fr_lo fr_hi]; clearbody mid; lra|exact E1|].
    exists (S m2), r2. cbn [subdivide]. rewrite O, L. exact E2.
Qed.
Lemma deep w : 0 < min_step -> exists d, w <= inject_Z (2 ^ Z.of_nat d) * (2 * min_step).
Proof.
  intros M. set (k := w / (2 * min_step)). exists (Z.to_nat (Z.max 0 (Qceiling k))). rewrite Z2Nat.id by lia.
  assert (K : k <= inject_Z (2 ^ Z.max 0 (Qceiling k))).
  { apply Qle_trans with (inject_Z (Qceiling k)); [apply Qle_ceiling|]. rewrite <- Zle_Qle. assert (Z.max 0 (Qceiling k) < 2 ^ Z.max 0 (Qceiling k))%Z by (apply Z.pow_gt_lin_r; lia). lia. }
  assert (E : k * (2 * min_step) == w) by (unfold k; field; lra). rewrite <- E. apply Qmult_le_compat_r; [exact K|lra].
Qed.
Lemma subdivide_ends stack : 0 < min_step -> exists n r, subdivide n min_step g stack = Some r.
Proof.
  intros M. induction stack as [|fr rest (n & r & E)]; [exists 0%nat, []; reflexivity|]. destruct (deep (fr_hi fr - fr_lo fr) M) as (d & D). now apply (subdivide_depth d fr rest n r).
Qed.
End Adaptive.
Theorem adaptive_ok fuel p initial_step min_step f threshold bs : fst p < snd p -> adaptive_step_brackets fuel p initial_step min_step f threshold = Some bs ->
  let g := fun t => f t - threshold in exists l, grid (snd p) initial_step (fst p) l /\ StronglySorted (fun a b => fst a <= fst b) bs /\
    Forall (fun s => changes g s /\ snd s - fst s <= 2 * min_step /\ exists c, In c l /\ changes g c /\ fst c <= fst s /\ fst s <= snd s /\ snd s <= snd c) bs /\
    (forall c, In c l -> changes g c -> exists s, In s bs /\ fst c <= fst s /\ fst s <= snd s /\ snd s <= snd c).
Proof.
  intros W E g. unfold adaptive_step_brackets in E. fold g in E. destruct (scan _ _ _ _ _ _ _) as [frames|] eqn:Sc; [|discriminate]. destruct (subdivide _ _ _ _) as [bs'|] eqn:Sd; [|discriminate]. injection E as <-.
  pose proof (scan_step _ _ _ _ _ _ _ _ Sc W) as S. apply scan_spec in Sc as (G & R & _); auto. set (l := steps _ _ _ _) in *. exists l. split; [assumption|].
  assert (Fr : frames = map (fun s => Frame (fst s) (snd s) (g (fst s)) (g (snd s))) l) by (rewrite R; clear; induction l as [|s l IH]; [reflexivity|]; cbn [flat_map map app]; now rewrite IH).
  assert (Mem : forall fr, In fr (rev frames) <-> exists c, In c l /\ fr = Frame (fst c) (snd c) (g (fst c)) (g (snd c))).
  { intros fr. rewrite <- in_rev, Fr, in_map_iff. split; intros (c & A & B); exists c; split; auto. }
  pose proof (grid_range _ _ _ _ G) as Gr. rewrite Forall_forall in Gr.
  apply subdivide_ok in Sd as [A B]; [|apply Forall_forall; intros fr I; apply Mem in I as (c & I & ->); apply Gr in I; split; [reflexivity|split; [reflexivity|cbn; tauto]]]. split; [|split].
  - assert (O := isort_ordered (fun x y : interval => qleb (fst x) (fst y)) bs'). unfold ordered in O. 
    assert (O' : StronglySorted (fun x y : interval => qleb (fst x) (fst y) = true) (isort (fun x y : interval => qleb (fst x) (fst y)) bs')).
    { apply O; [intros x y; rewrite !qleb_true; destruct (Qlt_le_dec (fst x) (fst y)); [left; lra|now right]|intros x y z; rewrite !qleb_true; intros; lra]. }
    assert (C : forall z : list interval, StronglySorted (fun x y : interval => qleb (fst x) (fst y) = true) z -> StronglySorted (fun a b : Q * Q => fst a <= fst b) z); [|apply C, O']. clear. intros z. induction 1 as [|x s S IH F]; constructor; [assumption|]. eapply Forall_impl; [|exact F]. cbn. intros a. now rewrite qleb_true.
  - apply Forall_forall. intros s I. apply isort_in in I. rewrite Forall_forall in A. destruct (A s I) as (H1 & H2 & fr & If & Of & Wf). split; [assumption|]. split; [assumption|]. apply Mem in If as (c & Ic & ->). exists c. split; [assumption|]. split; [exact Of|exact Wf].
  - intros c I C. destruct (B (Frame (fst c) (snd c) (g (fst c)) (g (snd c)))) as (s & Is & Ws); [apply Mem; now exists c|exact C|]. exists s. split; [now apply isort_in|exact Ws].
Qed.
Theorem adaptive_ends p initial_step min_step f threshold : 0 < initial_step -> 0 < min_step -> exists fuel bs, adaptive_step_brackets fuel p initial_step min_step f threshold = Some bs.
Proof.
  intros I M. unfold adaptive_step_brackets. set (g := fun t => f t - threshold).
  assert (N : exists n, snd p - fst p <= inject_Z (Z.of_nat n) * initial_step).
  { set (k := (snd p - fst p) / initial_step). exists (Z.to_nat (Z.max 0 (Qceiling k))). rewrite Z2Nat.id by lia. assert (E : k * initial_step == snd p - fst p) by (unfold k; field; lra). rewrite <- E. apply Qmult_le_compat_r; [|lra]. apply Qle_trans with (inject_Z (Qceiling k)); [apply Qle_ceiling|]. rewrite <- Zle_Qle. lia. }
  destruct N as (n & N). destruct (scan_ends (snd p) initial_step g (fun t prev nt nv => [Frame t nt prev nv]) n (fst p) (g (fst p)) I N) as (frames & E).
  destruct (subdivide_ends min_step g (rev frames) M) as (m & r & D). exists (max n m). 
  assert (E' := scan_more _ _ _ _ n (max n m) _ _ frames ltac:(lia) E). assert (D' := subdivide_more _ _ m (max n m) _ r ltac:(lia) D).
  exists (isort (fun x y => qleb (fst x) (fst y)) r). cbv zeta. fold g. change (g (fst p)) with (f (fst p) - threshold) in E'. cbv beta. rewrite E', D'. reflexivity.
Qed.
