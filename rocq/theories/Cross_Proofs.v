(** Proofs about scans, crossings and periods. *)
From Coq Require Import List ZArith QArith Qabs Bool Lqa Lia Setoid Sorting.Sorted.
From Verif Require Import Qb Sort Root_Model Root_Spec Root_Proofs Cross_Model Cross_Spec.
Import ListNotations.
Local Open Scope Q_scope.

Definition canon (t : Q) : Prop := Qred t = t.
Lemma canon_red t : canon (Qred t).
Proof. apply Qred_complete, Qred_correct. Qed.

(** ** Scans *)
Section Scan.
Context {A : Type} (stop step : Q) (g : Q -> Q) (hit : Q -> Q -> Q -> Q -> list A).
Lemma scan_stuck fuel t prev : step <= 0 -> t < stop -> scan fuel stop step g hit t prev = None.
Proof.
  intros S. revert t prev. induction fuel as [|n IH]; intros t prev T; cbn [scan]; (destruct (qltb_r t stop); [|lra]); [reflexivity|].
  unfold next_time. destruct (qleb_r (t + step) stop); [|lra]. rewrite IH; [reflexivity|]. rewrite Qred_correct. lra.
Qed.
Lemma scan_ends fuel t prev : 0 < step -> stop - t <= inject_Z (Z.of_nat fuel) * step -> exists r, scan fuel stop step g hit t prev = Some r.
Proof.
  intros S. revert t prev. induction fuel as [|n IH]; intros t prev T; cbn [scan].
  - change (inject_Z (Z.of_nat 0)) with 0 in T. destruct (qltb_r t stop); [lra|]. now exists [].
  - destruct (qltb_r t stop); [|now exists []]. destruct (IH (next_time stop step t) (g (next_time stop step t))) as (r & ->); [|eexists; reflexivity].
    rewrite Nat2Z.inj_succ in T. unfold Z.succ in T. rewrite inject_Z_plus in T. change (inject_Z 1) with 1 in T. set (k := inject_Z (Z.of_nat n)) in *.
    assert (K : 0 <= k) by (unfold k; change 0 with (inject_Z 0); rewrite <- Zle_Qle; lia). unfold next_time. destruct (qleb_r (t + step) stop); [rewrite Qred_correct; lra|nra].
Qed.
Lemma scan_more fuel fuel' t prev r : (fuel <= fuel')%nat -> scan fuel stop step g hit t prev = Some r -> scan fuel' stop step g hit t prev = Some r.
Proof.
  revert fuel' t prev r. induction fuel as [|n IH]; intros [|n'] t prev r L E; cbn [scan] in *; try lia; try assumption; (destruct (qltb t stop); [|assumption]); [discriminate|].
  destruct (scan n stop step g hit _ _) as [r'|] eqn:S; [|discriminate]. rewrite (IH n' _ _ r'); [assumption|lia|assumption].
Qed.
Fixpoint steps (fuel : nat) (t : Q) : list interval :=
  if qltb t stop then match fuel with O => [] | S n => (t, next_time stop step t) :: steps n (next_time stop step t) end else [].
Lemma scan_spec fuel t prev r : 0 < step -> prev = g t -> scan fuel stop step g hit t prev = Some r ->
  let l := steps fuel t in grid stop step t l /\ r = flat_map (fun s => hit (fst s) (g (fst s)) (snd s) (g (snd s))) l /\
    (canon t -> canon stop -> Forall (fun s => canon (fst s) /\ canon (snd s)) l).
Proof.
  intros Sp. revert t prev r. induction fuel as [|n IH]; intros t prev r P E; cbn [scan steps] in *; (destruct (qltb_r t stop) as [T|T]; [|injection E as <-; split; [constructor; lra|]; split; [reflexivity|intros; constructor]]); [discriminate|].
  destruct (scan n stop step g hit _ _) as [r'|] eqn:S; [|discriminate]. injection E as <-. destruct (IH _ _ _ eq_refl S) as (G & R & C). split; [|split].
  - assert (N : t <= next_time stop step t <= stop /\ (next_time stop step t == t + step \/ next_time stop step t = stop /\ stop < t + step)).
    { unfold next_time. destruct (qleb_r (t + step) stop); [pose proof (Qred_correct (t + step)) as Rc; revert Rc; generalize (Qred (t + step)); intros z Rc; split; [lra|]; now left|]. split; [lra|]. right. split; [reflexivity|lra]. }
    constructor; tauto.
  - cbn [flat_map fst snd]. rewrite R, P. reflexivity.
  - intros Ct Cs. assert (canon (next_time stop step t)) by (unfold next_time; destruct (qleb _ _); [apply canon_red|assumption]). constructor; auto.
Qed.
End Scan.
Lemma scan_step {A} fuel stop step g hit t prev (r : list A) : scan fuel stop step g hit t prev = Some r -> t < stop -> 0 < step.
Proof. intros E T. destruct (Qlt_le_dec 0 step) as [|S]; [assumption|]. rewrite (scan_stuck stop step g hit fuel t prev S T) in E. discriminate. Qed.

Lemma scan_shape {A B} fuel stop step g (h : Q -> Q -> Q -> Q -> list A) (h' : Q -> Q -> Q -> Q -> list B) t prev r :
  scan fuel stop step g h t prev = Some r -> exists r', scan fuel stop step g h' t prev = Some r'.
Proof.
  revert t prev r. induction fuel as [|n IH]; intros t prev r E; cbn [scan] in *; (destruct (qltb t stop); [|now exists []]); [discriminate|].
  destruct (scan n stop step g h _ _) as [q|] eqn:R; [|discriminate]. destruct (IH _ _ _ R) as (xs & ->). eexists. reflexivity.
Qed.
Lemma grid_range stop step t l : grid stop step t l -> Forall (fun s => t <= fst s /\ fst s <= snd s /\ snd s <= stop) l.
Proof.
  induction 1 as [|t b l T B S G IH]; [constructor|]. constructor; [cbn; lra|]. eapply Forall_impl; [|exact IH]. cbn. intros a Ha. lra.
Qed.
Lemma grid_chain stop step t l : grid stop step t l -> StronglySorted (fun a b => snd a <= fst b) l.
Proof.
  induction 1 as [|t b l T B S G IH]; [constructor|]. constructor; [assumption|]. apply grid_range in G. eapply Forall_impl; [|exact G]. cbn. intros a Ha. lra.
Qed.
(** Every time of the window lies in a step. *)
Lemma grid_cover stop step t l : grid stop step t l -> forall x, t <= x -> x <= stop -> t < stop -> exists s, In s l /\ fst s <= x <= snd s.
Proof.
  induction 1 as [t L|t b l T B S G IH]; intros x X1 X2 X3; [lra|]. destruct (Qlt_le_dec b x) as [L|L].
  - destruct (IH x) as (s & I & R); [lra|assumption|lra|]. exists s. split; [now right|assumption].
  - exists (t, b). split; [now left|]. cbn. lra.
Qed.

(** ** Refinement of a step *)
Lemma opposite_cases g s : opposite g s = true -> (g (fst s) < 0 /\ 0 < g (snd s)) \/ (0 < g (fst s) /\ g (snd s) < 0).
Proof. unfold opposite. destruct (qltb_r (g (fst s)) 0), (qltb_r 0 (g (snd s))), (qltb_r 0 (g (fst s))), (qltb_r (g (snd s)) 0); cbn; intros; try discriminate; auto; lra. Qed.
Lemma opposite_found g s : opposite g s = true -> fst s <= snd s -> canon (fst s) -> canon (snd s) ->
  exists x, brent_with_values (fst s) (snd s) (g (fst s)) (g (snd s)) g = Some x /\ refined g s x.
Proof.
  intros O L C1 C2. apply opposite_cases in O. unfold brent_with_values. destruct (brent_core _ _ _ _ _ _) as [x|] eqn:E.
  - exists x. split; [reflexivity|]. apply core in E; [|now rewrite C1|now rewrite C2]. destruct E as (B & C). 
    assert (Bt : forall z, between (fst s) (snd s) z -> fst s <= z <= snd s) by (unfold between; intros; lra).
    split; [now apply Bt|]. destruct C as [C|(y & Y & S & C)]; [now left|]. right. exists y. split; [now apply Bt|]. split; [assumption|]. destruct C as [C|C]; [now left|right; exact C].
  - apply core_none in E. unfold sign_change in E. lra.
Qed.
Lemma hits start stop g l : Forall (fun s => canon (fst s) /\ canon (snd s)) l -> Forall (fun s => start <= fst s /\ fst s <= snd s /\ snd s <= stop) l ->
  exists xs, Forall2 (refined g) (filter (opposite g) l) xs /\
    flat_map (fun s => plain_hit start stop g (fst s) (g (fst s)) (snd s) (g (snd s))) l = xs /\
    flat_map (fun s => directed_hit start stop g (fst s) (g (fst s)) (snd s) (g (snd s))) l = map (fun '(s, x) => Cr x (heading g s)) (combine (filter (opposite g) l) xs).
Proof.
  induction l as [|s l IH]; intros C R; [exists []; repeat split; constructor|]. inversion C as [|? ? [C1 C2] C' ]; subst. inversion R as [|? ? R1 R']; subst.
  destruct (IH C' R') as (xs & F & P & D). cbn [filter flat_map]. rewrite P, D. clear IH P D C C' R R'. destruct (opposite g s) eqn:O.
  - destruct (opposite_found g s O) as (x & B & X); try tauto. exists (x :: xs). split; [now constructor|].
    assert (Rg : qleb start x && qleb x stop = true) by (destruct X as [X _]; apply andb_true_iff; rewrite !qleb_true; lra).
    unfold plain_hit, directed_hit, direction. rewrite B, Rg. unfold opposite in O. rewrite O. split; [reflexivity|]. cbn [combine map]. unfold heading.
    destruct (qltb_r (g (fst s)) 0), (qltb_r 0 (g (snd s))), (qltb_r 0 (g (fst s))), (qltb_r (g (snd s)) 0); cbn in *; try discriminate; try lra; reflexivity.
  - exists xs. split; [assumption|]. unfold plain_hit, directed_hit, direction. unfold opposite in O. rewrite O. split; [reflexivity|].
    apply orb_false_iff in O as [O1 O2]. rewrite O1, O2. reflexivity.
Qed.
(** ** find_crossings *)
Theorem crossings_found fuel p step f threshold cs : canon (fst p) -> canon (snd p) -> 0 < step -> find_crossings fuel p step f threshold = Some cs ->
  let g := fun t => f t - threshold in exists l, grid (snd p) step (fst p) l /\ Forall2 (refined g) (filter (opposite g) l) cs.
Proof.
  intros C1 C2 S E g. unfold find_crossings in E. apply scan_spec in E as (G & R & Cn); auto. set (l := steps _ _ _ _) in *. exists l. split; [assumption|].
  destruct (hits (fst p) (snd p) g l (Cn C1 C2) (grid_range _ _ _ _ G)) as (xs & F & P & _). subst xs. rewrite R. exact F.
Qed.
Lemma refined_sorted g l xs : StronglySorted (fun a b => snd a <= fst b) l -> Forall2 (refined g) l xs -> StronglySorted Qle xs.
Proof.
  intros S F. induction F as [|s x l xs R F IH]; [constructor|]. inversion S as [|? ? S' A]; subst. constructor; [auto|].
  clear - A F R. induction F as [|s' x' l xs R' F IH]; [constructor|]. inversion A; subst. constructor; [destruct R as [R _], R' as [R' _]; lra|auto].
Qed.
Lemma filter_sorted {A} (R : A -> A -> Prop) p l : StronglySorted R l -> StronglySorted R (filter p l).
Proof.
  induction 1 as [|a l S IH F]; [constructor|]. cbn [filter]. destruct (p a); [|assumption]. constructor; [assumption|].
  rewrite Forall_forall in *. intros x I. apply filter_In in I as [I _]. auto.
Qed.

(** ** Sorting and removal of close crossings *)
Fixpoint apart {A} (key : A -> Q) (l : list A) : Prop :=
  match l with x :: (y :: _) as t => dedupe_eps <= Qabs (key y - key x) /\ apart key t | _ => True end.
Lemma dedup_from_apart {A} (key : A -> Q) x l : apart key (x :: l) -> dedup_from key x l = x :: l.
Proof.
  revert x. induction l as [|y l IH]; intros x H; [reflexivity|]. cbn [dedup_from]. destruct H as [H1 H2]. destruct (qltb_r (Qabs (key y - key x)) dedupe_eps); [lra|]. now rewrite IH.
Qed.
Lemma sort_dedup_id {A} (key : A -> Q) l : StronglySorted (fun a b => key a <= key b) l -> apart key l -> sort_dedup key l = l.
Proof.
  intros S H. unfold sort_dedup. rewrite isort_id.
  - destruct l as [|x l]; [reflexivity|]. now apply dedup_from_apart.
  - unfold ordered. clear H. induction S as [|a l S IH F]; constructor; auto. eapply Forall_impl; [|exact F]. intros b. apply qleb_true.
Qed.
Lemma dedup_from_ok {A} (key : A -> Q) x l : apart key (dedup_from key x l) /\ (exists t, dedup_from key x l = x :: t) /\ incl (dedup_from key x l) (x :: l).
Proof.
  revert x. induction l as [|y l IH]; intros x; cbn [dedup_from]; [repeat split; [now exists []|apply incl_refl]|].
  destruct (qltb_r (Qabs (key y - key x)) dedupe_eps) as [L|L].
  - destruct (IH x) as (A1 & E & I). repeat split; auto. intros z Z. apply I in Z. destruct Z; [now left|right; now right].
  - destruct (IH y) as (A1 & (t & E) & I). split; [|split].
    + rewrite E in *. cbn [apart]. split; [lra|assumption].
    + eexists. reflexivity.
    + intros z [Z|Z]; [now left|]. right. now apply I.
Qed.
(** What remains is apart and every time removed is close to one that remains. *)
Lemma dedup_from_near {A} (key : A -> Q) x l z : In z (x :: l) -> exists y, In y (dedup_from key x l) /\ (z = y \/ Qabs (key z - key y) < dedupe_eps).
Proof.
  revert x. induction l as [|y l IH]; intros x I; cbn [dedup_from].
  - destruct I as [->|[]]. exists z. split; [now left|now left].
  - destruct (qltb_r (Qabs (key y - key x)) dedupe_eps) as [L|L].
    + destruct I as [->|[->|I]].
      * apply (IH z). now left.
      * destruct (dedup_from_ok key x l) as (_ & (t & E) & _). exists x. rewrite E. split; [now left|now right].
      * apply IH. now right.
    + destruct I as [->|I]; [exists z; split; [now left|now left]|]. destruct (IH y I) as (w & W & D). exists w. split; [now right|assumption].
Qed.
Lemma sort_dedup_ok {A} (key : A -> Q) l : apart key (sort_dedup key l) /\ incl (sort_dedup key l) l /\ (forall z, In z l -> exists y, In y (sort_dedup key l) /\ (z = y \/ Qabs (key z - key y) < dedupe_eps)).
Proof.
  unfold sort_dedup. set (s := isort _ l). assert (I : forall z, In z s <-> In z l) by (intros z; apply isort_in). clearbody s. destruct s as [|x s]; cbn [dedup].
  - repeat split; [intros z []|]. intros z Z. apply I in Z. destruct Z.
  - destruct (dedup_from_ok key x s) as (A1 & _ & In1). repeat split; auto; [intros z Z; apply I, In1, Z|]. intros z Z. apply dedup_from_near. now apply I.
Qed.

(** ** Periods *)
Lemma state_cons above c l t b : ct c < t -> state (Z.eqb (cdir c) 1) l t b -> state above (c :: l) t b.
Proof.
  intros C S. destruct S as [F|a d e E D F]; [apply (state_after above (c :: l) t [] c l); auto|]. apply (state_after above (c :: l) t (c :: a) d e); auto. now rewrite E.
Qed.
Lemma one_sorted {A} (R : A -> A -> Prop) x : StronglySorted R [x].
Proof. constructor; constructor. Qed.
Section Periods.
Variables (stop : Q).
(** Away from crossings the pairs cover exactly the times whose state is above. *)
Lemma pair_up_ok start l : forall above, above = false -> timely (start, stop) l -> alternate above l ->
  tidy (start, stop) (pair_up qltb stop l) /\
  (forall c t, l = c :: t -> Forall (fun q => ct c <= fst q) (pair_up qltb stop l)) /\
  forall t b, inside (start, stop) t -> Forall (fun c => ~ ct c == t) l -> state above l t b -> (in_some (pair_up qltb stop l) t <-> b = true).
Proof.
  induction l as [l IH] using (well_founded_induction (Wf_nat.well_founded_ltof _ (@length crossing))). unfold Wf_nat.ltof in IH. intros above -> [S F] A.
  destruct l as [|c [|d l]].
  - cbn [pair_up]. split; [split; constructor|]. split; [discriminate|]. intros t b _ _ St. inversion St as [X|a d e E]; [|destruct a; discriminate]. split; [intros (p & [] & _)|discriminate].
  - destruct A as [A _]. cbn [alternate] in A. cbn [pair_up]. rewrite A. change (Z.eqb 1 1) with true. cbv iota. inversion F as [|? ? Fc _]; subst. unfold inside in Fc; cbn [fst snd] in Fc.
    destruct (qltb_r (ct c) stop) as [L|L].
    + split; [split; [apply one_sorted|constructor; [cbn; lra|constructor]]|]. split; [intros c' t' E; injection E as <- <-; constructor; [cbn; lra|constructor]|].
      intros t b It N St. unfold inside in It; cbn [fst snd] in It. inversion N as [|? ? Nc _]; subst. inversion St as [X|a d e E D X]; subst.
      * inversion X; subst. split; [|discriminate]. intros (q & [<-|[]] & (Q1 & Q2)). cbn in Q1, Q2. lra.
      * destruct a as [|? [|]]; try discriminate. injection E as <- <-. rewrite A. split; [reflexivity|]. intros _. exists (ct c, stop). split; [now left|]. unfold inside; cbn. lra.
    + split; [split; constructor|]. split; [intros; constructor|]. intros t b It N St. unfold inside in It. cbn in It. inversion N as [|? ? Nc _]; subst. inversion St as [X|a d e E D X]; subst; [split; [intros (q & [] & _)|discriminate]|].
      destruct a as [|? [|]]; try discriminate. injection E as <- <-. lra.
  - destruct A as (A1 & A2 & A3). cbn [negb] in A3. change (cdir c = 1%Z) in A1. change (cdir d = (-1)%Z) in A2. cbn [pair_up]. rewrite A1, A2. change (Z.eqb 1 1) with true. change (Z.eqb (-1) (-1)) with true. cbv iota.
    inversion S as [|? ? S1 Sc]; subst. inversion S1 as [|? ? S2 Sd]; subst. inversion F as [|? ? Fc F1]; subst. inversion F1 as [|? ? Fd F2]; subst. inversion Sc as [|? ? Hcd Sc']; subst.
    destruct (IH l ltac:(cbn; lia) false eq_refl (conj S2 F2) A3) as ([T1 T2] & T3 & T4).
    destruct (qltb_r (ct c) (ct d)) as [L|]; [|lra]. cbn [app]. unfold inside in Fc, Fd; cbn [fst snd] in Fc, Fd.
    assert (After : Forall (fun q => ct d < fst q) (pair_up qltb stop l)).
    { destruct l as [|e l]; [constructor|]. specialize (T3 e l eq_refl). inversion Sd; subst. eapply Forall_impl; [|exact T3]. cbn. intros; lra. }
    split; [split|split].
    + constructor; [assumption|]. exact After.
    + constructor; [cbn; lra|assumption].
    + intros c' t' E. injection E as <- <-. constructor; [cbn; lra|]. eapply Forall_impl; [|exact After]. cbn. intros; lra.
    + intros t b It N St. unfold inside in It; cbn [fst snd] in It. inversion N as [|? ? Nc N1]; subst. inversion N1 as [|? ? Nd N2]; subst.
      assert (Split : forall P, (in_some ((ct c, ct d) :: P) t <-> (ct c <= t <= ct d \/ in_some P t))).
      { intros P. split; [intros (q & [<-|I] & R); [now left|right; now exists q]|intros [R|(q & I & R)]; [exists (ct c, ct d); split; [now left|exact R]|exists q; split; [now right|exact R]]]. }
      rewrite Split. destruct (Qlt_le_dec t (ct d)) as [Ltd|Ltd].
      * assert (NP : ~ in_some (pair_up qltb stop l) t) by (intros (q & I & R); rewrite Forall_forall in After; apply After in I; unfold inside in R; lra).
        destruct (Qlt_le_dec t (ct c)) as [Ltc|Ltc].
        -- assert (b = false) by (inversion St as [X|a x e E D X]; subst; [reflexivity|]; exfalso; destruct a as [|y a]; injection E as <- E; [lra|]; destruct a as [|z a]; injection E as <- E; [lra|]; 
             rewrite Forall_forall in Sd; assert (ct d < ct x) by (apply Sd; rewrite E; apply in_or_app; right; now left); lra).
           subst b. split; [|discriminate]. intros [R|R]; [lra|contradiction].
        -- assert (b = true). { inversion St as [X|a x e E D X]; subst; [inversion X; subst; lra|]. destruct a as [|y a]; [injection E as <- _; now rewrite A1|]. injection E as <- E. exfalso. destruct a as [|z a]; [injection E as <- E; lra|]. injection E as <- E.
             rewrite Forall_forall in Sd. assert (ct d < ct x) by (apply Sd; rewrite E; apply in_or_app; right; now left). lra. }
           subst b. split; [reflexivity|]. intros _. left. lra.
      * assert (Ltd' : ct d < t) by (destruct (Qlt_le_dec (ct d) t); [assumption|exfalso; apply Nd; lra]).
        assert (St' : state false l t b). { inversion St as [X|a x e E D X]; subst; [inversion X; subst; lra|]. destruct a as [|y a]; [injection E as <- <-; inversion X; subst; lra|]. injection E as <- E. destruct a as [|z a].
            - injection E as <- <-. rewrite A2. now apply state_first.
            - injection E as <- E. now apply (state_after false l t a x e). }
        rewrite <- (T4 t b It N2 St'). split; [intros [R|R]; [lra|assumption]|now right].
Qed.
End Periods.
Theorem periods_ok p l above : fst p < snd p -> timely p l -> alternate above l ->
  tidy p (build_above_periods_directed l p above) /\
  forall t b, inside p t -> Forall (fun c => ~ ct c == t) l -> state above l t b -> (in_some (build_above_periods_directed l p above) t <-> b = true).
Proof.
  destruct p as [start stop]. cbn [fst snd]. intros W T A. unfold build_above_periods_directed. cbn [fst snd]. destruct l as [|c l].
  - destruct above; (split; [split; [apply one_sorted + constructor|constructor; [cbn; lra|constructor] + constructor]|]); intros t b It _ St; inversion St as [X|a d e E]; subst; try (destruct a; discriminate).
    + split; [reflexivity|]. intros _. exists (start, stop). split; [now left|exact It].
    + split; [intros (q & [] & _)|discriminate].
  - destruct above; cbn [andb].
    + destruct A as [A1 A2]. cbn [negb] in A2. rewrite A1. change (Z.eqb (-1) (-1)) with true. cbv iota. destruct T as [S F]. inversion S as [|? ? S1 Sc]; subst. inversion F as [|? ? Fc F1]; subst.
      destruct (pair_up_ok stop start l false eq_refl (conj S1 F1) A2) as ([T1 T2] & T3 & T4). unfold inside in Fc; cbn [fst snd] in Fc.
      assert (After : Forall (fun q => ct c < fst q) (pair_up qltb stop l)).
      { destruct l as [|e l]; [constructor|]. specialize (T3 e l eq_refl). inversion Sc; subst. eapply Forall_impl; [|exact T3]. cbn. intros; lra. }
      set (lead := if qltb start (ct c) then [(start, ct c)] else []).
      assert (Lead : forall t, start <= t -> ~ ct c == t -> (in_some (lead ++ pair_up qltb stop l) t <-> t < ct c \/ in_some (pair_up qltb stop l) t)).
      { intros t It N. unfold lead. destruct (qltb_r start (ct c)) as [L|L].
        - split; [intros (q & [<-|I] & R); [unfold inside in R; cbn in R; left; lra|right; now exists q]|intros [R|(q & I & R)]; [exists (start, ct c); split; [now left|cbn; unfold inside; cbn; lra]|exists q; split; [now right|assumption]]].
        - cbn [app]. split; [now right|intros [R|R]; [lra|assumption]]. }
      split; [split|].
      * unfold lead. destruct (qltb start (ct c)); [|exact T1]. constructor; [exact T1|exact After].
      * unfold lead. destruct (qltb_r start (ct c)); [|exact T2]. constructor; [cbn; lra|exact T2].
      * intros t b It N St. unfold inside in It. cbn [fst snd] in It. inversion N as [|? ? Nc N1]; subst. rewrite Lead by (auto; lra). destruct (Qlt_le_dec t (ct c)) as [Ltc|Ltc].
        -- assert (b = true). { inversion St as [X|a x e E D X]; subst; [reflexivity|]. exfalso. destruct a as [|y a]; injection E as <- E; [lra|]. rewrite Forall_forall in Sc. assert (ct c < ct x) by (apply Sc; rewrite E; apply in_or_app; right; now left). lra. }
           subst b. split; [reflexivity|]. now left.
        -- assert (St' : state false l t b). { inversion St as [X|a x e E D X]; subst; [inversion X; subst; lra|]. destruct a as [|y a]; [injection E as <- <-; rewrite A1; now apply state_first|]. injection E as <- E. now apply (state_after false l t a x e). }
           rewrite <- (T4 t b); auto. split; [intros [R|R]; [lra|assumption]|now right].
    + destruct (pair_up_ok stop start (c :: l) false eq_refl T A) as (T1 & _ & T4). split; [exact T1|exact T4].
Qed.

(** ** Directed crossings *)
Theorem directed_found fuel p step f threshold cs sa : canon (fst p) -> canon (snd p) -> 0 < step -> find_directed_crossings fuel p step f threshold = Some (cs, sa) ->
  let g := fun t => f t - threshold in exists l xs, grid (snd p) step (fst p) l /\ Forall2 (refined g) (filter (opposite g) l) xs /\
    find_crossings fuel p step f threshold = Some xs /\ sa = qltb threshold (f (fst p)) /\
    let raw := map (fun '(s, x) => Cr x (heading g s)) (combine (filter (opposite g) l) xs) in
    cs = sort_dedup ct raw /\ (apart (fun t => t) xs -> cs = raw).
Proof.
  intros C1 C2 S E g. unfold find_directed_crossings in E. fold g in E. destruct (scan fuel _ _ _ (directed_hit _ _ _) _ _) as [raw|] eqn:Sc; [|discriminate]. injection E as <- <-.
  assert (Sp : exists xs, find_crossings fuel p step f threshold = Some xs).
  { unfold find_crossings. fold g. apply (scan_shape _ _ _ _ _ _ _ _ _ Sc). }
  destruct Sp as (xs & Xs). pose proof Xs as Xs'. unfold find_crossings in Xs'. fold g in Xs'.
  apply scan_spec in Sc as (G & R & Cn); auto. apply scan_spec in Xs' as (_ & R' & _); auto. set (l := steps _ _ _ _) in *. exists l, xs. split; [assumption|].
  destruct (hits (fst p) (snd p) g l (Cn C1 C2) (grid_range _ _ _ _ G)) as (ys & F & P & D). assert (Exs : xs = ys) by (rewrite R'; exact P). clear R'. subst xs. split; [exact F|]. split; [exact Xs|].
  split; [unfold g; destruct (qltb_r 0 (f (fst p) - threshold)), (qltb_r threshold (f (fst p))); try reflexivity; lra|]. rewrite R. unfold g in D |- *. rewrite D. split; [reflexivity|]. intros Ap.
  clear - G F Ap. assert (S := filter_sorted _ (opposite g) _ (grid_chain _ _ _ _ G)). pose proof (refined_sorted _ _ _ S F) as So.
  assert (L : length (filter (opposite g) l) = length ys) by (clear - F; induction F; cbn; congruence). revert L So Ap. fold g. generalize (filter (opposite g) l). intros m L So Ap. clear F G S.
  apply sort_dedup_id.
  - clear Ap. revert m L. induction So as [|y ys So IH A]; intros [|s m] L; try discriminate; cbn [combine map]; [constructor|]. injection L as L. constructor; [now apply IH|].
    clear - A. revert m. induction A as [|y' ys H A IH]; intros [|s' m]; cbn [combine map]; constructor; auto.
  - clear So. revert m L. induction ys as [|y ys IH]; intros [|s m] L; try discriminate; cbn [combine map]; [exact I|]. injection L as L. destruct ys as [|y' ys], m as [|s' m]; try discriminate; [exact I|]. destruct Ap as [A1 A2]. specialize (IH A2 (s' :: m) L). cbn [combine map] in *. split; [exact A1|exact IH].
Qed.

(** ** From scan to periods *)
Definition labels (g : Q -> Q) (l : list interval) (xs : list Q) : list crossing := map (fun '(s, x) => Cr x (heading g s)) (combine l xs).
Definition away (t : Q) (zx : Q * Q) : Prop := (t < fst zx /\ t < snd zx) \/ (fst zx < t /\ snd zx < t).
Lemma labels_ge g m xs b : Forall2 (refined g) m xs -> Forall (fun s => b <= fst s) m -> Forall (fun c => b <= ct c) (labels g m xs).
Proof.
  intros F. induction F as [|s x m xs R F IH]; intros H; [constructor|]. inversion H; subst. unfold labels. cbn [combine map]. constructor; [destruct R as [R _]; cbn; lra|]. now apply IH.
Qed.
Lemma away_ct g m xs zs t : length m = length xs -> Forall2 (fun z x => away t (z, x)) zs xs -> Forall (fun c => ~ ct c == t) (labels g m xs).
Proof.
  intros L F. revert m L. induction F as [|z x zs xs A F IH]; intros [|s m] L; try discriminate; [constructor|]. unfold labels. cbn [combine map]. constructor; [destruct A as [A|A]; cbn in *; lra|]. apply IH. cbn in L. lia.
Qed.
Lemma after_all t b (cs : list crossing) : t <= b -> Forall (fun c => b <= ct c) cs -> Forall (fun c => ~ ct c == t) cs -> Forall (fun c => t < ct c) cs.
Proof.
  intros T B N. induction B as [|c cs B _ IH]; [constructor|]. inversion N as [|? ? N1 N2]; subst. constructor; [|now apply IH].
  destruct (Qlt_le_dec t (ct c)); [assumption|]. exfalso. apply N1. lra.
Qed.
Lemma scan_states g stop step t0 l : grid stop step t0 l -> Forall (simple g) l -> forall xs, Forall2 (refined g) (filter (opposite g) l) xs ->
  let cs := labels g (filter (opposite g) l) xs in
  alternate (qltb 0 (g t0)) cs /\
  exists zs, Forall2 (resolved g) (filter (opposite g) l) zs /\
  forall t, t0 <= t -> t <= stop -> t0 < stop -> Forall2 (fun z x => away t (z, x)) zs xs -> exists b, state (qltb 0 (g t0)) cs t b /\ (b = true <-> 0 < g t).
Proof.
  induction 1 as [t0 L|t0 b l T B St G IH]; intros Si xs Re; cbn zeta.
  - inversion Re; subst. split; [exact I|]. exists []. split; [constructor|]. intros; lra.
  - inversion Si as [|? ? S1 S2]; subst. cbn [filter] in *. pose proof (grid_range _ _ _ _ G) as Gr.
    assert (Later : Forall (fun s => b <= fst s) (filter (opposite g) l)).
    { apply Forall_forall. intros s I. apply filter_In in I as [I _]. rewrite Forall_forall in Gr. apply Gr in I. lra. }
    destruct S1 as (N1 & N2 & S1). cbn [fst snd] in *. destruct (opposite g (t0, b)) eqn:O.
    + inversion Re as [|? x ? xs' R1 R2]; subst. destruct (IH S2 xs' R2) as (Al & zs & Zs & St'). apply opposite_cases in O. cbn [fst snd] in O. destruct S1 as (z & Z1 & Z2 & Z3). cbn [fst snd] in *.
      assert (Hb : qltb 0 (g b) = negb (qltb 0 (g t0))) by (destruct (qltb_r 0 (g b)), (qltb_r 0 (g t0)); try reflexivity; lra).
      assert (Hh : Z.eqb (heading g (t0, b)) 1 = qltb 0 (g b)) by (unfold heading; cbn [fst]; destruct (qltb_r (g t0) 0), (qltb_r 0 (g b)); try reflexivity; lra).
      assert (Hd : heading g (t0, b) = (if qltb 0 (g t0) then -1 else 1)%Z) by (unfold heading; cbn [fst]; destruct (qltb_r (g t0) 0), (qltb_r 0 (g t0)); try reflexivity; lra).
      unfold labels in *. cbn [combine map]. split; [split; [exact Hd|now rewrite <- Hb]|].
      exists (z :: zs). split; [constructor; [split; auto|assumption]|]. intros t H1 H2 H3 A. inversion A as [|? ? ? ? A1 A2]; subst. destruct R1 as [R1 _]. cbn [fst snd] in R1.
      destruct (Qlt_le_dec b t) as [Lt|Lt].
      * destruct (St' t) as (v & V & W); [lra|lra|lra|assumption|]. exists v. split; [|exact W]. apply state_cons; [cbn [ct]; lra|]. cbn [cdir]. rewrite Hh. exact V.
      * assert (Rest : Forall (fun c => t < ct c) (labels g (filter (opposite g) l) xs')).
        { apply (after_all t b); [assumption|now apply labels_ge|]. apply (away_ct g _ _ zs); [|assumption]. clear - R2. induction R2; cbn; congruence. }
        destruct A1 as [[A1 A1']|[A1 A1']]; cbn [fst snd] in *.
        -- exists (qltb 0 (g t0)). split; [apply state_first; constructor; [exact A1'|exact Rest]|]. rewrite qltb_true. rewrite (Z2 t); [reflexivity|assumption|assumption].
        -- exists (qltb 0 (g b)). split; [apply state_cons; [exact A1'|]; cbn [cdir]; rewrite Hh; apply state_first; exact Rest|]. rewrite qltb_true. rewrite (Z3 t); [reflexivity|assumption|assumption].
    + destruct (IH S2 xs Re) as (Al & zs & Zs & St').
      assert (Hb : qltb 0 (g b) = qltb 0 (g t0)).
      { unfold opposite in O. cbn [fst snd] in O. destruct (qltb_r 0 (g b)), (qltb_r 0 (g t0)), (qltb_r (g t0) 0), (qltb_r (g b) 0); cbn in O; try reflexivity; try discriminate; exfalso; (apply N1; lra) || (apply N2; lra) || lra. }
      rewrite Hb in *. split; [assumption|]. exists zs. split; [assumption|]. intros t H1 H2 H3 A. destruct (Qlt_le_dec b t) as [Lt|Lt].
      * apply St'; try lra. assumption.
      * exists (qltb 0 (g t0)). split; [|rewrite qltb_true, (S1 t) by lra; reflexivity]. apply state_first. apply (after_all t b); [assumption|now apply labels_ge|]. apply (away_ct g _ _ zs); [|assumption]. clear - Re. induction Re; cbn; congruence.
Qed.
Lemma apart_strict xs : StronglySorted Qle xs -> apart (fun t => t) xs -> StronglySorted Qlt xs.
Proof.
  intros S A. induction S as [|x xs S IH F]; [constructor|]. assert (A' : apart (fun t => t) xs) by (destruct xs; [exact I|apply A]). specialize (IH A'). constructor; [assumption|].
  destruct xs as [|y ys]; [constructor|]. destruct A as [A _]. inversion F as [|? ? F1 F2]; subst. rewrite Qabs_pos in A by lra.
  assert (L : x < y) by (assert (0 < dedupe_eps) by reflexivity; lra). constructor; [assumption|]. inversion IH as [|? ? _ H]; subst. eapply Forall_impl; [|exact H]. cbn. intros; lra.
Qed.
Theorem periods_found fuel p step f threshold ps : canon (fst p) -> canon (snd p) -> fst p < snd p -> 
  above_threshold_periods_directed fuel p step f threshold = Some ps ->
  let g := fun t => f t - threshold in
  exists l xs, grid (snd p) step (fst p) l /\ find_crossings fuel p step f threshold = Some xs /\ Forall2 (refined g) (filter (opposite g) l) xs /\
    (Forall (simple g) l -> apart (fun t => t) xs -> tidy p ps /\
     exists zs, Forall2 (resolved g) (filter (opposite g) l) zs /\
       forall t, inside p t -> Forall2 (fun z x => away t (z, x)) zs xs -> (in_some ps t <-> threshold < f t)).
Proof.
  intros C1 C2 W E g. unfold above_threshold_periods_directed in E. destruct (find_directed_crossings fuel p step f threshold) as [[cs sa]|] eqn:D; [|discriminate]. injection E as <-.
  assert (S : 0 < step). { unfold find_directed_crossings in D. destruct (scan _ _ _ _ _ _ _) eqn:Sc; [|discriminate]. now apply scan_step in Sc. }
  destruct (directed_found fuel p step f threshold cs sa C1 C2 S D) as (l & xs & G & R & Fc & Sa & _ & Ap). fold g in R, Ap. exists l, xs. split; [exact G|]. split; [exact Fc|]. split; [exact R|].
  intros Si Apx. specialize (Ap Apx). fold (labels g (filter (opposite g) l) xs) in Ap. destruct (scan_states g _ _ _ _ G Si xs R) as (Al & zs & Zs & St).
  assert (Sa' : sa = qltb 0 (g (fst p))) by (rewrite Sa; unfold g; destruct (qltb_r threshold (f (fst p))), (qltb_r 0 (f (fst p) - threshold)); try reflexivity; lra).
  assert (Srt := filter_sorted _ (opposite g) _ (grid_chain _ _ _ _ G)). pose proof (apart_strict _ (refined_sorted _ _ _ Srt R) Apx) as Strict.
  assert (Len : length (filter (opposite g) l) = length xs) by (clear - R; induction R; cbn; congruence).
  assert (T : timely p cs).
  { rewrite Ap. split.
    - clear - Strict Len. revert Len. generalize (filter (opposite g) l). induction Strict as [|x xs S IH F]; intros [|s m] L; try discriminate; unfold labels; cbn [combine map]; [constructor|]. injection L as L. constructor; [now apply IH|].
      clear - F. revert m. induction F as [|y ys H F IH]; intros [|s' m]; cbn [combine map]; constructor; auto.
    - assert (Gr : Forall (fun s => fst p <= fst s /\ fst s <= snd s /\ snd s <= snd p) (filter (opposite g) l)) by (apply Forall_forall; intros s I; apply filter_In in I as [I _]; revert s I; apply Forall_forall; now apply (grid_range _ step)).
      clear - R Gr. induction R as [|s x m xs R F IH]; [constructor|]. inversion Gr; subst. unfold labels. cbn [combine map]. constructor; [|now apply IH]. destruct R as [R _]. unfold inside. cbn. lra. }
  rewrite <- Ap, <- Sa' in Al. destruct (periods_ok p cs sa W T Al) as (Ti & M). split; [exact Ti|]. exists zs. split; [exact Zs|]. intros t It A.
  destruct (St t) as (b & Sb & Hb); try apply It; [assumption|assumption|]. rewrite <- Ap, <- Sa' in Sb. rewrite (M t b It); [|rewrite Ap; now apply (away_ct g _ _ zs)|exact Sb]. rewrite Hb. unfold g. split; intros; lra.
Qed.

(** ** Midpoint checks *)
Lemma mid_between a b : a < b -> a < midpoint a b < b.
Proof. intros H. unfold midpoint. rewrite Qred_correct. lra. Qed.
Lemma pair_up_same f threshold p : forall l above, above = false -> timely p l -> Forall (fun c => ct c < snd p) l -> alternate above l -> 
  (forall t, inside p t -> forall pre c post, l = pre ++ c :: post -> cdir c = 1%Z -> ct c < t -> Forall (fun d => t < ct d) post -> threshold < f t) ->
  pair_up (fun a b => let m := midpoint a b in qleb (fst p) m && qleb m (snd p) && qltb threshold (f m)) (snd p) l = pair_up qltb (snd p) l.
Proof.
  induction l as [l IH] using (well_founded_induction (Wf_nat.well_founded_ltof _ (@length crossing))). unfold Wf_nat.ltof in IH. intros above -> [S F] St A D.
  assert (Keep : forall a b, fst p <= a -> a < b -> b <= snd p -> threshold < f (midpoint a b) -> (let m := midpoint a b in qleb (fst p) m && qleb m (snd p) && qltb threshold (f m)) = qltb a b).
  { intros a b H1 H2 H3 H4. pose proof (mid_between a b H2). cbv zeta. rewrite (proj2 (qltb_true a b) H2). rewrite !andb_true_iff, !qleb_true, qltb_true. repeat split; try lra; assumption. }
  destruct l as [|c [|d l]]; [reflexivity| |].
  - destruct A as [A _]. change (cdir c = 1%Z) in A. inversion F as [|? ? Fc _]; subst. inversion St as [|? ? Sc _]; subst. unfold inside in Fc. cbn [pair_up]. rewrite A. change (Z.eqb 1 1) with true. cbv iota.
    rewrite Keep; try lra; [reflexivity|]. pose proof (mid_between (ct c) (snd p) Sc). apply (D _) with (pre := []) (c := c) (post := []); auto; [unfold inside; lra|lra].
  - destruct A as (A1 & A2 & A3). change (cdir c = 1%Z) in A1. change (cdir d = (-1)%Z) in A2. cbn [negb] in A3. inversion S as [|? ? S1 Sc]; subst. inversion S1 as [|? ? S2 Sd]; subst. inversion F as [|? ? Fc F1]; subst. inversion F1 as [|? ? Fd F2]; subst. inversion Sc as [|? ? Hcd Sc']; subst.
    inversion St as [|? ? _ St1]; subst. inversion St1 as [|? ? _ St2]; subst. unfold inside in Fc, Fd. cbn [pair_up]. rewrite A1, A2. change (Z.eqb 1 1) with true. change (Z.eqb (-1) (-1)) with true. cbv iota.
    rewrite Keep; try lra.
    + f_equal. apply (IH l ltac:(cbn; lia) false eq_refl (conj S2 F2) St2 A3). intros t It pre x post E X Lt Fo. apply (D t It (c :: d :: pre) x post); auto. now rewrite E.
    + pose proof (mid_between (ct c) (ct d) Hcd). apply (D _) with (pre := []) (c := c) (post := d :: l); auto; [unfold inside; lra|lra|]. constructor; [lra|]. eapply Forall_impl; [|exact Sd]. intros a Ha. cbv beta in *. lra.
Qed.
Theorem same_periods p l above f threshold : fst p < snd p -> timely p l -> Forall (fun c => fst p < ct c < snd p) l -> alternate above l ->
  describes p above l (fun t => threshold < f t) -> build_above_periods l p above f threshold = build_above_periods_directed l p above.
Proof.
  intros W T Fs A D. unfold build_above_periods, build_above_periods_directed. destruct l as [|c l]; [reflexivity|].
  assert (Fs' : Forall (fun c => ct c < snd p) (c :: l)) by (eapply Forall_impl; [|exact Fs]; cbn; intros; lra).
  destruct above; cbn [andb].
  - destruct A as [A1 A2]. cbn [negb] in A2. rewrite A1. change (Z.eqb (-1) (-1)) with true. cbv iota. inversion Fs as [|? ? Hc Fs1]; subst. destruct T as [S F]. inversion S as [|? ? S1 Sc]; subst. inversion F as [|? ? Fc F1]; subst. inversion Fs' as [|? ? _ Fs2]; subst.
    pose proof (mid_between (fst p) (ct c) (proj1 Hc)) as M. f_equal.
    + rewrite (proj2 (qltb_true (fst p) (ct c)) (proj1 Hc)). assert (Up : threshold < f (midpoint (fst p) (ct c))); [|now rewrite (proj2 (qltb_true _ _) Up)].
      apply (proj2 (D (midpoint (fst p) (ct c)) true ltac:(unfold inside; lra) ltac:(apply state_first; constructor; [lra|eapply Forall_impl; [|exact Sc]; intros a Ha; cbv beta in *; lra]))). reflexivity.
    + apply (pair_up_same f threshold p l false eq_refl (conj S1 F1) Fs2 A2). intros t It pre x post E X Lt Fo. assert (Q := state_after true (c :: l) t (c :: pre) x post ltac:(now rewrite E) Lt Fo). rewrite X in Q. exact (proj2 (D t true It Q) eq_refl).
  - apply (pair_up_same f threshold p (c :: l) false eq_refl T Fs' A). intros t It pre x post E X Lt Fo. assert (Q := state_after false (c :: l) t pre x post E Lt Fo). rewrite X in Q. exact (proj2 (D t true It Q) eq_refl).
Qed.
