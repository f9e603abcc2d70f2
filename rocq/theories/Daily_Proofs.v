(** Proofs about the daily search for the Sun's crossings. *)
From Coq Require Import List ZArith QArith Qabs Qminmax Qround Bool Lia Lqa Sorting.Sorted.
From Verif Require Import Qb Root_Model Root_Spec Root_Proofs Cross_Model Cross_Spec Cross_Proofs Sweep_Model Sweep_Spec Sweep_Proofs Daily_Model Daily_Spec.
Import ListNotations.
Local Open Scope Q_scope.

Lemma max_mjd_ok a b : a <= max_mjd a b /\ b <= max_mjd a b /\ (max_mjd a b = a \/ max_mjd a b = b).
Proof. unfold max_mjd. destruct (qleb_r b a); repeat split; auto; lra. Qed.
Lemma min_mjd_ok a b : min_mjd a b <= a /\ min_mjd a b <= b /\ (min_mjd a b = a \/ min_mjd a b = b).
Proof. unfold min_mjd. destruct (qleb_r a b); repeat split; auto; lra. Qed.
Lemma influence_in day p : fst p <= fst (influence day p) /\ snd (influence day p) <= snd p.
Proof. unfold influence. cbn [fst snd]. pose proof (max_mjd_ok (fst p) (Qred (fst day - (1 # 2)))). pose proof (min_mjd_ok (snd p) (Qred (snd day + (1 # 2)))). tauto. Qed.

(** ** The days *)
Lemma days_in p d : In d (days p) <-> fst p < snd p /\ exists a, d = (inject_Z a, inject_Z (a + 1)) /\ (Qfloor (fst p) - 1 <= a <= Qfloor (snd p) + 1)%Z.
Proof.
  unfold days. destruct (qltb_r (fst p) (snd p)) as [W|W]; [|split; [intros []|lra]]. assert (F : (Qfloor (fst p) <= Qfloor (snd p))%Z) by (apply Qfloor_resp_le; lra).
  rewrite in_map_iff. split.
  - intros (k & <- & I). apply in_seq in I. split; [assumption|]. eexists. split; [reflexivity|]. lia.
  - intros (_ & a & -> & A). exists (Z.to_nat (a - (Qfloor (fst p) - 1))). split; [cbn zeta; do 2 f_equal; lia|]. apply in_seq. lia.
Qed.
Lemma days_cover p t : fst p < snd p -> inside p t -> exists d, In d (days p) /\ fst d <= t < snd d /\ snd d == fst d + 1 /\ inside (influence d p) t.
Proof.
  intros W [I1 I2]. exists (inject_Z (Qfloor t), inject_Z (Qfloor t + 1)). pose proof (Qfloor_le t). pose proof (Qlt_floor t) as L. cbn [fst snd].
  split; [apply days_in; split; [assumption|]; eexists; split; [reflexivity|]; pose proof (Qfloor_resp_le _ _ I1); pose proof (Qfloor_resp_le _ _ I2); lia|].
  split; [auto|]. split; [rewrite inject_Z_plus; reflexivity|]. unfold influence, inside. cbn [fst snd].
  destruct (max_mjd_ok (fst p) (Qred (inject_Z (Qfloor t) - (1 # 2)))) as (_ & _ & [->| ->]); destruct (min_mjd_ok (snd p) (Qred (inject_Z (Qfloor t + 1) + (1 # 2)))) as (_ & _ & [->| ->]); rewrite ?Qred_correct; lra.
Qed.

(** ** Brackets *)
Lemma find_bracket_ok f tol bounds center radii lo hi : find_bracket f tol bounds center radii = Some (lo, hi) ->
  fst bounds <= lo /\ lo <= hi /\ hi <= snd bounds /\ ((lo = hi /\ Qabs (f lo) <= tol) \/ (lo < hi /\ sign_change (f lo) (f hi))).
Proof.
  induction radii as [|r radii IH]; cbn [find_bracket]; [discriminate|]. pose proof (max_mjd_ok (fst bounds) (Qred (center - r))) as M. pose proof (min_mjd_ok (snd bounds) (Qred (center + r))) as N.
  set (a := max_mjd _ _) in *. set (b := min_mjd _ _) in *. destruct (qleb_r b a); [assumption|]. destruct (qleb_r (Qabs (f a)) tol) as [A|A].
  - intros E. injection E as <- <-. repeat split; try tauto; lra.
  - destruct (qleb_r (Qabs (f b)) tol) as [B|B].
    + intros E. injection E as <- <-. repeat split; try tauto; lra.
    + destruct (same_sign (f a) (f b)) eqn:S; [assumption|]. apply same_sign_false in S. intros E. injection E as <- <-. repeat split; try tauto; try lra. right. split; [lra|assumption].
Qed.
Lemma newton_ok n g bounds tol analytic t r slope x : newton n g bounds tol analytic t r slope = inl x -> inside bounds x /\ Qabs (g x) <= tol.
Proof.
  revert t r slope. induction n as [|n IH]; intros t r slope E; cbn [newton] in E; [discriminate|]. destruct (qltb (Qabs slope) _); [discriminate|].
  set (next := Qred _) in E. destruct (qltb_r next (fst bounds)); [discriminate|]. destruct (qltb_r (snd bounds) next); [discriminate|]. cbn [orb] in E. destruct (qleb_r (Qabs (g next)) tol).
  - injection E as <-. unfold inside. lra.
  - destruct (qleb (Qabs r) _); [discriminate|]. now apply IH in E.
Qed.
Lemma rooted_sub tt rt g w p x : fst p <= fst w -> snd w <= snd p -> rooted tt rt g w x -> rooted tt rt g p x.
Proof.
  intros A B (I & H). assert (Ex : forall t, exhausted g t rt w -> exhausted g t rt p) by (intros t (lo & hi & s & X1 & X2 & X3 & X); exists lo, hi, s; repeat split; try tauto; lra).
  unfold rooted, inside in *. split; [lra|]. destruct H as [H|[(y & Y & S)|[H|H]]]; auto. right; left. exists y. unfold inside in *. split; [lra|assumption].
Qed.

Section Daily.
Context {A : Type}.
Variables (o : config) (predictor : bool) (signal fast : Q -> Q) (fit : Q -> interval -> option fitted)
  (solve : interval -> option A) (transit : A -> Q) (aim_at : A -> Q -> aim).
Notation tt := (time_tolerance o).
Notation rt := (residual_tol o).
Notation G thr := (fun t => signal t - thr).
Lemma rt_pos : 0 < rt.
Proof. apply max_pos. reflexivity. Qed.

Lemma source_rooted w step thr c : source o w step (G thr) w c -> inside w (ct c) -> rooted tt rt (G thr) w (ct c).
Proof.
  pose proof rt_pos as P. intros S I. split; [assumption|]. destruct S as [[(_ & V & _) _]|(q & Q1 & Q2 & Q3 & Q4 & l & s & Gr & Is & [((_ & H) & _)|(Sc & (In1 & H) & _)])].
  - left. unfold residual_tol in *. destruct (qmax_r (max_residual o) poly_zero_tol); lra.
  - left. change (eff_res (max_residual o)) with rt in H. lra.
  - change (eff_res (max_residual o)) with rt in H. apply grid_range in Gr. rewrite Forall_forall in Gr. destruct (Gr s Is) as (G1 & G2 & G3).
    destruct H as [H|[(y & Y & Sy & D)|(lo & hi & st & X1 & X2 & X3 & X)]]; [left; lra| |].
    + right; left. exists y. unfold inside in *. split; [lra|]. split; [assumption|]. unfold eff_tol in D. destruct (qmax_r (4 * Qmax tt epsilon) f_eps); lra.
    + right; right; right. exists lo, hi, st. repeat split; try tauto; lra.
Qed.
Lemma chebyshev_rooted w thr c : resolves w tt -> In c (chebyshev o signal fit w thr) -> rooted tt rt (G thr) w (ct c) /\ (cdir c = 1%Z \/ cdir c = (-1)%Z).
Proof.
  unfold chebyshev. intros R I. destruct (find_labelled_crossings _ _ _ _ _ _) as [[l above]|] eqn:E; [|destruct I].
  destruct (find_sound _ _ _ _ _ _ _ _ _ R E I) as (_ & In1 & S). split; [now apply (source_rooted _ _ _ _ S)|now apply source_dir in S].
Qed.
Lemma fallback_rooted w thr c : (fst w < snd w -> resolves w tt) -> In c (fallback o signal fit w thr) -> rooted tt rt (G thr) w (ct c) /\ (cdir c = 1%Z \/ cdir c = (-1)%Z).
Proof. unfold fallback. destruct (qltb_r (fst w) (snd w)); [|intros _ []]. intros R. apply chebyshev_rooted; auto. Qed.
Lemma full_root_ok bounds center thr x : resolves bounds tt -> full_root o signal bounds center thr = Some x -> rooted tt rt (G thr) bounds x.
Proof.
  intros R E. unfold full_root in E. destruct (find_bracket _ _ _ _ _) as [[lo hi]|] eqn:B; [|discriminate]. apply find_bracket_ok in B as (B1 & B2 & B3 & B). pose proof rt_pos as P. unfold rooted, inside.
  destruct (qltb_r (hi - lo) root_interval_eps) as [T|T].
  - injection E as <-. split; [lra|]. destruct B as [(-> & B)|(L & B)]; [left; lra|]. right; left. exists hi. split; [lra|]. split; [assumption|]. unfold root_interval_eps in T.
    rewrite Qabs_neg by lra. destruct (qmax_r (4 * Qmax tt epsilon) f_eps); lra.
  - destruct B as [(-> & B)|(L & B)]; [unfold root_interval_eps in T; assert (0 < f_eps) by reflexivity; lra|].
    destruct (brent_f64 _ _ _ _ _ _ _) as [y|] eqn:Br; [|discriminate]. destruct (qleb_r (fst bounds) y); [|discriminate]. destruct (qleb_r y (snd bounds)); [|discriminate]. injection E as <-. split; [lra|].
    assert (Rs : resolves (lo, hi) tt) by (apply (resolves_sub bounds (lo, hi) tt tt R); cbn; lra).
    apply scan_root in Br as (_ & [H|[(z & Z & Sz & D)|(s' & Ps & _)]]); auto; [left; lra| |].
    + right; left. exists z. split; [lra|]. split; [assumption|]. destruct (qmax_r (4 * Qmax tt epsilon) f_eps), (qmax_r tt epsilon); lra.
    + right; right; left. exists lo, hi, s'. repeat split; try assumption; lra.
Qed.
Lemma refine_candidate_ok bounds predicted thr slope x : (fst bounds < snd bounds -> resolves bounds tt) -> refine_candidate o signal fast bounds predicted thr slope = Some x -> rooted tt rt (G thr) bounds x.
Proof.
  intros R E. pose proof rt_pos as P. unfold refine_candidate in E. destruct (fast_root _ _ _ _ _) as [t|] eqn:Fr; [|discriminate]. destruct (qltb_r t (fst bounds)); [discriminate|]. destruct (qltb_r (snd bounds) t); [discriminate|].
  cbn [orb] in E. destruct (qleb_r (Qabs (signal t - thr)) rt) as [H|H].
  - injection E as <-. unfold rooted, inside. split; [lra|left; lra].
  - destruct (newton _ _ _ _ _ _ _ _) as [y|y] eqn:N.
    + apply newton_ok in N as (N1 & N2). injection E as <-. unfold rooted, inside in *. split; [lra|left; lra].
    + apply (full_root_ok bounds y); [|assumption]. apply R. unfold full_root in E. destruct (find_bracket _ _ _ _ _) as [[lo hi]|] eqn:B; [|discriminate].
      clear - B. revert B. generalize bracket_radii. induction l as [|r radii IH]; cbn [find_bracket]; [discriminate|]. pose proof (max_mjd_ok (fst bounds) (Qred (y - r))) as M. pose proof (min_mjd_ok (snd bounds) (Qred (y + r))) as N.
      set (a := max_mjd _ _) in *. set (b := min_mjd _ _) in *. destruct (qleb_r b a); [assumption|]. intros _. lra.
Qed.
Lemma refine_all_ok bounds p thr l r c : (fst bounds < snd bounds -> resolves bounds tt) -> refine_all o signal fast bounds p thr l = Some r -> In c r ->
  rooted tt rt (G thr) bounds (ct c) /\ inside p (ct c) /\ exists t slope, In (t, cdir c, slope) l.
Proof.
  intros R. revert r. induction l as [|[[t d] slope] l IH]; intros r E I; cbn [refine_all] in E; [injection E as <-; destruct I|].
  assert (K : forall r', refine_all o signal fast bounds p thr l = Some r' -> In c r' -> rooted tt rt (G thr) bounds (ct c) /\ inside p (ct c) /\ exists t' slope', In (t', cdir c, slope') ((t, d, slope) :: l)).
  { intros r' E' I'. destruct (IH r' E' I') as (X & Y & t' & s' & Z). split; [assumption|]. split; [assumption|]. exists t', s'. now right. }
  destruct (near_window p t); [|now apply (K r)]. destruct (refine_candidate _ _ _ _ _ _ _) as [x|] eqn:C; [|discriminate]. destruct (refine_all _ _ _ _ _ _ l) as [r'|]; [|discriminate]. injection E as <-.
  destruct (qleb_r (fst p) x); [|now apply (K r')]. destruct (qleb_r x (snd p)); [|now apply (K r')]. destruct I as [<-|I]; [|now apply (K r')]. cbn [ct cdir].
  split; [now apply refine_candidate_ok in C|]. split; [split; assumption|]. exists t, slope. now left.
Qed.
Lemma one_day_ok p thr day c : resolves p tt -> In c (one_day o signal fast fit solve transit aim_at p thr day) -> rooted tt rt (G thr) p (ct c) /\ (cdir c = 1%Z \/ cdir c = (-1)%Z).
Proof.
  intros R. destruct (influence_in day p) as (W1 & W2). set (w := influence day p) in *.
  assert (Rw : fst w < snd w -> resolves w tt) by (intros W; apply (resolves_sub p w tt tt R); lra).
  assert (Fb : In c (fallback o signal fit w thr) -> rooted tt rt (G thr) p (ct c) /\ (cdir c = 1%Z \/ cdir c = (-1)%Z)).
  { intros I. apply fallback_rooted in I as (X & D); [|assumption]. split; [now apply (rooted_sub _ _ _ w)|assumption]. }
  unfold one_day. fold w. destruct (solve day) as [a|]; [|exact Fb]. unfold day_crossings. fold w. destruct (qltb _ f_eps); [exact Fb|].
  destruct (qltb (1 + graze_eps) _); [destruct (accept_no_crossing _ _ _ _ _); [intros []|exact Fb]|]. destruct (qltb _ (- (1) - graze_eps)); [destruct (accept_no_crossing _ _ _ _ _); [intros []|exact Fb]|].
  destruct (_ || _ || _); [exact Fb|]. destruct (refine_all _ _ _ _ _ _ _) as [l|] eqn:E; [|exact Fb]. intros I. destruct (refine_all_ok w p thr _ l c Rw E I) as (X & _ & t & slope & [Z|[Z|[]]]);
    (split; [now apply (rooted_sub _ _ _ w)|]); injection Z as _ Z _; rewrite <- Z; auto.
Qed.
Theorem solar_sound p thr c : resolves p tt -> In c (solar_crossings o predictor signal fast fit solve transit aim_at p thr) -> rooted tt rt (G thr) p (ct c) /\ (cdir c = 1%Z \/ cdir c = (-1)%Z).
Proof.
  intros R. unfold solar_crossings. destruct (qleb_r (snd p) (fst p)); [intros []|]. destruct (force_scan o) eqn:F.
  - intros I. destruct (scan_labelled_sound _ _ _ _ _ R _ I) as (W & In1 & Sc).
    assert (S : source o p (fallback_scan_step o diurnal_step) (G thr) p c) by (right; exists p; repeat split; try apply In1; try lra; exact Sc).
    split; [now apply source_rooted in S|now apply source_dir in S].
  - destruct predictor; cbn [negb]; [|now apply chebyshev_rooted]. intros I. apply (proj1 (proj2 (sort_dedup_ok ct _))) in I. apply in_flat_map in I as (day & _ & I). now apply one_day_ok in I.
Qed.
Lemma chebyshev_order w thr : StronglySorted (fun a b => ct a + dedupe_eps <= ct b) (chebyshev o signal fit w thr).
Proof. unfold chebyshev. destruct (find_labelled_crossings _ _ _ _ _ _) as [[l above]|] eqn:E; [now apply find_order in E|constructor]. Qed.
Theorem solar_order p thr : StronglySorted (fun a b => ct a + dedupe_eps <= ct b) (solar_crossings o predictor signal fast fit solve transit aim_at p thr).
Proof.
  unfold solar_crossings. destruct (qleb_r (snd p) (fst p)); [constructor|]. destruct (force_scan o).
  - unfold scan_labelled_crossings. destruct (qleb _ _); [constructor|]. destruct (scan _ _ _ _ _ _ _); [apply sort_dedup_sorted|constructor].
  - destruct predictor; cbn [negb]; [apply sort_dedup_sorted|apply chebyshev_order].
Qed.

(** ** Several thresholds at once *)
Lemma extend_map p day thrs (f : Q -> list crossing) : extend o signal fast fit solve transit aim_at p day thrs (map f thrs) = map (fun thr => f thr ++ one_day o signal fast fit solve transit aim_at p thr day) thrs.
Proof. unfold extend. induction thrs as [|t l IH]; [reflexivity|]. cbn [map combine]. f_equal. exact IH. Qed.
Lemma fold_extend p ds thrs (f : Q -> list crossing) :
  fold_left (fun results day => extend o signal fast fit solve transit aim_at p day thrs results) ds (map f thrs) = map (fun thr => f thr ++ flat_map (one_day o signal fast fit solve transit aim_at p thr) ds) thrs.
Proof.
  revert f. induction ds as [|d ds IH]; intros f; cbn [fold_left flat_map]; [apply map_ext; intros; now rewrite app_nil_r|]. rewrite extend_map, IH. apply map_ext. intros t. now rewrite app_assoc.
Qed.
Theorem solar_batch p thrs : solar_crossings_for_thresholds o predictor signal fast fit solve transit aim_at p thrs = map (solar_crossings o predictor signal fast fit solve transit aim_at p) thrs.
Proof.
  destruct thrs as [|t l]; [reflexivity|]. unfold solar_crossings_for_thresholds. destruct (qleb (snd p) (fst p)) eqn:W; [apply map_ext; intros; unfold solar_crossings; now rewrite W|].
  destruct (force_scan o) eqn:F; [reflexivity|]. destruct predictor eqn:Pr; cbn [negb orb]; [|reflexivity]. rewrite (fold_extend p (days p) (t :: l) (fun _ => [])), map_map. apply map_ext. intros thr. unfold solar_crossings. now rewrite W, F.
Qed.

(** ** Nothing is passed over silently *)
Lemma accept_spec w thr above : accept_no_crossing o signal w thr above = true -> snd w <= fst w \/
  forall t, In t [fst w; mid_day w; snd w] -> if above then thr + rt * 10 < signal t else signal t < thr - rt * 10.
Proof.
  unfold accept_no_crossing. destruct (qleb_r (snd w) (fst w)); [now left|]. intros H. right. rewrite forallb_forall in H. intros t I. specialize (H t I). cbn zeta in H. rewrite !andb_true_iff, !negb_true_iff in H.
  destruct H as ((H1 & H2) & H3). destruct (qleb_r (Qabs (signal t - thr)) (rt * 10)) as [|L]; [discriminate|]. destruct above; cbn [andb negb] in H2, H3.
  - destruct (qltb_r (signal t - thr) 0); [discriminate|]. rewrite Qabs_pos in L by lra. lra.
  - destruct (qltb_r 0 (signal t - thr)); [discriminate|]. rewrite Qabs_neg in L by lra. lra.
Qed.
Lemma refine_all_complete bounds p thr l r t d slope : refine_all o signal fast bounds p thr l = Some r -> In (t, d, slope) l -> near_window p t = true ->
  exists x, refine_candidate o signal fast bounds t thr slope = Some x /\ (inside p x -> In (Cr x d) r).
Proof.
  revert r. induction l as [|[[t' d'] slope'] l IH]; intros r E I N; [destruct I|]. cbn [refine_all] in E. destruct I as [I|I].
  - injection I as -> -> ->. rewrite N in E. destruct (refine_candidate _ _ _ _ _ _ _) as [x|]; [|discriminate]. destruct (refine_all _ _ _ _ _ _ l) as [r'|]; [|discriminate]. injection E as <-. exists x. split; [reflexivity|].
    intros [X1 X2]. destruct (qleb_r (fst p) x); [|lra]. destruct (qleb_r x (snd p)); [|lra]. now left.
  - destruct (near_window p t'); [|now apply IH]. destruct (refine_candidate _ _ _ _ t' _ _) as [x|]; [|discriminate]. destruct (refine_all _ _ _ _ _ _ l) as [r'|]; [|discriminate]. injection E as <-. destruct (IH r' eq_refl I N) as (y & Y & H).
    exists y. split; [assumption|]. intros P. specialize (H P). destruct (qleb _ _ && _); [now right|assumption].
Qed.
Theorem solar_day p thr day : fst p < snd p -> force_scan o = false -> predictor = true -> In day (days p) ->
  let w := influence day p in
  let reported c := exists c', In c' (solar_crossings o predictor signal fast fit solve transit aim_at p thr) /\ (c = c' \/ Qabs (ct c - ct c') < dedupe_eps) in
  (forall c, In c (fallback o signal fit w thr) -> reported c) \/
  exists a, solve day = Some a /\ f_eps <= Qabs (denom (aim_at a thr)) /\ let c := cos_h0 (aim_at a thr) in
    (1 + graze_eps < c /\ (snd w <= fst w \/ forall t, In t [fst w; mid_day w; snd w] -> signal t < thr - rt * 10)) \/
    (c < - (1) - graze_eps /\ (snd w <= fst w \/ forall t, In t [fst w; mid_day w; snd w] -> thr + rt * 10 < signal t)) \/
    (- (1) + graze_eps <= c <= 1 - graze_eps /\ forall t d slope, In (t, d, slope) (candidates transit a (aim_at a thr)) -> fst p - last_radius <= t <= snd p + last_radius ->
       exists x, refine_candidate o signal fast w t thr slope = Some x /\ (inside p x -> reported (Cr x d))).
Proof.
  intros W F Pr I w reported. assert (Rep : forall c, In c (one_day o signal fast fit solve transit aim_at p thr day) -> reported c).
  { intros c Ic. unfold reported. unfold solar_crossings. destruct (qleb_r (snd p) (fst p)); [lra|]. rewrite F, Pr. cbn [negb].
    apply (proj2 (proj2 (sort_dedup_ok ct _))). apply in_flat_map. now exists day. }
  clearbody reported. unfold one_day in Rep. fold w in Rep. destruct (solve day) as [a|]; [|now left]. unfold day_crossings in Rep. fold w in Rep. cbn zeta in Rep.
  destruct (qltb_r (Qabs (denom (aim_at a thr))) f_eps) as [|D]; [now left|].
  destruct (qltb_r (1 + graze_eps) (cos_h0 (aim_at a thr))) as [C|C].
  { destruct (accept_no_crossing o signal w thr false) eqn:Ac; [|now left]. right. exists a. split; [reflexivity|]. split; [lra|]. left. split; [assumption|]. now apply accept_spec in Ac. }
  destruct (qltb_r (cos_h0 (aim_at a thr)) (- (1) - graze_eps)) as [C'|C'].
  { destruct (accept_no_crossing o signal w thr true) eqn:Ac; [|now left]. right. exists a. split; [reflexivity|]. split; [lra|]. right; left. split; [assumption|]. now apply accept_spec in Ac. }
  destruct (qleb_r (- (1)) (cos_h0 (aim_at a thr))) as [K1|]; [|now left]. destruct (qleb_r (cos_h0 (aim_at a thr)) 1) as [K2|]; [|now left]. cbn [andb negb orb] in Rep.
  destruct (qltb_r (Qabs (cos_h0 (aim_at a thr) + 1)) graze_eps) as [|K3]; [now left|]. destruct (qltb_r (Qabs (cos_h0 (aim_at a thr) - 1)) graze_eps) as [|K4]; [now left|]. cbn [orb] in Rep.
  destruct (refine_all o signal fast w p thr _) as [r|] eqn:E; [|now left]. right. exists a. split; [reflexivity|]. split; [lra|]. right; right.
  rewrite Qabs_pos in K3 by lra. rewrite Qabs_neg in K4 by lra. split; [lra|]. intros t d slope Ic [N1 N2].
  destruct (refine_all_complete w p thr _ r t d slope E Ic) as (x & X & H). { unfold near_window. now rewrite (proj2 (qleb_true _ _) N1), (proj2 (qleb_true _ _) N2). }
  exists x. split; [assumption|]. auto.
Qed.
End Daily.
