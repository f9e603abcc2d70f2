(** Proofs about crossing searches. *)
From Coq Require Import List ZArith QArith Qabs Qminmax Qround Bool Lqa Lia Setoid Sorting.Sorted.
From Verif Require Import Qb Sort Root_Model Root_Spec Root_Proofs Cross_Model Cross_Spec Cross_Proofs Sweep_Model Sweep_Spec.
Import ListNotations.
Local Open Scope Q_scope.

Lemma qmax_r a b : Qmax a b == a /\ b <= a \/ Qmax a b == b /\ a <= b.
Proof. destruct (Q.max_spec a b) as [[L E]|[L E]]; rewrite E; lra. Qed.
Lemma qmin_r a b : Qmin a b == a /\ a <= b \/ Qmin a b == b /\ b <= a.
Proof. destruct (Q.min_spec a b) as [[L E]|[L E]]; rewrite E; lra. Qed.
Lemma max_pos a b : 0 < b -> 0 < Qmax a b.
Proof. destruct (qmax_r a b); lra. Qed.
Lemma resolves_sub p s tt tt' : resolves p tt -> fst p <= fst s -> fst s <= snd s -> snd s <= snd p -> tt <= tt' -> resolves s tt'.
Proof.
  unfold resolves. intros R A B C D. pose proof (abs_le (fst p) (snd p) (fst s) ltac:(lra)). pose proof (abs_le (fst p) (snd p) (snd s) ltac:(lra)).
  pose proof (Q.max_lub _ _ _ H H0). unfold epsilon in *. lra.
Qed.
Lemma passes_enough p step : 0 < step -> snd p - fst p <= inject_Z (Z.of_nat (passes_for p step)) * step.
Proof.
  intros S. unfold passes_for. set (q := (snd p - fst p) / step). pose proof (Qle_ceiling q).
  assert (E : snd p - fst p == q * step) by (unfold q; field; lra). rewrite E.
  assert (inject_Z (Qceiling q) <= inject_Z (Z.of_nat (Z.to_nat (Qceiling q)))) by (rewrite <- Zle_Qle; lia).
  apply Qmult_le_compat_r; lra.
Qed.

(** ** The scan *)
Section OneScan.
Variables (g : Q -> Q) (p : interval) (step tt rt : Q).
Hypotheses (step_pos : 0 < step) (fine : resolves p tt).

Lemma qleb_if a b : qleb a b = true -> a <= b. Proof. apply qleb_true. Qed.
Lemma probe_range m : tenth_micro <= clamp tenth_micro milli m <= milli.
Proof. unfold clamp. assert (tenth_micro < milli) by reflexivity. destruct (qltb_r m tenth_micro), (qltb_r milli m); lra. Qed.
Lemma endpoint_direction_ok t d : inside p t -> endpoint_direction g p step t = Some d -> heads g p (Cr t d).
Proof.
  intros [I1 I2] E. unfold endpoint_direction in E. set (probe := clamp _ _ _) in E. pose proof (probe_range (step * (1 # 4))) as P. fold probe in P. clearbody probe.
  assert (0 < tenth_micro) by reflexivity. assert (0 < epsilon) by reflexivity.
  assert (L : fst p <= Qred (Qmax (t - probe) (fst p)) /\ Qred (Qmax (t - probe) (fst p)) <= t /\ t - Qred (Qmax (t - probe) (fst p)) <= milli) by (rewrite !Qred_correct; destruct (qmax_r (t - probe) (fst p)); lra).
  assert (R : Qred (Qmin (t + probe) (snd p)) <= snd p /\ t <= Qred (Qmin (t + probe) (snd p)) /\ Qred (Qmin (t + probe) (snd p)) - t <= milli) by (rewrite !Qred_correct; destruct (qmin_r (t + probe) (snd p)); lra).
  set (l := Qred (Qmax _ _)) in *. set (r := Qred (Qmin _ _)) in *. clearbody l r. destruct (qleb_r r l); [discriminate|].
  rewrite (Qabs_pos (t - fst p)) in E by lra. rewrite (Qabs_neg (t - snd p)) in E by lra. unfold heads, uphill, downhill. cbn [ct cdir].
  destruct (qleb_r (t - fst p) epsilon); [|destruct (qleb_r (- (t - snd p)) epsilon)]; destruct (qltb_r (g r) 0), (qltb_r 0 (g r)), (qltb_r 0 (g l)), (qltb_r (g l) 0), (qleb_r (g l) 0), (qleb_r (g r) 0);
    cbn [andb] in E; try discriminate; injection E as <-; try lra; ((left; split; [reflexivity|]) || (right; split; [reflexivity|])); exists l, r; repeat split; intros; lra.
Qed.
Lemma bracket_ok s c : fst p <= fst s -> fst s <= snd s -> snd s <= snd p -> In c (bracket_hit g p tt rt (fst s) (g (fst s)) (snd s) (g (snd s))) ->
  sign_change (g (fst s)) (g (snd s)) /\ root_near g tt rt s (ct c) /\ cdir c = if qltb (g (fst s)) 0 then 1%Z else (-1)%Z.
Proof.
  intros A B C I. unfold bracket_hit in I. destruct (same_sign _ _) eqn:S; [destruct I|]. apply same_sign_false in S. destruct (brent_f64 _ _ _ _ _ _ _) as [x|] eqn:E; [|destruct I].
  destruct (_ && _); [|destruct I]. destruct I as [<-|[]]. cbn [ct cdir]. split; [assumption|]. split; [|reflexivity].
  destruct (scan_root _ _ _ _ _ _ _ _ eq_refl eq_refl (resolves_sub p s tt tt fine A B C ltac:(lra)) E) as (R & W). split; [assumption|].
  destruct W as [W|[W|(s' & P & _)]]; [now left|right; now left|]. right. right. exists (fst s), (snd s), s'. repeat split; try lra; assumption.
Qed.
Lemma bracket_found s : fst p <= fst s -> fst s <= snd s -> snd s <= snd p -> sign_change (g (fst s)) (g (snd s)) ->
  exhausted g tt rt s \/ exists c, In c (bracket_hit g p tt rt (fst s) (g (fst s)) (snd s) (g (snd s))).
Proof.
  intros A B C S. pose proof (resolves_sub p s tt tt fine A B C ltac:(lra)) as F. unfold bracket_hit. rewrite (proj2 (same_sign_false _ _) S). destruct (brent_f64 _ _ _ _ _ _ _) as [x|] eqn:E.
  - right. destruct (scan_root _ _ _ _ _ _ _ _ eq_refl eq_refl F E) as (R & _). eexists. destruct (qleb_r (fst p) x), (qleb_r x (snd p)); try lra. left. reflexivity.
  - left. destruct (scan_root_none _ _ _ _ _ _ _ eq_refl eq_refl F B E) as [N|(s' & P & _)]; [contradiction|]. exists (fst s), (snd s), s'. repeat split; try lra; assumption.
Qed.
Lemma scan_hits_ok : exists l, scan (passes_for p step) (snd p) step g (scan_hit g p step tt rt) (fst p) (g (fst p)) = Some (flat_map (fun s => scan_hit g p step tt rt (fst s) (g (fst s)) (snd s) (g (snd s))) l) /\
  grid (snd p) step (fst p) l /\ (canon (fst p) -> canon (snd p) -> Forall (fun s => canon (fst s) /\ canon (snd s)) l).
Proof.
  destruct (scan_ends (snd p) step g (scan_hit g p step tt rt) _ (fst p) (g (fst p)) step_pos (passes_enough p step step_pos)) as (r & E).
  pose proof (scan_spec _ _ _ _ _ _ _ _ step_pos eq_refl E) as (G & R & C). eexists. split; [rewrite E, R; reflexivity|]. auto.
Qed.
Lemma scan_hit_ok l s c : grid (snd p) step (fst p) l -> In s l -> In c (scan_hit g p step tt rt (fst s) (g (fst s)) (snd s) (g (snd s))) ->
  scanned g p step tt rt c /\ inside s (ct c).
Proof.
  intros G I H. pose proof (grid_range _ _ _ _ G) as R. rewrite Forall_forall in R. specialize (R s I). destruct R as (R1 & R2 & R3).
  assert (N : forall t v, v = g t -> (t = fst s \/ t = snd s) -> In c (endpoint_hit g p step rt t v) -> scanned g p step tt rt c /\ inside s (ct c)).
  { intros t v Ev T J. unfold endpoint_hit in J. destruct (qleb_r (Qabs v) rt); [|destruct J]. destruct (endpoint_direction g p step t) as [d|] eqn:E; [|destruct J]. destruct J as [<-|[]].
    assert (It : inside s t) by (unfold inside; destruct T; subst t; lra). split; [|exact It]. exists l, s. split; [assumption|]. split; [assumption|]. left. cbn [ct]. split; [split; [assumption|now rewrite <- Ev]|].
    apply endpoint_direction_ok; [unfold inside in *; lra|assumption]. }
  unfold scan_hit in H. rewrite !in_app_iff in H. destruct H as [H|[H|H]]; [apply (N (fst s) (g (fst s))); auto|apply (N (snd s) (g (snd s))); auto|].
  destruct (bracket_ok s c R1 R2 R3 H) as (A & B & C). split; [|apply B]. exists l, s. split; [assumption|]. split; [assumption|]. right. auto.
Qed.
End OneScan.

Lemma grid_sign_change (g : Q -> Q) stop step t l : grid stop step t l -> canon t -> canon stop -> Forall (fun s => canon (fst s) /\ canon (snd s)) l -> t <= stop ->
  sign_change (g t) (g stop) -> exists s, In s l /\ sign_change (g (fst s)) (g (snd s)).
Proof.
  intros G. induction G as [t L|t b l T B S G IH]; intros Ct Cs F Le Sc.
  - assert (t = stop) by (rewrite <- Ct, <- Cs; apply Qred_complete; lra). subst. unfold sign_change in Sc. lra.
  - inversion F as [|? ? [_ Cb] F']; subst. cbn [snd] in Cb. destruct (same_sign (g t) (g b)) eqn:D.
    + apply same_sign_true in D. destruct IH as (s & I & Sc'); auto; [lra| |exists s; split; [now right|assumption]]. unfold sign_change in *. lra.
    + apply same_sign_false in D. exists (t, b). split; [now left|assumption].
Qed.

(** ** scan_labelled_crossings *)
Definition eff_step (step : Q) : Q := Qmax step min_segment_days.
Definition eff_tol (tt : Q) : Q := Qmax tt epsilon.
Definition eff_res (rt : Q) : Q := Qmax rt poly_zero_tol.
Lemma eff_step_pos step : 0 < eff_step step. Proof. apply max_pos. reflexivity. Qed.
Section Scans.
Variables (p : interval) (step : Q) (g : Q -> Q) (tt rt : Q).
Hypothesis fine : resolves p tt.
Lemma fine_eff : fst p < snd p -> resolves p (eff_tol tt).
Proof. intros W. apply (resolves_sub p p tt); auto; try lra. unfold eff_tol. destruct (qmax_r tt epsilon); lra. Qed.
Theorem scan_labelled_sound c : In c (scan_labelled_crossings p step g tt rt) -> fst p < snd p /\ inside p (ct c) /\ scanned g p (eff_step step) (eff_tol tt) (eff_res rt) c.
Proof.
  unfold scan_labelled_crossings. destruct (qleb_r (snd p) (fst p)) as [|W]; [intros []|]. assert (W' : fst p < snd p) by lra. intros I. split; [assumption|].
  fold (eff_step step) (eff_tol tt) (eff_res rt) in I. destruct (scan_hits_ok g p (eff_step step) (eff_tol tt) (eff_res rt) (eff_step_pos step)) as (l & E & G & _). rewrite E in I.
  apply (proj1 (proj2 (sort_dedup_ok ct _))) in I. apply in_flat_map in I as (s & Is & I).
  destruct (scan_hit_ok g p (eff_step step) (eff_tol tt) (eff_res rt) (fine_eff W') l s c G Is I) as (A & B).
  split; [|assumption]. apply grid_range in G. rewrite Forall_forall in G. specialize (G s Is). unfold inside in *. lra.
Qed.
Theorem scan_labelled_complete : fst p < snd p -> exists l, grid (snd p) (eff_step step) (fst p) l /\
  (canon (fst p) -> canon (snd p) -> Forall (fun s => canon (fst s) /\ canon (snd s)) l) /\
  forall s, In s l -> sign_change (g (fst s)) (g (snd s)) -> exhausted g (eff_tol tt) (eff_res rt) s \/
    exists c c', In c (scan_labelled_crossings p step g tt rt) /\ root_near g (eff_tol tt) (eff_res rt) s (ct c') /\ cdir c' = (if qltb (g (fst s)) 0 then 1%Z else (-1)%Z) /\ (c' = c \/ Qabs (ct c' - ct c) < dedupe_eps).
Proof.
  intros W. unfold scan_labelled_crossings. destruct (qleb_r (snd p) (fst p)); [lra|]. fold (eff_step step) (eff_tol tt) (eff_res rt).
  destruct (scan_hits_ok g p (eff_step step) (eff_tol tt) (eff_res rt) (eff_step_pos step)) as (l & E & G & C). rewrite E. exists l. split; [assumption|]. split; [assumption|]. intros s I S.
  pose proof (grid_range _ _ _ _ G) as R. rewrite Forall_forall in R. destruct (R s I) as (R1 & R2 & R3). pose proof (fine_eff W) as F.
  destruct (bracket_found g p (eff_tol tt) (eff_res rt) F s R1 R2 R3 S) as [X|(c & Ic)]; [now left|right].
  destruct (bracket_ok g p (eff_tol tt) (eff_res rt) F s c R1 R2 R3 Ic) as (_ & B & D).
  destruct (proj2 (proj2 (sort_dedup_ok ct (flat_map (fun s => scan_hit g p (eff_step step) (eff_tol tt) (eff_res rt) (fst s) (g (fst s)) (snd s) (g (snd s))) l))) c) as (y & Y & N).
  { apply in_flat_map. exists s. split; [assumption|]. unfold scan_hit. rewrite !in_app_iff. now right; right. }
  exists y, c. auto.
Qed.
(** A sign change over the whole interval does not go unnoticed. *)
Lemma scan_notices : fst p < snd p -> canon (fst p) -> canon (snd p) -> sign_change (g (fst p)) (g (snd p)) ->
  exhausted g (eff_tol tt) (eff_res rt) p \/ exists c, In c (scan_labelled_crossings p step g tt rt) /\ inside p (ct c).
Proof.
  intros W C1 C2 S. destruct (scan_labelled_complete W) as (l & G & C & H). destruct (grid_sign_change g _ _ _ _ G C1 C2 (C C1 C2)) as (s & I & Ss); [lra|assumption|].
  destruct (H s I Ss) as [X|(c & c' & Ic & _)].
  - left. pose proof (grid_range _ _ _ _ G) as R. rewrite Forall_forall in R. specialize (R s I). destruct X as (lo & hi & s' & X1 & X2 & X3 & X). exists lo, hi, s'. repeat split; try tauto; lra.
  - right. exists c. split; [assumption|]. now apply scan_labelled_sound.
Qed.
End Scans.

(** ** Pieces *)
Lemma clamp_in lo hi x : lo <= hi -> lo <= clamp lo hi x <= hi.
Proof. intros. unfold clamp. destruct (qltb_r x lo), (qltb_r hi x); lra. Qed.
Lemma clamp_ge lo hi x : lo <= hi -> lo <= x -> x <= hi -> clamp lo hi x == x.
Proof. intros. unfold clamp. destruct (qltb_r x lo), (qltb_r hi x); lra. Qed.
Lemma time_in s x : fst s <= snd s -> inside s (time_from_unit s x).
Proof.
  intros L. unfold time_from_unit, inside, span. rewrite Qred_correct. pose proof (clamp_in (- (1)) 1 x ltac:(lra)) as C. set (c := clamp _ _ _) in *. clearbody c. nra.
Qed.
Section Pieces.
Variables (o : config) (fit : interval -> option fitted) (p : interval) (step : Q) (g : Q -> Q).
Hypothesis fine : resolves p (time_tolerance o).
Notation tt := (eff_tol (time_tolerance o)).
Notation rt := (eff_res (max_residual o)).
Definition piece (s : interval) : Prop := fst p <= fst s /\ fst s <= snd s /\ snd s <= snd p.
Lemma piece_fine s tol : piece s -> time_tolerance o <= tol -> resolves s tol.
Proof. intros (A & B & C) T. apply (resolves_sub p s (time_tolerance o)); auto. Qed.
Lemma widen_in n s initial radius x : piece s -> widen o g n s initial radius = Some x -> inside s x.
Proof.
  intros P. revert radius. induction n as [|n IH]; intros radius E; cbn [widen] in E; [discriminate|].
  assert (L : fst s <= Qred (Qmax (initial - radius) (fst s))) by (rewrite Qred_correct; destruct (qmax_r (initial - radius) (fst s)); lra).
  assert (R : Qred (Qmin (initial + radius) (snd s)) <= snd s) by (rewrite Qred_correct; destruct (qmin_r (initial + radius) (snd s)); lra).
  set (lo := Qred (Qmax _ _)) in *. set (hi := Qred (Qmin _ _)) in *. clearbody lo hi.
  assert (A : (if radius_exhausts initial (radius * 2) s then None else widen o g n s initial (radius * 2)) = Some x -> inside s x) by (destruct (radius_exhausts _ _ _); [discriminate|apply IH]).
  destruct (qltb_r lo hi); [|auto]. destruct (qleb (Qabs (g lo)) _); [injection E as <-; unfold inside; lra|]. destruct (qleb (Qabs (g hi)) _); [injection E as <-; unfold inside; lra|].
  destruct (same_sign _ _); [auto|]. apply scan_root in E; [unfold inside; lra|reflexivity|reflexivity|].
  assert (Fs : resolves (lo, hi) (Qmax (time_tolerance o) poly_zero_tol)); [|exact Fs]. apply piece_fine; [destruct P; unfold piece; cbn; lra|]. destruct (qmax_r (time_tolerance o) poly_zero_tol); lra.
Qed.
Lemma classify_ok t d : inside p t -> classify_direction o p g t = Some d ->
  (d = 1%Z /\ passes_up g p rt t) \/ (d = (-1)%Z /\ passes_down g p rt t).
Proof.
  intros [I1 I2] E. unfold classify_direction in E. fold rt in E. set (probe := clamp _ _ _) in E.
  assert (P : 0 < probe /\ probe <= milli) by (pose proof (clamp_in min_segment_days milli (refine_margin o) ltac:(now compute)) as P; fold probe in P; assert (0 < min_segment_days) by reflexivity; lra). clearbody probe.
  assert (L : fst p <= Qred (Qmax (t - probe) (fst p)) /\ Qred (Qmax (t - probe) (fst p)) <= t /\ t - Qred (Qmax (t - probe) (fst p)) <= milli) by (rewrite !Qred_correct; destruct (qmax_r (t - probe) (fst p)); lra).
  assert (R : Qred (Qmin (t + probe) (snd p)) <= snd p /\ t <= Qred (Qmin (t + probe) (snd p)) /\ Qred (Qmin (t + probe) (snd p)) - t <= milli) by (rewrite !Qred_correct; destruct (qmin_r (t + probe) (snd p)); lra).
  set (l := Qred (Qmax (t - _) _)) in *. set (r := Qred (Qmin _ _)) in *. clearbody l r. destruct (qleb_r r l); [discriminate|]. unfold passes_up, passes_down.
  set (eps := rt) in *. clearbody eps. destruct (qleb_r (g l) eps), (qltb_r eps (g r)), (qltb_r eps (g l)), (qleb_r (g r) eps), (qltb_r (g l) (- eps)), (qleb_r (- eps) (g r)), (qleb_r (- eps) (g l)), (qltb_r (g r) (- eps));
    cbn [andb] in E; try discriminate; injection E as <-; ((left; split; [reflexivity|]; exists l, r; repeat split; lra) || (right; split; [reflexivity|]; exists l, r; repeat split; lra)).
Qed.
Lemma validate_ok s x c : piece s -> validate_candidate o p g s x = Some c -> verified g p (max_residual o) c /\ inside s (ct c).
Proof.
  intros P E. unfold validate_candidate in E. pose proof (time_in s x ltac:(apply P)) as T. set (initial := time_from_unit s x) in *. clearbody initial.
  destruct (if refine o then _ else _) as [t|] eqn:F; [|discriminate].
  assert (I : inside s t).
  { destruct (refine o); [|injection F as <-; assumption]. unfold refine_precise_root in F. destruct (qleb _ _) in F.
    - injection F as <-. unfold inside. rewrite Qred_correct. apply clamp_in, P.
    - now apply widen_in in F. }
  destruct (qltb_r (max_residual o) (Qabs (g t))); [discriminate|]. destruct (classify_direction o p g t) as [d|] eqn:C; [|discriminate]. injection E as <-. cbn [ct]. split; [|assumption].
  assert (Ip : inside p t) by (unfold inside, piece in *; lra). split; [assumption|]. split; [cbn [ct]; lra|]. cbn zeta. exact (classify_ok t d Ip C).
Qed.
Lemma accept_ok s l r : piece s -> accept_roots o p g s l = Some r -> length r = length l /\ Forall (fun c => verified g p (max_residual o) c /\ inside s (ct c)) r.
Proof.
  intros P. revert r. induction l as [|[x slope] l IH]; intros r E; cbn [accept_roots] in E; [injection E as <-; auto|]. destruct (qltb _ _); [discriminate|].
  destruct (validate_candidate o p g s x) as [c|] eqn:V; [|discriminate]. destruct (accept_roots o p g s l) as [r'|]; [|discriminate]. injection E as <-. destruct (IH r' eq_refl) as (L & F).
  split; [cbn; congruence|]. constructor; [|assumption]. exact (validate_ok s x c P V).
Qed.
(** Where a crossing comes from. *)
Definition source (s : interval) (c : crossing) : Prop :=
  (verified g p (max_residual o) c /\ inside s (ct c)) \/
  exists q, fst s <= fst q /\ fst q < snd q /\ snd q <= snd s /\ inside q (ct c) /\ scanned g q (eff_step step) tt rt c.
Lemma fallback_ok s c : piece s -> In c (fallback_segment o step g s) -> source s c.
Proof.
  intros P I. apply scan_labelled_sound in I as (W & In1 & Sc); [|apply piece_fine; [assumption|lra]]. right. exists s. repeat split; try apply In1; try lra. exact Sc.
Qed.
Lemma segment_sound budget s c : piece s -> In c (segment_crossings o fit p step g budget s) -> source s c.
Proof.
  revert s. induction budget as [|b IH]; intros s P I; cbn [segment_crossings] in I; (destruct (qleb_r (span s) 0) as [|W]; [destruct I|]); (destruct (qltb (span s) _); [now apply fallback_ok|]);
    (destruct (fit s) as [f|]; [|now apply fallback_ok]); (destruct (match tail_norm f with Some _ => _ | None => _ end);
      [|destruct (_ && _); [now apply fallback_ok|]; destruct (accept_roots o p g s (roots f)) as [l|] eqn:A; [|now apply fallback_ok];
        destruct (accept_ok s _ _ P A) as (_ & F); rewrite Forall_forall in F; left; now apply F]).
  - now apply fallback_ok.
  - destruct (adaptive_split o); [|now apply fallback_ok]. unfold span in W. cbn [split fst snd] in I. set (mid := Qred _) in I.
    assert (M : fst s <= mid <= snd s) by (unfold mid, span; rewrite Qred_correct; lra). clearbody mid. unfold piece in P. apply in_app_iff in I as [I|I]; apply IH in I; try (unfold piece; cbn; lra);
      (destruct I as [[V In1]|(q & Q1 & Q2 & Q3 & Q)]; [left; split; [assumption|]; unfold inside in *; cbn in *; lra|right; exists q; cbn in *; repeat split; try tauto; try lra; apply Q]).
Qed.
Lemma segment_notices budget s : piece s -> fst s < snd s -> canon (fst s) -> canon (snd s) -> sign_change (g (fst s)) (g (snd s)) ->
  exhausted g tt rt s \/ exists c, In c (segment_crossings o fit p step g budget s) /\ inside s (ct c).
Proof.
  assert (Fb : forall s, piece s -> fst s < snd s -> canon (fst s) -> canon (snd s) -> sign_change (g (fst s)) (g (snd s)) -> exhausted g tt rt s \/ exists c, In c (fallback_segment o step g s) /\ inside s (ct c)).
  { intros q P W C1 C2 S. apply scan_notices; auto. apply piece_fine; [assumption|lra]. }
  revert s. induction budget as [|b IH]; intros s P W C1 C2 S; cbn [segment_crossings]; (destruct (qleb_r (span s) 0) as [|]; [unfold span in *; lra|]); (destruct (qltb (span s) _); [now apply Fb|]);
    (destruct (fit s) as [f|]; [|now apply Fb]); (destruct (match tail_norm f with Some _ => _ | None => _ end);
      [|destruct (roots f) as [|[x slope] rs] eqn:Rf; cbn [andb]; [assert (H : hidden_sign_change g s = true) by (unfold hidden_sign_change; rewrite (proj2 (same_sign_false _ _) S); reflexivity); rewrite H; now apply Fb|];
        destruct (accept_roots o p g s _) as [l|] eqn:A; [|now apply Fb]; destruct (accept_ok s _ _ P A) as (L & F); destruct l as [|c l]; [discriminate|]; right; exists c; split; [now left|]; inversion F; tauto]).
  - now apply Fb.
  - destruct (adaptive_split o); [|now apply Fb]. cbn [split fst snd]. set (mid := Qred _).
    assert (M : fst s < mid /\ mid < snd s) by (unfold mid, span; rewrite Qred_correct; lra). assert (Cm : canon mid) by apply canon_red. clearbody mid. unfold piece in P.
    assert (Wd : forall q, fst s <= fst q -> snd q <= snd s -> exhausted g tt rt q -> exhausted g tt rt s) by (intros q Q1 Q2 (lo & hi & s' & X1 & X2 & X3 & X); exists lo, hi, s'; repeat split; try tauto; lra).
    destruct (same_sign (g (fst s)) (g mid)) eqn:D.
    + apply same_sign_true in D. destruct (IH (mid, snd s)) as [X|(c & I & J)]; cbn [fst snd]; auto; try (unfold piece; cbn; lra); [unfold sign_change in *; lra|left; apply (Wd (mid, snd s)); cbn; auto; lra|].
      right. exists c. split; [apply in_or_app; now right|]. unfold inside in *. cbn in J. lra.
    + apply same_sign_false in D. destruct (IH (fst s, mid)) as [X|(c & I & J)]; cbn [fst snd]; auto; try (unfold piece; cbn; lra); [left; apply (Wd (fst s, mid)); cbn; auto; lra|].
      right. exists c. split; [apply in_or_app; now left|]. unfold inside in *. cbn in J. lra.
Qed.
End Pieces.

(** ** find_labelled_crossings *)
Lemma dedup_from_sorted {A} (key : A -> Q) x l : StronglySorted (fun a b => key a <= key b) (x :: l) -> StronglySorted (fun a b => key a + dedupe_eps <= key b) (dedup_from key x l).
Proof.
  revert x. induction l as [|y l IH]; intros x S; cbn [dedup_from]; [constructor; constructor|]. inversion S as [|? ? S' F]; subst. inversion S' as [|? ? S'' F']; subst. inversion F as [|? ? Xy F'']; subst.
  destruct (qltb_r (Qabs (key y - key x)) dedupe_eps) as [L|L]; [apply IH; constructor; assumption|]. constructor; [now apply IH|]. rewrite Qabs_pos in L by lra.
  destruct (dedup_from_ok key y l) as (_ & _ & I). rewrite Forall_forall in *. intros z Z. apply I in Z. destruct Z as [->|Z]; [lra|]. specialize (F' z Z). lra.
Qed.
Lemma sort_dedup_sorted {A} (key : A -> Q) l : StronglySorted (fun a b => key a + dedupe_eps <= key b) (sort_dedup key l).
Proof.
  unfold sort_dedup. set (le := fun x y => qleb (key x) (key y)). assert (S : ordered le (isort le l)).
  { apply isort_ordered; unfold total, transitive, le; [intros a b; destruct (qleb_r (key a) (key b)), (qleb_r (key b) (key a)); auto; lra|]. intros a b c. rewrite !qleb_true. lra. }
  destruct (isort le l) as [|x s]; cbn [dedup]; [constructor|]. apply dedup_from_sorted. unfold ordered, le in S. clear -S. induction S as [|a t S IH F]; constructor; auto. eapply Forall_impl; [|exact F]. intros b. apply qleb_true.
Qed.
Section Find.
Variables (o : config) (fit : interval -> option fitted) (p : interval) (fallback_step : Q) (signal : Q -> Q) (threshold : Q).
Let g := fun t => signal t - threshold.
Let step := fallback_scan_step o fallback_step.
Theorem find_ends : 0 < segment_length o \/ force_scan o = true \/ snd p <= fst p -> exists r, find_labelled_crossings o fit p fallback_step signal threshold = Some r.
Proof.
  intros H. unfold find_labelled_crossings. destruct (qleb_r (snd p) (fst p)); [eexists; reflexivity|]. destruct (force_scan o) eqn:Fs; [eexists; reflexivity|]. destruct H as [H|[H|H]]; [|discriminate|lra].
  destruct (scan_ends (snd p) (segment_length o) (fun t => t) (fun t _ next _ => segment_crossings o fit p (fallback_scan_step o fallback_step) (fun t => signal t - threshold) (max_split_depth o) (t, next)) _ (fst p) (fst p) H (passes_enough p (segment_length o) H)) as (r & ->).
  eexists. reflexivity.
Qed.
Theorem find_stuck : segment_length o <= 0 -> force_scan o = false -> fst p < snd p -> find_labelled_crossings o fit p fallback_step signal threshold = None.
Proof. intros H F W. unfold find_labelled_crossings. destruct (qleb_r (snd p) (fst p)); [lra|]. rewrite F, scan_stuck; auto. Qed.
Theorem find_above cs above : find_labelled_crossings o fit p fallback_step signal threshold = Some (cs, above) -> fst p < snd p -> (above = true <-> threshold < signal (fst p)).
Proof.
  unfold find_labelled_crossings. intros E W. destruct (qleb_r (snd p) (fst p)); [lra|]. rewrite <- qltb_true. destruct (force_scan o); [injection E as _ <-; reflexivity|]. destruct (scan _ _ _ _ _ _ _); [|discriminate]. injection E as _ <-. reflexivity.
Qed.
Theorem find_order cs above : find_labelled_crossings o fit p fallback_step signal threshold = Some (cs, above) -> StronglySorted (fun a b => ct a + dedupe_eps <= ct b) cs.
Proof.
  unfold find_labelled_crossings, scan_labelled_crossings. intros E. destruct (qleb_r (snd p) (fst p)); [injection E as <- _; constructor|].
  destruct (force_scan o); [destruct (scan _ _ _ _ _ _ _); injection E as <- _; [apply sort_dedup_sorted|constructor]|]. destruct (scan _ _ _ _ _ _ _); [|discriminate]. injection E as <- _. apply sort_dedup_sorted.
Qed.
Theorem find_sound cs above c : resolves p (time_tolerance o) -> find_labelled_crossings o fit p fallback_step signal threshold = Some (cs, above) -> In c cs -> fst p < snd p /\ inside p (ct c) /\ source o p step g p c.
Proof.
  unfold find_labelled_crossings. fold g step. intros R E I. destruct (qleb_r (snd p) (fst p)); [injection E as <- _; destruct I|]. assert (W : fst p < snd p) by lra. split; [assumption|].
  destruct (force_scan o).
  - injection E as <- _. apply scan_labelled_sound in I as (_ & In1 & Sc); [|assumption]. split; [assumption|]. right. exists p. repeat split; try apply In1; try lra. exact Sc.
  - destruct (scan _ _ _ _ _ _ _) as [l|] eqn:Sn; [|discriminate]. injection E as <- _. apply (proj1 (proj2 (sort_dedup_ok ct _))) in I.
    assert (Sp : 0 < segment_length o) by (eapply Cross_Proofs.scan_step; [exact Sn|assumption]).
    apply scan_spec in Sn as (G & Rl & _); auto. rewrite Rl in I. apply in_flat_map in I as (s & Is & I). apply grid_range in G. rewrite Forall_forall in G. destruct (G s Is) as (G1 & G2 & G3).
    rewrite <- surjective_pairing in I. apply segment_sound in I; [|assumption|repeat split; assumption]. unfold source, inside in *.
    destruct I as [[V I]|(q & Q1 & Q2 & Q3 & Q4 & Q5)]; [split; [lra|]; left; split; [assumption|lra]|]. split; [lra|]. right. exists q. repeat split; try tauto; lra.
Qed.
Theorem find_notices cs above : resolves p (time_tolerance o) -> fst p < snd p -> canon (fst p) -> canon (snd p) -> force_scan o = false -> find_labelled_crossings o fit p fallback_step signal threshold = Some (cs, above) ->
  exists l, grid (snd p) (segment_length o) (fst p) l /\ forall s, In s l -> sign_change (g (fst s)) (g (snd s)) ->
    exhausted g (eff_tol (time_tolerance o)) (eff_res (max_residual o)) s \/ exists c t, In c cs /\ inside s t /\ Qabs (t - ct c) < dedupe_eps.
Proof.
  intros R W C1 C2 Fs. unfold find_labelled_crossings. fold g step. intros E. destruct (qleb_r (snd p) (fst p)); [lra|]. rewrite Fs in E. destruct (scan _ _ _ _ _ _ _) as [l|] eqn:Sn; [|discriminate]. injection E as <- _.
  assert (Sp : 0 < segment_length o) by (eapply Cross_Proofs.scan_step; [exact Sn|assumption]).
  apply scan_spec in Sn as (G & Rl & Cn); auto. specialize (Cn C1 C2). set (ps := steps _ _ _ _) in *. exists ps. split; [assumption|]. intros s Is Sc.
  pose proof (grid_range _ _ _ _ G) as Rg. rewrite Forall_forall in Rg, Cn. destruct (Rg s Is) as (G1 & G2 & G3). destruct (Cn s Is) as (D1 & D2).
  assert (Ws : fst s < snd s) by (destruct (Qlt_le_dec (fst s) (snd s)); [assumption|]; assert (fst s = snd s) by (rewrite <- D1, <- D2; apply Qred_complete; lra); rewrite H in Sc; unfold sign_change in Sc; lra).
  destruct (segment_notices o fit p step g R (max_split_depth o) s) as [X|(c & Ic & Jc)]; auto; [repeat split; assumption|]. right.
  destruct (proj2 (proj2 (sort_dedup_ok ct l)) c) as (y & Y & N).
  - rewrite Rl. apply in_flat_map. exists s. split; [assumption|]. now rewrite <- surjective_pairing.
  - exists y, (ct c). split; [assumption|]. split; [assumption|]. destruct N as [->|N]; [|assumption]. setoid_replace (ct y - ct y) with 0 by ring. reflexivity.
Qed.
End Find.

(** ** The events and the periods *)
Definition ups (l : list crossing) : Prop := Forall (fun c => cdir c = 1%Z \/ cdir c = (-1)%Z) l.
Lemma pair_up_edges stop l : ups l -> Forall (fun c => ct c <= stop) l -> StronglySorted (fun a b => ct a < ct b) l ->
  (forall q, In q (pair_up qltb stop l) -> (exists c, In c l /\ cdir c = 1%Z /\ fst q = ct c) /\ (snd q = stop \/ exists c, In c l /\ cdir c = (-1)%Z /\ snd q = ct c)) /\
  (forall c, In c l -> cdir c = 1%Z -> ct c < stop -> exists q, In q (pair_up qltb stop l) /\ fst q = ct c).
Proof.
  assert (K : forall n l, (length l <= n)%nat -> ups l -> Forall (fun c => ct c <= stop) l -> StronglySorted (fun a b => ct a < ct b) l ->
    (forall q, In q (pair_up qltb stop l) -> (exists c, In c l /\ cdir c = 1%Z /\ fst q = ct c) /\ (snd q = stop \/ exists c, In c l /\ cdir c = (-1)%Z /\ snd q = ct c)) /\
    (forall c, In c l -> cdir c = 1%Z -> ct c < stop -> exists q, In q (pair_up qltb stop l) /\ fst q = ct c)); [|eauto].
  clear l. induction n as [|n IH]; intros l Ln U F S; [destruct l; [|cbn in Ln; lia]; split; [intros q []|intros c []]|].
  destruct l as [|c t]; [split; [intros q []|intros c []]|]. cbn in Ln. inversion U as [|? ? Uc Ut]; subst. inversion F as [|? ? Fc Ft]; subst. inversion S as [|? ? St Sc]; subst.
  destruct (IH t ltac:(lia) Ut Ft St) as (H1 & H2). cbn [pair_up]. destruct Uc as [D|D]; rewrite D; cbn [Z.eqb Pos.eqb].
  - destruct t as [|x t'].
    + split; [|intros c' [<-|[]] _ L; destruct (qltb_r (ct c) stop); [|lra]; exists (ct c, stop); split; [now left|reflexivity]].
      intros q I. destruct (qltb_r (ct c) stop); [|destruct I]. destruct I as [<-|[]]. split; [exists c; split; [now left|auto]|now left].
    + inversion Ut as [|? ? Ux Ut']; subst. inversion Ft as [|? ? Fx Ft']; subst. inversion St as [|? ? St' Sx]; subst. inversion Sc as [|? ? Cx _]; subst. destruct (IH t' ltac:(cbn in Ln; lia) Ut' Ft' St') as (H3 & H4).
      destruct Ux as [Dx|Dx]; rewrite Dx; cbn [Z.eqb Pos.eqb].
      * split; [intros q I|intros c' I Dc L].
        -- apply in_app_iff in I as [I|I]; [destruct (qltb_r (ct c) stop); [|destruct I]; destruct I as [<-|[]]; split; [exists c; split; [now left|auto]|now left]|].
           destruct (H1 q I) as ((u & Iu & Du & Eu) & V). split; [exists u; split; [now right|auto]|]. destruct V as [V|(v & Iv & Dv & Ev)]; [now left|right; exists v; split; [now right|auto]].
        -- destruct I as [<-|I]; [|destruct (H2 c' I Dc L) as (q & Iq & Eq); exists q; split; [apply in_or_app; now right|assumption]].
           destruct (qltb_r (ct c) stop); [|lra]. eexists. split; [apply in_or_app; left; now left|reflexivity].
      * split; [intros q I|intros c' I Dc L].
        -- apply in_app_iff in I as [I|I]; [destruct (qltb_r (ct c) (ct x)); [|destruct I]; destruct I as [<-|[]]; split; [exists c; split; [now left|auto]|right; exists x; split; [right; now left|auto]]|].
           destruct (H3 q I) as ((u & Iu & Du & Eu) & V). split; [exists u; split; [right; now right|auto]|]. destruct V as [V|(v & Iv & Dv & Ev)]; [now left|right; exists v; split; [right; now right|auto]].
        -- destruct I as [<-|[<-|I]]; [|congruence|destruct (H4 c' I Dc L) as (q & Iq & Eq); exists q; split; [apply in_or_app; now right|assumption]].
           destruct (qltb_r (ct c) (ct x)); [|lra]. eexists. split; [apply in_or_app; left; now left|reflexivity].
  - split; [intros q I; destruct (H1 q I) as ((u & Iu & Du & Eu) & V); split; [exists u; split; [now right|auto]|destruct V as [V|(v & Iv & Dv & Ev)]; [now left|right; exists v; split; [now right|auto]]]|].
    intros c' [<-|I] Dc L; [congruence|now apply H2].
Qed.
Lemma source_dir o p step g s c : source o p step g s c -> cdir c = 1%Z \/ cdir c = (-1)%Z.
Proof.
  intros [[(_ & _ & V) _]|(q & _ & _ & _ & _ & l & r & _ & _ & [(_ & H)|(_ & _ & H)])].
  - cbn zeta in V. tauto.
  - destruct H; tauto.
  - destruct (qltb _ _); auto.
Qed.
Theorem periods_edges p cs above : ups cs -> timely p cs -> fst p < snd p ->
  (forall q, In q (build_above_periods_directed cs p above) ->
     ((above = true /\ fst q = fst p) \/ exists c, In c cs /\ cdir c = 1%Z /\ fst q = ct c) /\ (snd q = snd p \/ exists c, In c cs /\ cdir c = (-1)%Z /\ snd q = ct c)) /\
  (forall c, In c cs -> cdir c = 1%Z -> ct c < snd p -> exists q, In q (build_above_periods_directed cs p above) /\ fst q = ct c).
Proof.
  intros U [S F] W. assert (Fs : Forall (fun c => ct c <= snd p) cs) by (eapply Forall_impl; [|exact F]; unfold inside; intros; lra).
  unfold build_above_periods_directed. destruct cs as [|c t].
  - split; [|intros c []]. destruct above; [|intros q []]. intros q [<-|[]]. split; left; auto.
  - destruct above; cbn [andb].
    + inversion U as [|? ? Uc Ut]; subst. inversion S as [|? ? St Sc]; subst. inversion Fs as [|? ? Fc Ft]; subst. destruct Uc as [D|D]; rewrite D; cbn [Z.eqb Pos.eqb].
      * destruct (pair_up_edges (snd p) (c :: t) U Fs S) as (H1 & H2). split; [|assumption]. intros q I. destruct (H1 q I) as (A & B). split; [now right|assumption].
      * destruct (pair_up_edges (snd p) t Ut Ft St) as (H1 & H2). split.
        -- intros q I. apply in_app_iff in I as [I|I]; [destruct (qltb_r (fst p) (ct c)); [|destruct I]; destruct I as [<-|[]]; split; [left; auto|right; exists c; split; [now left|auto]]|].
           destruct (H1 q I) as ((u & Iu & Du & Eu) & V). split; [right; exists u; split; [now right|auto]|]. destruct V as [V|(v & Iv & Dv & Ev)]; [now left|right; exists v; split; [now right|auto]].
        -- intros c' [<-|I] Dc L; [congruence|]. destruct (H2 c' I Dc L) as (q & Iq & Eq). exists q. split; [apply in_or_app; now right|assumption].
    + destruct (pair_up_edges (snd p) (c :: t) U Fs S) as (H1 & H2). split; [|assumption]. intros q I. destruct (H1 q I) as (A & B). split; [now right|assumption].
Qed.
