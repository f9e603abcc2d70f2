(** C34-C36 and C52: crossings, periods, ranges and bracket seeding. *)
From Coq Require Import List ZArith QArith Qabs Bool Lqa Lia Sorting.Sorted.
From Verif Require Import Qb Root_Model Root_Spec Cross_Model Cross_Spec Cross_Proofs Range_Proofs.
Import ListNotations.
Local Open Scope Q_scope.

(** ** C34 *)
Theorem C34_periods p l above : fst p < snd p -> timely p l -> alternate above l ->
  tidy p (build_above_periods_directed l p above) /\
  forall t b, inside p t -> Forall (fun c => ~ ct c == t) l -> state above l t b -> (in_some (build_above_periods_directed l p above) t <-> b = true).
Proof. exact (periods_ok p l above). Qed.
(** From crossings that tell where a signal is above. *)
Theorem C34_signal p l above signal : fst p < snd p -> timely p l -> alternate above l -> describes p above l signal ->
  forall t, inside p t -> Forall (fun c => ~ ct c == t) l -> (in_some (build_above_periods_directed l p above) t <-> signal t).
Proof.
  intros W T A D t It N. destruct (periods_ok p l above W T A) as [_ M].
  assert (S : exists b, state above l t b).
  { clear - T N. destruct T as [S _]. revert above. induction S as [|c l S IH F]; intros above; [exists above; constructor; constructor|]. inversion N as [|? ? Nc N']; subst.
    destruct (Qlt_le_dec t (ct c)) as [L|L].
    - exists above. apply state_first. constructor; [assumption|]. eapply Forall_impl; [|exact F]. intros a Ha. cbv beta in Ha. lra.
    - destruct (IH N' (Z.eqb (cdir c) 1)) as (b & B). exists b. apply state_cons; [|assumption]. destruct (Qlt_le_dec (ct c) t); [assumption|]. exfalso. apply Nc. lra. }
  destruct S as (b & B). rewrite (M t b It N B). symmetry. now apply D.
Qed.
(** The finder that checks midpoints agrees with the one that trusts directions. *)
Theorem C34_same p l above f threshold : fst p < snd p -> timely p l -> Forall (fun c => fst p < ct c < snd p) l -> alternate above l ->
  describes p above l (fun t => threshold < f t) -> build_above_periods l p above f threshold = build_above_periods_directed l p above.
Proof. exact (same_periods p l above f threshold). Qed.
(** Scan, refinement and assembly together: when no step hides more than one sign change, the
    periods are right except between a true crossing [z] and its refined time [x]. *)
Theorem C34_found fuel p step f threshold ps : canon (fst p) -> canon (snd p) -> fst p < snd p ->
  above_threshold_periods_directed fuel p step f threshold = Some ps ->
  let g := fun t => f t - threshold in
  exists l xs, grid (snd p) step (fst p) l /\ find_crossings fuel p step f threshold = Some xs /\ Forall2 (refined g) (filter (opposite g) l) xs /\
    (Forall (simple g) l -> apart (fun t => t) xs -> tidy p ps /\
     exists zs, Forall2 (resolved g) (filter (opposite g) l) zs /\
       forall t, inside p t -> Forall2 (fun z x => away t (z, x)) zs xs -> (in_some ps t <-> threshold < f t)).
Proof. exact (periods_found fuel p step f threshold ps). Qed.
Definition tent (t : Q) : Q := if qltb t 2 then t - (1 # 3) else (11 # 3) - t.
Example C34_case :
  above_threshold_periods_directed 10 (0, 5) 1 tent 0 = Some [(1 # 3, 11 # 3)] /\
  timely (0, 5) [Cr (1 # 3) 1; Cr (11 # 3) (-1)] /\ alternate false [Cr (1 # 3) 1; Cr (11 # 3) (-1)].
Proof.
  split; [vm_compute; reflexivity|]. split; [split; [repeat constructor|repeat constructor; unfold inside; cbn; lra]|repeat split].
Qed.
(** A zero exactly on a scan time is no strict sign change, so the period is lost. *)
Theorem C34_zero_refuted : exists f, above_threshold_periods_directed 10 (0, 2) 1 f 0 = Some [] /\ forall t, 1 < t -> t <= 2 -> 0 < f t.
Proof. exists (fun t => t - 1). split; [vm_compute; reflexivity|]. intros. lra. Qed.
(** Two crossings closer than the merge distance leave one, and a whole tail is reported. *)
Definition blip (t : Q) : Q := if qltb t (1 # 2) then t - ((1 # 2) - (1 # 1000000000)) else ((1 # 2) + (1 # 1000000000)) - t.
Theorem C34_merge_refuted : exists x, above_threshold_periods_directed 10 (0, 1) (1 # 2) blip 0 = Some [(x, 1)] /\ x < 1 # 1 /\ blip 1 < 0.
Proof. eexists. split; [vm_compute; reflexivity|]. split; vm_compute; reflexivity. Qed.

(** ** C35 *)
Section Ranges.
Variables (complement : interval -> list interval -> list interval) (intersect : list interval -> list interval -> list interval).
Hypotheses (Co : complement_ok complement) (Io : intersect_ok intersect).
Theorem C35_below p l above : fst p < snd p -> timely p l -> alternate above l ->
  let ups := build_above_periods_directed l p above in let downs := complement p ups in
  tidy p downs /\ (forall t, inside p t -> ~ edge_of ups t -> (in_some downs t <-> ~ in_some ups t)) /\
  forall t b, inside p t -> ~ edge_of ups t -> Forall (fun c => ~ ct c == t) l -> state above l t b -> (in_some downs t <-> b = false).
Proof.
  intros W T A ups downs. destruct (periods_ok p l above W T A) as [Ti M]. destruct (Co p ups W Ti) as [Tc Mc]. split; [exact Tc|]. split; [exact Mc|].
  intros t b It E N S. unfold downs. rewrite (Mc t It E). unfold ups. rewrite (M t b It N S). destruct b; split; congruence.
Qed.
Theorem C35_range p cmin smin cmax smax : fst p < snd p -> timely p cmin -> alternate smin cmin -> timely p cmax -> alternate smax cmax ->
  let above := build_above_periods_directed cmin p smin in let over := build_above_periods_directed cmax p smax in let r := assemble_in_range_periods complement intersect cmin smin cmax smax p in
  tidy p r /\ forall t lo hi, inside p t -> ~ edge_of above t -> ~ edge_of over t -> ~ edge_of (complement p over) t ->
    Forall (fun c => ~ ct c == t) cmin -> Forall (fun c => ~ ct c == t) cmax -> state smin cmin t lo -> state smax cmax t hi ->
    (in_some r t <-> lo = true /\ hi = false).
Proof. exact (assemble_ok complement intersect Co Io p cmin smin cmax smax). Qed.
(** The search for a range of values: above the lower bound and not above the upper one. *)
Theorem C35_directed fuel p step f h_min h_max a b ps : fst p < snd p ->
  above_threshold_periods_directed fuel p step f h_min = Some a -> above_threshold_periods_directed fuel p step f h_max = Some b -> tidy p a -> tidy p b ->
  in_range_periods_directed complement intersect fuel p step f h_min h_max = Some ps ->
  tidy p ps /\ forall t, inside p t -> ~ edge_of a t -> ~ edge_of b t -> ~ edge_of (complement p b) t -> (in_some ps t <-> in_some a t /\ ~ in_some b t).
Proof.
  intros W A B Ta Tb H. unfold in_range_periods_directed in H. rewrite A, B in H. injection H as <-. destruct (Co p b W Tb) as [Tc Mc]. destruct (Io p a _ Ta Tc) as [Ti Mi].
  split; [exact Ti|]. intros t It E1 E2 E3. now rewrite (Mi t It E1 E3), (Mc t It E2).
Qed.
End Ranges.
(** The contract of the external algebra can be met. *)
Theorem C35_contract : complement_ok complement_ref /\ intersect_ok intersect_ref.
Proof. split; [exact complement_ref_ok|exact intersect_ref_ok]. Qed.
Example C35_case :
  assemble_in_range_periods complement_ref intersect_ref [Cr 1 1; Cr 8 (-1)] false [Cr 3 1; Cr 5 (-1)] false (0, 10) = [(1, 3); (5, 8)] /\
  timely (0, 10) [Cr 1 1; Cr 8 (-1)] /\ alternate false [Cr 3 1; Cr 5 (-1)] /\ state false [Cr 3 1; Cr 5 (-1)] 4 true.
Proof.
  split; [vm_compute; reflexivity|]. split; [split; [repeat constructor|repeat constructor; unfold inside; cbn; lra]|]. split; [repeat split|].
  apply (state_after false _ 4 [] (Cr 3 1) [Cr 5 (-1)]); [reflexivity|reflexivity|repeat constructor].
Qed.

(** ** C36 *)
(** One refined crossing for each step with strictly opposite signs, in order, and no other. *)
Theorem C36_crossings fuel p step f threshold cs : canon (fst p) -> canon (snd p) -> 0 < step -> find_crossings fuel p step f threshold = Some cs ->
  let g := fun t => f t - threshold in exists l, grid (snd p) step (fst p) l /\ Forall2 (refined g) (filter (opposite g) l) cs.
Proof. exact (crossings_found fuel p step f threshold cs). Qed.
Theorem C36_directed fuel p step f threshold cs sa : canon (fst p) -> canon (snd p) -> 0 < step -> find_directed_crossings fuel p step f threshold = Some (cs, sa) ->
  let g := fun t => f t - threshold in exists l xs, grid (snd p) step (fst p) l /\ Forall2 (refined g) (filter (opposite g) l) xs /\
    find_crossings fuel p step f threshold = Some xs /\ sa = qltb threshold (f (fst p)) /\
    let raw := map (fun '(s, x) => Cr x (heading g s)) (combine (filter (opposite g) l) xs) in
    cs = sort_dedup ct raw /\ (apart (fun t => t) xs -> cs = raw).
Proof. exact (directed_found fuel p step f threshold cs sa). Qed.
(** Merging keeps a crossing near each one dropped. *)
Theorem C36_merge (l : list crossing) : apart ct (sort_dedup ct l) /\ incl (sort_dedup ct l) l /\
  (forall z, In z l -> exists y, In y (sort_dedup ct l) /\ (z = y \/ Qabs (ct z - ct y) < dedupe_eps)).
Proof. exact (sort_dedup_ok ct l). Qed.
(** Labelling keeps exactly the merged times at which the signal changes side: up when it is above the
    threshold only after, down when only before; a time at which it touches the threshold is dropped. *)
Theorem C36_labels times f threshold t d : In (Cr t d) (label_crossings times f threshold) <->
  In t (sort_dedup (fun t => t) times) /\ let before := f (Qred (t - probe_dt)) in let after := f (Qred (t + probe_dt)) in
    (d = 1%Z /\ before <= threshold /\ threshold < after \/ d = (-1)%Z /\ threshold < before /\ after <= threshold).
Proof.
  unfold label_crossings. induction (sort_dedup (fun t => t) times) as [|x l IH]; [cbn; tauto|]. cbn [filter_map In].
  assert (L : label f threshold x = Some (Cr t d) <-> x = t /\ let before := f (Qred (t - probe_dt)) in let after := f (Qred (t + probe_dt)) in
    (d = 1%Z /\ before <= threshold /\ threshold < after \/ d = (-1)%Z /\ threshold < before /\ after <= threshold)).
  { unfold label. cbn zeta. split.
    - destruct (qltb_r threshold (f (Qred (x - probe_dt)))) as [A|A], (qltb_r threshold (f (Qred (x + probe_dt)))) as [B|B]; cbn [andb negb]; intros H; try discriminate; injection H as <- <-; (split; [reflexivity|]); apply Qnot_lt_le in A || apply Qnot_lt_le in B; auto.
    - intros (-> & [(-> & A & B)|(-> & A & B)]); destruct (qltb_r threshold (f (Qred (t - probe_dt)))), (qltb_r threshold (f (Qred (t + probe_dt)))); cbn [andb negb]; try reflexivity; exfalso; lra. }
  destruct (label f threshold x) as [c|] eqn:E.
  - cbn [In]. rewrite IH. split.
    + intros [->|(I & H)]; [destruct (proj1 L eq_refl) as (-> & H)|]; auto.
    + intros ([->|I] & H); [left; assert (K : Some c = Some (Cr t d)) by (apply L; auto); congruence|right; auto].
  - rewrite IH. split; [intros (I & H); auto|]. intros ([->|I] & H); [exfalso; assert (None = Some (Cr t d)) by (apply L; auto); discriminate|auto].
Qed.
(** The steps of a grid cover the window. *)
Theorem C36_cover stop step t l : grid stop step t l -> forall x, t <= x -> x <= stop -> t < stop -> exists s, In s l /\ fst s <= x <= snd s.
Proof. exact (grid_cover stop step t l). Qed.
Theorem C36_ends fuel p step f threshold : 0 < step -> snd p - fst p <= inject_Z (Z.of_nat fuel) * step ->
  (exists cs, find_crossings fuel p step f threshold = Some cs) /\ exists r, find_directed_crossings fuel p step f threshold = Some r.
Proof.
  intros S L. unfold find_crossings, find_directed_crossings. split; [now apply scan_ends|].
  destruct (scan_ends (snd p) step (fun t => f t - threshold) (directed_hit (fst p) (snd p) (fun t => f t - threshold)) fuel (fst p) (f (fst p) - threshold) S L) as (r & E).
  cbv zeta. rewrite E. eexists. reflexivity.
Qed.
(** A step that is not positive never leaves the start. *)
Theorem C36_stuck fuel p step f threshold : step <= 0 -> fst p < snd p -> find_crossings fuel p step f threshold = None /\ find_directed_crossings fuel p step f threshold = None.
Proof. intros S T. unfold find_crossings, find_directed_crossings. rewrite !scan_stuck by assumption. split; reflexivity. Qed.
Example C36_case : find_crossings 5 (0, 5) 1 tent 0 = Some [1 # 3; 11 # 3] /\ find_directed_crossings 5 (0, 5) 1 tent 0 = Some ([Cr (1 # 3) 1; Cr (11 # 3) (-1)], false).
Proof. split; vm_compute; reflexivity. Qed.
(** The finder over given segments keeps only one end when the signal is near zero at the first. *)
Theorem C36_segments_refuted : exists f, find_crossings_in_segments [0; 2] (0, 2) f 0 = [0] /\ f 1 == -(1) /\ f 2 == 2 /\ f 0 == 0.
Proof. exists (fun t => t * (2 * t - 3)). split; [vm_compute; reflexivity|]. repeat split; reflexivity. Qed.
Theorem C36_outside_refuted : exists f, find_crossings_in_segments [0; 2] (1, 2) f 0 = [0] /\ ~ inside (1, 2) 0.
Proof. exists (fun t => t). split; [vm_compute; reflexivity|]. unfold inside. cbn. lra. Qed.

(** ** C52 *)
Theorem C52_fixed fuel p step f threshold bs : fst p < snd p -> fixed_step_brackets fuel p step f threshold = Some bs ->
  let g := fun t => f t - threshold in exists l, grid (snd p) step (fst p) l /\ bs = filter (fun s => opposite_sign (g (fst s)) (g (snd s))) l.
Proof. exact (fixed_ok fuel p step f threshold bs). Qed.
Theorem C52_sign a b : opposite_sign a b = true <-> ((a < 0 /\ 0 <= b) \/ (0 <= a /\ b < 0)).
Proof. exact (opposite_sign_spec a b). Qed.
Theorem C52_adaptive fuel p initial_step min_step f threshold bs : fst p < snd p -> adaptive_step_brackets fuel p initial_step min_step f threshold = Some bs ->
  let g := fun t => f t - threshold in exists l, grid (snd p) initial_step (fst p) l /\ StronglySorted (fun a b => fst a <= fst b) bs /\
    Forall (fun s => changes g s /\ snd s - fst s <= 2 * min_step /\ exists c, In c l /\ changes g c /\ fst c <= fst s /\ fst s <= snd s /\ snd s <= snd c) bs /\
    (forall c, In c l -> changes g c -> exists s, In s bs /\ fst c <= fst s /\ fst s <= snd s /\ snd s <= snd c).
Proof. exact (adaptive_ok fuel p initial_step min_step f threshold bs). Qed.
Theorem C52_ends p initial_step min_step f threshold : 0 < initial_step -> 0 < min_step -> exists fuel bs, adaptive_step_brackets fuel p initial_step min_step f threshold = Some bs.
Proof. exact (adaptive_ends p initial_step min_step f threshold). Qed.
Theorem C52_stuck fuel p step min_step f threshold : step <= 0 -> fst p < snd p -> fixed_step_brackets fuel p step f threshold = None /\ adaptive_step_brackets fuel p step min_step f threshold = None.
Proof. intros S T. unfold fixed_step_brackets, adaptive_step_brackets. rewrite !scan_stuck by assumption. split; reflexivity. Qed.
Example C52_case : fixed_step_brackets 5 (0, 5) 1 tent 0 = Some [(0, 1); (3, 4)] /\ adaptive_step_brackets 40 (0, 5) 1 (1 # 8) tent 0 = Some [(1 # 4, 1 # 2); (7 # 2, 15 # 4)].
Proof. split; vm_compute; reflexivity. Qed.
(** A minimum step of zero never ends on a real crossing. *)
Theorem C52_min_step_refuted : forall fuel, adaptive_step_brackets fuel (0, 1) 1 0 (fun t => if qltb t (1 # 3) then -(1) else 1) 0 = None.
Proof.
  intros fuel. unfold adaptive_step_brackets. destruct (scan _ _ _ _ _ _ _) as [frames|] eqn:E; [|reflexivity].
  destruct fuel as [|fuel]; [discriminate|]. assert (frames = [Frame 0 1 (-(1) - 0) (1 - 0)]) as -> by (destruct fuel; vm_compute in E; [|injection E as <-; reflexivity]; injection E as <-; reflexivity).
  cbn [rev app fst]. set (g := fun t => _).
  assert (H : forall n fr rest, fr_lo fr < 1 # 3 -> 1 # 3 <= fr_hi fr -> fr_glo fr < 0 -> 0 <= fr_ghi fr -> subdivide n 0 g (fr :: rest) = None).
  { induction n as [n IH] using (well_founded_induction Wf_nat.lt_wf). intros fr rest L1 L2 L3 L4. destruct n as [|n]; [reflexivity|]. cbn [subdivide].
    rewrite (proj2 (opposite_sign_spec _ _)) by lra. destruct (qleb_r (fr_hi fr - fr_lo fr) (0 + 0)); [lra|].
    set (mid := Qred _). assert (Hm : mid == fr_lo fr + (fr_hi fr - fr_lo fr) * (1 # 2)) by apply Qred_correct. clearbody mid.
    destruct (qltb_r mid (1 # 3)) as [M|M]; assert (Gm : g mid == if qltb mid (1 # 3) then -(1) else 1) by (unfold g; lra).
    - apply IH; cbn; [lia|lra|lra| |lra]. rewrite (proj2 (qltb_true _ _) M) in Gm. lra.
    - destruct n as [|n]; [reflexivity|]. cbn [subdivide fr_glo fr_ghi]. rewrite (proj2 (qltb_false _ _)) in Gm by lra.
      destruct (opposite_sign (g mid) (fr_ghi fr)) eqn:O; [apply opposite_sign_spec in O; lra|]. apply IH; cbn; try lia; lra. }
  rewrite H; cbn; try lra. reflexivity.
Qed.
Print Assumptions C34_signal.
Print Assumptions C34_same.
Print Assumptions C34_found.
Print Assumptions C35_below.
Print Assumptions C35_range.
Print Assumptions C35_contract.
Print Assumptions C36_directed.
Print Assumptions C36_ends.
Print Assumptions C52_fixed.
Print Assumptions C52_adaptive.
Print Assumptions C52_ends.
Print Assumptions C52_min_step_refuted.
