(** C71, C72: crossing searches over pieces, and the events and periods made from them. *)
From Coq Require Import List ZArith QArith Qabs Qminmax Bool Lia Reals Lra Lqa Sorting.Sorted.
From Verif Require Import Qb Root_Model Root_Spec Root_Proofs Cross_Model Cross_Spec Cross_Proofs Sweep_Model Sweep_Spec Sweep_Proofs.
Import ListNotations.
Local Open Scope Q_scope.

(** ** C71 *)
(** Whatever polynomials are fitted, a reported crossing lies in the window. It is a polynomial root
    where the signal itself is within the residual of the threshold and passes it in the reported
    direction, or it was found by the scan of a piece of the window: at a node of that scan where the
    signal is within the residual, or inside a step over which the signal changes sign. *)
Theorem C71_sound o fit p fallback_step signal threshold cs above c : resolves p (time_tolerance o) ->
  find_labelled_crossings o fit p fallback_step signal threshold = Some (cs, above) -> In c cs ->
  let g := fun t => signal t - threshold in
  inside p (ct c) /\
  (verified g p (max_residual o) c \/
   exists q, fst p <= fst q /\ fst q < snd q /\ snd q <= snd p /\ inside q (ct c) /\
     scanned g q (Qmax (match scan_step o with Some s => s | None => fallback_step end) min_segment_days) (Qmax (time_tolerance o) epsilon) (Qmax (max_residual o) poly_zero_tol) c).
Proof.
  intros R E I g. destruct (find_sound o fit p fallback_step signal threshold cs above c R E I) as (W & In1 & [[V _]|S]); (split; [assumption|]); [now left|]. right. exact S.
Qed.
(** The crossings are in order of time, none closer than a hundred-millionth of a day to the next. *)
Theorem C71_order o fit p fallback_step signal threshold cs above : find_labelled_crossings o fit p fallback_step signal threshold = Some (cs, above) ->
  StronglySorted (fun a b => ct a + dedupe_eps <= ct b) cs /\ (fst p < snd p -> (above = true <-> threshold < signal (fst p))) /\ (snd p <= fst p -> cs = [] /\ above = false).
Proof.
  intros E. split; [now apply (find_order o fit p fallback_step signal threshold cs above)|]. split; [now apply (find_above o fit p fallback_step signal threshold cs above)|].
  intros W. unfold find_labelled_crossings in E. destruct (qleb_r (snd p) (fst p)); [|lra]. now injection E as <- <-.
Qed.
(** No sign change between the ends of a piece goes unreported, whatever polynomials are fitted,
    unless a refinement used up all its passes. *)
Theorem C71_notices o fit p fallback_step signal threshold cs above : resolves p (time_tolerance o) -> fst p < snd p -> canon (fst p) -> canon (snd p) -> force_scan o = false ->
  find_labelled_crossings o fit p fallback_step signal threshold = Some (cs, above) -> let g := fun t => signal t - threshold in
  exists l, grid (snd p) (segment_length o) (fst p) l /\ forall s, In s l -> sign_change (g (fst s)) (g (snd s)) ->
    exhausted g (Qmax (time_tolerance o) epsilon) (Qmax (max_residual o) poly_zero_tol) s \/ exists c t, In c cs /\ inside s t /\ Qabs (t - ct c) < dedupe_eps.
Proof. intros R W C1 C2 F E g. exact (find_notices o fit p fallback_step signal threshold cs above R W C1 C2 F E). Qed.
(** The scan reports every step over which the signal changes sign, with its direction. *)
Theorem C71_scan p step g tt rt : resolves p tt -> fst p < snd p -> exists l, grid (snd p) (Qmax step min_segment_days) (fst p) l /\
  forall s, In s l -> sign_change (g (fst s)) (g (snd s)) -> exhausted g (Qmax tt epsilon) (Qmax rt poly_zero_tol) s \/
    exists c c', In c (scan_labelled_crossings p step g tt rt) /\ root_near g (Qmax tt epsilon) (Qmax rt poly_zero_tol) s (ct c') /\
      cdir c' = (if qltb (g (fst s)) 0 then 1%Z else (-1)%Z) /\ (c' = c \/ Qabs (ct c' - ct c) < dedupe_eps).
Proof. intros R W. destruct (scan_labelled_complete p step g tt rt R W) as (l & G & _ & H). exists l. auto. Qed.
Theorem C71_scan_sound p step g tt rt c : resolves p tt -> In c (scan_labelled_crossings p step g tt rt) ->
  fst p < snd p /\ inside p (ct c) /\ scanned g p (Qmax step min_segment_days) (Qmax tt epsilon) (Qmax rt poly_zero_tol) c.
Proof. exact (fun R => scan_labelled_sound p step g tt rt R c). Qed.
(** A piece whose polynomial has no root is either scanned, or the signal has the same sign at its
    ends, its middle and its quarters and nothing is reported. *)
Theorem C71_quarters o fit p step g budget s f n : min_segment_days <= snd s - fst s -> fit s = Some f -> tail_norm f = Some n -> n <= max_tail_norm o -> roots f = [] ->
  let at_ u := g (Qred (fst s + (snd s - fst s) * u)) in
  segment_crossings o fit p step g budget s = scan_labelled_crossings s step g (time_tolerance o) (max_residual o) \/
  (segment_crossings o fit p step g budget s = [] /\
   forall v, In v [g (snd s); at_ (1 # 4); at_ (1 # 2); at_ (3 # 4)] -> ~ sign_change (g (fst s)) v).
Proof.
  intros W F T N R at_. assert (Eq : segment_crossings o fit p step g budget s = if hidden_sign_change g s then fallback_segment o step g s else []).
  { assert (0 < min_segment_days) by reflexivity. destruct budget; cbn [segment_crossings]; (destruct (qleb_r (span s) 0); [unfold span in *; lra|]); (destruct (qltb_r (span s) min_segment_days); [unfold span in *; lra|]); rewrite F, T;
    (destruct (qltb_r (max_tail_norm o) n); [lra|]); rewrite R; cbn [andb accept_roots]; reflexivity. }
  rewrite Eq. destruct (hidden_sign_change g s) eqn:H; [left; reflexivity|]. right. split; [reflexivity|]. unfold hidden_sign_change in H. rewrite !orb_false_iff, !negb_false_iff in H.
  assert (Y1 : time_from_unit s 0 = Qred (fst s + (snd s - fst s) * (1 # 2))) by (unfold time_from_unit; apply Qred_complete; change (clamp (- (1)) 1 0) with 0; unfold span; ring).
  assert (Y2 : time_from_unit s (- (1) # 2) = Qred (fst s + (snd s - fst s) * (1 # 4))) by (unfold time_from_unit; apply Qred_complete; change (clamp (- (1)) 1 (- (1) # 2)) with (-1 # 2); unfold span; ring).
  assert (Y3 : time_from_unit s (1 # 2) = Qred (fst s + (snd s - fst s) * (3 # 4))) by (unfold time_from_unit; apply Qred_complete; change (clamp (- (1)) 1 (1 # 2)) with (1 # 2); unfold span; ring).
  rewrite Y1, Y2, Y3 in H. destruct H as (((A & B & _) & C & _) & D & _). intros v [<-|[<-|[<-|[<-|[]]]]]; now apply same_sign_true.
Qed.
(** With the public options the search ends for every window, tolerance, polynomial and signal. *)
Theorem C71_ends tol fit p fallback_step signal threshold : exists r, find_labelled_crossings (public_config tol) fit p fallback_step signal threshold = Some r.
Proof. apply find_ends. left. reflexivity. Qed.
(** The sine of the altitude is compared with the sine of the threshold: this is comparing altitudes. *)
Theorem C71_sine (altitude threshold : R) : (- PI / 2 <= altitude <= PI / 2 -> - PI / 2 <= threshold <= PI / 2 -> (sin threshold < sin altitude <-> threshold < altitude))%R.
Proof.
  intros A T. split; intros H.
  - apply sin_increasing_0; Lra.lra.
  - apply sin_increasing_1; Lra.lra.
Qed.
(** A signal that only touches the threshold at a node of the scan is reported as rising there. *)
Definition touch (t : Q) : Q := if qltb t (1 # 2) then t - (1 # 2) else (1 # 2) - t.
Theorem C71_touch_refuted : find_labelled_crossings (public_config default_tol) (fun _ => None) (0, 1) (1 # 4) touch 0 = Some ([Cr (1 # 2) 1], false) /\ forall t, touch t <= 0.
Proof. split; [vm_compute; reflexivity|]. intros t. unfold touch. destruct (qltb_r t (1 # 2)); lra. Qed.

(** A line through the threshold at a third of the window: by the scan, and by a fitted polynomial. *)
Definition line_fit (s : interval) : option fitted :=
  if qltb (fst s) (1 # 3) && qltb (1 # 3) (snd s) then Some (Fitted (Some 0) [(2 * ((1 # 3) - fst s) / (snd s - fst s) - 1, 1)]) else Some (Fitted (Some 0) []).
Example C71_case : resolves (0, 1) default_tol /\ canon 0 /\ canon 1 /\
  find_labelled_crossings (public_config default_tol) line_fit (0, 1) (1 # 4) (fun t => t) (1 # 3) = Some ([Cr (1 # 3) 1], false) /\
  find_labelled_crossings (public_config default_tol) (fun _ => None) (0, 1) (1 # 4) (fun t => t) (1 # 3) = Some ([Cr (1 # 3) 1], false) /\
  find_labelled_crossings (public_config default_tol) (fun _ => Some (Fitted None [])) (0, 1) (1 # 4) (fun t => - t) (-1 # 3) = Some ([Cr (1 # 3) (-1)], true).
Proof. split; [vm_compute; discriminate|]. repeat split; vm_compute; reflexivity. Qed.

(** ** C72 *)
(** The periods above a threshold begin at rising events or the start of the window, end at setting
    events or its end, and every rising event begins one. *)
Theorem C72_edges tol hint fit p signal threshold events periods : resolves p tol -> fst p < snd p ->
  generic_crossings tol hint fit p signal threshold = Some events -> generic_above_threshold tol hint fit p signal threshold = Some periods ->
  (forall q, In q periods -> (In (fst q, Rising) events \/ (fst q = fst p /\ threshold < signal (fst p))) /\ (In (snd q, Setting) events \/ snd q = snd p)) /\
  (forall t, In (t, Rising) events -> t < snd p -> exists q, In q periods /\ fst q = t).
Proof.
  intros R W Ev Pe. unfold generic_crossings, generic_above_threshold in *. destruct (find_labelled_crossings _ _ _ _ _ _) as [[cs above]|] eqn:E; [|discriminate]. injection Ev as <-. injection Pe as <-.
  assert (S : forall c, In c cs -> inside p (ct c) /\ (cdir c = 1%Z \/ cdir c = (-1)%Z)).
  { intros c I. destruct (find_sound (public_config tol) fit p _ signal threshold cs above c R E I) as (_ & A & B). split; [assumption|]. exact (source_dir _ _ _ _ _ _ B). }
  assert (U : ups cs) by (apply Forall_forall; intros c I; now apply S).
  assert (T : timely p cs).
  { split; [|apply Forall_forall; intros c I; now apply S]. apply find_order in E. clear - E. induction E as [|a l H IH F]; constructor; auto. eapply Forall_impl; [|exact F]. intros b L. cbn beta in L. assert (0 < dedupe_eps) by reflexivity. lra. }
  assert (Ev : forall t w, In (t, w) (crossing_events cs) <-> exists c, In c cs /\ t = ct c /\ cdir c = match w with Rising => 1%Z | Setting => (-1)%Z end).
  { intros t w. unfold crossing_events. rewrite in_map_iff. split.
    - intros (c & Eq & I). exists c. destruct (S c I) as (_ & [D|D]); rewrite D in *; cbn in Eq; injection Eq as <- <-; auto.
    - intros (c & I & -> & D). exists c. split; [|assumption]. rewrite D. destruct w; reflexivity. }
  destruct (periods_edges p cs above U T W) as (H1 & H2). split.
  - intros q I. destruct (H1 q I) as (A & B). rewrite !Ev. split.
    + destruct A as [(A1 & A2)|(c & Ic & Dc & Ec)]; [right; split; [assumption|]; now apply (find_above _ _ _ _ _ _ _ _ E W)|left; exists c; auto].
    + destruct B as [B|(c & Ic & Dc & Ec)]; [now right|left; exists c; auto].
  - intros t It L. apply Ev in It as (c & Ic & -> & Dc). now apply (H2 c).
Qed.
(** The events come in order of time. *)
Theorem C72_order tol hint fit p signal threshold events : generic_crossings tol hint fit p signal threshold = Some events -> StronglySorted (fun a b => fst a < fst b) events.
Proof.
  unfold generic_crossings. destruct (find_labelled_crossings _ _ _ _ _ _) as [[cs above]|] eqn:E; [|discriminate]. intros Ev. injection Ev as <-. apply find_order in E. unfold crossing_events.
  induction E as [|a l H IH F]; cbn [map]; constructor; auto. rewrite Forall_forall in *. intros x I. apply in_map_iff in I as (c & <- & I). specialize (F c I). cbn [fst]. assert (0 < dedupe_eps) by reflexivity. lra.
Qed.
Theorem C72_ends tol hint fit p signal threshold : exists events periods, generic_crossings tol hint fit p signal threshold = Some events /\ generic_above_threshold tol hint fit p signal threshold = Some periods.
Proof.
  unfold generic_crossings, generic_above_threshold. destruct (find_ends (public_config tol) fit p (resolve_scan_step hint (public_config tol) default_scan_step) signal threshold) as ([cs above] & E); [left; reflexivity|]. rewrite E. eauto.
Qed.
(** Touching the threshold makes a period of a signal that is never above. *)
Theorem C72_touch_refuted : generic_above_threshold default_tol (Some (1 # 4)) (fun _ => None) (0, 1) touch 0 = Some [(1 # 2, 1)] /\ forall t, touch t <= 0.
Proof. split; [vm_compute; reflexivity|]. intros t. unfold touch. destruct (qltb_r t (1 # 2)); lra. Qed.
Definition tent (t : Q) : Q := if qltb t (1 # 2) then t - (1 # 3) else (2 # 3) - t.
Example C72_case : resolves (0, 1) default_tol /\
  generic_crossings default_tol (Some (1 # 4)) (fun _ => None) (0, 1) tent 0 = Some [(1 # 3, Rising); (2 # 3, Setting)] /\
  generic_above_threshold default_tol (Some (1 # 4)) (fun _ => None) (0, 1) tent 0 = Some [(1 # 3, 2 # 3)].
Proof. split; [vm_compute; discriminate|]. split; vm_compute; reflexivity. Qed.
Print Assumptions C71_sound.
Print Assumptions C71_notices.
Print Assumptions C71_quarters.
Print Assumptions C71_sine.
Print Assumptions C72_edges.
