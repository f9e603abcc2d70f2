(** C19: the stacked kernel set. *)
From Coq Require Import List ZArith QArith Bool Lia.
From Verif Require Import Base Kern_Model Ssb_Model Kern_Spec Kern_Proofs Ssb_Spec Ssb_Proofs.
Import ListNotations.
Local Open Scope Z_scope.

Section Props.
  Context {V : Type} (vzero : V) (vadd vsub : V -> V -> V) (vmoon : V -> V).
  Notation position := (position V vzero vadd vsub vmoon).
  Notation geometric := (geometric V vzero vadd vsub vmoon).
  Notation from_ssb := (from_ssb vzero vadd vsub vmoon).

  (** Lookup ends on every segment graph. *)
  Theorem C19_total segs et t : exists r, position segs et t = Some r /\ r <> Panic.
  Proof. exact (position_total vzero vadd vsub vmoon segs et t). Qed.

  (** Answers are sums along chains, and an answer exists exactly when some chain does. *)
  Theorem C19_sound segs et t v : position segs et t = Some (Ok v) -> from_ssb segs et t v.
  Proof. exact (pos_sound vzero vadd vsub vmoon segs et _ t [] v). Qed.
  Theorem C19_complete segs et t : readable segs et ->
    ((exists v, from_ssb segs et t v) <-> exists v, position segs et t = Some (Ok v)).
  Proof.
    intros R. split; [intros (v & F); exact (position_complete vzero vadd vsub vmoon segs et R t v F)|].
    intros (v & H). exists v. now apply C19_sound.
  Qed.

  (** The latest covering segment of the body decides, when its centre can be resolved without the body. *)
  Theorem C19_latest older s newer et w t v0 : let segs := older ++ s :: newer in
    readable segs et -> k_target s = t -> t <> 0 -> t <> 399 ->
    answers segs et s w -> (forall n, In n newer -> k_target n = t -> ~ within et n) ->
    from_ssb (filter (fun x => negb (k_target x =? t)) segs) et (k_center s) v0 ->
    exists u, position segs et t = Some (Ok (vadd u w)) /\ from_ssb segs et (k_center s) u.
  Proof.
    intros segs R T Tz Te (A1 & A2 & A3) New F.
    set (fs := filter (fun x => negb (k_target x =? t)) segs) in *.
    apply from_ssb_path in F as (l & P). destruct (path_simple fs et (length l) _ l (le_n _) P) as (l' & P' & Nd & _).
    assert (X : forall c m, path fs et c m -> path segs et c m /\ ~ In t m).
    { clear -Te. induction 1 as [|b c m Hb St _ [IH1 IH2]]; [split; [constructor|intros []]|].
      assert (Fi : forall x, In x fs -> In x segs /\ k_target x <> t).
      { intros x Hx. apply filter_In in Hx as [Hx1 Hx2]. apply negb_true_iff, Z.eqb_neq in Hx2. auto. }
      split.
      - econstructor; [assumption| |exact IH1]. destruct St as [(x & w & (B1 & B2 & B3) & B4)|(-> & -> & x & w & (B1 & B2 & B3) & B4)].
        + left. exists x, w. destruct (Fi x B1). repeat split; auto; tauto.
        + right. repeat split; auto. exists x, w. destruct (Fi x B1). repeat split; auto; tauto.
      - intros [<-|Hin]; [|auto]. destruct St as [(x & w & (B1 & _) & B4 & _)|(E & _)]; [|contradiction].
        destruct (Fi x B1). contradiction. }
    destruct (X _ _ P') as [P'' Nt].
    unfold Ssb_Model.position. destruct (kbound V segs) as [|f] eqn:Kb; [unfold kbound in Kb; lia|]. cbn [pos_ssb existsb].
    destruct (Z.eqb_spec t 0); [contradiction|].
    assert (Il : (length (ids segs t) = S (S (length segs)))%nat) by apply ids_len.
    destruct (pos_path vzero vadd vsub vmoon segs et R t l' (k_center s) P'' [t] f) as (u & U).
    - exact Nd.
    - intros x Hx [<-|[]]. contradiction.
    - right. right. now apply in_map.
    - repeat constructor. intros [].
    - intros x [<-|[]]. now left.
    - rewrite Il. unfold kbound in Kb. cbn. lia.
    - exists u. split; [|eapply pos_sound; exact U].
      assert (Lp : forall l o, (forall n, In n l -> k_target n = t -> ~ within et n) ->
        pos_loop V vadd (fun c => pos_ssb V vzero vadd vsub vmoon f segs et c [t]) et t (l ++ s :: rev older) o =
        Some (inl (Ok (vadd u w)))).
      { induction l0 as [|x l0 IH]; intros o Hn; cbn [app pos_loop].
        - rewrite T, Z.eqb_refl. cbn [negb]. rewrite (proj2 (covers_et_spec et s) A2), A3. cbn [negb]. now rewrite U.
        - destruct (Z.eqb_spec (k_target x) t) as [E|]; cbn [negb]; [|apply IH; intros; apply Hn; [now right|assumption]].
          destruct (covers_et V et x) eqn:C; [apply covers_et_spec in C; exfalso; apply (Hn x); [now left|assumption|assumption]|].
          cbn [negb]. apply IH. intros; apply Hn; [now right|assumption]. }
      unfold segs at 2. rewrite rev_app_distr. cbn [rev]. rewrite <- app_assoc. cbn [app].
      rewrite Lp; [reflexivity|]. intros n0 Hn. apply New. now apply in_rev.
  Qed.

  (** For a consistent ephemeris: position minus barycentre, and target minus observer. *)
  Definition coherent segs et (pos : Z -> V) : Prop :=
    (forall s w, answers segs et s w -> w = vsub (pos (k_target s)) (pos (k_center s))) /\
    (forall m w, answers segs et m w -> k_target m = 301 -> k_center m = 3 -> pos 399 = vsub (pos 3) (vmoon w)).
  Theorem C19_value segs et pos t v : group_laws vzero vadd vsub -> coherent segs et pos ->
    position segs et t = Some (Ok v) -> v = vsub (pos t) (pos 0).
  Proof.
    intros G [K1 K2] E. apply C19_sound in E.
    pose proof (vsub_char vzero vadd vsub G) as Ch. destruct G as [A C Z S].
    induction E as [|s w u An _ IH|m w u An T1 T2 _ IH].
    - apply Ch. rewrite C. apply Z.
    - apply K1 in An. apply Ch. apply Ch in IH, An. rewrite <- A, (C w), A, IH, C. exact An.
    - specialize (K2 m w An T1 T2). apply Ch. rewrite K2. apply Ch in IH. apply Ch. rewrite <- IH.
      rewrite <- A, (C (pos 0)), A, S. reflexivity.
  Qed.
  Theorem C19_geometric segs et pos t o v : group_laws vzero vadd vsub -> coherent segs et pos ->
    geometric segs et t o = Some (Ok v) -> v = vsub (pos t) (pos o).
  Proof.
    intros G K. unfold Ssb_Model.geometric. destruct (position segs et t) as [[a|?|]|] eqn:E1; try discriminate.
    destruct (position segs et o) as [[b|?|]|] eqn:E2; try discriminate. intros [= <-].
    apply (C19_value segs et pos _ _ G K) in E1, E2. subst.
    pose proof (vsub_char vzero vadd vsub G) as Ch. destruct G as [A C Z S].
    apply Ch. set (d := vsub (pos o) (pos 0)). transitivity (vadd (vadd (vsub (vsub (pos t) (pos 0)) d) d) (pos 0)).
    - rewrite <- A. unfold d at 3. now rewrite S.
    - now rewrite !S.
  Qed.
  (** the planet barycentre shortcut: whenever it finds its segments its answer stands; it gives way to the general lookup
      only for a segment that is not there, and reports every other failure as it is *)
  Theorem C19_shortcut_fallback segs et p : (forall t, fast V vadd vsub vmoon segs et p = Err (EMissing t) -> barycentre_geocentric V vzero vadd vsub vmoon segs et p = Ssb_Model.geometric V vzero vadd vsub vmoon segs et p 399) /\
    (forall e, fast V vadd vsub vmoon segs et p = Err e -> (forall t, e <> EMissing t) -> barycentre_geocentric V vzero vadd vsub vmoon segs et p = Some (Err e)) /\
    (forall v, fast V vadd vsub vmoon segs et p = Ok v -> barycentre_geocentric V vzero vadd vsub vmoon segs et p = Some (Ok v)).
  Proof.
    unfold barycentre_geocentric. split; [|split].
    - intros t ->. reflexivity.
    - intros e -> N. destruct e; try reflexivity. exfalso. now apply (N t).
    - intros v ->. reflexivity.
  Qed.
  (** The shortcut for planet barycentres, wherever it answers, gives the target as seen from the Earth. *)
  Lemma edge_answers segs et t c w : edge V segs et t c = Ok w -> exists s, answers segs et s w /\ k_target s = t /\ k_center s = c.
  Proof. intros H. apply edge_loop_sound in H as (s & I & W & K & T & C). exists s. split; [split; [now apply in_rev|auto]|auto]. Qed.
  Theorem C19_shortcut_value segs et pos p v : group_laws vzero vadd vsub -> coherent segs et pos ->
    fast V vadd vsub vmoon segs et p = Ok v -> v = vsub (pos p) (pos 399).
  Proof.
    intros G (K1 & K2). unfold fast. destruct (edge V segs et p 0) as [tg| |] eqn:E1; try discriminate.
    destruct (edge V segs et 3 0) as [emb| |] eqn:E2; try discriminate.
    apply edge_answers in E1 as (s1 & A1 & T1 & C1). apply edge_answers in E2 as (s2 & A2 & T2 & C2).
    apply K1 in A1. apply K1 in A2. rewrite T1, C1 in A1. rewrite T2, C2 in A2.
    pose proof (vsub_char vzero vadd vsub G) as Ch. destruct G as [A C Z S]. apply Ch in A1, A2.
    assert (Fin : forall off, vadd off (pos 3) = pos 399 -> vadd (vsub tg (vadd emb off)) (pos 399) = pos p).
    { intros off E. rewrite <- E, <- A2, <- A1, (A off), (C off emb), (A _ (vadd emb off)), S. reflexivity. }
    intros H. apply Ch. destruct (edge V segs et 399 3) as [off|e|] eqn:E3.
    - injection H as <-. apply Fin. apply edge_answers in E3 as (s3 & A3 & T3 & C3). apply K1 in A3. rewrite T3, C3 in A3. apply Ch in A3. exact A3.
    - destruct (edge V segs et 301 3) as [m| |] eqn:E4; try discriminate. injection H as <-. apply edge_answers in E4 as (s4 & A4 & T4 & C4).
      rewrite (K2 s4 m A4 T4 C4), <- A2, <- A1. set (mm := vmoon m). set (d := vsub emb mm).
      assert (D : vsub (vadd emb (pos 0)) mm = vadd d (pos 0)). { symmetry. apply Ch. unfold d. rewrite <- A, (C (pos 0)), A, S. reflexivity. }
      rewrite D, A, S. reflexivity.
    - exfalso. revert E3. apply edge_no_panic.
  Qed.
End Props.

(** Earth from the barycentre and the Moon, with a centre cycle 5 - 6 to be stepped around. *)
Definition ks (tg c : Z) (v : Z) : kseg Z := KSeg tg c (Some 0%Q) (Some 10%Q) (fun _ => EvOk v).
Notation zpos := (position Z 0 Z.add Z.sub (fun m => m / 81)).
Definition solar : list (kseg Z) := [ks 3 0 1000; ks 301 3 810; ks 5 0 7; ks 6 5 1; ks 5 6 (-1)].
Example C19_case : readable solar (Some 4%Q) /\ coherent Z.sub (fun m => m / 81) solar (Some 4%Q)
    (fun n => match n with 3 => 1000 | 301 => 1810 | 399 => 990 | 5 => 7 | 6 => 8 | _ => 0 end) /\
  zpos solar (Some 4%Q) 399 = Some (Ok 990) /\ zpos solar (Some 4%Q) 6 = Some (Ok 8) /\
  fast Z Z.add Z.sub (fun m => m / 81) solar (Some 4%Q) 5 = Ok (-983) /\
  zpos solar (Some 4%Q) 5 = Some (Ok 7) /\ zpos solar (Some 12%Q) 5 = Some (Err ERange) /\ zpos solar (Some 4%Q) 8 = Some (Err (EMissing 8)).
Proof.
  split; [intros s Hs _; cbn in Hs; repeat (destruct Hs as [<-|Hs]; [discriminate|]); destruct Hs|].
  split; [|vm_compute; repeat split]. split.
  - intros s w (Hs & _ & K). cbn in Hs. repeat (destruct Hs as [<-|Hs]; [injection K as <-; reflexivity|]); destruct Hs.
  - intros s w (Hs & _ & K) T C. cbn in Hs. repeat (destruct Hs as [<-|Hs]; [injection K as <-; try discriminate; reflexivity|]); destruct Hs.
Qed.

(** The shortcut for planet barycentres reports out-of-range although the general lookup answers. *)
Definition split_emb : list (kseg Z) :=
  [KSeg 3 0 (Some 20%Q) (Some 30%Q) (fun _ => EvOk 1); ks 3 10 2; ks 10 0 3; ks 399 3 1; ks 4 0 100].
Theorem C19_shortcut_refuted : 
  geometric Z 0 Z.add Z.sub (fun m => m / 81) split_emb (Some 4%Q) 4 399 = Some (Ok 94) /\
  barycentre_geocentric Z 0 Z.add Z.sub (fun m => m / 81) split_emb (Some 4%Q) 4 = Some (Err ERange).
Proof. split; vm_compute; reflexivity. Qed.
(** A segment whose evaluation fails hard hides an older readable one. *)
Theorem C19_hard_refuted : exists segs v, from_ssb 0 Z.add Z.sub (fun m => m / 81) segs (Some 4%Q) 5 v /\
  zpos segs (Some 4%Q) 5 = Some (Err EHard).
Proof.
  exists [ks 5 0 7; KSeg 5 0 (Some 0%Q) (Some 10%Q) (fun _ => EvHard)], (0 + 7). split; [|vm_compute; reflexivity].
  apply (fs_seg 0 Z.add Z.sub _ _ _ (ks 5 0 7) 7 0); [|apply fs_zero].
  split; [now left|]. split; [|reflexivity]. exists 4%Q, 0%Q, 10%Q. repeat split; discriminate.
Qed.

Print Assumptions C19_total.
Print Assumptions C19_sound.
Print Assumptions C19_complete.
Print Assumptions C19_latest.
Print Assumptions C19_value.
Print Assumptions C19_geometric.
Print Assumptions C19_shortcut_fallback.
Print Assumptions C19_shortcut_value.
