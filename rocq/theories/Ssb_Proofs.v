(** Lemmas about the stacked kernel set. *)
From Coq Require Import List ZArith QArith Bool Lia.
From Verif Require Import Base Kern_Model Ssb_Model Kern_Spec Ssb_Spec.
Import ListNotations.
Local Open Scope Z_scope.

Section P.
  Context {V : Type}.
  Variables (vzero : V) (vadd vsub : V -> V -> V) (vmoon : V -> V).
  Notation pos_ssb := (pos_ssb V vzero vadd vsub vmoon).
  Notation position := (position V vzero vadd vsub vmoon).
  Notation from_ssb := (from_ssb vzero vadd vsub vmoon).
  Variable segs : list (kseg V).
  Variable et : fnum.

  Lemma covers_et_spec (s : kseg V) : covers_et V et s = true <-> within et s.
  Proof.
    unfold covers_et, within, fle. destruct et as [x|].
    - destruct (k_start s) as [a|], (k_end s) as [b|]; cbn.
      + rewrite andb_true_iff, !Qle_bool_iff. split.
        * intros [H1 H2]. exists x, a, b. auto.
        * intros (x' & a' & b' & [= <-] & [= <-] & [= <-] & H). exact H.
      + rewrite andb_false_r. split; [discriminate|]. intros (x' & a' & b' & _ & _ & H & _). discriminate.
      + split; [discriminate|]. intros (x' & a' & b' & _ & H & _). discriminate.
      + split; [discriminate|]. intros (x' & a' & b' & _ & H & _). discriminate.
    - split; [discriminate|]. intros (x & a & b & H & _). discriminate.
  Qed.

  Lemma edge_loop_sound t c l : forall o v, edge_loop V et t c l o = Ok v ->
    exists s, In s l /\ within et s /\ k_pos s et = EvOk v /\ k_target s = t /\ k_center s = c.
  Proof.
    induction l as [|s l IH]; intros o v H; cbn [edge_loop] in H; [discriminate|].
    destruct ((k_target s =? t) && (k_center s =? c)) eqn:T; cbn [negb] in H;
      [|apply IH in H as (s' & H & H'); exists s'; split; [now right|assumption]].
    apply andb_true_iff in T as [T1 T2]. apply Z.eqb_eq in T1, T2.
    destruct (covers_et V et s) eqn:C; cbn [negb] in H;
      [|apply IH in H as (s' & H & H'); exists s'; split; [now right|assumption]].
    destruct (k_pos s et) as [w| |] eqn:K; try discriminate.
    - injection H as ->. exists s. split; [now left|]. rewrite <- covers_et_spec. auto.
    - apply IH in H as (s' & H & H'); exists s'; split; [now right|assumption].
  Qed.
  Lemma edge_loop_complete t c l : (forall s, In s l -> within et s -> k_pos s et <> EvHard) ->
    forall s w o, In s l -> within et s -> k_pos s et = EvOk w -> k_target s = t -> k_center s = c ->
    exists v, edge_loop V et t c l o = Ok v.
  Proof.
    intros R s w. induction l as [|x l IH]; intros o Hs C K T1 T2; [destruct Hs|]. cbn [edge_loop].
    assert (R' : forall s, In s l -> within et s -> k_pos s et <> EvHard) by (intros; apply R; [now right|assumption]).
    destruct Hs as [->|Hs].
    - rewrite T1, T2, !Z.eqb_refl. cbn. apply covers_et_spec in C. rewrite C, K. cbn. eauto.
    - destruct (negb _); [eauto|]. destruct (covers_et V et x) eqn:Cx; cbn [negb]; [|eauto].
      destruct (k_pos x et) eqn:Kx; eauto. exfalso. apply covers_et_spec in Cx. apply (R x); [now left|assumption|assumption].
  Qed.
  Lemma edge_no_panic t c l o : edge_loop V et t c l o <> Panic.
  Proof.
    revert o. induction l as [|s l IH]; intros o; cbn [edge_loop]; [discriminate|].
    destruct (negb _); [apply IH|]. destruct (negb _); [apply IH|]. destruct (k_pos s et); [discriminate|apply IH|discriminate].
  Qed.

  Section Loop.
    Variable rec : Z -> option (outcome V serr).
    Variable t : Z.
    Lemma pos_loop_sound l : forall o v, pos_loop V vadd rec et t l o = Some (inl (Ok v)) ->
      exists s w c, In s l /\ within et s /\ k_pos s et = EvOk w /\ k_target s = t /\ rec (k_center s) = Some (Ok c) /\ v = vadd c w.
    Proof.
      induction l as [|s l IH]; intros o v H; cbn [pos_loop] in H; [discriminate|].
      assert (K : forall o, pos_loop V vadd rec et t l o = Some (inl (Ok v)) -> exists s' w c, In s' (s :: l) /\ within et s' /\ k_pos s' et = EvOk w /\ k_target s' = t /\ rec (k_center s') = Some (Ok c) /\ v = vadd c w).
      { intros o' H'. apply IH in H' as (s' & w & c & X & Y). exists s', w, c. split; [now right|exact Y]. }
      destruct (Z.eqb_spec (k_target s) t) as [T|]; cbn [negb] in H; [|eauto].
      destruct (covers_et V et s) eqn:C; cbn [negb] in H; [|eauto].
      destruct (k_pos s et) as [w| |] eqn:E; [|eauto|discriminate].
      destruct (rec (k_center s)) as [[c|e|]|] eqn:Rc; [|eauto|discriminate|discriminate].
      injection H as <-. exists s, w, c. rewrite <- covers_et_spec. repeat split; auto. now left.
    Qed.
    (** Some segment answers through [rec]: the loop returns a value. *)
    Lemma pos_loop_complete l : (forall s, In s l -> within et s -> k_pos s et <> EvHard) ->
      (forall c, rec c <> None /\ rec c <> Some Panic) ->
      forall s w c o, In s l -> within et s -> k_pos s et = EvOk w -> k_target s = t -> rec (k_center s) = Some (Ok c) ->
      exists v, pos_loop V vadd rec et t l o = Some (inl (Ok v)).
    Proof.
      intros R N s w c. induction l as [|x l IH]; intros o Hs C K T E; [destruct Hs|]. cbn [pos_loop].
      assert (R' : forall s, In s l -> within et s -> k_pos s et <> EvHard) by (intros; apply R; [now right|assumption]).
      destruct Hs as [->|Hs].
      - rewrite T, Z.eqb_refl. cbn. apply covers_et_spec in C. rewrite C, K. cbn. rewrite E. eauto.
      - destruct (negb _); [eauto|]. destruct (covers_et V et x) eqn:Cx; cbn [negb]; [|eauto].
        destruct (k_pos x et) as [w'| |] eqn:Kx; [|eauto|].
        + destruct (N (k_center x)) as [N1 N2]. destruct (rec (k_center x)) as [[c'|e|]|]; eauto; congruence.
        + exfalso. apply covers_et_spec in Cx. apply (R x); [now left|assumption|assumption].
    Qed.
    Lemma pos_loop_total l : (forall s, In s l -> rec (k_center s) <> None /\ rec (k_center s) <> Some Panic) ->
      forall o, pos_loop V vadd rec et t l o <> None /\ pos_loop V vadd rec et t l o <> Some (inl Panic).
    Proof.
      intros N. induction l as [|x l IH]; intros o; cbn [pos_loop]; [split; discriminate|].
      assert (N' : forall s, In s l -> rec (k_center s) <> None /\ rec (k_center s) <> Some Panic) by (intros; apply N; now right).
      specialize (IH N'). destruct (negb _); [auto|]. destruct (negb _); [auto|].
      destruct (k_pos x et) as [w'| |] eqn:Kx; [|auto|split; discriminate].
      destruct (N x (or_introl eq_refl)) as [N1 N2]. destruct (rec (k_center x)) as [[c'|e|]|]; try congruence; [split; discriminate|auto].
    Qed.
    Lemma pos_loop_readable l : (forall s, In s l -> within et s -> k_pos s et <> EvHard) -> forall o e,
      pos_loop V vadd rec et t l o <> Some (inl (Err e)).
    Proof.
      intros R. induction l as [|x l IH]; intros o e; cbn [pos_loop]; [discriminate|].
      assert (R' : forall s, In s l -> within et s -> k_pos s et <> EvHard) by (intros; apply R; [now right|assumption]).
      specialize (IH R'). destruct (negb _); [auto|]. destruct (covers_et V et x) eqn:Cx; cbn [negb]; [|auto].
      destruct (k_pos x et) as [w'| |] eqn:Kx; [|auto|].
      - destruct (rec (k_center x)) as [[c'|e'|]|]; auto; discriminate.
      - exfalso. apply covers_et_spec in Cx. apply (R x); [now left|assumption|assumption].
    Qed.
  End Loop.

  Lemma in_visited t l : existsb (Z.eqb t) l = true <-> In t l.
  Proof.
    rewrite existsb_exists. split; [intros (x & H & E); apply Z.eqb_eq in E; now subst|intros H; exists t; now rewrite Z.eqb_refl].
  Qed.

  Lemma pos_sound fuel : forall t vis v, pos_ssb fuel segs et t vis = Some (Ok v) -> from_ssb segs et t v.
  Proof.
    induction fuel as [|f IH]; intros t vis v; cbn [Ssb_Model.pos_ssb]; (destruct (Z.eqb_spec t 0) as [->|Ht]; [intros [= <-]; constructor|]);
      (destruct (existsb _ vis); [discriminate|]); [discriminate|].
    destruct (pos_loop _ _ _ _ _ _ _) as [[r|o]|] eqn:L; [| |discriminate].
    - intros [= ->]. apply pos_loop_sound in L as (s & w & c & H1 & H2 & H3 & <- & H4 & ->).
      apply IH in H4. eapply fs_seg; [|exact H4]. split; [now apply in_rev|auto].
    - destruct (Z.eqb_spec t 399) as [->|]; [|discriminate]. unfold earth_from_emb.
      destruct (pos_ssb f segs et 3 (399 :: vis)) as [[u|e|]|] eqn:E; try discriminate.
      destruct (edge V segs et 301 3) as [w|e|] eqn:M; try discriminate. intros [= <-].
      apply edge_loop_sound in M as (m & H1 & H2 & H3 & H4 & H5). apply IH in E.
      eapply fs_earth; [|exact H4|exact H5|exact E]. split; [now apply in_rev|auto].
  Qed.

  (** Termination: the visited path only holds identifiers that occur. *)
  Definition ids (t0 : Z) : list Z := t0 :: 3 :: map k_center segs.
  Lemma pos_total t0 fuel : forall t vis, In t (ids t0) -> NoDup vis -> incl vis (ids t0) ->
    (length (ids t0) - length vis <= fuel)%nat ->
    pos_ssb fuel segs et t vis <> None /\ pos_ssb fuel segs et t vis <> Some Panic.
  Proof.
    induction fuel as [|f IH]; intros t vis Ht Nd Inc Hf; cbn [Ssb_Model.pos_ssb]; (destruct (Z.eqb_spec t 0) as [->|Hz]; [split; discriminate|]);
      (destruct (existsb (Z.eqb t) vis) eqn:Ev; [split; discriminate|]);
      assert (Hv : ~ In t vis) by (rewrite <- in_visited; congruence);
      assert (Nd' : NoDup (t :: vis)) by (now constructor);
      assert (Inc' : incl (t :: vis) (ids t0)) by (intros x [<-|]; auto);
      pose proof (NoDup_incl_length Nd' Inc') as Len; cbn [length] in Len; [lia|].
    assert (Rec : forall c, In c (ids t0) -> pos_ssb f segs et c (t :: vis) <> None /\ pos_ssb f segs et c (t :: vis) <> Some Panic).
    { intros c Hc. apply IH; auto. cbn [length]. lia. }
    assert (L := pos_loop_total (fun c => pos_ssb f segs et c (t :: vis)) t (rev segs)).
    destruct (L (fun s Hs => Rec (k_center s) (or_intror (or_intror (in_map k_center _ _ (proj2 (in_rev _ _) Hs))))) None) as [L1 L2].
    destruct (pos_loop _ _ _ _ _ _ _) as [[r|o]|]; [split; congruence| |congruence].
    destruct (t =? 399); [|split; discriminate]. unfold earth_from_emb.
    destruct (Rec 3 (or_intror (or_introl eq_refl))) as [R1 R2].
    destruct (pos_ssb f segs et 3 (t :: vis)) as [[u|e|]|]; try congruence; [|split; discriminate].
    pose proof (edge_no_panic 301 3 (rev segs) None) as Np. unfold edge.
    destruct (edge_loop V et 301 3 (rev segs) None); [split; discriminate|split; discriminate|congruence].
  Qed.
  Lemma ids_len t0 : length (ids t0) = S (S (length segs)).
  Proof. unfold ids. cbn. now rewrite map_length. Qed.
  Theorem position_total t : exists r, position segs et t = Some r /\ r <> Panic.
  Proof.
    unfold Ssb_Model.position. destruct (pos_total t (kbound V segs) t []) as [H1 H2].
    - now left.
    - constructor.
    - intros x [].
    - rewrite ids_len. unfold kbound. cbn. lia.
    - destruct (pos_ssb _ _ _ _ _) as [r|]; [|congruence]. exists r. split; congruence.
  Qed.

  (** One step towards the barycentre. *)
  Definition step (t c : Z) : Prop :=
    (exists s w, answers segs et s w /\ k_target s = t /\ k_center s = c) \/
    (t = 399 /\ c = 3 /\ exists m w, answers segs et m w /\ k_target m = 301 /\ k_center m = 3).
  (** [path t l]: from [t] through the nodes [l] (starting with [t]) to the barycentre. *)
  Inductive path : Z -> list Z -> Prop :=
  | path_zero : path 0 []
  | path_step t c l : t <> 0 -> step t c -> path c l -> path t (t :: l).

  Lemma path_suffix t l : path t l -> forall x, In x l -> exists l', path x l' /\ (length l' <= length l)%nat /\ incl l' l.
  Proof.
    induction 1 as [|t c l Ht St Pc IH]; intros x Hx; [destruct Hx|].
    destruct Hx as [<-|Hx].
    - exists (t :: l). split; [econstructor; eauto|]. split; [lia|apply incl_refl].
    - destruct (IH x Hx) as (l' & P' & L & I). exists l'. split; [assumption|]. cbn. split; [lia|]. now apply incl_tl.
  Qed.
  Lemma path_simple n : forall t l, (length l <= n)%nat -> path t l -> exists l', path t l' /\ NoDup l' /\ incl l' l.
  Proof.
    induction n as [|n IH]; intros t l Hl P; inversion P as [|? c l0 Ht St Pc]; subst.
    - exists []. repeat split; [constructor|constructor|apply incl_refl].
    - cbn in Hl. lia.
    - exists []. repeat split; [constructor|constructor|apply incl_refl].
    - cbn in Hl. destruct (in_dec Z.eq_dec t l0) as [Hin|Hout].
      + destruct (path_suffix c l0 Pc t Hin) as (l1 & P1 & L1 & I1).
        destruct (IH t l1 ltac:(lia) P1) as (l2 & P2 & N2 & I2). exists l2. repeat split; auto.
        apply incl_tl. eapply incl_tran; eauto.
      + destruct (IH c l0 ltac:(lia) Pc) as (l2 & P2 & N2 & I2). exists (t :: l2). split; [econstructor; eauto|].
        split; [constructor; auto|]. intros x [<-|Hx]; [now left|right; auto].
  Qed.
  Lemma from_ssb_path t v : from_ssb segs et t v -> exists l, path t l.
  Proof.
    induction 1 as [|s w u A _ (l & IH)|m w u A T C _ (l & IH)].
    - exists []. constructor.
    - destruct (Z.eq_dec (k_target s) 0) as [->|N]; [exists []; constructor|].
      exists (k_target s :: l). econstructor; [assumption| |exact IH]. left. exists s, w. auto.
    - exists (399 :: l). econstructor; [lia| |exact IH]. right. repeat split; auto. exists m, w. auto.
  Qed.

  Hypothesis Rd : readable segs et.
  Lemma rd_rev : forall s, In s (rev segs) -> within et s -> k_pos s et <> EvHard.
  Proof. intros s Hs. apply Rd. now apply in_rev. Qed.

  Lemma pos_path t0 l : forall t, path t l -> forall vis fuel, NoDup l -> (forall x, In x l -> ~ In x vis) ->
    In t (ids t0) -> NoDup vis -> incl vis (ids t0) -> (length (ids t0) - length vis <= fuel)%nat ->
    exists v, pos_ssb fuel segs et t vis = Some (Ok v).
  Proof.
    induction l as [|n l IH]; intros t P vis fuel Nd Dis Ht Ndv Inc Hf; inversion P as [|? c l0 Hz St Pc]; subst.
    - destruct fuel; cbn; eauto.
    - rename n into t. assert (Hv : ~ In t vis) by (apply Dis; now left).
      assert (Nd' : NoDup (t :: vis)) by (now constructor).
      assert (Inc' : incl (t :: vis) (ids t0)) by (intros x [<-|]; auto).
      pose proof (NoDup_incl_length Nd' Inc') as Len; cbn [length] in Len.
      destruct fuel as [|f]; [lia|]. cbn [Ssb_Model.pos_ssb].
      destruct (Z.eqb_spec t 0); [contradiction|].
      destruct (existsb (Z.eqb t) vis) eqn:Ev; [apply in_visited in Ev; contradiction|].
      apply NoDup_cons_iff in Nd as [Nt Nd].
      assert (Step : forall c, In c (ids t0) -> path c l -> exists v, pos_ssb f segs et c (t :: vis) = Some (Ok v)).
      { intros c' Hc P'. apply IH; auto; [|cbn [length]; lia]. intros x Hx [<-|X]; [contradiction|]. apply (Dis x); [now right|assumption]. }
      assert (Tot : forall c, In c (ids t0) -> pos_ssb f segs et c (t :: vis) <> None /\ pos_ssb f segs et c (t :: vis) <> Some Panic).
      { intros c' Hc. apply (pos_total t0); auto. cbn [length]. lia. }
      set (rec := fun c => pos_ssb f segs et c (t :: vis)) in *.
      destruct (pos_loop_total rec t (rev segs)
        (fun s Hs => Tot (k_center s) (or_intror (or_intror (in_map k_center _ _ (proj2 (in_rev _ _) Hs))))) None) as [L1 L2].
      pose proof (pos_loop_readable rec t (rev segs) rd_rev None) as L3.
      destruct (pos_loop V vadd rec et t (rev segs) None) as [[[v|e|]|o]|] eqn:L; [eauto|exfalso; now apply (L3 e)|congruence| |congruence].
      destruct St as [(s & w & (A1 & A2 & A3) & T1 & T2)|(-> & -> & m & w & (A1 & A2 & A3) & T1 & T2)].
      + exfalso. subst c.
        assert (Hc : In (k_center s) (ids t0)) by (right; right; now apply in_map).
        destruct (Step (k_center s) Hc Pc) as (u & U).
        assert (L' : forall l o', In s l -> incl l segs -> exists r, pos_loop V vadd rec et t l o' = Some (inl r)).
        { clear L L1 L2 L3. induction l0 as [|x l0 IHl]; intros o' Hs Hi; [destruct Hs|]. cbn [pos_loop].
          assert (Hi' : incl l0 segs) by (intros y Hy; apply Hi; now right).
          destruct Hs as [->|Hs].
          - rewrite T1, Z.eqb_refl. cbn. rewrite (proj2 (covers_et_spec s) A2), A3. cbn. unfold rec. rewrite U. eauto.
          - destruct (negb _); [eauto|]. destruct (negb _); [eauto|]. destruct (k_pos x et) eqn:Kx; [|eauto|eauto].
            destruct (Tot (k_center x)) as [Q1 Q2]; [right; right; apply in_map, Hi; now left|]. fold rec in Q1, Q2 |- *.
            change (pos_ssb f segs et (k_center x) (t :: vis)) with (rec (k_center x)) in Q1, Q2.
            destruct (rec (k_center x)) as [[c'|e|]|]; eauto; congruence. }
        destruct (L' (rev segs) None) as (r & L''); [now apply -> in_rev|intros y Hy; now apply in_rev|]. congruence.
      + cbn [Z.eqb Pos.eqb]. unfold earth_from_emb.
        destruct (Step 3 (or_intror (or_introl eq_refl)) Pc) as (u & U). unfold rec. rewrite U.
        destruct (edge_loop_complete 301 3 (rev segs) rd_rev m w None) as (x & X); auto; [now apply -> in_rev|].
        unfold edge. rewrite X. eauto.
  Qed.

  Theorem position_complete t v : from_ssb segs et t v -> exists u, position segs et t = Some (Ok u).
  Proof.
    intros F. apply from_ssb_path in F as (l & P). destruct (path_simple (length l) t l (le_n _) P) as (l' & P' & N & _).
    unfold Ssb_Model.position. apply (pos_path t l' t P'); auto.
    - now left.
    - constructor.
    - intros x [].
    - rewrite ids_len. unfold kbound. cbn. lia.
  Qed.
End P.
