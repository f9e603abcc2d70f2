(** C18: SPK chains. States are any abelian group; the case uses Z. *)
From Coq Require Import List ZArith QArith Bool Lia.
From Verif Require Import Base Graph Kern_Model Kern_Spec Kern_Proofs.
Import ListNotations.
Local Open Scope Z_scope.

Section Props.
  Context {V : Type} (vzero : V) (vadd vsub : V -> V -> V).
  Notation state := (state V vzero vadd vsub).
  Notation state_naif := (state_naif V vzero vadd vsub).

  (** Every answer is the signed sum along a chain of covering segments. *)
  Theorem C18_sound segs a b t v : state segs a b t = Some (Ok v) -> chain_sum vzero vadd vsub segs t a b v.
  Proof. exact (state_sound vzero vadd vsub segs a b t v). Qed.

  (** When the covering segments can all be evaluated, an answer exists exactly when the bodies are linked. *)
  Theorem C18_complete segs a b t : (forall s, In s segs -> covers t s -> exists v, evals t s v) ->
    (linked segs (covers t) a b <-> exists v, state segs a b t = Some (Ok v)).
  Proof.
    intros A. split; [apply state_complete; exact A|]. intros (v & H).
    eapply chain_sum_linked. eapply state_sound. exact H.
  Qed.

  (** Otherwise the error tells whether the bodies are linked at any epoch. *)
  Theorem C18_errors segs a b t : ~ linked segs (covers t) a b ->
    (linked segs (fun _ => True) a b -> state segs a b t = Some (Err KOutOfCoverage)) /\
    (~ linked segs (fun _ => True) a b -> state segs a b t = Some (Err KNoChain)).
  Proof. exact (state_unlinked vzero vadd vsub segs a b t). Qed.

  (** Both searches end and the path invariant never fails. *)
  Theorem C18_total segs a b t : (forall s f, In s segs -> l_eval s = Some f -> f t <> Panic) ->
    exists r, state segs a b t = Some r /\ r <> Panic.
  Proof. exact (state_total vzero vadd vsub segs a b t). Qed.

  (** For a consistent ephemeris the answer is target minus centre, and exchange negates it. *)
  Theorem C18_value segs t pos a b v : group_laws vzero vadd vsub -> consistent vsub segs t pos ->
    state segs a b t = Some (Ok v) -> v = vsub (pos a) (pos b).
  Proof. intros G K E. eapply chain_value; eauto. eapply state_sound. exact E. Qed.
  Theorem C18_exchange segs t pos a b v w : group_laws vzero vadd vsub -> consistent vsub segs t pos ->
    state segs a b t = Some (Ok v) -> state segs b a t = Some (Ok w) -> w = vsub vzero v.
  Proof.
    intros G K E1 E2. apply (C18_value segs t pos a b v G K) in E1. apply (C18_value segs t pos b a w G K) in E2.
    subst. now apply (vsub_swap vzero vadd vsub).
  Qed.

  (** The kernel stack answers with the last loaded kernel that has a chain of its own. *)
  Definition no_answer (k : list (lseg V)) (a b : Z) (t : fnum) : Prop :=
    state k a b t = Some (Err KNoChain) \/ state k a b t = Some (Err KOutOfCoverage).
  Theorem C18_stack ks a b t v : state_naif ks a b t = Some (Ok v) <->
    exists older k newer, ks = older ++ k :: newer /\ state k a b t = Some (Ok v) /\
      forall n, In n newer -> no_answer n a b t.
  Proof.
    assert (G : forall l, stack_rev V vzero vadd vsub l a b t = Some (Ok v) <->
      exists newer k older, l = newer ++ k :: older /\ state k a b t = Some (Ok v) /\ forall n, In n newer -> no_answer n a b t).
    { induction l as [|k l IH]; cbn [stack_rev].
      - split; [discriminate|]. intros ([|? ?] & k & o & X & _); discriminate.
      - split.
        + intros H. destruct (state k a b t) as [[x|[| |ty|]|]|] eqn:E; try discriminate;
            try (apply IH in H as (nw & k' & o & -> & H1 & H2); exists (k :: nw), k', o; repeat split; auto;
                 intros n [<-|Hn]; [unfold no_answer; rewrite E; auto|auto]).
          injection H as ->. exists [], k, l. repeat split; auto. intros n [].
        + intros (nw & k' & o & X & H1 & H2). destruct nw as [|n nw]; injection X as -> ->.
          * now rewrite H1.
          * destruct (H2 n (or_introl eq_refl)) as [-> | ->]; apply IH; exists nw, k', o; repeat split; auto; intros m Hm; apply H2; now right. }
    unfold Kern_Model.state_naif. rewrite G. split.
    - intros (nw & k & o & X & H1 & H2). exists (rev o), k, (rev nw). split; [|split; auto].
      + rewrite <- (rev_involutive ks), X, rev_app_distr. cbn. now rewrite <- app_assoc.
      + intros n Hn. apply H2. now apply in_rev.
    - intros (o & k & nw & -> & H1 & H2). exists (rev nw), k, (rev o). split; [|split; auto].
      + rewrite rev_app_distr. cbn. now rewrite <- app_assoc.
      + intros n Hn. apply H2. now apply in_rev.
  Qed.
End Props.

(** A ring of bodies 0-1-2-3, parallel edges, a segment that does not cover the epoch. *)
Definition mk (tg c : Z) (s e : Q) (v : Z) : lseg Z := LSeg tg c 2 (Some s) (Some e) (Some (fun _ => Ok v)).
Definition ring : list (lseg Z) :=
  [mk 1 0 0 10 5; mk 1 0 0 10 5; mk 2 1 0 10 7; mk 3 2 0 10 (-20); mk 0 3 0 10 8; mk 9 3 20 30 1].
Definition ring_pos (n : Z) : Z := match n with 1 => 5 | 2 => 12 | 3 => -8 | _ => 0 end.
Notation zstate := (state Z 0 Z.add Z.sub).
Example C18_case : group_laws 0 Z.add Z.sub /\ consistent Z.sub ring (Some 4%Q) ring_pos /\
  zstate ring 2 3 (Some 4%Q) = Some (Ok 20) /\ zstate ring 3 2 (Some 4%Q) = Some (Ok (-20)) /\
  zstate ring 9 0 (Some 4%Q) = Some (Err KOutOfCoverage) /\ zstate ring 2 77 (Some 4%Q) = Some (Err KNoChain).
Proof.
  split; [split; intros; lia|]. split; [|vm_compute; repeat split].
  intros s v Hs Hc (f & F & E). cbn in Hs.
  repeat (destruct Hs as [<-|Hs]; [injection F as <-; injection E as <-; reflexivity || (exfalso; destruct Hc as [Hc _]; specialize (Hc 4%Q 20%Q eq_refl eq_refl); now apply Hc)|]). destruct Hs.
Qed.

(** An unreadable segment type hides a readable segment between the same bodies. *)
Definition shadowed : list (lseg Z) := [LSeg 1 0 21 (Some 0%Q) (Some 10%Q) None; mk 1 0 0 10 5].
Theorem C18_unsupported_refuted :
  (exists v, chain_sum 0 Z.add Z.sub shadowed (Some 4%Q) 1 0 v) /\ zstate shadowed 1 0 (Some 4%Q) = Some (Err (KUnsupported 21)).
Proof.
  split; [|vm_compute; reflexivity]. exists (0 + 5).
  apply (cs_down 0 Z.add Z.sub shadowed (Some 4%Q) 1 (mk 1 0 0 10 5) 0 5).
  - apply cs_refl.
  - cbn; auto.
  - split; cbn; intros x y [= <-] [= <-] H; discriminate.
  - eexists. split; reflexivity.
Qed.
(** The first loaded of two parallel segments wins, and on inconsistent data exchange does not negate. *)
Definition square : list (lseg Z) := [mk 1 0 0 9 1; mk 3 1 0 9 1; mk 3 2 0 9 5; mk 2 0 0 9 5].
Theorem C18_exchange_refuted : zstate square 3 0 (Some 4%Q) = Some (Ok 2) /\
  zstate [mk 2 0 0 9 5; mk 3 2 0 9 5; mk 3 1 0 9 1; mk 1 0 0 9 1] 3 0 (Some 4%Q) = Some (Ok 10) /\
  exists segs v w, zstate segs 3 0 (Some 4%Q) = Some (Ok v) /\ zstate segs 0 3 (Some 4%Q) = Some (Ok w) /\ w <> - v.
Proof.
  split; [vm_compute; reflexivity|]. split; [vm_compute; reflexivity|].
  exists [mk 1 0 0 9 1; mk 3 2 0 9 5; mk 2 0 0 9 5; mk 3 1 0 9 1]. eexists. eexists.
  split; [vm_compute; reflexivity|]. split; [vm_compute; reflexivity|]. discriminate.
Qed.
(** A chain whose segments sit in different kernels of the stack is not found. *)
Theorem C18_cross_kernel_refuted : exists k1 k2,
  (exists v, zstate (k1 ++ k2) 2 0 (Some 4%Q) = Some (Ok v)) /\
  state_naif Z 0 Z.add Z.sub [k1; k2] 2 0 (Some 4%Q) = Some (Err KNoChain).
Proof.
  exists [mk 1 0 0 9 1], [mk 2 1 0 9 1]. split; [exists 2; vm_compute; reflexivity|vm_compute; reflexivity].
Qed.

Print Assumptions C18_sound.
Print Assumptions C18_complete.
Print Assumptions C18_errors.
Print Assumptions C18_total.
Print Assumptions C18_value.
Print Assumptions C18_exchange.
Print Assumptions C18_stack.
