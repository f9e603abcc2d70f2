(** Lemmas about SPK chaining. *)
From Coq Require Import List ZArith QArith Bool Lia.
From Verif Require Import Base Graph Kern_Model Kern_Spec.
Import ListNotations.
Local Open Scope Z_scope.

Lemma flt_false a b : flt a b = false <-> forall x y, a = Some x -> b = Some y -> ~ (x < y)%Q.
Proof.
  unfold flt. destruct a as [x|], b as [y|]; try (split; [intros _ ? ? ? ?; congruence|reflexivity]).
  destruct (Qcompare_spec x y) as [H|H|H]; split; try discriminate; try reflexivity.
  - intros _ x' y' [= <-] [= <-] X. rewrite H in X. now apply Qlt_irrefl in X.
  - intros X. exfalso. now apply (X x y).
  - intros _ x' y' [= <-] [= <-] X. apply (Qlt_irrefl x). now apply Qlt_trans with y.
Qed.

Section P.
  Context {V : Type}.
  Variables (vzero : V) (vadd vsub : V -> V -> V).
  Implicit Types (segs : list (lseg V)) (t : fnum).

  Lemma in_cover_spec t (s : lseg V) : in_cover V t s = true <-> covers t s.
  Proof.
    unfold in_cover, covers. rewrite negb_true_iff, orb_false_iff, !flt_false.
    split; intros [H1 H2]; split; intros x y E1 E2; eauto.
  Qed.

  Lemma enum_in segs i s : In (i, s) (enum V segs) <-> nth_error segs i = Some s.
  Proof.
    unfold enum. revert i. enough (G : forall k i, In (i, s) (combine (seq k (length segs)) segs) <-> (k <= i)%nat /\ nth_error segs (i - k) = Some s).
    { intros i. rewrite (G 0%nat i), Nat.sub_0_r. split; [tauto|]. intros; split; [lia|assumption]. }
    induction segs as [|x l IH]; intros k i; cbn [length seq combine].
    - cbn. split; [tauto|]. intros [_ H]. destruct (i - k)%nat; discriminate.
    - cbn [In]. rewrite IH. split.
      + intros [[= <- <-]|[H1 H2]]; [split; [lia|rewrite Nat.sub_diag; reflexivity]|].
        split; [lia|]. replace (i - k)%nat with (S (i - S k)) by lia. exact H2.
      + intros [H1 H2]. destruct (Nat.eq_dec i k) as [->|N].
        * rewrite Nat.sub_diag in H2. injection H2 as ->. now left.
        * right. split; [lia|]. replace (i - k)%nat with (S (i - S k)) in H2 by lia. exact H2.
  Qed.

  Lemma nbrs_at_in segs t n m i (b : bool) : In (m, (i, b)) (nbrs_at V segs t n) <->
    exists s, nth_error segs i = Some s /\ covers t s /\
      if b then l_target s = n /\ l_center s = m else l_center s = n /\ l_target s = m.
  Proof.
    unfold nbrs_at. rewrite in_app_iff. unfold fwd, bwd. rewrite !in_flat_map. split.
    - intros [([j s] & H1 & H2)|([j s] & H1 & H2)]; apply enum_in in H1.
      + destruct (Z.eqb_spec (l_target s) n), (in_cover V t s) eqn:C; cbn in H2; try tauto.
        destruct H2 as [[= <- <- <-]|[]]. exists s. rewrite <- in_cover_spec. auto.
      + destruct (Z.eqb_spec (l_center s) n), (in_cover V t s) eqn:C; cbn in H2; try tauto.
        destruct H2 as [[= <- <- <-]|[]]. exists s. rewrite <- in_cover_spec. auto.
    - intros (s & H1 & H2 & H3). apply enum_in in H1. apply in_cover_spec in H2.
      destruct b; destruct H3 as [<- <-]; [left|right]; exists (i, s); split; auto; rewrite H2, Z.eqb_refl; now left.
  Qed.
  Lemma nbrs_any_in segs n m u : In (m, u) (nbrs_any V segs n) ->
    exists s, In s segs /\ (l_target s = n /\ l_center s = m \/ l_center s = n /\ l_target s = m).
  Proof.
    unfold nbrs_any. rewrite in_flat_map. intros (s & H1 & H2). exists s. split; [assumption|].
    destruct (Z.eqb_spec (l_target s) n); [destruct H2 as [[= <- _]|[]]; auto|].
    destruct (Z.eqb_spec (l_center s) n); [destruct H2 as [[= <- _]|[]]; auto|destruct H2].
  Qed.
  Lemma nbrs_any_down segs s : In s segs -> In (l_center s, tt) (nbrs_any V segs (l_target s)).
  Proof. intros H. apply in_flat_map. exists s. split; [assumption|]. rewrite Z.eqb_refl. now left. Qed.
  Lemma nbrs_any_up segs s : In s segs -> In (l_target s, tt) (nbrs_any V segs (l_center s)).
  Proof.
    intros H. apply in_flat_map. exists s. split; [assumption|]. destruct (Z.eqb_spec (l_target s) (l_center s)) as [E|].
    - rewrite E. now left.
    - rewrite Z.eqb_refl. now left.
  Qed.

  Definition nodes segs (a : Z) := a :: flat_map (fun s => [l_target s; l_center s]) segs.
  Lemma nodes_len segs a : S (length (nodes segs a)) = bound V segs.
  Proof.
    unfold nodes, bound. cbn [length]. do 2 f_equal. induction segs as [|s l IH]; [reflexivity|].
    cbn [flat_map]. rewrite app_length, IH. cbn. lia.
  Qed.
  Lemma nodes_cl segs a : forall n m u, In n (nodes segs a) -> In (m, u) (nbrs_any V segs n) -> In m (nodes segs a).
  Proof.
    intros n m u _ H. apply nbrs_any_in in H as (s & H1 & H2). right. apply in_flat_map. exists s. split; [assumption|]. cbn. destruct H2 as [[_ <-]|[_ <-]]; auto.
  Qed.
  Lemma nodes_cl_at segs t a : forall n m u, In n (nodes segs a) -> In (m, u) (nbrs_at V segs t n) -> In m (nodes segs a).
  Proof.
    intros n m [i b] _ H. apply nbrs_at_in in H as (s & H1 & _ & H2). right. apply in_flat_map. exists s.
    split; [eapply nth_error_In; eauto|]. cbn. destruct b, H2 as [_ <-]; auto.
  Qed.

  Lemma reach_linked segs t a b : reach (nbrs_at V segs t) a b <-> linked segs (covers t) a b.
  Proof.
    split.
    - intros (p & W). induction W as [|p b c [i d] W IH H]; [constructor|].
      apply nbrs_at_in in H as (s & H1 & H2 & H3). apply nth_error_In in H1.
      destruct d, H3 as [<- <-]; [eapply linked_down|eapply linked_up]; eauto.
    - induction 1 as [|s _ (p & W) H1 H2|s _ (p & W) H1 H2]; [exists []; constructor| |];
        apply In_nth_error in H1 as (i & H1).
      + exists (p ++ [(i, true)]). econstructor; [exact W|]. apply nbrs_at_in. exists s. auto.
      + exists (p ++ [(i, false)]). econstructor; [exact W|]. apply nbrs_at_in. exists s. auto.
  Qed.
  Lemma reach_any_linked segs a b : reach (nbrs_any V segs) a b <-> linked segs (fun _ => True) a b.
  Proof.
    split.
    - intros (p & W). induction W as [|p b c u W IH H]; [constructor|].
      apply nbrs_any_in in H as (s & H1 & [[<- <-]|[<- <-]]); [eapply linked_down|eapply linked_up]; eauto.
    - induction 1 as [|s _ (p & W) H1 H2|s _ (p & W) H1 H2]; [exists []; constructor| |].
      + exists (p ++ [tt]). econstructor; [exact W|]. now apply nbrs_any_down.
      + exists (p ++ [tt]). econstructor; [exact W|]. now apply nbrs_any_up.
  Qed.

  Lemma has_chain_spec segs a b : exists r, has_chain V segs a b = Some r /\ (r = true <-> linked segs (fun _ => True) a b).
  Proof.
    unfold has_chain. rewrite <- (nodes_len segs a).
    destruct (bfs_correct (nbrs_any V segs) (nodes segs a) (nodes_cl segs a) a b (a, tt) (or_introl eq_refl)) as (v & r & -> & H & _).
    exists r. split; [reflexivity|]. now rewrite reach_any_linked in H.
  Qed.
  Lemma find_chain_spec segs a b t :
    (linked segs (covers t) a b /\ exists p, find_chain V segs a b t = Some (Ok p) /\ walk (nbrs_at V segs t) a p b) \/
    (~ linked segs (covers t) a b /\ linked segs (fun _ => True) a b /\ find_chain V segs a b t = Some (Err KOutOfCoverage)) \/
    (~ linked segs (fun _ => True) a b /\ ~ linked segs (covers t) a b /\ find_chain V segs a b t = Some (Err KNoChain)).
  Proof.
    unfold find_chain. rewrite <- (nodes_len segs a).
    destruct (bfs_correct (nbrs_at V segs t) (nodes segs a) (nodes_cl_at segs t a) a b (a, (0%nat, true)) (or_introl eq_refl)) as (v & r & -> & H & P).
    rewrite reach_linked in H. destruct r.
    - left. split; [tauto|]. destruct (P eq_refl) as (p & -> & W). eauto.
    - right. destruct (has_chain_spec segs a b) as ([|] & -> & H2); [left|right]; intuition congruence.
  Qed.

  (** A walk, seen from its first step. *)
  Lemma walk_cons segs t a e m p b : In (m, e) (nbrs_at V segs t a) -> walk (nbrs_at V segs t) m p b ->
    walk (nbrs_at V segs t) a (e :: p) b.
  Proof.
    intros H. induction 1 as [|p b c e' W IH H'].
    - apply (walk_step _ _ [] a m e); [constructor|assumption].
    - change (e :: p ++ [e']) with ((e :: p) ++ [e']). econstructor; eauto.
  Qed.
  Inductive lwalk segs t : Z -> list (nat * bool) -> Z -> Prop :=
  | lw_nil a : lwalk segs t a [] a
  | lw_cons a e m p b : In (m, e) (nbrs_at V segs t a) -> lwalk segs t m p b -> lwalk segs t a (e :: p) b.
  Lemma lwalk_snoc segs t a p b c e : lwalk segs t a p b -> In (c, e) (nbrs_at V segs t b) -> lwalk segs t a (p ++ [e]) c.
  Proof. induction 1; cbn; intros; econstructor; eauto. constructor. Qed.
  Lemma walk_lwalk segs t a p b : walk (nbrs_at V segs t) a p b -> lwalk segs t a p b.
  Proof. induction 1; [constructor|]. eapply lwalk_snoc; eauto. Qed.

  Lemma sum_path_sound segs t a b p : forall c acc v, lwalk segs t c p b -> chain_sum vzero vadd vsub segs t a c acc ->
    sum_path V vadd vsub segs t b p acc c = Ok v -> chain_sum vzero vadd vsub segs t a b v.
  Proof.
    induction p as [|[i d] p IH]; intros c acc v W C E; cbn [sum_path] in E.
    - inversion W; subst. rewrite Z.eqb_refl in E. now injection E as <-.
    - inversion W as [|? ? m ? ? H W']; subst. apply nbrs_at_in in H as (s & H1 & H2 & H3). rewrite H1 in E.
      destruct (l_eval s) as [f|] eqn:F; [|discriminate]. destruct (f t) as [w|e|] eqn:Ft; cbn [obind] in E; try discriminate.
      apply nth_error_In in H1.
      destruct d; destruct H3 as [<- <-]; (eapply IH; [exact W'| |exact E]); [eapply cs_down|eapply cs_up]; eauto; exists f; auto.
  Qed.
  Lemma sum_path_ok segs t b p : (forall s, In s segs -> covers t s -> exists v, evals t s v) ->
    forall c acc, lwalk segs t c p b -> exists v, sum_path V vadd vsub segs t b p acc c = Ok v.
  Proof.
    intros A. induction p as [|[i d] p IH]; intros c acc W; cbn [sum_path].
    - inversion W; subst. rewrite Z.eqb_refl. eauto.
    - inversion W as [|? ? m ? ? H W']; subst. apply nbrs_at_in in H as (s & H1 & H2 & H3). rewrite H1.
      destruct (A s (nth_error_In _ _ H1) H2) as (w & f & -> & ->). cbn [obind].
      destruct d; destruct H3 as [<- <-]; apply IH; exact W'.
  Qed.
  Lemma sum_path_no_panic segs t b p : (forall s f, In s segs -> l_eval s = Some f -> f t <> Panic) ->
    forall c acc, lwalk segs t c p b -> sum_path V vadd vsub segs t b p acc c <> Panic.
  Proof.
    intros A. induction p as [|[i d] p IH]; intros c acc W; cbn [sum_path].
    - inversion W; subst. rewrite Z.eqb_refl. discriminate.
    - inversion W as [|? ? m ? ? H W']; subst. apply nbrs_at_in in H as (s & H1 & H2 & H3). rewrite H1.
      destruct (l_eval s) as [f|] eqn:F; [|discriminate]. pose proof (A s f (nth_error_In _ _ H1) F).
      destruct (f t); cbn [obind]; [|discriminate|congruence].
      destruct d; destruct H3 as [<- <-]; apply IH; exact W'.
  Qed.

  Notation state := (state V vzero vadd vsub).
  Theorem state_sound segs a b t v : state segs a b t = Some (Ok v) -> chain_sum vzero vadd vsub segs t a b v.
  Proof.
    unfold Kern_Model.state. destruct (Z.eqb_spec a b) as [->|]; [intros [= <-]; constructor|].
    destruct (find_chain_spec segs a b t) as [(_ & p & -> & W)|[(_ & _ & ->)|(_ & _ & ->)]]; cbn [obind]; try discriminate.
    intros [= E]. eapply sum_path_sound; [apply walk_lwalk; eassumption|constructor|exact E].
  Qed.
  Theorem state_complete segs a b t : (forall s, In s segs -> covers t s -> exists v, evals t s v) ->
    linked segs (covers t) a b -> exists v, state segs a b t = Some (Ok v).
  Proof.
    intros A L. unfold Kern_Model.state. destruct (Z.eqb_spec a b) as [->|]; [eauto|].
    destruct (find_chain_spec segs a b t) as [(_ & p & -> & W)|[(X & _)|(_ & X & _)]]; try contradiction. cbn [obind].
    destruct (sum_path_ok segs t b p A a vzero (walk_lwalk _ _ _ _ _ W)) as (v & ->). eauto.
  Qed.
  Lemma chain_sum_linked segs a b t v : chain_sum vzero vadd vsub segs t a b v -> linked segs (covers t) a b.
  Proof. induction 1; [constructor|eapply linked_down|eapply linked_up]; eauto. Qed.
  Theorem state_unlinked segs a b t : ~ linked segs (covers t) a b ->
    (linked segs (fun _ => True) a b -> state segs a b t = Some (Err KOutOfCoverage)) /\
    (~ linked segs (fun _ => True) a b -> state segs a b t = Some (Err KNoChain)).
  Proof.
    intros N. unfold Kern_Model.state. destruct (Z.eqb_spec a b) as [->|]; [exfalso; apply N; constructor|].
    destruct (find_chain_spec segs a b t) as [(X & _)|[(_ & X & ->)|(X & _ & ->)]]; [contradiction| |]; split; intros; try contradiction; reflexivity.
  Qed.
  Theorem state_total segs a b t : (forall s f, In s segs -> l_eval s = Some f -> f t <> Panic) ->
    exists r, state segs a b t = Some r /\ r <> Panic.
  Proof.
    intros A. unfold Kern_Model.state. destruct (Z.eqb_spec a b) as [->|]; [eexists; split; [reflexivity|discriminate]|].
    destruct (find_chain_spec segs a b t) as [(_ & p & -> & W)|[(_ & _ & ->)|(_ & _ & ->)]]; eexists; (split; [reflexivity|]); cbn [obind]; try discriminate.
    apply sum_path_no_panic; [exact A|now apply walk_lwalk].
  Qed.

  Hypothesis G : group_laws vzero vadd vsub.
  Lemma vcancel x y z : vadd x z = vadd y z -> x = y.
  Proof.
    intros H. destruct G as [A C Z S].
    assert (I : vadd z (vsub vzero z) = vzero) by (rewrite C; apply S).
    rewrite <- (Z x), <- (Z y), <- I, !A. now rewrite H.
  Qed.
  Lemma vsub_char x y z : x = vsub y z <-> vadd x z = y.
  Proof.
    destruct G as [A C Z S]. split; [intros ->; apply S|]. intros <-. apply (vcancel _ _ z). now rewrite S.
  Qed.
  Theorem chain_value segs t pos a b v : consistent vsub segs t pos ->
    chain_sum vzero vadd vsub segs t a b v -> v = vsub (pos a) (pos b).
  Proof.
    intros K. destruct G as [A C Z S]. induction 1 as [|s v w _ IH H1 H2 H3|s v w _ IH H1 H2 H3].
    - apply vsub_char. rewrite C. apply Z.
    - apply K in H3; auto. apply vsub_char. apply vsub_char in IH, H3. now rewrite <- A, H3.
    - apply K in H3; auto. apply vsub_char. apply vsub_char in IH, H3. rewrite <- H3, A, S. exact IH.
  Qed.
  Lemma vsub_swap x y : vsub y x = vsub vzero (vsub x y).
  Proof.
    apply vsub_char. destruct G as [A C Z S]. apply (vcancel _ _ y). rewrite <- A, S, S, C, Z. reflexivity.
  Qed.
End P.
