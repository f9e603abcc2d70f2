(** Breadth-first search with a predecessor map, over any neighbour function.  Shared by the two
    searches of /repo/src/formats/spice/kernel.rs (226-331). *)
From Coq Require Import List ZArith Lia Bool.
Import ListNotations.
Local Open Scope nat_scope.

Section Bfs.
  Context {L : Type}.
  Definition vmap := list (Z * (Z * L)).
  Fixpoint vget (v : vmap) (n : Z) : option (Z * L) :=
    match v with [] => None | (k, e) :: t => if (k =? n)%Z then Some e else vget t n end.
  Definition vkeys (v : vmap) : list Z := map fst v.

  Variable nbrs : Z -> list (Z * L).

  (** One node's neighbours: [visited.entry(n)] vacant → insert and enqueue (kernel.rs:249-272). *)
  Fixpoint visit (from : Z) (l : list (Z * L)) (v : vmap) (q : list Z) : vmap * list Z :=
    match l with
    | [] => (v, q)
    | (n, e) :: t => match vget v n with
                     | None => visit from t ((n, (from, e)) :: v) (q ++ [n])
                     | Some _ => visit from t v q
                     end
    end.
  (** kernel.rs:241-273, 311-330: pop, stop at the goal, otherwise visit the neighbours. *)
  Fixpoint bfs (fuel : nat) (goal : Z) (v : vmap) (q : list Z) : option (vmap * bool) :=
    match q with
    | [] => Some (v, false)
    | n :: q' =>
        if (n =? goal)%Z then Some (v, true)
        else match fuel with
             | O => None
             | S f => let '(v', q'') := visit n (nbrs n) v q' in bfs f goal v' q''
             end
    end.
  (** kernel.rs:295-302: follow the predecessors back to the start; [None] when out of fuel or
      when a predecessor is missing. *)
  Fixpoint recon (fuel : nat) (v : vmap) (start n : Z) (acc : list L) : option (list L) :=
    if (n =? start)%Z then Some acc
    else match fuel with
         | O => None
         | S f => match vget v n with None => None | Some (p, e) => recon f v start p (e :: acc) end
         end.

  Inductive walk (a : Z) : list L -> Z -> Prop :=
  | walk_nil : walk a [] a
  | walk_step p b c e : walk a p b -> In (c, e) (nbrs b) -> walk a (p ++ [e]) c.
  Definition reach (a b : Z) := exists p, walk a p b.

  Inductive tree (s : Z) : vmap -> Prop :=
  | tree_one p e : tree s [(s, (p, e))]
  | tree_cons v n p e : tree s v -> In p (vkeys v) -> ~ In n (vkeys v) -> In (n, e) (nbrs p) ->
      tree s ((n, (p, e)) :: v).

  Lemma vget_none v n : vget v n = None <-> ~ In n (vkeys v).
  Proof.
    induction v as [|[k e] t IH]; cbn; [tauto|]. destruct (Z.eqb_spec k n); [|tauto].
    split; [discriminate|]. intros H. exfalso. apply H. now left.
  Qed.
  Lemma vget_some v n e : vget v n = Some e -> In n (vkeys v).
  Proof.
    intros H. destruct (in_dec Z.eq_dec n (vkeys v)) as [|X]; [assumption|]. apply vget_none in X. congruence.
  Qed.
  Lemma tree_nodup s v : tree s v -> NoDup (vkeys v).
  Proof.
    induction 1; cbn; [constructor; [intros []|constructor]|]. now constructor.
  Qed.
  Lemma tree_start s v : tree s v -> In s (vkeys v).
  Proof. induction 1; cbn; auto. Qed.

  Lemma visit_spec s from : forall l v q v' q', (forall x, In x l -> In x (nbrs from)) ->
    tree s v -> In from (vkeys v) -> visit from l v q = (v', q') ->
    tree s v' /\ exists add, q' = q ++ add /\ vkeys v' = rev add ++ vkeys v /\
    (forall n e, In (n, e) l -> In n (vkeys v')).
  Proof.
    induction l as [|[n e] t IH]; intros v q v' q' Hl Ht Hf E; cbn [visit] in E.
    - injection E as <- <-. split; [assumption|]. exists []. rewrite app_nil_r. repeat split; intros ? ? [].
    - destruct (vget v n) as [x|] eqn:G.
      + apply IH in E; [|intros y Hy; apply Hl; now right|assumption|assumption].
        destruct E as (T & add & -> & K & C). split; [assumption|]. exists add. repeat split; auto.
        intros m e' [[= <- <-]|H]; [|eauto]. rewrite K. apply in_or_app. right. eapply vget_some; eauto.
      + apply vget_none in G.
        apply IH in E; [| intros y Hy; apply Hl; now right | constructor; auto; apply Hl; now left | cbn; now right].
        destruct E as (T & add & -> & K & C). split; [assumption|]. exists (n :: add).
        rewrite <- app_assoc. cbn. split; [reflexivity|]. cbn in K. split; [now rewrite K, <- app_assoc|].
        intros m e' [[= <- <-]|H]; [|eauto]. rewrite K. apply in_or_app. right. now left.
  Qed.

  (** Everything visited, left to process, processed. *)
  Record inv (s goal : Z) (v : vmap) (q done : list Z) : Prop := {
    inv_tree : tree s v;
    inv_split : forall n, In n (vkeys v) <-> In n done \/ In n q;
    inv_closed : forall n m e, In n done -> In (m, e) (nbrs n) -> In m (vkeys v);
    inv_goal : ~ In goal done }.

  Variable U : list Z.
  Hypothesis Ucl : forall n m e, In n U -> In (m, e) (nbrs n) -> In m U.

  Lemma tree_U s v : In s U -> tree s v -> incl (vkeys v) U.
  Proof.
    intros Hs. induction 1; intros x; cbn.
    - intros [<-|[]]. assumption.
    - intros [<-|H']; [|auto]. eapply Ucl; [|eassumption]. auto.
  Qed.

  Lemma bfs_run s goal : In s U -> forall fuel v q done, inv s goal v q done ->
    length q + (length U - length (vkeys v)) <= fuel ->
    exists v' b, bfs fuel goal v q = Some (v', b) /\ tree s v' /\
      (b = true -> In goal (vkeys v')) /\
      (b = false -> ~ In goal (vkeys v') /\ forall n m e, In n (vkeys v') -> In (m, e) (nbrs n) -> In m (vkeys v')).
  Proof.
    intros Hs. induction fuel as [|f IH]; intros v q done I Hf; destruct I as [I1 I2 I3 I4].
    - assert (q = []) by (destruct q; cbn in Hf; [reflexivity|lia]). subst q. cbn.
      exists v, false. repeat split; auto; try discriminate.
      + intros X. apply I2 in X as [X|[]]. auto.
      + intros n m e Hn. apply I2 in Hn as [Hn|[]]. eauto.
    - destruct q as [|n q]; cbn [bfs].
      + exists v, false. repeat split; auto; try discriminate.
        * intros X. apply I2 in X as [X|[]]. auto.
        * intros n m e Hn. apply I2 in Hn as [Hn|[]]. eauto.
      + destruct (Z.eqb_spec n goal) as [->|Hn].
        * exists v, true. repeat split; auto; try discriminate. intros _. apply I2. right. now left.
        * destruct (visit n (nbrs n) v q) as [v' q'] eqn:E.
          destruct (visit_spec s n (nbrs n) v q v' q' (fun _ H => H) I1 (proj2 (I2 n) (or_intror (or_introl eq_refl))) E)
            as (T & add & -> & K & C).
          apply (IH v' (q ++ add) (n :: done)).
          -- split; auto.
             ++ intros m. rewrite K, !in_app_iff, <- in_rev. cbn. rewrite I2. cbn. tauto.
             ++ intros x m e [<-|Hx] Hm; [eauto|]. rewrite K. apply in_or_app. right. eauto.
             ++ cbn. intros [X|X]; auto.
          -- assert (B : length (vkeys v') <= length U).
             { apply NoDup_incl_length; [eapply tree_nodup; eauto|eapply tree_U; eauto]. }
             rewrite K in *. rewrite !app_length, rev_length in *. cbn in Hf. lia.
  Qed.

  Lemma tree_recon s v : tree s v -> forall w, (forall n e, vget v n = Some e -> vget w n = Some e) ->
    forall n, In n (vkeys v) -> forall f acc, length v <= S f ->
    exists p, recon f w s n acc = Some (p ++ acc) /\ walk s p n.
  Proof.
    induction 1 as [p e|v n p e T IH Hp Hn He]; intros w Hw m Hm f acc Hf.
    - destruct Hm as [<-|[]]. exists []. split; [|constructor]. cbn. destruct f; cbn; now rewrite Z.eqb_refl.
    - assert (Hv : forall k x, vget v k = Some x -> vget w k = Some x).
      { intros k x Hk. apply Hw. cbn. destruct (Z.eqb_spec n k) as [->|]; [|assumption].
        apply vget_some in Hk. contradiction. }
      cbn in Hm, Hf. destruct Hm as [<-|Hm].
      + assert (Hns : (n =? s)%Z = false).
        { destruct (Z.eqb_spec n s) as [->|]; [|reflexivity]. exfalso. apply Hn. now apply tree_start. }
        destruct f as [|f].
        { destruct v; [inversion T|cbn in Hf; lia]. }
        destruct (IH w Hv p Hp f (e :: acc)) as (q & E & W); [lia|].
        exists (q ++ [e]). cbn. rewrite Hns, (Hw n (p, e)) by (cbn; now rewrite Z.eqb_refl). rewrite E, <- app_assoc.
        split; [reflexivity|]. econstructor; eauto.
      + destruct (IH w Hv m Hm f acc) as (q & E & W); [lia|]. eauto.
  Qed.

  Lemma closed_reach s (K : list Z) : In s K -> (forall n m e, In n K -> In (m, e) (nbrs n) -> In m K) ->
    forall n, reach s n -> In n K.
  Proof. intros Hs C n (p & W). induction W; eauto. Qed.
  Lemma tree_reach s v : tree s v -> forall n, In n (vkeys v) -> reach s n.
  Proof.
    induction 1 as [p e|v n p e T IH Hp Hn He]; intros m Hm; cbn in Hm.
    - destruct Hm as [<-|[]]. exists []. constructor.
    - destruct Hm as [<-|Hm]; [|auto]. destruct (IH p Hp) as (q & W). exists (q ++ [e]). econstructor; eauto.
  Qed.

  (** The search from a single start node. *)
  Theorem bfs_correct s goal x : In s U -> exists v b, bfs (S (length U)) goal [(s, x)] [s] = Some (v, b) /\
    (b = true <-> reach s goal) /\
    (b = true -> exists p, recon (length v) v s goal [] = Some p /\ walk s p goal).
  Proof.
    intros Hs. destruct x as [x1 x2].
    destruct (bfs_run s goal Hs (S (length U)) [(s, (x1, x2))] [s] []) as (v & b & E & T & B1 & B2).
    - split; cbn; [constructor|tauto|intros ? ? ? []|tauto].
    - cbn. lia.
    - exists v, b. split; [exact E|]. split.
      + split; [intros H; eapply tree_reach; eauto|]. intros R. destruct b; [reflexivity|].
        destruct (B2 eq_refl) as [N C]. exfalso. apply N.
        apply (closed_reach s (vkeys v)); auto. now apply tree_start with (v := v).
      + intros H. destruct (tree_recon s v T v (fun _ _ H => H) goal (B1 H) (length v) [] ltac:(lia)) as (p & E' & W).
        exists p. rewrite app_nil_r in E'. auto.
  Qed.
End Bfs.
