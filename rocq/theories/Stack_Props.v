(** C20: the last loaded kernel able to answer wins. *)
From Coq Require Import List ZArith QArith Bool Lia.
From Verif Require Import Base Graph Kern_Model Kern_Spec Kern_Proofs Kern_Props.
Import ListNotations.
Local Open Scope Z_scope.

Section Props.
  Context {V : Type} (vzero : V) (vadd vsub : V -> V -> V).
  Notation state := (state V vzero vadd vsub).
  Notation state_naif := (state_naif V vzero vadd vsub).
  Notation no_answer := (no_answer vzero vadd vsub).

  (** Loading a kernel (at the end of the list) that has no chain leaves every such query unchanged. *)
  Theorem C20_ignored ks k a b t : no_answer k a b t -> state_naif (ks ++ [k]) a b t = state_naif ks a b t.
  Proof.
    intros H. unfold Kern_Model.state_naif. rewrite rev_app_distr. cbn [rev app stack_rev].
    destruct H as [-> | ->]; reflexivity.
  Qed.
  (** Loading a kernel that answers makes its answer the answer. *)
  Theorem C20_override ks k a b t v : state k a b t = Some (Ok v) -> state_naif (ks ++ [k]) a b t = Some (Ok v).
  Proof.
    intros H. unfold Kern_Model.state_naif. rewrite rev_app_distr. cbn [rev app stack_rev]. now rewrite H.
  Qed.
  (** The result is that of the last kernel whose own result is not a missing chain; older kernels do not matter. *)
  Theorem C20_winner older older' k newer a b t : ~ no_answer k a b t -> (forall n, In n newer -> no_answer n a b t) ->
    state_naif (older ++ k :: newer) a b t = state k a b t /\
    state_naif (older ++ k :: newer) a b t = state_naif (older' ++ k :: newer) a b t.
  Proof.
    intros Hk. assert (G : (forall n, In n newer -> no_answer n a b t) -> forall o, state_naif (o ++ k :: newer) a b t = state k a b t).
    { induction newer as [|n l IH] using rev_ind; intros H o.
      - unfold Kern_Model.state_naif. rewrite rev_app_distr. cbn [rev app stack_rev]. unfold Kern_Props.no_answer in Hk.
        destruct (state k a b t) as [[x|[| |ty|]|]|]; try reflexivity; exfalso; auto.
      - change (o ++ k :: l ++ [n]) with (o ++ (k :: l) ++ [n]). rewrite app_assoc, C20_ignored; [|apply H, in_or_app; right; now left].
        apply IH. intros m Hm. apply H, in_or_app. now left. }
    intros H. rewrite !G by assumption. auto.
  Qed.
  (** When no kernel answers the error is always a missing chain. *)
  Theorem C20_none ks a b t : (forall k, In k ks -> no_answer k a b t) -> state_naif ks a b t = Some (Err KNoChain).
  Proof.
    induction ks as [|n l IH] using rev_ind; intros H; [reflexivity|].
    rewrite C20_ignored; [|apply H, in_or_app; right; now left]. apply IH. intros m Hm. apply H, in_or_app. now left.
  Qed.
End Props.

Notation znaif := (state_naif Z 0 Z.add Z.sub).
Example C20_case : let k1 := [mk 1 0 0 10 5] in let k2 := [mk 1 0 0 3 6] in let k3 := [mk 8 0 0 10 7] in
  znaif [k1; k2; k3] 1 0 (Some 2%Q) = Some (Ok 6) /\ znaif [k1; k2; k3] 1 0 (Some 4%Q) = Some (Ok 5) /\
  no_answer 0 Z.add Z.sub k3 1 0 (Some 2%Q) /\ ~ no_answer 0 Z.add Z.sub k2 1 0 (Some 2%Q).
Proof.
  cbv zeta. split; [vm_compute; reflexivity|]. split; [vm_compute; reflexivity|].
  split; [left; vm_compute; reflexivity|]. intros [H|H]; vm_compute in H; discriminate.
Qed.

(** A newer kernel with an unreadable segment blocks an older kernel that answers. *)
Theorem C20_unreadable_refuted : exists older newer, zstate older 1 0 (Some 4%Q) = Some (Ok 5) /\
  (forall v, zstate newer 1 0 (Some 4%Q) <> Some (Ok v)) /\ znaif [older; newer] 1 0 (Some 4%Q) = Some (Err (KUnsupported 21)).
Proof.
  exists [mk 1 0 0 10 5], [LSeg 1 0 21 (Some 0%Q) (Some 10%Q) None].
  split; [vm_compute; reflexivity|]. split; [intros v H; vm_compute in H; discriminate|vm_compute; reflexivity].
Qed.
(** The stack reports a missing chain where its only kernel reports the epoch out of coverage. *)
Theorem C20_coverage_error_refuted : exists k, zstate k 1 0 (Some 40%Q) = Some (Err KOutOfCoverage) /\
  znaif [k] 1 0 (Some 40%Q) = Some (Err KNoChain).
Proof. exists [mk 1 0 0 10 5]. split; vm_compute; reflexivity. Qed.

Print Assumptions C20_ignored.
Print Assumptions C20_override.
Print Assumptions C20_winner.
Print Assumptions C20_none.
