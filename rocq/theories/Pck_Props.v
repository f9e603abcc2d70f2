(** C55: planetary constants. *)
From Coq Require Import Ascii String List NArith ZArith QArith Bool Lia Permutation.
From Verif Require Import Base Text DecFloat Sort Fnum Omm_Model Tk_Model Sclk_Model Fk_Model Pck_Model Pck_Proofs.
From Verif Require Ik_Proofs.
Import ListNotations.
Local Open Scope string_scope.
Local Open Scope Z_scope.
Local Open Scope list_scope.

(** A body is known exactly when some variable names it; its constants are those of its variables, or empty. *)
Theorem C55_bodies d b : from_table d = Ok b -> bodies_of d b.
Proof. exact (bodies_spec d b). Qed.
(** A variable names a constant when it is BODY, a number, _, the constant. *)
Theorem C55_key k i s : body_key k = Some (i, s) <-> exists n, k = lit "BODY" ++ n ++ lit "_" ++ s /\ ~ In 95%N n /\ parse_int 2147483647 n = Some i.
Proof. exact (Ik_Proofs.body_key_spec k i s). Qed.
(** The kernel is accepted exactly when the constants it uses are numeric, with two or three radii. *)
Theorem C55_accepted d : (exists b, from_table d = Ok b) <-> usable d.
Proof. exact (bodies_ok d). Qed.
Theorem C55_never_panics d : from_table d <> Panic.
Proof. exact (bodies_np d). Qed.
(** The order in which the variables are walked does not matter when no two spell the same constant of the same body. *)
Theorem C55_order d d' b : Permutation d d' -> one_each d -> from_table d = Ok b -> exists b', from_table d' = Ok b' /\ forall id, body b' id = body b id.
Proof. exact (order_free d d' b). Qed.

Definition sample_pck : table :=
  [(lit "BODY499_POLE_RA", TArr [TFlt (Fin (3176814 # 10000)); TFlt (Fin (-1061 # 10000))]); (lit "BODY499_POLE_DEC", TArr [TFlt (Fin (528865 # 10000))]);
   (lit "BODY499_PM", TArr [TInt 176; TInt 350]); (lit "BODY499_RADII", TArr [TInt 3396; TInt 3376]); (lit "BODY399_GM", TText (lit "unknown"))].
Lemma sample_one_each : one_each sample_pck.
Proof.
  intros id s v v' (k & I & B) (k' & I' & B'). cbn [In sample_pck] in I, I'.
  repeat match goal with
  | H : _ \/ _ |- _ => destruct H as [H|H]
  | H : False |- _ => destruct H
  | H : _ = _ :> (str * tv)%type |- _ => injection H as <- <-
  end; try reflexivity; vm_compute in B, B'; congruence.
Qed.
Example C55_case : one_each sample_pck /\ usable sample_pck /\ exists b o, from_table sample_pck = Ok b /\ body b 499 = Some o /\
  pm o = [Fin 176; Fin 350] /\ radii o = Some (Fin 3396, Fin 3396, Fin 3376) /\ body b 399 = Some blank /\ body b 10 = None.
Proof.
  split; [exact sample_one_each|]. split; [apply bodies_ok; eexists; vm_compute; reflexivity|].
  eexists. eexists. split; [vm_compute; reflexivity|]. split; [reflexivity|]. repeat split.
Qed.
(** Two spellings of one body: what is kept depends on the order of the walk. *)
Theorem C55_spelling_refuted : exists d d' b b', Permutation d d' /\ NoDup (map fst d) /\ from_table d = Ok b /\ from_table d' = Ok b' /\ body b 399 <> body b' 399.
Proof.
  exists [(lit "BODY399_PM", TInt 1); (lit "BODY0399_PM", TInt 2)], [(lit "BODY0399_PM", TInt 2); (lit "BODY399_PM", TInt 1)]. eexists. eexists.
  split; [apply perm_swap|]. split; [|split; [vm_compute; reflexivity|split; [vm_compute; reflexivity|vm_compute; discriminate]]].
  constructor; [intros [E|[]]; discriminate|]. constructor; [intros []|constructor].
Qed.
(** A body only its mass names is known, with an empty pole. *)
Theorem C55_empty_refuted : exists d b o, from_table d = Ok b /\ body b 399 = Some o /\ pole_ra o = [] /\ pole_dec o = [] /\ pm o = [].
Proof. exists [(lit "BODY399_GM", TInt 398600)]. eexists. eexists. split; [vm_compute; reflexivity|]. split; [reflexivity|]. auto. Qed.

Print Assumptions C55_bodies.
Print Assumptions C55_key.
Print Assumptions C55_accepted.
Print Assumptions C55_never_panics.
Print Assumptions C55_order.
Print Assumptions C55_spelling_refuted.
Print Assumptions C55_empty_refuted.
