(** C56: instrument kernels. *)
From Coq Require Import Ascii String List NArith ZArith QArith Bool Lia Sorted.
From Verif Require Import Base Text DecFloat Sort Fnum Omm_Model Tk_Model Sclk_Model Fk_Model Fk_Proofs Pck_Model Ik_Model Ik_Proofs.
Import ListNotations.
Local Open Scope string_scope.
Local Open Scope Z_scope.
Local Open Scope list_scope.

(** A kernel is accepted with a list of instruments exactly when the list is by strictly growing identifier, names exactly
    the identifiers its variables name, and every instrument is what the kernel says about it. *)
Theorem C56_instruments d l : from_table d = Ok l <->
  StronglySorted Z.lt (map i_id l) /\ (forall i, In i (map i_id l) <-> exists k v, In (k, v) d /\ inst_key k = Some i) /\ Forall (inst_in d) l.
Proof. exact (instruments_spec d l). Qed.
(** Those variables are INS, a number, _, anything. *)
Theorem C56_key k i : inst_key k = Some i <-> exists n s, k = lit "INS" ++ n ++ lit "_" ++ s /\ ~ In 95%N n /\ parse_int 2147483647 n = Some i.
Proof. exact (inst_key_spec k i). Qed.
Theorem C56_never_panics d : from_table d <> Panic.
Proof. exact (instruments_np d). Qed.
Theorem C56_by_id d l id : from_table d = Ok l ->
  match instrument_by_id l id with
  | Some i => i_id i = id /\ inst_in d i
  | None => forall k v, In (k, v) d -> inst_key k <> Some id
  end.
Proof.
  intros H. apply instruments_spec in H as (S & I & F). rewrite Forall_forall in F. unfold instrument_by_id.
  destruct (find (fun i => i_id i =? id) l) as [i|] eqn:E.
  - apply find_some in E as (In1 & E). apply Z.eqb_eq in E. split; [exact E|]. apply F, In1.
  - intros k v K X. assert (J : In id (map i_id l)) by (apply I; eauto). apply in_map_iff in J as (i & <- & J).
    apply (find_none _ _ E) in J. now rewrite Z.eqb_refl in J.
Qed.

Definition sample_ik : table :=
  [(lit "INS-41210_FOV_SHAPE", TText (lit "circle")); (lit "INS-41210_FOV_FRAME", TText (lit "mex_hrsc")); (lit "INS-41210_BORESIGHT", TArr [TInt 0; TInt 0; TInt 1]);
   (lit "INS-41210_FOV_REF_ANGLE", TInt 6); (lit "INS-41220_FOV_SHAPE", TText (lit "Hexagon")); (lit "INSTRUMENT", TInt 1)].
Example C56_case : exists a b, from_table sample_ik = Ok [a; b] /\ i_id a = -41220 /\ i_shape a = Some (Other (lit "HEXAGON")) /\ i_boresight a = None /\
  i_id b = -41210 /\ i_shape b = Some Circle /\ i_frame b = Some (lit "MEX_HRSC") /\ i_ref b = Some (Fin 6) /\ i_cross b = None.
Proof. eexists. eexists. split; [vm_compute; reflexivity|]. repeat split. Qed.
(** A boresight that is not numeric counts as no boresight, although an angle that is not numeric is refused. *)
Theorem C56_boresight_refuted : exists d i, from_table d = Ok [i] /\ get d (lit "INS-1_BORESIGHT") = Some (TText (lit "SUNWARD")) /\ i_boresight i = None.
Proof. exists [(lit "INS-1_BORESIGHT", TText (lit "SUNWARD"))]. eexists. split; [vm_compute; reflexivity|]. split; reflexivity. Qed.
(** A padded identifier makes an instrument that has none of its own data. *)
Theorem C56_padded_refuted : exists d i, from_table d = Ok [i] /\ get d (lit "INS-007_FOV_SHAPE") = Some (TText (lit "CIRCLE")) /\ i = Inst (-7) None None None None None.
Proof. exists [(lit "INS-007_FOV_SHAPE", TText (lit "CIRCLE"))]. eexists. split; [vm_compute; reflexivity|]. split; reflexivity. Qed.

Print Assumptions C56_instruments.
Print Assumptions C56_key.
Print Assumptions C56_never_panics.
Print Assumptions C56_by_id.
Print Assumptions C56_boresight_refuted.
Print Assumptions C56_padded_refuted.
