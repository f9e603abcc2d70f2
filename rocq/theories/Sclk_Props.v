(** C24: spacecraft clocks. *)
From Coq Require Import Ascii String List NArith ZArith QArith Bool Lia Lqa Sorted Permutation.
From Verif Require Import Base Text DecFloat Sort Fnum Omm_Model Tk_Model Sclk_Model Sclk_Spec Sclk_Proofs.
Import ListNotations.
Local Open Scope string_scope.
Local Open Scope list_scope.
Local Open Scope Q_scope.

(** A time is converted with the entry in force; times before the table are refused. *)
Theorem C24_select k et : growing (coefficients k) -> coefficients k <> [] ->
  (exists c, in_force c_et (coefficients k) et c /\ et_to_sclkdp k et = Ok (c_ticks c + (et - c_et c) * c_rate c)) \/
  ((forall c, In c (coefficients k) -> et < c_et c) /\ et_to_sclkdp k et = Err SBefore).
Proof.
  intros G N. destruct (growing_asc _ G) as [A _]. unfold et_to_sclkdp. destruct (partition_for c_et (coefficients k) et) as [c|e|] eqn:P.
  - left. exists c. split; [now apply select in P|reflexivity].
  - right. destruct (coefficients k) as [|d l] eqn:E; [congruence|]. destruct (Qlt_le_dec et (c_et d)) as [L|L].
    + split; [|apply (select_before c_et d l) in L; rewrite L in P; injection P as <-; reflexivity]. intros c [<-|I]; [assumption|].
      apply StronglySorted_inv in A as [_ D]. rewrite Forall_forall in D. specialize (D _ I). lra.
    + destruct (select_ok c_et d l et L) as (c & X). congruence.
  - exfalso. unfold partition_for in P. destruct (coefficients k) as [|d l]; [congruence|]. destruct (qltb et (c_et d)); [discriminate|]. destruct (bracket c_et (d :: l) et); discriminate.
Qed.
Theorem C24_there_and_back k et s : growing (coefficients k) -> no_overlap (coefficients k) -> et_to_sclkdp k et = Ok s ->
  exists e, sclkdp_to_et k s = Ok e /\ e == et.
Proof. exact (there_and_back k et s). Qed.
Theorem C24_back_and_there k et s : growing (coefficients k) -> no_gap (coefficients k) -> sclkdp_to_et k s = Ok et ->
  exists s', et_to_sclkdp k et = Ok s' /\ s' == s.
Proof. exact (back_and_there k et s). Qed.
Theorem C24_ticks_monotone k e1 e2 s1 s2 : growing (coefficients k) -> no_overlap (coefficients k) ->
  et_to_sclkdp k e1 = Ok s1 -> et_to_sclkdp k e2 = Ok s2 -> e1 < e2 -> s1 < s2.
Proof. exact (ticks_increase k e1 e2 s1 s2). Qed.
Theorem C24_times_monotone k e1 e2 s1 s2 : growing (coefficients k) -> no_gap (coefficients k) ->
  sclkdp_to_et k s1 = Ok e1 -> sclkdp_to_et k s2 = Ok e2 -> s1 < s2 -> e1 < e2.
Proof. exact (et_increase k e1 e2 s1 s2). Qed.
Lemma triples_spec values : Nat.modulo (List.length values) 3 = O ->
  triples values = map (fun j => Coeff (nth (3 * j) values 0) (nth (3 * j + 1) values 0) (nth (3 * j + 2) values 0)) (seq 0 (List.length values / 3)).
Proof.
  remember (List.length values / 3)%nat as n eqn:En. revert values En. induction n as [|n IH]; intros values En M.
  - destruct values as [|a [|b [|c t]]]; try reflexivity. cbn [List.length] in *. exfalso. pose proof (Nat.div_mod (S (S (S (List.length t)))) 3 ltac:(lia)). lia.
  - pose proof (Nat.div_mod (List.length values) 3 ltac:(lia)) as D. rewrite M, <- En in D. destruct values as [|a [|b [|c t]]]; cbn [List.length] in D; try lia.
    cbn [triples seq map]. f_equal. rewrite <- seq_shift, map_map.
    assert (L : List.length t = (3 * n)%nat) by lia. rewrite IH; [|rewrite L, Nat.mul_comm; symmetry; now apply Nat.div_mul|rewrite L, Nat.mul_comm; now apply Nat.mod_mul].
    apply map_ext. intros j. replace (3 * S j)%nat with (3 + 3 * j)%nat by lia. reflexivity.
Qed.
(** One clock per identifier, in ascending order, holding the (ticks, time, rate) triples of its variable by time. *)
Theorem C24_clocks d ks : from_table d = Ok ks ->
  StronglySorted Z.lt (map sc_id ks) /\ (forall i, In i (map sc_id ks) <-> exists k, In k (map fst d) /\ key_id k = Some i) /\
  forall k, In k ks -> exists v values, get d (prefix ++ show_int (sc_id k)) = Some v /\ value_as_f64_array v = Ok values /\
     Nat.modulo (List.length values) 3 = O /\ 
     Permutation (coefficients k) (map (fun j => Coeff (nth (3 * j) values 0) (nth (3 * j + 1) values 0) (nth (3 * j + 2) values 0)) (seq 0 (List.length values / 3))) /\
     StronglySorted (fun a b => c_et a <= c_et b) (coefficients k).
Proof.
  intros H. destruct (clocks_ids d ks H) as (S & I). split; [assumption|]. split; [assumption|]. intros k K.
  destruct (clocks_spec _ _ _ H) as (_ & F). rewrite Forall_forall in F. destruct (F k K) as (v & values & G & V & M & ->). exists v, values. repeat split; auto.
  - rewrite <- triples_spec by exact M. apply isort_perm.
  - assert (O : ordered etleb (isort etleb (triples values))) by (apply isort_ordered; [apply etleb_total|apply etleb_trans]).
    induction O as [|x l O IH D]; constructor; auto. eapply Forall_impl; [|exact D]. intros y Y. now apply Qle_bool_iff.
Qed.

(** A clock that speeds up at its second entry. *)
Definition sample_clock : sclk := Sclk (-82) [Coeff 0 100 1; Coeff 50 150 2].
Example C24_case : growing (coefficients sample_clock) /\ no_overlap (coefficients sample_clock) /\ no_gap (coefficients sample_clock) /\
  et_to_sclkdp sample_clock 160 = Ok (50 + (160 - 150) * 2).
Proof.
  assert (F : forall c n, follows (coefficients sample_clock) c n -> c = Coeff 0 100 1 /\ n = Coeff 50 150 2).
  { intros c n (a & b & E). cbn in E. destruct a as [|x [|y [|z a]]]; cbn in E; try discriminate; injection E; intros; subst; auto. }
  split; [|split; [|split]].
  - split; repeat constructor.
  - intros c n X. destruct (F c n X) as [-> ->]. vm_compute. discriminate.
  - intros c n X. destruct (F c n X) as [-> ->]. vm_compute. discriminate.
  - reflexivity.
Qed.
(** After a reset the ticks of the earlier entry are looked up in the later one. *)
Theorem C24_reset_refuted : exists k et s e, StronglySorted (fun c n => c_et c < c_et n) (coefficients k) /\
  et_to_sclkdp k et = Ok s /\ sclkdp_to_et k s = Ok e /\ ~ e == et.
Proof.
  exists (Sclk (-82) [Coeff 0 100 1; Coeff 20 150 1]), 140. eexists. eexists. split; [repeat constructor|].
  split; [vm_compute; reflexivity|]. split; [vm_compute; reflexivity|]. vm_compute. discriminate.
Qed.
(** A name with a padded identifier spoils every clock of the kernel. *)
Theorem C24_name_refuted : exists d, from_table ((lit "SCLK01_COEFFICIENTS_82", TArr [TInt 0; TInt 0; TInt 1]) :: d) = Err SMissing.
Proof. exists [(lit "SCLK01_COEFFICIENTS_083", TArr [TInt 0; TInt 0; TInt 1])]. vm_compute. reflexivity. Qed.

Print Assumptions C24_select.
Print Assumptions C24_there_and_back.
Print Assumptions C24_back_and_there.
Print Assumptions C24_ticks_monotone.
Print Assumptions C24_times_monotone.
Print Assumptions C24_clocks.
