From Coq Require Import List NArith ZArith QArith Qabs Qminmax Qround Bool Lia Lqa.
From Verif Require Import Base Text DecFloat Fnum Lin Fit_Model.
Import ListNotations.
Local Open Scope Q_scope.

(** ** C140: propagated arcs and their transition matrices *)
Definition same (A B : mat) : Prop := forall i j, (i < 6)%nat -> (j < 6)%nat -> A i j == B i j.
Lemma mulm_same A A' B B' : same A A' -> same B B' -> same (mulm 6 A B) (mulm 6 A' B').
Proof. intros H K i j I J. apply sum_ext. intros k L. specialize (H i k I L). specialize (K k j L J). now rewrite H, K. Qed.
Lemma same_sym A B : same A B -> same B A. Proof. intros H i j I J. symmetry. auto. Qed.
Lemma same_trans A B C : same A B -> same B C -> same A C. Proof. intros H K i j I J. transitivity (B i j); auto. Qed.
Lemma mulm_assoc A B C : same (mulm 6 (mulm 6 A B) C) (mulm 6 A (mulm 6 B C)).
Proof.
  intros i j I J. unfold mulm. transitivity (sum 6 (fun k => sum 6 (fun l => A i l * B l k * C k j))).
  - apply sum_ext. intros k K. rewrite <- sum_scale_r. reflexivity.
  - rewrite sum_swap. apply sum_ext. intros l L. rewrite <- sum_scale. apply sum_ext. intros k K. ring.
Qed.
Lemma mulm_id_l A : same (mulm 6 id_mat A) A.
Proof. intros i j I J. unfold mulm. rewrite (sum_one 6 i); [unfold id_mat; rewrite Nat.eqb_refl; ring|exact I|]. intros k K N. unfold id_mat. rewrite (proj2 (Nat.eqb_neq i k)); [ring|auto]. Qed.
Lemma mulm_id_r A : same (mulm 6 A id_mat) A.
Proof. intros i j I J. unfold mulm. rewrite (sum_one 6 j); [unfold id_mat; rewrite Nat.eqb_refl; ring|exact J|]. intros k K N. unfold id_mat. rewrite (proj2 (Nat.eqb_neq k j)); [ring|auto]. Qed.

(** The matrix of a run of steps, in the order of the steps: the later ones stand to the left. *)
Inductive run {A E} (stm : A -> outcome (A * mat) E) : nat -> A -> A -> mat -> Prop :=
| run_0 s : run stm 0 s s id_mat
| run_S n s s1 step s' phi : stm s = Ok (s1, step) -> run stm n s1 s' phi -> run stm (S n) s s' (mulm 6 phi step).
Lemma steps_run {A E} (stm : A -> outcome (A * mat) E) n s phi l : arc_steps stm n s phi = Ok l ->
  length l = n /\ forall k x m, nth_error l k = Some (x, m) -> exists m', run stm (S k) s x m' /\ same m (mulm 6 m' phi).
Proof.
  revert s phi l. induction n as [|n IH]; intros s phi l H; [injection H as <-; split; [reflexivity|intros [|k]; discriminate]|].
  cbn [arc_steps] in H. destruct (stm s) as [[s1 step]| |] eqn:Q; try discriminate. destruct (arc_steps stm n s1 (mulm 6 step phi)) as [t| |] eqn:R; try discriminate. injection H as <-.
  destruct (IH _ _ _ R) as [L N]. split; [cbn; now rewrite L|]. intros [|k] x m; cbn [nth_error].
  - intros X. injection X as <- <-. exists (mulm 6 id_mat step). split; [econstructor; [exact Q|constructor]|]. apply mulm_same; [apply same_sym, mulm_id_l|intros i j _ _; reflexivity].
  - intros X. destruct (N k x m X) as (m' & M & M'). exists (mulm 6 m' step). split; [econstructor; eauto|]. eapply same_trans; [exact M'|]. apply same_sym, mulm_assoc.
Qed.
Theorem C140_arc {A E} (stm : A -> outcome (A * mat) E) n s l : propagate_arc stm n s = Ok l ->
  length l = n /\ forall k x m, nth_error l k = Some (x, m) -> exists m', run stm (S k) s x m' /\ same m m'.
Proof.
  intros H. destruct (steps_run stm n s id_mat l H) as [L N]. split; [exact L|]. intros k x m X. destruct (N k x m X) as (m' & R & M). exists m'. split; [exact R|]. eapply same_trans; [exact M|]. apply mulm_id_r.
Qed.
(** An arc exists exactly when every step succeeds; the first failure is reported. *)
Theorem C140_failure {A E} (stm : A -> outcome (A * mat) E) n s :
  (forall e, propagate_arc stm n s = Err e <-> exists k x m, (k < n)%nat /\ run stm k s x m /\ stm x = Err e) /\
  ((exists l, propagate_arc stm n s = Ok l) <-> exists x m, run stm n s x m).
Proof.
  unfold propagate_arc. generalize id_mat as phi. revert s. induction n as [|n IH]; intros s phi; cbn [arc_steps].
  - split; [intros e; split; [discriminate|intros (k & _ & _ & K & _); lia]|]. split; [intros _; do 2 eexists; constructor|intros _; eauto].
  - destruct (stm s) as [[s1 step]|e|] eqn:Q.
    + destruct (IH s1 (mulm 6 step phi)) as [I1 I2]. split.
      * intros e. assert (X : (exists k x m, (k < S n)%nat /\ run stm k s x m /\ stm x = Err e) <-> exists k x m, (k < n)%nat /\ run stm k s1 x m /\ stm x = Err e).
        { split; intros (k & x & m & K & R & F).
          - inversion R; subst; [congruence|]. rewrite Q in H. injection H as <- <-. do 3 eexists. split; [|split; [eassumption|exact F]]. lia.
          - exists (S k), x, (mulm 6 m step). split; [lia|]. split; [econstructor; eauto|exact F]. }
        rewrite X, <- I1. destruct (arc_steps stm n s1 (mulm 6 step phi)); split; congruence.
      * assert (X : (exists x m, run stm (S n) s x m) <-> exists x m, run stm n s1 x m).
        { split; intros (x & m & R); [inversion R; subst; rewrite Q in H0; injection H0 as <- <-; eauto|do 2 eexists; econstructor; eauto]. }
        rewrite X, <- I2. destruct (arc_steps stm n s1 (mulm 6 step phi)); split; intros (l & H); try discriminate; eauto.
    + split.
      * intros e'. split; [intros H; injection H as <-; exists 0%nat, s, id_mat; split; [lia|]; split; [constructor|exact Q]|].
        intros (k & x & m & K & R & F). inversion R; subst; [congruence|congruence].
      * split; [intros (l & H); discriminate|]. intros (x & m & R). inversion R; subst. congruence.
    + split.
      * intros e'. split; [discriminate|]. intros (k & x & m & K & R & F). inversion R; subst; congruence.
      * split; [intros (l & H); discriminate|]. intros (x & m & R). inversion R; subst. congruence.
Qed.
(** Two arcs joined: the second starts at the end of the first and its matrices are applied after the first's last. *)
Lemma final_cons {A} (p : A * mat) l : final_state (p :: l) = Some (match final_state l with Some x => x | None => fst p end) /\ final_stm (p :: l) = Some (match final_stm l with Some x => x | None => snd p end).
Proof.
  unfold final_state, final_stm. revert p. induction l as [|q l IH]; intros p; [split; reflexivity|]. specialize (IH q). cbn [map] in *.
  change (last (Some p :: Some q :: map Some l) None) with (last (Some q :: map Some l) None). destruct (last (Some q :: map Some l) None) as [r|]; [split; reflexivity|]. destruct IH; discriminate.
Qed.
Theorem C140_join {A E} (stm : A -> outcome (A * mat) E) a b s l : propagate_arc stm (a + b) s = Ok l -> exists l1, propagate_arc stm a s = Ok l1 /\ firstn a l = l1 /\
  (forall x m, final_state l1 = Some x -> final_stm l1 = Some m -> exists l2, propagate_arc stm b x = Ok l2 /\ Forall2 (fun p q => fst p = fst q /\ same (snd p) (mulm 6 (snd q) m)) (skipn a l) l2).
Proof.
  assert (G : forall a b s phi l, arc_steps stm (a + b) s phi = Ok l -> exists l1, arc_steps stm a s phi = Ok l1 /\ firstn a l = l1 /\
     exists l2, arc_steps stm b (match final_state l1 with Some x => x | None => s end) (match final_stm l1 with Some m => m | None => phi end) = Ok l2 /\ skipn a l = l2).
  { clear. induction a as [|a IH]; intros b s phi l H.
    - exists []. split; [reflexivity|]. split; [reflexivity|]. exists l. split; [exact H|reflexivity].
    - cbn [Nat.add arc_steps] in *. destruct (stm s) as [[s1 step]| |] eqn:Q; try discriminate. destruct (arc_steps stm (a + b) s1 (mulm 6 step phi)) as [t| |] eqn:R; try discriminate. injection H as <-.
      destruct (IH _ _ _ _ R) as (l1 & R1 & F1 & l2 & R2 & F2). rewrite R1. exists ((s1, mulm 6 step phi) :: l1). split; [reflexivity|]. split; [cbn; now rewrite F1|]. exists l2. split; [|exact F2].
      rewrite <- R2. rewrite (proj1 (final_cons _ _)), (proj2 (final_cons _ _)). now destruct (final_state l1), (final_stm l1). }
  intros H. destruct (G a b s id_mat l H) as (l1 & R1 & F1 & l2 & R2 & F2). exists l1. split; [exact R1|]. split; [exact F1|]. intros x m X M. rewrite X, M in R2.
  assert (K : forall n s phi psi chi l, same phi (mulm 6 psi chi) -> arc_steps stm n s phi = Ok l -> exists l', arc_steps stm n s psi = Ok l' /\ Forall2 (fun p q => fst p = fst q /\ same (snd p) (mulm 6 (snd q) chi)) l l').
  { clear. induction n as [|n IH]; intros s phi psi chi l Z H; [injection H as <-; exists []; split; [reflexivity|constructor]|]. cbn [arc_steps] in *.
    destruct (stm s) as [[s1 step]| |] eqn:Q; try discriminate. destruct (arc_steps stm n s1 (mulm 6 step phi)) as [t| |] eqn:R; try discriminate. injection H as <-.
    assert (Z' : same (mulm 6 step phi) (mulm 6 (mulm 6 step psi) chi)) by (eapply same_trans; [apply mulm_same; [intros i j _ _; reflexivity|exact Z]|apply same_sym, mulm_assoc]).
    destruct (IH _ _ _ _ _ Z' R) as (l' & R' & F). rewrite R'. eexists. split; [reflexivity|]. constructor; [split; [reflexivity|exact Z']|exact F]. }
  destruct (K b x m id_mat m l2) as (l' & R' & F'); [apply same_sym, mulm_id_l|exact R2|]. exists l'. split; [exact R'|]. now rewrite F2.
Qed.
(** Where every step is affine with its matrix, a displaced start is displaced at every step by the matrix times the
    displacement: the matrices are those from the start of the arc. *)
Definition affine {E} (stm : vec -> outcome (vec * mat) E) : Prop := forall y z y' z' a b, stm y = Ok (y', a) -> stm z = Ok (z', b) ->
  forall i, (i < 6)%nat -> z' i - y' i == mulv 6 a (fun j => z j - y j) i.
Lemma mulv_mulm A B x i : (i < 6)%nat -> mulv 6 (mulm 6 A B) x i == mulv 6 A (mulv 6 B x) i.
Proof.
  intros I. unfold mulv, mulm. transitivity (sum 6 (fun j => sum 6 (fun k => A i k * B k j * x j))).
  - apply sum_ext. intros j J. rewrite <- sum_scale_r. reflexivity.
  - rewrite sum_swap. apply sum_ext. intros k K. rewrite <- sum_scale. apply sum_ext. intros j J. ring.
Qed.
Theorem C140_displaced {E} (stm : vec -> outcome (vec * mat) E) n y z l l' : affine stm -> propagate_arc stm n y = Ok l -> propagate_arc stm n z = Ok l' ->
  forall k yk zk a b, nth_error l k = Some (yk, a) -> nth_error l' k = Some (zk, b) -> forall i, (i < 6)%nat -> zk i - yk i == mulv 6 a (fun j => z j - y j) i.
Proof.
  intros AF. unfold propagate_arc.
  assert (G : forall n (y z : vec) phi psi l l' dy, (forall i, (i < 6)%nat -> z i - y i == mulv 6 phi dy i) -> arc_steps stm n y phi = Ok l -> arc_steps stm n z psi = Ok l' ->
    forall k yk zk a b, nth_error l k = Some (yk, a) -> nth_error l' k = Some (zk, b) -> forall i, (i < 6)%nat -> zk i - yk i == mulv 6 a dy i).
  { clear -AF. induction n as [|n IH]; intros y z phi psi l l' dy D H H' k yk zk a b; [injection H as <-; destruct k; discriminate|]. cbn [arc_steps] in *.
    destruct (stm y) as [[y1 sy]| |] eqn:Q; try discriminate. destruct (arc_steps stm n y1 (mulm 6 sy phi)) as [t| |] eqn:R; try discriminate. injection H as <-.
    destruct (stm z) as [[z1 sz]| |] eqn:Q'; try discriminate. destruct (arc_steps stm n z1 (mulm 6 sz psi)) as [t'| |] eqn:R'; try discriminate. injection H' as <-.
    assert (D1 : forall i, (i < 6)%nat -> z1 i - y1 i == mulv 6 (mulm 6 sy phi) dy i).
    { intros i I. rewrite (AF _ _ _ _ _ _ Q Q' i I), mulv_mulm by exact I. apply mulv_ext; [reflexivity|]. exact D. }
    destruct k as [|k]; cbn [nth_error].
    - intros X X'. injection X as <- <-. injection X' as <- <-. exact D1.
    - intros X X'. exact (IH y1 z1 _ _ t t' dy D1 R R' k yk zk a b X X'). }
  intros H H' k yk zk a b X X'. apply (G n y z id_mat id_mat l l' _) with k b; try assumption. intros i I. unfold mulv. rewrite (sum_one 6 i); [unfold id_mat; rewrite Nat.eqb_refl; ring|exact I|].
  intros j J N. unfold id_mat. rewrite (proj2 (Nat.eqb_neq i j)); [ring|auto].
Qed.
Theorem C140_final {A} (l : list (A * mat)) : (final_state l = None <-> l = []) /\ (final_stm l = None <-> l = []) /\ forall l' x m, l = l' ++ [(x, m)] -> final_state l = Some x /\ final_stm l = Some m.
Proof.
  assert (G : forall l' x m, l = l' ++ [(x, m)] -> final_state l = Some x /\ final_stm l = Some m).
  { intros l' x m ->. unfold final_state, final_stm. rewrite map_app. cbn [map]. now rewrite last_last. }
  split; [|split; [|exact G]]; (split; [|intros ->; reflexivity]); destruct l as [|p l] using rev_ind; try reflexivity; destruct p as [x m]; destruct (G l x m eq_refl) as [G1 G2]; congruence.
Qed.
Example C140_case : exists l x m, propagate_arc (E := unit) (fun s : Z => Ok ((s + 1)%Z, fun i j => if (i <? j)%nat then inject_Z s else id_mat i j)) 3 1%Z = Ok l /\ final_state l = Some x /\ final_stm l = Some m /\ x = 4%Z /\ m 0%nat 1%nat == 6 /\ m 0%nat 2%nat == 17.
Proof. do 3 eexists. split; [cbn [propagate_arc arc_steps]; reflexivity|]. split; [reflexivity|]. split; [reflexivity|]. split; [reflexivity|]. split; vm_compute; reflexivity. Qed.

(** ** C141: steps, finite differences and the check of a transition matrix *)
Theorem C141_steps step dt : match rk4_steps step dt with
  | Some Unchanged => dt == 0
  | Some (Substeps n h) => ~ dt == 0 /\ (1 <= n)%Z /\ inject_Z n * h == dt /\ 0 < h * dt /\
      (forall s, step = Fin s -> Qabs h <= Qabs s /\ (inject_Z n - 1) * Qabs s < Qabs dt) /\ ((forall s, step <> Fin s) -> n = 1%Z)
  | None => ~ dt == 0 /\ (step = NaN \/ exists s, step = Fin s /\ s == 0)
  end.
Proof.
  unfold rk4_steps. destruct (Qeq_bool dt 0) eqn:D; [now apply Qeq_bool_iff in D|].
  assert (ND : ~ dt == 0) by (intros Z; apply Qeq_bool_iff in Z; congruence).
  assert (SQ : 0 < dt * dt). { destruct (Qlt_le_dec dt 0) as [L|L]; [setoid_replace (dt * dt) with ((- dt) * (- dt)) by ring; apply Qmult_lt_0_compat; lra|apply Qmult_lt_0_compat; destruct (Qlt_le_dec 0 dt); try lra; destruct ND; lra]. }
  destruct step as [s|b|].
  - destruct (Qle_bool (Qabs s) 0) eqn:S0.
    + apply Qle_bool_iff in S0. split; [exact ND|]. right. exists s. split; [reflexivity|]. pose proof (Qabs_nonneg s). destruct (Qlt_le_dec s 0) as [L|L]; [rewrite Qabs_neg in S0 by lra; lra|rewrite Qabs_pos in S0 by lra; lra].
    + assert (P : 0 < Qabs s) by (apply Qnot_le_lt; intros L; apply Qle_bool_iff in L; congruence).
      set (r := Qabs dt / Qabs s). assert (AD : 0 < Qabs dt) by (apply Qnot_le_lt; intros L; apply ND; pose proof (Qabs_nonneg dt); destruct (Qlt_le_dec dt 0) as [Z|Z]; [rewrite Qabs_neg in L by lra; lra|rewrite Qabs_pos in L by lra; lra]).
      assert (RP : 0 < r) by (unfold r; apply Qlt_shift_div_l; lra).
      assert (C1 : (1 <= Qceiling r)%Z). { assert (0 < Qceiling r)%Z; [|lia]. rewrite Zlt_Qlt. eapply Qlt_le_trans; [exact RP|]. apply Qle_ceiling. }
      rewrite Z.max_l by lia. set (n := Qceiling r) in *. assert (NP : 1 <= inject_Z n) by (change 1 with (inject_Z 1); now rewrite <- Zle_Qle).
      assert (R1 : r <= inject_Z n) by apply Qle_ceiling. assert (R2 : inject_Z n - 1 < r). { unfold n. pose proof (Qceiling_lt r) as Z. unfold Z.sub in Z. rewrite inject_Z_plus in Z. change (inject_Z (- (1))) with (-1) in Z. lra. }
      assert (RS : r * Qabs s == Qabs dt) by (unfold r; field; lra).
      split; [exact ND|]. split; [exact C1|]. split; [field; lra|]. split.
      { setoid_replace (dt / inject_Z n * dt) with ((dt * dt) / inject_Z n) by (field; lra). apply Qlt_shift_div_l; lra. }
      split; [|intros H; now destruct (H s)]. intros s' Z. injection Z as <-. split.
      * unfold Qdiv. rewrite Qabs_Qmult, Qabs_Qinv, (Qabs_pos (inject_Z n)) by lra. apply Qle_shift_div_r; [lra|]. rewrite <- RS, Qmult_comm. apply Qmult_le_l; lra.
      * rewrite <- RS. apply Qmult_lt_r; lra.
  - split; [exact ND|]. split; [lia|]. split; [field|]. split; [setoid_replace (dt / 1 * dt) with (dt * dt) by field; exact SQ|]. split; [discriminate|reflexivity].
  - split; [exact ND|]. now left.
Qed.
(** the sign of the step has no part *)
Theorem C141_sign s dt : rk4_steps (Fin (- s)) dt = rk4_steps (Fin s) dt.
Proof. unfold rk4_steps. replace (Qabs (- s)) with (Qabs s); [reflexivity|]. destruct s as [a b]. unfold Qabs, Qopp. cbn. now rewrite Z.abs_opp. Qed.
(** Central differences of a dependence of degree two are its exact derivative, whatever the step. *)
Theorem C141_quadratic {E} (flow : Q -> outcome vec E) p e (a b c : vec) : 0 < e -> (forall q, exists y, flow q = Ok y /\ forall i, (i < 6)%nat -> y i == a i + b i * q + c i * q * q) ->
  exists d, central_diff flow p (Fin e) = Ok d /\ forall i, (i < 6)%nat -> d i == b i + 2 * c i * p.
Proof.
  intros P H. unfold central_diff. destruct (Qle_bool e 0) eqn:Z; [apply Qle_bool_iff in Z; lra|]. destruct (H (p + e)) as (y & -> & Y). destruct (H (p - e)) as (y' & -> & Y').
  eexists. split; [reflexivity|]. intros i I. cbv beta. rewrite Y, Y' by exact I. field. lra.
Qed.
Theorem C141_failures {E} (flow : Q -> outcome vec E) p eps :
  (central_diff flow p eps = Err None <-> forall e, eps = Fin e -> e <= 0) /\
  (forall x, central_diff flow p eps = Err (Some x) <-> exists e, eps = Fin e /\ 0 < e /\ (flow (p + e) = Err x \/ (exists y, flow (p + e) = Ok y) /\ flow (p - e) = Err x)).
Proof.
  unfold central_diff. destruct eps as [e|b|]; [|split; [split; [discriminate|reflexivity]|intros x; split; [discriminate|intros (e & Z & _); discriminate]]..].
  destruct (Qle_bool e 0) eqn:Z.
  - apply Qle_bool_iff in Z. split; [split; [intros _ e' X; injection X as <-; exact Z|reflexivity]|]. intros x. split; [discriminate|]. intros (e' & X & P & _). injection X as <-. lra.
  - assert (P : 0 < e) by (apply Qnot_le_lt; intros L; apply Qle_bool_iff in L; congruence).
    split.
    + split; [|intros H; specialize (H e eq_refl); lra]. destruct (flow (p + e)); [destruct (flow (p - e))| |]; discriminate.
    + intros x. split.
      * intros H. exists e. split; [reflexivity|]. split; [exact P|]. destruct (flow (p + e)); [|injection H as <-; now left|discriminate]. right. split; [eauto|]. destruct (flow (p - e)); [discriminate|injection H as <-; reflexivity|discriminate].
      * intros (e' & X & _ & H). injection X as <-. destruct H as [-> |((y & ->) & ->)]; reflexivity.
Qed.
Lemma fold_max_spec (f : nat -> Q) l m : m <= fold_left (fun m i => Qmax m (f i)) l m /\ (forall i, In i l -> f i <= fold_left (fun m i => Qmax m (f i)) l m) /\ (forall b, m <= b -> (forall i, In i l -> f i <= b) -> fold_left (fun m i => Qmax m (f i)) l m <= b).
Proof.
  revert m. induction l as [|k l IH]; intros m; cbn [fold_left]; [split; [lra|split; [easy|auto]]|]. destruct (IH (Qmax m (f k))) as (A & B & C).
  pose proof (Q.le_max_l m (f k)). pose proof (Q.le_max_r m (f k)). split; [lra|]. split.
  - intros i [<-|I]; [lra|auto].
  - intros b M F. apply C; [|intros; apply F; now right]. apply Q.max_lub; [exact M|apply F; now left].
Qed.
Lemma in6 i : In i (seq 0 6) <-> (i < 6)%nat. Proof. rewrite in_seq. lia. Qed.
(** the largest difference relative to the largest entry of the reference *)
Theorem C141_difference a b : let d := max_relative_difference a b in
  0 <= d /\ (forall i, (i < 6)%nat -> Qabs (a i - b i) <= d * (if qlt 0 (largest b) then largest b else 1)) /\ (d == 0 <-> forall i, (i < 6)%nat -> a i == b i) /\
  ((forall i, (i < 6)%nat -> b i == 0) -> d == largest a).
Proof.
  cbv zeta. unfold max_relative_difference. set (sc := if qlt 0 (largest b) then largest b else 1).
  assert (SP : 0 < sc). { unfold sc. destruct (qlt 0 (largest b)) eqn:Z; [|lra]. unfold qlt in Z. apply negb_true_iff in Z. apply Qnot_le_lt. intros L. apply Qle_bool_iff in L. congruence. }
  destruct (fold_max_spec (fun i => Qabs (a i - b i) / sc) (seq 0 6) 0) as (A & B & C). cbv beta in *. set (d := fold_left _ _ _) in *.
  assert (B' : forall i, (i < 6)%nat -> Qabs (a i - b i) <= d * sc).
  { intros i I. apply in6 in I. specialize (B i I). apply (Qmult_le_r _ _ sc) in B; [|exact SP]. unfold Qdiv in B. rewrite <- Qmult_assoc, (Qmult_comm (/ sc)), Qmult_inv_r, Qmult_1_r in B by lra. exact B. }
  split; [exact A|]. split; [exact B'|]. split; [split|].
  - intros Z i I. specialize (B' i I). rewrite Z in B'. setoid_replace (0 * sc) with 0 in B' by ring. apply Qabs_Qle_condition in B'. lra.
  - intros H. apply Qle_antisym; [|exact A]. apply C; [lra|]. intros i I. apply in6 in I. setoid_replace (a i - b i) with 0 by (rewrite H by exact I; ring). unfold Qdiv. rewrite Qabs_pos by lra. lra.
  - intros H. assert (L0 : largest b == 0). { destruct (fold_max_spec (fun i => Qabs (b i)) (seq 0 6) 0) as (X & _ & Y). apply Qle_antisym; [|exact X]. apply Y; [lra|]. intros i I. apply in6 in I. rewrite H by exact I. rewrite Qabs_pos; lra. }
    assert (SC : sc == 1). { unfold sc. destruct (qlt 0 (largest b)) eqn:Z; [|reflexivity]. unfold qlt in Z. apply negb_true_iff in Z. assert (W : Qle_bool (largest b) 0 = true) by (apply Qle_bool_iff; lra). congruence. }
    assert (T : forall i, (i < 6)%nat -> Qabs (a i - b i) / sc == Qabs (a i)). { intros i I. rewrite SC. setoid_replace (a i - b i) with (a i) by (rewrite H by exact I; ring). field. }
    destruct (fold_max_spec (fun i => Qabs (a i)) (seq 0 6) 0) as (X & Y & W). fold (largest a) in *. cbv beta in *.
    apply Qle_antisym.
    + apply C; [exact X|]. intros i I. rewrite T by (now apply in6). apply Y, I.
    + apply W; [exact A|]. intros i I. rewrite <- (T i) by (now apply in6). apply B, I.
Qed.
Lemma fold_gt_zero (f : nat -> Q) l : (forall i, In i l -> f i == 0) -> fold_left (fun m i => let r := f i in if qlt m r then r else m) l 0 == 0.
Proof.
  intros H. assert (G : forall m, m == 0 -> fold_left (fun m i => let r := f i in if qlt m r then r else m) l m == 0); [|apply G; reflexivity].
  induction l as [|k l IH]; intros m M; [exact M|]. cbn [fold_left]. apply IH; [intros; apply H; now right|]. cbv zeta. destruct (qlt m (f k)); [apply H; now left|exact M].
Qed.
Lemma fold_gt_spec (f : nat -> Q) l m : m <= fold_left (fun m i => let r := f i in if qlt m r then r else m) l m /\ forall i, In i l -> f i <= fold_left (fun m i => let r := f i in if qlt m r then r else m) l m.
Proof.
  revert m. induction l as [|k l IH]; intros m; cbn [fold_left]; [split; [lra|easy]|]. cbv zeta. destruct (IH (if qlt m (f k) then f k else m)) as (A & B).
  assert (M : m <= (if qlt m (f k) then f k else m) /\ f k <= (if qlt m (f k) then f k else m)).
  { destruct (qlt m (f k)) eqn:Z; unfold qlt in Z; [apply negb_true_iff in Z|apply negb_false_iff, Qle_bool_iff in Z; lra]. assert (m < f k) by (apply Qnot_le_lt; intros L; apply Qle_bool_iff in L; congruence). lra. }
  destruct M as [M1 M2]. split; [exact (Qle_trans _ _ _ M1 A)|]. intros i [<-|I]; [exact (Qle_trans _ _ _ M2 A)|exact (B i I)].
Qed.
(** The reported error is zero exactly when the matrix predicts the displaced end state. *)
Theorem C141_predict flow phi y dy : 0 <= stm_predict_error flow phi y dy /\
  (stm_predict_error flow phi y dy == 0 <-> forall i, (i < 6)%nat -> flow (fun j => y j + dy j) i - flow y i == mulv 6 phi dy i).
Proof.
  unfold stm_predict_error. cbv zeta. set (act := fun i => flow (fun j => y j + dy j) i - flow y i). set (sc := Qmax (largest act) tiny).
  assert (SP : 0 < sc) by (unfold sc; pose proof (Q.le_max_r (largest act) tiny); assert (0 < tiny) by reflexivity; lra).
  pose proof (fold_gt_spec (fun i => Qabs (act i - mulv 6 phi dy i) / sc) (seq 0 6) 0) as (A & B). split; [exact A|]. split.
  - intros Z i I. assert (X : Qabs (act i - mulv 6 phi dy i) / sc <= 0) by (eapply Qle_trans; [apply (B i); now apply in6|]; apply Qle_lteq; right; exact Z).
    apply (Qmult_le_r _ _ sc) in X; [|exact SP]. unfold Qdiv in X. rewrite <- Qmult_assoc, (Qmult_comm (/ sc)), Qmult_inv_r, Qmult_1_r in X by lra. setoid_replace (0 * sc) with 0 in X by ring. apply Qabs_Qle_condition in X. unfold act in X. lra.
  - intros H. apply (fold_gt_zero (fun i => Qabs (act i - mulv 6 phi dy i) / sc)). intros i I. apply in6 in I. setoid_replace (act i - mulv 6 phi dy i) with 0 by (unfold act; rewrite H by exact I; ring). rewrite Qabs_pos by lra. unfold Qdiv. ring.
Qed.
(** A spacecraft keeps its properties. *)
Theorem C141_spacecraft {O P E} (integrate : O -> outcome O E) o (p : P) : match propagate_spacecraft integrate (o, p) with
  | Ok (o', p') => integrate o = Ok o' /\ p' = p | Err e => integrate o = Err e | Panic => integrate o = Panic end.
Proof. unfold propagate_spacecraft. cbn [fst snd]. destruct (integrate o); auto. Qed.
Example C141_case : rk4_steps (Fin (-10)) 25 = Some (Substeps 3 (25 / 3)) /\ (exists d, central_diff (E := unit) (fun q => Ok (fun _ => q * q)) 3 (Fin (1 # 2)) = Ok d /\ d 0%nat == 6) /\
  stm_predict_error (fun v i => 2 * v i) (fun i j => if (i =? j)%nat then 2 else 0) (fun _ => 1) (fun _ => 1 # 10) == 0.
Proof. split; [reflexivity|]. split; [eexists; split; [reflexivity|reflexivity]|]. vm_compute. reflexivity. Qed.
Print Assumptions C140_arc.
Print Assumptions C140_failure.
Print Assumptions C140_join.
Print Assumptions C140_displaced.
Print Assumptions C140_final.
Print Assumptions C141_steps.
Print Assumptions C141_sign.
Print Assumptions C141_quadratic.
Print Assumptions C141_failures.
Print Assumptions C141_difference.
Print Assumptions C141_predict.
Print Assumptions C141_spacecraft.
