(** C42, C43: normal equations and the filter update. *)
From Coq Require Import List NArith ZArith QArith Bool PeanoNat Lqa Lia Permutation.
From Verif Require Import Base DecFloat Qb Fnum Lin Est_Model Est_Proofs.
Import ListNotations.
Local Open Scope Q_scope.

(** ** C42 *)
Theorem C42_accumulate n l s : add_all n l new_normal = Some s -> n_obs s = N.of_nat (length l) /\ value (n_chi2 s) == chi l /\
  (forall a b, value (symmetrised (n_matrix s) a b) == gram l a b) /\ (forall a, value (n_b s a) == rhs l a).
Proof. exact (accumulate n l s). Qed.
(** The reduced sum of squares is per degree of freedom, at least one. *)
Theorem C42_reduced n l s : add_all n l new_normal = Some s ->
  ((n < length l)%nat -> reduced_chi2 n (value (n_chi2 s)) (n_obs s) * inject_Z (Z.of_nat (length l) - Z.of_nat n) == chi l) /\
  ((length l <= n)%nat -> reduced_chi2 n (value (n_chi2 s)) (n_obs s) == chi l).
Proof.
  intros H. destruct (accumulate n l s H) as (O & C & _). unfold reduced_chi2. rewrite O, nat_N_Z, C. split; intros L.
  - rewrite Z.max_l by lia. field. intros E. change 0 with (inject_Z 0) in E. rewrite inject_Z_injective in E. lia.
  - rewrite Z.max_r by lia. field.
Qed.
Theorem C42_order n l l' s : Permutation l l' -> add_all n l new_normal = Some s -> exists s', add_all n l' new_normal = Some s' /\ n_obs s' = n_obs s /\ value (n_chi2 s') == value (n_chi2 s) /\
  (forall a b, value (symmetrised (n_matrix s') a b) == value (symmetrised (n_matrix s) a b)) /\ (forall a, value (n_b s' a) == value (n_b s a)).
Proof. exact (accumulate_order n l l' s). Qed.
(** Accepted exactly when every index is in range and every number finite, with a positive sigma. *)
Theorem C42_accepts n r s : fin_state s -> ((exists s', add n r s = (s', Ok tt)) <-> row_ok n r).
Proof. intros F. split; [intros (s' & E); eapply add_row_only, E|]. intros K. destruct (add_row_ok n r s K F) as (s' & E & _). now exists s'. Qed.
Theorem C42_rejected_first n r s s' e : add n r s = (s', Err e) -> e = SigmaBad \/ e = ResidualBad \/ (exists i t, r_partials r = i :: t /\ ~ good n i) -> s' = s.
Proof. exact (add_row_reject n r s s' e). Qed.
(** A bad entry that is not the first leaves part of the row behind. *)
Theorem C42_rejected_refuted : ~ (forall n r s s' e, fin_state s -> add n r s = (s', Err e) -> s' = s).
Proof.
  intros H. set (r := RowIn [(0%nat, Fin 1); (0%nat, NaN)] (Fin 1) (Fin 1)).
  assert (E : exists s' e, add 1 r new_normal = (s', Err e) /\ value (n_b s' 0%nat) == 1) by (eexists; eexists; split; [cbn; reflexivity|reflexivity]). destruct E as (s' & e & E & V).
  apply H in E; [|apply fin_new]. subst s'. cbn in V. discriminate V.
Qed.
(** An index out of range after the first entry is not reported: the access itself panics. *)
Theorem C42_index_panics n r s : sigma_ok (r_sigma r) -> is_finite (r_residual r) = true -> (exists i v t, r_partials r = (i, v) :: t /\ (i < n)%nat /\ is_finite v = true) -> (exists p, In p (r_partials r) /\ (n <= fst p)%nat) -> snd (add n r s) = Panic.
Proof.
  intros K R (i & v & t & P & I & V) (p & Ip & Lp). unfold add, add_row. apply sigma_test in K. rewrite K, R. cbn [negb]. rewrite P at 2. cbn [outer]. destruct (Nat.leb_spec n i); [lia|]. rewrite V. cbn [negb].
  assert (X : forall w h ps m, In p ps -> inner n w i h ps m = None).
  { intros w h ps. induction ps as [|[j u] q IH]; intros m J; [destruct J|]. cbn [inner]. destruct J as [J|J]; [rewrite <- J in Lp; cbn [fst] in Lp; destruct (Nat.ltb_spec j i); [lia|]; destruct (Nat.leb_spec n j); [reflexivity|lia]|]. destruct (j <? i)%nat; [now apply IH|]. destruct (n <=? j)%nat; [reflexivity|now apply IH]. }
  rewrite X by assumption. reflexivity.
Qed.
Theorem C42_documented_index_error_refuted : ~ (forall n r s, fin_state s -> sigma_ok (r_sigma r) -> is_finite (r_residual r) = true -> Forall (fun p => is_finite (snd p) = true) (r_partials r) -> (exists p, In p (r_partials r) /\ (n <= fst p)%nat) -> exists i, snd (add n r s) = Err (InvalidIndex i n)).
Proof.
  intros H. set (r := RowIn [(0%nat, Fin 1); (5%nat, Fin 1)] (Fin 1) (Fin 1)). destruct (H 2%nat r new_normal) as (i & E); [apply fin_new|exists 1; split; reflexivity|reflexivity|repeat constructor|exists (5%nat, Fin 1); split; [right; now left|cbn; lia]|]. discriminate E.
Qed.
(** Any solution of the accumulated system minimises the weighted sum of squares. *)
Theorem C42_least_squares n l s p q : add_all n l new_normal = Some s ->
  (forall a, (a < n)%nat -> mulv n (fun a b => value (symmetrised (n_matrix s) a b)) p a == value (n_b s a)) ->
  cost n l p <= cost n l q /\ cost n l q == cost n l p + form n (gram l) (fun a => q a - p a).
Proof.
  intros E H. destruct (accumulate n l s E) as (_ & _ & V & B). destruct (add_all_ok n l _ s fin_new E) as (_ & K & _).
  assert (N : cost n l q == cost n l p + form n (gram l) (fun a => q a - p a)) by (apply normal_solution; intros a A; rewrite <- (B a), <- (H a A); apply mulv_ext; [intros j J; symmetry; apply V|reflexivity]).
  split; [|exact N]. rewrite N. pose proof (gram_psd n l K (fun a => q a - p a)). lra.
Qed.
Theorem C42_psd n l s : add_all n l new_normal = Some s -> psd n (fun a b => value (symmetrised (n_matrix s) a b)).
Proof. intros E x. destruct (accumulate n l s E) as (_ & _ & V & _). destruct (add_all_ok n l _ s fin_new E) as (_ & K & _). pose proof (gram_psd n l K x) as G. assert (Q : form n (fun a b => value (symmetrised (n_matrix s) a b)) x == form n (gram l) x) by (apply form_ext; [intros; apply V|reflexivity]). rewrite Q. exact G. Qed.
(** Two rows, the first naming one index twice. *)
Definition sample_rows : list row_in := [RowIn [(0%nat, Fin 1); (1%nat, Fin 2); (0%nat, Fin 3)] (Fin 5) (Fin 2); RowIn [(1%nat, Fin (-1))] (Fin 1) (Fin 1)].
Example C42_case : match add_all 2 sample_rows new_normal with
  | Some s => (Qred (value (symmetrised (n_matrix s) 0 0)), Qred (value (symmetrised (n_matrix s) 1 0)), Qred (value (symmetrised (n_matrix s) 1 1)), Qred (value (n_b s 0)), Qred (value (n_chi2 s)), n_obs s) = (4, 2, 2, 5, 29 # 4, 2%N)
  | None => False end.
Proof. vm_compute. reflexivity. Qed.

(** ** C43 *)
Inductive step := SPredict (mean : vec) (phi : mat) (q : option mat) | SUpdate (h : nat -> fnum) (nu r : fnum).
Definition apply_step (n : nat) (f : ekf) (st : step) : ekf :=
  match st with SPredict m phi q => predict n f m phi q | SUpdate h nu r => fst (update_scalar n f h nu r) end.
Definition noise_ok (n : nat) (st : step) : Prop := match st with SPredict _ _ (Some q) => symmetric n q /\ psd n q | _ => True end.
Definition valid (n : nat) (f : ekf) : Prop := symmetric n (e_cov f) /\ psd n (e_cov f).
(** Every sequence of predictions and updates, rejected ones included. *)
Theorem C43_invariant n f sts : valid n f -> Forall (noise_ok n) sts -> valid n (fold_left (apply_step n) sts f).
Proof.
  intros V F. revert f V. induction F as [|st sts N F IH]; intros f V; [exact V|]. cbn [fold_left]. apply IH. clear IH. destruct V as [S P]. destruct st as [m phi q|h nu r]; cbn [apply_step].
  - split; [apply predict_sym; [assumption|]; destruct q; [apply N|exact I]|]. intros x. rewrite predict_form. pose proof (P (mulv n (tr phi) x)). destruct q as [q|]; [|lra]. destruct N as [_ Nq]. pose proof (Nq x). lra.
  - destruct (update_scalar n f h nu r) as [f' o] eqn:E. cbn [fst]. destruct o as [rec|e|].
    + split; [eapply update_sym; eassumption|eapply update_psd; eassumption].
    + apply update_reject in E. subst f'. now split.
    + exfalso. revert E. unfold update_scalar. destruct (negb (is_finite r) || flt r (Fin 0)); [congruence|]. destruct (negb (is_finite nu)); [congruence|]. destruct (bad_row h 0 n); [congruence|]. cbv zeta. destruct (negb (qltb 0 _)); congruence.
Qed.
Theorem C43_joseph n f hf nu r f' rec : symmetric n (e_cov f) -> update_scalar n f hf nu r = (f', Ok rec) ->
  let h := fun i => value (hf i) in let ph := mulv n (e_cov f) h in let s := value r + dot n h ph in
  0 < s /\ 0 <= value r /\ rec = Innov (value nu) s (value nu * value nu / s) /\
  (forall i, e_mean f' i == e_mean f i + ph i / s * value nu) /\
  (forall i j, (i < n)%nat -> (j < n)%nat -> e_cov f' i j == e_cov f i j - ph i * ph j / s).
Proof. exact (update_ok n f hf nu r f' rec). Qed.
Theorem C43_shrinks n f hf nu r f' rec x : symmetric n (e_cov f) -> update_scalar n f hf nu r = (f', Ok rec) -> form n (e_cov f') x <= form n (e_cov f) x.
Proof. exact (update_shrinks n f hf nu r f' rec x). Qed.
(** Along the measured direction the variance becomes that of two independent measurements combined. *)
Theorem C43_measured n f hf nu r f' rec : symmetric n (e_cov f) -> update_scalar n f hf nu r = (f', Ok rec) -> let h := fun i => value (hf i) in
  form n (e_cov f') h * (form n (e_cov f) h + value r) == form n (e_cov f) h * value r.
Proof. intros S E h. rewrite (update_form n f hf nu r f' rec h S E). destruct (update_ok n f hf nu r f' rec S E) as (P & _ & -> & _). cbn [i_variance]. unfold form. fold h. fold h in P. set (d := dot n h (mulv n (e_cov f) h)) in *. field. lra. Qed.
Theorem C43_rejected n f hf nu r f' e : update_scalar n f hf nu r = (f', Err e) -> f' = f.
Proof. exact (update_reject n f hf nu r f' e). Qed.
(** Accepted exactly on finite inputs with a non-negative noise and a positive innovation variance, which a positive noise guarantees. *)
Theorem C43_accepts n f hf nu r : (exists f' rec, update_scalar n f hf nu r = (f', Ok rec)) <->
  (exists v, r = Fin v /\ 0 <= v) /\ is_finite nu = true /\ (forall i, (i < n)%nat -> is_finite (hf i) = true) /\ 0 < value r + form n (e_cov f) (fun i => value (hf i)).
Proof.
  unfold update_scalar, form. cbv zeta. split.
  - intros (f' & rec & E). destruct r as [v|b|]; try discriminate E. cbn [is_finite negb orb value] in *. destruct (flt (Fin v) (Fin 0)) eqn:L; [discriminate|]. destruct (is_finite nu) eqn:Fn; [|discriminate]. cbn [negb] in E. destruct (bad_row hf 0 n) eqn:B; [discriminate|].
    destruct (qltb_r 0 (v + dot n (fun i => value (hf i)) (mulv n (e_cov f) (fun i => value (hf i))))) as [P|P]; [|discriminate]. split; [exists v; split; [reflexivity|]; unfold flt in L; cbn in L; destruct (Qle_bool 0 v) eqn:Bv; [now apply Qle_bool_iff|discriminate]|]. split; [reflexivity|]. split; [intros i I; apply (proj1 (bad_row_none hf 0 n) B); lia|exact P].
  - intros ((v & -> & Lv) & Fn & Fh & P). cbn [is_finite negb orb value] in *. replace (flt (Fin v) (Fin 0)) with false by (unfold flt; cbn; apply Qle_bool_iff in Lv; now rewrite Lv). rewrite Fn. cbn [negb]. replace (bad_row hf 0 n) with (@None nat) by (symmetry; apply bad_row_none; intros; apply Fh; lia).
    destruct (qltb_r 0 (v + dot n (fun i => value (hf i)) (mulv n (e_cov f) (fun i => value (hf i))))); [|contradiction]. cbn [negb]. eexists. eexists. reflexivity.
Qed.
Theorem C43_positive_noise n f hf nu v : valid n f -> 0 < v -> is_finite nu = true -> (forall i, (i < n)%nat -> is_finite (hf i) = true) -> exists f' rec, update_scalar n f hf nu (Fin v) = (f', Ok rec).
Proof. intros [_ P] V Fn Fh. apply C43_accepts. split; [exists v; split; [reflexivity|lra]|]. split; [assumption|]. split; [assumption|]. pose proof (P (fun i => value (hf i))). cbn [value]. lra. Qed.
(** Two states, one update and one prediction. *)
Definition f0 : ekf := Ekf (fun _ => 0) (fun i j => if (i =? j)%nat then 4 else 1).
Example C43_case : symmetric 2 (e_cov f0) /\
  let f1 := apply_step 2 f0 (SUpdate (fun i => if (i =? 0)%nat then Fin 1 else Fin 0) (Fin 10) (Fin 1)) in
  (Qred (e_mean f1 0%nat), Qred (e_mean f1 1%nat), Qred (e_cov f1 0%nat 0%nat), Qred (e_cov f1 0%nat 1%nat), Qred (e_cov f1 1%nat 1%nat)) = (8, 2, 4 # 5, 1 # 5, 19 # 5).
Proof. split; [intros [|[|i]] [|[|j]] I J; try reflexivity; lia|vm_compute; reflexivity]. Qed.

Print Assumptions C42_accumulate.
Print Assumptions C42_order.
Print Assumptions C42_accepts.
Print Assumptions C42_index_panics.
Print Assumptions C42_least_squares.
Print Assumptions C43_invariant.
Print Assumptions C43_joseph.
Print Assumptions C43_accepts.
Print Assumptions C42_reduced.
