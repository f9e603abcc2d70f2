(** Proofs about normal equations and the filter update. *)
From Coq Require Import List NArith ZArith QArith Bool PeanoNat Lqa Lia Permutation Qfield.
From Verif Require Import Base DecFloat Qb Fnum Lin Est_Model.
Import ListNotations.
Local Open Scope Q_scope.

(** ** Normal equations *)
(** The dense form of a row: entries of one index add up. *)
Fixpoint dense (ps : list partial) (i : nat) : Q := match ps with [] => 0 | (j, v) :: t => (if (j =? i)%nat then value v else 0) + dense t i end.
Record row_in := RowIn { r_partials : list partial; r_residual : fnum; r_sigma : fnum }.
Definition sigma_ok (s : fnum) : Prop := exists q, s = Fin q /\ 0 < q.
Definition row_ok (n : nat) (r : row_in) : Prop :=
  sigma_ok (r_sigma r) /\ is_finite (r_residual r) = true /\ Forall (fun p => (fst p < n)%nat /\ is_finite (snd p) = true) (r_partials r).
Definition wt (r : row_in) : Q := / (value (r_sigma r) * value (r_sigma r)).
Definition res (r : row_in) : Q := value (r_residual r).
Definition hvec (r : row_in) : vec := dense (r_partials r).
Fixpoint lsum {A} (f : A -> Q) (l : list A) : Q := match l with [] => 0 | x :: t => f x + lsum f t end.

Lemma sigma_test s : (negb (is_finite s) || fle s (Fin 0)) = false <-> sigma_ok s.
Proof.
  split.
  - destruct s as [q|b|]; cbn; try discriminate. unfold fle. cbn. intros H. exists q. split; [reflexivity|]. destruct (Qlt_le_dec 0 q) as [|L]; [assumption|]. apply Qle_bool_iff in L. congruence.
  - intros (q & -> & L). unfold fle. cbn. destruct (Qle_bool q 0) eqn:E; [apply Qle_bool_iff in E; lra|reflexivity].
Qed.
Lemma fin_val a : is_finite a = true -> a = Fin (value a).
Proof. destruct a; intros; [reflexivity|discriminate|discriminate]. Qed.
Lemma fadd_fin a b : is_finite a = true -> is_finite b = true -> fadd a b = Fin (value a + value b).
Proof. intros A B. rewrite (fin_val a A), (fin_val b B). reflexivity. Qed.
Lemma fmul_fin a b : is_finite a = true -> is_finite b = true -> fmul a b = Fin (value a * value b).
Proof. intros A B. rewrite (fin_val a A), (fin_val b B). reflexivity. Qed.

Section Rows.
Variable n : nat.
Definition fin_mat (m : nat -> nat -> fnum) : Prop := forall i j, is_finite (m i j) = true.
Definition fin_vec (b : nat -> fnum) : Prop := forall i, is_finite (b i) = true.
Definition good (p : partial) : Prop := (fst p < n)%nat /\ is_finite (snd p) = true.

Lemma inner_ok w i hi ps m : is_finite w = true -> is_finite hi = true -> Forall good ps -> fin_mat m ->
  exists m', inner n w i hi ps m = Some m' /\ fin_mat m' /\ forall a b, value (m' a b) == value (m a b) + (if ((a =? i) && (i <=? b))%nat then value w * value hi * dense ps b else 0).
Proof.
  intros W H. revert m. induction ps as [|[j v] t IH]; intros m G Fm; cbn [inner].
  - exists m. split; [reflexivity|]. split; [assumption|]. intros a b. cbn [dense]. destruct ((a =? i) && (i <=? b))%nat; ring.
  - inversion G as [|? ? [Gj Gv] Gt]; subst. cbn [fst snd] in *. destruct (Nat.ltb_spec j i) as [L|L].
    + destruct (IH m Gt Fm) as (m' & E & F & V). exists m'. split; [assumption|]. split; [assumption|]. intros a b. rewrite V. cbn [dense]. destruct (Nat.eqb_spec a i); [|reflexivity]. destruct (Nat.leb_spec i b); [|reflexivity]. cbn [andb].
      destruct (Nat.eqb_spec j b); [lia|]. ring.
    + destruct (Nat.leb_spec n j); [lia|]. set (x := fmul (fmul w hi) v). assert (X : is_finite x = true /\ value x = value w * value hi * value v). { unfold x. rewrite (fmul_fin w hi W H), fmul_fin by auto. auto. }
      destruct (IH (add_at m i j x) Gt) as (m' & E & F & V).
      { intros a b. unfold add_at. destruct ((a =? i) && (b =? j))%nat; [rewrite fadd_fin; [reflexivity|apply Fm|apply X]|apply Fm]. }
      exists m'. split; [assumption|]. split; [assumption|]. intros a b. rewrite V. cbn [dense]. unfold add_at. destruct (Nat.eqb_spec a i) as [->|]; cbn [andb]; [|ring].
      destruct (Nat.eqb_spec b j) as [->|]; cbn [andb].
      * rewrite fadd_fin by (apply Fm || apply X). cbn [value]. destruct X as [_ ->]. rewrite Nat.eqb_refl. destruct (Nat.leb_spec i j); [ring|lia].
      * destruct (Nat.eqb_spec j b); [congruence|]. destruct (i <=? b)%nat; ring.
Qed.
Definition fin_state (s : normal) : Prop := fin_mat (n_matrix s) /\ fin_vec (n_b s) /\ is_finite (n_chi2 s) = true.
Lemma outer_ok w r all ps s : is_finite w = true -> is_finite r = true -> Forall good all -> Forall good ps -> fin_state s ->
  exists s', outer n w r all ps s = (s', Ok tt) /\ fin_state s' /\ n_chi2 s' = n_chi2 s /\ n_obs s' = n_obs s /\
  (forall a b, value (n_matrix s' a b) == value (n_matrix s a b) + (if (a <=? b)%nat then value w * dense ps a * dense all b else 0)) /\
  (forall a, value (n_b s' a) == value (n_b s a) + value w * dense ps a * value r).
Proof.
  intros W R Ga. revert s. induction ps as [|[i v] t IH]; intros s G (Fm & Fb & Fc); cbn [outer].
  - exists s. split; [reflexivity|]. split; [repeat split; assumption|]. split; [reflexivity|]. split; [reflexivity|]. split; [intros a b; cbn [dense]; destruct (a <=? b)%nat; ring|intros a; cbn [dense]; ring].
  - inversion G as [|? ? [Gi Gv] Gt]; subst. cbn [fst snd] in *. destruct (Nat.leb_spec n i); [lia|]. rewrite Gv. cbn [negb].
    destruct (inner_ok w i v all (n_matrix s) W Gv Ga Fm) as (m' & E & Fm' & V). rewrite E. set (x := fmul (fmul w v) r). assert (X : is_finite x = true /\ value x = value w * value v * value r). { unfold x. rewrite (fmul_fin w v W Gv), fmul_fin by auto. auto. }
    destruct (IH (Normal m' (add_b (n_b s) i x) (n_chi2 s) (n_obs s)) Gt) as (s' & E' & F' & C & O & V' & B').
    { split; [exact Fm'|]. split; [|exact Fc]. intros a. cbn. unfold add_b. destruct (a =? i)%nat; [rewrite fadd_fin; [reflexivity|apply Fb|apply X]|apply Fb]. }
    exists s'. split; [assumption|]. split; [assumption|]. split; [assumption|]. split; [assumption|]. cbn [n_matrix n_b] in *. split.
    + intros a b. rewrite V', V. cbn [dense]. rewrite (Nat.eqb_sym a i). destruct (Nat.eqb_spec i a) as [->|]; cbn [andb]; destruct (a <=? b)%nat; ring.
    + intros a. rewrite B'. unfold add_b. cbn [dense]. rewrite (Nat.eqb_sym a i). destruct (Nat.eqb_spec i a) as [->|]; [rewrite fadd_fin by (apply Fb || apply X); cbn [value]; destruct X as [_ ->]; ring|ring].
Qed.
Lemma outer_only w r all ps s s' : Forall (fun p => fst p < n)%nat all \/ True -> outer n w r all ps s = (s', Ok tt) -> Forall good ps.
Proof.
  intros _. revert s. induction ps as [|[i v] t IH]; intros s E; [constructor|]. cbn [outer] in E. destruct (Nat.leb_spec n i); [discriminate|]. destruct (is_finite v) eqn:F; [|discriminate]. cbn [negb] in E.
  destruct (inner n w i v all (n_matrix s)); [|discriminate]. constructor; [split; assumption|]. eapply IH, E.
Qed.
Definition add (r : row_in) := add_row n (r_partials r) (r_residual r) (r_sigma r).
(** A row is accepted exactly when it is valid; then each quantity grows by the row's share. *)
Theorem add_row_ok r s : row_ok n r -> fin_state s -> exists s', add r s = (s', Ok tt) /\ fin_state s' /\ n_obs s' = (n_obs s + 1)%N /\
  value (n_chi2 s') == value (n_chi2 s) + wt r * res r * res r /\
  (forall a b, value (n_matrix s' a b) == value (n_matrix s a b) + (if (a <=? b)%nat then wt r * hvec r a * hvec r b else 0)) /\
  (forall a, value (n_b s' a) == value (n_b s a) + wt r * hvec r a * res r).
Proof.
  intros ((q & Es & Lq) & R & G) F. unfold add, add_row. replace (negb (is_finite (r_sigma r)) || fle (r_sigma r) (Fin 0)) with false by (symmetry; apply sigma_test; exists q; auto). rewrite R. cbn [negb].
  assert (W : is_finite (weight (r_sigma r)) = true /\ value (weight (r_sigma r)) = wt r) by (unfold wt; rewrite Es; cbn; auto). destruct W as [W Wv].
  destruct (outer_ok (weight (r_sigma r)) (r_residual r) (r_partials r) (r_partials r) s W R G G F) as (s' & E & F' & C & O & V & B). rewrite E. eexists. split; [reflexivity|].
  destruct F' as (Fm & Fb & Fc). set (x := fmul (fmul (weight (r_sigma r)) (r_residual r)) (r_residual r)). assert (X : is_finite x = true /\ value x = wt r * res r * res r) by (unfold x; rewrite (fmul_fin _ _ W R), fmul_fin by auto; cbn; rewrite Wv; auto).
  split; [split; [exact Fm|]; split; [exact Fb|]; cbn [n_chi2]; rewrite fadd_fin; [reflexivity|exact Fc|apply X]|]. cbn [n_obs n_chi2 n_matrix n_b].
  split; [now rewrite O|]. split; [rewrite fadd_fin by (exact Fc || apply X); cbn [value]; destruct X as [_ ->]; rewrite C; reflexivity|].
  rewrite Wv in V, B. split; [exact V|exact B].
Qed.
Theorem add_row_only r s s' : add r s = (s', Ok tt) -> row_ok n r.
Proof.
  unfold add, add_row. destruct (negb (is_finite (r_sigma r)) || fle (r_sigma r) (Fin 0)) eqn:S; [discriminate|]. apply sigma_test in S. destruct (is_finite (r_residual r)) eqn:R; [|discriminate]. cbn [negb].
  destruct (outer n _ _ _ _ s) as [s1 [[]|e|]] eqn:E; try discriminate. intros _. split; [assumption|]. split; [assumption|]. eapply outer_only; [right; exact I|exact E].
Qed.
(** Every rejection by the first checks leaves the accumulator alone. *)
Theorem add_row_reject r s s' e : add r s = (s', Err e) -> e = SigmaBad \/ e = ResidualBad \/ (exists i t, r_partials r = i :: t /\ ~ good i) -> s' = s.
Proof.
  unfold add, add_row. destruct (negb (is_finite (r_sigma r)) || fle (r_sigma r) (Fin 0)) eqn:S; [congruence|]. destruct (is_finite (r_residual r)) eqn:R; [|cbn [negb]; congruence]. cbn [negb].
  destruct (outer n _ _ _ _ s) as [s1 o] eqn:E. destruct o as [u|e1|]; try discriminate. intros X; injection X as <- <-.
  assert (NE : forall w r al ps s s1 e, outer n w r al ps s = (s1, Err e) -> e <> SigmaBad /\ e <> ResidualBad).
  { intros w r0 al ps. induction ps as [|[i v] t IH]; intros s0 s2 e2 E2; cbn [outer] in E2; [discriminate|]. destruct (n <=? i)%nat; [injection E2 as _ <-; split; discriminate|]. destruct (is_finite v); cbn [negb] in E2; [|injection E2 as _ <-; split; discriminate].
    destruct (inner n w i v al (n_matrix s0)); [|discriminate]. eapply IH, E2. }
  destruct (NE _ _ _ _ _ _ _ E). intros [?|[?|(i & t & P & B)]]; try contradiction. rewrite P in E. destruct i as [i v]. cbn [outer] in E. unfold good in B. cbn [fst snd] in B.
  destruct (Nat.leb_spec n i); [congruence|]. destruct (is_finite v) eqn:Fv; [exfalso; apply B; auto|]. cbn [negb] in E. congruence.
Qed.

(** ** Sequences of rows *)
Fixpoint add_all (l : list row_in) (s : normal) : option normal :=
  match l with [] => Some s | r :: t => match add r s with (s', Ok _) => add_all t s' | _ => None end end.
Definition gram (l : list row_in) (a b : nat) : Q := lsum (fun r => wt r * hvec r a * hvec r b) l.
Definition rhs (l : list row_in) (a : nat) : Q := lsum (fun r => wt r * hvec r a * res r) l.
Definition chi (l : list row_in) : Q := lsum (fun r => wt r * res r * res r) l.
Lemma add_all_ok l s s' : fin_state s -> add_all l s = Some s' -> fin_state s' /\ Forall (row_ok n) l /\ n_obs s' = (n_obs s + N.of_nat (length l))%N /\ value (n_chi2 s') == value (n_chi2 s) + chi l /\
  (forall a b, value (n_matrix s' a b) == value (n_matrix s a b) + (if (a <=? b)%nat then gram l a b else 0)) /\ (forall a, value (n_b s' a) == value (n_b s a) + rhs l a).
Proof.
  revert s. induction l as [|r t IH]; intros s F E; cbn [add_all] in E.
  - injection E as <-. split; [assumption|]. split; [constructor|]. split; [cbn; lia|]. split; [unfold chi; cbn; ring|]. split; [intros a b; unfold gram; cbn; destruct (a <=? b)%nat; ring|intros a; unfold rhs; cbn; ring].
  - destruct (add r s) as [s1 [[]|e|]] eqn:A; try discriminate. pose proof (add_row_only _ _ _ A) as K. destruct (add_row_ok r s K F) as (s2 & A2 & F2 & O & C & V & B). rewrite A in A2. injection A2 as <-.
    destruct (IH s1 F2 E) as (F' & Ks & O' & C' & V' & B'). split; [assumption|]. split; [constructor; assumption|]. split; [rewrite O', O; cbn [length]; lia|]. split; [rewrite C', C; unfold chi; cbn [lsum]; ring|].
    split; [intros a b; rewrite V', V; unfold gram; cbn [lsum]; destruct (a <=? b)%nat; ring|intros a; rewrite B', B; unfold rhs; cbn [lsum]; ring].
Qed.
Lemma add_all_some l s : fin_state s -> Forall (row_ok n) l -> exists s', add_all l s = Some s'.
Proof.
  revert s. induction l as [|r t IH]; intros s F K; [exists s; reflexivity|]. inversion K; subst. destruct (add_row_ok r s) as (s1 & A & F1 & _); [assumption|assumption|]. cbn [add_all]. rewrite A. apply IH; assumption.
Qed.
Lemma fin_new : fin_state new_normal.
Proof. split; [intros i j; reflexivity|]. split; [intros i; reflexivity|reflexivity]. Qed.
Theorem accumulate l s : add_all l new_normal = Some s -> n_obs s = N.of_nat (length l) /\ value (n_chi2 s) == chi l /\
  (forall a b, value (symmetrised (n_matrix s) a b) == gram l a b) /\ (forall a, value (n_b s a) == rhs l a).
Proof.
  intros E. destruct (add_all_ok l _ s fin_new E) as (_ & _ & O & C & V & B). split; [rewrite O; cbn; lia|]. split; [rewrite C; cbn; ring|]. split; [|intros a; rewrite B; cbn; ring].
  assert (U : forall a b, (a <= b)%nat -> value (n_matrix s a b) == gram l a b) by (intros a b L; rewrite V; cbn [new_normal n_matrix value]; destruct (Nat.leb_spec a b); [ring|lia]).
  intros a b. unfold symmetrised. destruct (Nat.leb_spec a b); [now apply U|]. rewrite U by lia. unfold gram. clear. induction l as [|r t IH]; cbn [lsum]; [reflexivity|]. rewrite IH. ring.
Qed.
Lemma lsum_perm {A} (f : A -> Q) l l' : Permutation l l' -> lsum f l == lsum f l'.
Proof. induction 1; cbn [lsum]; [reflexivity|rewrite IHPermutation; reflexivity|ring|etransitivity; eassumption]. Qed.
Theorem accumulate_order l l' s : Permutation l l' -> add_all l new_normal = Some s -> exists s', add_all l' new_normal = Some s' /\ n_obs s' = n_obs s /\ value (n_chi2 s') == value (n_chi2 s) /\
  (forall a b, value (symmetrised (n_matrix s') a b) == value (symmetrised (n_matrix s) a b)) /\ (forall a, value (n_b s' a) == value (n_b s a)).
Proof.
  intros P E. destruct (add_all_ok l _ s fin_new E) as (_ & K & _). destruct (add_all_some l' new_normal fin_new) as (s' & E'). { eapply Permutation_Forall; eassumption. }
  exists s'. split; [assumption|]. destruct (accumulate _ _ E) as (O & C & V & B). destruct (accumulate _ _ E') as (O' & C' & V' & B').
  split; [rewrite O, O'; now rewrite (Permutation_length P)|]. split; [rewrite C, C'; symmetry; now apply lsum_perm|]. split; [intros a b; rewrite V, V'; symmetry; now apply lsum_perm|intros a; rewrite B, B'; symmetry; now apply lsum_perm].
Qed.

(** ** Least squares *)
Definition cost (l : list row_in) (p : vec) : Q := lsum (fun r => wt r * ((res r - dot n (hvec r) p) * (res r - dot n (hvec r) p))) l.
Lemma gram_apply l p a : mulv n (gram l) p a == lsum (fun r => wt r * hvec r a * dot n (hvec r) p) l.
Proof.
  unfold mulv. induction l as [|r t IH]; [cbn; apply sum_zero; intros; cbn; ring|]. cbn [lsum]. rewrite <- IH. unfold dot. rewrite <- sum_scale. unfold gram. cbn [lsum]. rewrite <- sum_add. apply sum_ext. intros; ring.
Qed.
Lemma dot_lsum {A} (f : A -> nat -> Q) l x : dot n x (fun a => lsum (fun r => f r a) l) == lsum (fun r => dot n x (f r)) l.
Proof. induction l as [|r t IH]; [cbn; apply sum_zero; intros; cbn; ring|]. cbn [lsum]. rewrite dot_add_r, IH. reflexivity. Qed.
Lemma lsum_ext {A} (f g : A -> Q) l : (forall x, f x == g x) -> lsum f l == lsum g l.
Proof. intros H. induction l as [|r t IH]; [reflexivity|]. cbn [lsum]. now rewrite H, IH. Qed.
Theorem gram_form l x : form n (gram l) x == lsum (fun r => wt r * (dot n (hvec r) x * dot n (hvec r) x)) l.
Proof.
  unfold form. transitivity (dot n x (fun a => lsum (fun r => wt r * hvec r a * dot n (hvec r) x) l)); [apply dot_ext; [reflexivity|]; intros i _; apply gram_apply|].
  rewrite dot_lsum. apply lsum_ext. intros r. transitivity (dot n x (fun a => wt r * dot n (hvec r) x * hvec r a)); [apply dot_ext; [reflexivity|]; intros; ring|]. rewrite dot_scale_r, (dot_comm n x). ring.
Qed.
Lemma wt_pos r : row_ok n r -> 0 < wt r.
Proof. intros ((q & E & L) & _). unfold wt. rewrite E. cbn. apply Qinv_lt_0_compat. nra. Qed.
Theorem gram_psd l : Forall (row_ok n) l -> psd n (gram l).
Proof.
  intros K x. rewrite gram_form. induction K as [|r t H K IH]; cbn [lsum]; [lra|]. pose proof (wt_pos r H). set (d := dot n (hvec r) x) in *. assert (0 <= d * d) by nra. assert (0 <= wt r * (d * d)) by nra. lra.
Qed.
Theorem normal_solution l p q : (forall a, (a < n)%nat -> mulv n (gram l) p a == rhs l a) -> cost l q == cost l p + form n (gram l) (fun a => q a - p a).
Proof.
  intros N. set (d := fun a => q a - p a). assert (Z : lsum (fun r => wt r * ((res r - dot n (hvec r) p) * dot n (hvec r) d)) l == 0).
  { transitivity (dot n d (fun a => rhs l a - mulv n (gram l) p a)).
    - rewrite dot_sub_r. unfold rhs. rewrite dot_lsum. transitivity (lsum (fun r => dot n d (fun a => wt r * hvec r a * res r)) l - dot n d (fun a => lsum (fun r => wt r * hvec r a * dot n (hvec r) p) l)).
      + rewrite dot_lsum. clear. induction l as [|r t IH]; cbn [lsum]; [ring|]. rewrite IH. 
        assert (A1 : dot n d (fun a => wt r * hvec r a * res r) == wt r * res r * dot n (hvec r) d) by (transitivity (dot n d (fun a => wt r * res r * hvec r a)); [apply dot_ext; [reflexivity|]; intros; ring|rewrite dot_scale_r, (dot_comm n d); reflexivity]).
        assert (A2 : dot n d (fun a => wt r * hvec r a * dot n (hvec r) p) == wt r * dot n (hvec r) p * dot n (hvec r) d) by (transitivity (dot n d (fun a => wt r * dot n (hvec r) p * hvec r a)); [apply dot_ext; [reflexivity|]; intros; ring|rewrite dot_scale_r, (dot_comm n d); reflexivity]).
        rewrite A1, A2. ring.
      + apply Qplus_comp; [reflexivity|]. apply Qopp_comp. apply dot_ext; [reflexivity|]. intros i _. symmetry. apply gram_apply.
    - apply sum_zero. intros i I. rewrite (N i I). ring. }
  rewrite gram_form. unfold cost. assert (E : lsum (fun r => wt r * ((res r - dot n (hvec r) q) * (res r - dot n (hvec r) q))) l ==
    lsum (fun r => wt r * ((res r - dot n (hvec r) p) * (res r - dot n (hvec r) p))) l - 2 * lsum (fun r => wt r * ((res r - dot n (hvec r) p) * dot n (hvec r) d)) l + lsum (fun r => wt r * (dot n (hvec r) d * dot n (hvec r) d)) l).
  { clear Z N. induction l as [|r t IH]; cbn [lsum]; [ring|]. rewrite IH. assert (D : dot n (hvec r) q == dot n (hvec r) p + dot n (hvec r) d) by (unfold d; rewrite dot_sub_r; ring). rewrite D. ring. }
  rewrite E, Z. ring.
Qed.
End Rows.

(** ** The filter *)
Section Filter.
Variable n : nat.
Lemma bad_row_none h i k : bad_row h i k = None <-> forall j, (i <= j < i + k)%nat -> is_finite (h j) = true.
Proof.
  revert i. induction k as [|k IH]; intros i; cbn [bad_row]; [split; [intros; lia|reflexivity]|]. destruct (is_finite (h i)) eqn:F.
  - rewrite IH. split; intros H j J; [destruct (Nat.eq_dec j i) as [->|]; [assumption|apply H; lia]|apply H; lia].
  - split; [discriminate|]. intros H. rewrite H in F by lia. discriminate.
Qed.
Theorem predict_form f mean phi q x : form n (e_cov (predict n f mean phi q)) x == form n (e_cov f) (mulv n (tr phi) x) + match q with Some q => form n q x | None => 0 end.
Proof. unfold predict. cbn [e_cov]. destruct q as [q|]; [rewrite form_add, form_congruence; reflexivity|rewrite form_congruence; ring]. Qed.
Theorem predict_sym f mean phi q : symmetric n (e_cov f) -> match q with Some q => symmetric n q | None => True end -> symmetric n (e_cov (predict n f mean phi q)).
Proof. intros S Q i j I J. unfold predict. cbn [e_cov]. pose proof (congruence_sym n (e_cov f) phi S i j I J) as C. destruct q as [q|]; [rewrite C, (Q i j I J); reflexivity|exact C]. Qed.

Section Update.
Variables (p : mat) (h : vec) (r : Q).
Hypothesis sym : symmetric n p.
Let ph := mulv n p h.
Let s := r + dot n h ph.
Hypothesis pos : 0 < s.
Let k : vec := fun i => ph i / s.
Let ikh : mat := fun i j => id_mat i j - k i * h j.
Lemma ikh_tr x i : (i < n)%nat -> mulv n (tr ikh) x i == x i - h i * dot n k x.
Proof.
  intros I. unfold mulv, tr, ikh. transitivity (sum n (fun j => id_mat j i * x j) - h i * dot n k x).
  - unfold dot. rewrite <- sum_scale. assert (E : forall f g, sum n (fun j => f j - g j) == sum n f - sum n g).
    { intros f g. assert (E : sum n (fun j => f j - g j) == sum n (fun j => f j + (-1) * g j)) by (apply sum_ext; intros; ring). rewrite E, sum_add, sum_scale. ring. }
    rewrite <- E. apply sum_ext. intros; ring.
  - rewrite (sum_one n i); [unfold id_mat; rewrite Nat.eqb_refl; ring|assumption|]. intros j _ N. unfold id_mat. destruct (Nat.eqb_spec j i); [contradiction|ring].
Qed.
(** The Joseph form equals [P - P h (P h)ᵀ / S] entry by entry. *)
Lemma joseph i j : (i < n)%nat -> (j < n)%nat -> mulm n (mulm n ikh p) (tr ikh) i j + r * (k i * k j) == p i j - ph i * ph j / s.
Proof.
  intros I J.
  assert (R : forall a b, (a < n)%nat -> (b < n)%nat -> mulm n ikh p a b == p a b - k a * ph b).
  { intros a b A B. unfold mulm, ikh. transitivity (sum n (fun l => id_mat a l * p l b) - k a * sum n (fun l => p b l * h l)).
    - rewrite <- sum_scale. assert (E : forall f g, sum n (fun j => f j - g j) == sum n f - sum n g).
      { intros f g. assert (E : sum n (fun j => f j - g j) == sum n (fun j => f j + (-1) * g j)) by (apply sum_ext; intros; ring). rewrite E, sum_add, sum_scale. ring. }
      rewrite <- E. apply sum_ext. intros l L. rewrite (sym b l) by assumption. ring.
    - rewrite (sum_one n a); [unfold id_mat; rewrite Nat.eqb_refl; unfold ph, mulv; ring|assumption|]. intros l _ N. unfold id_mat. destruct (Nat.eqb_spec a l); [congruence|ring]. }
  unfold mulm at 1. transitivity (mulv n (tr (tr ikh)) (fun l => mulm n ikh p i l) j + r * (k i * k j)); [apply Qplus_comp; [|reflexivity]; unfold mulv, tr; apply sum_ext; intros; ring|].
  transitivity (mulv n (fun a l => ikh a l) (fun l => p i l - k i * ph l) j + r * (k i * k j)); [apply Qplus_comp; [|reflexivity]; unfold mulv, tr; apply sum_ext; intros l L; rewrite R by assumption; reflexivity|].
  rewrite mulv_sub. assert (Ik : forall x, mulv n (fun a l => ikh a l) x j == x j - k j * dot n h x).
  { intros x. unfold mulv, ikh. transitivity (sum n (fun l => id_mat j l * x l) - k j * dot n h x).
    - unfold dot. rewrite <- sum_scale. assert (E : forall f g, sum n (fun j => f j - g j) == sum n f - sum n g).
      { intros f g. assert (E : sum n (fun j => f j - g j) == sum n (fun j => f j + (-1) * g j)) by (apply sum_ext; intros; ring). rewrite E, sum_add, sum_scale. ring. }
      rewrite <- E. apply sum_ext. intros; ring.
    - rewrite (sum_one n j); [unfold id_mat; rewrite Nat.eqb_refl; ring|assumption|]. intros l _ N. unfold id_mat. destruct (Nat.eqb_spec j l); [congruence|ring]. }
  rewrite !Ik, (dot_scale_r n h (k i) ph). assert (D : dot n h (fun l => p i l) == ph i) by (unfold ph, mulv, dot; apply sum_ext; intros; ring). rewrite D.
  assert (S : dot n h ph == s - r) by (unfold s; ring). rewrite S. unfold k. field. lra.
Qed.
End Update.
Theorem update_ok f hf nu r f' rec : symmetric n (e_cov f) -> update_scalar n f hf nu r = (f', Ok rec) ->
  let h := fun i => value (hf i) in let ph := mulv n (e_cov f) h in let s := value r + dot n h ph in
  0 < s /\ 0 <= value r /\ rec = Innov (value nu) s (value nu * value nu / s) /\
  (forall i, e_mean f' i == e_mean f i + ph i / s * value nu) /\
  (forall i j, (i < n)%nat -> (j < n)%nat -> e_cov f' i j == e_cov f i j - ph i * ph j / s).
Proof.
  intros S E h ph s. unfold update_scalar in E. destruct (is_finite r) eqn:Fr; [|discriminate]. cbn [negb orb] in E. destruct (flt r (Fin 0)) eqn:L; [discriminate|]. destruct (is_finite nu); [|discriminate]. cbn [negb] in E. destruct (bad_row hf 0 n); [discriminate|].
  fold h in E. fold ph in E. fold s in E. destruct (qltb_r 0 s) as [P|P]; [|discriminate]. cbn [negb] in E. injection E as <- <-. split; [assumption|].
  split. { rewrite (fin_val r Fr) in L. unfold flt in L. cbn in L. destruct (Qle_bool 0 (value r)) eqn:B; [now apply Qle_bool_iff|discriminate]. }
  split; [reflexivity|]. split; [intros i; cbn; reflexivity|]. intros i j I J. cbn [e_cov]. unfold sym_mean. pose proof (joseph (e_cov f) h (value r) S P) as Jo. fold ph in Jo. fold s in Jo.
  destruct (Nat.eqb_spec i j) as [->|Nij]; [apply Jo; assumption|].
  assert (Lo : (Nat.min i j < n)%nat) by lia. assert (Hi : (Nat.max i j < n)%nat) by lia. etransitivity; [apply Qmult_comp; [reflexivity|apply Qplus_comp; [exact (Jo _ _ Lo Hi)|exact (Jo _ _ Hi Lo)]]|]. rewrite (S (Nat.max i j) (Nat.min i j)) by assumption.
  destruct (Nat.min_spec i j) as [[A ->]|[A ->]], (Nat.max_spec i j) as [[B ->]|[B ->]]; try lia; [|rewrite (S j i) by assumption]; field; lra.
Qed.
Theorem update_form f hf nu r f' rec x : symmetric n (e_cov f) -> update_scalar n f hf nu r = (f', Ok rec) ->
  form n (e_cov f') x == form n (e_cov f) x - (dot n x (mulv n (e_cov f) (fun i => value (hf i)))) * (dot n x (mulv n (e_cov f) (fun i => value (hf i)))) / i_variance rec.
Proof.
  intros S E. destruct (update_ok f hf nu r f' rec S E) as (P & _ & -> & _ & C). set (h := fun i => value (hf i)) in *. set (ph := mulv n (e_cov f) h) in *. set (s := value r + dot n h ph) in *. cbn [i_variance].
  transitivity (form n (fun i j => e_cov f i j + (- / s) * (ph i * ph j)) x); [apply form_ext; [|reflexivity]; intros i j I J; rewrite C by assumption; field; lra|]. rewrite form_add, form_rank1, (dot_comm n x ph). field. lra.
Qed.
Theorem update_sym f hf nu r f' rec : symmetric n (e_cov f) -> update_scalar n f hf nu r = (f', Ok rec) -> symmetric n (e_cov f').
Proof. intros S E i j I J. destruct (update_ok f hf nu r f' rec S E) as (P & _ & _ & _ & C). rewrite !C, (S i j) by assumption. field. lra. Qed.
Theorem update_psd f hf nu r f' rec : symmetric n (e_cov f) -> psd n (e_cov f) -> update_scalar n f hf nu r = (f', Ok rec) -> psd n (e_cov f').
Proof.
  intros S Pd E x. rewrite (update_form f hf nu r f' rec x S E). destruct (update_ok f hf nu r f' rec S E) as (P & R & -> & _ & C). cbn [i_variance]. set (h := fun i => value (hf i)) in *. set (ph := mulv n (e_cov f) h) in *. set (d := dot n h ph) in *.
  set (c := dot n x ph) in *. set (s := value r + d) in *.
  (* the form at x - (c/s) h *)
  assert (F : 0 <= form n (e_cov f) (fun i => x i - (c / s) * h i)) by apply Pd.
  assert (E1 : form n (e_cov f) (fun i => x i - (c / s) * h i) == form n (e_cov f) x - 2 * (c / s) * c + (c / s) * (c / s) * d).
  { unfold form. transitivity (dot n (fun i => x i - (c / s) * h i) (fun i => mulv n (e_cov f) x i - (c / s) * ph i)).
    - apply dot_ext; [reflexivity|]. intros i _. rewrite mulv_sub, mulv_scale. reflexivity.
    - rewrite dot_sub_r, dot_scale_r, !(dot_comm n (fun i => x i - (c / s) * h i)), !dot_sub_r, !dot_scale_r. rewrite !(dot_comm n _ h), !(dot_comm n _ x). fold c. fold d. rewrite (sym_dot n (e_cov f) h x S). fold ph. fold c. ring. }
  rewrite E1 in F. assert (D : d == s - value r) by (unfold s; ring). rewrite D in F.
  assert (G : form n (e_cov f) x - 2 * (c / s) * c + c / s * (c / s) * (s - value r) == form n (e_cov f) x - c * c / s - (c / s) * (c / s) * value r) by (field; lra). rewrite G in F. assert (0 <= (c / s) * (c / s) * value r) by (apply Qmult_le_0_compat; [nra|assumption]). lra.
Qed.
Theorem update_shrinks f hf nu r f' rec x : symmetric n (e_cov f) -> update_scalar n f hf nu r = (f', Ok rec) -> form n (e_cov f') x <= form n (e_cov f) x.
Proof.
  intros S E. rewrite (update_form f hf nu r f' rec x S E). destruct (update_ok f hf nu r f' rec S E) as (P & _ & -> & _). cbn [i_variance]. set (c := dot n x _) in *. set (s := value r + _) in *.
  assert (0 <= c * c / s) by (apply Qle_shift_div_l; [assumption|nra]). lra.
Qed.
Theorem update_reject f hf nu r f' e : update_scalar n f hf nu r = (f', Err e) -> f' = f.
Proof.
  unfold update_scalar. destruct (negb (is_finite r) || flt r (Fin 0)); [congruence|]. destruct (negb (is_finite nu)); [congruence|]. destruct (bad_row hf 0 n); [congruence|]. cbv zeta. destruct (negb (qltb 0 _)); [congruence|discriminate].
Qed.
End Filter.
