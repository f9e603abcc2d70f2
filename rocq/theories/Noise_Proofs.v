(** Proofs about process noise: the matrix of a model, the semi-definiteness
    test, and the piecewise schedule. *)
From Coq Require Import List PeanoNat Bool Lia Reals Lra Psatz.
From Verif Require Import Base Noise_Model.
Import ListNotations.
Local Open Scope R_scope.

(** * Sums *)
Lemma sumn_ext k f g : (forall i, (i < k)%nat -> f i = g i) -> sumn k f = sumn k g.
Proof. induction k as [|k IH]; intros H; cbn; [reflexivity|]. rewrite IH by (intros; apply H; lia). now rewrite H by lia. Qed.
Lemma sumn_add k f g : sumn k (fun i => f i + g i) = sumn k f + sumn k g.
Proof. induction k as [|k IH]; cbn; [ring|]. rewrite IH. ring. Qed.
Lemma sumn_scale k c f : sumn k (fun i => c * f i) = c * sumn k f.
Proof. induction k as [|k IH]; cbn; [ring|]. rewrite IH. ring. Qed.
Lemma sumn_scale_r k c f : sumn k (fun i => f i * c) = sumn k f * c.
Proof. induction k as [|k IH]; cbn; [ring|]. rewrite IH. ring. Qed.
Lemma sumn_zero k f : (forall i, (i < k)%nat -> f i = 0) -> sumn k f = 0.
Proof. induction k as [|k IH]; intros H; cbn; [reflexivity|]. rewrite IH by (intros; apply H; lia). rewrite H by lia. ring. Qed.
Lemma sumn_swap n m f : sumn n (fun i => sumn m (fun j => f i j)) = sumn m (fun j => sumn n (fun i => f i j)).
Proof. induction n as [|n IH]; cbn; [symmetry; now apply sumn_zero|]. now rewrite IH, sumn_add. Qed.
Lemma sumn_nonneg k f : (forall i, (i < k)%nat -> 0 <= f i) -> 0 <= sumn k f.
Proof. induction k as [|k IH]; intros H; cbn; [lra|]. assert (0 <= sumn k f) by (apply IH; intros; apply H; lia). pose proof (H k ltac:(lia)). lra. Qed.
Lemma sumn_le k f g : (forall i, (i < k)%nat -> f i <= g i) -> sumn k f <= sumn k g.
Proof. induction k as [|k IH]; intros H; cbn; [lra|]. assert (sumn k f <= sumn k g) by (apply IH; intros; apply H; lia). pose proof (H k ltac:(lia)). lra. Qed.
Lemma sumn_one n k f : (k < n)%nat -> (forall i, (i < n)%nat -> i <> k -> f i = 0) -> sumn n f = f k.
Proof.
  induction n as [|n IH]; intros L H; [lia|]. cbn. destruct (Nat.eq_dec k n) as [->|N].
  - rewrite sumn_zero by (intros; apply H; lia). ring.
  - rewrite IH by (try lia; intros; apply H; lia). rewrite (H n) by lia. ring.
Qed.
Lemma sumn_mul n m f g : sumn n f * sumn m g = sumn n (fun i => sumn m (fun j => f i * g j)).
Proof. rewrite <- sumn_scale_r. apply sumn_ext. intros. symmetry. apply sumn_scale. Qed.
Lemma sumn_abs k f : Rabs (sumn k f) <= sumn k (fun i => Rabs (f i)).
Proof. induction k as [|k IH]; cbn; [rewrite Rabs_R0; lra|]. eapply Rle_trans; [apply Rabs_triang|]. lra. Qed.
Lemma sumn_split n k f : (k <= n)%nat -> sumn n f = sumn k f + sumn (n - k) (fun i => f (k + i)%nat).
Proof.
  intros L. replace n with (k + (n - k))%nat at 1 by lia. generalize (n - k)%nat as d. intros d. induction d as [|d IH]; [rewrite Nat.add_0_r; cbn; ring|].
  rewrite Nat.add_succ_r. cbn. rewrite IH. ring.
Qed.

(** The quadratic form of the leading n x n part. *)
Definition form (n : nat) (A : mat) (x : nat -> R) : R := sumn n (fun i => sumn n (fun j => x i * A i j * x j)).
Definition symmetric (n : nat) (A : mat) : Prop := forall i j, (i < n)%nat -> (j < n)%nat -> A i j = A j i.
Definition psd (n : nat) (A : mat) : Prop := forall x, 0 <= form n A x.

Lemma form_ext n A B x y : (forall i j, (i < n)%nat -> (j < n)%nat -> A i j = B i j) -> (forall i, (i < n)%nat -> x i = y i) -> form n A x = form n B y.
Proof. intros E F. unfold form. apply sumn_ext. intros i Hi. apply sumn_ext. intros j Hj. now rewrite E, !F. Qed.

(** * Acceptance *)
Definition nonneg (x : rnum) : Prop := exists r, x = RF r /\ 0 <= r.
Definition positive (x : rnum) : Prop := exists r, x = RF r /\ 0 < r.
Definition all3 (P : rnum -> Prop) (v : rnum * rnum * rnum) : Prop := let '(a, b, c) := v in P a /\ P b /\ P c.
Definition gm_good (g : gauss_markov) : Prop := nonneg (g_sigma g) /\ positive (g_tau g).
Definition if_some {A} (P : A -> Prop) (x : option A) : Prop := match x with Some a => P a | None => True end.
Definition good (m : noise) : Prop := all3 nonneg (n_psd m) /\ if_some gm_good (n_drag m) /\ if_some gm_good (n_srp m) /\ if_some (all3 nonneg) (n_emp m).

Lemma nonneg_dec x : (below0 x || negb (finite x) = false -> nonneg x) /\ (below0 x || negb (finite x) = true -> ~ nonneg x).
Proof.
  split; destruct x as [r|g|]; cbn; try destruct g; cbn; try discriminate.
  - destruct (Rlt_dec r 0); [discriminate|]. intros _. exists r. split; [reflexivity|lra].
  - destruct (Rlt_dec r 0); [|discriminate]. intros _ (y & E & G). injection E as <-. lra.
  - intros _ (y & E & _). discriminate.
  - intros _ (y & E & _). discriminate.
  - intros _ (y & E & _). discriminate.
Qed.
Lemma positive_dec x : (atmost0 x || negb (finite x) = false -> positive x) /\ (atmost0 x || negb (finite x) = true -> ~ positive x).
Proof.
  split; destruct x as [r|g|]; cbn; try destruct g; cbn; try discriminate.
  - destruct (Rle_dec r 0); [discriminate|]. intros _. exists r. split; [reflexivity|lra].
  - destruct (Rle_dec r 0); [|discriminate]. intros _ (y & E & G). injection E as <-. lra.
  - intros _ (y & E & _). discriminate.
  - intros _ (y & E & _). discriminate.
  - intros _ (y & E & _). discriminate.
Qed.
Lemma nonneg_check x : nonneg x -> below0 x || negb (finite x) = false.
Proof. intros H. destruct (below0 x || negb (finite x)) eqn:E; [|reflexivity]. now apply nonneg_dec in E. Qed.
Lemma positive_check x : positive x -> atmost0 x || negb (finite x) = false.
Proof. intros H. destruct (atmost0 x || negb (finite x)) eqn:E; [|reflexivity]. now apply positive_dec in E. Qed.

(** The variance of a first-order Gauss-Markov term. *)
Definition gm_var (g : gauss_markov) (t : R) : R := rv (g_sigma g) ^ 2 * (1 - exp (-2 * t / rv (g_tau g))).

Lemma variance_ok g t : gm_good g -> variance_after g t = Ok (gm_var g t).
Proof. intros (A & B). unfold variance_after. rewrite (nonneg_check _ A), (positive_check _ B). unfold gm_var. f_equal. ring. Qed.
Lemma variance_good g t v : variance_after g t = Ok v -> gm_good g.
Proof.
  unfold variance_after. destruct (below0 _ || _) eqn:E; [discriminate|]. destruct (atmost0 _ || _) eqn:F; [discriminate|].
  intros _. split; [now apply nonneg_dec|now apply positive_dec].
Qed.
Lemma gm_var_nonneg g t : gm_good g -> 0 <= t -> 0 <= gm_var g t.
Proof.
  intros (_ & r & E & P) T. unfold gm_var. rewrite E. cbn [rv]. apply Rmult_le_pos; [apply pow2_ge_0|].
  assert (-2 * t / r <= 0). { unfold Rdiv. assert (0 < / r) by now apply Rinv_0_lt_compat. nra. }
  assert (exp (-2 * t / r) <= exp 0). { destruct (Req_dec (-2 * t / r) 0) as [->|N]; [lra|]. left. apply exp_increasing. lra. }
  rewrite exp_0 in *. lra.
Qed.

(** The entries of the matrix of an accepted model. *)
Definition srp_at (m : noise) : nat := (6 + one_if (n_drag m))%nat.
Definition emp_at (m : noise) : nat := (6 + one_if (n_drag m) + one_if (n_srp m))%nat.

(** What the layout promises: the cells that carry noise and their values. *)
Inductive cell (m : noise) (t : R) : nat -> nat -> R -> Prop :=
| c_pos i : (i < 3)%nat -> cell m t i i (rv (pick (n_psd m) i) * t ^ 3 / 3)
| c_vel i : (i < 3)%nat -> cell m t (3 + i) (3 + i) (rv (pick (n_psd m) i) * t)
| c_pos_vel i : (i < 3)%nat -> cell m t i (3 + i) (rv (pick (n_psd m) i) * t ^ 2 / 2)
| c_vel_pos i : (i < 3)%nat -> cell m t (3 + i) i (rv (pick (n_psd m) i) * t ^ 2 / 2)
| c_drag g : n_drag m = Some g -> cell m t 6 6 (gm_var g t)
| c_srp g : n_srp m = Some g -> cell m t (srp_at m) (srp_at m) (gm_var g t)
| c_emp e k : n_emp m = Some e -> (k < 3)%nat -> cell m t (emp_at m + k) (emp_at m + k) (rv (pick e k) ^ 2 * t).

Lemma put_in n i j v q : (i < n)%nat -> (j < n)%nat -> put n i j v q = Ok (set_at q i j v).
Proof. intros A B. unfold put. apply Nat.ltb_lt in A, B. now rewrite A, B. Qed.

Lemma axis_ok n m t i q : (6 <= n)%nat -> (i < 3)%nat -> nonneg (pick (n_psd m) i) ->
  axis n m t i q = Ok (set_at (set_at (set_at (set_at q i i (rv (pick (n_psd m) i) * (t * t * t) / 3)) (3 + i) (3 + i) (rv (pick (n_psd m) i) * t)) i (3 + i) (rv (pick (n_psd m) i) * (t * t) / 2)) (3 + i) i (rv (pick (n_psd m) i) * (t * t) / 2)).
Proof. intros A B C. unfold axis. rewrite (nonneg_check _ C). cbv zeta. rewrite !put_in by lia. cbn [obind]. rewrite put_in by lia. cbn [obind]. rewrite put_in by lia. cbn [obind]. rewrite put_in by lia. reflexivity. Qed.

Lemma emp_axis_ok n e t idx k q : (idx + k < n)%nat -> nonneg (pick e k) -> emp_axis n e t idx k q = Ok (set_at q (idx + k) (idx + k) (rv (pick e k) * rv (pick e k) * t)).
Proof. intros A C. unfold emp_axis. rewrite (nonneg_check _ C). now apply put_in. Qed.
Lemma all3_pick P v i : all3 P v -> P (pick v i).
Proof. destruct v as ((a, b), c). intros (A & B & C). destruct i as [|[|i]]; assumption. Qed.

(** The matrix written cell by cell. *)
Definition axis_at (m : noise) (t : R) (i : nat) (q : mat) : mat :=
  set_at (set_at (set_at (set_at q i i (rv (pick (n_psd m) i) * (t * t * t) / 3)) (3 + i) (3 + i) (rv (pick (n_psd m) i) * t)) i (3 + i) (rv (pick (n_psd m) i) * (t * t) / 2)) (3 + i) i (rv (pick (n_psd m) i) * (t * t) / 2).
Definition opt_at (o : option gauss_markov) (t : R) (i : nat) (q : mat) : mat := match o with Some g => set_at q i i (gm_var g t) | None => q end.
Definition emp_put (e : rnum * rnum * rnum) (t : R) (i k : nat) (q : mat) : mat := set_at q (i + k) (i + k) (rv (pick e k) * rv (pick e k) * t).
Definition emps_at (o : option (rnum * rnum * rnum)) (t : R) (i : nat) (q : mat) : mat := match o with Some e => emp_put e t i 2 (emp_put e t i 1 (emp_put e t i 0 q)) | None => q end.
Definition written (m : noise) (t : R) : mat :=
  emps_at (n_emp m) t (emp_at m) (opt_at (n_srp m) t (srp_at m) (opt_at (n_drag m) t 6 (axis_at m t 2 (axis_at m t 1 (axis_at m t 0 zeros))))).

Lemma q_matrix_ok m t : good m -> 0 <= t -> q_matrix m (RF t) = Ok (dim m, written m t).
Proof.
  intros (A & B & C & D) T. unfold q_matrix. rewrite nonneg_check by (exists t; auto). cbn [rv].
  assert (N : (6 <= dim m)%nat) by (unfold dim; lia).
  rewrite axis_ok by (try lia; now apply all3_pick). cbn [obind]. rewrite axis_ok by (try lia; now apply all3_pick). cbn [obind]. rewrite axis_ok by (try lia; now apply all3_pick). cbn [obind].
  assert (EA : emp_at m = (6 + one_if (n_drag m) + one_if (n_srp m))%nat) by reflexivity.
  assert (SA : srp_at m = (6 + one_if (n_drag m))%nat) by reflexivity.
  assert (DM : dim m = (6 + one_if (n_drag m) + one_if (n_srp m) + match n_emp m with Some _ => 3 | None => 0 end)%nat) by reflexivity.
  unfold written. rewrite EA, SA. set (n := dim m) in *. clearbody n. clear EA SA.
  set (q := axis_at m t 2 (axis_at m t 1 (axis_at m t 0 zeros))).
  match goal with |- context[(6%nat, ?x)] => change x with q end. clearbody q.
  assert (S1 : scale_term n (n_drag m) t (6%nat, q) = Ok ((6 + one_if (n_drag m))%nat, opt_at (n_drag m) t 6 q)).
  { destruct (n_drag m) as [g|]; [|reflexivity]. cbn [scale_term one_if] in *. rewrite (variance_ok g t B). cbn [obind]. rewrite put_in by lia. reflexivity. }
  rewrite S1. cbn [obind]. clear S1. set (q1 := opt_at (n_drag m) t 6 q). clearbody q1.
  set (i := (6 + one_if (n_drag m))%nat) in *. clearbody i.
  assert (S1 : scale_term n (n_srp m) t (i, q1) = Ok ((i + one_if (n_srp m))%nat, opt_at (n_srp m) t i q1)).
  { destruct (n_srp m) as [g|]; [|cbn [scale_term one_if]; now rewrite Nat.add_0_r]. cbn [scale_term one_if] in *. rewrite (variance_ok g t C). cbn [obind]. rewrite put_in by lia. cbn [obind]. now rewrite Nat.add_1_r. }
  rewrite S1. cbn [obind]. clear S1. set (q2 := opt_at (n_srp m) t i q1). clearbody q2. set (k := (i + one_if (n_srp m))%nat) in *. clearbody k.
  destruct (n_emp m) as [e|]; [|reflexivity]. cbn [if_some] in D.
  rewrite emp_axis_ok by (try lia; now apply all3_pick). cbn [obind]. rewrite emp_axis_ok by (try lia; now apply all3_pick). cbn [obind]. rewrite emp_axis_ok by (try lia; now apply all3_pick). reflexivity.
Qed.

Lemma axis_good n m t i q q' : axis n m t i q = Ok q' -> nonneg (pick (n_psd m) i).
Proof. unfold axis. destruct (below0 _ || _) eqn:E; [discriminate|]. intros _. now apply nonneg_dec. Qed.
Lemma scale_good n g t st st' : scale_term n g t st = Ok st' -> if_some gm_good g.
Proof. destruct st as (i, q). destruct g as [g|]; [|exact (fun _ => I)]. cbn. destruct (variance_after g t) eqn:E; try discriminate. intros _. eapply variance_good; eassumption. Qed.
Lemma emp_good n e t i k q q' : emp_axis n e t i k q = Ok q' -> nonneg (pick e k).
Proof. unfold emp_axis. destruct (below0 _ || _) eqn:E; [discriminate|]. intros _. now apply nonneg_dec. Qed.

(** Exactly the sensible models and steps are accepted. *)
Theorem q_matrix_accepts m dt : (exists r, q_matrix m dt = Ok r) <-> nonneg dt /\ good m.
Proof.
  split.
  - intros (r & H). unfold q_matrix in H. destruct (below0 dt || negb (finite dt)) eqn:E; [discriminate|]. apply nonneg_dec in E. split; [exact E|].
    destruct (axis (dim m) m (rv dt) 0 zeros) as [q0| |] eqn:A0; try discriminate. cbn [obind] in H.
    destruct (axis (dim m) m (rv dt) 1 q0) as [q1| |] eqn:A1; try discriminate. cbn [obind] in H.
    destruct (axis (dim m) m (rv dt) 2 q1) as [q2| |] eqn:A2; try discriminate. cbn [obind] in H.
    destruct (scale_term (dim m) (n_drag m) (rv dt) (6%nat, q2)) as [s1| |] eqn:A3; try discriminate. cbn [obind] in H.
    destruct (scale_term (dim m) (n_srp m) (rv dt) s1) as [(i, q3)| |] eqn:A4; try discriminate. cbn [obind] in H.
    apply axis_good in A0, A1, A2. apply scale_good in A3, A4. split; [|split; [exact A3|split; [exact A4|]]].
    + destruct (n_psd m) as ((a, b), c). exact (conj A0 (conj A1 A2)).
    + destruct (n_emp m) as [e|]; [|exact I]. cbn.
      destruct (emp_axis (dim m) e (rv dt) i 0 q3) as [p0| |] eqn:P0; try discriminate. cbn [obind] in H.
      destruct (emp_axis (dim m) e (rv dt) i 1 p0) as [p1| |] eqn:P1; try discriminate. cbn [obind] in H.
      destruct (emp_axis (dim m) e (rv dt) i 2 p1) as [p2| |] eqn:P2; try discriminate.
      apply emp_good in P0, P1, P2. destruct e as ((a, b), c). exact (conj P0 (conj P1 P2)).
  - intros ((t & -> & T) & G). eexists. now apply q_matrix_ok.
Qed.
Theorem q_matrix_value m dt n q : q_matrix m dt = Ok (n, q) -> exists t, dt = RF t /\ 0 <= t /\ good m /\ n = dim m /\ q = written m t.
Proof.
  intros H. destruct (proj1 (q_matrix_accepts m dt) (ex_intro _ _ H)) as ((t & -> & T) & G). exists t. rewrite (q_matrix_ok m t G T) in H. injection H as <- <-. auto.
Qed.
Theorem q_matrix_no_panic m dt : q_matrix m dt <> Panic.
Proof.
  unfold q_matrix. destruct (below0 dt || negb (finite dt)); [discriminate|].
  assert (N : (6 <= dim m)%nat) by (unfold dim; lia).
  assert (AX : forall i q, (i < 3)%nat -> axis (dim m) m (rv dt) i q <> Panic).
  { intros i q L. destruct (below0 (pick (n_psd m) i) || negb (finite (pick (n_psd m) i))) eqn:E; [unfold axis; now rewrite E|]. rewrite axis_ok by (try lia; now apply nonneg_dec). discriminate. }
  destruct (axis (dim m) m (rv dt) 0 zeros) as [q0| |] eqn:A0; [|discriminate|exact (fun _ => AX 0%nat zeros ltac:(lia) A0)]. cbn [obind].
  destruct (axis (dim m) m (rv dt) 1 q0) as [q1| |] eqn:A1; [|discriminate|exact (fun _ => AX 1%nat q0 ltac:(lia) A1)]. cbn [obind].
  destruct (axis (dim m) m (rv dt) 2 q1) as [q2| |] eqn:A2; [|discriminate|exact (fun _ => AX 2%nat q1 ltac:(lia) A2)]. cbn [obind].
  assert (NP : forall g, variance_after g (rv dt) <> Panic). { intros g. unfold variance_after. destruct (below0 _ || _); [discriminate|]. destruct (atmost0 _ || _); discriminate. }
  assert (SC : forall o i q, (i + one_if o <= dim m)%nat -> match scale_term (dim m) o (rv dt) (i, q) with Ok (j, _) => j = (i + one_if o)%nat | Err _ => True | Panic => False end).
  { intros o i q L. destruct o as [g|]; cbn [scale_term one_if] in *; [|lia]. destruct (variance_after g (rv dt)) eqn:V; cbn [obind]; [|exact I|now apply NP in V]. rewrite put_in by lia. cbn [obind]. lia. }
  pose proof (SC (n_drag m) 6%nat q2 ltac:(unfold dim; lia)) as S1. destruct (scale_term (dim m) (n_drag m) (rv dt) (6%nat, q2)) as [(i, q3)| |]; [|discriminate|contradiction]. cbn [obind].
  pose proof (SC (n_srp m) i q3 ltac:(unfold dim; lia)) as S2. destruct (scale_term (dim m) (n_srp m) (rv dt) (i, q3)) as [(j, q4)| |]; [|discriminate|contradiction]. cbn [obind].
  destruct (n_emp m) as [e|] eqn:EM; [|discriminate].
  assert (EX : forall k q, (k < 3)%nat -> emp_axis (dim m) e (rv dt) j k q <> Panic). { intros k q L. unfold emp_axis. destruct (below0 _ || _); [discriminate|]. rewrite put_in by (unfold dim; rewrite EM; lia). discriminate. }
  destruct (emp_axis (dim m) e (rv dt) j 0 q4) as [p0| |] eqn:P0; [|discriminate|exact (fun _ => EX 0%nat q4 ltac:(lia) P0)]. cbn [obind].
  destruct (emp_axis (dim m) e (rv dt) j 1 p0) as [p1| |] eqn:P1; [|discriminate|exact (fun _ => EX 1%nat p0 ltac:(lia) P1)]. cbn [obind].
  destruct (emp_axis (dim m) e (rv dt) j 2 p1) as [p2| |] eqn:P2; [|discriminate|exact (fun _ => EX 2%nat p1 ltac:(lia) P2)]. discriminate.
Qed.

(** * Layout *)
Ltac places := unfold written, emps_at, emp_put, opt_at, axis_at, emp_at, srp_at; cbn [one_if Nat.add].
Lemma written_cell m t a b v : cell m t a b v -> written m t a b = v.
Proof.
  destruct m as [p d s e]. unfold written, emp_at, srp_at. intros H. inversion H; subst; unfold srp_at, emp_at in *; cbn [n_psd n_drag n_srp n_emp] in *;
    repeat match goal with L : (?i < 3)%nat |- _ => first [destruct i as [|[|[|i]]]; [| | |exfalso; lia]; clear L] end;
    destruct d, s, e; try discriminate; repeat match goal with E : Some _ = Some _ |- _ => injection E as <- end; unfold emps_at, emp_put, opt_at, axis_at, set_at; cbn [one_if Nat.add Nat.eqb andb]; cbn [n_psd]; field.
Qed.
Lemma written_zero m t a b : (forall v, ~ cell m t a b v) -> written m t a b = 0.
Proof.
  intros H. unfold written.
  assert (S : forall q i j v, (exists w, cell m t i j w) -> set_at q i j v a b = q a b).
  { intros q i j v (w & W). unfold set_at. destruct (Nat.eqb_spec a i) as [->|]; [|reflexivity]. destruct (Nat.eqb_spec b j) as [->|]; [|reflexivity]. now apply H in W. }
  assert (X : forall i q, (i < 3)%nat -> axis_at m t i q a b = q a b).
  { intros i q L. unfold axis_at. rewrite !S; try reflexivity; eexists; first [exact (c_pos m t i L)|exact (c_vel m t i L)|exact (c_pos_vel m t i L)|exact (c_vel_pos m t i L)]. }
  assert (E : forall e k q, n_emp m = Some e -> (k < 3)%nat -> emp_put e t (emp_at m) k q a b = q a b).
  { intros e k q N L. unfold emp_put. apply S. eexists. exact (c_emp m t e k N L). }
  unfold emps_at. destruct (n_emp m) as [e|] eqn:N; [rewrite !(E e) by (try reflexivity; lia)|];
    (unfold opt_at at 1; destruct (n_srp m) as [g|] eqn:N1; [rewrite S by (eexists; exact (c_srp m t g N1))|];
     (unfold opt_at; destruct (n_drag m) as [g'|] eqn:N2; [rewrite S by (eexists; exact (c_drag m t g' N2))|]; now rewrite !X by lia)).
Qed.

(** * The form of the matrix *)
Definition emp_form (o : option (rnum * rnum * rnum)) (t : R) (i : nat) (x : nat -> R) : R :=
  match o with Some e => sumn 3 (fun k => rv (pick e k) ^ 2 * t * x (i + k)%nat ^ 2) | None => 0 end.
Definition gm_form (o : option gauss_markov) (t : R) (i : nat) (x : nat -> R) : R := match o with Some g => gm_var g t * x i ^ 2 | None => 0 end.
Definition pv_form (m : noise) (t : R) (x : nat -> R) : R :=
  sumn 3 (fun i => rv (pick (n_psd m) i) * (t ^ 3 / 3 * x i ^ 2 + t ^ 2 * (x i * x (3 + i)%nat) + t * x (3 + i)%nat ^ 2)).
Lemma written_form m t x : form (dim m) (written m t) x = pv_form m t x + gm_form (n_drag m) t 6 x + gm_form (n_srp m) t (srp_at m) x + emp_form (n_emp m) t (emp_at m) x.
Proof.
  destruct m as [p d s e]. unfold form, dim, written, emp_at, srp_at, pv_form, gm_form, emp_form. cbn [n_psd n_drag n_srp n_emp].
  destruct d, s, e; cbn [one_if Nat.add sumn]; unfold emps_at, emp_put, opt_at, axis_at, set_at; cbn [one_if Nat.add Nat.eqb andb]; cbn [n_psd]; unfold zeros; field.
Qed.
Lemma written_sym m t : forall a b, written m t a b = written m t b a.
Proof.
  intros a b. destruct m as [p d s e]. unfold written. 
  assert (D : forall q i v, q a b = q b a -> set_at q i i v a b = set_at q i i v b a). { intros q i v H. unfold set_at. rewrite (andb_comm (b =? i)%nat). destruct ((a =? i) && (b =? i))%bool%nat; auto. }
  assert (X : forall i q, q a b = q b a -> axis_at {| n_psd := p; n_drag := d; n_srp := s; n_emp := e |} t i q a b = axis_at {| n_psd := p; n_drag := d; n_srp := s; n_emp := e |} t i q b a).
  { intros i q H. unfold axis_at. set (v := _ * (t * t) / 2). 
    match goal with |- set_at (set_at ?Q _ _ _) _ _ _ _ _ = _ => assert (H1 : Q a b = Q b a) by (now apply D, D); generalize dependent Q end. intros Q H1.
    unfold set_at. destruct (Nat.eqb_spec a (3 + i)), (Nat.eqb_spec b i), (Nat.eqb_spec a i), (Nat.eqb_spec b (3 + i)); cbn [andb]; congruence. }
  unfold emps_at, emp_put, opt_at. cbn [n_psd n_drag n_srp n_emp]. destruct e, s, d; repeat apply D; repeat apply X; reflexivity.
Qed.

Lemma pv_form_nonneg m t x : all3 nonneg (n_psd m) -> 0 <= t -> 0 <= pv_form m t x.
Proof.
  intros A T. unfold pv_form. apply sumn_nonneg. intros i _. destruct (all3_pick _ _ i A) as (r & -> & R0). cbn [rv]. apply Rmult_le_pos; [exact R0|].
  replace (t ^ 3 / 3 * x i ^ 2 + t ^ 2 * (x i * x (3 + i)%nat) + t * x (3 + i)%nat ^ 2) with (t * ((x (3 + i)%nat + t * x i / 2) ^ 2 + t ^ 2 * x i ^ 2 / 12)) by field.
  apply Rmult_le_pos; [exact T|]. pose proof (pow2_ge_0 (x (3 + i)%nat + t * x i / 2)). pose proof (pow2_ge_0 (t * x i)). nra.
Qed.
Theorem written_psd m t : good m -> 0 <= t -> psd (dim m) (written m t).
Proof.
  intros (A & B & C & D) T x. rewrite written_form.
  pose proof (pv_form_nonneg m t x A T).
  assert (G : forall o i, if_some gm_good o -> 0 <= gm_form o t i x). { intros [g|] i H1; cbn; [|lra]. apply Rmult_le_pos; [now apply gm_var_nonneg|]. pose proof (pow2_ge_0 (x i)). cbn in *. lra. }
  pose proof (G _ 6%nat B). pose proof (G _ (srp_at m) C).
  assert (0 <= emp_form (n_emp m) t (emp_at m) x).
  { unfold emp_form. destruct (n_emp m) as [e|]; [|lra]. apply sumn_nonneg. intros k _. apply Rmult_le_pos; [apply Rmult_le_pos; [apply pow2_ge_0|exact T]|apply pow2_ge_0]. }
  lra.
Qed.

(** * Two steps in a row *)
(** The transition over a time [t] of the state that the noise drives: velocity
    moves position, a Gauss-Markov scale decays by exp(-t/tau), an empirical
    acceleration stays. This is the transpose applied to a combination of the
    state components. *)
Definition decay (g : gauss_markov) (t : R) : R := exp (- t / rv (g_tau g)).
Definition carried (m : noise) (t : R) (x : nat -> R) : nat -> R := fun i =>
  if (i <? 3)%nat then x i
  else if (i <? 6)%nat then x i + t * x (i - 3)%nat
  else match n_drag m with
       | Some g => if (i =? 6)%nat then decay g t * x i else match n_srp m with Some h => if (i =? 7)%nat then decay h t * x i else x i | None => x i end
       | None => match n_srp m with Some h => if (i =? 6)%nat then decay h t * x i else x i | None => x i end
       end.
Lemma gm_var_add g s t : gm_var g (s + t) = decay g t ^ 2 * gm_var g s + gm_var g t.
Proof.
  unfold gm_var, decay. replace (exp (- t / rv (g_tau g)) ^ 2) with (exp (-2 * t / rv (g_tau g))).
  - replace (-2 * (s + t) / rv (g_tau g)) with (-2 * t / rv (g_tau g) + -2 * s / rv (g_tau g)) by (unfold Rdiv; ring). rewrite exp_plus. ring.
  - cbn [pow]. rewrite Rmult_1_r, <- exp_plus. f_equal. unfold Rdiv. ring.
Qed.
Theorem written_add m s t x : form (dim m) (written m (s + t)) x = form (dim m) (written m s) (carried m t x) + form (dim m) (written m t) x.
Proof.
  rewrite !written_form. unfold pv_form. cbn [sumn].
  assert (P : forall i, (i < 3)%nat -> carried m t x i = x i /\ carried m t x (3 + i)%nat = x (3 + i)%nat + t * x i).
  { intros i L. unfold carried. destruct (Nat.ltb_spec i 3); [|lia]. split; [reflexivity|]. destruct (Nat.ltb_spec (3 + i) 3); [lia|]. destruct (Nat.ltb_spec (3 + i) 6); [|lia]. do 3 f_equal. lia. }
  destruct (P 0%nat ltac:(lia)) as (-> & ->), (P 1%nat ltac:(lia)) as (-> & ->), (P 2%nat ltac:(lia)) as (-> & ->). clear P.
  assert (D : gm_form (n_drag m) (s + t) 6 x = gm_form (n_drag m) s 6 (carried m t x) + gm_form (n_drag m) t 6 x).
  { unfold gm_form, carried. destruct (n_drag m) as [g|]; [|ring]. cbn [Nat.ltb Nat.leb Nat.eqb]. rewrite gm_var_add. ring. }
  assert (S : gm_form (n_srp m) (s + t) (srp_at m) x = gm_form (n_srp m) s (srp_at m) (carried m t x) + gm_form (n_srp m) t (srp_at m) x).
  { unfold gm_form, carried, srp_at. destruct (n_srp m) as [g|]; [|ring]. destruct (n_drag m); cbn [one_if Nat.add Nat.ltb Nat.leb Nat.eqb]; rewrite gm_var_add; ring. }
  assert (E : emp_form (n_emp m) (s + t) (emp_at m) x = emp_form (n_emp m) s (emp_at m) (carried m t x) + emp_form (n_emp m) t (emp_at m) x).
  { unfold emp_form, carried, emp_at. destruct (n_emp m) as [e|]; [|ring]. cbn [sumn]. destruct (n_drag m), (n_srp m); cbn [one_if Nat.add Nat.ltb Nat.leb Nat.eqb]; ring. }
  rewrite D, S, E. field.
Qed.
