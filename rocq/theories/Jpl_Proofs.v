(** Lemmas on the runtime JPL ephemeris. *)
From Coq Require Import List PeanoNat ZArith Lia Bool Reals Lra Psatz.
From Verif Require Import Base Noise_Model Mat3 Ang Geom_Model Geom_Proofs Jpl_Model.
Import ListNotations.
Local Open Scope R_scope.

Lemma rleb_t x y : rleb x y = true <-> x <= y.
Proof. unfold rleb. destruct (Rle_dec x y); split; auto; first [discriminate|contradiction]. Qed.
Lemma rltb_t x y : rltb x y = true <-> x < y.
Proof. unfold rltb. destruct (Rlt_dec x y); split; auto; first [discriminate|contradiction]. Qed.

(** * Chebyshev series *)
(** The sum of c_k cos (k theta), from degree [k] on. *)
Fixpoint cosines (c : list R) (k : nat) (theta : R) : R :=
  match c with [] => 0 | h :: t => h * cos (INR k * theta) + cosines t (S k) theta end.

Lemma cos_recur k theta : 2 * cos theta * cos (INR (S k) * theta) - cos (INR k * theta) = cos (INR (S (S k)) * theta).
Proof.
  rewrite !S_INR. replace ((INR k + 1 + 1) * theta) with ((INR k + 1) * theta + theta) by ring.
  replace (INR k * theta) with ((INR k + 1) * theta - theta) by ring. rewrite cos_plus, cos_minus. ring.
Qed.
Lemma cheb_sum_cos c k theta : cheb_sum c (cos (INR k * theta)) (cos (INR (S k) * theta)) (cos theta) = cosines c k theta.
Proof. revert k. induction c as [|h t IH]; intros k; cbn [cheb_sum cosines]; [reflexivity|]. rewrite cos_recur, IH. reflexivity. Qed.
Lemma evaluate_cos c theta : evaluate c (cos theta) = cosines c 0 theta.
Proof.
  rewrite <- cheb_sum_cos. unfold evaluate. cbn [INR]. rewrite Rmult_0_l, Rmult_1_l, cos_0. reflexivity.
Qed.

Lemma cheb_both_fst c a b a' b' x : fst (cheb_both c a b a' b' x) = cheb_sum c a b x.
Proof. revert a b a' b'. induction c as [|h t IH]; intros; cbn [cheb_both cheb_sum]; [reflexivity|]. specialize (IH b (2 * x * b - a) b' (2 * b + 2 * x * b' - a')). destruct (cheb_both _ _ _ _ _ _). cbn in *. now rewrite IH. Qed.
Lemma both_fst c x : fst (evaluate_both c x) = evaluate c x.
Proof. apply cheb_both_fst. Qed.

Lemma lim_eq f x l l' : derivable_pt_lim f x l -> l = l' -> derivable_pt_lim f x l'.
Proof. now intros H <-. Qed.
Lemma cheb_slope c : forall (fa fb : R -> R) a' b' x, derivable_pt_lim fa x a' -> derivable_pt_lim fb x b' ->
  derivable_pt_lim (fun y => cheb_sum c (fa y) (fb y) y) x (snd (cheb_both c (fa x) (fb x) a' b' x)).
Proof.
  induction c as [|h t IH]; intros fa fb a' b' x Ha Hb; cbn [cheb_sum cheb_both].
  - apply (derivable_pt_lim_const 0).
  - assert (Hn : derivable_pt_lim (fun y => 2 * y * fb y - fa y) x (2 * fb x + 2 * x * b' - a')).
    { apply (derivable_pt_lim_minus (fun y => 2 * y * fb y) fa); [|exact Ha].
      eapply lim_eq; [apply (derivable_pt_lim_mult (fun y => 2 * y) fb); [|exact Hb]; apply (derivable_pt_lim_scal (fun y => y) 2), derivable_pt_lim_id|]. ring. }
    specialize (IH fb (fun y => 2 * y * fb y - fa y) b' (2 * fb x + 2 * x * b' - a') x Hb Hn). cbv beta in IH.
    destruct (cheb_both t (fb x) (2 * x * fb x - fa x) b' (2 * fb x + 2 * x * b' - a') x) as [p v]. cbn [snd] in *.
    apply (derivable_pt_lim_plus (fun y => h * fa y) (fun y => cheb_sum t (fb y) (2 * y * fb y - fa y) y)); [|exact IH].
    apply (derivable_pt_lim_scal fa h). exact Ha.
Qed.
Lemma evaluate_slope c x : derivable_pt_lim (evaluate c) x (evaluate_derivative c x).
Proof.
  apply (cheb_slope c (fun _ => 1) (fun y => y) 0 1 x); [apply (derivable_pt_lim_const 1)|apply derivable_pt_lim_id].
Qed.
Lemma evaluate_slope_tau c mid radius t : radius <> 0 ->
  derivable_pt_lim (fun s => evaluate c ((s - mid) / radius)) t (evaluate_derivative c ((t - mid) / radius) / radius).
Proof.
  intros Hr. eapply lim_eq.
  - apply (derivable_pt_lim_comp (fun s => (s - mid) / radius) (evaluate c)); [|apply evaluate_slope].
    eapply lim_eq; [apply (derivable_pt_lim_mult (fun s => s - mid) (fun _ => / radius))|].
    + apply (derivable_pt_lim_minus (fun s => s) (fun _ => mid)); [apply derivable_pt_lim_id|apply (derivable_pt_lim_const mid)].
    + apply (derivable_pt_lim_const (/ radius)).
    + reflexivity.
  - field. exact Hr.
Qed.

(** * Finding the record *)
Definition edge (i len : R) (k : nat) : R := i + len * INR k.

Lemma locate_inside i len n t : (0 < n)%nat -> 0 < len -> i <= t <= edge i len n ->
  exists k, locate_et (RF i) (RF len) n (RF t) = Ok (k, t) /\ (k < n)%nat /\ edge i len k <= t <= edge i len (S k) /\
    (t < edge i len (S k) \/ t = edge i len n).
Proof.
  intros N L [A B]. unfold locate_et. unfold edge in *.
  replace ((n =? 0)%nat) with false by (symmetry; apply Nat.eqb_neq; lia).
  replace (rleb len 0) with false by (symmetry; unfold rleb; destruct (Rle_dec len 0); [lra|reflexivity]). cbn [orb].
  replace (rltb t i) with false by (symmetry; unfold rltb; destruct (Rlt_dec t i); [lra|reflexivity]).
  replace (rltb (i + len * INR n) t) with false by (symmetry; unfold rltb; destruct (Rlt_dec (i + len * INR n) t); [lra|reflexivity]). cbn [orb].
  assert (E : t = i + len * ((t - i) / len)) by (field; lra). set (rel := (t - i) / len) in *. clearbody rel.
  assert (R0 : 0 <= rel) by nra. assert (Rn : rel <= INR n) by nra.
  destruct (rleb (INR n) rel) eqn:C; [apply rleb_t in C|].
  - assert (rel = INR n) by lra. exists (n - 1)%nat. split; [reflexivity|]. split; [lia|]. replace (S (n - 1)) with n by lia.
    assert (INR (n - 1) = INR n - 1) by (rewrite minus_INR by lia; reflexivity). split; [nra|]. right. nra.
  - assert (rel < INR n) by (unfold rleb in C; destruct (Rle_dec (INR n) rel); [discriminate|lra]).
    pose proof (int_part_bounds rel) as (F & G).
    assert (P : (0 <= Int_part rel)%Z). { assert (-1 < Int_part rel)%Z; [|lia]. apply lt_IZR. lra. }
    assert (K : INR (Z.to_nat (Int_part rel)) = IZR (Int_part rel)) by (rewrite INR_IZR_INZ, Z2Nat.id by lia; reflexivity).
    exists (Z.to_nat (Int_part rel)). split; [reflexivity|]. split; [apply INR_lt; lra|]. rewrite S_INR, K. split; [nra|left; nra].
Qed.
Lemma locate_outside i len n t : (0 < n)%nat -> 0 < len -> ~ (i <= t <= edge i len n) ->
  locate_et (RF i) (RF len) n (RF t) = Err (OutOfRange (RF (j2000 + t / day)) (RF (j2000 + i / day)) (RF (j2000 + edge i len n / day))).
Proof.
  intros N L H. unfold locate_et, edge in *.
  replace ((n =? 0)%nat) with false by (symmetry; apply Nat.eqb_neq; lia).
  replace (rleb len 0) with false by (symmetry; unfold rleb; destruct (Rle_dec len 0); [lra|reflexivity]). cbn [orb to_jd].
  replace (rltb t i || rltb (i + len * INR n) t) with true; [reflexivity|]. symmetry. apply orb_true_iff. rewrite !rltb_t. lra.
Qed.
Lemma locate_err init len n et e : locate_et init len n et = Err e ->
  (exists a b c, e = OutOfRange a b c /\ (0 < n)%nat /\ exists i l, init = RF i /\ len = RF l /\ 0 < l) \/
  (e = InvalidSegment init len n /\ forall i l, init = RF i -> len = RF l -> (0 < n)%nat -> l <= 0).
Proof.
  unfold locate_et. destruct init as [i| |]; [destruct len as [l| |]|..]; try (intros [= <-]; right; split; [reflexivity|congruence]).
  destruct (n =? 0)%nat eqn:N; cbn [orb].
  - intros [= <-]. right. split; [reflexivity|]. apply Nat.eqb_eq in N. lia.
  - apply Nat.eqb_neq in N. destruct (rleb l 0) eqn:L.
    + intros [= <-]. right. split; [reflexivity|]. intros ? ? [= <-] [= <-] _. now apply rleb_t.
    + assert (0 < l) by (unfold rleb in L; destruct (Rle_dec l 0); [discriminate|lra]).
      destruct et as [t| |]; [destruct (_ || _)|..]; intros [= <-]; left; do 3 eexists; (split; [reflexivity|]); (split; [lia|]); eauto.
Qed.

(** * Slices *)
Lemma slice_ok {A} (l : list A) a n : (a + n <= length l)%nat -> slice l a n = Ok (firstn n (skipn a l)).
Proof. intros H. unfold slice. now rewrite (proj2 (Nat.leb_le _ _) H). Qed.
Lemma slice_inv {A} (l : list A) a n s : slice l a n = Ok s -> s = firstn n (skipn a l) /\ (a + n <= length l)%nat.
Proof. unfold slice. destruct (Nat.leb_spec (a + n) (length l)); intros [= <-]. split; [reflexivity|lia]. Qed.
Lemma slice_length {A} (l : list A) a n : (a + n <= length l)%nat -> length (firstn n (skipn a l)) = n.
Proof. intros H. rewrite firstn_length, skipn_length. lia. Qed.
Lemma slice_no_err {A} (l : list A) a n e : slice l a n <> Err e.
Proof. unfold slice. destruct (_ <=? _)%nat; discriminate. Qed.
Lemma nth_slice {A} (l : list A) a n j d : (j < n)%nat -> nth j (firstn n (skipn a l)) d = nth (a + j) l d.
Proof.
  intros J. assert (E : forall (m : list A), nth j (firstn n m) d = nth j m d).
  { clear l a. revert n J. induction j as [|j IH]; intros [|n] J m; try lia; destruct m; cbn; auto. apply IH. lia. }
  rewrite E. clear E J n. revert l. induction a as [|a IH]; intros l; [reflexivity|]. destruct l; cbn; [now destruct j|apply IH].
Qed.

Lemma cosines_ext c k theta d : cosines c k theta = fold_right Rplus 0 (map (fun j => nth j c d * cos (INR (k + j) * theta)) (seq 0 (length c))).
Proof.
  revert k. induction c as [|h t IH]; intros k; [reflexivity|]. cbn [cosines length seq map fold_right nth]. rewrite Nat.add_0_r. f_equal.
  rewrite IH, <- seq_shift, map_map. f_equal. apply map_ext. intros j. cbn [nth]. now rewrite Nat.add_succ_r.
Qed.

(** A descriptor as the SPK reader makes it: finite epochs, a positive
    interval, at least one record, [d_n] records of [d_rsize] numbers and room
    for the coefficient blocks. *)
Definition blocks_of (d : desc) : nat := if (d_type d =? 3)%Z then 6 else 3.
Definition wellformed (d : desc) (i len : R) : Prop :=
  d_init d = RF i /\ d_intlen d = RF len /\ 0 < len /\ (0 < d_n d)%nat /\ (d_n d * d_rsize d <= length (d_data d))%nat /\
  (2 + blocks_of d * d_ncoeff d <= d_rsize d)%nat.
(** The number at place [j] of record [k]. *)
Definition word (d : desc) (k j : nat) : R := nth (k * d_rsize d + j) (d_data d) 0.
(** Block [b] of record [k]. *)
Definition block (d : desc) (k b : nat) : list R := firstn (d_ncoeff d) (skipn (k * d_rsize d + 2 + b * d_ncoeff d) (d_data d)).

Lemma record_ok d i len k : wellformed d i len -> (k < d_n d)%nat ->
  record d k = Ok (firstn (d_rsize d) (skipn (k * d_rsize d) (d_data d))).
Proof. intros (_ & _ & _ & _ & D & _) K. apply slice_ok. nia. Qed.
Lemma blocks_no_err r a n e : blocks r a n <> Err e.
Proof. unfold blocks. unfold slice. destruct (_ <=? _)%nat; cbn [obind]; [|discriminate]. destruct (_ <=? _)%nat; cbn [obind]; [|discriminate]. destruct (_ <=? _)%nat; discriminate. Qed.
Lemma skipn_twice {A} (l : list A) a b : skipn b (skipn a l) = skipn (a + b) l.
Proof. revert l. induction a as [|a IH]; intros l; [reflexivity|]. destruct l; cbn; [now destruct b|apply IH]. Qed.
Lemma firstn_skipn_skipn {A} (l : list A) a b n m : (b + n <= m)%nat -> firstn n (skipn b (firstn m (skipn a l))) = firstn n (skipn (a + b) l).
Proof.
  intros H. rewrite (firstn_skipn_comm n b). rewrite firstn_firstn. replace (min (b + n) m) with (b + n)%nat by lia.
  rewrite <- firstn_skipn_comm, skipn_twice. reflexivity.
Qed.
Lemma blocks_ok d i len k b : wellformed d i len -> (k < d_n d)%nat -> (b + 3 <= blocks_of d)%nat ->
  blocks (firstn (d_rsize d) (skipn (k * d_rsize d) (d_data d))) (2 + b * d_ncoeff d) (d_ncoeff d) = Ok (block d k b, block d k (S b), block d k (S (S b))).
Proof.
  intros (_ & _ & _ & _ & D & Sz) K B.
  assert (Lr : length (firstn (d_rsize d) (skipn (k * d_rsize d) (d_data d))) = d_rsize d) by (apply slice_length; nia).
  assert (Bn : (b * d_ncoeff d + 3 * d_ncoeff d <= blocks_of d * d_ncoeff d)%nat) by nia.
  unfold blocks. rewrite !slice_ok by (rewrite Lr; lia). cbn [obind]. unfold block.
  rewrite !firstn_skipn_skipn by lia.
  replace (k * d_rsize d + 2 + b * d_ncoeff d)%nat with (k * d_rsize d + (2 + b * d_ncoeff d))%nat by lia.
  replace (k * d_rsize d + 2 + S b * d_ncoeff d)%nat with (k * d_rsize d + (2 + b * d_ncoeff d + d_ncoeff d))%nat by nia.
  replace (k * d_rsize d + 2 + S (S b) * d_ncoeff d)%nat with (k * d_rsize d + (2 + b * d_ncoeff d + 2 * d_ncoeff d))%nat by nia.
  reflexivity.
Qed.
Lemma tau_ok d i len k t : wellformed d i len -> (k < d_n d)%nat ->
  record_tau (firstn (d_rsize d) (skipn (k * d_rsize d) (d_data d))) t = Ok ((t - word d k 0) / word d k 1, word d k 1).
Proof.
  intros (_ & _ & _ & _ & D & Sz) K.
  assert (Lr : length (firstn (d_rsize d) (skipn (k * d_rsize d) (d_data d))) = d_rsize d) by (apply slice_length; nia).
  unfold record_tau, index. rewrite !(nth_error_nth' _ 0) by lia. cbn [obind]. rewrite !nth_slice by lia. reflexivity.
Qed.

(** * Evaluation *)
Definition tau (d : desc) (k : nat) (t : R) : R := (t - word d k 0) / word d k 1.
Definition place (d : desc) (k : nat) (t : R) : vec := (evaluate (block d k 0) (tau d k t), evaluate (block d k 1) (tau d k t), evaluate (block d k 2) (tau d k t)).
Definition rate (d : desc) (k : nat) (t : R) : vec :=
  let s := day / word d k 1 in (evaluate_derivative (block d k 0) (tau d k t) * s, evaluate_derivative (block d k 1) (tau d k t) * s, evaluate_derivative (block d k 2) (tau d k t) * s).
Definition rate3 (d : desc) (k : nat) (t : R) : vec :=
  (evaluate (block d k 3) (tau d k t) * day, evaluate (block d k 4) (tau d k t) * day, evaluate (block d k 5) (tau d k t) * day).

Lemma locate_ok d i len k t : wellformed d i len -> locate_et (RF i) (RF len) (d_n d) (RF t) = Ok (k, t) -> (k < d_n d)%nat ->
  try_locate_et d (RF t) = Ok (firstn (d_rsize d) (skipn (k * d_rsize d) (d_data d)), tau d k t, word d k 1).
Proof.
  intros W L K. pose proof W as (Ei & El & _). unfold try_locate_et. rewrite Ei, El, L. cbn [obind].
  rewrite (record_ok d i len) by assumption. cbn [obind]. rewrite (tau_ok d i len) by assumption. reflexivity.
Qed.
Lemma position_ok d i len k t : wellformed d i len -> locate_et (RF i) (RF len) (d_n d) (RF t) = Ok (k, t) -> (k < d_n d)%nat ->
  d_position d (RF t) = Ok (place d k t).
Proof.
  intros W L K. unfold d_position. rewrite (locate_ok d i len k t W L K). cbn [obind]. unfold eval_position, xyz_coeffs.
  pose proof (blocks_ok d i len k 0 W K) as B. cbn [Nat.mul Nat.add] in B. rewrite B by (unfold blocks_of; destruct (_ =? _)%Z; lia). reflexivity.
Qed.
Lemma velocity_ok d i len k t : wellformed d i len -> locate_et (RF i) (RF len) (d_n d) (RF t) = Ok (k, t) -> (k < d_n d)%nat ->
  d_velocity d (RF t) = Ok (if (d_type d =? 3)%Z then rate3 d k t else rate d k t).
Proof.
  intros W L K. unfold d_velocity. rewrite (locate_ok d i len k t W L K). cbn [obind]. destruct (d_type d =? 3)%Z eqn:T.
  - unfold eval_type3_velocity, type3_coeffs. rewrite (blocks_ok d i len k 3 W K) by (unfold blocks_of; rewrite T; lia). reflexivity.
  - unfold eval_velocity, xyz_coeffs. pose proof (blocks_ok d i len k 0 W K) as B. cbn [Nat.mul Nat.add] in B.
    rewrite B by (unfold blocks_of; rewrite T; lia). reflexivity.
Qed.
Lemma state_pair d et : d_state d et = (p <- d_position d et ;; v <- d_velocity d et ;; Ok (p, v))%outcome.
Proof.
  unfold d_state, d_position, d_velocity. destruct (try_locate_et d et) as [[[r ta] radius]|e|]; cbn [obind]; [|reflexivity|reflexivity].
  destruct (d_type d =? 3)%Z; [reflexivity|]. unfold eval_both, eval_position, eval_velocity.
  destruct (xyz_coeffs r (d_ncoeff d)) as [[[cx cy] cz]|e|]; cbn [obind]; [|reflexivity|reflexivity].
  unfold evaluate_derivative. rewrite <- !both_fst.
  destruct (evaluate_both cx ta), (evaluate_both cy ta), (evaluate_both cz ta). reflexivity.
Qed.

(** * The stack *)
Definition skipped (s : stacked) (et : rnum) : Prop := covers_et s et = false \/ exists a b c, try_locate_et (s_desc s) et = Err (OutOfRange a b c).

Lemma select_app_skipped l m et o : Forall (fun s => skipped s et) l -> exists o', select_loop (l ++ m) et o = select_loop m et o' /\ (l <> [] -> exists e, o' = Some e) /\ (l = [] -> o' = o) /\ (forall e, o = Some e -> o' = Some e).
Proof.
  revert o. induction l as [|s t IH]; intros o F; [exists o; repeat split; auto; congruence|]. inversion F as [|? ? S Ft]; subst.
  cbn [app select_loop]. destruct (covers_et s et) eqn:C; cbn [negb].
  - destruct S as [S|(a & b & c & S)]; [congruence|]. rewrite S. destruct (IH (keep o (OutOfRange a b c)) Ft) as (o' & E & _ & _ & P).
    exists o'. split; [exact E|]. repeat split; [|discriminate|intros e ->; now apply P]. intros _. destruct o; cbn in P; eauto.
  - destruct (IH (keep o (out_of_range_et s et)) Ft) as (o' & E & _ & _ & P).
    exists o'. split; [exact E|]. repeat split; [|discriminate|intros e ->; now apply P]. intros _. destruct o; cbn in P; eauto.
Qed.
Lemma select_split l et o d : select_loop l et o = Ok d ->
  exists pre s post, l = pre ++ s :: post /\ Forall (fun s => skipped s et) pre /\ covers_et s et = true /\ is_ok (try_locate_et (s_desc s) et) = true /\ d = s_desc s.
Proof.
  revert o. induction l as [|s t IH]; intros o H; cbn [select_loop] in H; [discriminate|].
  assert (Go : forall o', select_loop t et o' = Ok d -> skipped s et -> exists pre s' post, s :: t = pre ++ s' :: post /\ Forall (fun s => skipped s et) pre /\ covers_et s' et = true /\ is_ok (try_locate_et (s_desc s') et) = true /\ d = s_desc s').
  { intros o' K S. destruct (IH o' K) as (pre & s' & post & -> & F & R). exists (s :: pre), s', post. repeat split; auto; apply R. }
  destruct (covers_et s et) eqn:C; cbn [negb] in H; [|apply (Go _ H); now left].
  destruct (try_locate_et (s_desc s) et) as [p|[]|] eqn:L; try discriminate.
  - injection H as <-. exists [], s, t. rewrite L. repeat split; auto.
  - apply (Go _ H). right. eauto.
Qed.
Lemma select_pick l pre s post et o : l = pre ++ s :: post -> Forall (fun s => skipped s et) pre -> covers_et s et = true ->
  is_ok (try_locate_et (s_desc s) et) = true -> select_loop l et o = Ok (s_desc s).
Proof.
  intros -> F C K. destruct (select_app_skipped pre (s :: post) et o F) as (o' & -> & _). cbn [select_loop]. rewrite C. cbn [negb].
  destruct (try_locate_et (s_desc s) et); [reflexivity|discriminate|discriminate].
Qed.

(** * TT to ET *)
Lemma sin_lip a b : Rabs (sin a - sin b) <= Rabs (a - b).
Proof.
  assert (W : forall x y, x < y -> Rabs (sin y - sin x) <= Rabs (y - x)).
  { intros x y H. destruct (MVT_cor2 sin cos x y H) as (c & E & _); [intros; apply derivable_pt_lim_sin|].
    rewrite E, Rabs_mult. pose proof (COS_bound c). assert (Rabs (cos c) <= 1) by (apply Rabs_le; lra). pose proof (Rabs_pos (y - x)). nra. }
  destruct (Rtotal_order a b) as [H|[->|H]].
  - rewrite Rabs_minus_sym, (Rabs_minus_sym a). now apply W.
  - rewrite !Rminus_eq_0. lra.
  - now apply W.
Qed.
Definition q : R := naif_k * (naif_m1 * (1 + naif_eb)).
Lemma q_small : 0 < q < 4 / 10000000000.
Proof. unfold q, naif_k, naif_m1, naif_eb. lra. Qed.
Lemma step_contract tt a b : Rabs (et_step tt a - et_step tt b) <= q * Rabs (a - b).
Proof.
  unfold et_step. set (ma := naif_m0 + naif_m1 * a). set (mb := naif_m0 + naif_m1 * b).
  replace (tt + naif_k * sin (ma + naif_eb * sin ma) - (tt + naif_k * sin (mb + naif_eb * sin mb)))
    with (naif_k * (sin (ma + naif_eb * sin ma) - sin (mb + naif_eb * sin mb))) by ring.
  rewrite Rabs_mult, (Rabs_right naif_k) by (unfold naif_k; lra). unfold q. rewrite Rmult_assoc.
  apply Rmult_le_compat_l; [unfold naif_k; lra|]. eapply Rle_trans; [apply sin_lip|].
  replace (ma + naif_eb * sin ma - (mb + naif_eb * sin mb)) with ((ma - mb) + naif_eb * (sin ma - sin mb)) by ring.
  eapply Rle_trans; [apply Rabs_triang|]. rewrite (Rabs_mult naif_eb), (Rabs_right naif_eb) by (unfold naif_eb; lra).
  assert (M : Rabs (ma - mb) = naif_m1 * Rabs (a - b)).
  { unfold ma, mb. replace (naif_m0 + naif_m1 * a - (naif_m0 + naif_m1 * b)) with (naif_m1 * (a - b)) by ring.
    rewrite Rabs_mult, (Rabs_right naif_m1) by (unfold naif_m1; lra). reflexivity. }
  pose proof (sin_lip ma mb) as S. rewrite M in *. assert (0 <= naif_eb) by (unfold naif_eb; lra).
  assert (naif_eb * Rabs (sin ma - sin mb) <= naif_eb * (naif_m1 * Rabs (a - b))) by (apply Rmult_le_compat_l; assumption). nra.
Qed.
Lemma abs_le x y : Rabs x <= y -> - y <= x <= y.
Proof. unfold Rabs. destruct (Rcase_abs x); lra. Qed.
Lemma step_near tt a : Rabs (et_step tt a - tt) <= naif_k.
Proof.
  unfold et_step. set (e := naif_m0 + _ + _). replace (tt + naif_k * sin e - tt) with (naif_k * sin e) by ring.
  pose proof (SIN_bound e). apply Rabs_le. unfold naif_k. lra.
Qed.
Lemma step_continuous tt : continuity (fun x => x - et_step tt x).
Proof.
  intros x. unfold et_step.
  assert (C1 : continuity_pt (fun x => naif_m0 + naif_m1 * x) x) by (apply continuity_pt_plus; [apply continuity_pt_const; intros ? ?; reflexivity|apply continuity_pt_scal, derivable_continuous_pt, derivable_pt_id]).
  assert (C2 : continuity_pt (fun x => naif_m0 + naif_m1 * x + naif_eb * sin (naif_m0 + naif_m1 * x)) x).
  { apply continuity_pt_plus; [exact C1|]. apply continuity_pt_scal. apply (continuity_pt_comp (fun x => naif_m0 + naif_m1 * x) sin); [exact C1|apply continuity_sin]. }
  apply continuity_pt_minus; [apply derivable_continuous_pt, derivable_pt_id|]. apply continuity_pt_plus; [apply continuity_pt_const; intros ? ?; reflexivity|].
  apply continuity_pt_scal. apply (continuity_pt_comp (fun x => naif_m0 + naif_m1 * x + naif_eb * sin (naif_m0 + naif_m1 * x)) sin); [exact C2|apply continuity_sin].
Qed.
Lemma solution_exists tt : exists e, e = et_step tt e.
Proof.
  destruct (IVT (fun x => x - et_step tt x) (tt - 1) (tt + 1)) as (e & _ & E).
  - apply step_continuous.
  - lra.
  - pose proof (step_near tt (tt - 1)) as N. apply abs_le in N. unfold naif_k in N. lra.
  - pose proof (step_near tt (tt + 1)) as N. apply abs_le in N. unfold naif_k in N. lra.
  - exists e. lra.
Qed.
Lemma solution_unique tt a b : a = et_step tt a -> b = et_step tt b -> a = b.
Proof.
  intros A B. pose proof (step_contract tt a b) as C. rewrite <- A, <- B in C. pose proof q_small. pose proof (Rabs_pos (a - b)).
  assert (Z : Rabs (a - b) = 0) by nra. destruct (Req_dec (a - b) 0) as [Y|Y]; [lra|]. now apply Rabs_no_R0 in Y.
Qed.
Lemma loop_error fuel tt et e : e = et_step tt e ->
  Rabs (et_loop fuel tt et - e) <= Rmax (q ^ fuel * Rabs (et - e)) (5 / 10000000000000000000000).
Proof.
  intros E. revert et. induction fuel as [|k IH]; intros et; cbn [et_loop pow].
  - rewrite Rmult_1_l. apply Rmax_l.
  - pose proof (step_contract tt et e) as C. rewrite <- E in C. pose proof q_small as Q. destruct (rltb _ _) eqn:T.
    + apply rltb_t in T. eapply Rle_trans; [|apply Rmax_r]. set (n := et_step tt et) in *.
      assert (Tr : Rabs (et - e) <= Rabs (n - et) + Rabs (n - e)).
      { replace (et - e) with (- (n - et) + (n - e)) by ring. eapply Rle_trans; [apply Rabs_triang|]. rewrite Rabs_Ropp. lra. }
      pose proof (Rabs_pos (n - e)). pose proof (Rabs_pos (et - e)). nra.
    + eapply Rle_trans; [apply IH|]. apply Rmax_case.
      * eapply Rle_trans; [|apply Rmax_l]. replace (q * q ^ k * Rabs (et - e)) with (q ^ k * (q * Rabs (et - e))) by ring.
        apply Rmult_le_compat_l; [apply pow_le; lra|exact C].
      * apply Rmax_r.
Qed.
Lemma loop_near fuel tt et : Rabs (et - tt) <= naif_k -> Rabs (et_loop fuel tt et - tt) <= naif_k.
Proof. revert et. induction fuel as [|k IH]; intros et H; cbn [et_loop]; [exact H|]. destruct (rltb _ _); [apply step_near|apply IH, step_near]. Qed.
