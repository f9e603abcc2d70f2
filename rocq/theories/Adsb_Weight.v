(** Few-bit errors: the Mode-S generator detects every error of one to five bits
    in a 112-bit frame, and every error with an odd number of bits in any frame. *)
From Coq Require Import List NArith PeanoNat Bool Lia Sorted.
From Verif Require Import Base Adsb_Model Adsb_Spec Adsb_Crc.
Import ListNotations.
Local Open Scope N_scope.

Definition xsum (l : list N) : N := fold_right N.lxor 0 l.
Definition setbits (n : nat) (m : N) : list nat :=
  filter (fun i => N.testbit m (N.of_nat i)) (seq 0 n).
Definition p2 (i : nat) : N := 2 ^ N.of_nat i.

Lemma xsum_app a b : xsum (a ++ b) = N.lxor (xsum a) (xsum b).
Proof.
  induction a as [|x a IH]; [reflexivity|]. cbn [app xsum fold_right]. fold (xsum (a ++ b)) (xsum a).
  now rewrite IH, N.lxor_assoc.
Qed.

Lemma mod_pow2_succ m n : m mod 2 ^ N.of_nat (S n) =
  N.lxor (m mod 2 ^ N.of_nat n) (if N.testbit m (N.of_nat n) then p2 n else 0).
Proof.
  apply N.bits_inj. intros k. rewrite N.lxor_spec, Nat2N.inj_succ.
  destruct (N.lt_trichotomy k (N.of_nat n)) as [H|[->|H]].
  - rewrite !N.mod_pow2_bits_low by lia.
    replace (N.testbit (if N.testbit m (N.of_nat n) then p2 n else 0) k) with false;
      [now rewrite xorb_false_r|].
    destruct (N.testbit m (N.of_nat n)); [|now rewrite N.bits_0].
    unfold p2. rewrite N.pow2_bits_eqb. symmetry. apply N.eqb_neq. lia.
  - rewrite N.mod_pow2_bits_low by lia. rewrite N.mod_pow2_bits_high by lia.
    destruct (N.testbit m (N.of_nat n)); [|now rewrite N.bits_0].
    unfold p2. rewrite N.pow2_bits_eqb, N.eqb_refl. reflexivity.
  - rewrite !N.mod_pow2_bits_high by lia.
    destruct (N.testbit m (N.of_nat n)); [|now rewrite N.bits_0].
    unfold p2. rewrite N.pow2_bits_eqb. destruct (N.eqb_spec (N.of_nat n) k); [lia|reflexivity].
Qed.

Lemma setbits_sum n m : m mod 2 ^ N.of_nat n = xsum (map p2 (setbits n m)).
Proof.
  induction n as [|n IH]; [cbn; apply N.mod_1_r|].
  unfold setbits. rewrite seq_S, filter_app, map_app, xsum_app. cbn [Nat.add].
  fold (setbits n m). rewrite <- IH, mod_pow2_succ. f_equal.
  cbn [filter]. destruct (N.testbit m (N.of_nat n)); cbn; [now rewrite N.lxor_0_r|reflexivity].
Qed.

(** Syndromes: [syn i] is [x^i mod G]. *)
Fixpoint syn (i : nat) : N :=
  match i with O => 1 | S k => crc_shift (syn k) mod 2 ^ 24 end.

Lemma syn_lt i : syn i < 2 ^ 24.
Proof. destruct i; [reflexivity|]. apply N.mod_lt. discriminate. Qed.

Lemma syn_rem i : is_rem (p2 i) (syn i).
Proof.
  induction i as [|i IH]; [apply rem_small; reflexivity|].
  unfold p2 in *. rewrite Nat2N.inj_succ, N.pow_succ_r'.
  replace (2 * 2 ^ N.of_nat i) with (N.shiftl (2 ^ N.of_nat i) 1) by (rewrite N.shiftl_mul_pow2; lia).
  eapply rem_shift; [exact IH|]. rewrite N.shiftl_mul_pow2, N.pow_1_r, N.mul_comm.
  cbn [syn]. rewrite <- (N.mod_small (syn i) (2 ^ 24)) at 1 by apply syn_lt. apply crc_shift_low.
Qed.

Lemma xsum_rem l : is_rem (xsum (map p2 l)) (xsum (map syn l)).
Proof.
  induction l as [|i l IH]; [apply rem_small; reflexivity|]. cbn. apply rem_lxor; [apply syn_rem|exact IH].
Qed.

Lemma div_xsum n m : m < 2 ^ N.of_nat n -> G_divides m -> xsum (map syn (setbits n m)) = 0.
Proof.
  intros H D. apply G_divides_rem in D. rewrite <- (N.mod_small m (2 ^ N.of_nat n)) in D by auto.
  rewrite setbits_sum in D. eapply rem_unique; [apply xsum_rem | exact D].
Qed.

(** ** Parity *)
Fixpoint par_pos (p : positive) : bool :=
  match p with xH => true | xO q => par_pos q | xI q => negb (par_pos q) end.
Definition par (n : N) : bool := match n with N0 => false | Npos p => par_pos p end.

Lemma par_double a : par (N.double a) = par a.
Proof. destruct a; reflexivity. Qed.
Lemma par_succ_double a : par (N.succ_double a) = negb (par a).
Proof. destruct a; reflexivity. Qed.

Lemma par_lxor a : forall b, par (N.lxor a b) = xorb (par a) (par b).
Proof.
  induction a as [|a IH|a IH] using N.binary_ind; intros b.
  - rewrite N.lxor_0_l. now destruct (par b).
  - destruct b as [|b|b] using N.binary_ind; [|clear IHb|clear IHb].
    + rewrite N.lxor_0_r. cbn. now rewrite xorb_false_r.
    + rewrite lxor_dd, !par_double. apply IH.
    + rewrite lxor_ds, !par_succ_double, par_double, IH. now destruct (par a), (par b).
  - destruct b as [|b|b] using N.binary_ind; [|clear IHb|clear IHb].
    + rewrite N.lxor_0_r. cbn. now rewrite xorb_false_r.
    + rewrite lxor_sd, !par_succ_double, par_double, IH. now destruct (par a), (par b).
    + rewrite lxor_ss, !par_succ_double, par_double, IH. now destruct (par a), (par b).
Qed.

Lemma par_pmul q : par (pmul q G) = false.
Proof.
  induction q as [|q IH|q IH] using N.binary_ind; [reflexivity| |].
  - now rewrite pmul_double, par_double.
  - rewrite pmul_succ_double, par_lxor, par_double, IH. reflexivity.
Qed.

Lemma par_p2 i : par (p2 i) = true.
Proof.
  induction i as [|i IH]; [reflexivity|]. unfold p2 in *. rewrite Nat2N.inj_succ, N.pow_succ_r'.
  rewrite <- N.double_spec, par_double. exact IH.
Qed.

Lemma par_xsum l : par (xsum (map p2 l)) = Nat.odd (length l).
Proof.
  induction l as [|i l IH]; [reflexivity|].
  cbn [map xsum fold_right length]. fold (xsum (map p2 l)).
  rewrite par_lxor, par_p2, IH, Nat.odd_succ, <- Nat.negb_odd. now destruct (Nat.odd (length l)).
Qed.

Lemma odd_not_divisible n m : m < 2 ^ N.of_nat n -> Nat.odd (ones n m) = true -> ~ G_divides m.
Proof.
  intros H O [q E]. pose proof (par_pmul q) as P. rewrite <- E in P.
  rewrite <- (N.mod_small m (2 ^ N.of_nat n)) in P by auto.
  rewrite setbits_sum, par_xsum in P. unfold ones in O. unfold setbits in P. congruence.
Qed.

(** ** Two and four bits within 112 *)
Fixpoint mem (x : N) (l : list N) : bool :=
  match l with [] => false | y :: t => if x =? y then true else mem x t end.
Fixpoint nodup (l : list N) : bool :=
  match l with [] => true | x :: t => if mem x t then false else nodup t end.

Lemma mem_spec x l : mem x l = true <-> In x l.
Proof.
  induction l as [|y t IH]; cbn; [split; [discriminate|tauto]|].
  destruct (N.eqb_spec x y) as [->|]; [tauto|]. rewrite IH. split; [tauto|]. intros [|]; congruence || tauto.
Qed.
Lemma nodup_spec l : nodup l = true -> NoDup l.
Proof.
  induction l as [|x t IH]; cbn; [constructor|].
  destruct (mem x t) eqn:E; [discriminate|]. intros H. constructor; [|auto].
  rewrite <- mem_spec. congruence.
Qed.

Lemma NoDup_map_inj {A B} (f : A -> B) l x y : NoDup (map f l) -> In x l -> In y l -> f x = f y -> x = y.
Proof.
  induction l as [|a l IH]; [intros _ []|]. cbn. intros H [->|Hx] [->|Hy] E; inversion H; subst; auto.
  - exfalso. match goal with H : ~ In _ _ |- _ => apply H end. rewrite E. now apply in_map.
  - exfalso. match goal with H : ~ In _ _ |- _ => apply H end. rewrite <- E. now apply in_map.
Qed.

(** Tail-recursive list of the first [n] syndromes starting at value [s]. *)
Fixpoint syn_list (n : nat) (s : N) : list N :=
  match n with O => [] | S k => s :: syn_list k (crc_shift s mod 2 ^ 24) end.

Lemma syn_list_eq n : forall i, syn_list n (syn i) = map syn (seq i n).
Proof. induction n as [|n IH]; intros i; [reflexivity|]. cbn [syn_list seq map]. f_equal. apply (IH (S i)). Qed.

Fixpoint pair_sums (l : list N) : list N :=
  match l with [] => [] | x :: t => map (N.lxor x) t ++ pair_sums t end.
Fixpoint pairs (l : list nat) : list (nat * nat) :=
  match l with [] => [] | x :: t => map (pair x) t ++ pairs t end.
Definition psum (p : nat * nat) : N := N.lxor (syn (fst p)) (syn (snd p)).

Lemma pair_sums_map l : pair_sums (map syn l) = map psum (pairs l).
Proof.
  induction l as [|x t IH]; [reflexivity|]. cbn [map pair_sums pairs].
  rewrite map_app, !map_map, IH. reflexivity.
Qed.

Lemma check112 : nodup (0 :: pair_sums (syn_list 112 1)) = true.
Proof. vm_compute. reflexivity. Qed.

Lemma pairs_nodup : NoDup (0 :: map psum (pairs (seq 0 112))).
Proof.
  rewrite <- pair_sums_map, <- (syn_list_eq 112 0). apply nodup_spec. exact check112.
Qed.

Lemma pairs_in n : forall k i j, (k <= i < j)%nat -> (j < k + n)%nat -> In (i, j) (pairs (seq k n)).
Proof.
  induction n as [|n IH]; intros k i j H1 H2; [lia|]. cbn [seq pairs]. apply in_or_app.
  destruct (Nat.eq_dec i k) as [->|].
  - left. apply in_map. apply in_seq. lia.
  - right. apply IH; lia.
Qed.

Lemma filter_seq_sorted f n : forall k, StronglySorted lt (filter f (seq k n)) /\
  Forall (fun i => (k <= i < k + n)%nat) (filter f (seq k n)).
Proof.
  induction n as [|n IH]; intros k; cbn [seq filter]; [split; constructor|].
  destruct (IH (S k)) as [SS F].
  assert (F' : Forall (fun i => (k <= i < k + S n)%nat) (filter f (seq (S k) n))).
  { eapply Forall_impl; [|exact F]. cbn. intros. lia. }
  destruct (f k); [|auto]. split.
  - constructor; [exact SS|]. eapply Forall_impl; [|exact F]. cbn. intros. lia.
  - constructor; [lia|exact F'].
Qed.

Lemma few_bits_gen n m : NoDup (0 :: map psum (pairs (seq 0 n))) ->
  m < 2 ^ N.of_nat n -> (1 <= ones n m <= 5)%nat -> ~ G_divides m.
Proof.
  intros ND H W D.
  pose proof (div_xsum n m H D) as X.
  destruct (filter_seq_sorted (fun i => N.testbit m (N.of_nat i)) n 0) as [SS F].
  fold (setbits n m) in SS, F. change (ones n m) with (length (setbits n m)) in W.
  destruct (Nat.odd (length (setbits n m))) eqn:O.
  { apply (odd_not_divisible n m H); auto. }
  apply NoDup_cons_iff in ND as [N0 ND].
  destruct (setbits n m) as [|a [|b [|c [|d [|e l]]]]]; cbn [length] in *; try lia; try discriminate O.
  - (* two bits *)
    inversion SS as [|? ? S1 F1]; subst. inversion F1; subst.
    inversion F as [|? ? Ba F2]; subst. inversion F2 as [|? ? Bb F3]; subst.
    cbn in X. rewrite N.lxor_0_r in X. apply N0. rewrite <- X.
    change (N.lxor (syn a) (syn b)) with (psum (a, b)). apply in_map. apply pairs_in; lia.
  - (* four bits *)
    inversion SS as [|? ? S1 F1]; subst. inversion F1 as [|? ? Hab ?]; subst.
    inversion S1 as [|? ? S2 F2]; subst. inversion F2 as [|? ? Hbc ?]; subst.
    inversion S2 as [|? ? S3 F3]; subst. inversion F3 as [|? ? Hcd ?]; subst.
    inversion F as [|? ? Ba G1]; subst. inversion G1 as [|? ? Bb G2]; subst.
    inversion G2 as [|? ? Bc G3]; subst. inversion G3 as [|? ? Bd G4]; subst.
    cbn in X. rewrite N.lxor_0_r, <- N.lxor_assoc in X. apply N.lxor_eq in X.
    assert (E : (a, b) = (c, d)).
    { apply (NoDup_map_inj psum (pairs (seq 0 n))); [exact ND| | |exact X]; apply pairs_in; lia. }
    injection E. lia.
  - exfalso. destruct l; cbn [length] in *; [discriminate O|lia].
Qed.

Lemma few_bits_not_divisible m : m < 2 ^ 112 -> (1 <= ones 112 m <= 5)%nat -> ~ G_divides m.
Proof. exact (few_bits_gen 112 m pairs_nodup). Qed.
