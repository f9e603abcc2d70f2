(** GF(2) reasoning for the ADS-B parity. *)
From Coq Require Import List NArith PeanoNat Bool Lia.
From Verif Require Import Base Adsb_Model Adsb_Spec.
Import ListNotations.
Local Open Scope N_scope.

(** ** Polynomial product *)
Lemma pmul_0_l b : pmul 0 b = 0. Proof. reflexivity. Qed.

Lemma lxor_double a b : N.lxor (N.double a) (N.double b) = N.double (N.lxor a b).
Proof. destruct a, b; reflexivity. Qed.

Lemma pmul_double a b : pmul (N.double a) b = N.double (pmul a b).
Proof. destruct a; reflexivity. Qed.

Lemma pmul_succ_double a b : pmul (N.succ_double a) b = N.lxor b (N.double (pmul a b)).
Proof. destruct a; cbn; [now rewrite N.lxor_0_r | reflexivity]. Qed.

Lemma lxor_dd a b : N.lxor (N.double a) (N.double b) = N.double (N.lxor a b).
Proof. destruct a, b; reflexivity. Qed.
Lemma lxor_sd a b : N.lxor (N.succ_double a) (N.double b) = N.succ_double (N.lxor a b).
Proof. destruct a as [|a], b as [|b]; cbn; try reflexivity. Qed.
Lemma lxor_ds a b : N.lxor (N.double a) (N.succ_double b) = N.succ_double (N.lxor a b).
Proof. destruct a as [|a], b as [|b]; cbn; try reflexivity. Qed.
Lemma lxor_ss a b : N.lxor (N.succ_double a) (N.succ_double b) = N.double (N.lxor a b).
Proof. destruct a as [|a], b as [|b]; cbn; try reflexivity. Qed.

Lemma lxor_cancel_mid a b c : N.lxor (N.lxor a b) (N.lxor a c) = N.lxor b c.
Proof.
  rewrite (N.lxor_comm a b), N.lxor_assoc, <- (N.lxor_assoc a a c), N.lxor_nilpotent, N.lxor_0_l.
  reflexivity.
Qed.

Lemma pmul_lxor a : forall b c, pmul (N.lxor a b) c = N.lxor (pmul a c) (pmul b c).
Proof.
  induction a as [|a IH|a IH] using N.binary_ind; intros b c.
  - rewrite N.lxor_0_l. reflexivity.
  - destruct b as [|b|b] using N.binary_ind; [|clear IHb|clear IHb].
    + rewrite N.lxor_0_r. cbn. now rewrite N.lxor_0_r.
    + rewrite lxor_dd, !pmul_double, IH, lxor_dd. reflexivity.
    + rewrite lxor_ds, !pmul_succ_double, pmul_double, IH, <- lxor_dd.
      rewrite (N.lxor_comm c), (N.lxor_assoc _ _ c). rewrite (N.lxor_comm (N.double (pmul b c)) c).
      reflexivity.
  - destruct b as [|b|b] using N.binary_ind; [|clear IHb|clear IHb].
    + rewrite N.lxor_0_r. cbn. now rewrite N.lxor_0_r.
    + rewrite lxor_sd, !pmul_succ_double, pmul_double, IH, <- lxor_dd, N.lxor_assoc. reflexivity.
    + rewrite lxor_ss, !pmul_succ_double, pmul_double, IH, <- lxor_dd, lxor_cancel_mid. reflexivity.
Qed.

Lemma shiftl_double a k : N.shiftl (N.double a) k = N.double (N.shiftl a k).
Proof. rewrite !N.double_spec, !N.shiftl_mul_pow2. lia. Qed.

Lemma pmul_shiftl a b k : pmul (N.shiftl a k) b = N.shiftl (pmul a b) k.
Proof.
  induction k as [|k IH] using N.peano_ind; [now rewrite !N.shiftl_0_r|].
  rewrite !N.shiftl_mul_pow2, N.pow_succ_r'.
  rewrite !N.shiftl_mul_pow2 in IH.
  replace (a * (2 * 2 ^ k)) with (N.double (a * 2 ^ k)) by (rewrite N.double_spec; lia).
  rewrite pmul_double, IH, N.double_spec. lia.
Qed.

(** Degree: a non-zero multiple of [G] has at least 25 bits. *)
Lemma log2_double a : 0 < a -> N.log2 (N.double a) = N.succ (N.log2 a).
Proof. intros H. rewrite N.double_spec. now apply N.log2_double. Qed.

Lemma log2_lxor_lt a b : N.log2 b < N.log2 a -> N.log2 (N.lxor a b) = N.log2 a.
Proof.
  intros H.
  assert (Ha : a <> 0) by (intros ->; cbn in H; lia).
  apply N.log2_bits_unique.
  - rewrite N.lxor_spec, N.bit_log2 by auto.
    rewrite (N.bits_above_log2 b) by auto. reflexivity.
  - intros m Hm. rewrite N.lxor_spec, !N.bits_above_log2 by lia. reflexivity.
Qed.

Lemma pmul_log2 q b : q <> 0 -> b <> 0 -> N.log2 (pmul q b) = N.log2 q + N.log2 b /\ pmul q b <> 0.
Proof.
  intros Hq Hb. destruct q as [|p]; [congruence|]. clear Hq. cbn [pmul].
  induction p as [p [IH IH0]|p [IH IH0]|]; cbn [pmul_pos].
  - assert (E : N.log2 (N.double (pmul_pos p b)) = N.succ (N.log2 (N.pos p) + N.log2 b)).
    { rewrite log2_double by lia. now rewrite IH. }
    assert (L : N.log2 (N.pos p~1) = N.succ (N.log2 (N.pos p))).
    { change (N.pos p~1) with (2 * N.pos p + 1). apply N.log2_succ_double. lia. }
    rewrite N.lxor_comm.
    assert (X : N.log2 (N.lxor (N.double (pmul_pos p b)) b) = N.log2 (N.double (pmul_pos p b))).
    { apply log2_lxor_lt. rewrite E. lia. }
    split.
    + rewrite X, E, L. lia.
    + intros Z. rewrite Z in X. cbn in X. rewrite E in X. lia.
  - split.
    + rewrite log2_double by lia. rewrite IH.
      change (N.pos p~0) with (2 * N.pos p). rewrite N.log2_double by lia. lia.
    + rewrite N.double_spec. lia.
  - split; [cbn; lia | exact Hb].
Qed.

Lemma G_log2 : N.log2 G = 24. Proof. reflexivity. Qed.

Lemma multiple_small q : pmul q G < 2 ^ 24 -> q = 0.
Proof.
  intros H. destruct (N.eq_dec q 0) as [|Hq]; [auto|]. exfalso.
  destruct (pmul_log2 q G Hq) as [L NZ]; [discriminate|].
  apply N.log2_lt_pow2 in H; [|lia]. rewrite L, G_log2 in H. lia.
Qed.

Lemma lt_pow2_bits a n : (forall m, n <= m -> N.testbit a m = false) -> a < 2 ^ n.
Proof.
  intros H. destruct (N.eq_dec a 0) as [->|Ha].
  - apply N.neq_0_lt_0. apply N.pow_nonzero. discriminate.
  - apply N.log2_lt_pow2; [lia|].
    destruct (N.lt_ge_cases (N.log2 a) n) as [|C]; [auto|].
    apply H in C. rewrite N.bit_log2 in C by auto. discriminate.
Qed.

Lemma bits_lt_pow2 a n m : a < 2 ^ n -> n <= m -> N.testbit a m = false.
Proof.
  intros H Hm. destruct (N.eq_dec a 0) as [->|Ha]; [apply N.bits_0|].
  apply N.bits_above_log2. apply N.log2_lt_pow2 in H; lia.
Qed.

Lemma lxor_lt_pow2 a b n : a < 2 ^ n -> b < 2 ^ n -> N.lxor a b < 2 ^ n.
Proof.
  intros Ha Hb. apply lt_pow2_bits. intros m Hm.
  rewrite N.lxor_spec, (bits_lt_pow2 a n), (bits_lt_pow2 b n) by auto. reflexivity.
Qed.

Lemma lxor_swap a b c d : N.lxor (N.lxor a b) (N.lxor c d) = N.lxor (N.lxor a c) (N.lxor b d).
Proof.
  rewrite !N.lxor_assoc. f_equal. rewrite <- !N.lxor_assoc. f_equal. apply N.lxor_comm.
Qed.

Lemma rem_unique m r1 r2 : is_rem m r1 -> is_rem m r2 -> r1 = r2.
Proof.
  intros [H1 [q1 E1]] [H2 [q2 E2]].
  assert (E : pmul (N.lxor q1 q2) G = N.lxor r1 r2).
  { rewrite pmul_lxor. apply N.lxor_eq.
    rewrite lxor_swap, <- E1, <- E2. apply N.lxor_nilpotent. }
  assert (Z : N.lxor q1 q2 = 0).
  { apply multiple_small. rewrite E. now apply lxor_lt_pow2. }
  rewrite Z in E. cbn in E. symmetry in E. now apply N.lxor_eq.
Qed.

Lemma rem_lxor a b ra rb : is_rem a ra -> is_rem b rb -> is_rem (N.lxor a b) (N.lxor ra rb).
Proof.
  intros [H1 [q1 E1]] [H2 [q2 E2]]. split; [now apply lxor_lt_pow2|].
  exists (N.lxor q1 q2). rewrite pmul_lxor, E1, E2. apply lxor_swap.
Qed.

Lemma rem_small r : r < 2 ^ 24 -> is_rem r r.
Proof. intros H. split; [auto|]. exists 0. cbn. reflexivity. Qed.

Lemma rem_mult q m r : is_rem m r -> is_rem (N.lxor (pmul q G) m) r.
Proof.
  intros [H [k E]]. split; [auto|]. exists (N.lxor q k). rewrite pmul_lxor, E, N.lxor_assoc. reflexivity.
Qed.

(** ** The shift register *)
Lemma crc_shift_low c : is_rem (2 * (c mod 2 ^ 24)) (crc_shift c mod 2 ^ 24).
Proof.
  set (t := c mod 2 ^ 24).
  assert (Ht : t < 2 ^ 24) by (apply N.mod_lt; discriminate).
  set (d := (2 * c) mod 2 ^ 32).
  assert (Bit : forall m, N.testbit d m = (m <? 32) && N.testbit (2 * c) m).
  { intros m. unfold d. destruct (N.ltb_spec m 32).
    - now rewrite N.mod_pow2_bits_low.
    - rewrite N.mod_pow2_bits_high by auto. reflexivity. }
  assert (Tb : forall m, N.testbit t m = (m <? 24) && N.testbit c m).
  { intros m. unfold t. destruct (N.ltb_spec m 24).
    - now rewrite N.mod_pow2_bits_low.
    - rewrite N.mod_pow2_bits_high by auto. reflexivity. }
  assert (D2 : forall x m, N.testbit (2 * x) m = negb (m =? 0) && N.testbit x (m - 1)).
  { intros x m. destruct (N.eqb_spec m 0) as [->|Hm]; cbn [negb andb].
    - apply N.testbit_even_0.
    - replace m with (N.succ (m - 1)) at 1 by lia. apply N.testbit_even_succ. lia. }
  (* low 24 bits of d are the low bits of 2 t; bit 24 of both agree *)
  assert (Ed : N.land d 0x1000000 = if N.testbit t 23 then 0x1000000 else 0).
  { apply N.bits_inj. intros m. rewrite N.land_spec. change 0x1000000 with (2 ^ 24).
    rewrite N.pow2_bits_eqb. destruct (N.eqb_spec 24 m) as [<-|Hm].
    - rewrite andb_true_r, Bit. change (24 <? 32) with true. cbn [andb].
      rewrite D2. change (negb (24 =? 0)) with true. change (24 - 1) with 23. cbn [andb].
      rewrite Tb. change (23 <? 24) with true. cbn [andb].
      destruct (N.testbit c 23); [rewrite N.pow2_bits_eqb; reflexivity | now rewrite N.bits_0].
    - rewrite andb_false_r. destruct (N.testbit t 23).
      + rewrite N.pow2_bits_eqb. symmetry. now apply N.eqb_neq.
      + now rewrite N.bits_0. }
  assert (Low : d mod 2 ^ 24 = (2 * t) mod 2 ^ 24).
  { apply N.bits_inj. intros m. destruct (N.lt_ge_cases m 24).
    - rewrite !N.mod_pow2_bits_low, Bit, !D2, Tb by auto.
      destruct (N.ltb_spec m 32); [|lia]. destruct (N.ltb_spec (m - 1) 24); [|lia]. reflexivity.
    - rewrite !N.mod_pow2_bits_high by auto. reflexivity. }
  unfold crc_shift. fold d. rewrite Ed.
  destruct (N.testbit t 23) eqn:T23.
  - 
    change (0x1000000 =? 0) with false. cbv iota.
    assert (E : 2 * t = N.lxor (2 ^ 24) ((2 * t) mod 2 ^ 24)).
    { apply N.bits_inj. intros m. rewrite N.lxor_spec, N.pow2_bits_eqb.
      destruct (N.eqb_spec 24 m) as [<-|Hm].
      - rewrite N.mod_pow2_bits_high by lia. rewrite D2. change (24 - 1) with 23. rewrite T23. reflexivity.
      - destruct (N.lt_ge_cases m 24).
        + rewrite N.mod_pow2_bits_low by auto. now destruct (N.testbit (2 * t) m).
        + rewrite N.mod_pow2_bits_high by auto. rewrite D2, Tb.
          destruct (N.ltb_spec (m - 1) 24); [lia|]. cbn. now rewrite andb_false_r. }
    assert (Em : N.lxor d GENERATOR mod 2 ^ 24 = N.lxor (d mod 2 ^ 24) GENERATOR).
    { apply N.bits_inj. intros m. rewrite N.lxor_spec. destruct (N.lt_ge_cases m 24).
      - rewrite !N.mod_pow2_bits_low by auto. now rewrite N.lxor_spec.
      - rewrite !N.mod_pow2_bits_high by auto.
        rewrite (bits_lt_pow2 GENERATOR 24) by (auto; reflexivity). reflexivity. }
    rewrite Em, Low. split.
    + apply lxor_lt_pow2; [apply N.mod_lt; discriminate | reflexivity].
    + exists 1. cbn [pmul pmul_pos]. rewrite E at 1.
      change G with (N.lxor (2 ^ 24) GENERATOR).
      rewrite N.lxor_assoc. f_equal.
      rewrite (N.lxor_comm _ GENERATOR), <- N.lxor_assoc, N.lxor_nilpotent, N.lxor_0_l. reflexivity.
  - change (0 =? 0) with true. cbv iota. rewrite Low.
    assert (S : 2 * t < 2 ^ 24).
    { apply lt_pow2_bits. intros m Hm. rewrite D2, Tb.
      destruct (N.eq_dec m 24) as [->|].
      - change (24 - 1) with 23. rewrite Tb in T23. change (23 <? 24) with true in *. cbn in *. now rewrite T23.
      - destruct (N.ltb_spec (m - 1) 24); [lia|]. cbn. now rewrite andb_false_r. }
    rewrite N.mod_small by auto. now apply rem_small.
Qed.

Lemma rem_shift m r k r' : is_rem m r -> is_rem (N.shiftl r k) r' -> is_rem (N.shiftl m k) r'.
Proof.
  intros [H [q E]] R. rewrite E, N.shiftl_lxor, <- pmul_shiftl. now apply rem_mult.
Qed.

Lemma crc_shifts : forall l c, is_rem (N.shiftl (c mod 2 ^ 24) (N.of_nat (length l)))
   (fold_left (fun c (_ : nat) => crc_shift c) l c mod 2 ^ 24).
Proof.
  induction l as [|x l IH]; intros c; cbn [fold_left length].
  - cbn [N.of_nat]. rewrite N.shiftl_0_r. apply rem_small. apply N.mod_lt. discriminate.
  - specialize (IH (crc_shift c)). rewrite Nat2N.inj_succ.
    replace (N.shiftl (c mod 2 ^ 24) (N.succ (N.of_nat (length l))))
      with (N.shiftl (2 * (c mod 2 ^ 24)) (N.of_nat (length l))).
    + eapply rem_shift; [apply crc_shift_low | exact IH].
    + rewrite !N.shiftl_mul_pow2, N.pow_succ_r'. lia.
Qed.

Lemma shiftl_add_lxor a b k : b < 2 ^ k -> a * 2 ^ k + b = N.lxor (N.shiftl a k) b.
Proof.
  intros H. rewrite <- N.shiftl_mul_pow2. symmetry.
  rewrite <- N.add_nocarry_lxor; [reflexivity|].
  apply N.bits_inj. intros m. rewrite N.land_spec, N.bits_0.
  destruct (N.lt_ge_cases m k).
  - now rewrite N.shiftl_spec_low.
  - rewrite (bits_lt_pow2 b k) by auto. apply andb_false_r.
Qed.

Lemma lxor_mod a b k : N.lxor a b mod 2 ^ k = N.lxor (a mod 2 ^ k) (b mod 2 ^ k).
Proof.
  apply N.bits_inj. intros m. rewrite N.lxor_spec. destruct (N.lt_ge_cases m k).
  - rewrite !N.mod_pow2_bits_low by auto. apply N.lxor_spec.
  - rewrite !N.mod_pow2_bits_high by auto. reflexivity.
Qed.

#[local] Strategy opaque [crc_shift crc_byte].
Lemma crc_byte_rem c b : b < 256 ->
  is_rem (N.lxor (N.shiftl (c mod 2 ^ 24) 8) (N.shiftl b 24)) (crc_byte c b mod 2 ^ 24).
Proof.
  intros Hb.
  assert (S : is_rem (N.shiftl (N.lxor c (N.shiftl b 16) mod 2 ^ 24) (N.of_nat (length (seq 0 8))))
                (crc_byte c b mod 2 ^ 24)) by (apply crc_shifts).
  change (N.of_nat (length (seq 0 8))) with 8 in S.
  rewrite lxor_mod in S. rewrite (N.mod_small (N.shiftl b 16)) in S
    by (rewrite N.shiftl_mul_pow2; change (2 ^ 24) with (256 * 2 ^ 16); lia).
  rewrite N.shiftl_lxor, (N.shiftl_shiftl b 16 8) in S. exact S.
Qed.

Lemma crc_fold : forall data m c, Forall (fun b => b < 256) data ->
  is_rem (N.shiftl m 24) (c mod 2 ^ 24) ->
  is_rem (N.shiftl (fold_left (fun acc b => acc * 256 + b) data m) 24) (fold_left crc_byte data c mod 2 ^ 24).
Proof.
  induction data as [|b data IH]; intros m c F R; [exact R|].
  inversion F as [|? ? Hb F']; subst. rewrite !fold_left_cons. apply IH; [exact F'|].
  pose proof (crc_byte_rem c b Hb) as S.
  assert (E8 : m * 256 + b = N.lxor (N.shiftl m 8) b) by exact (shiftl_add_lxor m b 8 Hb).
  rewrite E8.
  rewrite N.shiftl_lxor, N.shiftl_shiftl, (N.add_comm 8 24), <- N.shiftl_shiftl.
  destruct R as [HR [q E]]. rewrite E, N.shiftl_lxor, <- pmul_shiftl, N.lxor_assoc.
  exact (rem_mult _ _ _ S).
Qed.

Lemma crc24_rem data : Forall (fun b => b < 256) data -> is_rem (N.shiftl (msg_value data) 24) (crc24 data).
Proof.
  intros F. unfold crc24. change 0xFFFFFF with (N.ones 24). rewrite N.land_ones.
  apply crc_fold; [exact F|]. cbn. apply rem_small. reflexivity.
Qed.

Lemma crc24_iff data r : Forall (fun b => b < 256) data ->
  (is_rem (N.shiftl (msg_value data) 24) r <-> r = crc24 data).
Proof.
  intros F. pose proof (crc24_rem data F) as R. split.
  - intros H. eapply rem_unique; eauto.
  - intros ->. exact R.
Qed.

(** ** x is invertible modulo G *)
Lemma G_odd_cancel q m : pmul q G = N.double m -> exists q', q = N.double q'.
Proof.
  destruct q as [|q|q] using N.binary_ind; [exists 0; reflexivity|eauto|].
  clear IHq. rewrite pmul_succ_double. intros E. exfalso.
  apply (f_equal N.odd) in E. rewrite <- !N.bit0_odd, N.lxor_spec, !N.double_spec, !N.testbit_even_0 in E.
  discriminate.
Qed.

Lemma double_inj a b : N.double a = N.double b -> a = b.
Proof. rewrite !N.double_spec. lia. Qed.

Lemma G_divides_shiftl m k : G_divides (N.shiftl m k) <-> G_divides m.
Proof.
  split.
  - induction k as [|k IH] using N.peano_ind; [now rewrite N.shiftl_0_r|].
    intros [q E].
    replace (N.shiftl m (N.succ k)) with (N.double (N.shiftl m k)) in E
      by (rewrite N.double_spec, !N.shiftl_mul_pow2, N.pow_succ_r'; lia).
    destruct (G_odd_cancel q (N.shiftl m k)) as [q' ->]; [now symmetry|].
    rewrite pmul_double in E. apply double_inj in E. apply IH. now exists q'.
  - intros [q ->]. exists (N.shiftl q k). symmetry. apply pmul_shiftl.
Qed.

Lemma G_divides_rem m : G_divides m <-> is_rem m 0.
Proof.
  split.
  - intros [q ->]. split; [reflexivity|]. exists q. now rewrite N.lxor_0_r.
  - intros [_ [q ->]]. exists q. now rewrite N.lxor_0_r.
Qed.

Lemma crc24_zero data : Forall (fun b => b < 256) data -> (crc24 data = 0 <-> G_divides (msg_value data)).
Proof.
  intros F. rewrite <- (G_divides_shiftl _ 24), G_divides_rem, crc24_iff by auto. split; auto.
Qed.

Lemma G_divides_lxor a b : G_divides a -> (G_divides (N.lxor a b) <-> G_divides b).
Proof.
  intros [q ->]. split.
  - intros [k E]. exists (N.lxor q k). rewrite pmul_lxor, <- E, <- N.lxor_assoc, N.lxor_nilpotent, N.lxor_0_l.
    reflexivity.
  - intros [k ->]. exists (N.lxor q k). now rewrite pmul_lxor.
Qed.

Lemma burst_not_divisible e k : 0 < e < 2 ^ 24 -> ~ G_divides (N.shiftl e k).
Proof.
  intros [H0 H] D. apply (proj1 (G_divides_shiftl e k)) in D as [q ->].
  apply multiple_small in H. subst. cbn in H0. lia.
Qed.

(** ** Systematic form: data bytes followed by three parity bytes *)
Lemma msg_value_app a : forall b, msg_value (a ++ b) = msg_value a * 2 ^ (8 * N.of_nat (length b)) + msg_value b.
Proof.
  intros b. unfold msg_value. rewrite fold_left_app. generalize (fold_left (fun acc b => acc * 256 + b) a 0).
  intros m. revert m. induction b as [|x b IH]; intros m; cbn [fold_left length].
  - cbn [N.of_nat]. rewrite N.mul_0_r, N.pow_0_r. lia.
  - rewrite IH. rewrite (IH (0 * 256 + x)). rewrite Nat2N.inj_succ.
    replace (8 * N.succ (N.of_nat (length b))) with (8 + 8 * N.of_nat (length b)) by lia.
    rewrite N.pow_add_r. change (2 ^ 8) with 256. lia.
Qed.

Lemma msg_value_bound l : Forall (fun b => b < 256) l -> msg_value l < 2 ^ (8 * N.of_nat (length l)).
Proof.
  induction l as [|x l IH] using rev_ind; intros F; [reflexivity|].
  apply Forall_app in F as [F1 F2]. inversion F2; subst. specialize (IH F1).
  rewrite msg_value_app, app_length. cbn [length].
  replace (8 * N.of_nat (length l + 1)) with (8 * N.of_nat (length l) + 8) by lia.
  rewrite N.pow_add_r. change (8 * N.of_nat 1) with 8. cbn [msg_value fold_left].
  change (2 ^ 8) with 256. change (msg_value [x]) with (0 * 256 + x).
  remember (2 ^ (8 * N.of_nat (length l))) as P. nia.
Qed.

Lemma crc_systematic data p : Forall (fun b => b < 256) (data ++ p) -> length p = 3%nat ->
  (crc24 (data ++ p) = 0 <-> msg_value p = crc24 data).
Proof.
  intros F L. rewrite crc24_zero by auto. apply Forall_app in F as [F1 F2].
  rewrite msg_value_app, L. change (8 * N.of_nat 3) with 24.
  pose proof (msg_value_bound p F2) as B. rewrite L in B. change (8 * N.of_nat 3) with 24 in B.
  rewrite shiftl_add_lxor by auto.
  pose proof (crc24_rem data F1) as R.
  rewrite G_divides_rem. split.
  - intros D. assert (R2 : is_rem (N.lxor (N.shiftl (msg_value data) 24) (msg_value p)) (N.lxor (crc24 data) (msg_value p))).
    { apply rem_lxor; [exact R | now apply rem_small]. }
    pose proof (rem_unique _ _ _ D R2) as E. symmetry in E. apply N.lxor_eq in E. auto.
  - intros E. rewrite <- (N.lxor_nilpotent (crc24 data)). apply rem_lxor; [exact R|].
    rewrite <- E. now apply rem_small.
Qed.
