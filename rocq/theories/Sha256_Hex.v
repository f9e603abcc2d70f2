(** Proofs about the hex helpers of the checksum model. *)
From Coq Require Import List NArith PeanoNat Bool Lia.
From Verif Require Import Base Sha256_Model Sha256_Spec Sha256_Proofs.
Import ListNotations.
Local Open Scope N_scope.

Lemma hex_nibble_spec c v : hex_nibble c = Some v <-> hex_digit_value c v.
Proof.
  unfold hex_nibble. split.
  - destruct ((48 <=? c) && (c <=? 57)) eqn:E1.
    { intros [= <-]. apply andb_true_iff in E1 as [A B]. apply N.leb_le in A, B. now apply hd_dec. }
    destruct ((97 <=? c) && (c <=? 102)) eqn:E2.
    { intros [= <-]. apply andb_true_iff in E2 as [A B]. apply N.leb_le in A, B.
      replace (c - 97 + 10) with (c - 87) by lia. now apply hd_low. }
    destruct ((65 <=? c) && (c <=? 70)) eqn:E3; [|discriminate].
    intros [= <-]. apply andb_true_iff in E3 as [A B]. apply N.leb_le in A, B.
    replace (c - 65 + 10) with (c - 55) by lia. now apply hd_upp.
  - intros H. inversion H; subst;
      repeat match goal with
      | |- context [?a <=? ?b] => destruct (N.leb_spec a b); try lia; cbn [andb]
      end; f_equal; lia.
Qed.

Lemma hex_digit_value_bound c v : hex_digit_value c v -> v < 16.
Proof. intros H; inversion H; lia. Qed.

Lemma nibble_join hi lo : hi < 16 -> lo < 16 -> N.lor (N.land (N.shiftl hi 4) 255) lo = 16 * hi + lo.
Proof.
  intros H1 H2.
  assert (F : forallb (fun h => forallb (fun l => N.lor (N.land (N.shiftl h 4) 255) l =? 16 * h + l)
     (map N.of_nat (seq 0 16))) (map N.of_nat (seq 0 16)) = true) by (vm_compute; reflexivity).
  rewrite forallb_forall in F.
  assert (I : forall x, x < 16 -> In x (map N.of_nat (seq 0 16))).
  { intros x Hx. apply in_map_iff. exists (N.to_nat x). rewrite N2Nat.id. split; [reflexivity|].
    apply in_seq. lia. }
  specialize (F hi (I hi H1)). rewrite forallb_forall in F. specialize (F lo (I lo H2)).
  now apply N.eqb_eq.
Qed.

Lemma list_pair_ind {A} (P : list A -> Prop) :
  P [] -> (forall x, P [x]) -> (forall x y l, P l -> P (x :: y :: l)) -> forall l, P l.
Proof.
  intros H0 H1 H2 l. enough (P l /\ forall x, P (x :: l)) by tauto.
  induction l as [|a l [IH1 IH2]]; [auto|]. split; auto.
Qed.

Lemma hex_pairs_spec s : forall d, hex_pairs s = Some d <-> denotes s d.
Proof.
  induction s as [|x|x y s IH] using list_pair_ind; intros d.
  - cbn. split; [intros [= <-]; constructor | intros H; inversion H; reflexivity].
  - cbn. split; [discriminate | intros H; inversion H].
  - cbn [hex_pairs]. split.
    + destruct (hex_nibble x) as [hi|] eqn:Ex; [|discriminate].
      destruct (hex_nibble y) as [lo|] eqn:Ey; [|discriminate].
      destruct (hex_pairs s) as [r|] eqn:Er; [|discriminate].
      intros [= <-]. apply hex_nibble_spec in Ex, Ey.
      rewrite nibble_join by (eapply hex_digit_value_bound; eassumption).
      constructor; auto. now apply IH.
    + intros H. inversion H as [|h l s' vh vl d' Hh Hl Hs]; subst.
      apply hex_nibble_spec in Hh as Eh. apply hex_nibble_spec in Hl as El.
      apply IH in Hs. rewrite Eh, El, Hs.
      rewrite nibble_join by (eapply hex_digit_value_bound; eassumption). reflexivity.
Qed.

Lemma hex32_spec s d : hex32 s = Some d <-> length s = 64%nat /\ denotes s d.
Proof.
  unfold hex32. destruct (Nat.eqb_spec (length s) 64).
  - rewrite hex_pairs_spec. tauto.
  - split; [discriminate|tauto].
Qed.

Lemma denotes_exists s : (exists d, denotes s d) <->
  Nat.even (length s) = true /\ Forall (fun c => exists v, hex_digit_value c v) s.
Proof.
  induction s as [|x|x y s IH] using list_pair_ind.
  - split; [intros _; auto | intros _; exists []; constructor].
  - split; [intros [d H]; inversion H | intros [H _]; discriminate].
  - cbn [length Nat.even]. split.
    + intros [d H]. inversion H; subst.
      assert (H0 : exists d, denotes s d) by eauto. apply IH in H0 as [E F].
      split; [exact E|]. repeat (constructor; eauto).
    + intros [E F]. inversion F as [|? ? [vx Hx] F2]; subst. inversion F2 as [|? ? [vy Hy] F3]; subst.
      destruct IH as [_ IH]. destruct IH as [d Hd]; [auto|].
      exists (16 * vx + vy :: d). now constructor.
Qed.

Lemma hex32_accepts s : (exists d, hex32 s = Some d) <->
  length s = 64%nat /\ Forall (fun c => exists v, hex_digit_value c v) s.
Proof.
  split.
  - intros [d H]. apply hex32_spec in H as [L H]. split; [exact L|].
    apply denotes_exists. eauto.
  - intros [L F]. destruct (proj2 (denotes_exists s)) as [d Hd].
    { split; [rewrite L; reflexivity | exact F]. }
    exists d. apply hex32_spec. auto.
Qed.

Lemma hex_digit_ok v : v < 16 -> hex_digit_value (hex_digit v) v.
Proof.
  intros H.
  assert (F : forallb (fun v => match hex_nibble (hex_digit v) with Some w => w =? v | None => false end)
     (map N.of_nat (seq 0 16)) = true) by (vm_compute; reflexivity).
  rewrite forallb_forall in F. specialize (F v).
  assert (I : In v (map N.of_nat (seq 0 16))).
  { apply in_map_iff. exists (N.to_nat v). rewrite N2Nat.id. split; [reflexivity|]. apply in_seq. lia. }
  specialize (F I). destruct (hex_nibble (hex_digit v)) eqn:E; [|discriminate].
  apply N.eqb_eq in F. subst. now apply hex_nibble_spec.
Qed.

Lemma to_hex_denotes d : Forall (fun b => b < 256) d -> denotes (to_hex d) d.
Proof.
  induction 1 as [|b d Hb _ IH]; cbn [to_hex flat_map app]; [constructor|].
  assert (E : b = 16 * N.shiftr b 4 + N.land b 15).
  { rewrite N.shiftr_div_pow2. change 15 with (N.ones 4). rewrite N.land_ones.
    change (2 ^ 4) with 16. apply N.div_mod. discriminate. }
  rewrite E at 3. constructor.
  - apply hex_digit_ok. rewrite N.shiftr_div_pow2. apply N.div_lt_upper_bound; [discriminate|].
    exact Hb.
  - apply hex_digit_ok. change 15 with (N.ones 4). rewrite N.land_ones. apply N.mod_lt. discriminate.
  - exact IH.
Qed.

Lemma denotes_length s d : denotes s d -> length s = (2 * length d)%nat.
Proof. induction 1; cbn [length]; lia. Qed.

Lemma hex_round_trip d : length d = 32%nat -> Forall (fun b => b < 256) d ->
  hex32 (to_hex d) = Some d.
Proof.
  intros L F. apply to_hex_denotes in F. apply hex32_spec. split; [|exact F].
  apply denotes_length in F. rewrite F, L. reflexivity.
Qed.

Lemma hex_nibble_upper c : hex_nibble (to_upper c) = hex_nibble c \/ (102 < c /\ hex_nibble c = None /\ hex_nibble (to_upper c) = None).
Proof.
  unfold to_upper. destruct (N.leb_spec 97 c); [destruct (N.leb_spec c 122)|];
  unfold hex_nibble;
  repeat match goal with
  | |- context [?a <=? ?b] => destruct (N.leb_spec a b); try lia; cbn [andb]
  end; try (left; f_equal; lia); try (left; reflexivity); right; repeat split; auto; lia.
Qed.

Lemma hex_pairs_upper s : hex_pairs (map to_upper s) = hex_pairs s.
Proof.
  assert (U : forall c, hex_nibble (to_upper c) = hex_nibble c).
  { intros c. destruct (hex_nibble_upper c) as [E | (_ & -> & ->)]; auto. }
  induction s as [|x|x y s IH] using list_pair_ind; [reflexivity|reflexivity|].
  cbn [map hex_pairs]. now rewrite !U, IH.
Qed.

Lemma hex32_upper s : hex32 (map to_upper s) = hex32 s.
Proof. unfold hex32. rewrite map_length, hex_pairs_upper. reflexivity. Qed.

Lemma eq_bytes_spec a : forall b, eq_bytes a b = true <-> a = b.
Proof.
  induction a as [|x a IH]; intros [|y b]; cbn; try (split; [discriminate|discriminate]).
  - tauto.
  - rewrite andb_true_iff, N.eqb_eq, IH. split; [intros [-> ->]; auto | intros [= -> ->]; auto].
Qed.

Lemma assert_spec data e : assert_sha256_eq data e = true <->
  length e = 64%nat /\ denotes e (sha256 data).
Proof.
  unfold assert_sha256_eq. rewrite <- hex32_spec.
  destruct (hex32 e) as [d|].
  - rewrite eq_bytes_spec. split; congruence.
  - split; discriminate.
Qed.

(** ** The prime table *)
Definition prime_b (n : N) : bool :=
  (2 <=? n) && forallb (fun d => negb (n mod d =? 0)) (map N.of_nat (seq 2 (N.to_nat n - 2))).

Lemma prime_b_spec n : prime_b n = true <-> is_prime n.
Proof.
  unfold prime_b, is_prime. rewrite andb_true_iff, N.leb_le, forallb_forall. split.
  - intros [H2 F]. split; [exact H2|]. intros d [k Hk].
    destruct (N.eq_dec d 1) as [|D1]; [auto|]. destruct (N.eq_dec d n) as [|D2]; [auto|].
    exfalso. assert (d <> 0) by (intros ->; lia).
    assert (k <> 0) by (intros ->; lia).
    assert (d < n) by nia.
    specialize (F d). assert (I : In d (map N.of_nat (seq 2 (N.to_nat n - 2)))).
    { apply in_map_iff. exists (N.to_nat d). rewrite N2Nat.id. split; [reflexivity|]. apply in_seq. lia. }
    specialize (F I). rewrite Hk, N.mod_mul in F by auto. discriminate.
  - intros [H2 F]. split; [exact H2|]. intros d Hd. apply in_map_iff in Hd as (m & <- & Hm).
    apply in_seq in Hm. destruct (N.eqb_spec (n mod N.of_nat m) 0) as [E|]; [|reflexivity].
    exfalso. apply N.mod_divide in E; [|lia]. apply F in E. lia.
Qed.

Lemma primes64_spec n : In n primes64 <-> is_prime n /\ n <= 311.
Proof.
  assert (F : forallb (fun n => eqb (prime_b n) (existsb (N.eqb n) primes64)) (map N.of_nat (seq 0 312)) = true)
    by (vm_compute; reflexivity).
  rewrite forallb_forall in F.
  assert (Mx : forall n, In n primes64 -> n <= 311).
  { intros m Hm. assert (G : forallb (fun n => n <=? 311) primes64 = true) by reflexivity.
    rewrite forallb_forall in G. apply N.leb_le. auto. }
  assert (E : n <= 311 -> prime_b n = existsb (N.eqb n) primes64).
  { intros H. apply eqb_prop. apply F. apply in_map_iff. exists (N.to_nat n). rewrite N2Nat.id.
    split; [reflexivity|]. apply in_seq. lia. }
  split.
  - intros H. pose proof (Mx n H). split; [|auto]. apply prime_b_spec. rewrite E by auto.
    apply existsb_exists. exists n. split; [auto|]. apply N.eqb_refl.
  - intros [P L]. apply prime_b_spec in P. rewrite E in P by auto.
    apply existsb_exists in P as (m & Hm & Em). apply N.eqb_eq in Em. now subst.
Qed.

Lemma compare_exact data text :
  Forall (fun b => b < 256) data -> N.of_nat (length data) < 2 ^ 61 ->
  (assert_sha256_eq data text = true <->
   length text = 64%nat /\ exists d, is_digest K H0 data d /\ denotes text d).
Proof.
  intros Hb Hl. rewrite assert_spec. split.
  - intros [L D]. split; [auto|]. exists (sha256 data). split; [|auto]. now apply sha256_is_digest.
  - intros [L (d & Hd & D)]. apply sha256_iff in Hd; auto. subst. auto.
Qed.
