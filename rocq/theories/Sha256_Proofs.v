From Coq Require Import List NArith Lia Bool PeanoNat.
From Verif Require Import Base Sha256_Model Sha256_Spec.
Import ListNotations.
Local Open Scope N_scope.

(** ** Bit-level lemmas *)
Lemma testbit_small a k n : a < 2 ^ k -> k <= n -> N.testbit a n = false.
Proof.
  intros Ha Hn. destruct (N.eq_dec a 0) as [->|Hz]; [apply N.bits_0|].
  apply N.bits_above_log2.
  apply N.log2_lt_pow2 in Ha; lia.
Qed.

Lemma lor_add_disjoint a b k : a < 2 ^ k -> N.lor a (N.shiftl b k) = a + b * 2 ^ k.
Proof.
  intros Ha.
  rewrite <- N.shiftl_mul_pow2.
  assert (Hd : N.land a (N.shiftl b k) = 0).
  { apply N.bits_inj. intros n. rewrite N.land_spec, N.bits_0.
    destruct (N.lt_ge_cases n k) as [H|H].
    - rewrite N.shiftl_spec_low by auto. apply andb_false_r.
    - rewrite (testbit_small a k n) by auto. reflexivity. }
  rewrite N.add_nocarry_lxor by auto.
  symmetry. apply N.lxor_lor. auto.
Qed.

Lemma rotr_spec x n : x < 2 ^ 32 -> 0 < n < 32 -> rotr x n = ROTR n x.
Proof.
  intros Hx Hn. unfold rotr, ROTR.
  change 0xffffffff with (N.ones 32).
  rewrite N.land_ones, N.shiftr_div_pow2, N.shiftl_mul_pow2.
  assert (E : (2 ^ 32 = 2 ^ n * 2 ^ (32 - n))) by (rewrite <- N.pow_add_r; f_equal; lia).
  rewrite E at 1.
  rewrite N.mul_mod_distr_r by (apply N.pow_nonzero; lia).
  rewrite <- N.shiftl_mul_pow2 at 1.
  apply lor_add_disjoint.
  apply N.div_lt_upper_bound; [apply N.pow_nonzero; lia|]. rewrite <- E. auto.
Qed.

Lemma ROTR_bound x n : x < 2 ^ 32 -> 0 < n < 32 -> ROTR n x < 2 ^ 32.
Proof.
  intros Hx Hn. unfold ROTR.
  assert (E : (2 ^ 32 = 2 ^ n * 2 ^ (32 - n))) by (rewrite <- N.pow_add_r; f_equal; lia).
  assert (P : 2 ^ n <> 0) by (apply N.pow_nonzero; lia).
  assert (x / 2 ^ n < 2 ^ (32 - n)) by (apply N.div_lt_upper_bound; auto; rewrite <- E; auto).
  assert (x mod 2 ^ n < 2 ^ n) by (apply N.mod_lt; auto).
  rewrite E. nia.
Qed.

Lemma shr_spec x n : N.shiftr x n = SHR n x.
Proof. apply N.shiftr_div_pow2. Qed.

Lemma not32_spec x : x < 2 ^ 32 -> not32 x = compl x.
Proof.
  intros H. unfold not32, compl. change 0xffffffff with (N.ones 32).
  change (N.lxor x (N.ones 32)) with (N.lnot x 32).
  rewrite N.lnot_sub_low.
  - reflexivity.
  - destruct (N.eq_dec x 0) as [->|Hz]; [reflexivity|].
    apply N.log2_lt_pow2 in H; lia.
Qed.

Lemma plus32_bound a b : plus32 a b < 2 ^ 32.
Proof. apply N.mod_lt. discriminate. Qed.
Lemma wadd_spec a b : wadd a b = plus32 a b.
Proof. reflexivity. Qed.
Lemma plus32_comm a b : plus32 a b = plus32 b a.
Proof. unfold plus32. f_equal. lia. Qed.
Lemma plus32_assoc a b c : plus32 (plus32 a b) c = plus32 a (plus32 b c).
Proof.
  unfold plus32. rewrite N.add_mod_idemp_l, N.add_mod_idemp_r by discriminate. f_equal; lia.
Qed.

(** ** Words *)
Lemma skipn_4 (l : list N) t d : (4 * t + 4 <= length l)%nat ->
  firstn 4 (skipn (4 * t) l) =
  [nth (4 * t) l d; nth (4 * t + 1) l d; nth (4 * t + 2) l d; nth (4 * t + 3) l d].
Proof.
  intros H.
  assert (E : forall k, nth (4 * t + k) l d = nth k (skipn (4 * t) l) d).
  { intros k. rewrite <- (firstn_skipn (4 * t) l) at 1.
    rewrite app_nth2; rewrite firstn_length_le by lia; [|lia]. f_equal. lia. }
  replace (nth (4 * t) l d) with (nth (4 * t + 0) l d) by (f_equal; lia).
  rewrite !E.
  assert (L : (4 <= length (skipn (4 * t) l))%nat) by (rewrite skipn_length; lia).
  destruct (skipn (4 * t) l) as [|x0 [|x1 [|x2 [|x3 r]]]]; simpl in L; try lia. reflexivity.
Qed.

Definition bytes (l : list N) := Forall (fun b => b < 256) l.

Lemma bytes_nth l i : bytes l -> nth i l 0 < 256.
Proof.
  intros H. destruct (Nat.lt_ge_cases i (length l)).
  - unfold bytes in H. rewrite Forall_forall in H. apply H. now apply nth_In.
  - rewrite nth_overflow by lia. lia.
Qed.

Lemma load_word_spec block i : bytes block -> (4 * i + 4 <= length block)%nat ->
  load_word block i = be_value (firstn 4 (skipn (4 * i) block)).
Proof.
  intros Hb Hl. rewrite (skipn_4 block i 0) by auto.
  unfold load_word. rewrite !(Nat.mul_comm i 4).
  pose proof (bytes_nth block (4 * i) Hb) as B0.
  pose proof (bytes_nth block (4 * i + 1) Hb) as B1.
  pose proof (bytes_nth block (4 * i + 2) Hb) as B2.
  pose proof (bytes_nth block (4 * i + 3) Hb) as B3.
  set (b0 := nth (4 * i) block 0) in *. set (b1 := nth (4 * i + 1) block 0) in *.
  set (b2 := nth (4 * i + 2) block 0) in *. set (b3 := nth (4 * i + 3) block 0) in *.
  clearbody b0 b1 b2 b3.
  unfold be_value. cbn [fold_left].
  rewrite N.lor_comm.
  rewrite (N.lor_comm (N.lor _ _) (N.shiftl b2 8)).
  rewrite (N.lor_comm (N.shiftl b0 24) (N.shiftl b1 16)).
  replace (N.shiftl b0 24) with (N.shiftl (N.shiftl b0 8) 16) by (rewrite N.shiftl_shiftl; reflexivity).
  rewrite <- N.shiftl_lor.
  replace (N.shiftl (N.lor b1 (N.shiftl b0 8)) 16)
    with (N.shiftl (N.shiftl (N.lor b1 (N.shiftl b0 8)) 8) 8) by (rewrite N.shiftl_shiftl; reflexivity).
  rewrite <- N.shiftl_lor.
  rewrite (lor_add_disjoint b1 b0 8) by auto.
  rewrite (lor_add_disjoint b2 _ 8) by auto.
  rewrite (lor_add_disjoint b3 _ 8) by auto.
  change (2 ^ 8) with 256. lia.
Qed.

Lemma be_value4_bound l : bytes l -> (length l <= 4)%nat -> be_value l < 2 ^ 32.
Proof.
  intros Hb Hl. unfold be_value.
  change (2 ^ 32) with 4294967296.
  destruct l as [|x0 [|x1 [|x2 [|x3 [|? ?]]]]]; simpl in Hl; try lia;
    repeat match goal with H : bytes (_ :: _) |- _ => inversion H; clear H; subst end;
    repeat match goal with H : Forall _ (_ :: _) |- _ => inversion H; clear H; subst end;
    cbn [fold_left]; lia.
Qed.

Lemma bytes_firstn n l : bytes l -> bytes (firstn n l).
Proof. intros H. unfold bytes in *. revert n. induction H; intros [|n]; simpl; auto. Qed.
Lemma bytes_skipn n l : bytes l -> bytes (skipn n l).
Proof. intros H. unfold bytes in *. revert n. induction H; intros [|n]; simpl; auto. Qed.

(** ** Schedule *)
Lemma W_fuel block : forall f1 f2 t, (t < f1)%nat -> (t < f2)%nat -> W f1 block t = W f2 block t.
Proof.
  induction f1 as [|f1 IH]; intros f2 t H1 H2; [lia|].
  destruct f2 as [|f2]; [lia|]. cbn [W].
  destruct (Nat.ltb_spec t 16); [reflexivity|].
  rewrite (IH f2 (t - 2)%nat), (IH f2 (t - 7)%nat), (IH f2 (t - 15)%nat), (IH f2 (t - 16)%nat) by lia.
  reflexivity.
Qed.

Lemma Wt_small block t : (t < 16)%nat -> Wt block t = be_value (firstn 4 (skipn (4 * t) block)).
Proof. intros H. unfold Wt. cbn [W]. apply Nat.ltb_lt in H. rewrite H. reflexivity. Qed.

Lemma Wt_step block t : (16 <= t)%nat ->
  Wt block t = plus32 (plus32 (plus32 (sigma1 (Wt block (t - 2))) (Wt block (t - 7)))
                              (sigma0 (Wt block (t - 15)))) (Wt block (t - 16)).
Proof.
  intros H. unfold Wt at 1. cbn [W]. destruct (Nat.ltb_spec t 16); [lia|].
  unfold Wt.
  rewrite (W_fuel block t (S (t - 2)) (t - 2)), (W_fuel block t (S (t - 7)) (t - 7)),
    (W_fuel block t (S (t - 15)) (t - 15)), (W_fuel block t (S (t - 16)) (t - 16)) by lia.
  reflexivity.
Qed.

Lemma Wt_bound block t : bytes block -> length block = 64%nat -> Wt block t < 2 ^ 32.
Proof.
  intros Hb Hl. destruct (Nat.lt_ge_cases t 16).
  - rewrite Wt_small by auto. apply be_value4_bound.
    + now apply bytes_firstn, bytes_skipn.
    + rewrite firstn_length. lia.
  - rewrite Wt_step by auto. apply plus32_bound.
Qed.

Lemma sched_word_spec block w i : bytes block -> length block = 64%nat -> (16 <= i)%nat ->
  (forall t, (t < i)%nat -> nth t w 0 = Wt block t) ->
  sched_word w i = Wt block i.
Proof.
  intros Hb Hl Hi Hw. unfold sched_word.
  rewrite !Hw by lia.
  rewrite (Wt_step block i) by auto.
  pose proof (Wt_bound block (i - 15) Hb Hl). pose proof (Wt_bound block (i - 2) Hb Hl).
  rewrite !rotr_spec by (auto; lia). rewrite !shr_spec.
  change wadd with plus32. rewrite !N.lxor_assoc.
  fold (sigma0 (Wt block (i - 15))). fold (sigma1 (Wt block (i - 2))).
  set (A := sigma1 _). set (B := sigma0 _).
  generalize (Wt block (i - 16)) (Wt block (i - 7)). intros X Y.
  unfold plus32. repeat (rewrite N.add_mod_idemp_l by discriminate; rewrite <- ?N.add_assoc). f_equal. lia.
Qed.

Lemma fold_sched block : bytes block -> length block = 64%nat ->
  forall n, let w := fold_left (fun w i => w ++ [sched_word w i]) (seq 16 n) (init_w block) in
    length w = (16 + n)%nat /\ forall t, (t < 16 + n)%nat -> nth t w 0 = Wt block t.
Proof.
  intros Hb Hl n. induction n as [|n IH].
  - cbn [seq fold_left]. split; [reflexivity|].
    intros t Ht. unfold init_w.
    rewrite (nth_indep _ 0 (load_word block 0)) by (rewrite map_length, seq_length; lia).
    rewrite map_nth, seq_nth by lia. rewrite load_word_spec by (auto; lia).
    rewrite Wt_small by lia. reflexivity.
  - rewrite seq_S, fold_left_app. cbn [fold_left].
    destruct IH as [L IH].
    set (w := fold_left _ (seq 16 n) _) in *. split.
    + rewrite app_length, L. simpl. lia.
    + intros t Ht. destruct (Nat.eq_dec t (16 + n)) as [->|Hne].
      * rewrite app_nth2 by lia. rewrite L, Nat.sub_diag. cbn [nth].
        apply sched_word_spec; auto; lia.
      * rewrite app_nth1 by lia. apply IH. lia.
Qed.

Lemma schedule_nth block t : bytes block -> length block = 64%nat -> (t < 64)%nat ->
  nth t (schedule block) 0 = Wt block t.
Proof. intros Hb Hl Ht. apply (fold_sched block Hb Hl 48). lia. Qed.

(** ** Rounds *)
Definition st_of (r : regs) : st :=
  let '(a, b, c, d, e, f, g, h) := r in
  {| va := a; vb := b; vc := c; vd := d; ve := e; vf := f; vg := g; vh := h |}.

Definition st_bounded (s : st) : Prop :=
  va s < 2 ^ 32 /\ vb s < 2 ^ 32 /\ vc s < 2 ^ 32 /\ vd s < 2 ^ 32 /\
  ve s < 2 ^ 32 /\ vf s < 2 ^ 32 /\ vg s < 2 ^ 32 /\ vh s < 2 ^ 32.

Lemma round_step block r i : bytes block -> length block = 64%nat -> (i < 64)%nat ->
  st_bounded (st_of r) ->
  st_of (round (schedule block) r i) = step K block i (st_of r) /\
  st_bounded (st_of (round (schedule block) r i)).
Proof.
  intros Hb Hl Hi. destruct r as [[[[[[[a b] c] d] e] f] g] h].
  unfold st_bounded. cbn [st_of va vb vc vd ve vf vg vh].
  intros (Ha & Hbb & Hc & Hd & He & Hf & Hg & Hh).
  unfold round, step. cbn [st_of va vb vc vd ve vf vg vh].
  rewrite schedule_nth by auto.
  rewrite !rotr_spec by (auto; lia). rewrite not32_spec by auto.
  change wadd with plus32. rewrite !N.lxor_assoc.
  fold (Sigma1 e). fold (Sigma0 a). fold (Ch e f g). fold (Maj a b c).
  split; [reflexivity|].
  repeat split; auto using plus32_bound.
Qed.

Lemma rounds_steps block r : bytes block -> length block = 64%nat -> st_bounded (st_of r) ->
  forall n, (n <= 64)%nat ->
  st_of (fold_left (round (schedule block)) (seq 0 n) r) = steps K block n (st_of r) /\
  st_bounded (st_of (fold_left (round (schedule block)) (seq 0 n) r)).
Proof.
  intros Hb Hl Hr n. induction n as [|n IH]; intros Hn.
  - cbn. auto.
  - rewrite seq_S, fold_left_app. cbn [fold_left steps Nat.add].
    destruct IH as [E B]; [lia|].
    destruct (round_step block (fold_left (round (schedule block)) (seq 0 n) r) n Hb Hl) as [E2 B2];
      [lia|exact B|].
    rewrite E2, E. split; [reflexivity|]. rewrite <- E, <- E2. exact B2.
Qed.

Definition words8 (s : list N) := length s = 8%nat /\ Forall (fun x => x < 2 ^ 32) s.

Lemma compress_spec s block : words8 s -> bytes block -> length block = 64%nat ->
  compress s block = hash_block K s block /\ words8 (compress s block).
Proof.
  intros [L F] Hb Hl.
  destruct s as [|h0 [|h1 [|h2 [|h3 [|h4 [|h5 [|h6 [|h7 [|? ?]]]]]]]]]; try discriminate L.
  repeat match goal with H : Forall _ (_ :: _) |- _ => inversion H; clear H; subst end.
  unfold compress, hash_block, regs_of. cbn [nth].
  pose proof (rounds_steps block (h0, h1, h2, h3, h4, h5, h6, h7) Hb Hl) as R.
  destruct R with (n := 64%nat) as [E B]; [|lia|].
  { unfold st_bounded; cbn; repeat split; auto. }
  cbn [st_of] in E.
  destruct (fold_left (round (schedule block)) (seq 0 64) (h0, h1, h2, h3, h4, h5, h6, h7))
    as [[[[[[[a b] c] d] e] f] g] h].
  rewrite <- E. cbn [st_of va vb vc vd ve vf vg vh]. change wadd with plus32. split.
  - rewrite !(plus32_comm h0), !(plus32_comm h1), !(plus32_comm h2), !(plus32_comm h3),
      !(plus32_comm h4), !(plus32_comm h5), !(plus32_comm h6), !(plus32_comm h7). reflexivity.
  - split; [reflexivity|]. repeat constructor; apply plus32_bound.
Qed.

(** ** Block traversal *)
#[local] Strategy opaque [compress hash_block].

Lemma fold_hash_words8 bs s : words8 s ->
  Forall (fun b => bytes b /\ length b = 64%nat) bs ->
  fold_left compress bs s = fold_left (hash_block K) bs s /\ words8 (fold_left compress bs s).
Proof.
  intros Hs HF. revert s Hs. induction HF as [|b bs [Hb Hl] HF IH]; intros s Hs; [cbn; auto|].
  rewrite !fold_left_cons. destruct (compress_spec s b Hs Hb Hl) as [E W8].
  rewrite <- E. exact (IH _ W8).
Qed.

(** The full-block loop from offset [64 * k] consumes the [q] remaining full blocks. *)
Lemma full_blocks_S fuel s input off :
  full_blocks (S fuel) s input off =
  if Nat.leb (off + 64) (length input)
  then full_blocks fuel (compress s (firstn 64 (skipn off input))) input (off + 64)
  else (s, off).
Proof. reflexivity. Qed.

Definition nth_block (input : list N) (i : nat) : list N := firstn 64 (skipn (64 * i) input).

Lemma full_blocks_spec input : forall q fuel k s,
  (64 * (k + q) <= length input < 64 * (k + q) + 64)%nat -> (q < fuel)%nat ->
  full_blocks fuel s input (64 * k) =
  (fold_left compress (map (nth_block input) (seq k q)) s, (64 * (k + q))%nat).
Proof.
  induction q as [|q IH]; intros fuel k s HL HF; (destruct fuel as [|fuel]; [lia|]);
    rewrite full_blocks_S.
  - destruct (Nat.leb_spec (64 * k + 64) (length input)) as [Hx|Hx]; [lia|].
    rewrite Nat.add_0_r. reflexivity.
  - destruct (Nat.leb_spec (64 * k + 64) (length input)) as [Hx|Hx]; [|lia].
    assert (E1 : (64 * k + 64 = 64 * S k)%nat) by lia.
    assert (E2 : (k + S q = S k + q)%nat) by lia.
    fold (nth_block input k). rewrite E1, E2, IH by lia.
    change (seq k (S q)) with (k :: seq (S k) q).
    rewrite map_cons, fold_left_cons. reflexivity.
Qed.

Lemma concat_blocks (input : list N) : forall q k, (64 * (k + q) <= length input)%nat ->
  concat (map (nth_block input) (seq k q)) ++ skipn (64 * (k + q)) input =
  skipn (64 * k) input.
Proof.
  induction q as [|q IH]; intros k H.
  - cbn. f_equal. lia.
  - cbn [seq map concat]. rewrite <- app_assoc.
    replace (k + S q)%nat with (S k + q)%nat in * by lia.
    rewrite IH by lia.
    replace (64 * S k)%nat with (64 + 64 * k)%nat by lia.
    rewrite <- (firstn_skipn 64 (skipn (64 * k) input)). unfold nth_block. f_equal.
    assert (E : forall (l : list N) a b, skipn (a + b) l = skipn a (skipn b l)).
    { clear. intros l a b. revert l. induction b as [|b IH]; intros l.
      - rewrite Nat.add_0_r. reflexivity.
      - rewrite Nat.add_succ_r. destruct l; [now rewrite !skipn_nil|]. cbn. apply IH. }
    apply E.
Qed.

(** ** Tail buffer *)
Lemma write_bytes_spec : forall src pre buf,
  (length src <= length buf)%nat ->
  write_bytes (pre ++ buf) (length pre) src = pre ++ src ++ skipn (length src) buf.
Proof.
  unfold write_bytes. induction src as [|v src IH]; intros pre buf H; [reflexivity|].
  destruct buf as [|x buf]; [simpl in H; lia|]. cbn [fold_left].
  rewrite upd_app.
  change (pre ++ v :: buf) with (pre ++ [v] ++ buf). rewrite app_assoc.
  replace (S (length pre)) with (length (pre ++ [v])) by (rewrite app_length; simpl; lia).
  rewrite IH by (simpl in H; lia).
  rewrite <- app_assoc. reflexivity.
Qed.

Lemma upd_at {A} (l1 : list A) x l2 i v : i = length l1 -> upd (l1 ++ x :: l2) i v = l1 ++ v :: l2.
Proof. intros ->. apply upd_app. Qed.

Lemma upd_shift (pre l : list N) k v : upd (pre ++ l) (length pre + k) v = pre ++ upd l k v.
Proof. induction pre as [|h t IH]; [reflexivity|]. cbn [app length upd Nat.add]. now rewrite IH. Qed.

Lemma upd8 (pre rest : list N) (b0 b1 b2 b3 b4 b5 b6 b7 : N) n : n = length pre ->
  upd (upd (upd (upd (upd (upd (upd (upd (pre ++ repeat 0 8 ++ rest) n b0) (n + 1) b1) (n + 2) b2)
    (n + 3) b3) (n + 4) b4) (n + 5) b5) (n + 6) b6) (n + 7) b7 =
  pre ++ [b0; b1; b2; b3; b4; b5; b6; b7] ++ rest.
Proof.
  intros ->. cbn [repeat app].
  rewrite upd_app.
  do 7 (rewrite upd_shift; cbn [upd]).
  reflexivity.
Qed.

Lemma be_encode8 x : x < 2 ^ 64 ->
  be_encode 8 x = [byte (N.shiftr x 56); byte (N.shiftr x 48); byte (N.shiftr x 40); byte (N.shiftr x 32);
                   byte (N.shiftr x 24); byte (N.shiftr x 16); byte (N.shiftr x 8); byte x].
Proof.
  intros _. cbn [be_encode app]. unfold byte.
  rewrite !N.shiftr_div_pow2, !N.div_div by discriminate. reflexivity.
Qed.

Lemma be_encode4 x :
  be_encode 4 x = word_bytes x.
Proof.
  cbn [be_encode app]. unfold word_bytes, byte.
  rewrite !N.shiftr_div_pow2, !N.div_div by discriminate. reflexivity.
Qed.

Lemma be_encode_length n x : length (be_encode n x) = n.
Proof. revert x. induction n as [|n IH]; intros x; [reflexivity|]. cbn. rewrite app_length, IH. simpl. lia. Qed.

Lemma repeat_split (a b : nat) : repeat 0 (a + b) = repeat 0 a ++ repeat 0 b.
Proof. apply repeat_app. Qed.

Lemma skipn_repeat n m : skipn n (repeat 0 m) = repeat 0 (m - n).
Proof. revert n. induction m as [|m IH]; intros [|n]; cbn; auto. Qed.

Lemma tail_of_spec rest bl : (length rest < 64)%nat -> bl < 2 ^ 64 ->
  tail_of rest bl =
  (rest ++ [128] ++ repeat 0 (pad_zeros (length rest)) ++ be_encode 8 bl ++
     repeat 0 (128 - (length rest + 1 + pad_zeros (length rest) + 8)),
   (length rest + 1 + pad_zeros (length rest) + 8)%nat).
Proof.
  intros HL Hbl. unfold tail_of. f_equal.
  set (rem := length rest) in *. set (z := pad_zeros rem).
  assert (Hz : (rem + 1 + z + 8 = 64 \/ rem + 1 + z + 8 = 128)%nat).
  { unfold z, pad_zeros. rewrite Nat.mod_small by auto. destruct (Nat.ltb_spec rem 56); lia. }
  pose proof (write_bytes_spec rest [] (repeat 0 128)) as WB. cbn [app length] in WB.
  rewrite WB by (rewrite repeat_length; lia). clear WB.
  cbn [app]. fold rem. rewrite skipn_repeat.
  replace (128 - rem)%nat with (1 + (z + (8 + (128 - (rem + 1 + z + 8)))))%nat by lia.
  rewrite (repeat_split 1), (repeat_split z), (repeat_split 8).
  change (repeat 0 1 ++ ?x) with (0 :: x).
  rewrite (upd_at rest 0 _ rem) by reflexivity.
  replace (rem + 1 + z + 8 - 8)%nat with (rem + 1 + z)%nat by lia.
  change (rest ++ 128 :: repeat 0 z ++ repeat 0 8 ++ repeat 0 (128 - (rem + 1 + z + 8)))
    with (rest ++ [128] ++ repeat 0 z ++ repeat 0 8 ++ repeat 0 (128 - (rem + 1 + z + 8))).
  rewrite !app_assoc. rewrite <- (app_assoc _ (repeat 0 8)).
  rewrite upd8.
  - rewrite be_encode8 by auto. rewrite <- !app_assoc. reflexivity.
  - rewrite !app_length, repeat_length. simpl. fold rem. lia.
Qed.

Lemma H0_words8 : words8 H0.
Proof. split; [reflexivity|]. repeat constructor. Qed.

Lemma bytes_repeat n : bytes (repeat 0 n).
Proof. induction n; constructor; auto. lia. Qed.
Lemma bytes_be n x : bytes (be_encode n x).
Proof.
  revert x. induction n as [|n IH]; intros x; cbn; [constructor|].
  apply Forall_app. split; [apply IH|]. repeat constructor. apply N.mod_lt. discriminate.
Qed.
Lemma bytes_app a b : bytes (a ++ b) <-> bytes a /\ bytes b.
Proof. apply Forall_app. Qed.

Lemma concat_len64 (bs : list (list N)) : Forall (fun b => length b = 64%nat) bs ->
  length (concat bs) = (64 * length bs)%nat.
Proof. induction 1 as [|b bs Hb _ IH]; [reflexivity|]. cbn. rewrite app_length, IH, Hb. lia. Qed.

Lemma concat_inj64 : forall (b1 b2 : list (list N)),
  Forall (fun b => length b = 64%nat) b1 -> Forall (fun b => length b = 64%nat) b2 ->
  concat b1 = concat b2 -> b1 = b2.
Proof.
  induction b1 as [|x b1 IH]; intros b2 F1 F2 E.
  - destruct b2 as [|y b2]; [reflexivity|]. exfalso.
    inversion F2; subst. cbn in E. apply (f_equal (@length N)) in E.
    rewrite app_length in E. simpl in E. lia.
  - destruct b2 as [|y b2].
    + exfalso. inversion F1; subst. cbn in E. apply (f_equal (@length N)) in E.
      rewrite app_length in E. simpl in E. lia.
    + inversion F1; inversion F2; subst. cbn in E.
      assert (x = y /\ concat b1 = concat b2) as [-> E2].
      { apply app_inj_len; [congruence|exact E]. }
      f_equal. auto.
Qed.

Lemma padding_unique m p1 p2 : is_padding m p1 -> is_padding m p2 -> p1 = p2.
Proof.
  intros (k1 & -> & M1 & L1) (k2 & -> & M2 & L2).
  rewrite !app_length, repeat_length, be_encode_length in M1, M2. cbn [length] in M1, M2.
  assert (k1 = k2) as ->; [|reflexivity].
  revert M1 M2. generalize (length m). intros n M1 M2.
  apply Nat.mod_divides in M1; [|lia]. apply Nat.mod_divides in M2; [|lia].
  destruct M1 as [a Ha], M2 as [b Hb]. lia.
Qed.

Lemma digest_unique IV m d1 d2 : is_digest K IV m d1 -> is_digest K IV m d2 -> d1 = d2.
Proof.
  intros (p1 & b1 & P1 & E1 & F1 & ->) (p2 & b2 & P2 & E2 & F2 & ->).
  assert (p1 = p2) by (eapply padding_unique; eauto). subst.
  assert (b1 = b2) by (apply concat_inj64; auto). now subst.
Qed.

Lemma sha256_is_digest m : bytes m -> N.of_nat (length m) < 2 ^ 61 -> is_digest K H0 m (sha256 m).
Proof.
  intros Hb Hlen. unfold sha256.
  set (len := length m) in *. set (q := (len / 64)%nat).
  assert (Hq : (64 * q <= len < 64 * q + 64)%nat).
  { unfold q. pose proof (Nat.div_mod len 64). pose proof (Nat.mod_upper_bound len 64). lia. }
  pose proof (full_blocks_spec m q (S len) 0 H0) as FB.
  rewrite Nat.mul_0_r in FB. cbn [Nat.add] in FB. fold len in FB.
  rewrite FB by lia. clear FB.
  set (blocks0 := map _ (seq 0 q)).
  assert (Ebl : (N.of_nat len * 8) mod 2 ^ 64 = 8 * N.of_nat len).
  { rewrite N.mod_small; [lia|]. change (2 ^ 64) with (2 ^ 61 * 8). lia. }
  rewrite Ebl.
  assert (Hbl : 8 * N.of_nat len < 2 ^ 64) by (change (2 ^ 64) with (2 ^ 61 * 8); lia).
  set (rest := skipn (64 * q) m).
  assert (Hrest : (length rest = len - 64 * q)%nat) by (unfold rest; now rewrite skipn_length).
  rewrite tail_of_spec by (auto; lia).
  set (rem := length rest) in *. set (z := pad_zeros rem).
  assert (Hz : (rem + 1 + z + 8 = 64 \/ rem + 1 + z + 8 = 128)%nat /\ (z < 64)%nat).
  { unfold z, pad_zeros. rewrite Nat.mod_small by lia. destruct (Nat.ltb_spec rem 56); lia. }
  destruct Hz as [Hz Hz64].
  set (fl := (rem + 1 + z + 8)%nat) in *.
  set (padded_tail := rest ++ [128] ++ repeat 0 z ++ be_encode 8 (8 * N.of_nat len)).
  assert (Lpt : length padded_tail = fl).
  { unfold padded_tail. rewrite !app_length, repeat_length, be_encode_length. simpl. fold rem. lia. }
  assert (Bpt : bytes padded_tail).
  { unfold padded_tail. rewrite !bytes_app. repeat split.
    - now apply bytes_skipn.
    - repeat constructor.
    - apply bytes_repeat.
    - apply bytes_be. }
  assert (HB0 : Forall (fun b => bytes b /\ length b = 64%nat) blocks0).
  { unfold blocks0. apply Forall_forall. intros b Hin. apply in_map_iff in Hin as (i & <- & Hi).
    apply in_seq in Hi. unfold nth_block. split; [now apply bytes_firstn, bytes_skipn|].
    rewrite firstn_length_le; [reflexivity|]. rewrite skipn_length. fold len. lia. }
  assert (HC0 : concat blocks0 ++ rest = m).
  { pose proof (concat_blocks m q 0) as C. rewrite Nat.mul_0_r in C. cbn [Nat.add skipn] in C.
    apply C. fold len. lia. }
  assert (Main : forall blocks1, Forall (fun b => bytes b /\ length b = 64%nat) blocks1 ->
     concat blocks1 = padded_tail ->
     is_digest K H0 m (flat_map word_bytes (fold_left compress blocks1 (fold_left compress blocks0 H0)))).
  { intros blocks1 HB1 HC1.
    exists (m ++ [128] ++ repeat 0 z ++ be_encode 8 (8 * N.of_nat len)), (blocks0 ++ blocks1).
    split; [|split; [|split]].
    - exists z. split; [reflexivity|]. split; [|exact Hz64].
      rewrite <- HC0, <- app_assoc. change (rest ++ [128] ++ repeat 0 z ++ _) with padded_tail.
      rewrite app_length, Lpt.
      rewrite (concat_len64 blocks0) by (eapply Forall_impl; [|exact HB0]; cbn; tauto).
      rewrite Nat.mul_comm, Nat.add_comm, Nat.mod_add by lia.
      destruct Hz as [-> | ->]; reflexivity.
    - rewrite <- HC0 at 1. rewrite <- app_assoc, concat_app, HC1. reflexivity.
    - apply Forall_app. split; (eapply Forall_impl; [|eassumption]; cbn; tauto).
    - rewrite <- fold_left_app.
      destruct (fold_hash_words8 (blocks0 ++ blocks1) H0 H0_words8) as [-> _].
      { apply Forall_app; auto. }
      rewrite !flat_map_concat_map. f_equal. apply map_ext. intros x. now rewrite be_encode4. }
  replace (rest ++ [128] ++ repeat 0 z ++ be_encode 8 (8 * N.of_nat len) ++ repeat 0 (128 - fl))
    with (padded_tail ++ repeat 0 (128 - fl)) by (unfold padded_tail; now rewrite <- !app_assoc).
  destruct Hz as [Ez|Ez].
  - (* one tail block *)
    rewrite Ez. cbn [tail_blocks]. cbn [Nat.ltb Nat.leb Nat.add].
    cbn [skipn].
    replace (firstn 64 (padded_tail ++ repeat 0 (128 - 64))) with padded_tail.
    2:{ rewrite firstn_app, Lpt, Ez, Nat.sub_diag, firstn_O, app_nil_r.
        symmetry. apply firstn_all2. lia. }
    apply (Main [padded_tail]).
    + repeat constructor; auto. lia.
    + cbn. apply app_nil_r.
  - (* two tail blocks *)
    rewrite Ez. cbn [Nat.sub repeat]. rewrite app_nil_r.
    cbn [tail_blocks]. cbn [Nat.ltb Nat.leb Nat.add].
    change (skipn 0 padded_tail) with padded_tail.
    apply (Main [firstn 64 padded_tail; firstn 64 (skipn 64 padded_tail)]).
    + repeat constructor.
      * now apply bytes_firstn.
      * rewrite firstn_length_le; lia.
      * now apply bytes_firstn, bytes_skipn.
      * rewrite firstn_length_le; [reflexivity|]. rewrite skipn_length. lia.
    + cbn [concat]. rewrite app_nil_r.
      rewrite (firstn_all2 (skipn 64 padded_tail)) by (rewrite skipn_length; lia).
      apply firstn_skipn.
Qed.

(** ** Constants *)
Definition cbrt_ok (pk : N * N) : bool :=
  let '(p, k) := pk in
  (k <? 2 ^ 32) &&
  existsb (fun i => ((i * 2 ^ 32 + k) ^ 3 <=? p * 2 ^ 96) && (p * 2 ^ 96 <? (i * 2 ^ 32 + k + 1) ^ 3))
          [0; 1; 2; 3; 4; 5; 6; 7].
Definition sqrt_ok (pk : N * N) : bool :=
  let '(p, k) := pk in
  (k <? 2 ^ 32) &&
  existsb (fun i => ((i * 2 ^ 32 + k) ^ 2 <=? p * 2 ^ 64) && (p * 2 ^ 64 <? (i * 2 ^ 32 + k + 1) ^ 2))
          [0; 1; 2; 3; 4; 5; 6; 7].

Lemma cbrt_ok_sound pk : cbrt_ok pk = true -> is_cbrt_frac (fst pk) (snd pk).
Proof.
  destruct pk as [p k]. unfold cbrt_ok. rewrite andb_true_iff, existsb_exists.
  intros [Hk (i & _ & Hi)]. apply andb_true_iff in Hi as [H1 H2].
  exists i. cbn [fst snd]. split; [now apply N.ltb_lt|]. split; [now apply N.leb_le|now apply N.ltb_lt].
Qed.
Lemma sqrt_ok_sound pk : sqrt_ok pk = true -> is_sqrt_frac (fst pk) (snd pk).
Proof.
  destruct pk as [p k]. unfold sqrt_ok. rewrite andb_true_iff, existsb_exists.
  intros [Hk (i & _ & Hi)]. apply andb_true_iff in Hi as [H1 H2].
  exists i. cbn [fst snd]. split; [now apply N.ltb_lt|]. split; [now apply N.leb_le|now apply N.ltb_lt].
Qed.

Lemma Forall2_combine {A B} (P : A -> B -> Prop) (l1 : list A) (l2 : list B) :
  length l1 = length l2 -> (forall p, In p (combine l1 l2) -> P (fst p) (snd p)) -> Forall2 P l1 l2.
Proof.
  revert l2. induction l1 as [|a l1 IH]; intros [|b l2] HL H; try discriminate; constructor.
  - apply (H (a, b)). left. reflexivity.
  - apply IH; [now injection HL|]. intros p Hp. apply H. right. exact Hp.
Qed.

Lemma K_ok : Forall2 is_cbrt_frac primes64 K.
Proof.
  apply Forall2_combine; [reflexivity|]. intros p Hp. apply cbrt_ok_sound.
  assert (F : forallb cbrt_ok (combine primes64 K) = true) by (vm_compute; reflexivity).
  rewrite forallb_forall in F. auto.
Qed.
Lemma H0_ok : Forall2 is_sqrt_frac (firstn 8 primes64) H0.
Proof.
  apply Forall2_combine; [reflexivity|]. intros p Hp. apply sqrt_ok_sound.
  assert (F : forallb sqrt_ok (combine (firstn 8 primes64) H0) = true) by (vm_compute; reflexivity).
  rewrite forallb_forall in F. auto.
Qed.

Lemma sha256_iff m d : bytes m -> N.of_nat (length m) < 2 ^ 61 ->
  (is_digest K H0 m d <-> d = sha256 m).
Proof.
  intros Hb Hl. split.
  - intros H. eapply digest_unique; [exact H|]. now apply sha256_is_digest.
  - intros ->. now apply sha256_is_digest.
Qed.

Lemma word_bytes_bytes l : bytes (flat_map word_bytes l).
Proof.
  induction l as [|x l IH]; [constructor|]. cbn [flat_map]. apply bytes_app. split; [|exact IH].
  unfold word_bytes, byte. repeat constructor; apply N.mod_lt; discriminate.
Qed.

Lemma word_bytes_length l : length (flat_map word_bytes l) = (4 * length l)%nat.
Proof. induction l as [|x l IH]; [reflexivity|]. cbn [flat_map]. rewrite app_length, IH. cbn [length word_bytes]. lia. Qed.

#[local] Strategy transparent [compress].
Lemma compress_length s b : length (compress s b) = 8%nat.
Proof.
  unfold compress. destruct (fold_left (round (schedule b)) (seq 0 64) (regs_of s))
    as [[[[[[[x1 x2] x3] x4] x5] x6] x7] x8]. reflexivity.
Qed.

#[local] Strategy opaque [compress].
Lemma full_blocks_length : forall fuel s input off, length s = 8%nat ->
  length (fst (full_blocks fuel s input off)) = 8%nat.
Proof.
  induction fuel as [|f IH]; intros s input off H; [exact H|].
  rewrite full_blocks_S. destruct (Nat.leb _ _); [|exact H]. apply IH, compress_length.
Qed.

Lemma tail_blocks_length : forall fuel s t bi fl, length s = 8%nat ->
  length (tail_blocks fuel s t bi fl) = 8%nat.
Proof.
  induction fuel as [|f IH]; intros s t bi fl H; [exact H|].
  cbn [tail_blocks]. destruct (Nat.ltb _ _); [|exact H]. apply IH, compress_length.
Qed.

Lemma sha256_shape m : length (sha256 m) = 32%nat /\ bytes (sha256 m).
Proof.
  unfold sha256. pose proof (full_blocks_length (S (length m)) H0 m 0 eq_refl) as L.
  destruct (full_blocks _ _ _ _) as [s off]. cbn [fst] in L.
  destruct (tail_of _ _) as [t fl]. split.
  - rewrite word_bytes_length, tail_blocks_length by auto. reflexivity.
  - apply word_bytes_bytes.
Qed.
