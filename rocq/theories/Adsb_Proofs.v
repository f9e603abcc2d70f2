(** Frame acceptance and payload decoding. *)
From Coq Require Import List NArith ZArith QArith PeanoNat Bool Lia ZifyBool ZifyNat ZifyN.
From Verif Require Import Base Adsb_Model Adsb_Spec Adsb_Crc Adsb_Weight.
Import ListNotations.
Local Open Scope N_scope.
Ltac Zify.zify_post_hook ::= Z.div_mod_to_equations.

Definition bytes (l : list N) := Forall (fun b => b < 256) l.

Lemma nibble_spec c v : nibble c = Some v <-> hexval c v.
Proof.
  unfold nibble. split.
  - destruct ((48 <=? c) && (c <=? 57)) eqn:E1.
    { intros [= <-]. apply hv_dec. lia. }
    destruct ((97 <=? c) && (c <=? 102)) eqn:E2.
    { intros [= <-]. replace (c - 97 + 10) with (c - 87) by lia. apply hv_low. lia. }
    destruct ((65 <=? c) && (c <=? 70)) eqn:E3; [|discriminate].
    intros [= <-]. replace (c - 65 + 10) with (c - 55) by lia. apply hv_upp. lia.
  - intros H. inversion H; subst;
      repeat match goal with
      | |- context [?a <=? ?b] => destruct (N.leb_spec a b); try lia; cbn [andb]
      end; f_equal; lia.
Qed.

Lemma hexval_bound c v : hexval c v -> v < 16.
Proof. intros H; inversion H; lia. Qed.

Lemma lor_add a b k : b < 2 ^ k -> N.lor (N.shiftl a k) b = a * 2 ^ k + b.
Proof.
  intros H. rewrite <- N.shiftl_mul_pow2. symmetry. rewrite <- N.lxor_lor.
  - apply N.add_nocarry_lxor. apply N.bits_inj. intros m. rewrite N.land_spec, N.bits_0.
    destruct (N.lt_ge_cases m k); [now rewrite N.shiftl_spec_low|].
    rewrite (bits_lt_pow2 b k) by auto. apply andb_false_r.
  - apply N.bits_inj. intros m. rewrite N.land_spec, N.bits_0.
    destruct (N.lt_ge_cases m k); [now rewrite N.shiftl_spec_low|].
    rewrite (bits_lt_pow2 b k) by auto. apply andb_false_r.
Qed.

Lemma join_nibbles hi lo : hi < 16 -> lo < 16 -> N.lor (N.shiftl hi 4 mod 256) lo = 16 * hi + lo.
Proof.
  intros H1 H2. rewrite N.mod_small by (rewrite N.shiftl_mul_pow2; change (2 ^ 4) with 16; lia).
  rewrite lor_add by exact H2. change (2 ^ 4) with 16. lia.
Qed.

Lemma hex_bytes_spec : forall s i d, hex_bytes i s = Ok d <-> hextext s d.
Proof.
  fix IH 1. intros [|x [|y s]] i d.
  - cbn. split; [intros [= <-]; constructor | intros H; inversion H; reflexivity].
  - cbn. split; [discriminate | intros H; inversion H].
  - cbn [hex_bytes]. split.
    + destruct (nibble x) as [hi|] eqn:Ex; [|discriminate].
      destruct (nibble y) as [lo|] eqn:Ey; [|discriminate].
      destruct (hex_bytes (S i) s) as [r| |] eqn:Er; try discriminate.
      intros [= <-]. apply nibble_spec in Ex, Ey.
      rewrite join_nibbles by (eapply hexval_bound; eassumption).
      constructor; auto. now apply (IH s (S i)).
    + intros H. inversion H as [|h l s' vh vl d' Hh Hl Hs]; subst.
      apply nibble_spec in Hh as Eh. apply nibble_spec in Hl as El.
      apply (IH s (S i)) in Hs. rewrite Eh, El, Hs.
      rewrite join_nibbles by (eapply hexval_bound; eassumption). reflexivity.
Qed.

Lemma hex_bytes_no_panic : forall s i, Nat.even (length s) = true -> hex_bytes i s <> Panic.
Proof.
  fix IH 1. intros [|x [|y s]] i E; [discriminate|discriminate E|].
  cbn [hex_bytes]. destruct (nibble x); [|discriminate]. destruct (nibble y); [|discriminate].
  specialize (IH s (S i) E). destruct (hex_bytes (S i) s); congruence || discriminate.
Qed.

Lemma hextext_bytes s d : hextext s d -> bytes d /\ length s = (2 * length d)%nat.
Proof.
  induction 1 as [|h l s vh vl d Hh Hl Hs [IH1 IH2]]; [split; [constructor|reflexivity]|].
  apply hexval_bound in Hh, Hl. split; [constructor; [lia|exact IH1] | cbn [length]; lia].
Qed.

Lemma parse_frame_iff s f : parse_frame s = Ok f <->
  hextext s f /\ length f = 14%nat /\ G_divides (msg_value f) /\
  (nth 0 f 0 / 8 = 17 \/ nth 0 f 0 / 8 = 18).
Proof.
  unfold parse_frame. split.
  - destruct (Nat.eqb_spec (length s) 28) as [L|]; [|discriminate]. cbn [negb].
    destruct (hex_bytes 0 s) as [b| |] eqn:E; try discriminate.
    destruct (N.eqb_spec (crc24 b) 0) as [C|]; [|discriminate]. cbn [negb].
    rewrite N.shiftr_div_pow2. change (2 ^ 3) with 8.
    destruct (N.eqb_spec (nth 0 b 0 / 8) 17) as [D|D]; cbn [negb andb].
    + intros [= <-]. apply hex_bytes_spec in E. destruct (hextext_bytes _ _ E) as [B L2].
      apply crc24_zero in C; auto. repeat split; auto. lia.
    + destruct (N.eqb_spec (nth 0 b 0 / 8) 18) as [D2|D2]; cbn [negb andb]; [|discriminate].
      intros [= <-]. apply hex_bytes_spec in E. destruct (hextext_bytes _ _ E) as [B L2].
      apply crc24_zero in C; auto. repeat split; auto. lia.
  - intros (E & L & C & D). destruct (hextext_bytes _ _ E) as [B L2].
    destruct (Nat.eqb_spec (length s) 28) as [_|]; [|lia]. cbn [negb].
    apply (hex_bytes_spec s 0) in E. rewrite E. apply crc24_zero in C; auto. rewrite C.
    change (negb (0 =? 0)) with false. cbv iota.
    rewrite N.shiftr_div_pow2. change (2 ^ 3) with 8.
    destruct D as [-> | ->]; reflexivity.
Qed.

Lemma parse_frame_no_panic s : parse_frame s <> Panic.
Proof.
  unfold parse_frame. destruct (Nat.eqb_spec (length s) 28) as [L|]; [|discriminate]. cbn [negb].
  pose proof (hex_bytes_no_panic s 0) as P. rewrite L in P. specialize (P eq_refl).
  destruct (hex_bytes 0 s) as [a|e|]; [|discriminate|congruence].
  destruct (negb _); [discriminate|]. destruct (_ && _); discriminate.
Qed.

(** Exactly one verdict: the parity error is reported for any well-formed text whose
    bytes are not a multiple of the generator. *)
Lemma parse_frame_crc s f : hextext s f -> length f = 14%nat ->
  (parse_frame s = Err BadCrc <-> ~ G_divides (msg_value f)).
Proof.
  intros E L. destruct (hextext_bytes _ _ E) as [B L2].
  unfold parse_frame. destruct (Nat.eqb_spec (length s) 28) as [_|]; [|lia]. cbn [negb].
  apply (hex_bytes_spec s 0) in E. rewrite E. rewrite <- crc24_zero by auto.
  destruct (N.eqb_spec (crc24 f) 0) as [C|C]; cbn [negb].
  - split; [|tauto]. destruct (_ && _); discriminate.
  - tauto.
Qed.

Lemma burst_rejected s f s' f' e k :
  parse_frame s = Ok f -> 0 < e < 2 ^ 24 ->
  hextext s' f' -> length f' = 14%nat ->
  msg_value f' = N.lxor (msg_value f) (N.shiftl e k) ->
  parse_frame s' = Err BadCrc.
Proof.
  intros P He E L V. apply parse_frame_iff in P as (_ & _ & D & _).
  apply (parse_frame_crc s' f' E L). rewrite V, G_divides_lxor by exact D.
  now apply burst_not_divisible.
Qed.

Lemma flips_rejected s f s' f' e :
  parse_frame s = Ok f -> e < 2 ^ 112 ->
  ((1 <= ones 112 e <= 5)%nat \/ Nat.odd (ones 112 e) = true) ->
  hextext s' f' -> length f' = 14%nat -> msg_value f' = N.lxor (msg_value f) e ->
  parse_frame s' = Err BadCrc.
Proof.
  intros P He W E L V. apply parse_frame_iff in P as (_ & _ & D & _).
  apply (parse_frame_crc s' f' E L). rewrite V, G_divides_lxor by exact D.
  destruct W as [W|W].
  - now apply few_bits_not_divisible.
  - now apply (odd_not_divisible 112).
Qed.

(** ** Fields *)
Lemma land_ones_mod a k : N.land a (N.ones k) = a mod 2 ^ k.
Proof. apply N.land_ones. Qed.
Lemma land7 a : N.land a 7 = a mod 8. Proof. exact (N.land_ones a 3). Qed.
Lemma land3 a : N.land a 3 = a mod 4. Proof. exact (N.land_ones a 2). Qed.
Lemma land1 a : N.land a 1 = a mod 2. Proof. exact (N.land_ones a 1). Qed.
Lemma land15 a : N.land a 15 = a mod 16. Proof. exact (N.land_ones a 4). Qed.
Lemma land63 a : N.land a 63 = a mod 64. Proof. exact (N.land_ones a 6). Qed.
Lemma land127 a : N.land a 127 = a mod 128. Proof. exact (N.land_ones a 7). Qed.

Lemma land_pow2_testbit a k : negb (N.land a (2 ^ k) =? 0) = N.testbit a k.
Proof.
  destruct (N.testbit a k) eqn:E.
  - destruct (N.eqb_spec (N.land a (2 ^ k)) 0) as [Z|]; [|reflexivity].
    exfalso. apply (f_equal (fun x => N.testbit x k)) in Z.
    rewrite N.land_spec, N.pow2_bits_true, E, N.bits_0 in Z. discriminate.
  - destruct (N.eqb_spec (N.land a (2 ^ k)) 0) as [|NZ]; [reflexivity|].
    exfalso. apply NZ. apply N.bits_inj. intros m. rewrite N.land_spec, N.bits_0, N.pow2_bits_eqb.
    destruct (N.eqb_spec k m) as [<-|]; [now rewrite E | apply andb_false_r].
Qed.

(** Explicit value of a 14-byte frame. *)
Lemma frame14 (f : list N) : length f = 14%nat -> exists b0 b1 b2 b3 b4 b5 b6 b7 b8 b9 b10 b11 b12 b13,
  f = [b0; b1; b2; b3; b4; b5; b6; b7; b8; b9; b10; b11; b12; b13].
Proof.
  intros L. do 14 (destruct f as [|? f]; [discriminate L|]). destruct f; [|discriminate L].
  do 14 eexists. reflexivity.
Qed.

Ltac frame f B L :=
  let H := fresh in
  destruct (frame14 f L) as (b0 & b1 & b2 & b3 & b4 & b5 & b6 & b7 & b8 & b9 & b10 & b11 & b12 & b13 & ->);
  repeat (match goal with H : bytes (_ :: _) |- _ => apply Forall_cons_iff in H; destruct H as [? H] end
       || match goal with H : Forall _ (_ :: _) |- _ => apply Forall_cons_iff in H; destruct H as [? H] end).

Ltac numpow :=
  repeat match goal with
  | |- context [2 ^ ?k] => let v := eval vm_compute in (2 ^ k) in change (2 ^ k) with v
  end.

Lemma testbit_div a n : N.testbit a n = ((a / 2 ^ n) mod 2 =? 1).
Proof. apply N.testbit_eqb. Qed.

Lemma field_split M A V B lo w :
  M = A * 2 ^ (lo + w) + V * 2 ^ lo + B -> B < 2 ^ lo -> V < 2 ^ w -> field M lo w = V.
Proof.
  intros -> HB HV. unfold field. rewrite N.pow_add_r.
  replace (A * (2 ^ lo * 2 ^ w) + V * 2 ^ lo + B) with ((A * 2 ^ w + V) * 2 ^ lo + B) by ring.
  assert (2 ^ lo <> 0) by (apply N.pow_nonzero; discriminate).
  assert (2 ^ w <> 0) by (apply N.pow_nonzero; discriminate).
  rewrite N.div_add_l by auto. rewrite (N.div_small B) by auto.
  rewrite N.add_0_r, N.add_comm, N.mod_add by auto. now apply N.mod_small.
Qed.

Lemma testbit_split M A V B lo :
  M = A * 2 ^ (lo + 1) + V * 2 ^ lo + B -> B < 2 ^ lo -> V < 2 -> N.testbit M lo = (V =? 1).
Proof.
  intros E HB HV. rewrite testbit_div. change 2 with (2 ^ 1) at 2.
  change ((M / 2 ^ lo) mod 2 ^ 1) with (field M lo 1).
  rewrite (field_split M A V B lo 1) by auto. reflexivity.
Qed.

Ltac fld A V B := rewrite (field_split _ A V B) by (numpow; lia).

Lemma type_code_field f : bytes f -> length f = 14%nat -> type_code f = field (msg_value f) 75 5.
Proof.
  intros B L. frame f B L. unfold type_code. cbn [nth msg_value fold_left].
  rewrite N.shiftr_div_pow2. symmetry.
  apply (field_split _ (((b0 * 256 + b1) * 256 + b2) * 256 + b3) (b4 / 2 ^ 3)
    (((((((((b4 mod 8 * 256 + b5) * 256 + b6) * 256 + b7) * 256 + b8) * 256 + b9) * 256 + b10) * 256 + b11) * 256 + b12) * 256 + b13));
   numpow; lia.
Qed.

Lemma header_fields f : bytes f -> length f = 14%nat ->
  downlink_format f = field (msg_value f) 107 5 /\ icao24 f = field (msg_value f) 80 24.
Proof.
  intros B L. frame f B L. unfold downlink_format, icao24. cbn [nth msg_value fold_left].
  rewrite N.shiftr_div_pow2.
  replace (N.lor (N.lor (N.shiftl b1 16) (N.shiftl b2 8)) b3) with (b1 * 65536 + b2 * 256 + b3).
  2:{ rewrite <- N.lor_assoc, (lor_add b2 b3 8) by assumption. rewrite lor_add by (numpow; lia). numpow. lia. }
  split; symmetry.
  - apply (field_split _ 0 (b0 / 2 ^ 3)
    (((((((((((((b0 mod 8 * 256 + b1) * 256 + b2) * 256 + b3) * 256 + b4) * 256 + b5) * 256 + b6) * 256 + b7) * 256 + b8) * 256 + b9) * 256 + b10) * 256 + b11) * 256 + b12) * 256 + b13));
   numpow; lia.
  - apply (field_split _ b0 (b1 * 65536 + b2 * 256 + b3)
     (((((((((b4 * 256 + b5) * 256 + b6) * 256 + b7) * 256 + b8) * 256 + b9) * 256 + b10) * 256 + b11) * 256 + b12) * 256 + b13));
   numpow; lia.
Qed.

Notation tail4 x b5 b6 b7 b8 b9 b10 b11 b12 b13 :=
  (((((((((x * 256 + b5) * 256 + b6) * 256 + b7) * 256 + b8) * 256 + b9) * 256 + b10) * 256 + b11) * 256 + b12) * 256 + b13) (only parsing).

Lemma position_fields f : bytes f -> length f = 14%nat ->
  let M := msg_value f in
  decode_airborne_position f =
  if (9 <=? field M 75 5) && (field M 75 5 <=? 18) then
    Some {| surveillance_status := field M 73 2; single_antenna := N.testbit M 72;
            encoded_altitude := field M 60 12; cpr_odd := N.testbit M 58;
            cpr_lat := field M 41 17; cpr_lon := field M 24 17 |}
  else None.
Proof.
  intros B L M. unfold decode_airborne_position. rewrite (type_code_field f B L). fold M.
  destruct ((9 <=? field M 75 5) && (field M 75 5 <=? 18)); cbn [negb]; [|reflexivity].
  frame f B L. unfold me. cbn [firstn skipn nth]. unfold M. cbn [msg_value fold_left]. clear M.
  change 4 with (2 ^ 2) at 3. rewrite land_pow2_testbit.
  change (N.land b4 1) with (N.land b4 (2 ^ 0)). rewrite land_pow2_testbit.
  rewrite !land3, !land1, !N.shiftr_div_pow2.
  f_equal. f_equal; symmetry.
  - apply (field_split _ (((b0 * 256 + b1) * 256 + b2) * 256 * 32 + b3 * 32 + b4 / 8) ((b4 / 2 ^ 1) mod 4)
      (tail4 (b4 mod 2) b5 b6 b7 b8 b9 b10 b11 b12 b13)); numpow; lia.
  - rewrite (testbit_div b4 0).
    apply (testbit_split _ (((b0 * 256 + b1) * 256 + b2) * 256 * 128 + b3 * 128 + b4 / 2) ((b4 / 2 ^ 0) mod 2)
      (tail4 0 b5 b6 b7 b8 b9 b10 b11 b12 b13)); numpow; lia.
  - rewrite lor_add by (numpow; lia).
    apply (field_split _ ((((b0 * 256 + b1) * 256 + b2) * 256 + b3) * 256 + b4) (b5 * 2 ^ 4 + b6 / 2 ^ 4)
      (tail4 0 0 (b6 mod 16) b7 b8 b9 b10 b11 b12 b13)); numpow; lia.
  - rewrite (testbit_div b6 2).
    apply (testbit_split _ ((((((b0 * 256 + b1) * 256 + b2) * 256 + b3) * 256 + b4) * 256 + b5) * 32 + b6 / 8)
      ((b6 / 2 ^ 2) mod 2)
      (tail4 0 0 (b6 mod 4) b7 b8 b9 b10 b11 b12 b13)); numpow; lia.
  - rewrite <- N.lor_assoc, (lor_add b7 (b8 / 2 ^ 1)) by (numpow; lia).
    rewrite lor_add by (numpow; lia).
    apply (field_split _ ((((((b0 * 256 + b1) * 256 + b2) * 256 + b3) * 256 + b4) * 256 + b5) * 64 + b6 / 4)
      (b6 mod 4 * 2 ^ 15 + (b7 * 2 ^ 7 + b8 / 2 ^ 1))
      (tail4 0 0 0 0 (b8 mod 2) b9 b10 b11 b12 b13)); numpow; lia.
  - rewrite <- N.lor_assoc, (lor_add b9 b10) by (numpow; lia).
    rewrite lor_add by (numpow; lia).
    apply (field_split _ ((((((((b0 * 256 + b1) * 256 + b2) * 256 + b3) * 256 + b4) * 256 + b5) * 256 + b6) * 256 + b7) * 128 + b8 / 2)
      (b8 mod 2 * 2 ^ 16 + (b9 * 2 ^ 8 + b10))
      (tail4 0 0 0 0 0 0 0 b11 b12 b13)); numpow; lia.
Qed.

Lemma velocity_fields f : bytes f -> length f = 14%nat ->
  let M := msg_value f in
  decode_airborne_velocity f =
  if negb (field M 75 5 =? 19) then Err (VelTypeCode (field M 75 5))
  else if (field M 72 3 =? 1) || (field M 72 3 =? 2) then
    Ok {| v_east := ((if N.testbit M 66 then -1 else 1) * (Z.of_N (field M 56 10) - 1))%Z;
          v_north := ((if N.testbit M 55 then -1 else 1) * (Z.of_N (field M 45 10) - 1))%Z;
          v_scale := if field M 72 3 =? 2 then 4%Z else 1%Z;
          v_rate_fpm := ((if N.testbit M 43 then -1 else 1) * (Z.of_N (field M 34 9) - 1) * 64)%Z;
          v_has_heading := negb ((field M 56 10 =? 1) && (field M 45 10 =? 1)) |}
  else Err (VelSubType (field M 72 3)).
Proof.
  intros B L M. unfold decode_airborne_velocity. rewrite (type_code_field f B L). fold M.
  destruct (negb (field M 75 5 =? 19)); [reflexivity|].
  frame f B L. unfold me. cbn [firstn skipn nth].
  unfold sgn.
  change 4 with (2 ^ 2) at 1. change 0x80 with (2 ^ 7). rewrite !land_pow2_testbit.
  change (N.land b8 8) with (N.land b8 (2 ^ 3)). rewrite !land_pow2_testbit.
  rewrite !land3, !land7, !land127, !N.shiftr_div_pow2.
  rewrite !lor_add by (numpow; lia).
  assert (E72 : field M 72 3 = b4 mod 8).
  { apply (field_split _ ((((b0 * 256 + b1) * 256 + b2) * 256 + b3) * 32 + b4 / 8) (b4 mod 8)
      (tail4 0 b5 b6 b7 b8 b9 b10 b11 b12 b13)); unfold M; cbn [msg_value fold_left]; numpow; lia. }
  assert (E66 : N.testbit M 66 = N.testbit b5 2).
  { rewrite (testbit_div b5 2). apply (testbit_split _ (((((b0 * 256 + b1) * 256 + b2) * 256 + b3) * 256 + b4) * 32 + b5 / 8)
      ((b5 / 2 ^ 2) mod 2) (tail4 0 (b5 mod 4) b6 b7 b8 b9 b10 b11 b12 b13));
      unfold M; cbn [msg_value fold_left]; numpow; lia. }
  assert (E56 : field M 56 10 = b5 mod 4 * 2 ^ 8 + b6).
  { apply (field_split _ (((((b0 * 256 + b1) * 256 + b2) * 256 + b3) * 256 + b4) * 64 + b5 / 4)
      (b5 mod 4 * 2 ^ 8 + b6) (tail4 0 0 0 b7 b8 b9 b10 b11 b12 b13));
      unfold M; cbn [msg_value fold_left]; numpow; lia. }
  assert (E55 : N.testbit M 55 = N.testbit b7 7).
  { rewrite (testbit_div b7 7). apply (testbit_split _ (((((((b0 * 256 + b1) * 256 + b2) * 256 + b3) * 256 + b4) * 256 + b5) * 256 + b6))
      ((b7 / 2 ^ 7) mod 2) (tail4 0 0 0 (b7 mod 128) b8 b9 b10 b11 b12 b13));
      unfold M; cbn [msg_value fold_left]; numpow; lia. }
  assert (E45 : field M 45 10 = b7 mod 128 * 2 ^ 3 + b8 / 2 ^ 5).
  { apply (field_split _ ((((((((b0 * 256 + b1) * 256 + b2) * 256 + b3) * 256 + b4) * 256 + b5) * 256 + b6)) * 2 + b7 / 128)
      (b7 mod 128 * 2 ^ 3 + b8 / 2 ^ 5) (tail4 0 0 0 0 (b8 mod 32) b9 b10 b11 b12 b13));
      unfold M; cbn [msg_value fold_left]; numpow; lia. }
  assert (E43 : N.testbit M 43 = N.testbit b8 3).
  { rewrite (testbit_div b8 3). apply (testbit_split _ (((((((((b0 * 256 + b1) * 256 + b2) * 256 + b3) * 256 + b4) * 256 + b5) * 256 + b6)) * 256 + b7) * 16 + b8 / 16)
      ((b8 / 2 ^ 3) mod 2) (tail4 0 0 0 0 (b8 mod 8) b9 b10 b11 b12 b13));
      unfold M; cbn [msg_value fold_left]; numpow; lia. }
  assert (E34 : field M 34 9 = b8 mod 8 * 2 ^ 6 + b9 / 2 ^ 2).
  { apply (field_split _ (((((((((b0 * 256 + b1) * 256 + b2) * 256 + b3) * 256 + b4) * 256 + b5) * 256 + b6)) * 256 + b7) * 32 + b8 / 8)
      (b8 mod 8 * 2 ^ 6 + b9 / 2 ^ 2) (tail4 0 0 0 0 0 (b9 mod 4) b10 b11 b12 b13));
      unfold M; cbn [msg_value fold_left]; numpow; lia. }
  rewrite E72, E66, E56, E55, E45, E43, E34. clearbody M.
  destruct ((b4 mod 8 =? 1) || (b4 mod 8 =? 2)); [|reflexivity].
  f_equal. f_equal. f_equal. f_equal.
  - generalize (b5 mod 4 * 2 ^ 8 + b6). intros x. lia.
  - generalize (b7 mod 128 * 2 ^ 3 + b8 / 2 ^ 5). intros x. lia.
Qed.

(** ** Altitude *)
Lemma altitude_spec c : c < 4096 ->
  decode_altitude c =
  if N.testbit c 4 then Some (inject_Z (25 * Z.of_N (16 * (c / 32) + c mod 16) - 1000) * (3048 # 10000))%Q
  else None.
Proof.
  intros H. unfold decode_altitude. rewrite land1, land15, !N.shiftr_div_pow2, testbit_div.
  destruct (N.eqb_spec c 0) as [->|Hc]; [reflexivity|].
  destruct ((c / 2 ^ 4) mod 2 =? 1); [|reflexivity].
  f_equal. f_equal. f_equal.
  assert (E : N.lor (N.shiftl (c / 2 ^ 5) 4 mod 65536) (c mod 16) = 16 * (c / 32) + c mod 16).
  { rewrite N.mod_small by (rewrite N.shiftl_mul_pow2; numpow; lia).
    rewrite lor_add by (numpow; lia). numpow. lia. }
  rewrite E. lia.
Qed.

Lemma altitude_range c q : c < 4096 -> decode_altitude c = Some q ->
  (-1000 * (3048 # 10000) <= q /\ q <= 50175 * (3048 # 10000))%Q.
Proof.
  intros H. rewrite altitude_spec by auto. destruct (N.testbit c 4); [|discriminate].
  assert (B : 16 * (c / 32) + c mod 16 <= 2047) by lia.
  assert (E : (-1000 <= 25 * Z.of_N (16 * (c / 32) + c mod 16) - 1000 <= 50175)%Z) by lia.
  revert E. generalize (25 * Z.of_N (16 * (c / 32) + c mod 16) - 1000)%Z. intros z Hz.
  intros [= <-]. unfold Qle, Qmult, inject_Z. cbn [Qnum Qden]. lia.
Qed.

Lemma altitude_inj c1 c2 q1 q2 : c1 < 4096 -> c2 < 4096 ->
  decode_altitude c1 = Some q1 -> decode_altitude c2 = Some q2 -> (q1 == q2)%Q -> c1 = c2.
Proof.
  intros H1 H2. rewrite !altitude_spec, !testbit_div by auto.
  destruct (N.eqb_spec ((c1 / 2 ^ 4) mod 2) 1) as [B1|]; [|discriminate].
  destruct (N.eqb_spec ((c2 / 2 ^ 4) mod 2) 1) as [B2|]; [|discriminate].
  assert (E : (25 * Z.of_N (16 * (c1 / 32) + c1 mod 16) - 1000 =
               25 * Z.of_N (16 * (c2 / 32) + c2 mod 16) - 1000)%Z -> c1 = c2).
  { change (2 ^ 4) with 16 in *. lia. }
  revert E. generalize (25 * Z.of_N (16 * (c1 / 32) + c1 mod 16) - 1000)%Z.
  generalize (25 * Z.of_N (16 * (c2 / 32) + c2 mod 16) - 1000)%Z. intros z2 z1 E.
  intros [= <-] [= <-]. unfold Qeq, Qmult, inject_Z. cbn [Qnum Qden]. intros Hz. apply E. lia.
Qed.

(** ** Callsign *)
Lemma charset_spec v : v < 64 -> forall c,
  (nth (N.to_nat v) CHARSET 35 = c /\ c <> 35) <-> sixbit c v.
Proof.
  intros H c. split.
  - intros [E Hc].
    assert (F : forallb (fun v => let c := nth (N.to_nat v) CHARSET 35 in
        (c =? 35) || ((65 <=? c) && (c <=? 90) && (v =? c - 64)) || ((c =? 32) && (v =? 32)) ||
        ((48 <=? c) && (c <=? 57) && (v =? c))) (map N.of_nat (seq 0 64)) = true) by (vm_compute; reflexivity).
    rewrite forallb_forall in F. specialize (F v).
    assert (I : In v (map N.of_nat (seq 0 64))).
    { apply in_map_iff. exists (N.to_nat v). rewrite N2Nat.id. split; [reflexivity|]. apply in_seq. lia. }
    specialize (F I). cbv zeta in F. rewrite E in F.
    destruct (N.eqb_spec c 35); [congruence|]. cbn [orb] in F.
    destruct ((65 <=? c) && (c <=? 90) && (v =? c - 64)) eqn:E1.
    { replace v with (c - 64) by lia. apply sb_letter. lia. }
    destruct ((c =? 32) && (v =? 32)) eqn:E2.
    { replace v with 32 by lia. replace c with 32 by lia. apply sb_space. }
    cbn [orb] in F. replace v with c by lia. apply sb_digit. lia.
  - assert (F : forallb (fun c => nth (N.to_nat (c - 64)) CHARSET 35 =? c) (map N.of_nat (seq 65 26)) = true)
      by (vm_compute; reflexivity).
    assert (F2 : forallb (fun c => nth (N.to_nat c) CHARSET 35 =? c) (map N.of_nat (seq 48 10)) = true)
      by (vm_compute; reflexivity).
    rewrite forallb_forall in F, F2.
    assert (I : forall a n x, a <= x < a + n -> In x (map N.of_nat (seq (N.to_nat a) (N.to_nat n)))).
    { intros a n x Hx. apply in_map_iff. exists (N.to_nat x). rewrite N2Nat.id. split; [reflexivity|].
      apply in_seq. lia. }
    intros S. inversion S; subst.
    + split; [|lia]. apply N.eqb_eq. apply (F c). apply (I 65 26). lia.
    + split; [reflexivity|discriminate].
    + split; [|lia]. apply N.eqb_eq. apply (F2 v). apply (I 48 10). lia.
Qed.

Lemma trim_end_spec s : stripped s (trim_end s).
Proof.
  unfold stripped. induction s as [|c s [[k E] N]]; cbn [trim_end].
  - split; [exists 0%nat; reflexivity|]. intros [|] ; discriminate.
  - destruct (trim_end s) as [|x r] eqn:T.
    + destruct (N.eqb_spec c 32) as [->|Hc].
      * split; [exists (S k); now rewrite E|]. intros [|]; discriminate.
      * split; [exists k; now rewrite E|]. intros [|y t]; cbn; [congruence|].
        intros [= _ Hn]. destruct t; discriminate.
    + split; [exists k; now rewrite E|]. intros [|y t]; cbn; [discriminate|].
      intros [= _ Hn]. now apply (N t).
Qed.

Lemma stripped_unique s a b : stripped s a -> stripped s b -> a = b.
Proof.
  intros [[k1 E1] N1] [[k2 E2] N2].
  assert (G : forall (a b : list N) k1 k2, a ++ repeat 32 k1 = b ++ repeat 32 k2 ->
      (forall t, a <> t ++ [32]) -> (k1 <= k2)%nat -> a = b).
  { clear. intros a b k1 k2 E N Hk.
    assert (E' : a ++ repeat 32 k1 = (b ++ repeat 32 (k2 - k1)) ++ repeat 32 k1).
    { rewrite <- app_assoc, <- repeat_app. replace (k2 - k1 + k1)%nat with k2 by lia. exact E. }
    apply app_inv_tail in E'. destruct (k2 - k1)%nat as [|d]; [now rewrite app_nil_r in E'|].
    exfalso. apply (N (b ++ repeat 32 d)). rewrite <- app_assoc.
    change [32] with (repeat 32 1). rewrite <- repeat_app, Nat.add_1_r. exact E'. }
  destruct (Nat.le_ge_cases k1 k2).
  - eapply G; [rewrite <- E1; exact E2| |]; auto.
  - symmetry. eapply G; [rewrite <- E2; exact E1| |]; auto.
Qed.

(** Digit [i] (of 8, most significant first) of a packed word. *)
Definition six (bits : N) (i : nat) : N := (bits / 2 ^ N.of_nat (42 - i * 6)) mod 64.

Lemma ident_chars_spec bits n : forall i cs,
  ident_chars bits i n = Ok cs <-> Forall2 sixbit cs (map (six bits) (seq i n)).
Proof.
  induction n as [|n IH]; intros i cs; cbn [ident_chars seq map].
  - split; [intros [= <-]; constructor | intros H; inversion H; reflexivity].
  - rewrite land63, N.shiftr_div_pow2. fold (six bits i).
    assert (Hs : six bits i < 64) by (apply N.mod_lt; discriminate).
    pose proof (charset_spec (six bits i) Hs) as C.
    split.
    + destruct (N.eqb_spec (nth (N.to_nat (six bits i)) CHARSET 35) 35) as [|Hc]; [discriminate|].
      destruct (ident_chars bits (S i) n) as [r| |] eqn:E; try discriminate.
      intros [= <-]. constructor; [apply C; auto|]. now apply IH.
    + intros H. inversion H as [|c v cs' vs' Hc Hcs]; subst.
      apply C in Hc as [Hc Hn]. rewrite Hc. destruct (N.eqb_spec c 35); [congruence|].
      apply IH in Hcs. now rewrite Hcs.
Qed.

Lemma ident_chars_no_panic bits n : forall i, ident_chars bits i n <> Panic.
Proof.
  induction n as [|n IH]; intros i; cbn [ident_chars]; [discriminate|].
  destruct (_ =? 35); [discriminate|]. specialize (IH (S i)).
  destruct (ident_chars bits (S i) n); congruence || discriminate.
Qed.

Lemma pack6_six bits : bits < 2 ^ 48 -> pack6 (map (six bits) (seq 0 8)) = bits.
Proof.
  intros H. unfold pack6, six. cbn [seq map fold_left Nat.mul Nat.add Nat.sub N.of_nat Pos.of_succ_nat Pos.succ].
  revert H. numpow. intros H.
  rewrite N.div_1_r.
  change 4096 with (64 * 64).
  change 262144 with (64 * 64 * 64).
  change 16777216 with (64 * 64 * 64 * 64).
  change 1073741824 with (64 * 64 * 64 * 64 * 64).
  change 68719476736 with (64 * 64 * 64 * 64 * 64 * 64).
  change 4398046511104 with (64 * 64 * 64 * 64 * 64 * 64 * 64).
  rewrite <- !N.div_div by discriminate.
  pose proof (N.div_mod bits 64) as D0. set (x1 := bits / 64) in *.
  pose proof (N.div_mod x1 64) as D1. set (x2 := x1 / 64) in *.
  pose proof (N.div_mod x2 64) as D2. set (x3 := x2 / 64) in *.
  pose proof (N.div_mod x3 64) as D3. set (x4 := x3 / 64) in *.
  pose proof (N.div_mod x4 64) as D4. set (x5 := x4 / 64) in *.
  pose proof (N.div_mod x5 64) as D5. set (x6 := x5 / 64) in *.
  pose proof (N.div_mod x6 64) as D6. set (x7 := x6 / 64) in *.
  assert (H7 : x7 < 64).
  { unfold x7, x6, x5, x4, x3, x2, x1. rewrite !N.div_div by discriminate.
    apply N.div_lt_upper_bound; [discriminate|]. exact H. }
  rewrite (N.mod_small x7) by exact H7.
  specialize (D0 ltac:(discriminate)). specialize (D1 ltac:(discriminate)). specialize (D2 ltac:(discriminate)).
  specialize (D3 ltac:(discriminate)). specialize (D4 ltac:(discriminate)). specialize (D5 ltac:(discriminate)).
  specialize (D6 ltac:(discriminate)).
  replace ((0 * 64 + x7) * 64 + x6 mod 64) with x6 by (rewrite D6 at 1; ring).
  replace (x6 * 64 + x5 mod 64) with x5 by (rewrite D5 at 1; ring).
  replace (x5 * 64 + x4 mod 64) with x4 by (rewrite D4 at 1; ring).
  replace (x4 * 64 + x3 mod 64) with x3 by (rewrite D3 at 1; ring).
  replace (x3 * 64 + x2 mod 64) with x2 by (rewrite D2 at 1; ring).
  replace (x2 * 64 + x1 mod 64) with x1 by (rewrite D1 at 1; ring).
  rewrite D0 at 2. ring.
Qed.

Lemma six_pack6 vs : length vs = 8%nat -> Forall (fun v => v < 64) vs ->
  map (six (pack6 vs)) (seq 0 8) = vs /\ pack6 vs < 2 ^ 48.
Proof.
  intros L F. do 8 (destruct vs as [|? vs]; [discriminate L|]). destruct vs; [|discriminate L].
  repeat (apply Forall_cons_iff in F; destruct F as [? F]).
  unfold pack6. cbn [fold_left]. split.
  - unfold six. cbn [seq map Nat.mul Nat.add Nat.sub N.of_nat Pos.of_succ_nat Pos.succ].
    numpow.
    rewrite N.div_1_r. repeat (apply f_equal2; [lia|]). reflexivity.
  - numpow. lia.
Qed.

Lemma ident_bits_field f : bytes f -> length f = 14%nat ->
  ident_bits (me f) = field (msg_value f) 24 48 /\ N.land (nth 0 (me f) 0) 7 = field (msg_value f) 72 3.
Proof.
  intros B L. frame f B L. unfold me. cbn [firstn skipn nth]. unfold ident_bits. cbn [nth]. split; symmetry.
  - rewrite <- !N.lor_assoc.
    rewrite (lor_add b9 b10 8) by (numpow; lia).
    rewrite (lor_add b8 _ 16) by (numpow; lia).
    rewrite (lor_add b7 _ 24) by (numpow; lia).
    rewrite (lor_add b6 _ 32) by (numpow; lia).
    rewrite (lor_add b5 _ 40) by (numpow; lia).
    apply (field_split _ ((((b0 * 256 + b1) * 256 + b2) * 256 + b3) * 256 + b4) _ ((b11 * 256 + b12) * 256 + b13));
      cbn [msg_value fold_left]; numpow; lia.
  - rewrite land7.
    apply (field_split _ ((((b0 * 256 + b1) * 256 + b2) * 256 + b3) * 32 + b4 / 8) (b4 mod 8)
      (tail4 0 b5 b6 b7 b8 b9 b10 b11 b12 b13)); cbn [msg_value fold_left]; numpow; lia.
Qed.

Lemma sixbit_lt c v : sixbit c v -> v < 64.
Proof. intros H; inversion H; lia. Qed.

Lemma Forall2_sixbit_lt cs vs : Forall2 sixbit cs vs -> Forall (fun v => v < 64) vs.
Proof. induction 1; constructor; auto. eapply sixbit_lt; eauto. Qed.

Lemma Forall2_len {A B} (R : A -> B -> Prop) l1 l2 : Forall2 R l1 l2 -> length l1 = length l2.
Proof. induction 1; cbn; congruence. Qed.

Lemma identification_iff f cat cs : bytes f -> length f = 14%nat ->
  let M := msg_value f in
  (decode_identification f = Ok (cat, cs) <->
   1 <= field M 75 5 <= 4 /\ cat = field M 72 3 /\
   exists cs8 vs, length cs8 = 8%nat /\ Forall2 sixbit cs8 vs /\
     field M 24 48 = pack6 vs /\ stripped cs8 cs).
Proof.
  intros B L M. unfold decode_identification. rewrite (type_code_field f B L). fold M.
  destruct (ident_bits_field f B L) as [Eb Ec]. fold M in Eb, Ec. rewrite Eb, Ec.
  assert (Hb : field M 24 48 < 2 ^ 48) by (apply N.mod_lt; discriminate).
  split.
  - destruct ((1 <=? field M 75 5) && (field M 75 5 <=? 4)) eqn:T; cbn [negb]; [|discriminate].
    destruct (ident_chars (field M 24 48) 0 8) as [r| |] eqn:E; try discriminate.
    intros [= <- <-]. split; [lia|]. split; [reflexivity|].
    apply ident_chars_spec in E. exists r, (map (six (field M 24 48)) (seq 0 8)).
    split; [|split; [exact E|split]].
    + apply Forall2_len in E. now rewrite map_length, seq_length in E.
    + symmetry. now apply pack6_six.
    + apply trim_end_spec.
  - intros (T & -> & cs8 & vs & L8 & F & P & S).
    replace ((1 <=? field M 75 5) && (field M 75 5 <=? 4)) with true by lia. cbn [negb].
    destruct (six_pack6 vs) as [E6 _].
    { apply Forall2_len in F. congruence. }
    { eapply Forall2_sixbit_lt; eauto. }
    assert (E : ident_chars (field M 24 48) 0 8 = Ok cs8).
    { apply ident_chars_spec. rewrite P, E6. exact F. }
    rewrite E. f_equal. f_equal. eapply stripped_unique; [apply trim_end_spec | exact S].
Qed.

Lemma identification_no_panic f : decode_identification f <> Panic.
Proof.
  unfold decode_identification. destruct (negb _); [discriminate|].
  pose proof (ident_chars_no_panic (ident_bits (me f)) 8 0).
  destruct (ident_chars _ _ _); congruence || discriminate.
Qed.
