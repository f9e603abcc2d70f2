(** Lemmas about SPK segment reading. *)
From Coq Require Import List NArith ZArith Lia Bool.
From Coq Require Import ZifyBool ZifyNat ZifyN.
From Verif Require Import Base Text Daf_Model Daf_Spec Daf_Proofs Spk_Model Spk_Spec.
Import ListNotations.
Local Open Scope N_scope.

Section P.
  Variable data : list N.

  Lemma ensure_cases w : (1 <= w /\ w * 8 <= size data /\ ensure_word data w = Ok tt) \/
    ((w = 0 \/ size data < w * 8) /\ exists e, ensure_word data w = Err e).
  Proof.
    unfold ensure_word, size. destruct (N.eqb_spec w 0); [right; eauto|].
    destruct (N.ltb_spec (N.of_nat (length data / 8)) w) as [H|H].
    - right. split; [|eauto]. right.
      assert (length data / 8 < N.to_nat w)%nat by lia.
      pose proof (Nat.div_mod (length data) 8). pose proof (Nat.mod_upper_bound (length data) 8). lia.
    - left. pose proof (Nat.div_mod (length data) 8). pose proof (Nat.mod_upper_bound (length data) 8).
      assert (N.to_nat w <= length data / 8)%nat by lia. repeat split; lia.
  Qed.
  Lemma ensure_ok w : 1 <= w -> w * 8 <= size data -> ensure_word data w = Ok tt.
  Proof. intros H1 H2. destruct (ensure_cases w) as [(_ & _ & E)|([X|X] & _)]; [exact E|lia|lia]. Qed.
  Lemma word_at_ok w : 1 <= w -> w * 8 <= size data -> word_at data w = Ok (wordv data w).
  Proof.
    intros H1 H2. unfold word_at. destruct (N.eqb_spec w 0); [lia|]. apply read_f64_ok. lia.
  Qed.
  Lemma read_trailer_ok w : 1 <= w -> w * 8 <= size data ->
    read_trailer data w = if f64_finite (wordv data w) then Ok (wordv data w) else Err (NotFinite w).
  Proof. intros H1 H2. unfold read_trailer. rewrite ensure_ok, word_at_ok by assumption. reflexivity. Qed.
  Lemma read_words_ok k : forall w, 1 <= w -> (w + N.of_nat k - 1) * 8 <= size data ->
    read_words data w k = Ok (map (fun i => wordv data (w + N.of_nat i)) (seq 0 k)).
  Proof.
    induction k as [|k IH]; intros w H1 H2; [reflexivity|]. cbn [read_words].
    rewrite ensure_ok by lia. cbn [obind]. rewrite word_at_ok by lia. cbn [obind].
    rewrite IH by lia. cbn [obind seq map]. f_equal. f_equal.
    - f_equal. lia.
    - rewrite <- seq_shift, map_map. apply map_ext. intros j. f_equal. lia.
  Qed.

  Lemma f64_small_lt0 w n : f64_as_usize w = n -> 1 <= n -> f64_lt0 w = false.
  Proof.
    intros <- H. unfold f64_lt0. destruct (f64_neg w) eqn:Ng; [|reflexivity]. exfalso.
    unfold f64_as_usize, f64_as in H. rewrite Ng in H.
    destruct (f64_trunc_mag w) as [m|].
    - unfold clampZ in H. destruct (Z.ltb_spec (- Z.of_N m) 0); [lia|].
      destruct (Z.ltb_spec 18446744073709551615 (- Z.of_N m)); lia.
    - destruct (f64_man w =? 0); lia.
  Qed.

  Hypothesis Hsize : size data < 9223372036854775808.

  Lemma read_segment_ok s g : well_formed data s g -> read_segment data s = Ok g.
  Proof.
    intros W. destruct W as [W1 W2 W3 [[W4a [W4b W4c]] W4d] [[W5a [W5b W5c]] W5d] [W6a [W6b W6c]] [W7a W7b] W8 (a & W9a & W9b) W10].
    unfold read_segment. set (st := s_start_word s) in *. set (en := s_end_word s) in *.
    assert (B1 : 1 <= g_n g * g_rsize g) by nia.
    assert (B2 : g_n g * g_rsize g <= 10000000 * 200) by (apply N.mul_le_mono; lia).
    destruct (N.eqb_spec st 0); [lia|]. destruct (N.eqb_spec en 0); [lia|]. cbn [orb].
    destruct (N.ltb_spec en st); [lia|]. destruct (N.leb_spec M64 (st + 3)); [unfold M64 in *; lia|].
    destruct (N.ltb_spec en (st + 3)); [lia|].
    rewrite !ensure_ok by lia. cbn [obind]. rewrite !read_trailer_ok by lia.
    rewrite W4a, W5a. cbn [obind]. rewrite <- W6a, W6b. cbn [obind]. rewrite <- W7a, W7b. cbn [obind].
    rewrite W6c, W4b, (f64_small_lt0 _ _ W4c) by lia. cbn [negb orb]. cbv zeta. rewrite W4c.
    destruct (N.eqb_spec (g_n g) 0); [lia|]. destruct (N.ltb_spec 10000000 (g_n g)); [lia|]. cbn [orb].
    rewrite W5b. cbn [negb]. rewrite W5c.
    destruct (N.leb_spec 5 (g_rsize g)); [|lia]. destruct (N.leb_spec (g_rsize g) 200); [|lia]. cbn [andb negb].
    assert (Ax : (if (s_type s =? 2)%Z then Ok 3 else if (s_type s =? 3)%Z then Ok 6 else Err (BadType (s_type s))) = @Ok N seg_err a).
    { destruct W9a as [[-> ->]|[-> ->]]; reflexivity. }
    assert (Nc : (g_rsize g - 2) / a = g_ncoeff g).
    { replace (g_rsize g - 2) with (g_ncoeff g * a) by lia. apply N.div_mul. destruct W9a as [[_ ->]|[_ ->]]; lia. }
    rewrite Ax. cbn [obind]. rewrite Nc, <- W9b, N.eqb_refl. cbn [negb].
    destruct (N.leb_spec M64 (g_n g * g_rsize g)); [unfold M64 in *; lia|].
    destruct (N.leb_spec M64 (st + g_n g * g_rsize g)); [unfold M64 in *; lia|].
    destruct (N.ltb_spec (en - 4) (st + g_n g * g_rsize g - 1)); [lia|].
    rewrite ensure_ok by lia. cbn [obind]. rewrite read_words_ok by lia. cbn [obind]. rewrite <- W10.
    rewrite <- W8. destruct g; reflexivity.
  Qed.

  Lemma read_segment_inv s : s_start_word s + 3 < M64 ->
    (exists g, read_segment data s = Ok g /\ well_formed data s g) \/ (exists e, read_segment data s = Err e).
  Proof.
    intros Hst. unfold read_segment. set (st := s_start_word s) in *. set (en := s_end_word s) in *.
    destruct (N.eqb_spec st 0); cbn [orb]; [right; eauto|]. destruct (N.eqb_spec en 0); cbn [orb]; [right; eauto|].
    destruct (N.ltb_spec en st); [right; eauto|]. destruct (N.leb_spec M64 (st + 3)); [lia|].
    destruct (N.ltb_spec en (st + 3)); [right; eauto|].
    destruct (ensure_cases en) as [(_ & Hen & ->)|(_ & e & ->)]; cbn [obind]; [|right; eauto].
    rewrite !ensure_ok by lia. cbn [obind]. rewrite !read_trailer_ok by lia.
    destruct (f64_finite (wordv data en)) eqn:F1; cbn [obind]; [|right; eauto].
    destruct (f64_finite (wordv data (en - 1))) eqn:F2; cbn [obind]; [|right; eauto].
    destruct (f64_finite (wordv data (en - 2))) eqn:F3; cbn [obind]; [|right; eauto].
    destruct (f64_finite (wordv data (en - 3))) eqn:F4; cbn [obind]; [|right; eauto].
    destruct (f64_le0 (wordv data (en - 2))) eqn:F5; [right; eauto|].
    destruct (f64_integral (wordv data en)) eqn:F6; cbn [negb orb]; [|right; eauto].
    destruct (f64_lt0 (wordv data en)) eqn:F7; [right; eauto|]. cbv zeta.
    set (nn := f64_as_usize (wordv data en)).
    destruct (N.eqb_spec nn 0); cbn [orb]; [right; eauto|]. destruct (N.ltb_spec 10000000 nn); [right; eauto|].
    destruct (f64_integral (wordv data (en - 1))) eqn:F8; cbn [negb]; [|right; eauto].
    set (rs := f64_as_usize (wordv data (en - 1))).
    destruct (N.leb_spec 5 rs); cbn [andb negb]; [|right; eauto]. destruct (N.leb_spec rs 200); cbn [negb]; [|right; eauto].
    assert (Ax : (exists a, (if (s_type s =? 2)%Z then Ok 3 else if (s_type s =? 3)%Z then Ok 6 else Err (BadType (s_type s))) = @Ok N seg_err a /\ axes_of (s_type s) a /\ (a = 3 \/ a = 6))
      \/ (exists e, (if (s_type s =? 2)%Z then Ok 3 else if (s_type s =? 3)%Z then Ok 6 else Err (BadType (s_type s))) = @Err N seg_err e)).
    { unfold axes_of. destruct (Z.eqb_spec (s_type s) 2); [left; exists 3; tauto|]. destruct (Z.eqb_spec (s_type s) 3); [left; exists 6; tauto|right; eauto]. }
    destruct Ax as [(a & -> & Ha & Ha2)|(e & ->)]; cbn [obind]; [|right; eauto].
    destruct (N.eqb_spec (2 + a * ((rs - 2) / a)) rs) as [Sh|]; cbn [negb]; [|right; eauto].
    destruct (N.leb_spec M64 (nn * rs)); [right; eauto|]. destruct (N.leb_spec M64 (st + nn * rs)); [right; eauto|].
    destruct (N.ltb_spec (en - 4) (st + nn * rs - 1)); [right; eauto|].
    assert (B1 : 1 <= nn * rs) by nia.
    rewrite ensure_ok by lia. cbn [obind]. rewrite read_words_ok by lia. cbn [obind]. left. eexists. split; [reflexivity|].
    split; cbn [g_n g_rsize g_intlen g_init g_type g_ncoeff g_records]; fold st en; try lia.
    - split; [repeat split; auto|lia].
    - split; [repeat split; auto|lia].
    - repeat split; auto.
    - split; auto.
    - exists a. split; [exact Ha|]. lia.
    - reflexivity.
  Qed.

  Theorem segment_exact s g : s_start_word s + 3 < M64 ->
    (read_segment data s = Ok g <-> well_formed data s g).
  Proof.
    intros H. split; [|apply read_segment_ok]. intros E.
    destruct (read_segment_inv s H) as [(g' & E' & W)|(e & E')]; congruence.
  Qed.

  Definition supported (s : summary) : bool := (s_frame s =? 1)%Z && ((s_type s =? 2)%Z || (s_type s =? 3)%Z).
  Theorem indexed_exact l r : Forall (fun s => s_start_word s + 3 < M64) l ->
    (parse_indexed data l = Ok r <->
     r <> [] /\ map fst r = filter supported l /\ Forall (fun '(s, g) => well_formed data s g) r).
  Proof.
    intros Hl.
    assert (G : forall r, index_segments data l = Ok r <->
       map fst r = filter supported l /\ Forall (fun '(s, g) => well_formed data s g) r).
    { clear r. induction l as [|s l IH]; intros r.
      - cbn. split; [intros [= <-]; split; [reflexivity|constructor]|]. intros [H _]. destruct r; [reflexivity|discriminate].
      - apply Forall_cons_iff in Hl as [Hs Hl]. specialize (IH Hl). cbn [index_segments filter].
        assert (Sup : (negb (s_frame s =? 1)%Z || (negb (s_type s =? 2)%Z && negb (s_type s =? 3)%Z))%bool = negb (supported s)).
        { unfold supported. destruct (s_frame s =? 1)%Z, (s_type s =? 2)%Z, (s_type s =? 3)%Z; reflexivity. }
        rewrite Sup. destruct (supported s) eqn:E; cbn [negb]; [|apply IH].
        destruct (read_segment_inv s Hs) as [(g & Eg & W)|(e & Eg)]; rewrite Eg; cbn [obind].
        + destruct (index_segments data l) as [r'|e|] eqn:Ei; cbn [obind].
          * destruct (proj1 (IH r') eq_refl) as [I1 I2]. split.
            -- intros [= <-]. cbn. split; [now rewrite I1|]. constructor; auto.
            -- intros [H1 H2]. destruct r as [|[s' g'] r]; [discriminate|]. cbn in H1. injection H1 as -> H1.
               apply Forall_cons_iff in H2 as [W' H2]. apply (segment_exact s g' Hs) in W'. rewrite W' in Eg. injection Eg as ->.
               f_equal. f_equal. assert (X : Ok r' = Ok r) by (apply IH; auto). now injection X as ->.
          * split; [discriminate|]. intros [H1 H2]. destruct r as [|[s' g'] r]; [discriminate|]. cbn in H1. injection H1 as -> H1.
            apply Forall_cons_iff in H2 as [_ H2]. assert (X : Err e = Ok r) by (apply IH; auto). discriminate.
          * split; [discriminate|]. intros [H1 H2]. destruct r as [|[s' g'] r]; [discriminate|]. cbn in H1. injection H1 as -> H1.
            apply Forall_cons_iff in H2 as [_ H2]. assert (X : Panic = Ok r) by (apply IH; auto). discriminate.
        + split; [discriminate|]. intros [H1 H2]. destruct r as [|[s' g'] r]; [discriminate|]. cbn in H1. injection H1 as -> H1.
          apply Forall_cons_iff in H2 as [W' H2]. apply (segment_exact s g' Hs) in W'. congruence. }
    unfold parse_indexed. destruct (index_segments data l) as [r'|e|] eqn:Ei; cbn [obind].
    - destruct (proj1 (G r') eq_refl) as [I1 I2]. split.
      + destruct r' as [|x r']; [discriminate|]. intros [= <-]. split; [discriminate|auto].
      + intros [H1 H2]. apply G in H2. injection H2 as ->.
        destruct r; [congruence|reflexivity].
    - split; [discriminate|]. intros [_ H]. apply G in H. discriminate.
    - split; [discriminate|]. intros [_ H]. apply G in H. discriminate.
  Qed.
End P.
