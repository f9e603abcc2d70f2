(** Proofs about the TLE code. *)
From Coq Require Import Ascii String List NArith ZArith Lia Bool QArith Qround Qabs Lqa.
From Coq Require Import ZifyBool ZifyNat ZifyN.
From Verif Require Import Base Text DecFloat Tle_Model Tle_Spec.
Import ListNotations.
Local Open Scope N_scope.

(** ** Checksums *)
Lemma checksum_weights s : compute_checksum s = weights s mod 10.
Proof.
  unfold compute_checksum. f_equal.
  assert (G : forall s a, fold_left (fun sum b => sum + checksum_val b) s a = a + weights s).
  { clear. induction s as [|c s IH]; intros a; cbn [fold_left weights fold_right].
    - lia.
    - rewrite IH. fold (weights s). unfold checksum_val, weight, is_digit. lia. }
  rewrite G. lia.
Qed.

Lemma checksum_lt s : compute_checksum s < 10.
Proof. unfold compute_checksum. apply N.mod_lt. discriminate. Qed.

Lemma validate_iff line : forallb is_ascii line = true ->
  (validate_tle_checksum line = Ok tt <->
   length line = 69%nat /\ nth 68 line 0 = 48 + weights (firstn 68 line) mod 10).
Proof.
  intros A. unfold validate_tle_checksum.
  destruct (Nat.eqb_spec (length line) 69) as [L|L]; cbn [negb]; [|split; [discriminate|tauto]].
  rewrite slice_ascii by (auto; lia). cbn [obind skipn Nat.sub].
  rewrite checksum_weights. pose proof (N.mod_lt (weights (firstn 68 line)) 10 ltac:(discriminate)) as M.
  set (w := weights (firstn 68 line) mod 10) in *. unfold is_digit.
  set (c := nth 68 line 0) in *.
  destruct ((48 <=? c) && (c <=? 57)) eqn:D; cbn [negb].
  - destruct (N.eqb_spec (c - 48) w) as [E|E]; cbn [negb]; split; intros H; try discriminate; auto.
    + split; [auto|lia].
    + exfalso. destruct H as [_ H]. lia.
  - split; [discriminate|]. intros [_ H]. exfalso. lia.
Qed.

Lemma validate_err line : forallb is_ascii line = true -> length line = 69%nat ->
  validate_tle_checksum line <> Ok tt -> exists a b c, validate_tle_checksum line = Err (BadChecksum a b c).
Proof.
  intros A L. unfold validate_tle_checksum. rewrite L. cbn [Nat.eqb negb].
  rewrite slice_ascii by (auto; lia). cbn [obind].
  destruct (is_digit (nth 68 line 0)); cbn [negb]; [|eauto].
  destruct (_ =? _); cbn [negb]; [congruence|eauto].
Qed.

Lemma weights_app a b : weights (a ++ b) = weights a + weights b.
Proof. unfold weights. induction a as [|c a IH]; cbn [fold_right app]; [lia|]. rewrite IH. lia. Qed.

Lemma weights_upd s i v : (i < length s)%nat ->
  weights (upd s i v) + weight (nth i s 0) = weights s + weight v.
Proof.
  revert i; induction s as [|c s IH]; intros [|i] H; cbn [length] in H; try lia.
  - cbn [upd nth weights fold_right]. lia.
  - cbn [upd nth weights fold_right]. specialize (IH i ltac:(lia)). unfold weights in *. lia.
Qed.

Lemma firstn_upd_lt {A} (s : list A) k i v : (i < k)%nat -> firstn k (upd s i v) = upd (firstn k s) i v.
Proof.
  revert k i; induction s as [|c s IH]; intros [|k] [|i] H; cbn; try lia; auto.
  f_equal. apply IH. lia.
Qed.
Lemma firstn_upd_ge {A} (s : list A) k i v : (k <= i)%nat -> firstn k (upd s i v) = firstn k s.
Proof.
  revert k i; induction s as [|c s IH]; intros [|k] [|i] H; cbn; try lia; auto.
  f_equal. apply IH. lia.
Qed.

Lemma ascii_upd s i v : forallb is_ascii s = true -> is_ascii v = true -> forallb is_ascii (upd s i v) = true.
Proof.
  intros Hs Hv. revert i; induction s as [|c s IH]; intros i; [destruct i; reflexivity|].
  cbn in Hs. apply andb_prop in Hs as [Hc Hs]. destruct i; cbn; rewrite ?Hv, ?Hc; cbn; auto.
Qed.

Lemma weight_le c : weight c <= 9.
Proof. unfold weight. destruct ((48 <=? c) && (c <=? 57)) eqn:E; [lia|]. destruct (c =? 45); lia. Qed.

(** A change of one column is noticed unless it keeps the column's weight. *)
Lemma one_column_change line i v : forallb is_ascii line = true -> is_ascii v = true ->
  (i < 69)%nat -> validate_tle_checksum line = Ok tt -> v <> nth i line 0 ->
  (validate_tle_checksum (upd line i v) = Ok tt <-> (i < 68)%nat /\ weight v = weight (nth i line 0)).
Proof.
  intros A Av Hi V Hv. apply validate_iff in V as [L E]; auto.
  rewrite validate_iff by (now apply ascii_upd). rewrite upd_length, L.
  destruct (Nat.eq_dec i 68) as [->|Hn].
  - rewrite firstn_upd_ge, nth_upd_eq by lia. split; [intros [_ X]; congruence|lia].
  - rewrite firstn_upd_lt, nth_upd_neq by lia.
    assert (W := weights_upd (firstn 68 line) i v). rewrite firstn_length, L in W.
    assert (N1 : nth i (firstn 68 line) 0 = nth i line 0).
    { rewrite <- (firstn_skipn 68 line) at 2. rewrite app_nth1; [reflexivity|]. rewrite firstn_length. lia. }
    rewrite N1 in W. specialize (W ltac:(lia)).
    pose proof (weight_le v). pose proof (weight_le (nth i line 0)).
    set (a := weights (upd (firstn 68 line) i v)) in *. set (b := weights (firstn 68 line)) in *.
    set (x := weight v) in *. set (y := weight (nth i line 0)) in *. clearbody a b x y.
    rewrite E. split; [intros [_ X]; split; lia|intros [_ X]; split; [reflexivity|lia]].
Qed.

Lemma weight_digit c : is_digit c = true -> weight c = c - 48.
Proof. unfold is_digit, weight. intros ->. reflexivity. Qed.

Lemma digit_ascii c : is_digit c = true -> is_ascii c = true.
Proof. unfold is_digit, is_ascii. lia. Qed.

Lemma digit_change_rejected line i d : forallb is_ascii line = true -> (i < 69)%nat ->
  validate_tle_checksum line = Ok tt -> is_digit (nth i line 0) = true -> is_digit d = true ->
  d <> nth i line 0 -> exists a b c, validate_tle_checksum (upd line i d) = Err (BadChecksum a b c).
Proof.
  intros A Hi V D1 D2 Hd.
  apply validate_err.
  - apply ascii_upd; auto. now apply digit_ascii.
  - rewrite upd_length. apply validate_iff in V; tauto.
  - rewrite one_column_change; auto using digit_ascii. rewrite !weight_digit by auto. unfold is_digit in *. lia.
Qed.

Lemma dec_small n : n < 10 -> dec n = [48 + n].
Proof.
  intros H. unfold dec. assert (E : ndig n = 1%nat).
  { pose proof (ndig_spec n) as (_ & B & _). pose proof (ndig_le n 1 ltac:(lia) ltac:(cbn; lia)). lia. }
  rewrite E. cbn [digits app]. f_equal. lia.
Qed.

Lemma with_checksum_valid l : forallb is_ascii l = true -> length l = 68%nat ->
  length (with_checksum l) = 69%nat /\ forallb is_ascii (with_checksum l) = true /\
  validate_tle_checksum (with_checksum l) = Ok tt.
Proof.
  intros A L. unfold with_checksum. pose proof (checksum_lt l) as C. rewrite dec_small by auto.
  assert (A2 : forallb is_ascii (l ++ [48 + compute_checksum l]) = true).
  { rewrite forallb_app, A. cbn [forallb andb]. unfold is_ascii. lia. }
  assert (L2 : length (l ++ [48 + compute_checksum l]) = 69%nat) by (rewrite app_length, L; reflexivity).
  split; [exact L2|]. split; [exact A2|]. apply validate_iff; auto. split; [exact L2|].
  rewrite <- checksum_weights.
  rewrite app_nth2 by lia. rewrite L. cbn [Nat.sub nth].
  rewrite firstn_app, (firstn_all2 l) by lia. rewrite L. cbn [Nat.sub firstn]. rewrite app_nil_r. reflexivity.
Qed.

(** ** Catalogue numbers *)
Lemma pad0_nonempty w n : pad0 w n <> [].
Proof.
  intros E. apply (f_equal (@length N)) in E. rewrite pad0_length in E. cbn in E.
  pose proof (ndig_spec n). lia.
Qed.

Lemma trim_start_digits s : forallb is_digit s = true -> trim_start s = s.
Proof.
  intros H. destruct s as [|c s]; [reflexivity|]. apply trim_start_id. cbn in *.
  apply andb_prop in H as [H _]. now apply digit_not_ws.
Qed.

Lemma alpha5_roundtrip n : n < 340000 ->
  exists s, format_alpha5 n = Ok s /\ length s = 5%nat /\ forallb is_ascii s = true /\
    is_ws (hd 0 s) = false /\ sat_parse s = Ok n.
Proof.
  intros H. unfold format_alpha5. destruct (N.ltb_spec n 100000) as [H1|H1].
  - exists (pad0 5 n). split; [reflexivity|].
    assert (L : length (pad0 5 n) = 5%nat).
    { rewrite pad0_fit, digits_length; auto; try lia. }
    split; [exact L|].
    assert (D := pad0_digit 5 n).
    split. { rewrite forallb_forall in *. intros x Hx. now apply digit_ascii, D. }
    pose proof (pad0_nonempty 5 n) as Ne.
    assert (Hd : exists c t, pad0 5 n = c :: t /\ 48 <= c <= 57) by (now apply digit_head_not_sign).
    destruct Hd as (c & t & E & Hc).
    split. { rewrite E. cbn [hd]. unfold is_ws. lia. }
    unfold sat_parse. rewrite trim_start_digits by auto. rewrite E, <- E, L. cbn [Nat.ltb Nat.leb].
    replace (is_digit c) with true by (unfold is_digit; lia).
    rewrite parse_uint_digits, dval_pad0 by auto. unfold u32_max.
    destruct (N.leb_spec n 4294967295); [reflexivity|lia].
  - destruct (N.leb_spec 340000 n); [lia|].
    set (high := n / 10000). set (tail := n mod 10000).
    assert (Hh : 10 <= high <= 33) by (unfold high; lia).
    assert (Ht : tail < 10000) by (unfold tail; lia).
    assert (En : n = high * 10000 + tail) by (unfold high, tail; lia).
    clearbody high tail. subst n.
    assert (Lt : length (pad0 4 tail) = 4%nat) by (rewrite pad0_fit, digits_length; auto; lia).
    assert (At : forallb is_ascii (pad0 4 tail) = true).
    { pose proof (pad0_digit 4 tail) as D. rewrite forallb_forall in *. intros x Hx. now apply digit_ascii, D. }
    assert (P : forall letter, 65 <= letter <= 90 -> letter <> 73 -> letter <> 79 ->
       (letter <= 72 -> letter - 65 + 10 = high) -> (74 <= letter <= 78 -> letter - 74 + 18 = high) ->
       (80 <= letter -> letter - 80 + 23 = high) ->
       length (letter :: pad0 4 tail) = 5%nat /\ forallb is_ascii (letter :: pad0 4 tail) = true /\
       is_ws (hd 0 (letter :: pad0 4 tail)) = false /\
       sat_parse (letter :: pad0 4 tail) = Ok (high * 10000 + tail)).
    { intros c B1 B2 B3 E1 E2 E3.
      split; [cbn [length]; lia|]. split; [cbn [forallb]; rewrite At; unfold is_ascii; lia|].
      assert (Wc : is_ws c = false) by (unfold is_ws; lia).
      split; [exact Wc|].
      unfold sat_parse. rewrite trim_start_id by exact Wc.
      cbn [length]. rewrite Lt. cbn [Nat.ltb Nat.leb].
      replace (is_digit c) with false by (unfold is_digit; lia).
      destruct (N.leb_spec 65 c); [|lia]. destruct (N.leb_spec c 90); [|lia].
      destruct (N.eqb_spec c 73); [lia|]. destruct (N.eqb_spec c 79); [lia|]. cbn [negb andb orb].
      rewrite pad0_digit. cbn [Nat.eqb negb orb].
      rewrite parse_uint_digits by (apply pad0_digit || apply pad0_nonempty). rewrite dval_pad0.
      unfold u32_max. destruct (N.leb_spec tail 4294967295); [|lia].
      destruct (N.leb_spec c 72); cbn [andb obind need].
      - now rewrite E1 by lia.
      - destruct (N.leb_spec 74 c); cbn [andb]; [|lia].
        destruct (N.leb_spec c 78); cbn [andb obind need].
        + now rewrite E2 by lia.
        + destruct (N.leb_spec 80 c); cbn [andb obind need]; [|lia]. now rewrite E3 by lia. }
    destruct (N.leb_spec 10 high); [|lia]. cbn [andb].
    destruct (N.leb_spec high 17); cbn [obind].
    { eexists. split; [reflexivity|]. apply P; lia. }
    destruct (N.leb_spec 18 high); [|lia]. cbn [andb].
    destruct (N.leb_spec high 22); cbn [obind].
    { eexists. split; [reflexivity|]. apply P; lia. }
    destruct (N.leb_spec 23 high); [|lia]. cbn [andb].
    destruct (N.leb_spec high 33); [|lia]. cbn [obind].
    eexists. split; [reflexivity|]. apply P; lia.
Qed.

Lemma alpha5_refused n : 340000 <= n -> format_alpha5 n = Err InvalidAlpha5.
Proof.
  intros H. unfold format_alpha5. destruct (N.ltb_spec n 100000); [lia|]. destruct (N.leb_spec 340000 n); [|lia]. reflexivity.
Qed.

(** Full-width texts are canonical: reading then writing gives the text back. *)
Lemma alpha5_canonical s n : length s = 5%nat -> is_ws (hd 0 s) = false -> sat_parse s = Ok n ->
  format_alpha5 n = Ok s.
Proof.
  intros L W. unfold sat_parse. rewrite trim_start_id by auto.
  destruct s as [|c t]; [discriminate|]. cbn [length] in L. cbn [length].
  destruct (Nat.ltb_spec 5 (S (length t))); [lia|].
  destruct (is_digit c) eqn:Dc.
  - unfold parse_uint. destruct (N.eqb_spec c 43); [subst; discriminate|].
    destruct (forallb is_digit (c :: t)) eqn:D; [|discriminate].
    destruct (_ <=? _); [|discriminate]. cbn [need]. intros [= <-].
    pose proof (dval_bound _ D) as B. cbn [length] in B. rewrite L in B.
    change (10 ^ N.of_nat 5) with 100000 in B.
    unfold format_alpha5. destruct (N.ltb_spec (dval (c :: t)) 100000); [|lia].
    f_equal. rewrite pad0_fit by (auto; lia).
    rewrite <- L. now apply (digits_dval (c :: t)).
  - destruct (negb ((65 <=? c) && (c <=? 90)) || (c =? 73) || (c =? 79)) eqn:G; [discriminate|].
    intros H1.
    assert (Hc : 65 <= c <= 90 /\ c <> 73 /\ c <> 79).
    { apply orb_false_iff in G as [G G3]. apply orb_false_iff in G as [G1 G2].
      apply negb_false_iff in G1. lia. }
    clear G.
    set (v := (if (65 <=? c) && (c <=? 72) then Ok (c - 65 + 10) else _)) in H1.
    assert (Hv : exists val, v = Ok val /\ (c <= 72 -> val = c - 65 + 10) /\
       (74 <= c <= 78 -> val = c - 74 + 18) /\ (80 <= c -> val = c - 80 + 23)).
    { unfold v.
      destruct (N.leb_spec 65 c); [|lia]. destruct (N.leb_spec c 72); cbn [andb].
      { eexists; split; [reflexivity|]; lia. }
      destruct (N.leb_spec 74 c); [|lia]. destruct (N.leb_spec c 78); cbn [andb].
      { eexists; split; [reflexivity|]; lia. }
      destruct (N.leb_spec 80 c); [|lia]. destruct (N.leb_spec c 90); [|lia]. cbn [andb].
      eexists; split; [reflexivity|]; lia. }
    destruct Hv as (val & Ev & V1 & V2 & V3). rewrite Ev in H1. cbn [obind] in H1.
    destruct (Nat.eqb_spec (length t) 4) as [L4|]; [|discriminate]. cbn [negb orb] in H1.
    destruct (forallb is_digit t) eqn:Dt; [|discriminate]. cbn [negb] in H1.
    assert (Nt : t <> []) by (destruct t; [discriminate|congruence]).
    rewrite parse_uint_digits in H1 by auto.
    pose proof (dval_bound _ Dt) as B. rewrite L4 in B. change (10 ^ N.of_nat 4) with 10000 in B.
    unfold u32_max in H1. destruct (N.leb_spec (dval t) 4294967295); [|lia]. cbn [need obind] in H1.
    revert H1. set (n0 := val * 10000 + dval t). intros H1. assert (E : n = n0) by congruence. subst n. clear H1.
    assert (Ed : n0 / 10000 = val) by (unfold n0; lia).
    assert (Em : n0 mod 10000 = dval t) by (unfold n0; lia).
    assert (Rv : 10 <= val <= 33) by lia.
    unfold format_alpha5.
    destruct (N.ltb_spec n0 100000); [unfold n0 in *; lia|]. destruct (N.leb_spec 340000 n0); [unfold n0 in *; lia|].
    rewrite Ed, Em.
    assert (Et : pad0 4 (dval t) = t).
    { rewrite pad0_fit by (auto; lia). rewrite <- L4 at 1. now apply digits_dval. }
    rewrite Et. clearbody n0. clear Et Em Ed.
    destruct (N.leb_spec 10 val); [|lia].
    destruct (N.leb_spec val 17); cbn [andb obind]; [do 2 f_equal; lia|].
    destruct (N.leb_spec 18 val); [|lia]. destruct (N.leb_spec val 22); cbn [andb obind]; [do 2 f_equal; lia|].
    destruct (N.leb_spec 23 val); [|lia]. destruct (N.leb_spec val 33); [|lia]. cbn [andb obind]. do 2 f_equal; lia.
Qed.

Lemma sat_parse_no_panic s : sat_parse s <> Panic.
Proof.
  unfold sat_parse. destruct (trim_start s) as [|c t]; [discriminate|].
  destruct (_ <? _)%nat; [discriminate|]. destruct (is_digit c).
  { destruct (parse_uint _ _); discriminate. }
  destruct (_ || _ || _); [discriminate|].
  destruct (_ && _); cbn [obind]; [|destruct (_ && _); cbn [obind]; [|destruct (_ && _); cbn [obind]; [|discriminate]]];
  (destruct (_ || _); [discriminate|destruct (parse_uint _ _); discriminate]).
Qed.

(** ** Years and designators *)
Lemma year_roundtrip yy : (0 <= yy <= 99)%Z ->
  (expand_two_digit_year yy mod 100 = yy /\ 1957 <= expand_two_digit_year yy <= 2056)%Z.
Proof. intros H. unfold expand_two_digit_year. destruct (Z.leb_spec 57 yy); lia. Qed.
Lemma year_survives y : (expand_two_digit_year (y mod 100) = y <-> 1957 <= y <= 2056)%Z.
Proof. unfold expand_two_digit_year. destruct (Z.leb_spec 57 (y mod 100)); lia. Qed.

Lemma find_char_head c s : hd 0 s = c -> s <> [] -> find_char c s = Some O.
Proof. destruct s as [|x s]; [congruence|]. cbn. intros -> _. now rewrite N.eqb_refl. Qed.

Lemma digits_no_dash k n : ~ In 45 (digits k n).
Proof.
  intros H. pose proof (digits_digit k n) as D. rewrite forallb_forall in D. apply D in H. discriminate.
Qed.

Lemma solid_app_l a s : a <> [] -> is_ws (hd 0 a) = false -> is_ws (last (a ++ s) 0) = false -> solid (a ++ s).
Proof. intros H1 H2 H3. right. split; [|exact H3]. destruct a; [congruence|exact H2]. Qed.

Lemma contract_expand f : forallb is_ascii f = true ->
  contract_intl_designator (expand_intl_designator f) = trim f.
Proof.
  intros A. unfold expand_intl_designator.
  pose proof (trim_is_solid f) as S0. set (s := trim f) in *.
  assert (As : forallb is_ascii s = true).
  { assert (G : forall x, In x s -> In x f).
    { unfold s, trim, trim_end. intros x Hx. apply in_rev in Hx.
      assert (T : forall u y, In y (trim_start u) -> In y u).
      { clear. induction u as [|c u IH]; cbn; [tauto|]. intros y. destruct (is_ws c); [auto|]. cbn; tauto. }
      apply T in Hx. rewrite <- in_rev in Hx. now apply T. }
    rewrite forallb_forall in *. auto. }
  rewrite As. cbn [negb]. rewrite orb_false_r.
  assert (Id : contract_intl_designator s = s \/ exists d, find_char 45 s = Some d /\ (length (firstn d s) =? 4)%nat && forallb is_digit (firstn d s) = true).
  { unfold contract_intl_designator. rewrite trim_solid by auto.
    destruct (find_char 45 s) as [d|]; [|now left].
    destruct ((length (firstn d s) =? 4)%nat && forallb is_digit (firstn d s)) eqn:G; [|now left].
    right. eauto. }
  destruct (Nat.ltb_spec (length s) 5) as [L|L].
  { destruct Id as [Id|(d & F & G)]; [exact Id|]. exfalso.
    apply find_char_some in F as (_ & _ & F). apply andb_prop in G as [G _].
    apply Nat.eqb_eq in G. rewrite firstn_length in G. lia. }
  destruct (negb (is_digit (nth 0 s 0)) || negb (is_digit (nth 1 s 0))) eqn:D.
  { destruct Id as [Id|(d & F & G)]; [exact Id|]. exfalso.
    apply andb_prop in G as [G1 G2]. apply Nat.eqb_eq in G1.
    destruct s as [|a [|b s]]; cbn in L; try lia.
    destruct d as [|[|d]]; cbn in G1; try lia. cbn in G2. cbn in D.
    destruct (is_digit a), (is_digit b); discriminate. }
  apply orb_false_iff in D as [D1 D2]. apply negb_false_iff in D1, D2.
  destruct s as [|a [|b [|c2 [|c3 [|c4 r]]]]] eqn:Es; cbn [length] in L; try lia.
  cbn [nth] in D1, D2. cbn [firstn skipn].
  assert (Dab : forallb is_digit [a; b] = true) by (cbn; rewrite D1, D2; reflexivity).
  rewrite parse_int_digits by (auto; discriminate).
  pose proof (dval_bound _ Dab) as Bv. cbn [length] in Bv. change (10 ^ N.of_nat 2) with 100 in Bv.
  set (v := dval [a; b]) in *. unfold i32_max. destruct (N.leb_spec v 2147483647); [|lia].
  destruct (year_roundtrip (Z.of_N v) ltac:(lia)) as [Y1 Y2].
  set (y := expand_two_digit_year (Z.of_N v)) in *.
  set (yN := Z.to_N y). assert (ByN : 1957 <= yN <= 2056) by (unfold yN; lia).
  assert (Ey : yN mod 100 = v).
  { apply N2Z.inj. rewrite N2Z.inj_mod. unfold yN. rewrite Z2N.id by lia. exact Y1. }
  rewrite pad0_fit by (cbn; lia).
  set (rest := [c2; c3; c4] ++ r).
  assert (S1 : solid (digits 4 yN ++ [45] ++ rest)).
  { rewrite app_assoc. destruct S0 as [S0|[_ S0]]; [discriminate|].
    apply solid_app_l.
    - destruct (digits 4 yN); discriminate.
    - pose proof (digits_digit 4 yN) as Dd. pose proof (digits_length 4 yN) as Ld.
      destruct (digits 4 yN) as [|x xs]; [discriminate|]. cbn in *. apply andb_prop in Dd as [Dd _]. now apply digit_not_ws.
    - assert (E1 : forall (p q : str), q <> [] -> last (p ++ q) 0 = last q 0).
      { clear. intros p q Hq. destruct (exists_last Hq) as (l & x & ->). rewrite app_assoc, !last_last. reflexivity. }
      rewrite E1 by discriminate. change (a :: b :: c2 :: c3 :: c4 :: r) with ([a; b] ++ rest) in S0.
      rewrite E1 in S0 by discriminate. exact S0. }
  unfold contract_intl_designator. rewrite trim_solid by auto.
  change ([45] ++ rest) with (45 :: rest). rewrite find_char_app by apply digits_no_dash.
  rewrite digits_length.
  assert (F4 : firstn 4 (digits 4 yN ++ 45 :: rest) = digits 4 yN).
  { apply firstn_app_exact, digits_length. }
  assert (S5 : skipn 5 (digits 4 yN ++ 45 :: rest) = rest).
  { apply skipn_app_cons, digits_length. }
  rewrite F4, S5, digits_length, digits_digit. cbn [Nat.eqb andb].
  assert (E2 : skipn 2 (digits 4 yN) = [a; b]).
  { apply dval_inj; auto.
    - pose proof (digits_digit 4 yN) as Dd. rewrite <- (firstn_skipn 2 (digits 4 yN)), forallb_app in Dd.
      now apply andb_prop in Dd as [_ ->].
    - assert (X := dval_app (firstn 2 (digits 4 yN)) (skipn 2 (digits 4 yN))).
      rewrite firstn_skipn, dval_digits, skipn_length, digits_length in X.
      change (10 ^ N.of_nat (4 - 2)) with 100 in X. change (10 ^ N.of_nat 4) with 10000 in X.
      rewrite N.mod_small in X by lia.
      assert (Bs : dval (skipn 2 (digits 4 yN)) < 100).
      { pose proof (digits_digit 4 yN) as Dd. rewrite <- (firstn_skipn 2 (digits 4 yN)), forallb_app in Dd.
        apply andb_prop in Dd as [_ Dd]. apply dval_bound in Dd. rewrite skipn_length, digits_length in Dd. exact Dd. }
      fold v. rewrite <- Ey. revert X Bs. generalize (dval (skipn 2 (digits 4 yN))), (dval (firstn 2 (digits 4 yN))).
      clear. intros x z ->. lia. }
  rewrite E2. reflexivity.
Qed.
