(** Lemmas about the keyword-value message. *)
From Coq Require Import Ascii String List NArith ZArith Lia Bool QArith Qabs Lqa.
From Coq Require Import ZifyBool ZifyNat ZifyN.
From Verif Require Import Base Text DecFloat Tle_Model Tle_Spec Tle_Proofs Tle_Fields Tle_Roundtrip Omm_Model.
Import ListNotations.
Local Open Scope N_scope.

(** ** Lines *)
Definition one_line (s : str) : Prop := ~ In 10 s.
Definition good_key (k : str) : Prop :=
  k <> [] /\ solid k /\ ~ In 61 k /\ one_line k /\ starts_with (lit "COMMENT") k = false /\
  (forall c, starts_with (lit "COMMENT") (k ++ [32] ++ c) = false).
Definition good_val (v : str) : Prop := solid v /\ one_line v.

Lemma split_lines_app l rest : one_line l -> split_lines (l ++ 10 :: rest) = l :: split_lines rest.
Proof.
  induction l as [|c l IH]; intros H.
  - cbn [app split_lines]. destruct (split_lines rest) eqn:E; [|reflexivity].
    exfalso. destruct rest as [|x r]; [discriminate|]. cbn in E. destruct (split_lines r); [discriminate|]. destruct (x =? 10); discriminate.
  - cbn [app split_lines]. rewrite IH by (intros X; apply H; now right).
    destruct (N.eqb_spec c 10); [exfalso; apply H; now left|reflexivity].
Qed.

Lemma last_app_r (a b : str) d : b <> [] -> last (a ++ b) d = last b d.
Proof.
  intros H. destruct (exists_last H) as (l & x & ->). rewrite app_assoc, !last_last. reflexivity.
Qed.

Lemma kv_line_spec k v : good_key k -> good_val v -> kv_line (k ++ [32; 61; 32] ++ v) = [(k, v)].
Proof.
  intros (Kn & Ks & K61 & _ & Kc & Kc2) (Vs & _).
  destruct Ks as [->|[K1 K2]]; [congruence|].
  assert (T : trim (k ++ [32; 61; 32] ++ v) = k ++ [32; 61] ++ (match v with [] => [] | _ => 32 :: v end)).
  { destruct v as [|c t].
    - unfold trim. rewrite trim_start_app_solid by auto.
      change (k ++ [32;61;32] ++ []) with (k ++ [32;61] ++ repeat 32 1). rewrite app_assoc, trim_end_spaces.
      cbn [app]. apply trim_end_id. rewrite last_app_r by discriminate. reflexivity.
    - destruct Vs as [|[V1 V2]]; [discriminate|]. apply trim_solid. right. split.
      + destruct k; [congruence|]. exact K1.
      + change (k ++ [32; 61; 32] ++ c :: t) with (k ++ ([32; 61; 32] ++ c :: t)).
        rewrite last_app_r by discriminate. rewrite last_app_r by discriminate. exact V2. }
  unfold kv_line. rewrite T. set (w := match v with [] => [] | _ => 32 :: v end).
  destruct (k ++ [32; 61] ++ w) as [|x l] eqn:E; [destruct k; discriminate|]. rewrite <- E.
  change ([32; 61] ++ w) with ([32] ++ 61 :: w). rewrite Kc2.
  rewrite app_assoc. rewrite find_char_app.
  - rewrite firstn_app_exact by reflexivity. rewrite skipn_app_cons by reflexivity.
    f_equal. f_equal.
    + unfold trim. rewrite trim_start_app_solid by auto. change [32] with (repeat 32 1).
      rewrite trim_end_spaces. now apply trim_end_id.
    + unfold w. destruct v as [|c t]; [reflexivity|]. change (32 :: c :: t) with (repeat 32 1 ++ c :: t).
      unfold trim. rewrite trim_start_spaces. apply trim_solid. exact Vs.
  - intros X. apply in_app_or in X as [X|X]; [contradiction|]. destruct X as [X|[]]. discriminate.
Qed.

Lemma kv_parse_spec kvs : Forall (fun kv => good_key (fst kv) /\ good_val (snd kv)) kvs ->
  kv_parse (concat (map kline kvs)) = kvs.
Proof.
  unfold kv_parse. induction 1 as [|[k v] kvs [Hk Hv] _ IH]; [reflexivity|].
  cbn [map concat fst snd] in *. unfold kline at 1. cbn [fst snd].
  replace ((k ++ [32; 61; 32] ++ v ++ [10]) ++ concat (map kline kvs))
    with ((k ++ [32; 61; 32] ++ v) ++ 10 :: concat (map kline kvs)) by (rewrite <- !app_assoc; reflexivity).
  rewrite split_lines_app.
  - cbn [flat_map]. rewrite kv_line_spec by auto. rewrite IH. reflexivity.
  - destruct Hk as (_ & _ & _ & H1 & _). destruct Hv as (_ & H2). unfold one_line in *.
    intros X. apply in_app_or in X as [X|X]; [contradiction|].
    apply in_app_or in X as [X|X]; [|contradiction]. destruct X as [X|[X|[X|[]]]]; discriminate.
Qed.

(** ** Numbers in scientific notation *)
Lemma fmt_exp_close p v : exists x, parse_f64 (fmt_exp p v) = Some (Fin x) /\
  (Qabs (x - v) <= Qabs v * ((1 # 2) * p10 (- Z.of_nat p)))%Q.
Proof.
  unfold fmt_exp. destruct (Qeq_bool v 0) eqn:Z0.
  { apply Qeq_bool_iff in Z0.
    assert (S1 : parse_f64 ((if false then [45] else []) ++ [48] ++ (if negb (p =? 0)%nat then 46 :: digits p 0 else []) ++ [101; 48]) =
       Some (Fin (qsgn false (QofN (dval ([48] ++ if (p =? 0)%nat then [] else digits p 0)) * p10 (0 - Z.of_nat (length (if (p =? 0)%nat then [] else digits p 0))))))).
    { replace (if negb (p =? 0)%nat then 46 :: digits p 0 else []) with
        (if negb (p =? 0)%nat then 46 :: (if (p =? 0)%nat then [] else digits p 0) else []) by (destruct (p =? 0)%nat; reflexivity).
      apply (parse_f64_dec false [48] (if (p =? 0)%nat then [] else digits p 0) (negb (p =? 0)%nat) [101; 48] 0); try reflexivity.
      - destruct (p =? 0)%nat; [reflexivity|apply digits_digit].
      - discriminate.
      - destruct (p =? 0)%nat; [reflexivity|discriminate]. }
    exists (qsgn false (QofN (dval ([48] ++ if (p =? 0)%nat then [] else digits p 0)) * p10 (0 - Z.of_nat (length (if (p =? 0)%nat then [] else digits p 0))))).
    split.
    - rewrite <- S1. cbn [app]. destruct (p =? 0)%nat; reflexivity.
    - assert (D : dval ([48] ++ if (p =? 0)%nat then [] else digits p 0) = 0).
      { destruct (p =? 0)%nat; [reflexivity|]. rewrite dval_app, dval_digits. change (dval [48]) with 0.
        rewrite N.mod_0_l by (apply N.pow_nonzero; discriminate). lia. }
      rewrite D. cbn [qsgn]. change (QofN 0) with 0%Q. set (P := p10 (0 - _)).
      assert (E : (0 * P - v == 0)%Q) by (rewrite Z0; ring). rewrite E, Z0. cbn. lra. }
  assert (Pm : (0 < Qabs v)%Q).
  { apply Qeq_bool_neq in Z0. destruct (Qlt_le_dec 0 (Qabs v)) as [|X]; auto. exfalso. apply Z0.
    apply (Qabs_Qle_condition v 0) in X. lra. }
  set (mag := Qabs v) in *. set (e := log10_floor mag).
  destruct (log10_floor_spec mag Pm) as [L1 L2]. fold e in L1, L2.
  set (y := (mag * p10 (Z.of_nat p - e))%Q). set (mz := round_even y).
  pose proof (round_even_err y) as Er. fold mz in Er. apply Qabs_Qle_condition in Er.
  pose proof (p10_pos (Z.of_nat p - e)) as Pp. pose proof (p10_pos (e - Z.of_nat p)) as Pq.
  assert (PQ : (p10 (Z.of_nat p - e) * p10 (e - Z.of_nat p) == 1)%Q).
  { rewrite <- p10_add. replace (Z.of_nat p - e + (e - Z.of_nat p))%Z with 0%Z by lia. reflexivity. }
  assert (Hp : (p10 e * p10 (Z.of_nat p - e) == QofN (10 ^ N.of_nat p))%Q).
  { rewrite <- p10_add, <- p10_nat. replace (e + (Z.of_nat p - e))%Z with (Z.of_nat p) by lia. reflexivity. }
  assert (Y1 : (QofN (10 ^ N.of_nat p) <= y)%Q).
  { rewrite <- Hp. unfold y. apply Qmult_le_compat_r; [exact L1|lra]. }
  assert (Y2 : (y < QofN (10 ^ N.of_nat p) * 10)%Q).
  { rewrite <- Hp. unfold y. rewrite p10_add in L2. change (p10 1) with 10%Q in L2.
    assert (E : (p10 e * p10 (Z.of_nat p - e) * 10 == p10 e * 10 * p10 (Z.of_nat p - e))%Q) by ring.
    rewrite E. apply Qmult_lt_r; assumption. }
  assert (Pow : (10 ^ (N.of_nat p + 1) = 10 * 10 ^ N.of_nat p)%N) by (rewrite N.add_1_r, N.pow_succ_r'; reflexivity).
  set (T := 10 ^ N.of_nat p) in *. assert (HT : 0 < T) by (pose proof (N.pow_nonzero 10 (N.of_nat p)); lia).
  assert (M1 : (Z.of_N T <= mz)%Z).
  { destruct (Z_le_gt_dec (Z.of_N T) mz) as [|G]; auto. exfalso.
    assert (inject_Z mz <= inject_Z (Z.of_N T - 1))%Q by (rewrite <- Zle_Qle; lia).
    unfold Z.sub in H. rewrite inject_Z_plus in H. change (inject_Z (- (1))) with (-1)%Q in H.
    change (inject_Z (Z.of_N T)) with (QofN T) in H. lra. }
  assert (M2 : (mz <= Z.of_N (10 * T))%Z).
  { destruct (Z_le_gt_dec mz (Z.of_N (10 * T))) as [|G]; auto. exfalso.
    assert (inject_Z (Z.of_N (10 * T) + 1) <= inject_Z mz)%Q by (rewrite <- Zle_Qle; lia).
    rewrite inject_Z_plus in H. change (inject_Z (Z.of_N (10 * T))) with (QofN (10 * T)) in H.
    rewrite QofN_mul in H. change (QofN 10) with 10%Q in H. change (inject_Z 1) with 1%Q in H. lra. }
  set (neg := negb (Qle_bool 0 v)).
  assert (Key : exists m e', (if 10 ^ (N.of_nat p + 1) <=? Z.to_N mz then (T, (e + 1)%Z) else (Z.to_N mz, e)) = (m, e') /\
     m < 10 * T /\ (QofN m * p10 (e' - Z.of_nat p) == inject_Z mz * p10 (e - Z.of_nat p))%Q).
  { rewrite Pow. destruct (N.leb_spec (10 * T) (Z.to_N mz)) as [G|G].
    - exists T, (e + 1)%Z. split; [reflexivity|]. split; [lia|].
      assert (mz = Z.of_N (10 * T)) as -> by lia. change (inject_Z (Z.of_N (10 * T))) with (QofN (10 * T)).
      rewrite QofN_mul. change (QofN 10) with 10%Q.
      replace (e + 1 - Z.of_nat p)%Z with (1 + (e - Z.of_nat p))%Z by lia. rewrite p10_add. change (p10 1) with 10%Q. ring.
    - exists (Z.to_N mz), e. split; [reflexivity|]. split; [exact G|]. unfold QofN. rewrite Z2N.id by lia. reflexivity. }
  destruct Key as (m & e' & Ek & Hm & Ev).
  exists (qsgn neg (QofN m * p10 (e' - Z.of_nat p))%Q). split.
  - fold T. rewrite Ek. cbv beta iota.
    set (fp := if (p =? 0)%nat then [] else digits p (m mod T)).
    assert (Lf : length fp = p) by (unfold fp; destruct (Nat.eqb_spec p 0); [cbn; lia|apply digits_length]).
    pose proof (parse_f64_dec neg (dec (m / T)) fp (negb (p =? 0)%nat)
      ([101] ++ (if (e' <? 0)%Z then [45] else []) ++ dec (Z.to_N (Z.abs e'))) e') as PF.
    assert (R : (if Qle_bool 0 v then [] else [45]) ++ dec (m / T) ++ (if (p =? 0)%nat then [] else 46 :: digits p (m mod T)) ++
       [101] ++ (if (e' <? 0)%Z then [45] else []) ++ dec (Z.to_N (Z.abs e')) =
      (if neg then [45] else []) ++ dec (m / T) ++ (if negb (p =? 0)%nat then 46 :: fp else []) ++
       ([101] ++ (if (e' <? 0)%Z then [45] else []) ++ dec (Z.to_N (Z.abs e')))).
    { unfold neg, fp. destruct (Qle_bool 0 v), (p =? 0)%nat; reflexivity. }
    rewrite R. rewrite PF.
    + do 3 f_equal. rewrite Lf, dval_app, Lf, dval_dec. fold T.
      assert (Dm : dval fp = m mod T).
      { unfold fp. destruct (Nat.eqb_spec p 0) as [->|].
        - subst T. change (10 ^ N.of_nat 0) with 1. rewrite N.mod_1_r. reflexivity.
        - rewrite dval_digits. fold T. apply N.mod_mod. lia. }
      rewrite Dm. f_equal. f_equal. rewrite (N.div_mod m T) at 3 by lia. lia.
    + apply dec_digit.
    + unfold fp. destruct (p =? 0)%nat; [reflexivity|apply digits_digit].
    + apply dec_nonempty.
    + unfold fp. destruct (p =? 0)%nat; [reflexivity|discriminate].
    + cbn [app parse_exp]. change ((101 =? 101) || (101 =? 69)) with true. cbv iota.
      pose proof (dec_digit (Z.to_N (Z.abs e'))) as D1. pose proof (dec_nonempty (Z.to_N (Z.abs e'))) as D2.
      destruct (Z.ltb_spec e' 0).
      * change (sign_of ([45] ++ dec (Z.to_N (Z.abs e')))) with (true, dec (Z.to_N (Z.abs e'))). cbv beta iota.
        rewrite D1, dval_dec. destruct (dec (Z.to_N (Z.abs e'))) eqn:X; [congruence|]. f_equal. lia.
      * cbn [app]. destruct (dec (Z.to_N (Z.abs e'))) as [|c t] eqn:X; [congruence|].
        assert (C : is_digit c = true) by (cbn in D1; now apply andb_prop in D1 as [-> _]).
        rewrite sign_of_digit by auto. rewrite D1. rewrite <- X, dval_dec. f_equal. lia.
  - assert (Em : (mag == y * p10 (e - Z.of_nat p))%Q).
    { unfold y. rewrite <- Qmult_assoc, PQ. ring. }
    assert (Bd : (Qabs (inject_Z mz * p10 (e - Z.of_nat p) - mag) <= mag * ((1 # 2) * p10 (- Z.of_nat p)))%Q).
    { assert (E1 : (inject_Z mz * p10 (e - Z.of_nat p) - mag == (inject_Z mz - y) * p10 (e - Z.of_nat p))%Q).
      { rewrite Em at 1. ring. }
      rewrite E1, Qabs_Qmult, (Qabs_pos (p10 _)) by lra.
      assert (E2 : (Qabs (inject_Z mz - y) <= 1 # 2)%Q) by (apply Qabs_Qle_condition; exact Er).
      eapply Qle_trans; [apply Qmult_le_compat_r; [exact E2|lra]|].
      replace (e - Z.of_nat p)%Z with (e + - Z.of_nat p)%Z by lia. rewrite p10_add.
      pose proof (p10_pos (- Z.of_nat p)) as P3.
      assert (X : (p10 e * p10 (- Z.of_nat p) <= mag * p10 (- Z.of_nat p))%Q) by (apply Qmult_le_compat_r; lra). lra. }
    assert (S1 : (v == qsgn neg mag)%Q).
    { unfold neg, qsgn, mag. destruct (Qle_bool 0 v) eqn:C; cbn [negb].
      - apply Qle_bool_iff in C. rewrite Qabs_pos by auto. reflexivity.
      - assert (v < 0)%Q. { destruct (Qlt_le_dec v 0) as [X|X]; auto. apply Qle_bool_iff in X. congruence. }
        rewrite Qabs_neg by lra. ring. }
    fold mag. clearbody neg. clear - Bd S1 Ev.
    assert (Q1 : (qsgn neg (QofN m * p10 (e' - Z.of_nat p)) - v == qsgn neg (inject_Z mz * p10 (e - Z.of_nat p) - mag))%Q).
    { rewrite S1. unfold qsgn. destruct neg; rewrite Ev; ring. }
    rewrite Q1. unfold qsgn. destruct neg; [rewrite Qabs_opp|]; exact Bd.
Qed.

(** ** Values *)
Definition inked (s : str) : bool := forallb (fun c => negb (is_ws c)) s.
Lemma inked_good s : inked s = true -> good_val s.
Proof.
  intros H. unfold inked in H. rewrite forallb_forall in H. split.
  - destruct s as [|c t]; [now left|]. right. split.
    + cbn [hd]. specialize (H c (or_introl eq_refl)). now apply negb_true_iff in H.
    + assert (X : c :: t <> []) by discriminate. destruct (exists_last X) as (l & x & E). rewrite E, last_last.
      assert (Hx : In x (c :: t)) by (rewrite E; apply in_or_app; right; now left).
      specialize (H x Hx). now apply negb_true_iff in H.
  - intros X. specialize (H 10 X). discriminate.
Qed.
Lemma inked_app a b : inked (a ++ b) = inked a && inked b.
Proof. apply forallb_app. Qed.
Lemma inked_digits s : forallb is_digit s = true -> inked s = true.
Proof.
  unfold inked. rewrite !forallb_forall. intros H x Hx. rewrite (digit_not_ws x); auto.
Qed.
Lemma inked_fixed p f : inked (fmt_fixedF p f) = true.
Proof.
  destruct f as [q|n|]; [|destruct n; reflexivity|reflexivity]. unfold fmt_fixedF, fmt_fixed.
  rewrite !inked_app, (inked_digits (dec _)) by apply dec_digit.
  destruct (Qle_bool 0 q), (p =? 0)%nat; try reflexivity; cbn [inked forallb andb];
    apply (inked_digits _ (digits_digit _ _)).
Qed.
Lemma inked_exp p f : inked (fmt_expF p f) = true.
Proof.
  destruct f as [q|n|]; [|destruct n; reflexivity|reflexivity]. unfold fmt_expF, fmt_exp.
  destruct (Qeq_bool q 0).
  - rewrite !inked_app. destruct (p =? 0)%nat; [reflexivity|]. cbn [inked forallb andb].
    change (inked (digits p 0) && true = true). rewrite (inked_digits _ (digits_digit _ _)). reflexivity.
  - match goal with |- context [let '(_, _) := ?x in _] => destruct x as [m e] end.
    rewrite !inked_app, !(inked_digits (dec _)) by apply dec_digit.
    destruct (p =? 0)%nat.
    + destruct (Qle_bool 0 q), (e <? 0)%Z; reflexivity.
    + assert (D : inked (46 :: digits p (m mod 10 ^ N.of_nat p)) = true).
      { exact (inked_digits _ (digits_digit _ _)). }
      rewrite D. destruct (Qle_bool 0 q), (e <? 0)%Z; reflexivity.
Qed.

(** ** The round trip *)
Section RT.
  Context {E : Type} (format_epoch : E -> res str) (parse_epoch : str -> res E).

  Definition near (eps : Q) (a b : fnum) : Prop :=
    match b with Fin y => exists x, a = Fin x /\ (Qabs (x - y) <= eps)%Q | _ => a = b end.
  Definition near_rel (eps : Q) (a b : fnum) : Prop :=
    match b with Fin y => exists x, a = Fin x /\ (Qabs (x - y) <= Qabs y * eps)%Q | _ => a = b end.

  Lemma near_le eps eps' a b : (eps <= eps')%Q -> near eps a b -> near eps' a b.
  Proof.
    intros H. destruct b as [y| |]; cbn; auto. intros (x & -> & B). exists x. split; [reflexivity|].
    eapply Qle_trans; eauto.
  Qed.
  Lemma near_rel_le eps eps' a b : (eps <= eps')%Q -> near_rel eps a b -> near_rel eps' a b.
  Proof.
    intros H. destruct b as [y| |]; cbn; auto. intros (x & -> & B). exists x. split; [reflexivity|].
    eapply Qle_trans; eauto. rewrite !(Qmult_comm (Qabs y)). apply Qmult_le_compat_r; [exact H|apply Qabs_nonneg].
  Qed.

  Lemma fixed_near p f : exists g, parse_f64 (fmt_fixedF p f) = Some g /\ near ((1 # 2) * p10 (- Z.of_nat p)) g f.
  Proof.
    destruct f as [q|n|].
    - destruct (fmt_fixed_close p q) as (x & H & B). exists (Fin x). split; [exact H|]. exists x. auto.
    - exists (Inf n). split; [destruct n; reflexivity|reflexivity].
    - exists NaN. split; reflexivity.
  Qed.
  Lemma exp_near p f : exists g, parse_f64 (fmt_expF p f) = Some g /\ near_rel ((1 # 2) * p10 (- Z.of_nat p)) g f.
  Proof.
    destruct f as [q|n|].
    - destruct (fmt_exp_close p q) as (x & H & B). exists (Fin x). split; [exact H|]. exists x. auto.
    - exists (Inf n). split; [destruct n; reflexivity|reflexivity].
    - exists NaN. split; reflexivity.
  Qed.

  Lemma fields_good (o : omm E) s : good_val (o_name o) -> good_val (o_id o) -> good_val s ->
    Forall (fun kv => good_key (fst kv) /\ good_val (snd kv)) (kvn_fields o s).
  Proof.
    intros H1 H2 H3. unfold kvn_fields.
    assert (K : forall k v, (negb (existsb (N.eqb 61) k) && inked k && negb (length k =? 0)%nat)%bool = true ->
       starts_with (lit "COMMENT") k = false -> (forall c, starts_with (lit "COMMENT") (k ++ [32] ++ c) = false) ->
       good_val v -> good_key (fst (k, v)) /\ good_val (snd (k, v))).
    { intros k v Hk Hc Hc2 Hv. cbn [fst snd]. apply andb_prop in Hk as [Hk K3]. apply andb_prop in Hk as [K1 K2].
      destruct (inked_good k K2) as [S1 S2]. split; [|exact Hv].
      split; [destruct k; [discriminate|discriminate]|]. split; [exact S1|]. split; [|split; [exact S2|split; assumption]].
      intros X. apply negb_true_iff in K1. assert (Y : existsb (N.eqb 61) k = true).
      { apply existsb_exists. exists 61. split; [exact X|reflexivity]. } congruence. }
    repeat (apply Forall_cons || apply Forall_nil); apply K; try reflexivity;
      solve [ assumption | apply inked_good; first [reflexivity | apply inked_fixed | apply inked_exp
        | apply inked_digits, dec_digit | destruct (o_class o); reflexivity ] ].
  Qed.

  Lemma opt_uint_dec (kv : list (str * str)) k max n : kv_get kv k = Some (dec n) -> n <= max -> opt_uint kv k max = n.
  Proof.
    intros G H. unfold opt_uint. rewrite G. rewrite parse_uint_digits by (apply dec_digit || apply dec_nonempty).
    rewrite dval_dec. destruct (N.leb_spec n max); [reflexivity|lia].
  Qed.

  Definition fits_ints (o : omm E) : Prop := o_eph o <= 255 /\ o_esn o <= 65535 /\ o_rev o <= u32_max.

  Theorem kvn_roundtrip (o : omm E) s e' : format_epoch (o_epoch o) = Ok s -> parse_epoch s = Ok e' ->
    good_val (o_name o) -> good_val (o_id o) -> good_val s -> fits_ints o -> o_norad o < 100000 ->
    exists text o', kvn_write format_epoch o = Ok text /\ kvn_read parse_epoch text = Ok o' /\
      o_name o' = o_name o /\ o_id o' = o_id o /\ o_epoch o' = e' /\ o_class o' = o_class o /\
      o_norad o' = o_norad o /\ o_eph o' = o_eph o /\ o_esn o' = o_esn o /\ o_rev o' = o_rev o /\
      near (5 # 1000000000) (o_mm o') (o_mm o) /\ near (5 # 100000000) (o_ecc o') (o_ecc o) /\
      near (5 # 100000) (o_inc o') (o_inc o) /\ near (5 # 100000) (o_raan o') (o_raan o) /\
      near (5 # 100000) (o_argp o') (o_argp o) /\ near (5 # 100000) (o_ma o') (o_ma o) /\
      near_rel (5 # 1000000000) (o_bstar o') (o_bstar o) /\
      near_rel (5 # 1000000000) (o_ndot o') (o_ndot o) /\
      near_rel (5 # 1000000000) (o_nddot o') (o_nddot o).
  Proof.
    intros Fe Pe Gn Gi Gs (B1 & B2 & B3) Hn.
    unfold kvn_write. rewrite Fe. cbn [obind].
    destruct (fixed_near 8 (o_mm o)) as (mm & Pmm & Nmm). destruct (fixed_near 7 (o_ecc o)) as (ec & Pec & Nec).
    destruct (fixed_near 4 (o_inc o)) as (i & Pi & Ni). destruct (fixed_near 4 (o_raan o)) as (ra & Pra & Nra).
    destruct (fixed_near 4 (o_argp o)) as (ap & Pap & Nap). destruct (fixed_near 4 (o_ma o)) as (ma & Pma & Nma).
    destruct (exp_near 8 (o_bstar o)) as (bs & Pbs & Nbs). destruct (exp_near 8 (o_ndot o)) as (nd & Pnd & Nnd).
    destruct (exp_near 8 (o_nddot o)) as (ndd & Pndd & Nndd).
    assert (Ps : sat_parse (dec (o_norad o)) = Ok (o_norad o)).
    { unfold sat_parse. rewrite trim_start_digits by apply dec_digit.
      pose proof (dec_digit (o_norad o)) as D. pose proof (dec_nonempty (o_norad o)) as Dn.
      assert (L : (length (dec (o_norad o)) <= 5)%nat).
      { unfold dec. rewrite digits_length. apply ndig_le; [lia|]. change (10 ^ N.of_nat 5) with 100000. exact Hn. }
      pose proof (parse_uint_digits u32_max (dec (o_norad o)) D Dn) as PU. rewrite dval_dec in PU.
      destruct (dec (o_norad o)) as [|c t] eqn:X; [congruence|].
      destruct (Nat.ltb_spec 5 (length (c :: t))); [lia|].
      assert (Dc : is_digit c = true) by (cbn in D; now apply andb_prop in D as [-> _]).
      rewrite Dc, PU. unfold u32_max. destruct (N.leb_spec (o_norad o) 4294967295); [reflexivity|lia]. }
    set (fs := kvn_fields o s).
    assert (Kv : kv_parse (concat (map kline fs)) = fs) by (apply kv_parse_spec, fields_good; assumption).
    eexists. unfold kvn_read. eexists. split; [reflexivity|]. rewrite Kv.
    assert (G : forall k v, kv_get fs k = v -> kv_get fs k = v) by auto.
    assert (G1 : kv_get fs (lit "MEAN_ELEMENT_THEORY") = Some (lit "SGP4")) by reflexivity.
    assert (G2 : kv_get fs (lit "OBJECT_NAME") = Some (o_name o)) by reflexivity.
    assert (G3 : kv_get fs (lit "OBJECT_ID") = Some (o_id o)) by reflexivity.
    assert (G4 : kv_get fs (lit "EPOCH") = Some s) by reflexivity.
    assert (G5 : kv_get fs (lit "CLASSIFICATION_TYPE") = Some [class_char (o_class o)]) by reflexivity.
    assert (G6 : kv_get fs (lit "NORAD_CAT_ID") = Some (dec (o_norad o))) by reflexivity.
    assert (G7 : getf fs (lit "MEAN_MOTION") = Ok mm)
      by (unfold getf; change (kv_get fs (lit "MEAN_MOTION")) with (Some (fmt_fixedF 8 (o_mm o))); cbn [need obind]; now rewrite Pmm).
    assert (G8 : getf fs (lit "ECCENTRICITY") = Ok ec)
      by (unfold getf; change (kv_get fs (lit "ECCENTRICITY")) with (Some (fmt_fixedF 7 (o_ecc o))); cbn [need obind]; now rewrite Pec).
    assert (G9 : getf fs (lit "INCLINATION") = Ok i)
      by (unfold getf; change (kv_get fs (lit "INCLINATION")) with (Some (fmt_fixedF 4 (o_inc o))); cbn [need obind]; now rewrite Pi).
    assert (G10 : getf fs (lit "RA_OF_ASC_NODE") = Ok ra)
      by (unfold getf; change (kv_get fs (lit "RA_OF_ASC_NODE")) with (Some (fmt_fixedF 4 (o_raan o))); cbn [need obind]; now rewrite Pra).
    assert (G11 : getf fs (lit "ARG_OF_PERICENTER") = Ok ap)
      by (unfold getf; change (kv_get fs (lit "ARG_OF_PERICENTER")) with (Some (fmt_fixedF 4 (o_argp o))); cbn [need obind]; now rewrite Pap).
    assert (G12 : getf fs (lit "MEAN_ANOMALY") = Ok ma)
      by (unfold getf; change (kv_get fs (lit "MEAN_ANOMALY")) with (Some (fmt_fixedF 4 (o_ma o))); cbn [need obind]; now rewrite Pma).
    assert (G13 : getf fs (lit "BSTAR") = Ok bs)
      by (unfold getf; change (kv_get fs (lit "BSTAR")) with (Some (fmt_expF 8 (o_bstar o))); cbn [need obind]; now rewrite Pbs).
    assert (G14 : getf fs (lit "MEAN_MOTION_DOT") = Ok nd)
      by (unfold getf; change (kv_get fs (lit "MEAN_MOTION_DOT")) with (Some (fmt_expF 8 (o_ndot o))); cbn [need obind]; now rewrite Pnd).
    assert (G15 : getf fs (lit "MEAN_MOTION_DDOT") = Ok ndd)
      by (unfold getf; change (kv_get fs (lit "MEAN_MOTION_DDOT")) with (Some (fmt_expF 8 (o_nddot o))); cbn [need obind]; now rewrite Pndd).
    assert (G16 : opt_uint fs (lit "EPHEMERIS_TYPE") 255 = o_eph o) by (apply opt_uint_dec; [reflexivity|assumption]).
    assert (G17 : opt_uint fs (lit "ELEMENT_SET_NO") 65535 = o_esn o) by (apply opt_uint_dec; [reflexivity|assumption]).
    assert (G18 : opt_uint fs (lit "REV_AT_EPOCH") u32_max = o_rev o) by (apply opt_uint_dec; [reflexivity|assumption]).
    clearbody fs.
    rewrite G1, G2, G3, G4, G5, G6, G7, G8, G9, G10, G11, G12, G13, G14, G15, G16, G17, G18.
    cbn [need obind hd unwrap_or]. change (negb (str_eqb (map lower (lit "SGP4")) (map lower (lit "SGP4")))) with false.
    cbv iota. rewrite Pe. cbn [obind]. rewrite class_roundtrip. cbn [obind]. rewrite Ps. cbn [obind].
    split; [reflexivity|]. cbn [o_name o_id o_epoch o_class o_norad o_eph o_esn o_rev o_mm o_ecc o_inc o_raan o_argp o_ma o_bstar o_ndot o_nddot].
    repeat (split; [solve [reflexivity|eapply near_le; [|eassumption]; discriminate
      |eapply near_rel_le; [|eassumption]; discriminate]|]).
    eapply near_rel_le; [|eassumption]; discriminate.
  Qed.

  (** A catalogue number of six or more digits cannot be read back, whatever the other fields. *)
  Theorem kvn_six_digits (o : omm E) s e' : format_epoch (o_epoch o) = Ok s -> parse_epoch s = Ok e' ->
    good_val (o_name o) -> good_val (o_id o) -> good_val s -> 100000 <= o_norad o ->
    exists text, kvn_write format_epoch o = Ok text /\ kvn_read parse_epoch text = Err InvalidAlpha5.
  Proof.
    intros Fe Pe Gn Gi Gs Hn. unfold kvn_write. rewrite Fe. cbn [obind]. eexists. split; [reflexivity|].
    set (fs := kvn_fields o s).
    assert (Kv : kv_parse (concat (map kline fs)) = fs) by (apply kv_parse_spec, fields_good; assumption).
    unfold kvn_read. rewrite Kv.
    assert (Ps : sat_parse (dec (o_norad o)) = Err InvalidAlpha5).
    { unfold sat_parse. rewrite trim_start_digits by apply dec_digit.
      pose proof (dec_nonempty (o_norad o)) as Dn.
      assert (L : (6 <= length (dec (o_norad o)))%nat).
      { unfold dec. rewrite digits_length. apply (ndig_ge (o_norad o) 5). change (10 ^ N.of_nat 5) with 100000. exact Hn. }
      destruct (dec (o_norad o)) as [|c t]; [congruence|].
      destruct (Nat.ltb_spec 5 (length (c :: t))); [reflexivity|lia]. }
    assert (G1 : kv_get fs (lit "MEAN_ELEMENT_THEORY") = Some (lit "SGP4")) by reflexivity.
    assert (G2 : kv_get fs (lit "OBJECT_NAME") = Some (o_name o)) by reflexivity.
    assert (G3 : kv_get fs (lit "OBJECT_ID") = Some (o_id o)) by reflexivity.
    assert (G4 : kv_get fs (lit "EPOCH") = Some s) by reflexivity.
    assert (G5 : kv_get fs (lit "CLASSIFICATION_TYPE") = Some [class_char (o_class o)]) by reflexivity.
    assert (G6 : kv_get fs (lit "NORAD_CAT_ID") = Some (dec (o_norad o))) by reflexivity.
    rewrite G1, G2, G3, G4, G5, G6. cbn [need obind hd].
    change (negb (str_eqb (map lower (lit "SGP4")) (map lower (lit "SGP4")))) with false.
    cbv iota. rewrite Pe. cbn [obind]. rewrite class_roundtrip. cbn [obind]. rewrite Ps. reflexivity.
  Qed.
End RT.

(** ** Element set -> message -> element set *)
Lemma tle_omm_tle t : forallb is_ascii (t_desig t) = true -> solid (t_desig t) -> t_name t <> None ->
  to_tle (from_tle t) = t.
Proof.
  intros A B C. unfold to_tle, from_tle.
  cbn [o_name o_id o_epoch o_class o_norad o_eph o_esn o_rev o_mm o_ecc o_inc o_raan o_argp o_ma o_bstar o_ndot o_nddot finval].
  rewrite contract_expand by auto. rewrite trim_solid by auto. destruct t as [nm ? ? ? ? ? ? ? ? ? ? ? ? ? ? ?]. cbn in *.
  destruct nm; [reflexivity|congruence].
Qed.
