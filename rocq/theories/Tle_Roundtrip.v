(** Formatting then parsing an element set. *)
From Coq Require Import Ascii String List NArith ZArith Lia Bool QArith Qround Qabs Lqa.
From Coq Require Import ZifyBool ZifyNat ZifyN.
From Verif Require Import Base Text DecFloat Tle_Model Tle_Spec Tle_Proofs Tle_Fields.
Import ListNotations.
Local Open Scope N_scope.

Lemma slice_field {E} fs tail i a b : forallb is_ascii (concat fs ++ tail) = true ->
  (i < length fs)%nat -> a = length (concat (firstn i fs)) -> b = (a + length (nth i fs []))%nat ->
  @slice E (concat fs ++ tail) a b = Ok (nth i fs []).
Proof.
  intros A Hi -> ->.
  assert (D : concat fs = concat (firstn i fs) ++ nth i fs [] ++ concat (skipn (S i) fs)).
  { clear - Hi. revert i Hi; induction fs as [|f fs IH]; intros i Hi; [cbn in Hi; lia|].
    destruct i as [|i]; [reflexivity|]. cbn [concat firstn nth skipn length] in *.
    rewrite (IH i) at 1 by lia. now rewrite <- app_assoc. }
  rewrite D in *. rewrite <- !app_assoc in *. now apply slice_mid.
Qed.

Lemma ascii_digits s : forallb is_digit s = true -> forallb is_ascii s = true.
Proof. intros D. rewrite forallb_forall in *. intros x Hx. now apply digit_ascii, D. Qed.

Lemma ascii_repeat c n : is_ascii c = true -> forallb is_ascii (repeat c n) = true.
Proof. intros H. induction n; [reflexivity|]. cbn. now rewrite H, IHn. Qed.

Lemma digits_nonempty k n : (0 < k)%nat -> digits k n <> [].
Proof. intros H X. apply (f_equal (@length N)) in X. rewrite digits_length in X. cbn in X. lia. Qed.

(** Zero padding *)
Lemma zeros_digits j k n : n < 10 ^ N.of_nat k -> repeat 48 j ++ digits k n = digits (j + k) n.
Proof.
  intros H.
  assert (Z0 : forallb is_digit (repeat 48 j) = true) by (clear; induction j; [reflexivity|]; exact IHj).
  assert (V0 : dval (repeat 48 j) = 0).
  { clear. assert (G : forall a, fold_left (fun a c => 10 * a + (c - 48)) (repeat 48 j) a = a * 10 ^ N.of_nat j).
    { induction j as [|j IH]; intros a; [cbn; lia|]. cbn [repeat fold_left]. rewrite IH.
      rewrite Nat2N.inj_succ, N.pow_succ_r'. lia. }
    unfold dval. rewrite G. lia. }
  apply dval_inj.
  - rewrite forallb_app, Z0, digits_digit. reflexivity.
  - apply digits_digit.
  - rewrite app_length, repeat_length, !digits_length. reflexivity.
  - rewrite dval_app, V0, !dval_digits. rewrite N.mod_small by auto. symmetry. apply N.mod_small.
    eapply N.lt_le_trans; [exact H|]. apply N.pow_le_mono_r; lia.
Qed.

(** ** Fixed-point columns *)
Lemma fmt_fixed_ascii p v : forallb is_ascii (fmt_fixed p v) = true.
Proof.
  unfold fmt_fixed. rewrite !forallb_app. rewrite (ascii_digits (dec _) (dec_digit _)).
  destruct (Qle_bool 0 v), (p =? 0)%nat; cbn [forallb andb]; try reflexivity;
  rewrite (ascii_digits _ (digits_digit _ _)); reflexivity.
Qed.

Lemma fmt_fixed_solid p v : (0 < p)%nat -> solid (fmt_fixed p v).
Proof.
  intros Hp. unfold fmt_fixed. destruct (Nat.eqb_spec p 0); [lia|].
  set (m := Z.to_N _). set (a := dec _). set (f := digits p _).
  right. split.
  - pose proof (dec_nonempty (m / 10 ^ N.of_nat p)) as Hn. pose proof (dec_digit (m / 10 ^ N.of_nat p)) as Hd.
    fold a in Hn, Hd. destruct (Qle_bool 0 v); [|reflexivity].
    destruct a as [|c t]; [congruence|]. cbn in *. apply andb_prop in Hd as [Hd _]. now apply digit_not_ws.
  - assert (Hf : f <> []) by (apply digits_nonempty; lia).
    destruct (exists_last Hf) as (l & x & E). rewrite E.
    change (46 :: l ++ [x]) with ((46 :: l) ++ [x]). rewrite !app_assoc, last_last.
    apply digit_not_ws. pose proof (digits_digit p (m mod 10 ^ N.of_nat p)) as D. fold f in D.
    rewrite E, forallb_app in D. cbn in D. apply andb_prop in D as [_ D]. now rewrite andb_true_r in D.
Qed.

Lemma on_grid_mag p q : on_grid p q -> exists z, (0 <= z)%Z /\ (Qabs q * p10 (Z.of_nat p) == inject_Z z)%Q.
Proof.
  intros (z & E). exists (Z.abs z). split; [lia|].
  rewrite <- (Qabs_pos (p10 (Z.of_nat p))) by (apply Qlt_le_weak, p10_pos). rewrite <- Qabs_Qmult, E.
  unfold inject_Z, Qabs. reflexivity.
Qed.

Lemma column p w lo hi kn kp f : (0 < p)%nat -> fits p lo hi f ->
  (* [kn] and [kp] integer digits for negative and non-negative values *)
  (hi < p10 (Z.of_nat kp))%Q -> (- p10 (Z.of_nat kn) < lo)%Q ->
  (1 <= kp)%nat -> (1 <= kn)%nat -> (kp + 1 + p <= w)%nat -> (kn + 2 + p <= w)%nat ->
  length (pad_left w (fmt_fixedF p f)) = w /\ forallb is_ascii (pad_left w (fmt_fixedF p f)) = true /\
  exists g, parse_float_field (pad_left w (fmt_fixedF p f)) = Ok g /\ feq g f.
Proof.
  intros Hp (q & -> & G & B1 & B2) Hhi Hlo K1 K2 W1 W2. cbn [fmt_fixedF].
  assert (Len : (length (fmt_fixed p q) <= w)%nat).
  { unfold fmt_fixed. destruct (Nat.eqb_spec p 0); [lia|].
    destruct (on_grid_mag p q G) as (z & Hz & E). rewrite (round_even_int z) by auto.
    rewrite !app_length. unfold dec. cbn [length]. rewrite !digits_length.
    assert (Bz : forall k, (Qabs q < p10 (Z.of_nat k))%Q -> (1 <= k)%nat -> (ndig (Z.to_N z / 10 ^ N.of_nat p) <= k)%nat).
    { intros k Hk Hk1. apply ndig_le; [lia|]. apply N.div_lt_upper_bound; [apply N.pow_nonzero; lia|].
      rewrite <- N.pow_add_r. assert (X : (inject_Z z < inject_Z (Z.of_N (10 ^ (N.of_nat p + N.of_nat k))))%Q).
      { rewrite <- E. change (inject_Z (Z.of_N ?x)) with (QofN x).
        rewrite <- Nat2N.inj_add. change (inject_Z (Z.of_N (10 ^ N.of_nat (p + k)))) with (QofN (10 ^ N.of_nat (p + k))).
        rewrite <- p10_nat. rewrite Nat2Z.inj_add, Z.add_comm, p10_add. apply Qmult_lt_r; auto. apply p10_pos. }
      rewrite <- Zlt_Qlt in X. lia. }
    destruct (Qle_bool 0 q) eqn:C.
    - apply Qle_bool_iff in C. specialize (Bz kp). rewrite Qabs_pos in Bz by auto.
      specialize (Bz ltac:(lra) K1). cbn [length]. lia.
    - assert (q < 0)%Q. { destruct (Qlt_le_dec q 0) as [X|X]; auto. apply Qle_bool_iff in X. congruence. }
      specialize (Bz kn). rewrite Qabs_neg in Bz by lra. specialize (Bz ltac:(lra) K2). cbn [length]. lia. }
  split. { unfold pad_left. rewrite app_length, repeat_length. lia. }
  split. { unfold pad_left. rewrite forallb_app, ascii_repeat, fmt_fixed_ascii; reflexivity. }
  destruct G as (z & G). destruct (fmt_fixed_exact p q z G) as (x & Px & Ex).
  exists (Fin x). split; [|exact Ex].
  unfold parse_float_field. rewrite trim_pad_left by (now apply fmt_fixed_solid). rewrite Px. reflexivity.
Qed.

(** ** First derivative of the mean motion *)
Lemma ndot_column q : on_grid 8 q -> (-99999999 # 100000000 <= q <= 99999999 # 100000000)%Q ->
  length (format_signed_decimal q) = 10%nat /\ forallb is_ascii (format_signed_decimal q) = true /\
  exists x, parse_float_field (format_signed_decimal q) = Ok (Fin x) /\ (x == q)%Q.
Proof.
  intros G B. destruct (on_grid_mag 8 q G) as (z & Hz & E). change (p10 (Z.of_nat 8)) with 100000000%Q in E.
  unfold format_signed_decimal. rewrite (round_up_int z) by auto.
  assert (Bz : (z <= 99999999)%Z).
  { assert (inject_Z z <= inject_Z 99999999)%Q; [|now rewrite <- Zle_Qle in H].
    rewrite <- E. change (inject_Z 99999999) with 99999999%Q.
    assert (Qabs q <= 99999999 # 100000000)%Q by (apply Qabs_Qle_condition; lra). lra. }
  assert (C : clamp_u64 z = Z.to_N z) by (unfold clamp_u64, u64_max; lia). rewrite C.
  set (n := Z.to_N z). assert (Hn : n < 10 ^ N.of_nat 8) by (change (10 ^ N.of_nat 8) with 100000000; lia).
  rewrite pad0_fit by (auto; lia).
  split. { rewrite !app_length, digits_length. destruct (Qle_bool 0 q); reflexivity. }
  split. { rewrite !forallb_app, (ascii_digits _ (digits_digit _ _)). destruct (Qle_bool 0 q); reflexivity. }
  set (neg := negb (Qle_bool 0 q)).
  assert (T : trim ((if Qle_bool 0 q then [32] else [45]) ++ [46] ++ digits 8 n) =
     (if neg then [45] else []) ++ [] ++ (if true then 46 :: digits 8 n else []) ++ []).
  { rewrite app_nil_r.
    assert (L : is_ws (last (46 :: digits 8 n) 0) = false).
    { apply digit_not_ws. assert (Hf : digits 8 n <> []) by (apply digits_nonempty; lia).
      pose proof (digits_digit 8 n) as D.
      destruct (exists_last Hf) as (l & x & Ex). rewrite Ex in *. change (46 :: l ++ [x]) with ((46 :: l) ++ [x]).
      rewrite last_last. rewrite forallb_app in D. cbn in D. apply andb_prop in D as [_ D]. now rewrite andb_true_r in D. }
    unfold neg. destruct (Qle_bool 0 q); cbn [negb app].
    - unfold trim. cbn [trim_start]. change (is_ws 32) with true. cbv iota. change (is_ws 46) with false. cbv iota.
      now apply trim_end_id.
    - apply trim_solid. right. split; [reflexivity|]. exact L. }
  unfold parse_float_field. rewrite T, (parse_f64_gen neg [] (digits 8 n) true [] 0); try reflexivity.
  - eexists. split; [reflexivity|]. cbn [app]. rewrite dval_digits, digits_length, N.mod_small by auto.
    change (p10 (0 - Z.of_nat 8)) with (1 # 100000000)%Q. unfold QofN, n. rewrite Z2N.id by auto.
    unfold neg, qsgn. destruct (Qle_bool 0 q) eqn:C0; cbn [negb]; rewrite <- E.
    + apply Qle_bool_iff in C0. rewrite Qabs_pos by auto. ring.
    + assert (q < 0)%Q. { destruct (Qlt_le_dec q 0) as [X|X]; auto. apply Qle_bool_iff in X. congruence. }
      rewrite Qabs_neg by lra. ring.
  - apply digits_digit.
  - apply digits_nonempty. lia.
  - discriminate.
Qed.

(** ** Epoch columns *)
Definition day_text (doy k : Z) : str :=
  let day := fmt_fixed 8 (inject_Z doy + inject_Z (k * 864000) * (1 # 1000000000) / 86400) in
  repeat 48 (12 - length day) ++ day.

Lemma day_text_eq doy k : (1 <= doy <= 366)%Z -> (0 <= k < 100000000)%Z ->
  day_text doy k = digits 3 (Z.to_N doy) ++ 46 :: digits 8 (Z.to_N k).
Proof.
  intros Hd Hk. unfold day_text. set (v := (_ + _)%Q).
  assert (Ev : (v == inject_Z (doy * 100000000 + k) * (1 # 100000000))%Q).
  { unfold v. rewrite inject_Z_plus, !inject_Z_mult.
    change (inject_Z 864000) with 864000%Q. change (inject_Z 100000000) with 100000000%Q. field. }
  assert (Pv : (0 <= v)%Q).
  { rewrite Ev. apply Qmult_le_0_compat; [|discriminate]. change 0%Q with (inject_Z 0). rewrite <- Zle_Qle. lia. }
  unfold fmt_fixed. apply Qle_bool_iff in Pv. rewrite Pv. apply Qle_bool_iff in Pv.
  rewrite (round_even_int (doy * 100000000 + k)).
  2: { rewrite Qabs_pos by auto. rewrite Ev. change (p10 (Z.of_nat 8)) with 100000000%Q. field. }
  cbn [Nat.eqb]. cbn [app]. change (10 ^ N.of_nat 8) with 100000000.
  assert (E1 : Z.to_N (doy * 100000000 + k) / 100000000 = Z.to_N doy) by lia.
  assert (E2 : Z.to_N (doy * 100000000 + k) mod 100000000 = Z.to_N k) by lia.
  rewrite E1, E2. unfold dec.
  rewrite app_length. cbn [length]. rewrite !digits_length, app_assoc.
  set (n := Z.to_N doy). assert (Hn : n < 10 ^ N.of_nat 3) by (change (10 ^ N.of_nat 3) with 1000; lia).
  pose proof (ndig_le n 3 ltac:(lia) Hn) as L. destruct (ndig_spec n) as (B & _).
  rewrite zeros_digits by auto. f_equal. f_equal. lia.
Qed.

Lemma day_column y doy k : (1 <= doy <= days_in_year y)%Z -> (0 <= k < 100000000)%Z ->
  length (day_text doy k) = 12%nat /\ forallb is_ascii (day_text doy k) = true /\
  exists f, parse_float_field (day_text doy k) = Ok f /\
    epoch_from_year_doy y f = Ok (Epoch y doy (k * 864000)).
Proof.
  intros Hd Hk. assert (Hd2 : (1 <= doy <= 366)%Z) by (unfold days_in_year in Hd; destruct (leap y); lia).
  rewrite day_text_eq by auto. set (n := Z.to_N doy). set (m := Z.to_N k).
  assert (Hn : n < 10 ^ N.of_nat 3) by (change (10 ^ N.of_nat 3) with 1000; lia).
  assert (Hm : m < 10 ^ N.of_nat 8) by (change (10 ^ N.of_nat 8) with 100000000; lia).
  split. { rewrite app_length. cbn [length]. rewrite !digits_length. reflexivity. }
  split. { rewrite forallb_app. cbn [forallb]. rewrite !(ascii_digits _ (digits_digit _ _)). reflexivity. }
  assert (T : trim (digits 3 n ++ 46 :: digits 8 m) = (if false then [45] else []) ++ digits 3 n ++ (if true then 46 :: digits 8 m else []) ++ []).
  { cbn [app]. rewrite app_nil_r. apply trim_solid. right.
    assert (H3 : digits 3 n <> []) by (apply digits_nonempty; lia). split.
    - pose proof (digits_digit 3 n) as D. destruct (digits 3 n); [congruence|]. cbn in *. apply andb_prop in D as [D _]. now apply digit_not_ws.
    - assert (Hf : digits 8 m <> []) by (apply digits_nonempty; lia).
      pose proof (digits_digit 8 m) as D.
      destruct (exists_last Hf) as (l & x & Ex). rewrite Ex in *. change (46 :: l ++ [x]) with ((46 :: l) ++ [x]).
      rewrite app_assoc, last_last. rewrite forallb_app in D. cbn in D. apply andb_prop in D as [_ D]. rewrite andb_true_r in D. now apply digit_not_ws. }
  eexists. split.
  { unfold parse_float_field. rewrite T, (parse_f64_gen false (digits 3 n) (digits 8 m) true [] 0); try reflexivity.
    - apply digits_digit.
    - apply digits_digit.
    - pose proof (digits_nonempty 3 n ltac:(lia)). destruct (digits 3 n); [congruence|discriminate].
    - discriminate. }
  rewrite dval_app, !dval_digits, !digits_length, !N.mod_small by auto.
  change (10 ^ N.of_nat 8) with 100000000. change (p10 (0 - Z.of_nat 8)) with (1 # 100000000)%Q.
  cbn [qsgn]. set (d := (QofN _ * _)%Q).
  assert (Ed : (d == inject_Z doy + inject_Z k * (1 # 100000000))%Q).
  { unfold d. rewrite QofN_add, QofN_mul. unfold QofN, n, m. rewrite !Z2N.id by lia. change (inject_Z (Z.of_N 100000000)) with 100000000%Q. field. }
  assert (Bd : (1 <= inject_Z doy <= 366)%Q).
  { change 1%Q with (inject_Z 1). change 366%Q with (inject_Z 366). rewrite <- !Zle_Qle. lia. }
  assert (Bk : (0 <= inject_Z k <= 99999999)%Q).
  { change 0%Q with (inject_Z 0). change 99999999%Q with (inject_Z 99999999). rewrite <- !Zle_Qle. lia. }
  unfold epoch_from_year_doy.
  assert (C1 : Qle_bool 1 d = true) by (apply Qle_bool_iff; lra). rewrite C1.
  assert (C2 : Qle_bool 367 d = false).
  { destruct (Qle_bool 367 d) eqn:X; [|reflexivity]. apply Qle_bool_iff in X. lra. }
  rewrite C2. cbn [negb andb].
  assert (F : Qfloor d = doy) by (apply Qfloor_shift; lra). rewrite F.
  destruct (Z.leb_spec 1 doy); [|lia]. destruct (Z.leb_spec doy (days_in_year y)); [|lia]. cbn [andb].
  do 2 f_equal. apply round_up_int. rewrite Ed, inject_Z_mult. change (inject_Z 864000) with 864000%Q. field.
Qed.

(** ** Integer columns *)
Lemma int_column w n : (1 <= w)%nat -> n < 10 ^ N.of_nat w -> n <= i64_max ->
  length (pad_left w (dec n)) = w /\ forallb is_ascii (pad_left w (dec n)) = true /\
  parse_int_field (trim_start (pad_left w (dec n))) = Ok (Z.of_N n).
Proof.
  intros Hw Hn Hm. pose proof (ndig_le n w Hw Hn) as L.
  split. { unfold pad_left, dec. rewrite app_length, repeat_length, digits_length. lia. }
  split. { unfold pad_left. rewrite forallb_app, ascii_repeat, (ascii_digits _ (dec_digit n)); reflexivity. }
  unfold pad_left. rewrite trim_start_spaces, trim_start_digits by apply dec_digit.
  unfold parse_int_field. rewrite trim_solid by (apply solid_digits; [apply dec_digit|apply dec_nonempty]).
  rewrite parse_int_digits by (apply dec_digit || apply dec_nonempty). rewrite dval_dec.
  destruct (N.leb_spec n i64_max); [reflexivity|lia].
Qed.

Lemma yy_column y : (1957 <= y <= 2056)%Z ->
  let f := pad0 2 (Z.to_N (((y mod 100) + 100) mod 100)) in
  length f = 2%nat /\ forallb is_ascii f = true /\
  exists v, parse_int_field f = Ok v /\ expand_two_digit_year v = y.
Proof.
  intros H. cbv zeta. replace (((y mod 100) + 100) mod 100)%Z with (y mod 100)%Z by lia.
  set (n := Z.to_N (y mod 100)). assert (Hn : n < 10 ^ N.of_nat 2) by (change (10 ^ N.of_nat 2) with 100; lia).
  rewrite pad0_fit by (auto; lia). split; [apply digits_length|].
  split; [apply ascii_digits, digits_digit|].
  exists (Z.of_N n). split; [|unfold n; rewrite Z2N.id by lia; now apply year_survives].
  unfold parse_int_field. rewrite trim_solid by (apply solid_digits; [apply digits_digit|apply digits_nonempty; lia]).
  rewrite parse_int_digits by (apply digits_digit || (apply digits_nonempty; lia)).
  rewrite dval_digits, N.mod_small by auto. unfold i64_max.
  destruct (N.leb_spec n 9223372036854775807); [reflexivity|]. change (10 ^ N.of_nat 2) with 100 in Hn. lia.
Qed.

Lemma ecc_column e : on_grid 7 e -> (0 <= e <= 9999999 # 10000000)%Q ->
  let f := pad0 7 (clamp_u64 (round_up (e * 10000000))) in
  length f = 7%nat /\ forallb is_ascii f = true /\ exists x, parse_ecc f = Ok x /\ (x == e)%Q.
Proof.
  intros (z & G) B. change (p10 (Z.of_nat 7)) with 10000000%Q in G. cbv zeta.
  rewrite (round_up_int z) by auto.
  assert (Bz : (0 <= z <= 9999999)%Z).
  { rewrite !Zle_Qle, <- G. change (inject_Z 9999999) with 9999999%Q. change (inject_Z 0) with 0%Q. lra. }
  assert (C : clamp_u64 z = Z.to_N z) by (unfold clamp_u64, u64_max; lia). rewrite C.
  set (n := Z.to_N z). assert (Hn : n < 10 ^ N.of_nat 7) by (change (10 ^ N.of_nat 7) with 10000000; lia).
  rewrite pad0_fit by (auto; lia). split; [apply digits_length|]. split; [apply ascii_digits, digits_digit|].
  unfold parse_ecc. rewrite trim_solid by (apply solid_digits; [apply digits_digit|apply digits_nonempty; lia]).
  rewrite digits_length, digits_digit. cbn [Nat.eqb negb orb].
  rewrite parse_uint_digits by (apply digits_digit || (apply digits_nonempty; lia)).
  rewrite dval_digits, N.mod_small by auto. unfold u64_max.
  destruct (N.leb_spec n 18446744073709551615); [|lia]. cbn [need obind].
  eexists. split; [reflexivity|]. change (p10 (- Z.of_nat 7)) with (1 # 10000000)%Q.
  unfold QofN, n. rewrite Z2N.id by lia. rewrite <- G. field.
Qed.

Lemma ascii_concat fs : (forall f, In f fs -> forallb is_ascii f = true) -> forallb is_ascii (concat fs) = true.
Proof.
  induction fs as [|f fs IH]; intros H; [reflexivity|]. cbn. rewrite forallb_app, IH, H; auto using in_eq, in_cons.
Qed.

Lemma class_roundtrip c : class_of (class_char c) = Ok c.
Proof. destruct c; reflexivity. Qed.

(** ** Cutting the lines at the fixed columns *)
Lemma slice_named {E} (fs : list str) tail i a b f : forallb is_ascii (concat fs ++ tail) = true ->
  (i < length fs)%nat -> nth i fs [] = f -> length (concat (firstn i fs)) = a -> b = (a + length f)%nat ->
  @slice E (concat fs ++ tail) a b = Ok f.
Proof. intros A Hi <- <- ->. now apply slice_field. Qed.

Ltac cut_ i F A :=
  erewrite (slice_named _ _ i);
    [ cbn [obind]
    | exact A
    | rewrite F; cbn [length]; lia
    | rewrite F; cbn [nth]; reflexivity
    | rewrite F; cbn [firstn concat]; rewrite ?app_length; cbn [length lit list_ascii_of_string map]; lia
    | lia ].

Lemma hd_nth {A} (d : A) l : nth 0 l d = hd d l. Proof. destruct l; reflexivity. Qed.

Theorem tle_roundtrip t name : printable t ->
  exists l1 l2, format_tle t = Ok (l1, l2) /\ length l1 = 69%nat /\ length l2 = 69%nat /\
    forallb is_ascii l1 = true /\ forallb is_ascii l2 = true /\
    validate_tle_checksum l1 = Ok tt /\ validate_tle_checksum l2 = Ok tt /\
    exists t', parse_tle_inner name l1 l2 = Ok t' /\
      tle_eq t' {| t_name := name; t_norad := t_norad t; t_class := t_class t; t_desig := t_desig t;
                   t_epoch := t_epoch t; t_ndot := t_ndot t; t_nddot := t_nddot t; t_bstar := t_bstar t;
                   t_elset := t_elset t; t_rev := t_rev t; t_inc := t_inc t; t_raan := t_raan t;
                   t_ecc := t_ecc t; t_argp := t_argp t; t_ma := t_ma t; t_mm := t_mm t |}.
Proof.
  intros P. destruct (alpha5_roundtrip (t_norad t) (pr_norad t P)) as (cat & Fc & Lc & Ac & _ & Pc).
  unfold format_tle. rewrite Fc. cbn [obind]. do 2 eexists. split; [reflexivity|].
  destruct (pr_nanos t P) as (k & Hk & Ek).
  destruct (day_column _ _ k (pr_doy t P) Hk) as (Ld & Ad & fd & Pd & Pe).
  unfold day_text in *. rewrite <- Ek in *.
  destruct (yy_column _ (pr_year t P)) as (Ly & Ay & yv & Py & Ey). cbv zeta in *.
  destruct (pr_ndot t P) as (nd & En & Gn & Bn).
  destruct (ndot_column nd Gn Bn) as (Ln & An & nx & Pn & Enx).
  destruct (drag_roundtrip _ (pr_nddot t P)) as (Lnd & And & ndx & Pnd & Endx).
  destruct (drag_roundtrip _ (pr_bstar t P)) as (Lb & Ab & bx & Pb & Ebx).
  pose proof (pr_elset t P) as Hel. pose proof (pr_rev t P) as Hrev.
  destruct (int_column 4 (t_elset t)) as (Le & Ae & Pel); [lia|change (10 ^ N.of_nat 4) with 10000; lia|unfold i64_max; lia|].
  destruct (int_column 5 (t_rev t)) as (Lr & Ar & Pr); [lia|change (10 ^ N.of_nat 5) with 100000; lia|unfold i64_max; lia|].
  destruct (column 4 8 _ _ 2 3 _ ltac:(lia) (pr_inc t P)) as (Li & Ai & gi & Pi & Egi); try lia; try reflexivity.
  destruct (column 4 8 _ _ 2 3 _ ltac:(lia) (pr_raan t P)) as (Lra & Ara & gra & Pra & Egra); try lia; try reflexivity.
  destruct (column 4 8 _ _ 2 3 _ ltac:(lia) (pr_argp t P)) as (Lar & Aar & gar & Par & Egar); try lia; try reflexivity.
  destruct (column 4 8 _ _ 2 3 _ ltac:(lia) (pr_ma t P)) as (Lma & Ama & gma & Pma & Egma); try lia; try reflexivity.
  destruct (column 8 11 _ _ 1 2 _ ltac:(lia) (pr_mm t P)) as (Lmm & Amm & gmm & Pmm & Egmm); try lia; try reflexivity.
  destruct (pr_ecc t P) as (Ge & Be).
  destruct (ecc_column _ Ge Be) as (Lec & Aec & ex & Pec & Eec). cbv zeta in *.
  pose proof (pr_desig_len t P) as Hdl.
  assert (Ldes : length (pad_right 8 (t_desig t)) = 8%nat) by (unfold pad_right; rewrite app_length, repeat_length; lia).
  assert (Ades : forallb is_ascii (pad_right 8 (t_desig t)) = true).
  { unfold pad_right. rewrite forallb_app, (pr_desig_ascii t P), ascii_repeat; reflexivity. }
  pose proof (trim_pad_right 8 (t_desig t) (pr_desig_solid t P)) as Tdes.
  assert (F1 := eq_refl (line1_fields t cat)). assert (F2 := eq_refl (line2_fields t cat)).
  unfold line1_fields at 2 in F1. unfold line2_fields at 2 in F2. cbv zeta in F1, F2. rewrite En in F1. cbv iota in F1.
  set (fs1 := line1_fields t cat) in *. set (fs2 := line2_fields t cat) in *.
  (* name every variable field *)
  set (f_des := pad_right 8 (t_desig t)) in *.
  set (f_yy := pad0 2 (Z.to_N (((ep_year (t_epoch t) mod 100) + 100) mod 100))) in *.
  match type of Ld with length ?x = _ => set (f_day := x) in * end.
  set (f_nd := format_signed_decimal nd) in *.
  set (f_ndd := format_assumed (t_nddot t)) in *. set (f_b := format_assumed (t_bstar t)) in *.
  set (f_el := pad_left 4 (dec (t_elset t))) in *. set (f_rev := pad_left 5 (dec (t_rev t))) in *.
  set (f_i := pad_left 8 (fmt_fixedF 4 (t_inc t))) in *. set (f_ra := pad_left 8 (fmt_fixedF 4 (t_raan t))) in *.
  set (f_ar := pad_left 8 (fmt_fixedF 4 (t_argp t))) in *. set (f_ma := pad_left 8 (fmt_fixedF 4 (t_ma t))) in *.
  set (f_mm := pad_left 11 (fmt_fixedF 8 (t_mm t))) in *.
  match type of Lec with length ?x = _ => set (f_ec := x) in * end.
  clearbody fs1 fs2 f_des f_yy f_day f_nd f_ndd f_b f_el f_rev f_i f_ra f_ar f_ma f_mm f_ec.
  assert (A1 : forallb is_ascii (concat fs1) = true).
  { apply ascii_concat. rewrite F1. cbn [In]. intros f H.
    repeat (destruct H as [<-|H]; [assumption || reflexivity || (destruct (t_class t); reflexivity)|]). destruct H. }
  assert (A2 : forallb is_ascii (concat fs2) = true).
  { apply ascii_concat. rewrite F2. cbn [In]. intros f H.
    repeat (destruct H as [<-|H]; [assumption || reflexivity|]). destruct H. }
  assert (L1 : length (concat fs1) = 68%nat).
  { rewrite F1. cbn [concat]. rewrite !app_length. cbn [length lit list_ascii_of_string map]. lia. }
  assert (L2 : length (concat fs2) = 68%nat).
  { rewrite F2. cbn [concat]. rewrite !app_length. cbn [length lit list_ascii_of_string map]. lia. }
  destruct (with_checksum_valid _ A1 L1) as (W1 & WA1 & V1).
  destruct (with_checksum_valid _ A2 L2) as (W2 & WA2 & V2).
  split; [exact W1|]. split; [exact W2|]. split; [exact WA1|]. split; [exact WA2|].
  split; [exact V1|]. split; [exact V2|].
  unfold parse_tle_inner. rewrite W1, W2, V1, V2. cbn [Nat.eqb negb obind].
  unfold with_checksum in *.
  assert (C1 : nth 0 (concat fs1 ++ dec (compute_checksum (concat fs1))) 0 = 49) by (rewrite F1; reflexivity).
  assert (C2 : nth 0 (concat fs2 ++ dec (compute_checksum (concat fs2))) 0 = 50) by (rewrite F2; reflexivity).
  rewrite C1, C2. cbn [N.eqb Pos.eqb negb].
  assert (C7 : nth 7 (concat fs1 ++ dec (compute_checksum (concat fs1))) 0 = class_char (t_class t)).
  { rewrite F1. cbn [concat lit list_ascii_of_string map].
    destruct cat as [|c0 [|c1 [|c2 [|c3 [|c4 [|]]]]]]; try discriminate Lc. reflexivity. }
  rewrite C7, class_roundtrip.
  cut_ 1%nat F1 WA1. rewrite Pc. cbn [obind].
  cut_ 4%nat F1 WA1. cut_ 6%nat F1 WA1. rewrite Py. cbn [obind].
  cut_ 7%nat F1 WA1. rewrite Pd. cbn [obind]. cut_ 9%nat F1 WA1. rewrite Pn. cbn [obind].
  cut_ 11%nat F1 WA1. rewrite Pnd. cbn [obind]. cut_ 13%nat F1 WA1. rewrite Pb. cbn [obind].
  cut_ 15%nat F1 WA1. rewrite Pel. cbn [obind].
  cut_ 1%nat F2 WA2. rewrite Pc. cbn [obind]. rewrite N.eqb_refl. cbn [negb].
  cut_ 3%nat F2 WA2. rewrite Pi. cbn [obind]. cut_ 5%nat F2 WA2. rewrite Pra. cbn [obind].
  cut_ 7%nat F2 WA2. rewrite Pec. cbn [obind]. cut_ 9%nat F2 WA2. rewrite Par. cbn [obind].
  cut_ 11%nat F2 WA2. rewrite Pma. cbn [obind]. cut_ 13%nat F2 WA2. rewrite Pmm. cbn [obind].
  cut_ 14%nat F2 WA2. rewrite Pr. cbn [obind].
  rewrite Ey, Pe. cbn [obind]. eexists. split; [reflexivity|].
  unfold tle_eq. cbn [t_name t_norad t_class t_desig t_epoch t_ndot t_nddot t_bstar t_elset t_rev t_inc t_raan t_ecc t_argp t_ma t_mm].
  rewrite Tdes, En. repeat (split; [solve [assumption|reflexivity|lia|destruct (t_epoch t); cbn in *; congruence]|]); assumption.
Qed.
