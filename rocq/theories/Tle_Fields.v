(** The drag-style field and the other numeric fields of a TLE. *)
From Coq Require Import Ascii String List NArith ZArith Lia Bool QArith Qround Qabs Lqa.
From Coq Require Import ZifyBool ZifyNat ZifyN.
From Verif Require Import Base Text DecFloat Tle_Model Tle_Spec Tle_Proofs.
Import ListNotations.
Local Open Scope N_scope.

(** ** Reading *)
Lemma rfind_sign_app d c e : forallb is_digit e = true -> c = 45 \/ c = 43 ->
  rfind_sign (d ++ c :: e) = Some (length d).
Proof.
  intros He Hc.
  assert (G : forall e, forallb is_digit e = true -> rfind_sign e = None).
  { clear. induction e as [|x e IH]; [reflexivity|]. cbn. intros H. apply andb_prop in H as [H1 H2].
    rewrite IH by auto. destruct (N.eqb_spec x 45); [subst; discriminate|]. destruct (N.eqb_spec x 43); [subst; discriminate|]. reflexivity. }
  induction d as [|x d IH]; cbn [app rfind_sign].
  - rewrite G by auto. destruct Hc as [-> | ->]; reflexivity.
  - rewrite IH. reflexivity.
Qed.

Definition sgnc (neg : bool) (blank : N) : N := if neg then 45 else blank.

Lemma parse_assumed_text (neg eneg : bool) ds n :
  forallb is_digit ds = true -> ds <> [] -> dval ds <= u64_max -> n <= i32_max ->
  parse_assumed ([sgnc neg 32] ++ ds ++ [sgnc eneg 43] ++ dec n) =
    Ok (qsgn neg (QofN (dval ds) * p10 (- Z.of_nat (length ds)) * p10 (if eneg then - Z.of_N n else Z.of_N n))%Q).
Proof.
  intros D Ne Hd Hn. unfold parse_assumed.
  set (rest := ds ++ [sgnc eneg 43] ++ dec n).
  destruct (digit_head_not_sign ds D Ne) as (c & t & Ec & Hc).
  pose proof (dec_nonempty n) as Nn. pose proof (dec_digit n) as Dn.
  assert (Hl : is_ws (last rest 0) = false).
  { apply digit_not_ws. unfold rest. rewrite app_assoc.
    destruct (exists_last Nn) as (l & x & El).
    assert (is_digit x = true).
    { rewrite El, forallb_app in Dn. cbn in Dn. apply andb_prop in Dn as [_ Dn]. now rewrite andb_true_r in Dn. }
    rewrite El, app_assoc, last_last. exact H. }
  assert (Hr : exists c t, rest = c :: t /\ 48 <= c <= 57).
  { unfold rest. rewrite Ec. exists c, (t ++ [sgnc eneg 43] ++ dec n). auto. }
  destruct Hr as (c' & t' & Er & Hc').
  assert (St : trim ([sgnc neg 32] ++ rest) = if neg then 45 :: rest else rest).
  { destruct neg; cbn [sgnc app].
    - apply trim_solid. right. split; [reflexivity|].
      rewrite Er in *. exact Hl.
    - unfold trim. cbn [trim_start is_ws]. change (is_ws 32) with true. cbv iota.
      rewrite trim_start_id by (rewrite Er; cbn [hd]; unfold is_ws; lia). now apply trim_end_id. }
  rewrite St.
  assert (Sg : (match (if neg then 45 :: rest else rest) with [] => (Ok 0%Q : res Q) | _ :: _ =>
      let '(neg0, rest0) := sign_of (if neg then 45 :: rest else rest) in
      if (length rest0 <? 2)%nat then Err InvalidNumber else
        obind (need (rfind_sign rest0) InvalidNumber) (fun sep =>
        if negb (forallb is_digit (firstn sep rest0)) || (length (firstn sep rest0) =? 0)%nat then Err InvalidNumber
        else obind (need (parse_uint u64_max (firstn sep rest0)) InvalidNumber) (fun m =>
             obind (need (parse_int i32_max (skipn sep rest0)) InvalidNumber) (fun e =>
             Ok (qsgn neg0 (QofN m * p10 (- Z.of_nat (length (firstn sep rest0))) * p10 e)%Q)))) end) =
     (if (length rest <? 2)%nat then Err InvalidNumber else
        obind (need (rfind_sign rest) InvalidNumber) (fun sep =>
        if negb (forallb is_digit (firstn sep rest)) || (length (firstn sep rest) =? 0)%nat then Err InvalidNumber
        else obind (need (parse_uint u64_max (firstn sep rest)) InvalidNumber) (fun m =>
             obind (need (parse_int i32_max (skipn sep rest)) InvalidNumber) (fun e =>
             Ok (qsgn neg (QofN m * p10 (- Z.of_nat (length (firstn sep rest))) * p10 e)%Q)))))).
  { destruct neg; [reflexivity|]. rewrite Er. rewrite (sign_of_digit c' t') by (unfold is_digit; lia). reflexivity. }
  etransitivity; [exact Sg|]. clear Sg St.
  unfold rest. rewrite !app_length. cbn [length].
  assert (length ds <> 0)%nat by (destruct ds; [congruence|discriminate]).
  assert (length (dec n) <> 0)%nat by (destruct (dec n); [congruence|discriminate]).
  destruct (Nat.ltb_spec (length ds + (1 + length (dec n))) 2); [lia|].
  change ([sgnc eneg 43] ++ dec n) with (sgnc eneg 43 :: dec n).
  rewrite rfind_sign_app by (auto; unfold sgnc; destruct eneg; auto). cbn [need obind].
  rewrite firstn_app_exact, skipn_app_exact by reflexivity. rewrite D. cbn [negb orb].
  destruct (Nat.eqb_spec (length ds) 0); [lia|].
  rewrite parse_uint_digits by auto. destruct (N.leb_spec (dval ds) u64_max); [|lia]. cbn [need obind].
  assert (Pe : parse_int i32_max (sgnc eneg 43 :: dec n) = Some (if eneg then - Z.of_N n else Z.of_N n)%Z).
  { unfold parse_int, sign_of. destruct eneg; cbn [sgnc N.eqb Pos.eqb].
    - destruct (dec n) eqn:E; [congruence|]. rewrite <- E in *. rewrite Dn, dval_dec.
      destruct (N.leb_spec n (i32_max + 1)); [reflexivity|unfold i32_max in *; lia].
    - destruct (dec n) eqn:E; [congruence|]. rewrite <- E in *. rewrite Dn, dval_dec.
      destruct (N.leb_spec n i32_max); [reflexivity|lia]. }
  rewrite Pe. reflexivity.
Qed.

(** ** Writing *)
Lemma Qfloor_shift q z : (inject_Z z <= q)%Q -> (q < inject_Z z + 1)%Q -> Qfloor q = z.
Proof.
  intros H1 H2. pose proof (Qfloor_le q) as A. pose proof (Qlt_floor q) as B.
  rewrite inject_Z_plus in B. change (inject_Z 1) with 1%Q in B.
  assert (inject_Z (Qfloor q) < inject_Z (z + 1))%Q by (rewrite inject_Z_plus; change (inject_Z 1) with 1%Q; lra).
  assert (inject_Z z < inject_Z (Qfloor q + 1))%Q by (rewrite inject_Z_plus; change (inject_Z 1) with 1%Q; lra).
  rewrite <- Zlt_Qlt in *. lia.
Qed.

Lemma round_up_spec q : (inject_Z (round_up q) - (1 # 2) <= q < inject_Z (round_up q) + (1 # 2))%Q.
Proof.
  unfold round_up. pose proof (Qfloor_le (q + (1 # 2))). pose proof (Qlt_floor (q + (1 # 2))) as B.
  rewrite inject_Z_plus in B. change (inject_Z 1) with 1%Q in B. split; lra.
Qed.

(** The decimal exponent of a value: [10^(e-1) <= |v| < 10^e]. *)
Definition dexp (v : Q) (e : Z) : Prop := (p10 (e - 1) <= Qabs v < p10 e)%Q.

Lemma format_assumed_text v e : dexp v e ->
  let m := round_up (Qabs v * p10 (5 - e)) in
  (10000 <= m <= 100000)%Z /\
  format_assumed v = [sgnc (negb (Qle_bool 0 v)) 32] ++ pad0 5 (Z.to_N m)
                     ++ [sgnc (e <? 0)%Z 43] ++ dec (Z.to_N (Z.abs e)).
Proof.
  intros [H1 H2]. cbv zeta.
  assert (Hpos : (0 < Qabs v)%Q) by (pose proof (p10_pos (e - 1)); lra).
  assert (EL : log10_floor (Qabs v) = (e - 1)%Z).
  { apply log10_floor_unique. split; [exact H1|]. now replace (e - 1 + 1)%Z with e by lia. }
  set (x := (Qabs v * p10 (5 - e))%Q).
  assert (Bx : (10000 <= x < 100000)%Q).
  { unfold x. pose proof (p10_pos (5 - e)) as P. split.
    - setoid_replace 10000%Q with (p10 (e - 1) * p10 (5 - e))%Q.
      + apply Qmult_le_compat_r; lra.
      + rewrite <- p10_add. replace (e - 1 + (5 - e))%Z with 4%Z by lia. reflexivity.
    - setoid_replace 100000%Q with (p10 e * p10 (5 - e))%Q.
      + apply Qmult_lt_r; auto.
      + rewrite <- p10_add. replace (e + (5 - e))%Z with 5%Z by lia. reflexivity. }
  set (m := round_up x). pose proof (round_up_spec x) as R. fold m in R.
  assert (Bm : (10000 <= m <= 100000)%Z).
  { assert (inject_Z 9999 < inject_Z m)%Q by (change (inject_Z 9999) with 9999%Q; lra).
    assert (inject_Z m < inject_Z 100001)%Q by (change (inject_Z 100001) with 100001%Q; lra).
    rewrite <- Zlt_Qlt in *. lia. }
  split; [exact Bm|].
  unfold format_assumed.
  assert (Hz : Qeq_bool v 0 = false).
  { destruct (Qeq_bool v 0) eqn:E; [|reflexivity]. apply Qeq_bool_iff in E. rewrite E in Hpos. cbn in Hpos. lra. }
  rewrite Hz, EL. replace (e - 1 + 1)%Z with e by lia.
  assert (Em : round_up (Qabs v * p10 (- e) * 100000) = m).
  { unfold m, round_up. apply Qfloor_comp.
    assert (E : (Qabs v * p10 (- e) * 100000 == x)%Q).
    { unfold x. replace (5 - e)%Z with (- e + 5)%Z by lia. rewrite p10_add. change (p10 5) with 100000%Q. ring. }
    rewrite E. reflexivity. }
  rewrite Em. assert (Ec : clamp_u64 m = Z.to_N m) by (unfold clamp_u64, u64_max; lia). rewrite Ec.
  destruct (N.leb_spec 1000000 (Z.to_N m)); [lia|]. rewrite Em, Ec.
  unfold sgnc. destruct (Qle_bool 0 v), (e <? 0)%Z; reflexivity.
Qed.

Lemma format_assumed_length v e : dexp v e ->
  length (format_assumed v) =
    ((if Qle_bool (99999 + (1 # 2)) (Qabs v * p10 (5 - e)) then 8 else 7) + ndig (Z.to_N (Z.abs e)))%nat.
Proof.
  intros H. destruct (format_assumed_text v e H) as [Bm ->]. cbv zeta in *.
  set (x := (Qabs v * p10 (5 - e))%Q) in *. set (m := round_up x) in *.
  pose proof (round_up_spec x) as R. fold m in R.
  rewrite !app_length, pad0_length. unfold dec. rewrite digits_length. cbn [length].
  destruct (Qle_bool (99999 + (1 # 2)) x) eqn:C.
  - apply Qle_bool_iff in C. assert (inject_Z 99999 < inject_Z m)%Q by (change (inject_Z 99999) with 99999%Q; lra).
    rewrite <- Zlt_Qlt in H0. assert (m = 100000)%Z by lia. rewrite H1. reflexivity.
  - assert (C2 : (x < 99999 + (1 # 2))%Q).
    { destruct (Qlt_le_dec x (99999 + (1 # 2))) as [X|X]; [exact X|]. apply Qle_bool_iff in X. congruence. }
    assert (inject_Z m < inject_Z 100000)%Q by (change (inject_Z 100000) with 100000%Q; lra).
    rewrite <- Zlt_Qlt in H0. rewrite Nat.max_l; [lia|]. apply ndig_le; [lia|]. change (10 ^ N.of_nat 5) with 100000. lia.
Qed.

(** Reading a written value: within half a unit of the fifth digit, unless the mantissa
    rounds up to one. *)
Lemma assumed_close v e : dexp v e -> (Z.abs e <= 2147483647)%Z ->
  (Qabs v * p10 (5 - e) < 99999 + (1 # 2))%Q ->
  exists x, parse_assumed (format_assumed v) = Ok x /\ (Qabs (x - v) <= (1 # 2) * p10 (e - 5))%Q.
Proof.
  intros H He Hx. destruct (format_assumed_text v e H) as [Bm Et]. cbv zeta in *.
  set (y := (Qabs v * p10 (5 - e))%Q) in *. set (m := round_up y) in *.
  pose proof (round_up_spec y) as R. fold m in R.
  assert (Bm2 : (m <= 99999)%Z).
  { assert (inject_Z m < inject_Z 100000)%Q by (change (inject_Z 100000) with 100000%Q; lra).
    rewrite <- Zlt_Qlt in H0. lia. }
  rewrite Et, parse_assumed_text.
  2: apply pad0_digit. 2: apply pad0_nonempty. 2: rewrite dval_pad0; unfold u64_max; lia. 2: unfold i32_max; lia.
  eexists. split; [reflexivity|].
  rewrite dval_pad0. rewrite pad0_length, Nat.max_l by (apply ndig_le; [lia|change (10 ^ N.of_nat 5) with 100000; lia]).
  set (s := p10 (e - 5)).
  assert (Ev : (QofN (Z.to_N m) * p10 (- Z.of_nat 5) * p10 (if (e <? 0)%Z then - Z.of_N (Z.to_N (Z.abs e)) else Z.of_N (Z.to_N (Z.abs e))) == inject_Z m * s)%Q).
  { assert (Ee : (if (e <? 0)%Z then - Z.of_N (Z.to_N (Z.abs e)) else Z.of_N (Z.to_N (Z.abs e)))%Z = e) by (destruct (Z.ltb_spec e 0); lia).
    rewrite Ee. unfold QofN. rewrite Z2N.id by lia. unfold s. replace (e - 5)%Z with (- Z.of_nat 5 + e)%Z by lia.
    rewrite p10_add. ring. }
  pose proof (p10_pos (e - 5)) as Hs. fold s in Hs.
  assert (Ey : (y * s == Qabs v)%Q).
  { unfold y, s. assert (P := p10_inv (5 - e)). replace (- (5 - e))%Z with (e - 5)%Z in P by lia.
    setoid_replace (Qabs v * p10 (5 - e) * p10 (e - 5))%Q with (Qabs v * (p10 (5 - e) * p10 (e - 5)))%Q by ring.
    rewrite P. ring. }
  assert (B : (- ((1 # 2) * s) <= inject_Z m * s - Qabs v <= (1 # 2) * s)%Q).
  { rewrite <- Ey. setoid_replace (inject_Z m * s - y * s)%Q with ((inject_Z m - y) * s)%Q by ring. split.
    - setoid_replace (- ((1 # 2) * s))%Q with (- (1 # 2) * s)%Q by ring. apply Qmult_le_compat_r; lra.
    - apply Qmult_le_compat_r; lra. }
  apply Qabs_Qle_condition. unfold qsgn. destruct (Qle_bool 0 v) eqn:L; cbn [negb].
  - apply Qle_bool_iff in L. rewrite (Qabs_pos v L) in B. rewrite Ev. exact B.
  - assert (v < 0)%Q. { destruct (Qlt_le_dec v 0); auto. apply Qle_bool_iff in q. congruence. }
    rewrite (Qabs_neg v) in B by lra. rewrite Ev. lra.
Qed.

Lemma drag_dexp neg m e : 10000 <= m <= 99999 ->
  dexp (qsgn neg (QofN m * p10 (e - 5))) e /\
  (Qabs (qsgn neg (QofN m * p10 (e - 5))) * p10 (5 - e) == QofN m)%Q.
Proof.
  intros H. pose proof (p10_pos (e - 5)) as P.
  assert (B : (10000 <= QofN m <= 99999)%Q).
  { unfold QofN. change 10000%Q with (inject_Z 10000). change 99999%Q with (inject_Z 99999). rewrite <- !Zle_Qle. lia. }
  assert (A : (Qabs (qsgn neg (QofN m * p10 (e - 5))) == QofN m * p10 (e - 5))%Q).
  { assert (0 <= QofN m * p10 (e - 5))%Q by (apply Qmult_le_0_compat; lra).
    destruct neg; cbn [qsgn]; rewrite ?Qabs_opp; now apply Qabs_pos. }
  split.
  - unfold dexp. rewrite A. split.
    + setoid_replace (p10 (e - 1)) with (10000 * p10 (e - 5))%Q.
      * apply Qmult_le_compat_r; lra.
      * replace (e - 1)%Z with (4 + (e - 5))%Z by lia. rewrite p10_add. reflexivity.
    + setoid_replace (p10 e) with (100000 * p10 (e - 5))%Q.
      * apply Qmult_lt_r; lra.
      * replace e with (5 + (e - 5))%Z at 1 by lia. rewrite p10_add. reflexivity.
  - rewrite A. assert (Q0 := p10_inv (e - 5)). replace (- (e - 5))%Z with (5 - e)%Z in Q0 by lia.
    setoid_replace (QofN m * p10 (e - 5) * p10 (5 - e))%Q with (QofN m * (p10 (e - 5) * p10 (5 - e)))%Q by ring.
    rewrite Q0. ring.
Qed.

Lemma dexp_comp v w e : (v == w)%Q -> dexp v e -> dexp w e.
Proof. unfold dexp. intros E. now rewrite E. Qed.

Lemma drag_roundtrip v : drag_value v ->
  length (format_assumed v) = 8%nat /\ forallb is_ascii (format_assumed v) = true /\
  exists x, parse_assumed (format_assumed v) = Ok x /\ (x == v)%Q.
Proof.
  intros [Hv|(neg & m & e & Hm & He & Hv)].
  - unfold format_assumed. apply Qeq_bool_iff in Hv. rewrite Hv. apply Qeq_bool_iff in Hv.
    split; [reflexivity|]. split; [reflexivity|]. eexists. split; [vm_compute; reflexivity|]. rewrite Hv. reflexivity.
  - destruct (drag_dexp neg m e Hm) as [D E]. apply (dexp_comp _ v) in D; [|now symmetry].
    assert (E2 : (Qabs v * p10 (5 - e) == inject_Z (Z.of_N m))%Q) by (rewrite Hv; exact E).
    destruct (format_assumed_text v e D) as [_ Et]. cbv zeta in Et.
    rewrite (round_up_int _ _ E2), N2Z.id in Et.
    assert (P5 : pad0 5 m = digits 5 m) by (apply pad0_fit; [lia|change (10 ^ N.of_nat 5) with 100000; lia]).
    assert (Ed : dec (Z.to_N (Z.abs e)) = [48 + Z.to_N (Z.abs e)]) by (apply dec_small; lia).
    rewrite Et, P5. split; [rewrite Ed, !app_length, digits_length; reflexivity|].
    split.
    { rewrite !forallb_app. assert (Dd := digits_digit 5 m).
      assert (forallb is_ascii (digits 5 m) = true).
      { rewrite forallb_forall in *. intros x Hx. now apply digit_ascii, Dd. }
      rewrite H, Ed. unfold sgnc, is_ascii. destruct (negb _), (e <? 0)%Z; cbn [forallb andb]; lia. }
    rewrite parse_assumed_text.
    2: apply digits_digit.
    2: { intros X. apply (f_equal (@length N)) in X. rewrite digits_length in X. discriminate. }
    2: { rewrite dval_digits. change (10 ^ N.of_nat 5) with 100000. unfold u64_max. lia. }
    2: unfold i32_max; lia.
    eexists. split; [reflexivity|]. rewrite dval_digits, digits_length.
    change (10 ^ N.of_nat 5) with 100000. rewrite N.mod_small by lia.
    assert (Ee : (if (e <? 0)%Z then - Z.of_N (Z.to_N (Z.abs e)) else Z.of_N (Z.to_N (Z.abs e)))%Z = e) by (destruct (Z.ltb_spec e 0); lia).
    rewrite Ee.
    assert (Em : (QofN m * p10 (- Z.of_nat 5) * p10 e == QofN m * p10 (e - 5))%Q).
    { replace (e - 5)%Z with (- Z.of_nat 5 + e)%Z by lia. rewrite p10_add. ring. }
    assert (Pm : (0 < QofN m * p10 (e - 5))%Q).
    { pose proof (p10_pos (e - 5)). assert (0 < QofN m)%Q by (unfold QofN; change 0%Q with (inject_Z 0); rewrite <- Zlt_Qlt; lia).
      now apply Qmult_lt_0_compat. }
    assert (Ng : negb (Qle_bool 0 v) = neg).
    { destruct neg; cbn [qsgn] in Hv.
      - destruct (Qle_bool 0 v) eqn:C; [|reflexivity]. apply Qle_bool_iff in C. lra.
      - destruct (Qle_bool 0 v) eqn:C; [reflexivity|]. exfalso.
        assert (0 <= v)%Q by lra. apply Qle_bool_iff in H. congruence. }
    rewrite Ng, Hv. destruct neg; cbn [qsgn]; rewrite Em; reflexivity.
Qed.
