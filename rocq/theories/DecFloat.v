(** Decimal text of floating-point numbers. Values are exact rationals: the final rounding of
    a decimal to the nearest f64, overflow, underflow and the sign of zero are not modelled. *)
From Coq Require Import List NArith ZArith Lia Bool QArith Qround Qabs Qpower Lqa.
From Coq Require Import ZifyBool ZifyNat ZifyN.
From Verif Require Import Base Text.
Import ListNotations.
Local Open Scope N_scope.

Inductive fnum := Fin (q : Q) | Inf (neg : bool) | NaN.

Definition feq (a b : fnum) : Prop :=
  match a, b with
  | Fin p, Fin q => (p == q)%Q
  | Inf p, Inf q => p = q
  | NaN, NaN => True
  | _, _ => False
  end.

Definition QofN (n : N) : Q := inject_Z (Z.of_N n).
Definition p10 (z : Z) : Q := Qpower 10 z.
Definition qsgn (neg : bool) (q : Q) : Q := if neg then (- q)%Q else q.

(** ** Parsing: [str::parse::<f64>()] *)
Fixpoint span_digits (s : str) : str * str :=
  match s with
  | c :: t => if is_digit c then let '(d, r) := span_digits t in (c :: d, r) else ([], s)
  | [] => ([], [])
  end.

Definition lower (c : N) : N := if (65 <=? c) && (c <=? 90) then c + 32 else c.
Definition word_is (s : str) (w : str) : bool := str_eqb (map lower s) w.
Definition w_inf : str := [105;110;102].
Definition w_infinity : str := [105;110;102;105;110;105;116;121].
Definition w_nan : str := [110;97;110].

(** Exponent part: nothing, or [e]/[E], optional sign, at least one digit. *)
Definition parse_exp (s : str) : option Z :=
  match s with
  | [] => Some 0%Z
  | c :: t =>
      if (c =? 101) || (c =? 69) then
        let '(neg, d) := sign_of t in
        match d with
        | [] => None
        | _ => if forallb is_digit d then Some (if neg then (- Z.of_N (dval d))%Z else Z.of_N (dval d)) else None
        end
      else None
  end.

(** Optional point and fraction digits. *)
Definition frac_part (r : str) : str * str :=
  match r with
  | c :: t => if c =? 46 then span_digits t else ([], r)
  | [] => ([], [])
  end.

Definition parse_f64 (s : str) : option fnum :=
  let '(neg, u) := sign_of s in
  if word_is u w_inf || word_is u w_infinity then Some (Inf neg)
  else if word_is u w_nan then Some NaN
  else
    let '(ip, r) := span_digits u in
    let '(fp, r2) := frac_part r in
    match ip ++ fp with
    | [] => None
    | _ => match parse_exp r2 with
           | Some e => Some (Fin (qsgn neg (QofN (dval (ip ++ fp)) * p10 (e - Z.of_nat (length fp)))))
           | None => None
           end
    end.

(** ** Rounding *)
(** To nearest, ties to even (what [core::fmt] uses for a fixed precision). *)
Definition round_even (q : Q) : Z :=
  let f := Qfloor q in
  let r := (q - inject_Z f)%Q in
  match (r ?= 1 # 2)%Q with
  | Lt => f
  | Gt => f + 1
  | Eq => if Z.even f then f else f + 1
  end%Z.
(** [f64::round]: to nearest, ties away from zero; used here on non-negative values. *)
Definition round_up (q : Q) : Z := Qfloor (q + (1 # 2)).

(** [{v:.p}] of a finite value *)
Definition fmt_fixed (p : nat) (v : Q) : str :=
  let m := Z.to_N (round_even (Qabs v * p10 (Z.of_nat p))) in
  (if Qle_bool 0 v then [] else [45]) ++ dec (m / 10 ^ N.of_nat p)
  ++ (if (p =? 0)%nat then [] else 46 :: digits p (m mod 10 ^ N.of_nat p)).
(** [{f:.p}] *)
Definition fmt_fixedF (p : nat) (f : fnum) : str :=
  match f with
  | Fin q => fmt_fixed p q
  | Inf neg => (if neg then [45] else []) ++ w_inf
  | NaN => [78;97;78]
  end.

(** [floor(log10 q)] of a positive rational. *)
Definition log10_floor (q : Q) : Z :=
  let a := Z.to_N (Qnum q) in
  let b := N.pos (Qden q) in
  let e := (Z.of_nat (ndig a) - Z.of_nat (ndig b))%Z in
  if Qle_bool (p10 e) q then e else (e - 1)%Z.

(** [{v:.pe}] of a finite value *)
Definition fmt_exp (p : nat) (v : Q) : str :=
  if Qeq_bool v 0 then [48] ++ (if (p =? 0)%nat then [] else 46 :: digits p 0) ++ [101; 48]
  else
    let mag := Qabs v in
    let e := log10_floor mag in
    let m := Z.to_N (round_even (mag * p10 (Z.of_nat p - e))) in
    let '(m, e) := if 10 ^ (N.of_nat p + 1) <=? m then (10 ^ N.of_nat p, (e + 1)%Z) else (m, e) in
    (if Qle_bool 0 v then [] else [45]) ++ dec (m / 10 ^ N.of_nat p)
    ++ (if (p =? 0)%nat then [] else 46 :: digits p (m mod 10 ^ N.of_nat p))
    ++ [101] ++ (if (e <? 0)%Z then [45] else []) ++ dec (Z.to_N (Z.abs e)).

(** ** Lemmas *)
Lemma p10_pos z : (0 < p10 z)%Q.
Proof. unfold p10. apply Qpower_0_lt. reflexivity. Qed.
Lemma p10_add a b : (p10 (a + b) == p10 a * p10 b)%Q.
Proof. unfold p10. apply Qpower_plus. discriminate. Qed.
Lemma p10_0 : (p10 0 == 1)%Q.
Proof. reflexivity. Qed.
Lemma p10_inv z : (p10 z * p10 (- z) == 1)%Q.
Proof. rewrite <- p10_add, Z.add_opp_diag_r. reflexivity. Qed.
Lemma p10_nat n : (p10 (Z.of_nat n) == QofN (10 ^ N.of_nat n))%Q.
Proof.
  unfold p10, QofN. rewrite N2Z.inj_pow. rewrite nat_N_Z. change (Z.of_N 10) with 10%Z.
  symmetry. rewrite Zpower_Qpower by lia. reflexivity.
Qed.
Lemma p10_mono a b : (a <= b)%Z -> (p10 a <= p10 b)%Q.
Proof.
  intros H. replace b with (a + Z.of_nat (Z.to_nat (b - a)))%Z by lia.
  rewrite p10_add, p10_nat. rewrite <- (Qmult_1_r (p10 a)) at 1. apply Qmult_le_l; [apply p10_pos|].
  unfold QofN. change 1%Q with (inject_Z 1). rewrite <- Zle_Qle.
  assert (P : 10 ^ N.of_nat (Z.to_nat (b - a)) <> 0) by (apply N.pow_nonzero; discriminate).
  revert P. generalize (10 ^ N.of_nat (Z.to_nat (b - a))). lia.
Qed.

Lemma QofN_add a b : (QofN (a + b) == QofN a + QofN b)%Q.
Proof. unfold QofN. rewrite N2Z.inj_add, inject_Z_plus. reflexivity. Qed.
Lemma QofN_mul a b : (QofN (a * b) == QofN a * QofN b)%Q.
Proof. unfold QofN. rewrite N2Z.inj_mul, inject_Z_mult. reflexivity. Qed.

Lemma round_even_int z q : (q == inject_Z z)%Q -> round_even q = z.
Proof.
  intros E. unfold round_even.
  assert (F : Qfloor q = z) by (rewrite E; apply Qfloor_Z). rewrite F.
  assert (C : (q - inject_Z z ?= 1 # 2)%Q = Lt) by (apply (proj1 (Qlt_alt _ _)); lra).
  now rewrite C.
Qed.
Lemma round_up_int z q : (q == inject_Z z)%Q -> round_up q = z.
Proof.
  intros E. unfold round_up. rewrite E.
  pose proof (Qfloor_le (inject_Z z + (1 # 2))) as A. pose proof (Qlt_floor (inject_Z z + (1 # 2))) as B.
  set (f := Qfloor _) in *. rewrite inject_Z_plus in B. change (inject_Z 1) with 1%Q in B.
  assert (inject_Z (z - 1) < inject_Z f)%Q.
  { unfold Z.sub. rewrite inject_Z_plus. change (inject_Z (- (1))) with (- (1))%Q. lra. }
  assert (inject_Z f < inject_Z (z + 1))%Q.
  { rewrite inject_Z_plus. change (inject_Z 1) with 1%Q. lra. }
  rewrite <- Zlt_Qlt in *. lia.
Qed.
Lemma round_even_err q : (Qabs (inject_Z (round_even q) - q) <= 1 # 2)%Q.
Proof.
  unfold round_even. pose proof (Qfloor_le q) as A. pose proof (Qlt_floor q) as B.
  rewrite inject_Z_plus in B. change (inject_Z 1) with 1%Q in B.
  apply Qabs_Qle_condition.
  destruct (q - inject_Z (Qfloor q) ?= 1 # 2)%Q eqn:C.
  - apply Qeq_alt in C. destruct (Z.even _); rewrite ?inject_Z_plus; change (inject_Z 1) with 1%Q; lra.
  - apply Qlt_alt in C. lra.
  - apply Qgt_alt in C. rewrite inject_Z_plus; change (inject_Z 1) with 1%Q; lra.
Qed.
Lemma round_even_nonneg q : (0 <= q)%Q -> (0 <= round_even q)%Z.
Proof.
  intros H. unfold round_even. assert (0 <= Qfloor q)%Z.
  { change 0%Z with (Qfloor 0). now apply Qfloor_resp_le. }
  destruct (_ ?= _)%Q; [destruct (Z.even _)|..]; lia.
Qed.

Lemma span_digits_app d r : forallb is_digit d = true ->
  match r with c :: _ => is_digit c = false | [] => True end ->
  span_digits (d ++ r) = (d, r).
Proof.
  intros H1 H2. induction d as [|c d IH]; cbn [app].
  - destruct r as [|c r]; [reflexivity|]. cbn. now rewrite H2.
  - cbn in H1. apply andb_prop in H1 as [Hc Hd]. cbn. rewrite Hc, IH by auto. reflexivity.
Qed.

Lemma sign_of_digit c t : is_digit c = true -> sign_of (c :: t) = (false, c :: t).
Proof.
  unfold is_digit, sign_of. intros H. destruct (N.eqb_spec c 43); [lia|]. destruct (N.eqb_spec c 45); [lia|]. reflexivity.
Qed.

(** Words never start with a digit or a point. *)
Lemma not_word u c t w : u = c :: t -> is_digit c = true \/ c = 46 ->
  hd 0 w = 105 \/ hd 0 w = 110 -> word_is u w = false.
Proof.
  intros -> Hc Hw. unfold word_is. destruct w as [|x w]; [destruct Hw; discriminate|]. cbn [hd] in Hw.
  cbn [map str_eqb]. destruct (N.eqb_spec (lower c) x) as [E|]; [|reflexivity]. exfalso.
  unfold lower, is_digit in *. destruct ((65 <=? c) && (c <=? 90)) eqn:R; lia.
Qed.

(** Reading back [sign] digits [.] digits exponent. *)
Lemma parse_f64_gen (neg : bool) ip fp (dot : bool) ex e :
  forallb is_digit ip = true -> forallb is_digit fp = true -> ip ++ fp <> [] -> (dot = false -> fp = []) ->
  parse_exp ex = Some e ->
  parse_f64 ((if neg then [45] else []) ++ ip ++ (if dot then 46 :: fp else []) ++ ex) =
    Some (Fin (qsgn neg (QofN (dval (ip ++ fp)) * p10 (e - Z.of_nat (length fp))))).
Proof.
  intros Hi Hf Hn Hdot He.
  set (u := ip ++ (if dot then 46 :: fp else []) ++ ex).
  assert (Hex : match ex with c :: _ => c = 101 \/ c = 69 | [] => True end).
  { destruct ex as [|c ex]; [exact I|]. cbn in He. destruct (N.eqb_spec c 101); [auto|].
    destruct (N.eqb_spec c 69); [auto|]. discriminate. }
  assert (Hu : exists c t, u = c :: t /\ (is_digit c = true \/ c = 46)).
  { destruct ip as [|c t].
    - destruct dot; [|rewrite Hdot in Hn by reflexivity; now destruct Hn].
      exists 46, (fp ++ ex). split; [reflexivity|now right].
    - exists c, (t ++ (if dot then 46 :: fp else []) ++ ex).
      split; [reflexivity|]. cbn in Hi. left. now apply andb_prop in Hi as [-> _]. }
  assert (S1 : sign_of ((if neg then [45] else []) ++ u) = (neg, u)).
  { destruct Hu as (c & t & Eu & Hc). destruct neg; [reflexivity|]. cbn [app]. rewrite Eu.
    destruct Hc as [Hc| ->]; [now apply sign_of_digit|reflexivity]. }
  assert (S2 : span_digits u = (ip, (if dot then 46 :: fp else []) ++ ex)).
  { apply span_digits_app; auto. destruct dot; [reflexivity|]. cbn [app].
    destruct ex as [|c ex]; [exact I|]. unfold is_digit. lia. }
  assert (S3 : frac_part ((if dot then 46 :: fp else []) ++ ex) = (fp, ex)).
  { unfold frac_part. destruct dot; cbn [app].
    - rewrite N.eqb_refl. apply span_digits_app; auto. destruct ex as [|c ex]; [exact I|]. unfold is_digit. lia.
    - rewrite Hdot by reflexivity. destruct ex as [|c ex]; [reflexivity|].
      destruct (N.eqb_spec c 46); [lia|reflexivity]. }
  unfold parse_f64. rewrite S1. destruct Hu as (c & t & Eu & Hc).
  assert (W : forall w, hd 0 w = 105 \/ hd 0 w = 110 -> word_is u w = false).
  { intros w. apply (not_word u c t w Eu Hc). }
  rewrite !W by (cbn; tauto). cbn [orb]. rewrite S2. cbv beta iota. rewrite S3. cbv beta iota. rewrite He.
  destruct (ip ++ fp) eqn:E; [now destruct Hn|reflexivity].
Qed.

Lemma parse_f64_dec (neg : bool) ip fp (dot : bool) ex e :
  forallb is_digit ip = true -> forallb is_digit fp = true -> ip <> [] -> (dot = false -> fp = []) ->
  parse_exp ex = Some e ->
  parse_f64 ((if neg then [45] else []) ++ ip ++ (if dot then 46 :: fp else []) ++ ex) =
    Some (Fin (qsgn neg (QofN (dval (ip ++ fp)) * p10 (e - Z.of_nat (length fp))))).
Proof. intros H1 H2 H3. apply parse_f64_gen; auto. destruct ip; [congruence|discriminate]. Qed.

Lemma fmt_fixed_parse p v : exists x, parse_f64 (fmt_fixed p v) = Some (Fin x) /\
  (x == qsgn (negb (Qle_bool 0 v)) (inject_Z (round_even (Qabs v * p10 (Z.of_nat p))) * p10 (- Z.of_nat p)))%Q.
Proof.
  unfold fmt_fixed. set (m := Z.to_N _).
  set (fp := if (p =? 0)%nat then [] else digits p (m mod 10 ^ N.of_nat p)).
  assert (Efp : length fp = p).
  { unfold fp. destruct (Nat.eqb_spec p 0); [cbn; lia|apply digits_length]. }
  assert (E : (if Qle_bool 0 v then [] else [45]) ++ dec (m / 10 ^ N.of_nat p) ++
      (if (p =? 0)%nat then [] else 46 :: digits p (m mod 10 ^ N.of_nat p)) =
     (if negb (Qle_bool 0 v) then [45] else []) ++ dec (m / 10 ^ N.of_nat p) ++
      (if negb (p =? 0)%nat then 46 :: fp else []) ++ []).
  { rewrite app_nil_r. unfold fp. destruct (Qle_bool 0 v), (p =? 0)%nat; reflexivity. }
  rewrite E. rewrite (parse_f64_dec _ _ fp _ [] 0); try reflexivity.
  - eexists. split; [reflexivity|].
    assert (Ed : dval (dec (m / 10 ^ N.of_nat p) ++ fp) = m).
    { rewrite dval_app, dval_dec, Efp. unfold fp. destruct (Nat.eqb_spec p 0) as [->|].
      - cbn [N.of_nat]. rewrite N.pow_0_r, N.div_1_r. cbn. lia.
      - rewrite dval_digits, N.mod_mod by (apply N.pow_nonzero; lia).
        rewrite N.mul_comm. symmetry. apply N.div_mod. apply N.pow_nonzero. lia. }
    rewrite Ed, Efp. replace (0 - Z.of_nat p)%Z with (- Z.of_nat p)%Z by lia.
    assert (Em : Z.of_N m = round_even (Qabs v * p10 (Z.of_nat p))).
    { unfold m. apply Z2N.id, round_even_nonneg. apply Qmult_le_0_compat; [apply Qabs_nonneg|].
      apply Qlt_le_weak, p10_pos. }
    unfold QofN. rewrite Em. reflexivity.
  - apply dec_digit.
  - unfold fp. destruct (p =? 0)%nat; [reflexivity|apply digits_digit].
  - apply dec_nonempty.
  - unfold fp. destruct (p =? 0)%nat; [reflexivity|discriminate].
Qed.

(** Reading back a printed value gives the value rounded to the printed places. *)
Lemma fmt_fixed_close p v : exists x, parse_f64 (fmt_fixed p v) = Some (Fin x) /\
  (Qabs (x - v) <= (1 # 2) * p10 (- Z.of_nat p))%Q.
Proof.
  destruct (fmt_fixed_parse p v) as (x & H & E). exists x. split; [exact H|].
  set (P := p10 (- Z.of_nat p)) in *. set (T := p10 (Z.of_nat p)) in *.
  assert (PT : (T * P == 1)%Q) by apply p10_inv.
  pose proof (p10_pos (- Z.of_nat p)) as HP. fold P in HP.
  set (r := inject_Z (round_even (Qabs v * T))) in *.
  pose proof (round_even_err (Qabs v * T)) as R. fold r in R. apply Qabs_Qle_condition in R.
  assert (B : (- ((1 # 2) * P) <= r * P - Qabs v <= (1 # 2) * P)%Q).
  { assert (G : (r * P - Qabs v == (r - Qabs v * T) * P)%Q) by (rewrite <- (Qmult_1_r (Qabs v)) at 1; rewrite <- PT; ring).
    rewrite G. split.
    - setoid_replace (- ((1 # 2) * P))%Q with (- (1 # 2) * P)%Q by ring. apply Qmult_le_compat_r; lra.
    - apply Qmult_le_compat_r; lra. }
  apply Qabs_Qle_condition. rewrite E. unfold qsgn.
  destruct (Qle_bool 0 v) eqn:L; cbn [negb].
  - apply Qle_bool_iff in L. rewrite (Qabs_pos v L) in B. exact B.
  - assert (v < 0)%Q. { destruct (Qlt_le_dec v 0); auto. apply Qle_bool_iff in q. congruence. }
    rewrite (Qabs_neg v) in B by lra. lra.
Qed.

(** Exactly, when the value has at most [p] decimals. *)
Lemma fmt_fixed_exact p v z : (v * p10 (Z.of_nat p) == inject_Z z)%Q ->
  exists x, parse_f64 (fmt_fixed p v) = Some (Fin x) /\ (x == v)%Q.
Proof.
  intros G. destruct (fmt_fixed_parse p v) as (x & H & E). exists x. split; [exact H|].
  assert (PT : (p10 (Z.of_nat p) * p10 (- Z.of_nat p) == 1)%Q) by apply p10_inv.
  rewrite E. unfold qsgn. destruct (Qle_bool 0 v) eqn:L; cbn [negb].
  - apply Qle_bool_iff in L. rewrite (round_even_int z).
    + rewrite <- G. setoid_replace (v * p10 (Z.of_nat p) * p10 (- Z.of_nat p))%Q with (v * (p10 (Z.of_nat p) * p10 (- Z.of_nat p)))%Q by ring.
      rewrite PT. ring.
    + now rewrite Qabs_pos.
  - assert (v < 0)%Q. { destruct (Qlt_le_dec v 0); auto. apply Qle_bool_iff in q. congruence. }
    rewrite (round_even_int (- z)).
    + rewrite inject_Z_opp, <- G.
      setoid_replace (- (- (v * p10 (Z.of_nat p)) * p10 (- Z.of_nat p)))%Q with (v * (p10 (Z.of_nat p) * p10 (- Z.of_nat p)))%Q by ring.
      rewrite PT. ring.
    + rewrite Qabs_neg by lra. rewrite inject_Z_opp, <- G. ring.
Qed.

Lemma log10_floor_spec q : (0 < q)%Q -> (p10 (log10_floor q) <= q < p10 (log10_floor q + 1))%Q.
Proof.
  intros H. destruct q as [n d].
  assert (Hn : (0 < n)%Z) by (unfold Qlt in H; cbn in H; lia).
  unfold log10_floor. cbn [Qnum Qden].
  set (a := Z.to_N n). set (b := N.pos d).
  destruct (ndig_spec a) as (A1 & A2 & A3). destruct (ndig_spec b) as (B1 & B2 & B3).
  specialize (A3 ltac:(unfold a; lia)). specialize (B3 ltac:(unfold b; lia)).
  set (da := ndig a) in *. set (db := ndig b) in *.
  assert (Eq : (n # d == QofN a / QofN b)%Q).
  { unfold QofN, a, b. rewrite Z2N.id by lia. rewrite Qmake_Qdiv. reflexivity. }
  assert (Hb : (0 < QofN b)%Q) by (unfold QofN; change 0%Q with (inject_Z 0); rewrite <- Zlt_Qlt; unfold b; lia).
  assert (TA : (p10 (Z.of_nat da - 1) <= QofN a < p10 (Z.of_nat da))%Q).
  { replace (Z.of_nat da - 1)%Z with (Z.of_nat (da - 1)) by lia. rewrite !p10_nat. unfold QofN.
    rewrite <- Zle_Qle, <- Zlt_Qlt. split; apply N2Z.inj_le || apply N2Z.inj_lt; assumption. }
  assert (TB : (p10 (Z.of_nat db - 1) <= QofN b < p10 (Z.of_nat db))%Q).
  { replace (Z.of_nat db - 1)%Z with (Z.of_nat (db - 1)) by lia. rewrite !p10_nat. unfold QofN.
    rewrite <- Zle_Qle, <- Zlt_Qlt. split; apply N2Z.inj_le || apply N2Z.inj_lt; assumption. }
  assert (EB : (QofN a == (n # d) * QofN b)%Q) by (rewrite Eq; field; lra).
  set (q := (n # d)%Q) in *. clearbody q.
  pose proof (p10_pos (Z.of_nat da)). pose proof (p10_pos (Z.of_nat db)).
  assert (U : (q < p10 (Z.of_nat da - Z.of_nat db + 1))%Q).
  { apply (Qmult_lt_r _ _ (p10 (Z.of_nat db - 1))); [apply p10_pos|].
    rewrite <- p10_add. replace (Z.of_nat da - Z.of_nat db + 1 + (Z.of_nat db - 1))%Z with (Z.of_nat da) by lia.
    eapply Qle_lt_trans; [|apply TA]. rewrite EB. apply Qmult_le_l; tauto. }
  assert (L : (p10 (Z.of_nat da - Z.of_nat db - 1) < q)%Q).
  { apply (Qmult_lt_r _ _ (QofN b)); [auto|]. rewrite <- EB.
    eapply Qlt_le_trans; [|apply TA].
    replace (Z.of_nat da - 1)%Z with (Z.of_nat da - Z.of_nat db - 1 + Z.of_nat db)%Z by lia. rewrite p10_add.
    apply Qmult_lt_l; [apply p10_pos|tauto]. }
  destruct (Qle_bool (p10 (Z.of_nat da - Z.of_nat db)) q) eqn:C.
  - apply Qle_bool_iff in C. auto.
  - replace (Z.of_nat da - Z.of_nat db - 1 + 1)%Z with (Z.of_nat da - Z.of_nat db)%Z by lia.
    split; [lra|]. destruct (Qlt_le_dec q (p10 (Z.of_nat da - Z.of_nat db))) as [X|X]; auto.
    apply Qle_bool_iff in X. congruence.
Qed.

Lemma p10_lt_inv a b : (p10 a < p10 b)%Q -> (a < b)%Z.
Proof.
  intros H. destruct (Z_lt_le_dec a b); auto. apply p10_mono in l. lra.
Qed.

Lemma log10_floor_unique q e : (p10 e <= q < p10 (e + 1))%Q -> log10_floor q = e.
Proof.
  intros [A B]. assert (P : (0 < q)%Q) by (pose proof (p10_pos e); lra).
  destruct (log10_floor_spec q P) as [C D].
  assert (log10_floor q < e + 1)%Z by (apply p10_lt_inv; lra).
  assert (e < log10_floor q + 1)%Z by (apply p10_lt_inv; lra). lia.
Qed.
