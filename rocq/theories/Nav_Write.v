(** Writing a navigation file and reading it back. *)
From Coq Require Import Ascii String List NArith ZArith Lia Bool QArith Qround Qabs Lqa.
From Coq Require Import ZifyBool ZifyNat ZifyN.
From Verif Require Import Base Text DecFloat Lsk_Spec Sp3_Model Omm_Model Omm_Proofs Sp3_Write Oem_Model Ilrs_Model Ilrs_Proofs Ilrs_Write Nav_Model Nav_Spec Nav_Proofs.
Import ListNotations.
Local Open Scope N_scope.

(** ** The letter of the exponent *)
Definition up (c : N) : N := if c =? 101 then 69 else c.
Lemma up_digit c : is_digit (up c) = is_digit c.
Proof. unfold up. destruct (N.eqb_spec c 101) as [->|]; reflexivity. Qed.
Lemma up_eqb c k : k <> 101 -> k <> 69 -> (up c =? k) = (c =? k).
Proof. unfold up. intros A B. destruct (N.eqb_spec c 101) as [->|]; [|reflexivity]. destruct (N.eqb_spec 69 k), (N.eqb_spec 101 k); congruence. Qed.
Lemma up_lower c : lower (up c) = lower c.
Proof. unfold up. destruct (N.eqb_spec c 101) as [->|]; reflexivity. Qed.
Lemma up_digits s : forallb is_digit (map up s) = forallb is_digit s.
Proof. induction s as [|c s IH]; [reflexivity|]. cbn [map forallb]. now rewrite up_digit, IH. Qed.
Lemma up_sign s : sign_of (map up s) = let '(n, u) := sign_of s in (n, map up u).
Proof.
  destruct s as [|c s]; [reflexivity|]. cbn [map sign_of]. rewrite !up_eqb by discriminate. destruct (c =? 43); [reflexivity|]. destruct (c =? 45); reflexivity.
Qed.
Lemma digits_up s : forallb is_digit s = true -> map up s = s.
Proof.
  induction s as [|c s IH]; [reflexivity|]. cbn [forallb map]. intros H. apply andb_prop in H as (A & B). rewrite IH by exact B. f_equal. unfold up. destruct (N.eqb_spec c 101) as [->|]; [discriminate|reflexivity].
Qed.
Lemma up_span s : span_digits (map up s) = let '(d, r) := span_digits s in (d, map up r).
Proof.
  induction s as [|c s IH]; [reflexivity|]. cbn [map span_digits]. rewrite up_digit. destruct (is_digit c) eqn:D; [|reflexivity]. rewrite IH. destruct (span_digits s) as (d, r).
  replace (up c) with c; [reflexivity|]. unfold up. destruct (N.eqb_spec c 101) as [->|]; [discriminate|reflexivity].
Qed.
Lemma up_frac s : frac_part (map up s) = let '(d, r) := frac_part s in (d, map up r).
Proof. destruct s as [|c s]; [reflexivity|]. cbn [map frac_part]. rewrite up_eqb by discriminate. destruct (c =? 46); [apply up_span|reflexivity]. Qed.
Lemma up_exp s : parse_exp (map up s) = parse_exp s.
Proof.
  destruct s as [|c s]; [reflexivity|]. cbn [map parse_exp]. assert (E : (up c =? 101) || (up c =? 69) = (c =? 101) || (c =? 69)) by (unfold up; destruct (c =? 101) eqn:C; [reflexivity|now rewrite C]). rewrite E.
  destruct ((c =? 101) || (c =? 69)); [|reflexivity]. clear E. rewrite up_sign. destruct (sign_of s) as (n, d). destruct d as [|x d]; [reflexivity|]. change (map up (x :: d)) with (up x :: map up d). cbv iota. change (up x :: map up d) with (map up (x :: d)). rewrite up_digits.
  destruct (forallb is_digit (x :: d)) eqn:D; [|reflexivity]. now rewrite (digits_up _ D).
Qed.
Lemma up_parse s : parse_f64 (map up s) = parse_f64 s.
Proof.
  unfold parse_f64. rewrite up_sign. destruct (sign_of s) as (n, u). assert (W : forall w, word_is (map up u) w = word_is u w) by (intros w; unfold word_is; rewrite map_map; now rewrite (map_ext _ _ up_lower)).
  rewrite !W. destruct (word_is u w_inf || word_is u w_infinity); [reflexivity|]. destruct (word_is u w_nan); [reflexivity|]. rewrite up_span. destruct (span_digits u) as (ip, r). rewrite up_frac. destruct (frac_part r) as (fp, r2). now rewrite up_exp.
Qed.

(** ** One number *)
Definition exp_char (c : N) : bool := is_digit c || (c =? 45) || (c =? 46) || (c =? 101).
Lemma digits_exp s : forallb is_digit s = true -> forallb exp_char s = true.
Proof. rewrite !forallb_forall. intros H x I. unfold exp_char. now rewrite (H x I). Qed.
Lemma exp_chars p q : forallb exp_char (fmt_exp p q) = true.
Proof.
  unfold fmt_exp. destruct (Qeq_bool q 0).
  - rewrite !forallb_app. destruct (p =? 0)%nat; [reflexivity|]. cbn [forallb]. now rewrite (digits_exp _ (digits_digit p 0)).
  - match goal with |- context [let '(_, _) := ?x in _] => destruct x as [m e] end. rewrite !forallb_app, !(digits_exp (dec _)) by apply dec_digit.
    assert (D : forallb exp_char (if (p =? 0)%nat then [] else 46 :: digits p (m mod 10 ^ N.of_nat p)) = true). { destruct (p =? 0)%nat; [reflexivity|]. cbn [forallb]. now rewrite (digits_exp _ (digits_digit _ _)). }
    rewrite D. destruct (Qle_bool 0 q), (e <? 0)%Z; reflexivity.
Qed.
Lemma exp_plain p q : plain (fmt_exp p q).
Proof.
  split; [|exact (inked_exp p (Fin q))]. unfold fmt_exp. destruct (Qeq_bool q 0); [discriminate|]. match goal with |- context [let '(_, _) := ?x in _] => destruct x as [m e] end.
  intros E. apply app_eq_nil in E as (_ & E). apply app_eq_nil in E as (E & _). exact (dec_nonempty _ E).
Qed.
Lemma d_word_plain f : plain (d_word f).
Proof.
  destruct f as [q| |]; cbn [d_word]; [|split; [discriminate|reflexivity]|split; [discriminate|reflexivity]]. destruct (exp_plain 12 q) as (A & _). split; [destruct (fmt_exp 12 q); [congruence|discriminate]|].
  pose proof (exp_chars 12 q) as C. unfold inked. rewrite forallb_forall in *. intros x I. apply in_map_iff in I as (y & <- & I). specialize (C y I). unfold exp_char, is_digit in C. unfold is_ws. destruct (N.eqb_spec y 101); lia.
Qed.
(** What is read back: the value to thirteen digits; a zero for what is not finite *)
Definition back (g f : fnum) : Prop := match f with Fin _ => near_rel (1 # 2000000000000) g f | _ => exists x, g = Fin x /\ (x == 0)%Q end.
Lemma d_word_back f : exists g, number (d_word f) g /\ back g f.
Proof.
  unfold number. destruct f as [q| |]; cbn [d_word back].
  - rewrite map_map. assert (E : map (fun c => usual (if c =? 101 then 68 else c)) (fmt_exp 12 q) = map up (fmt_exp 12 q)).
    { apply map_ext_in. intros c I. pose proof (exp_chars 12 q) as C. rewrite forallb_forall in C. specialize (C c I). unfold exp_char, is_digit in C. unfold usual, up. destruct (N.eqb_spec c 101); [reflexivity|]. destruct (N.eqb_spec c 68); [lia|]. destruct (N.eqb_spec c 100); [lia|reflexivity]. }
    rewrite E, up_parse. destruct (exp_near 12 (Fin q)) as (g & P & B). exists g. split; [exact P|]. eapply near_rel_le; [|exact B]. discriminate.
  - eexists. split; [reflexivity|]. eexists. split; [reflexivity|]. reflexivity.
  - eexists. split; [reflexivity|]. eexists. split; [reflexivity|]. reflexivity.
Qed.
Lemma Qabs_neg_eq q : (q <= 0)%Q -> Qabs q = (- q)%Q.
Proof. intros H. destruct q as [n d]. unfold Qle in H. cbn in H. unfold Qabs, Qopp. cbn [Qnum Qden]. f_equal. lia. Qed.
(** Its length *)
Lemma exp_length q : ~ (q == 0)%Q -> exists e, (log10_floor (Qabs q) <= e <= log10_floor (Qabs q) + 1)%Z /\
  length (fmt_exp 12 q) = ((if Qle_bool 0 q then 0 else 1) + 15 + (if (e <? 0)%Z then 1 else 0) + ndig (Z.to_N (Z.abs e)))%nat.
Proof.
  intros N. unfold fmt_exp. destruct (Qeq_bool q 0) eqn:Z0; [apply Qeq_bool_iff in Z0; contradiction|]. set (lf := log10_floor (Qabs q)). set (m := Z.to_N (round_even _)).
  assert (K : exists m' e, (if 10 ^ (N.of_nat 12 + 1) <=? m then (10 ^ N.of_nat 12, (lf + 1)%Z) else (m, lf)) = (m', e) /\ m' < 10 ^ 13 /\ (lf <= e <= lf + 1)%Z).
  { destruct (N.leb_spec (10 ^ (N.of_nat 12 + 1)) m) as [L|L]; [exists (10 ^ N.of_nat 12), (lf + 1)%Z|exists m, lf]; (split; [reflexivity|]); split; try lia; try reflexivity. }
  destruct K as (m' & e & -> & M & E). exists e. split; [exact E|]. cbv iota beta. rewrite !app_length. cbn [length app Nat.eqb]. rewrite digits_length.
  assert (D : length (dec (m' / 10 ^ N.of_nat 12)) = 1%nat). { unfold dec. rewrite digits_length. assert (L : m' / 10 ^ N.of_nat 12 < 10 ^ N.of_nat 1) by (apply N.div_lt_upper_bound; [discriminate|exact M]). pose proof (ndig_le _ 1 ltac:(lia) L). pose proof (proj1 (proj2 (ndig_spec (m' / 10 ^ N.of_nat 12)))). lia. }
  rewrite D. assert (D2 : length (dec (Z.to_N (Z.abs e))) = ndig (Z.to_N (Z.abs e))) by (unfold dec; apply digits_length). rewrite D2. destruct (Qle_bool 0 q), (e <? 0)%Z; cbn [length]; lia.
Qed.
Definition fits (f : fnum) : Prop := (length (d_word f) <= 18)%nat.
Lemma ndig_small n k : (1 <= k)%nat -> n < 10 ^ N.of_nat k -> (1 <= ndig n <= k)%nat.
Proof. intros K L. split; [exact (proj1 (proj2 (ndig_spec n)))|now apply ndig_le]. Qed.
(** Values that leave a blank before them *)
Definition roomy (f : fnum) : Prop :=
  match f with Fin q => (q == 0 \/ p10 (-99) <= q < p10 309 \/ - p10 99 < q <= - p10 (-9))%Q | _ => False end.
Lemma lf_low q a : (0 < q)%Q -> (p10 a <= q)%Q -> (a <= log10_floor q)%Z.
Proof. intros P L. destruct (log10_floor_spec q P) as (_ & B). assert (a < log10_floor q + 1)%Z by (apply p10_lt_inv; lra). lia. Qed.
Lemma lf_high q a : (0 < q)%Q -> (q < p10 a)%Q -> (log10_floor q < a)%Z.
Proof. intros P L. destruct (log10_floor_spec q P) as (B & _). apply p10_lt_inv. lra. Qed.
Lemma roomy_fits f : roomy f -> fits f.
Proof.
  destruct f as [q| |]; try contradiction. unfold fits, roomy. cbn [d_word]. rewrite map_length.
  pose proof (p10_pos (-99)) as P1. pose proof (p10_pos (-9)) as P2.
  intros [Z0|[(A & B)|(A & B)]].
  - unfold fmt_exp. rewrite (proj2 (Qeq_bool_iff q 0) Z0). cbn. lia.
  - destruct (exp_length q) as (e & E & ->); [lra|]. rewrite (Qabs_pos_eq q) in E by lra. assert (Q : Qle_bool 0 q = true) by (apply Qle_bool_iff; lra). rewrite Q.
    pose proof (lf_low q (-99) ltac:(lra) A). pose proof (lf_high q 309 ltac:(lra) B).
    destruct (Z.ltb_spec e 0).
    + pose proof (ndig_small (Z.to_N (Z.abs e)) 2 ltac:(lia) ltac:(change (10 ^ N.of_nat 2) with 100; lia)). lia.
    + pose proof (ndig_small (Z.to_N (Z.abs e)) 3 ltac:(lia) ltac:(change (10 ^ N.of_nat 3) with 1000; lia)). lia.
  - destruct (exp_length q) as (e & E & ->); [lra|]. rewrite (Qabs_neg_eq q) in E by lra. assert (Q : Qle_bool 0 q = false) by (destruct (Qle_bool 0 q) eqn:Q; [apply Qle_bool_iff in Q; lra|reflexivity]). rewrite Q.
    pose proof (lf_low (- q) (-9) ltac:(lra) ltac:(lra)). pose proof (lf_high (- q) 99 ltac:(lra) ltac:(lra)).
    destruct (Z.ltb_spec e 0).
    + pose proof (ndig_small (Z.to_N (Z.abs e)) 1 ltac:(lia) ltac:(change (10 ^ N.of_nat 1) with 10; lia)). lia.
    + pose proof (ndig_small (Z.to_N (Z.abs e)) 2 ltac:(lia) ltac:(change (10 ^ N.of_nat 2) with 100; lia)). lia.
Qed.
Definition tiny_negative (f : fnum) : Prop := match f with Fin q => (- p10 (-10) < q < 0)%Q | _ => False end.
Lemma tiny_fills f : tiny_negative f -> (19 <= length (d_word f))%nat.
Proof.
  destruct f as [q| |]; try contradiction. unfold tiny_negative. cbn [d_word]. rewrite map_length. intros (A & B). destruct (exp_length q) as (e & E & ->); [lra|]. rewrite (Qabs_neg_eq q) in E by lra.
  assert (Q : Qle_bool 0 q = false) by (destruct (Qle_bool 0 q) eqn:Q; [apply Qle_bool_iff in Q; lra|reflexivity]). rewrite Q. pose proof (lf_high (- q) (-10) ltac:(lra) ltac:(lra)).
  destruct (Z.ltb_spec e 0); [|lia]. pose proof (ndig_ge (Z.to_N (Z.abs e)) 1 ltac:(change (10 ^ N.of_nat 1) with 10; lia)). lia.
Qed.

(** ** One line *)
Lemma fits_blank f : fits f -> exists k, fmt_d f = 32 :: repeat 32 k ++ d_word f.
Proof. unfold fits, fmt_d, pad_left. intros L. exists (18 - length (d_word f))%nat. replace (19 - length (d_word f))%nat with (Datatypes.S (18 - length (d_word f))) by lia. reflexivity. Qed.
Lemma tight f : (19 <= length (d_word f))%nat -> fmt_d f = d_word f.
Proof. unfold fmt_d, pad_left. intros L. now replace (19 - length (d_word f))%nat with 0%nat by lia. Qed.
Lemma words_tail fs : Forall fits fs -> forall w, plain w -> split_ws (w ++ flat_map fmt_d fs) = w :: map d_word fs.
Proof.
  induction 1 as [|f fs F _ IH]; intros w (A & B).
  - cbn [flat_map map]. rewrite app_nil_r. now apply split_ws_last.
  - cbn [flat_map map]. destruct (fits_blank f F) as (k & ->). cbn [app]. rewrite split_ws_word by assumption. rewrite <- app_assoc, split_ws_spaces. f_equal. apply IH. apply d_word_plain.
Qed.
Lemma words_cont a b c d : fits b -> fits c -> fits d -> split_ws (cont a b c d) = map d_word [a; b; c; d].
Proof.
  intros B C D. unfold cont. rewrite split_ws_spaces. unfold fmt_d at 1, pad_left. rewrite <- app_assoc, split_ws_spaces.
  replace (fmt_d b ++ fmt_d c ++ fmt_d d) with (flat_map fmt_d [b; c; d]) by (cbn [flat_map]; now rewrite app_nil_r). apply words_tail; [repeat (apply Forall_cons; [assumption|]); apply Forall_nil|apply d_word_plain].
Qed.
Lemma cont_numbers a b c d : fits b -> fits c -> fits d -> exists a' b' c' d', numbers (cont a b c d) [a'; b'; c'; d'] /\ back a' a /\ back b' b /\ back c' c /\ back d' d.
Proof.
  intros B C D. destruct (d_word_back a) as (a' & Na & Ba), (d_word_back b) as (b' & Nb & Bb), (d_word_back c) as (c' & Nc & Bc), (d_word_back d) as (d' & Nd & Bd).
  exists a', b', c', d'. split; [|auto]. unfold numbers. rewrite words_cont by assumption. cbn [map]. repeat (apply Forall2_cons; [assumption|]); apply Forall2_nil.
Qed.
Lemma plain_pad0 w n : (1 <= w)%nat -> plain (pad0 w n).
Proof. intros W. split; [|apply inked_digits, pad0_digit]. intros E. pose proof (pad0_length w n) as L. rewrite E in L. cbn [length] in L. lia. Qed.
Lemma int_pad0 w n : (1 <= w)%nat -> n <= i64_max -> int (pad0 w n) (Z.of_N n).
Proof.
  intros W L. unfold int. rewrite parse_int_digits; [|apply pad0_digit|apply (plain_pad0 w n W)]. rewrite dval_pad0. destruct (N.leb_spec n i64_max); [reflexivity|lia].
Qed.
Lemma number_pad0 w n : (1 <= w)%nat -> exists x, number (pad0 w n) (Fin x) /\ (x == inject_Z (Z.of_N n))%Q.
Proof.
  intros W. unfold number. assert (E : map usual (pad0 w n) = pad0 w n).
  { pose proof (pad0_digit w n) as D. induction (pad0 w n) as [|c s IH]; [reflexivity|]. cbn [forallb map] in *. apply andb_prop in D as (A & B). rewrite IH by exact B. f_equal. unfold usual. unfold is_digit in A. destruct (N.eqb_spec c 68); [lia|]. destruct (N.eqb_spec c 100); [lia|reflexivity]. }
  rewrite E. pose proof (parse_f64_dec false (pad0 w n) [] false [] 0 (pad0_digit w n) eq_refl (proj1 (plain_pad0 w n W)) (fun _ => eq_refl) eq_refl) as H. cbn [app length] in H. rewrite !app_nil_r in H.
  rewrite H. eexists. split; [reflexivity|]. cbn [qsgn]. rewrite dval_pad0. change (p10 (0 - Z.of_nat 0)) with 1%Q. unfold QofN. ring.
Qed.
Definition head_words (r : nav) : list str :=
  [pad0 4 (Z.to_N (year (toc r))); pad0 2 (month (toc r)); pad0 2 (day (toc r)); pad0 2 (hour (toc r)); pad0 2 (minute (toc r))].
Definition whole (c : civil) : N := trunc_u32 (Fin (seconds c)).
Lemma line0_shape r : (0 <= year (toc r))%Z -> line0 r = (71 :: pad0 2 (prn r)) ++ 32 :: sp (head_words r) ++ 32 :: pad0 2 (whole (toc r)) ++ flat_map fmt_d [af0 r; af1 r; af2 r].
Proof.
  intros Y. unfold line0, whole, head_words, padz, sp. destruct (Z.ltb_spec (year (toc r)) 0); [lia|]. replace (Z.abs_N (year (toc r))) with (Z.to_N (year (toc r))) by lia. cbn [app flat_map]. rewrite !app_nil_r. do 6 (cbn [app]; rewrite <- ?app_assoc). reflexivity.
Qed.
Lemma split_sp ws s : Forall plain ws -> ws <> [] -> split_ws (sp ws ++ 32 :: s) = ws ++ split_ws s.
Proof.
  induction ws as [|w [|v ws] IH]; intros F N; [congruence| |]; inversion F as [|? ? (A & B) F']; subst.
  - cbn [sp flat_map]. rewrite app_nil_r. now apply split_ws_word.
  - change (sp (w :: v :: ws)) with (w ++ 32 :: sp (v :: ws)). rewrite <- app_assoc. cbn [app]. rewrite split_ws_word by assumption. rewrite IH by (assumption || discriminate). reflexivity.
Qed.
Lemma head_plain r : Forall plain (head_words r).
Proof. unfold head_words. repeat (constructor; [apply plain_pad0; lia|]). constructor. Qed.
Lemma pad2_len p : p < 100 -> length (pad0 2 p) = 2%nat.
Proof. intros L. rewrite pad0_length. pose proof (ndig_small p 2 ltac:(lia) L). lia. Qed.
Lemma line0_skip r : (0 <= year (toc r))%Z -> prn r < 100 -> skipn 3 (line0 r) = 32 :: sp (head_words r) ++ 32 :: pad0 2 (whole (toc r)) ++ flat_map fmt_d [af0 r; af1 r; af2 r].
Proof.
  intros Y P. rewrite line0_shape by exact Y. rewrite skipn_app. cbn [length]. rewrite (pad2_len _ P). rewrite skipn_all2 by (cbn [length]; rewrite pad2_len by exact P; lia). reflexivity.
Qed.
Lemma line0_words r : (0 <= year (toc r))%Z -> prn r < 100 -> split_ws (skipn 3 (line0 r)) = head_words r ++ split_ws (pad0 2 (whole (toc r)) ++ flat_map fmt_d [af0 r; af1 r; af2 r]).
Proof. intros Y P. rewrite line0_skip by assumption. cbn [split_ws]. change (is_ws 32) with true. cbv iota. apply split_sp; [apply head_plain|discriminate]. Qed.
Lemma line0_prn r : (0 <= year (toc r))%Z -> prn r < 100 -> parse_uint 255 (trim (prn_text (line0 r))) = Some (prn r).
Proof.
  intros Y P. assert (E : prn_text (line0 r) = pad0 2 (prn r)).
  { rewrite line0_shape by exact Y. unfold prn_text. cbn [app nth]. change (71 =? 71) with true. cbv iota. cbn [skipn]. rewrite firstn_app, (pad2_len _ P). change (2 - 2)%nat with 0%nat. rewrite firstn_O. rewrite app_nil_r. apply firstn_all2. rewrite (pad2_len _ P). lia. }
  rewrite E, trim_solid by (apply solid_digits; [apply pad0_digit|apply plain_pad0; lia]). rewrite parse_uint_digits by (apply pad0_digit || apply plain_pad0; lia). rewrite dval_pad0. destruct (N.leb_spec (prn r) 255); [reflexivity|lia].
Qed.
Lemma line0_begins r : begins (line0 r).
Proof.
  split; [|exists 71; eexists; split; [unfold line0; reflexivity|now left]]. unfold line0. rewrite !app_length. cbn [length]. rewrite pad0_length. lia.
Qed.
Lemma line0_not_across r : (0 <= year (toc r))%Z -> prn r < 100 -> ~ across (line0 r).
Proof.
  intros Y P. assert (E3 : nth 3 (line0 r) 0 = 32). { rewrite line0_shape by exact Y. rewrite app_nth2 by (cbn [length]; rewrite (pad2_len _ P); lia). cbn [length]. rewrite (pad2_len _ P). reflexivity. }
  assert (E1 : is_digit (nth 1 (line0 r) 0) = true). { rewrite line0_shape by exact Y. cbn [app nth]. pose proof (pad0_digit 2 (prn r)) as D. pose proof (pad2_len _ P) as L. destruct (pad0 2 (prn r)) as [|c s]; [discriminate|]. cbn [app nth forallb] in *. now apply andb_prop in D as (-> & _). }
  unfold across, inside. rewrite E3. unfold is_digit in E1. lia.
Qed.

(** ** One record *)
Section Trip.
Variable utc_ok : civil -> bool.
Definition whole_second (c : civil) : civil := Civil (year c) (month c) (day c) (hour c) (minute c) (second c) 0.
(** A civil time within years 0 to 9999, no leap second, whose whole second the time crate takes *)
Definition good_toc (c : civil) : Prop := (0 <= year c <= 9999)%Z /\ date_ok (year c) (Z.of_N (month c)) (Z.of_N (day c)) /\ hour c < 24 /\ minute c < 60 /\ second c < 60 /\ nano c < 1000000000 /\
  utc_ok (whole_second c) = true.
Definition good_body (r : nav) : Prop := Forall roomy [crs r; delta_n r; m0 r; ecc r; cus r; sqrt_a r; cic r; omega0 r; cis r; crc r; omega r; omega_dot r].
Definition good (r : nav) : Prop := 1 <= prn r <= 99 /\ good_toc (toc r) /\ Forall roomy [af0 r; af1 r; af2 r] /\ good_body r.
Definition fields (r : nav) : list fnum :=
  [af0 r; af1 r; af2 r; iode r; crs r; delta_n r; m0 r; cuc r; ecc r; cus r; sqrt_a r; toe r; cic r; omega0 r; cis r; i0 r; crc r; omega r; omega_dot r; idot r].
Definition same (r' r : nav) : Prop := prn r' = prn r /\ toc r' = whole_second (toc r) /\ Forall2 back (fields r') (fields r).

Lemma whole_floor c : nano c < 1000000000 -> second c < 60 -> whole c = second c.
Proof.
  intros A B. unfold whole, trunc_u32, sat_u32, u32_max, seconds. assert (F : Qfloor (inject_Z (Z.of_N (second c)) + inject_Z (Z.of_N (nano c)) / 1000000000) = Z.of_N (second c)).
  { assert (L : (0 <= inject_Z (Z.of_N (nano c)))%Q) by (change 0%Q with (inject_Z 0); rewrite <- Zle_Qle; lia). assert (U : (inject_Z (Z.of_N (nano c)) < 1000000000)%Q) by (change 1000000000%Q with (inject_Z 1000000000); rewrite <- Zlt_Qlt; lia).
    set (x := (inject_Z (Z.of_N (second c)) + inject_Z (Z.of_N (nano c)) / 1000000000)%Q).
    assert (X : (inject_Z (Z.of_N (second c)) <= x /\ x < inject_Z (Z.of_N (second c)) + 1)%Q). { unfold x, Qdiv. change (/ 1000000000)%Q with (1 # 1000000000). lra. }
    destruct X as (X1 & X2). pose proof (Qfloor_le x) as F1. pose proof (Qlt_floor x) as F2. assert (Z.of_N (second c) < Qfloor x + 1)%Z by (rewrite Zlt_Qlt; lra).
    assert (Qfloor x < Z.of_N (second c) + 1)%Z by (rewrite Zlt_Qlt, inject_Z_plus; change (inject_Z 1) with 1%Q; lra). lia. }
  rewrite F. lia.
Qed.
Lemma floor_whole x n : (x == inject_Z n)%Q -> Qfloor x = n.
Proof. intros E. rewrite E. apply Qfloor_Z. Qed.
Lemma toc_back c x : good_toc c -> (x == inject_Z (Z.of_N (second c)))%Q ->
  build_toc utc_ok (year c) (Z.of_N (month c)) (Z.of_N (day c)) (Z.of_N (hour c)) (Z.of_N (minute c)) (Fin x) 0 = Ok (whole_second c).
Proof.
  intros (Y & D & H & Mi & S & Nn & U) X. unfold build_toc. assert (T : trunc_u64 (Fin x) = second c) by (unfold trunc_u64; rewrite (floor_whole _ _ X); lia).
  assert (R : rest_nanos (Fin x) = 0).
  { unfold rest_nanos. rewrite T. cbn [fplus fmul round_u32]. unfold round_up. set (z := ((- inject_Z (Z.of_N (second c)) + x) * 1000000000 + (1 # 2))%Q).
    assert (Z : (z == 1 # 2)%Q) by (unfold z; rewrite X; ring). assert (F : Qfloor z = 0%Z) by (rewrite Z; reflexivity). rewrite F. reflexivity. }
  rewrite T, R. rewrite i32_id by lia. pose proof D as D'. destruct D' as (M1 & D1). pose proof (month_len (year c) (Z.of_N (month c))).
  rewrite !u32_id by lia. rewrite !N2Z.id. rewrite N.mod_small by lia. cbn [year month day hour minute second nano]. change (Civil _ _ _ _ _ _ 0) with (whole_second c). rewrite U, andb_true_r.
  rewrite (proj2 (ymd_ok_spec (year c) (month c) (day c) ltac:(lia)) D). cbn [andb]. replace (hms_ok (hour c) (minute c) (second c) 0) with true; [reflexivity|]. unfold hms_ok. lia.
Qed.
Lemma head_back r : 1 <= prn r <= 99 -> good_toc (toc r) -> Forall roomy [af0 r; af1 r; af2 r] -> exists a0 a1 a2,
  head_says utc_ok (line0 r) (prn r) (whole_second (toc r)) a0 a1 a2 /\ back a0 (af0 r) /\ back a1 (af1 r) /\ back a2 (af2 r).
Proof.
  intros P T F. pose proof T as (Y & D & H & Mi & S & Nn & U). destruct (d_word_back (af0 r)) as (a0 & N0 & B0), (d_word_back (af1 r)) as (a1 & N1 & B1), (d_word_back (af2 r)) as (a2 & N2 & B2).
  exists a0, a1, a2. split; [|auto]. split; [apply line0_not_across; lia|]. split; [apply line0_prn; lia|]. split; [lia|].
  destruct (number_pad0 2 (second (toc r)) ltac:(lia)) as (x & Nx & X). unfold i64_max.
  exists (pad0 4 (Z.to_N (year (toc r)))), (pad0 2 (month (toc r))), (pad0 2 (day (toc r))), (pad0 2 (hour (toc r))), (pad0 2 (minute (toc r))), (pad0 2 (second (toc r))), (d_word (af0 r)), (d_word (af1 r)), (d_word (af2 r)), [].
  exists (Z.of_N (Z.to_N (year (toc r)))), (Z.of_N (month (toc r))), (Z.of_N (day (toc r))), (Z.of_N (hour (toc r))), (Z.of_N (minute (toc r))), (Fin x).
  split. { rewrite line0_words by lia. rewrite whole_floor by lia. rewrite words_tail; [reflexivity| |apply plain_pad0; lia]. eapply Forall_impl; [exact roomy_fits|exact F]. }
  pose proof D as (M1 & D1). pose proof (month_len (year (toc r)) (Z.of_N (month (toc r)))).
  do 5 (split; [apply int_pad0; unfold i64_max; lia|]). split; [exact Nx|]. split; [rewrite Z2N.id by lia; now apply toc_back|auto].
Qed.
Definition block_of (no : nat) (r : nav) : block :=
  (no, (line0 r, cont (iode r) (crs r) (delta_n r) (m0 r), cont (cuc r) (ecc r) (cus r) (sqrt_a r), cont (toe r) (cic r) (omega0 r) (cis r),
    cont (i0 r) (crc r) (omega r) (omega_dot r), cont (idot r) (Fin 0) (Fin 0) (Fin 0))).
Lemma zero_fits : fits (Fin 0). Proof. apply roomy_fits. left. reflexivity. Qed.
Lemma block_back no r : good r -> exists r', says utc_ok (block_of no r) r' /\ same r' r.
Proof.
  intros (P & T & F & G). destruct (head_back r P T F) as (a0 & a1 & a2 & H & B0 & B1 & B2). unfold good_body in G. apply (Forall_impl _ roomy_fits) in G. rewrite !Forall_cons_iff in G.
  destruct G as (G1 & G2 & G3 & G4 & G5 & G6 & G7 & G8 & G9 & G10 & G11 & G12 & _).
  destruct (cont_numbers (iode r) (crs r) (delta_n r) (m0 r) G1 G2 G3) as (x1 & x2 & x3 & x4 & Nx & Bx1 & Bx2 & Bx3 & Bx4).
  destruct (cont_numbers (cuc r) (ecc r) (cus r) (sqrt_a r) G4 G5 G6) as (y1 & y2 & y3 & y4 & Ny & By1 & By2 & By3 & By4).
  destruct (cont_numbers (toe r) (cic r) (omega0 r) (cis r) G7 G8 G9) as (z1 & z2 & z3 & z4 & Nz & Bz1 & Bz2 & Bz3 & Bz4).
  destruct (cont_numbers (i0 r) (crc r) (omega r) (omega_dot r) G10 G11 G12) as (u1 & u2 & u3 & u4 & Nu & Bu1 & Bu2 & Bu3 & Bu4).
  destruct (cont_numbers (idot r) (Fin 0) (Fin 0) (Fin 0) zero_fits zero_fits zero_fits) as (v1 & v2 & v3 & v4 & Nv & Bv1 & _).
  exists (Nav (prn r) (whole_second (toc r)) a0 a1 a2 x1 x2 x3 x4 y1 y2 y3 y4 z1 z2 z3 z4 u1 u2 u3 u4 v1). split.
  - cbn [says block_of prn toc af0 af1 af2 iode crs delta_n m0 cuc ecc cus sqrt_a toe cic omega0 cis i0 crc omega omega_dot idot].
    split; [exact H|]. split; [now exists []|]. split; [now exists []|]. split; [now exists []|]. split; [now exists []|]. now exists [v2; v3; v4].
  - split; [reflexivity|]. split; [reflexivity|]. unfold fields. cbn [prn toc af0 af1 af2 iode crs delta_n m0 cuc ecc cus sqrt_a toe cic omega0 cis i0 crc omega omega_dot idot]. repeat (constructor; [assumption|]). constructor.
Qed.
(** What cannot be read again: the second clock term fills its field and runs into the first; a leap second; no satellite number *)
Definition glued (r : nav) : Prop := 1 <= prn r <= 99 /\ (0 <= year (toc r))%Z /\ roomy (af0 r) /\ tiny_negative (af1 r) /\ roomy (af2 r).
Lemma glued_err m no r : glued r -> rec_of utc_ok m (block_of no r) = Err (FewTokens no 8).
Proof.
  intros (P & Y & F0 & F1 & F2). cbn [rec_of block_of]. unfold record. assert (A : parse_prn (line0 r) no = Ok (prn r)).
  { apply prn_ok; [apply line0_begins|]. split; [apply line0_not_across; lia|]. split; [apply line0_prn; lia|lia]. }
  rewrite A. cbn [obind]. assert (B : parse_line0 utc_ok (line0 r) no = Err (FewTokens no 8)); [|now rewrite B].
  unfold parse_line0. rewrite rest_eq by apply line0_begins. assert (I : insideb (nth 3 (line0 r) 0) = false).
  { destruct (insideb (nth 3 (line0 r) 0)) eqn:I; [|reflexivity]. exfalso. apply (line0_not_across r Y ltac:(lia)). left. unfold insideb, inside in *. lia. }
  rewrite I. cbn [obind]. rewrite line0_words by lia. cbn [flat_map]. rewrite (tight (af1 r) (tiny_fills _ F1)), app_nil_r. destruct (fits_blank (af0 r) (roomy_fits _ F0)) as (k & ->).
  assert (W : split_ws (pad0 2 (whole (toc r)) ++ (32 :: repeat 32 k ++ d_word (af0 r)) ++ d_word (af1 r) ++ fmt_d (af2 r)) = [pad0 2 (whole (toc r)); d_word (af0 r) ++ d_word (af1 r); d_word (af2 r)]).
  { cbn [app]. destruct (plain_pad0 2 (whole (toc r)) ltac:(lia)) as (X1 & X2). rewrite split_ws_word by assumption. f_equal. rewrite <- !app_assoc, split_ws_spaces. rewrite app_assoc.
    assert (Z : plain (d_word (af0 r) ++ d_word (af1 r))). { destruct (d_word_plain (af0 r)) as (A1 & A2), (d_word_plain (af1 r)) as (B1 & B2). split; [destruct (d_word (af0 r)); [congruence|discriminate]|]. now rewrite inked_app, A2, B2. }
    pose proof (words_tail [af2 r] ltac:(constructor; [now apply roomy_fits|constructor]) _ Z) as E. cbn [flat_map map] in E. rewrite app_nil_r in E. exact E. }
  rewrite W. reflexivity.
Qed.
Definition leaping (r : nav) : Prop := 1 <= prn r <= 99 /\ (0 <= year (toc r) <= 9999)%Z /\ date_ok (year (toc r)) (Z.of_N (month (toc r))) (Z.of_N (day (toc r))) /\ hour (toc r) < 24 /\ minute (toc r) < 60 /\
  second (toc r) = 59 /\ 1000000000 <= nano (toc r) < 2000000000 /\ Forall roomy [af0 r; af1 r; af2 r].
Lemma leaping_err m no r : leaping r -> rec_of utc_ok m (block_of no r) = Err (BadToc no).
Proof.
  intros (P & Y & D & H & Mi & S & Nn & F). cbn [rec_of block_of]. unfold record. assert (A : parse_prn (line0 r) no = Ok (prn r)).
  { apply prn_ok; [apply line0_begins|]. split; [apply line0_not_across; lia|]. split; [apply line0_prn; lia|lia]. }
  rewrite A. cbn [obind]. assert (B : parse_line0 utc_ok (line0 r) no = Err (BadToc no)); [|now rewrite B].
  unfold parse_line0. rewrite rest_eq by apply line0_begins. assert (I : insideb (nth 3 (line0 r) 0) = false).
  { destruct (insideb (nth 3 (line0 r) 0)) eqn:I; [|reflexivity]. exfalso. apply (line0_not_across r ltac:(lia) ltac:(lia)). left. unfold insideb, inside in *. lia. }
  rewrite I. cbn [obind]. rewrite line0_words by lia. rewrite words_tail; [|eapply Forall_impl; [exact roomy_fits|exact F]|apply plain_pad0; lia].
  assert (Wh : whole (toc r) = 60).
  { unfold whole, trunc_u32, sat_u32, u32_max, seconds. rewrite S. set (x := (_ + _)%Q). assert (L : (1000000000 <= inject_Z (Z.of_N (nano (toc r))))%Q) by (change 1000000000%Q with (inject_Z 1000000000); rewrite <- Zle_Qle; lia).
    assert (U : (inject_Z (Z.of_N (nano (toc r))) < 2000000000)%Q) by (change 2000000000%Q with (inject_Z 2000000000); rewrite <- Zlt_Qlt; lia).
    assert (X : (60 <= x < 61)%Q) by (unfold x, Qdiv; change (/ 1000000000)%Q with (1 # 1000000000); change (inject_Z (Z.of_N 59)) with 59%Q; lra).
    pose proof (Qfloor_le x). pose proof (Qlt_floor x) as F2. assert (59 < Qfloor x)%Z by (rewrite inject_Z_plus in F2; change (inject_Z 1) with 1%Q in F2; rewrite Zlt_Qlt; change (inject_Z 59) with 59%Q; lra).
    assert (Qfloor x < 61)%Z by (rewrite Zlt_Qlt; change (inject_Z 61) with 61%Q; lra). lia. }
  rewrite Wh. unfold head_words. cbn [app map]. destruct (number_pad0 2 60 ltac:(lia)) as (x & Nx & X). pose proof D as (M1 & D1). pose proof (month_len (year (toc r)) (Z.of_N (month (toc r)))).
  assert (I64 : forall w n k, (1 <= w)%nat -> n <= i64_max -> toc_int (pad0 w n) no k = Ok (Z.of_N n)) by (intros w n k W L; apply int_ok; now apply int_pad0).
  rewrite (I64 4%nat), (I64 2%nat (month _)), (I64 2%nat (day _)), (I64 2%nat (hour _)), (I64 2%nat (minute _)) by (unfold i64_max; lia). cbn [obind]. rewrite (proj2 (parse_d_ok _ no _) Nx). cbn [obind].
  unfold build_toc. assert (T : trunc_u64 (Fin x) = 60) by (unfold trunc_u64; rewrite (floor_whole _ _ X); reflexivity). rewrite T. cbn [year month day hour minute second nano]. change (60 mod 4294967296) with 60.
  unfold hms_ok at 1. change (60 <? 60) with false. rewrite !andb_false_r. cbn [andb]. rewrite ?andb_false_r. reflexivity.
Qed.
Lemma unnumbered_err m no r : prn r = 0 -> (0 <= year (toc r))%Z -> rec_of utc_ok m (block_of no r) = Err (BadPrn no).
Proof.
  intros P Y. cbn [rec_of block_of]. unfold record. rewrite prn_eq by apply line0_begins. assert (A : acrossb (line0 r) = false). { destruct (acrossb (line0 r)) eqn:A; [|reflexivity]. exfalso. apply (line0_not_across r Y ltac:(lia)). now apply across_spec. }
  rewrite A, line0_prn by lia. rewrite P. reflexivity.
Qed.

(** ** The file *)
Fixpoint blocks_of (no : nat) (rs : list nav) : list block := match rs with [] => [] | r :: rs => block_of no r :: blocks_of (no + 8) rs end.
Lemma written_blocks rs : forall no, blocks (flat_map write_rec rs) no (blocks_of no rs) None.
Proof.
  induction rs as [|r rs IH]; intros no; [constructor|]. cbn [flat_map write_rec app blocks_of]. unfold block_of at 1. apply B_rec; [apply line0_begins|apply IH].
Qed.
Lemma chop_id l : last l 0 <> 13 -> chop_cr l = l.
Proof.
  intros H. unfold chop_cr. rewrite last_rev_hd in H. destruct (rev l) as [|c t]; [reflexivity|]. cbn [hd] in H. destruct (N.eq_dec c 13) as [->|N]; [congruence|].
  destruct c as [|p]; [reflexivity|]. do 4 (try (destruct p as [p|p|]; try reflexivity)). congruence.
Qed.
Lemma fmt_d_no_nl f : ~ In 10 (fmt_d f).
Proof. apply no_nl_pad. apply d_word_plain. Qed.
Lemma fmt_d_last f s : last (s ++ fmt_d f) 0 <> 13.
Proof.
  assert (X : fmt_d f <> []) by (unfold fmt_d, pad_left; intros X; apply app_eq_nil in X as (_ & X); exact (proj1 (d_word_plain f) X)). rewrite last_app_r by exact X. apply last_pad; apply d_word_plain.
Qed.
Ltac no_nl_lit := cbn; let I := fresh in intros I; repeat destruct I as [I|I]; first [discriminate I|exact I].
Lemma cont_free a b c d : ~ In 10 (cont a b c d) /\ last (cont a b c d) 0 <> 13.
Proof.
  unfold cont. split; [repeat first [apply fmt_d_no_nl|apply no_nl_app]; no_nl_lit|]. rewrite !app_assoc. apply fmt_d_last.
Qed.
Lemma padz_no_nl w z : ~ In 10 (padz w z).
Proof. unfold padz. destruct (_ <? _)%Z; [intros [X|X]; [discriminate|]; revert X|]; apply no_nl_inked, inked_digits, pad0_digit. Qed.
Lemma line0_free r : ~ In 10 (line0 r) /\ last (line0 r) 0 <> 13.
Proof.
  unfold line0. split; [|rewrite !app_assoc; apply fmt_d_last]. repeat first [apply fmt_d_no_nl|apply padz_no_nl|apply no_nl_inked, inked_digits, pad0_digit|apply no_nl_app|no_nl_lit].
Qed.
Lemma written_lines rs : text_lines (write_nav rs) = nav_header ++ flat_map write_rec rs.
Proof.
  assert (F : Forall (fun l => ~ In 10 l /\ last l 0 <> 13) (nav_header ++ flat_map write_rec rs)).
  { apply Forall_app. split; [repeat constructor; [no_nl_lit|discriminate|no_nl_lit|discriminate]|]. apply Forall_flat_map. apply Forall_forall. intros r _. unfold write_rec. repeat constructor; first [apply line0_free|apply cont_free]. }
  unfold text_lines, write_nav. rewrite split_nl_lines by (eapply Forall_impl; [|exact F]; intros l (A & _); exact A). induction F as [|l ls (_ & L) _ IH]; [reflexivity|]. cbn [map]. now rewrite chop_id, IH.
Qed.
Lemma read_written m rs : parse_nav utc_ok (write_nav rs) m = over utc_ok m (blocks_of 3 rs) None [].
Proof.
  unfold parse_nav. rewrite written_lines. change (after_header (nav_header ++ flat_map write_rec rs) 1) with (Some (flat_map write_rec rs, 3%nat)). cbv iota. apply loop_over, written_blocks.
Qed.
Lemma over_good m a rest : Forall good a -> forall no acc e, exists a', Forall2 same a' a /\ over utc_ok m (blocks_of no (a ++ rest)) e acc = over utc_ok m (blocks_of (no + 8 * length a) rest) e (acc ++ a').
Proof.
  induction 1 as [|r a G _ IH]; intros no acc e.
  - exists []. split; [constructor|]. cbn [app length]. rewrite app_nil_r. f_equal. f_equal. lia.
  - destruct (block_back no r G) as (r' & Sy & Sm). apply (rec_ok utc_ok m) in Sy; [|apply line0_begins]. destruct (IH (no + 8)%nat (acc ++ [r']) e) as (a' & F & E).
    exists (r' :: a'). split; [now constructor|]. cbn [app blocks_of over]. rewrite Sy, E, <- app_assoc. cbn [length]. f_equal. f_equal. lia.
Qed.
End Trip.
