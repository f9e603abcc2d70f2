(** Lemmas about RINEX observation files. *)
From Coq Require Import Ascii String List NArith ZArith Bool QArith Qabs Qround Lia Lqa Zify ZifyBool ZifyN ZifyNat.
From Verif Require Import Base Text DecFloat Lsk_Spec Ilrs_Model Ilrs_Proofs Pck_Model Omm_Model Omm_Proofs Sp3_Model Sp3_Write Tle_Roundtrip Robs_Model.
Import ListNotations.
Close Scope Q_scope.
Local Open Scope N_scope.
Local Open Scope list_scope.
Local Open Scope outcome_scope.

Definition ascii (s : str) : Prop := forallb is_ascii s = true.
Lemma ascii_app a b : ascii a -> ascii b -> ascii (a ++ b).
Proof. unfold ascii. intros A B. now rewrite forallb_app, A, B. Qed.
Lemma ascii_inv a b : ascii (a ++ b) -> ascii a /\ ascii b.
Proof. unfold ascii. rewrite forallb_app. apply andb_prop. Qed.
Lemma ascii_blank n : ascii (repeat 32 n). Proof. unfold ascii. induction n; [reflexivity|exact IHn]. Qed.
Lemma ascii_fixed p f : ascii (fmt_fixedF p f).
Proof. unfold ascii. destruct f as [q|[]|]; try reflexivity. apply fmt_fixed_ascii. Qed.
Lemma ascii_padl w s : ascii s -> ascii (pad_left w s).
Proof. intros H. unfold pad_left. apply ascii_app; [apply ascii_blank|exact H]. Qed.
Lemma ascii_dec n : ascii (dec n). Proof. apply ascii_digits, dec_digit. Qed.
Lemma count_ascii s : ascii s -> char_count s = length s.
Proof.
  unfold ascii, char_count. induction s as [|c s IH]; [reflexivity|]. cbn [forallb filter]. intros H. apply andb_prop in H as (A & B).
  unfold is_ascii in A. replace ((128 <=? c) && (c <? 192)) with false by lia. cbn [negb length]. now rewrite IH.
Qed.
Lemma pad_ascii w s : ascii s -> pad_chars w s = pad_right w s.
Proof. intros H. unfold pad_chars, pad_right. now rewrite count_ascii. Qed.

(** ** Trimming *)
Definition blank (w : str) : Prop := forallb is_ws w = true.
Lemma trim_start_blank w s : blank w -> trim_start (w ++ s) = trim_start s.
Proof. unfold blank. induction w as [|c w IH]; [reflexivity|]. cbn [forallb app trim_start]. intros H. apply andb_prop in H as (-> & H). auto. Qed.
Lemma blank_rev w : blank w -> blank (rev w).
Proof. unfold blank. rewrite !forallb_forall. intros H x Hx. apply H. now apply in_rev. Qed.
Lemma trim_end_blank s w : blank w -> trim_end (s ++ w) = trim_end s.
Proof. intros H. unfold trim_end. rewrite rev_app_distr, trim_start_blank by now apply blank_rev. reflexivity. Qed.
Lemma trim_blank s w : blank w -> trim (s ++ w) = trim s.
Proof.
  intros H. unfold trim. induction s as [|c s IH].
  - cbn [app]. pose proof (trim_start_blank w [] H) as E. rewrite app_nil_r in E. rewrite E. reflexivity.
  - cbn [app trim_start]. destruct (is_ws c); [exact IH|]. change (c :: s ++ w) with ((c :: s) ++ w). now apply trim_end_blank.
Qed.
Lemma trim_end_split s : exists w, s = trim_end s ++ w /\ blank w.
Proof.
  destruct (trim_start_suffix (rev s)) as (p & E & B). exists (rev p). split; [|now apply blank_rev].
  unfold trim_end. rewrite <- rev_app_distr, <- E. symmetry. apply rev_involutive.
Qed.
Lemma trim_end_last s : trim_end s <> [] -> is_ws (last (trim_end s) 0) = false.
Proof.
  unfold trim_end. intros H. rewrite last_rev_hd, rev_involutive. apply trim_start_hd. intros E. rewrite E in H. now apply H.
Qed.
Lemma trim_end_app a b : a <> [] -> is_ws (last a 0) = false -> trim_end (a ++ b) = a ++ trim_end b.
Proof.
  intros A L. destruct (trim_end_split b) as (w & E & B). rewrite E at 1. rewrite app_assoc, trim_end_blank by exact B.
  apply trim_end_id. destruct (list_eq_dec N.eq_dec (trim_end b) []) as [Z|Z].
  - now rewrite Z, app_nil_r.
  - rewrite last_app_r by exact Z. now apply trim_end_last.
Qed.

(** ** Rows *)
Definition put (ty : str) (w : str) (m : list (str * fnum)) : list (str * fnum) :=
  match w with [] => m | w => match parse_f64 w with Some v => upsert ty v m | None => m end end.
Fixpoint plain (p : str) (i : nat) (ts : list str) (m : list (str * fnum)) : list (str * fnum) :=
  match ts with [] => m | ty :: r => plain p (S i) r (put ty (trim (firstn 14 (skipn (i * 16) p))) m) end.
Lemma plain_past p ts : forall i m, (length p <= i * 16)%nat -> plain p i ts m = m.
Proof.
  induction ts as [|t ts IH]; intros i m H; [reflexivity|]. cbn [plain]. rewrite skipn_all2 by exact H. cbn [firstn trim put]. apply IH. lia.
Qed.
Lemma read_plain p ts : ascii p -> forall i m, read_cells p i ts m = Ok (plain p i ts m).
Proof.
  intros A. induction ts as [|t ts IH]; intros i m; [reflexivity|]. cbn [read_cells]. cbn zeta.
  destruct (Nat.leb_spec (length p) (i * 16)) as [L|L].
  - now rewrite plain_past.
  - rewrite slice_ascii by (exact A || lia). cbn [obind]. rewrite IH. cbn [plain].
    assert (E : firstn (Nat.min (i * 16 + 14) (length p) - i * 16) (skipn (i * 16) p) = firstn 14 (skipn (i * 16) p)).
    { destruct (Nat.le_gt_cases (i * 16 + 14) (length p)).
      - f_equal. lia.
      - rewrite !firstn_all2; [reflexivity|rewrite skipn_length; lia|rewrite skipn_length; lia]. }
    rewrite E. unfold put. destruct (trim _); reflexivity.
Qed.
Lemma blank_firstn n w : blank w -> blank (firstn n w).
Proof. unfold blank. rewrite !forallb_forall. intros H x Hx. apply H. rewrite <- (firstn_skipn n w). apply in_or_app. now left. Qed.
Lemma blank_skipn n w : blank w -> blank (skipn n w).
Proof. unfold blank. rewrite !forallb_forall. intros H x Hx. apply H. rewrite <- (firstn_skipn n w). apply in_or_app. now right. Qed.
Lemma plain_blank p w ts : blank w -> forall i m, plain (p ++ w) i ts m = plain p i ts m.
Proof.
  intros B. induction ts as [|t ts IH]; intros i m; [reflexivity|]. cbn [plain]. rewrite IH. do 2 f_equal.
  rewrite skipn_app, firstn_app. apply trim_blank. now apply blank_firstn, blank_skipn.
Qed.
Definition fits (vals : list (str * fnum)) (ts : list str) : Prop :=
  forall t v, In t ts -> at_key vals t = Some v -> (length (fmt_fixedF 3 v) <= 14)%nat.
Lemma at_upsert {V} k (v : V) m k' : at_key (upsert k v m) k' = if str_eqb k k' then Some v else at_key m k'.
Proof.
  induction m as [|(a, b) m IH]; cbn [upsert at_key].
  - destruct (str_eqb k k'); reflexivity.
  - destruct (str_eqb_spec a k) as [->|N]; cbn [at_key].
    + destruct (str_eqb k k'); reflexivity.
    + destruct (str_eqb_spec a k') as [->|N'].
      * destruct (str_eqb_spec k k'); [congruence|reflexivity].
      * exact IH.
Qed.
Lemma solid_fixed f : solid (fmt_fixedF 3 f).
Proof. apply inked_good, inked_fixed. Qed.
Definition seen (vals : list (str * fnum)) (t : str) : str := match at_key vals t with Some v => pad_left 14 (fmt_fixedF 3 v) | None => repeat 32 14 end.
Lemma plain_cells vals ts : fits vals ts -> forall pre i m, length pre = (i * 16)%nat -> forall k,
  at_key (plain (pre ++ flat_map (cell vals) ts) i ts m) k =
  if existsb (str_eqb k) ts then match at_key vals k with Some v => parse_f64 (fmt_fixedF 3 v) | None => at_key m k end else at_key m k.
Proof.
  intros F. induction ts as [|t ts IH]; intros pre i m L k; [reflexivity|].
  cbn [plain flat_map existsb]. rewrite skipn_app_exact by exact L. rewrite app_assoc.
  assert (C : length (cell vals t) = 16%nat /\ firstn 14 (cell vals t ++ flat_map (cell vals) ts) = seen vals t).
  { unfold cell at 1 2, seen. destruct (at_key vals t) as [v|] eqn:E.
    - specialize (F t v (or_introl eq_refl) E). assert (G : length (pad_left 14 (fmt_fixedF 3 v)) = 14%nat) by (unfold pad_left; rewrite app_length, repeat_length; lia).
      split; [rewrite app_length, G; reflexivity|]. rewrite <- app_assoc. now apply firstn_app_exact.
    - split; reflexivity. }
  destruct C as (C & ->). rewrite IH.
  2:{ intros t' v I. apply F. now right. }
  2:{ rewrite app_length, C, L. lia. }
  assert (P : at_key (put t (trim (seen vals t)) m) k =
    if str_eqb t k then match at_key vals t with Some v => parse_f64 (fmt_fixedF 3 v) | None => at_key m k end else at_key m k).
  { unfold seen. destruct (at_key vals t) as [v|] eqn:E.
    - rewrite trim_pad_left by apply solid_fixed. unfold put. destruct (fmt_fixedF 3 v) eqn:Z; [exfalso; exact (fixed_nonempty 3 v Z)|].
      rewrite <- Z. destruct (fixed_near 3 v) as (g & G & _). rewrite G, at_upsert. reflexivity.
    - change (trim (repeat 32 14)) with (@nil N). cbn [put]. destruct (str_eqb t k); reflexivity. }
  rewrite P. destruct (str_eqb_spec k t) as [->|N].
  - cbn [orb]. destruct (str_eqb_spec t t) as [_|?]; [|congruence]. destruct (existsb _ ts), (at_key vals t); reflexivity.
  - cbn [orb]. destruct (str_eqb_spec t k) as [?|_]; [congruence|]. reflexivity.
Qed.
Definition good_sat (s : str) : Prop := length s = 3%nat /\ ascii s /\ is_ws (last s 0) = false /\ ~ In 10 s.
Definition vals_back (types : list (N * list str)) (sat : str) (got vals : list (str * fnum)) : Prop :=
  forall k, match at_key vals k with
    | Some v => if existsb (str_eqb k) (keep (at_sys types (hd 32 sat)) []) then exists g, at_key got k = Some g /\ near (1 # 2000) g v else at_key got k = None
    | None => at_key got k = None
    end.
Lemma ascii_cells vals ts : ascii (flat_map (cell vals) ts).
Proof.
  induction ts as [|t ts IH]; [reflexivity|]. cbn [flat_map]. apply ascii_app; [|exact IH]. unfold cell. destruct (at_key vals t); [|reflexivity].
  apply ascii_app; [apply ascii_padl, ascii_fixed|reflexivity].
Qed.
Lemma ascii_trim_end s : ascii s -> ascii (trim_end s).
Proof. intros H. destruct (trim_end_split s) as (w & E & _). rewrite E in H. now apply ascii_inv in H. Qed.
Lemma row_text types sat vals : good_sat sat ->
  write_row types sat vals = sat ++ trim_end (flat_map (cell vals) (keep (at_sys types (hd 32 sat)) [])).
Proof.
  intros (L & A & W & _). unfold write_row. rewrite pad_ascii by exact A. unfold pad_right. rewrite L. cbn [Nat.sub repeat]. rewrite app_nil_r.
  apply trim_end_app; [|exact W]. intros ->. discriminate L.
Qed.
Lemma row_back types sat vals : good_sat sat -> fits vals (keep (at_sys types (hd 32 sat)) []) ->
  exists got, read_row types (write_row types sat vals ++ [10]) = Ok (Some (sat, got)) /\ vals_back types sat got vals.
Proof.
  intros G F. rewrite row_text by exact G. destruct G as (L & A & W & _). set (ts := keep _ _) in *. set (P := flat_map (cell vals) ts).
  assert (AP : ascii (trim_end P)) by apply ascii_trim_end, ascii_cells.
  assert (NE : sat <> []) by (intros ->; discriminate L).
  assert (R : trim_end ((sat ++ trim_end P) ++ [10]) = sat ++ trim_end P).
  { rewrite trim_end_blank by reflexivity. apply trim_end_id. destruct (list_eq_dec N.eq_dec (trim_end P) []) as [Z|Z].
    - now rewrite Z, app_nil_r.
    - rewrite last_app_r by exact Z. now apply trim_end_last. }
  unfold read_row. rewrite R. cbn zeta. destruct (Nat.ltb_spec (length (sat ++ trim_end P)) 3) as [X|_]; [rewrite app_length in X; lia|].
  rewrite !slice_ascii by (first [now apply ascii_app|rewrite app_length; lia]). cbn [obind].
  rewrite Nat.sub_0_r. change (skipn 0 ?x) with x. rewrite firstn_app_exact by exact L. rewrite skipn_app_exact by exact L.
  rewrite firstn_all2 by (rewrite app_length; lia). fold ts. rewrite read_plain by exact AP. cbn [obind]. eexists. split; [reflexivity|].
  destruct (trim_end_split P) as (w & E & B). rewrite <- (plain_blank _ w ts B), <- E.
  intros k. change P with ([] ++ flat_map (cell vals) ts). rewrite (plain_cells vals ts F [] 0 [] eq_refl k). fold ts. cbn [at_key].
  destruct (at_key vals k) as [v|]; [|destruct (existsb _ _); reflexivity]. destruct (existsb _ _); [|reflexivity].
  destruct (fixed_near 3 v) as (g & -> & N). exists g. split; [reflexivity|exact N].
Qed.

(** ** Epoch lines: seconds are printed in units of 100 ns *)
Definition ticks7 (c : civil) : N := Z.to_N (round_even (seconds c * 10000000)).
Definition rounded7 (c : civil) : civil :=
  Civil (year c) (month c) (day c) (hour c) (minute c) (ticks7 c / 10000000) (100 * (ticks7 c mod 10000000)).
Lemma seconds_parse7 c : exists x, parse_f64 (fmt_fixed 7 (seconds c)) = Some (Fin x) /\ (x == inject_Z (Z.of_N (ticks7 c)) * (1 # 10000000))%Q.
Proof.
  destruct (fmt_fixed_parse 7 (seconds c)) as (x & H & E). exists x. split; [exact H|]. rewrite E.
  pose proof (seconds_nonneg c) as P. apply Qle_bool_iff in P as P'. rewrite P'. cbn [negb qsgn].
  rewrite Qabs_pos_eq by exact P. change (p10 (Z.of_nat 7)) with (10000000%Q). change (p10 (- Z.of_nat 7)) with (1 # 10000000)%Q.
  unfold ticks7. rewrite Z2N.id; [reflexivity|]. apply round_even_nonneg. lra.
Qed.
Lemma Qfloor_ticks7 x k : (x == inject_Z (Z.of_N k) * (1 # 10000000))%Q -> Qfloor x = Z.of_N (k / 10000000).
Proof.
  intros E. rewrite (Qfloor_comp _ _ E). unfold Qmult, inject_Z, Qfloor. cbn [Qnum Qden]. rewrite Z.mul_1_r, Pos.mul_1_l. lia.
Qed.
Lemma trunc_ticks7 x k : (x == inject_Z (Z.of_N k) * (1 # 10000000))%Q -> k / 10000000 <= u32_max -> trunc_u32 (Fin x) = k / 10000000.
Proof. intros E L. unfold trunc_u32, sat_u32. rewrite (Qfloor_ticks7 x k E), N2Z.id. lia. Qed.
Lemma nanos_ticks7 x k : (x == inject_Z (Z.of_N k) * (1 # 10000000))%Q -> k / 10000000 <= u32_max ->
  frac_nanos (Fin x) = 100 * (k mod 10000000).
Proof.
  intros E L. unfold frac_nanos. rewrite (trunc_ticks7 x k E L).
  rewrite (round_up_int (Z.of_N (100 * (k mod 10000000)))).
  - unfold sat_u32, u32_max. rewrite N2Z.id. pose proof (N.mod_lt k 10000000 ltac:(discriminate)). lia.
  - rewrite E. pose proof (N.div_mod k 10000000 ltac:(discriminate)) as D.
    assert (Z1 : (inject_Z (Z.of_N k) == 10000000 * inject_Z (Z.of_N (k / 10000000)) + inject_Z (Z.of_N (k mod 10000000)))%Q).
    { change 10000000%Q with (inject_Z 10000000). rewrite <- inject_Z_mult, <- inject_Z_plus. apply inject_Z_injective. lia. }
    rewrite Z1, N2Z.inj_mul, inject_Z_mult. change (inject_Z (Z.of_N 100)) with 100%Q. ring.
Qed.
(** The nearest multiple of 100 ns *)
Lemma rounded7_near c : let c' := rounded7 c in
  nano c' mod 100 = 0 /\ nano c' < 1000000000 /\
  (Z.abs (Z.of_N (second c' * 1000000000 + nano c') - Z.of_N (second c * 1000000000 + nano c)) <= 50)%Z.
Proof.
  cbn zeta. unfold rounded7. cbn [second nano]. pose proof (N.div_mod (ticks7 c) 10000000 ltac:(discriminate)) as D.
  pose proof (N.mod_lt (ticks7 c) 10000000 ltac:(discriminate)) as L. split; [rewrite N.mul_comm; apply N.mod_mul; discriminate|].
  split; [lia|]. replace (ticks7 c / 10000000 * 1000000000 + 100 * (ticks7 c mod 10000000)) with (100 * ticks7 c) by lia.
  pose proof (round_even_err (seconds c * 10000000)) as E. apply Qabs_Qle_condition in E.
  assert (T : Z.of_N (ticks7 c) = round_even (seconds c * 10000000)).
  { unfold ticks7. apply Z2N.id, round_even_nonneg. pose proof (seconds_nonneg c). lra. }
  assert (G : (seconds c * 10000000 * 100 == inject_Z (Z.of_N (second c * 1000000000 + nano c)))%Q).
  { unfold seconds. rewrite N2Z.inj_add, N2Z.inj_mul, inject_Z_plus, inject_Z_mult. change (inject_Z (Z.of_N 1000000000)) with 1000000000%Q. field. }
  rewrite <- T in E. assert (X : (inject_Z (100 * Z.of_N (ticks7 c)) - inject_Z (Z.of_N (second c * 1000000000 + nano c)) <= 50)%Q /\
    (-50 <= inject_Z (100 * Z.of_N (ticks7 c)) - inject_Z (Z.of_N (second c * 1000000000 + nano c)))%Q).
  { rewrite <- G, inject_Z_mult. change (inject_Z 100) with 100%Q. split; lra. }
  destruct X as (X1 & X2). change 50%Q with (inject_Z 50) in X1. change (-50)%Q with (inject_Z (-50)) in X2.
  unfold Qminus in *. rewrite <- inject_Z_opp, <- inject_Z_plus, <- Zle_Qle in X1, X2. lia.
Qed.
Definition good_time (c : civil) : Prop :=
  ymd_ok (year c) (month c) (day c) = true /\ hms_ok (hour c) (minute c) (second c) (nano c) = true.
Lemma ticks7_u32 c : hms_ok (hour c) (minute c) (second c) (nano c) = true -> ticks7 c / 10000000 <= 61.
Proof.
  intros H. unfold hms_ok in H. pose proof (rounded7_near c) as (_ & _ & R). unfold rounded7 in R. cbn [second nano] in R.
  revert R. generalize (ticks7 c / 10000000) as q, (ticks7 c mod 10000000) as r. intros. lia.
Qed.
Lemma parse_pad0 max w n : n <= max -> parse_uint max (pad0 w n) = Some n.
Proof.
  intros H. rewrite parse_uint_digits.
  - rewrite dval_pad0. destruct (N.leb_spec n max); [reflexivity|lia].
  - apply pad0_digit.
  - unfold pad0. intros E. apply (f_equal (@length N)) in E. rewrite digits_length in E. cbn in E. pose proof (ndig_spec n). lia.
Qed.
Lemma inked_pad0 w n : inked (pad0 w n) = true. Proof. apply inked_digits, pad0_digit. Qed.
Lemma pad0_nonempty w n : pad0 w n <> [].
Proof. unfold pad0. intros E. apply (f_equal (@length N)) in E. rewrite digits_length in E. cbn in E. pose proof (ndig_spec n). lia. Qed.
Lemma month_length_le y m : (month_length y m <= 31)%Z.
Proof. unfold month_length. repeat match goal with |- context [if ?b then _ else _] => destruct b end; lia. Qed.
Lemma epoch_text_end c n : trim_end (epoch_line c n ++ [10]) = epoch_line c n.
Proof.
  rewrite trim_end_blank by reflexivity. apply trim_end_id. unfold epoch_line, pad_left. rewrite !app_assoc.
  rewrite last_app_r by apply dec_nonempty. apply negb_true_iff.
  apply (forallb_last (fun c => negb (is_ws c))); [exact (inked_dec (N.of_nat n))|apply dec_nonempty].
Qed.
Section E.
Variable utc_ok : civil -> bool.
Notation read_epoch_line := (read_epoch_line utc_ok).
Notation read_epochs := (read_epochs utc_ok).
Lemma epoch_line_back7 c n : good_time c -> N.of_nat n <= usize_max ->
  read_epoch_line (epoch_line c n ++ [10]) =
  if ticks7 c / 10000000 <? 60 then (if utc_ok (rounded7 c) then Ok (Some (rounded7 c, N.of_nat n)) else Err BadUtcEpoch) else Err BadEpochDate.
Proof.
  intros (Y & H) U. unfold Robs_Model.read_epoch_line. rewrite epoch_text_end.
  change (starts_with [62] (epoch_line c n)) with true. cbn iota.
  unfold epoch_line. change (lit "> ") with [62; 32]. change (lit "  0 ") with [32; 32; 48; 32]. cbn [app].
  change (62 :: 32 :: ?x) with ([62] ++ 32 :: x). rewrite split_ws_word by (reflexivity || discriminate).
  rewrite split_ws_pad by (first [apply inked_decz|apply decz_nonempty]).
  rewrite !split_ws_word by (first [apply inked_pad0|apply pad0_nonempty]).
  rewrite split_ws_pad by (first [exact (inked_fixed 7 (Fin (seconds c)))|exact (fixed_nonempty 7 (Fin (seconds c)))]).
  change (split_ws (32 :: 48 :: 32 :: ?x)) with (split_ws ([48] ++ 32 :: x)). rewrite split_ws_word by (reflexivity || discriminate).
  rewrite split_ws_pad_last by (apply inked_dec || apply dec_nonempty).
  pose proof (month_length_le (year c) (Z.of_N (month c))) as ML.
  rewrite parse_decz by (unfold ymd_ok in Y; lia).
  rewrite !parse_pad0 by (unfold ymd_ok, hms_ok, u32_max in *; lia).
  rewrite parse_dec by exact U.
  destruct (seconds_parse7 c) as (x & -> & E). cbn [keep]. cbn zeta.
  pose proof (ticks7_u32 c H) as T. rewrite (trunc_ticks7 x _ E), (nanos_ticks7 x _ E) by (unfold u32_max; lia).
  cbn [year month day hour minute second nano]. rewrite Y. cbn [andb]. pose proof (N.mod_lt (ticks7 c) 10000000 ltac:(discriminate)) as L.
  assert (Eh : hms_ok (hour c) (minute c) (ticks7 c / 10000000) (100 * (ticks7 c mod 10000000)) = (ticks7 c / 10000000 <? 60)).
  { unfold hms_ok in *. apply eq_true_iff_eq. lia. }
  rewrite Eh. fold (rounded7 c). destruct (_ <? _); [|reflexivity]. destruct (utc_ok (rounded7 c)); reflexivity.
Qed.

(** ** Epoch blocks *)
Definition good_epoch (types : list (N * list str)) (e : obs_epoch) : Prop :=
  good_time (o_time e) /\ ticks7 (o_time e) / 10000000 < 60 /\ utc_ok (rounded7 (o_time e)) = true /\ N.of_nat (length (o_sats e)) <= usize_max /\
  NoDup (map fst (o_sats e)) /\ Forall (fun p => good_sat (fst p) /\ fits (snd p) (keep (at_sys types (hd 32 (fst p))) [])) (o_sats e).
Definition sat_back types (p q : str * list (str * fnum)) : Prop := fst p = fst q /\ vals_back types (fst q) (snd p) (snd q).
Definition epoch_back types (a b : obs_epoch) : Prop := o_time a = rounded7 (o_time b) /\ Forall2 (sat_back types) (o_sats a) (o_sats b).
Lemma upsert_new {V} k (v : V) m : ~ In k (map fst m) -> upsert k v m = m ++ [(k, v)].
Proof.
  induction m as [|(a, b) m IH]; [reflexivity|]. cbn [map fst upsert app]. intros N. destruct (str_eqb_spec a k) as [->|_].
  - exfalso. apply N. now left.
  - rewrite IH; [reflexivity|]. intros I. apply N. now right.
Qed.
Definition nl (l : str) : str := l ++ [10].
Lemma rows_back types rest done_ c ps : Forall (fun p => good_sat (fst p) /\ fits (snd p) (keep (at_sys types (hd 32 (fst p))) [])) ps ->
  ps <> [] -> forall acc, NoDup (map fst acc ++ map fst ps) -> exists qs, Forall2 (sat_back types) qs ps /\
  read_epochs types (map nl (map (fun p => write_row types (fst p) (snd p)) ps) ++ rest) (Some (OEpoch c acc, N.of_nat (length ps))) done_ =
  read_epochs types rest None (done_ ++ [OEpoch c (acc ++ qs)]).
Proof.
  induction 1 as [|(sat, vals) ps (G & F) Hp IH]; intros NE acc ND; [congruence|]. cbn [fst snd] in *.
  destruct (row_back types sat vals G F) as (got & R & V). cbn [map app Robs_Model.read_epochs fst snd]. unfold nl at 1. rewrite R. cbn [obind o_time o_sats].
  cbn [map] in ND. pose proof (NoDup_remove_2 _ _ _ ND) as NI.
  rewrite upsert_new by (intros I; apply NI, in_or_app; now left).
  destruct ps as [|p ps].
  - exists [(sat, got)]. split; [constructor; [split; [reflexivity|exact V]|constructor]|]. reflexivity.
  - destruct (IH ltac:(discriminate) (acc ++ [(sat, got)])) as (qs & Q & R2).
    { rewrite map_app, <- app_assoc. exact ND. }
    exists ((sat, got) :: qs). split; [constructor; [split; [reflexivity|exact V]|exact Q]|].
    destruct (N.eqb_spec (N.of_nat (length ((sat, vals) :: p :: ps))) 1) as [X|_]; [cbn [length] in X; lia|].
    replace (N.of_nat (length ((sat, vals) :: p :: ps)) - 1) with (N.of_nat (length (p :: ps))) by (cbn [length]; lia).
    rewrite R2, <- app_assoc. reflexivity.
Qed.
Lemma blocks_back types bs : Forall (good_epoch types) bs -> forall done_, exists as_, Forall2 (epoch_back types) as_ bs /\
  read_epochs types (map nl (flat_map (epoch_lines types) bs)) None done_ = Ok (done_ ++ as_).
Proof.
  induction 1 as [|b bs (T & K & U & L & ND & S) _ IH]; intros done_.
  - exists []. split; [constructor|]. reflexivity.
  - cbn [flat_map]. rewrite map_app. unfold epoch_lines at 1. cbn [map app Robs_Model.read_epochs]. unfold nl at 1. rewrite epoch_line_back7 by assumption.
    apply N.ltb_lt in K. rewrite K, U. cbn [obind]. destruct (N.eqb_spec (N.of_nat (length (o_sats b))) 0) as [Z|Z].
    + destruct (o_sats b) as [|] eqn:E; [|discriminate Z]. cbn [map app]. destruct (IH (done_ ++ [OEpoch (rounded7 (o_time b)) []])) as (as_ & F & ->).
      exists (OEpoch (rounded7 (o_time b)) [] :: as_). split; [constructor; [split; [reflexivity|rewrite E; constructor]|exact F]|]. now rewrite <- app_assoc.
    + assert (NE : o_sats b <> []) by (intros X; rewrite X in Z; now apply Z).
      destruct (rows_back types (map nl (flat_map (epoch_lines types) bs)) done_ (rounded7 (o_time b)) (o_sats b) S NE [] ND) as (qs & Q & ->).
      destruct (IH (done_ ++ [OEpoch (rounded7 (o_time b)) ([] ++ qs)])) as (as_ & F & ->). cbn [app].
      exists (OEpoch (rounded7 (o_time b)) qs :: as_). split; [constructor; [split; [reflexivity|exact Q]|exact F]|]. now rewrite <- app_assoc.
Qed.
End E.

(** ** Header lines *)
Definition good_body (b : str) : Prop := ascii b /\ (length b <= 60)%nat.
Lemma line_of b k : good_body b -> header_line b k = Ok (pad_right 60 b ++ lit k).
Proof.
  intros (A & L). unfold header_line. destruct (Nat.ltb_spec 60 (length b)); [lia|]. cbn [obind]. now rewrite pad_ascii.
Qed.
Lemma lines_of l : Forall (fun p => good_body (fst p)) l -> header_lines l = Ok (map (fun p => pad_right 60 (fst p) ++ lit (snd p)) l).
Proof. induction 1 as [|(b, k) l H _ IH]; [reflexivity|]. cbn [header_lines map fst snd] in *. rewrite line_of by exact H. cbn [obind]. rewrite IH. reflexivity. Qed.
Definition hline (p : str * string) : str := nl (pad_right 60 (fst p) ++ lit (snd p)).
Lemma pad60 b : good_body b -> length (pad_right 60 b) = 60%nat.
Proof. intros (_ & L). unfold pad_right. rewrite app_length, repeat_length. lia. Qed.
Lemma hline_parts b k : good_body b -> ascii (lit k) -> upto60 (hline (b, k)) = pad_right 60 b /\ from60 (hline (b, k)) = lit k ++ [10].
Proof.
  intros G A. pose proof (pad60 b G) as L. unfold hline, nl. cbn [fst snd]. rewrite <- app_assoc. unfold upto60, from60.
  assert (B : Nat.leb 60 (length (pad_right 60 b ++ lit k ++ [10])) && boundary (pad_right 60 b ++ lit k ++ [10]) 60 = true).
  { unfold boundary. rewrite app_nth2 by lia. rewrite L, Nat.sub_diag. rewrite !app_length, L.
    assert (X : nth 0 (lit k ++ [10]) 0 < 128).
    { destruct (lit k) as [|c t]; [reflexivity|]. unfold ascii in A. cbn [forallb] in A. apply andb_prop in A as (A & _). unfold is_ascii in A. cbn [app nth]. lia. }
    cbn [length]. lia. }
  rewrite B. split; [now apply firstn_app_exact|now apply skipn_app_exact].
Qed.
Lemma label_of k : ascii (lit k) -> solid (lit k) -> trim (lit k ++ [10]) = lit k.
Proof. intros _ S. rewrite trim_blank by reflexivity. now apply trim_solid. Qed.
Lemma split_pad b : split_ws (pad_right 60 b) = split_ws b.
Proof. unfold pad_right. rewrite <- (Ilrs_Proofs.split_ws_trim_end (b ++ _)), trim_end_spaces. apply Ilrs_Proofs.split_ws_trim_end. Qed.
Ltac known := first [reflexivity|right; split; reflexivity].
Lemma step_of h b k : h_wait h = None -> good_body b -> ascii (lit k) -> solid (lit k) ->
  header_step h (hline (b, k)) =
      let label := lit k in let body := pad_right 60 b in
      if str_eqb label (lit "MARKER NAME") then Ok (Some (H (trim body) (h_xyz h) (h_interval h) (h_types h) None))
      else if str_eqb label (lit "APPROX POSITION XYZ") then
        match numbers_in (split_ws body) with
        | [a; b; c] => Ok (Some (H (h_marker h) (Some (a, b, c)) (h_interval h) (h_types h) None))
        | _ => Ok (Some h)
        end
      else if str_eqb label (lit "INTERVAL") then
        Ok (Some (H (h_marker h) (h_xyz h) (match split_ws body with w :: _ => parse_f64 w | [] => None end) (h_types h) None))
      else if str_eqb label (lit "SYS / # / OBS TYPES") then
        match body with
        | [] => Ok (Some h)
        | sys :: _ =>
            if is_alpha sys then
              c <- slice body 1 6 ;; r <- slice body 7 (length body) ;;
              Ok (Some (settle h sys (keep (parse_uint usize_max (trim c)) 0) (split_ws r)))
            else Ok (Some h)
        end
      else if str_eqb label (lit "END OF HEADER") then Ok None
      else Ok (Some h).
Proof.
  intros W G A S. unfold header_step. rewrite W. destruct (hline_parts b k G A) as (-> & ->). rewrite label_of by assumption. reflexivity.
Qed.
Lemma step_version h b : h_wait h = None -> good_body b -> header_step h (hline (b, "RINEX VERSION / TYPE"%string)) = Ok (Some h).
Proof. intros W G. rewrite step_of by (assumption || known). reflexivity. Qed.
Lemma step_marker h b : h_wait h = None -> good_body b -> solid b ->
  header_step h (hline (b, "MARKER NAME"%string)) = Ok (Some (H b (h_xyz h) (h_interval h) (h_types h) None)).
Proof. intros W G S. rewrite step_of by (assumption || known). cbn zeta. rewrite trim_pad_right by exact S. reflexivity. Qed.
Lemma step_end h b : h_wait h = None -> good_body b -> header_step h (hline (b, "END OF HEADER"%string)) = Ok None.
Proof. intros W G. rewrite step_of by (assumption || known). reflexivity. Qed.
Lemma step_interval h f : h_wait h = None -> good_body (pad_left 10 (fmt_fixedF 3 f)) ->
  exists g, header_step h (hline (pad_left 10 (fmt_fixedF 3 f), "INTERVAL"%string)) = Ok (Some (H (h_marker h) (h_xyz h) (Some g) (h_types h) None)) /\ near (1 # 2000) g f.
Proof.
  intros W G. rewrite step_of by (assumption || known). cbn zeta. rewrite split_pad, split_ws_pad_last by (apply inked_fixed || apply fixed_nonempty).
  destruct (fixed_near 3 f) as (g & -> & N). exists g. split; [reflexivity|exact N].
Qed.
Definition xyz_body (a b c : fnum) : str := pad_left 14 (fmt_fixedF 4 a) ++ pad_left 14 (fmt_fixedF 4 b) ++ pad_left 14 (fmt_fixedF 4 c).
Definition slim (f : fnum) : Prop := (length (fmt_fixedF 4 f) <= 13)%nat.
Lemma slim_pad f : slim f -> exists k, pad_left 14 (fmt_fixedF 4 f) = 32 :: pad_left k (fmt_fixedF 4 f).
Proof.
  unfold slim. intros L. exists 13%nat. unfold pad_left. replace (14 - length (fmt_fixedF 4 f))%nat with (S (13 - length (fmt_fixedF 4 f))) by lia. reflexivity.
Qed.
Lemma xyz_good a b c : slim a -> slim b -> slim c -> good_body (xyz_body a b c).
Proof.
  unfold slim, xyz_body. intros A B C. split; [apply ascii_app; [|apply ascii_app]; apply ascii_padl, ascii_fixed|].
  unfold pad_left. rewrite !app_length, !repeat_length. lia.
Qed.
Lemma step_xyz h a b c : h_wait h = None -> slim a -> slim b -> slim c ->
  exists a' b' c', header_step h (hline (xyz_body a b c, "APPROX POSITION XYZ"%string)) = Ok (Some (H (h_marker h) (Some (a', b', c')) (h_interval h) (h_types h) None)) /\
    near (1 # 20000) a' a /\ near (1 # 20000) b' b /\ near (1 # 20000) c' c.
Proof.
  intros W A B C. rewrite step_of by (try assumption; try known; now apply xyz_good). cbn zeta. rewrite split_pad. unfold xyz_body.
  destruct (slim_pad b B) as (kb & ->). destruct (slim_pad c C) as (kc & ->). cbn [app].
  rewrite !split_ws_pad by (apply inked_fixed || apply fixed_nonempty). rewrite split_ws_pad_last by (apply inked_fixed || apply fixed_nonempty).
  unfold numbers_in. cbn [flat_map]. destruct (fixed_near 4 a) as (x & -> & Nx). destruct (fixed_near 4 b) as (y & -> & Ny). destruct (fixed_near 4 c) as (z & -> & Nz).
  exists x, y, z. repeat split; assumption.
Qed.

(** ** Lists of observation types *)
Definition good_code (t : str) : Prop := t <> [] /\ inked t = true /\ ascii t /\ (length t <= 3)%nat.
Definition codes (l : list str) : str := flat_map code l.
Lemma split_then t r : t <> [] -> inked t = true -> r = [] \/ hd 0 r = 32 -> split_ws (t ++ r) = t :: split_ws r.
Proof.
  intros N I [->|Hr]; [rewrite app_nil_r; cbn [split_ws]; now apply split_ws_last|]. destruct r as [|c r]; [discriminate Hr|]. cbn [hd] in Hr. subst c.
  rewrite split_ws_word by assumption. reflexivity.
Qed.
Lemma codes_hd l : codes l = [] \/ hd 0 (codes l) = 32.
Proof. destruct l; [now left|now right]. Qed.
Lemma split_codes l : Forall good_code l -> split_ws (codes l) = l.
Proof.
  induction 1 as [|t l (N & I & A & L) _ IH]; [reflexivity|]. unfold codes in *. cbn [flat_map]. unfold code at 1. rewrite pad_ascii by exact A.
  cbn [app]. change (split_ws (32 :: ?x)) with (split_ws x). unfold pad_right. rewrite <- app_assoc. rewrite split_then by
    (first [assumption|destruct (3 - length t)%nat; [apply codes_hd|now right]]). rewrite split_ws_spaces. now rewrite IH.
Qed.
Lemma code_len t : good_code t -> length (code t) = 4%nat /\ ascii (code t).
Proof.
  intros (N & I & A & L). unfold code. rewrite pad_ascii by exact A. unfold pad_right. split.
  - cbn [length]. rewrite app_length, repeat_length. lia.
  - apply (ascii_app [32]); [reflexivity|]. apply ascii_app; [exact A|apply ascii_blank].
Qed.
Lemma codes_len l : Forall good_code l -> length (codes l) = (4 * length l)%nat /\ ascii (codes l).
Proof.
  induction 1 as [|t l G _ (IH & A)]; [split; reflexivity|]. destruct (code_len t G) as (C & D). unfold codes in *. cbn [flat_map length]. split.
  - rewrite app_length. lia.
  - now apply ascii_app.
Qed.
Lemma codes_snoc l t : codes (l ++ [t]) = codes l ++ code t.
Proof. unfold codes. rewrite flat_map_app. cbn [flat_map]. now rewrite app_nil_r. Qed.
Definition tlabel : string := "SYS / # / OBS TYPES"%string.
Definition tline (b : str) : str := hline (b, tlabel).
Definition with_types (h : hstate) (m : list (N * list str)) : hstate := H (h_marker h) (h_xyz h) (h_interval h) m None.
Definition waiting (h : hstate) sys count ts : hstate := H (h_marker h) (h_xyz h) (h_interval h) (h_types h) (Some (sys, count, ts)).
Lemma cont_good acc : Forall good_code acc -> (length acc <= 13)%nat -> good_body (repeat 32 6 ++ codes acc).
Proof. intros F L. destruct (codes_len acc F) as (C & A). split; [apply ascii_app; [reflexivity|exact A]|]. rewrite app_length, C. cbn [repeat length]. lia. Qed.
Lemma step_cont h sys count prior acc : Forall good_code acc -> (length acc <= 13)%nat ->
  header_step (waiting h sys count prior) (tline (repeat 32 6 ++ codes acc)) = Ok (Some (settle (waiting h sys count prior) sys count (prior ++ acc))).
Proof.
  intros F L. unfold header_step. cbn [h_wait waiting]. unfold tline. destruct (hline_parts _ tlabel (cont_good acc F L) eq_refl) as (-> & _).
  rewrite split_pad, split_ws_spaces, split_codes by exact F. reflexivity.
Qed.
Lemma cont_back sys rest ts : Forall good_code ts -> forall q acc prior h count, Forall good_code acc -> (1 <= length acc <= 13)%nat ->
  count = N.of_nat (length (prior ++ acc ++ ts)) ->
  read_header (waiting h sys count prior) (map tline (type_bodies (13 * q + length acc) (repeat 32 6 ++ codes acc) ts) ++ rest) =
  read_header (with_types h (upsert_sys sys (prior ++ acc ++ ts) (h_types h))) rest.
Proof.
  induction 1 as [|t ts G Ft IH]; intros q acc prior h count Fa La Ec.
  - cbn [type_bodies map app read_header]. rewrite step_cont by (assumption || lia). cbn [obind]. rewrite app_nil_r in *. unfold settle, waiting. cbn [h_marker h_xyz h_interval h_types].
    rewrite Ec, N.ltb_irrefl, Nat2N.id, firstn_all. reflexivity.
  - cbn [type_bodies].
    assert (M : ((0 <? 13 * q + length acc) && ((13 * q + length acc) mod 13 =? 0) = (length acc =? 13))%nat).
    { rewrite Nat.add_comm, Nat.mul_comm, Nat.mod_add by discriminate. destruct (Nat.eqb_spec (length acc) 13) as [->|X].
      - cbn. lia.
      - rewrite Nat.mod_small by lia. lia. }
    rewrite M. destruct (Nat.eqb_spec (length acc) 13) as [X|X].
    + cbn [map app read_header]. rewrite step_cont by (assumption || lia). cbn [obind]. unfold settle at 1. cbn [h_marker h_xyz h_interval h_types waiting].
      destruct (N.ltb_spec (N.of_nat (length (prior ++ acc))) count) as [_|Y]; [|rewrite Ec, !app_length in Y; cbn [length] in Y; lia].
      replace (S (13 * q + length acc)) with (13 * S q + length [t])%nat by (cbn [length]; lia).
      replace (code t) with (codes [t]) by (unfold codes; cbn [flat_map]; apply app_nil_r).
      change (H (h_marker h) (h_xyz h) (h_interval h) (h_types h) (Some (sys, count, prior ++ acc))) with (waiting h sys count (prior ++ acc)).
      rewrite (IH (S q) [t] (prior ++ acc) h count).
      * rewrite <- app_assoc. reflexivity.
      * constructor; [exact G|constructor].
      * cbn [length]. lia.
      * rewrite Ec. rewrite <- app_assoc. reflexivity.
    + rewrite <- app_assoc, <- codes_snoc. replace (S (13 * q + length acc)) with (13 * q + length (acc ++ [t]))%nat by (rewrite app_length; cbn [length]; lia).
      rewrite (IH q (acc ++ [t]) prior h count).
      * rewrite <- app_assoc. reflexivity.
      * apply Forall_app. split; [exact Fa|constructor; [exact G|constructor]].
      * rewrite app_length. cbn [length]. lia.
      * rewrite Ec, <- app_assoc. reflexivity.
Qed.
Definition first_body (sys count : N) (acc : list str) : str := ([sys] ++ pad_left 5 (dec count)) ++ codes acc.
Lemma pad5 count : count <= 99999 -> length (pad_left 5 (dec count)) = 5%nat.
Proof.
  intros L. unfold pad_left. rewrite app_length, repeat_length. unfold dec. rewrite digits_length.
  pose proof (ndig_le count 5 ltac:(lia) ltac:(cbn; lia)). lia.
Qed.
Lemma alpha_ascii c : is_alpha c = true -> is_ascii c = true.
Proof. unfold is_alpha, is_ascii. lia. Qed.
Lemma first_good sys count acc : is_alpha sys = true -> count <= 99999 -> Forall good_code acc -> (length acc <= 13)%nat -> good_body (first_body sys count acc).
Proof.
  intros A C F L. destruct (codes_len acc F) as (K & B). unfold first_body. split.
  - apply ascii_app; [|exact B]. apply ascii_app; [|apply ascii_padl, ascii_dec]. unfold ascii. cbn [forallb]. now rewrite alpha_ascii.
  - rewrite !app_length, K, pad5 by exact C. cbn [length]. lia.
Qed.
Lemma step_first h sys count acc : h_wait h = None -> is_alpha sys = true -> count <= 99999 -> Forall good_code acc -> (length acc <= 13)%nat ->
  header_step h (tline (first_body sys count acc)) = Ok (Some (settle h sys count acc)).
Proof.
  intros W A C F L. unfold tline, tlabel. pose proof (first_good sys count acc A C F L) as G. rewrite step_of by (assumption || known). cbn zeta.
  change (str_eqb (lit "SYS / # / OBS TYPES") (lit "MARKER NAME")) with false.
  change (str_eqb (lit "SYS / # / OBS TYPES") (lit "APPROX POSITION XYZ")) with false.
  change (str_eqb (lit "SYS / # / OBS TYPES") (lit "INTERVAL")) with false.
  change (str_eqb (lit "SYS / # / OBS TYPES") (lit "SYS / # / OBS TYPES")) with true. cbn iota.
  pose proof (pad60 _ G) as L60. destruct G as (GA & GL). assert (AP : ascii (pad_right 60 (first_body sys count acc))) by (unfold pad_right; apply ascii_app; [exact GA|apply ascii_blank]).
  assert (E : pad_right 60 (first_body sys count acc) = sys :: (pad_left 5 (dec count) ++ codes acc ++ repeat 32 (60 - length (first_body sys count acc)))).
  { unfold pad_right, first_body. now rewrite <- !app_assoc. }
  rewrite E at 1. rewrite A. rewrite !slice_ascii by (first [exact AP|rewrite L60; lia]). cbn [obind]. rewrite L60, E. change (6 - 1)%nat with 5%nat.
  change (skipn 1 (sys :: ?x)) with x. rewrite firstn_app_exact by (now apply pad5). rewrite trim_pad_left by (apply solid_digits; [apply dec_digit|apply dec_nonempty]).
  rewrite parse_dec by (unfold usize_max; lia). cbn [keep]. change (skipn 7 (sys :: ?x)) with (skipn 6 x).
  assert (S7 : split_ws (firstn (60 - 7) (skipn 6 (pad_left 5 (dec count) ++ codes acc ++ repeat 32 (60 - length (first_body sys count acc))))) = acc).
  { destruct (codes_len acc F) as (K & _). assert (FL : length (first_body sys count acc) = (6 + 4 * length acc)%nat) by (unfold first_body; rewrite !app_length, K, pad5 by exact C; reflexivity).
    rewrite FL. rewrite skipn_app, (skipn_all2 (pad_left 5 (dec count))) by (rewrite pad5 by exact C; lia). rewrite pad5 by exact C. cbn [app]. change (6 - 5)%nat with 1%nat.
    assert (Hd : exists x, codes acc ++ repeat 32 (60 - (6 + 4 * length acc)) = 32 :: x /\ length x = 53%nat).
    { destruct (codes acc ++ repeat 32 (60 - (6 + 4 * length acc))) as [|c x] eqn:Q.
      - apply (f_equal (@length N)) in Q. rewrite app_length, repeat_length, K in Q. cbn [length] in Q. lia.
      - assert (c = 32). { destruct (codes_hd acc) as [Z|Z]; [|destruct (codes acc) as [|z y] eqn:Z2; [discriminate Z|cbn [hd] in Z; cbn [app] in Q; congruence]].
          rewrite Z in Q. cbn [app] in Q. destruct (60 - (6 + 4 * length acc))%nat; cbn [repeat] in Q; congruence. }
        subst c. exists x. split; [reflexivity|]. apply (f_equal (@length N)) in Q. rewrite app_length, repeat_length, K in Q. cbn [length] in Q. lia. }
    destruct Hd as (x & Q & LX). rewrite Q. change (skipn 1 (32 :: x)) with x. rewrite firstn_all2 by lia. change (split_ws x) with (split_ws (32 :: x)).
    rewrite <- Q. rewrite <- (Ilrs_Proofs.split_ws_trim_end (codes acc ++ _)), trim_end_spaces, Ilrs_Proofs.split_ws_trim_end. now apply split_codes. }
  rewrite S7. reflexivity.
Qed.
Lemma first_back sys rest ts : is_alpha sys = true -> Forall good_code ts -> forall acc h count, h_wait h = None -> Forall good_code acc -> (length acc <= 13)%nat ->
  count = N.of_nat (length (acc ++ ts)) -> count <= 99999 ->
  read_header h (map tline (type_bodies (length acc) (first_body sys count acc) ts) ++ rest) =
  read_header (with_types h (upsert_sys sys (acc ++ ts) (h_types h))) rest.
Proof.
  intros A. induction 1 as [|t ts G Ft IH]; intros acc h count W Fa La Ec C.
  - cbn [type_bodies map app read_header]. rewrite step_first by assumption. cbn [obind]. rewrite app_nil_r in *. unfold settle.
    rewrite Ec, N.ltb_irrefl, Nat2N.id, firstn_all. reflexivity.
  - cbn [type_bodies].
    assert (M : ((0 <? length acc) && (length acc mod 13 =? 0) = (length acc =? 13))%nat).
    { destruct (Nat.eqb_spec (length acc) 13) as [->|X]; [reflexivity|]. rewrite Nat.mod_small by lia. lia. }
    rewrite M. destruct (Nat.eqb_spec (length acc) 13) as [X|X].
    + cbn [map app read_header]. rewrite step_first by assumption. cbn [obind]. unfold settle at 1.
      destruct (N.ltb_spec (N.of_nat (length acc)) count) as [_|Y]; [|rewrite Ec, !app_length in Y; cbn [length] in Y; lia].
      replace (code t) with (codes [t]) by (unfold codes; cbn [flat_map]; apply app_nil_r).
      change (H (h_marker h) (h_xyz h) (h_interval h) (h_types h) (Some (sys, count, acc))) with (waiting h sys count acc).
      rewrite X. change 14%nat with (13 * 1 + length [t])%nat. rewrite (cont_back sys rest ts Ft 1 [t] acc h count).
      * reflexivity.
      * constructor; [exact G|constructor].
      * cbn [length]. lia.
      * exact Ec.
    + assert (FB : first_body sys count acc ++ code t = first_body sys count (acc ++ [t])) by (unfold first_body; rewrite codes_snoc; now rewrite <- app_assoc).
      rewrite FB. replace (S (length acc)) with (length (acc ++ [t])) by (rewrite app_length; cbn [length]; lia).
      rewrite (IH (acc ++ [t]) h count).
      * rewrite <- app_assoc. reflexivity.
      * exact W.
      * apply Forall_app. split; [exact Fa|constructor; [exact G|constructor]].
      * rewrite app_length. cbn [length]. lia.
      * rewrite <- app_assoc. exact Ec.
      * exact C.
Qed.
Definition good_sys (p : N * list str) : Prop := is_alpha (fst p) = true /\ Forall good_code (snd p) /\ N.of_nat (length (snd p)) <= 99999.
Lemma sys_back p rest h : good_sys p -> h_wait h = None ->
  read_header h (map tline (sys_bodies (fst p) (snd p)) ++ rest) = read_header (with_types h (upsert_sys (fst p) (snd p) (h_types h))) rest.
Proof.
  intros (A & F & C) W. unfold sys_bodies.
  pose proof (first_back (fst p) rest (snd p) A F [] h (N.of_nat (length (snd p))) W (Forall_nil _) ltac:(cbn [length]; lia) eq_refl C) as E.
  unfold first_body, codes in E. cbn [flat_map length] in E. rewrite app_nil_r in E. exact E.
Qed.
Lemma upsert_sys_new k v m : ~ In k (map fst m) -> upsert_sys k v m = m ++ [(k, v)].
Proof.
  induction m as [|(a, b) m IH]; [reflexivity|]. cbn [map fst upsert_sys app]. intros N. destruct (N.eqb_spec a k) as [->|_].
  - exfalso. apply N. now left.
  - rewrite IH; [reflexivity|]. intros I. apply N. now right.
Qed.
Lemma syss_back l rest : Forall good_sys l -> forall h, h_wait h = None -> NoDup (map fst (h_types h) ++ map fst l) ->
  read_header h (map tline (flat_map (fun p => sys_bodies (fst p) (snd p)) l) ++ rest) = read_header (with_types h (h_types h ++ l)) rest.
Proof.
  induction 1 as [|p l G _ IH]; intros h W ND.
  - cbn [flat_map map app]. rewrite app_nil_r. destruct h as [a b c d e]. cbn in W. subst e. reflexivity.
  - cbn [flat_map]. rewrite map_app, <- app_assoc, sys_back by assumption. cbn [map] in ND. pose proof (NoDup_remove_2 _ _ _ ND) as NI.
    rewrite upsert_sys_new by (intros I; apply NI, in_or_app; now left). rewrite IH.
    + unfold with_types. cbn [h_marker h_xyz h_interval h_types]. rewrite <- app_assoc. cbn [app]. destruct p; reflexivity.
    + reflexivity.
    + cbn [with_types h_types]. rewrite map_app, <- app_assoc. exact ND.
Qed.

(** ** Whole files *)
Lemma cut_line l s : ~ In 10 l -> cut_lines (l ++ 10 :: s) = (l ++ [10]) :: cut_lines s.
Proof.
  induction l as [|c l IH]; intros N; [reflexivity|]. cbn [app cut_lines]. destruct (N.eqb_spec c 10) as [->|_]; [exfalso; apply N; now left|].
  rewrite IH by (intros I; apply N; now right). reflexivity.
Qed.
Lemma cut_written ls : Forall (fun l => ~ In 10 l) ls -> cut_lines (flat_map (fun l => l ++ [10]) ls) = map nl ls.
Proof. induction 1 as [|l ls N _ IH]; [reflexivity|]. cbn [flat_map map]. rewrite <- app_assoc. cbn [app]. rewrite cut_line by exact N. now rewrite IH. Qed.
Definition free (s : str) : Prop := ~ In 10 s.
Lemma free_app a b : free a -> free b -> free (a ++ b). Proof. apply no_nl_app. Qed.
Lemma free_blank n : free (repeat 32 n). Proof. intros I. apply repeat_spec in I. discriminate. Qed.
Lemma free_padl w s : inked s = true -> free (pad_left w s). Proof. apply no_nl_pad. Qed.
Lemma free_inked s : inked s = true -> free s. Proof. apply no_nl_inked. Qed.
Lemma free_trim_end s : free s -> free (trim_end s).
Proof. intros F I. destruct (trim_end_split s) as (w & E & _). apply F. rewrite E. apply in_or_app. now left. Qed.
Lemma free_codes l : Forall good_code l -> free (codes l).
Proof.
  induction 1 as [|t l (N & I & A & L) _ IH]; [intros []|]. unfold codes in *. cbn [flat_map]. apply free_app; [|exact IH]. unfold code. rewrite pad_ascii by exact A.
  unfold pad_right. apply (free_app [32]); [intros [X|[]]; discriminate X|]. apply free_app; [now apply free_inked|apply free_blank].
Qed.
Lemma bodies_free ts : Forall good_code ts -> forall i b, free b -> Forall free (type_bodies i b ts).
Proof.
  induction 1 as [|t ts G _ IH]; intros i b F; [constructor; [exact F|constructor]|]. cbn [type_bodies].
  assert (C : free (code t)). { pose proof (free_codes [t] (Forall_cons _ G (Forall_nil _))) as X. unfold codes in X. cbn [flat_map] in X. now rewrite app_nil_r in X. }
  destruct (_ && _); [constructor; [exact F|]|]; apply IH; apply free_app; first [exact C|apply free_blank|exact F].
Qed.
Lemma cont_bodies_good ts : Forall good_code ts -> forall q acc, Forall good_code acc -> (1 <= length acc <= 13)%nat ->
  Forall good_body (type_bodies (13 * q + length acc) (repeat 32 6 ++ codes acc) ts).
Proof.
  induction 1 as [|t ts G Ft IH]; intros q acc Fa La; [constructor; [apply cont_good; [exact Fa|lia]|constructor]|]. cbn [type_bodies].
  assert (M : ((0 <? 13 * q + length acc) && ((13 * q + length acc) mod 13 =? 0) = (length acc =? 13))%nat).
  { rewrite Nat.add_comm, Nat.mul_comm, Nat.mod_add by discriminate. destruct (Nat.eqb_spec (length acc) 13) as [->|X].
    - cbn. lia.
    - rewrite Nat.mod_small by lia. lia. }
  rewrite M. destruct (Nat.eqb_spec (length acc) 13) as [X|X].
  - constructor; [apply cont_good; [exact Fa|lia]|]. replace (code t) with (codes [t]) by (unfold codes; cbn [flat_map]; apply app_nil_r).
    replace (S (13 * q + length acc)) with (13 * S q + length [t])%nat by (cbn [length]; lia). apply IH; [constructor; [exact G|constructor]|cbn [length]; lia].
  - rewrite <- app_assoc, <- codes_snoc. replace (S (13 * q + length acc)) with (13 * q + length (acc ++ [t]))%nat by (rewrite app_length; cbn [length]; lia).
    apply IH; [apply Forall_app; split; [exact Fa|constructor; [exact G|constructor]]|rewrite app_length; cbn [length]; lia].
Qed.
Lemma first_bodies_good sys count ts : is_alpha sys = true -> count <= 99999 -> Forall good_code ts -> forall acc, Forall good_code acc -> (length acc <= 13)%nat ->
  Forall good_body (type_bodies (length acc) (first_body sys count acc) ts).
Proof.
  intros A C. induction 1 as [|t ts G Ft IH]; intros acc Fa La; [constructor; [now apply first_good|constructor]|]. cbn [type_bodies].
  assert (M : ((0 <? length acc) && (length acc mod 13 =? 0) = (length acc =? 13))%nat).
  { destruct (Nat.eqb_spec (length acc) 13) as [->|X]; [reflexivity|]. rewrite Nat.mod_small by lia. lia. }
  rewrite M. destruct (Nat.eqb_spec (length acc) 13) as [X|X].
  - constructor; [now apply first_good|]. replace (code t) with (codes [t]) by (unfold codes; cbn [flat_map]; apply app_nil_r).
    rewrite X. change 14%nat with (13 * 1 + length [t])%nat. apply cont_bodies_good; [exact Ft|constructor; [exact G|constructor]|cbn [length]; lia].
  - assert (FB : first_body sys count acc ++ code t = first_body sys count (acc ++ [t])) by (unfold first_body; rewrite codes_snoc; now rewrite <- app_assoc).
    rewrite FB. replace (S (length acc)) with (length (acc ++ [t])) by (rewrite app_length; cbn [length]; lia).
    apply IH; [apply Forall_app; split; [exact Fa|constructor; [exact G|constructor]]|rewrite app_length; cbn [length]; lia].
Qed.
Lemma sys_bodies_ok p : good_sys p -> Forall (fun b => good_body b /\ free b) (sys_bodies (fst p) (snd p)).
Proof.
  intros (A & F & C). rewrite Forall_forall. intros b I. split.
  - pose proof (first_bodies_good (fst p) (N.of_nat (length (snd p))) (snd p) A C F [] (Forall_nil _) ltac:(cbn [length]; lia)) as G.
    unfold first_body, codes in G. cbn [flat_map length] in G. rewrite app_nil_r in G. rewrite Forall_forall in G. now apply G.
  - assert (X : free ([fst p] ++ pad_left 5 (dec (N.of_nat (length (snd p)))))).
    { apply free_app; [|apply free_padl, inked_dec]. intros [X|[]]. rewrite X in A. discriminate A. }
    pose proof (bodies_free (snd p) F 0 _ X) as G. rewrite Forall_forall in G. now apply G.
Qed.
Section F.
Variable utc_ok : civil -> bool.
Definition good_obs (o : obs_file) : Prop :=
  good_body (marker o) /\ solid (marker o) /\ free (marker o) /\
  match xyz o with Some (a, b, c) => slim a /\ slim b /\ slim c | None => True end /\
  match interval o with Some f => (length (fmt_fixedF 3 f) <= 60)%nat | None => True end /\
  Forall good_sys (obs_types o) /\ NoDup (map fst (obs_types o)) /\ Forall (good_epoch utc_ok (obs_types o)) (o_epochs o).
Definition near_opt (eps : Q) (a b : option fnum) : Prop := match a, b with Some g, Some f => near eps g f | None, None => True | _, _ => False end.
Definition near_xyz (a b : option (fnum * fnum * fnum)) : Prop :=
  match a, b with Some (x, y, z), Some (u, v, w) => near (1 # 20000) x u /\ near (1 # 20000) y v /\ near (1 # 20000) z w | None, None => True | _, _ => False end.
Lemma header_good o : good_obs o -> Forall (fun p => good_body (fst p) /\ free (fst p) /\ free (lit (snd p))) (header_of o).
Proof.
  intros (Mg & _ & Mf & X & I & S & _ & _). unfold header_of.
  assert (LF : forall k, In k ["RINEX VERSION / TYPE"; "MARKER NAME"; "APPROX POSITION XYZ"; "SYS / # / OBS TYPES"; "INTERVAL"; "END OF HEADER"]%string -> free (lit k)).
  { intros k Hk Hn. repeat destruct Hk as [<-|Hk]; try destruct Hk; cbn in Hn; repeat (destruct Hn as [Hn|Hn]; [discriminate Hn|]); exact Hn. }
  repeat rewrite Forall_app. repeat split.
  - constructor; [|constructor; [|constructor]]; cbn [fst snd].
    + split; [split; [reflexivity|cbn; lia]|]. split; [|apply LF; cbn; tauto]. intros Hn. cbn in Hn. repeat (destruct Hn as [Hn|Hn]; [discriminate Hn|]). exact Hn.
    + split; [exact Mg|]. split; [exact Mf|apply LF; cbn; tauto].
  - destruct (xyz o) as [((a, b), c)|]; [|constructor]. destruct X as (A & B & C). constructor; [|constructor]. cbn [fst snd].
    split; [exact (xyz_good a b c A B C)|]. split; [|apply LF; cbn; tauto]. apply free_app; [|apply free_app]; apply free_padl, inked_fixed.
  - induction S as [|p l G _ IH]; [constructor|]. cbn [flat_map]. apply Forall_app. split; [|exact IH]. apply Forall_map. eapply Forall_impl; [|exact (sys_bodies_ok p G)].
    intros b (B & F). cbn [fst snd]. split; [exact B|]. split; [exact F|apply LF; cbn; tauto].
  - destruct (interval o) as [f|]; [|constructor]. constructor; [|constructor]. cbn [fst snd]. split; [split|].
    + apply ascii_padl, ascii_fixed.
    + unfold pad_left. rewrite app_length, repeat_length. lia.
    + split; [apply free_padl, inked_fixed|apply LF; cbn; tauto].
  - constructor; [|constructor]. cbn [fst snd]. split; [split; [reflexivity|cbn; lia]|]. split; [intros []|apply LF; cbn; tauto].
Qed.
Lemma map_tlines l : map hline (flat_map (fun p => map (fun b => (b, "SYS / # / OBS TYPES"%string)) (sys_bodies (fst p) (snd p))) l) =
  map tline (flat_map (fun p => sys_bodies (fst p) (snd p)) l).
Proof. induction l as [|p l IH]; [reflexivity|]. cbn [flat_map]. rewrite !map_app, IH, map_map. reflexivity. Qed.
Lemma header_back o rest : good_obs o -> exists h, read_header h0 (map hline (header_of o) ++ rest) = Ok (h, rest) /\
  h_marker h = marker o /\ near_xyz (h_xyz h) (xyz o) /\ near_opt (1 # 2000) (h_interval h) (interval o) /\ h_types h = obs_types o.
Proof.
  intros (Mg & Ms & _ & X & I & S & ND & _). unfold header_of. rewrite !map_app, map_tlines, <- !app_assoc. cbn [map app read_header].
  rewrite step_version by (first [reflexivity|split; [reflexivity|cbn; lia]]). cbn [obind]. rewrite step_marker by (first [reflexivity|assumption]). cbn [obind h0 h_xyz h_interval h_types].
  assert (X' : exists x', near_xyz x' (xyz o) /\ forall rest, read_header (H (marker o) None None [] None)
    (map hline match xyz o with Some (a, b, c) => [(pad_left 14 (fmt_fixedF 4 a) ++ pad_left 14 (fmt_fixedF 4 b) ++ pad_left 14 (fmt_fixedF 4 c), "APPROX POSITION XYZ"%string)] | None => [] end ++ rest) =
    read_header (H (marker o) x' None [] None) rest).
  { destruct (xyz o) as [((a, b), c)|]; [|exists None; split; [exact Logic.I|reflexivity]]. destruct X as (A & B & C).
    destruct (step_xyz (H (marker o) None None [] None) a b c eq_refl A B C) as (x & y & z & E & N). exists (Some (x, y, z)). split; [exact N|].
    intros r. cbn [map app read_header].
    match goal with |- context [header_step _ ?l] => change l with (hline (xyz_body a b c, "APPROX POSITION XYZ"%string)) end. rewrite E. reflexivity. }
  destruct X' as (x' & NX & ->). rewrite syss_back by (first [assumption|reflexivity]). cbn [h_types with_types h_marker h_xyz h_interval app].
  unfold with_types. cbn [h_marker h_xyz h_interval h_types].
  assert (I' : exists i', near_opt (1 # 2000) i' (interval o) /\ forall rest, read_header (H (marker o) x' None (obs_types o) None)
    (map hline match interval o with Some f => [(pad_left 10 (fmt_fixedF 3 f), "INTERVAL"%string)] | None => [] end ++ rest) =
    read_header (H (marker o) x' i' (obs_types o) None) rest).
  { destruct (interval o) as [f|]; [|exists None; split; [exact Logic.I|reflexivity]].
    destruct (step_interval (H (marker o) x' None (obs_types o) None) f eq_refl) as (g & E & N).
    { split; [apply ascii_padl, ascii_fixed|]. unfold pad_left. rewrite app_length, repeat_length. lia. }
    exists (Some g). split; [exact N|]. intros r. cbn [map app read_header].
    match goal with |- context [header_step _ ?l] => change l with (hline (pad_left 10 (fmt_fixedF 3 f), "INTERVAL"%string)) end. rewrite E. reflexivity. }
  destruct I' as (i' & NI & ->). cbn [map app read_header]. rewrite step_end by (first [reflexivity|split; [reflexivity|cbn; lia]]). cbn [obind].
  eexists. split; [reflexivity|]. cbn [h_marker h_xyz h_interval h_types]. auto.
Qed.
Lemma row_free types sat vals : good_sat sat -> free (write_row types sat vals).
Proof.
  intros G. rewrite row_text by exact G. destruct G as (_ & _ & _ & N). apply free_app; [exact N|]. apply free_trim_end.
  induction (keep _ _) as [|t ts IH]; [intros []|]. cbn [flat_map]. apply free_app; [|exact IH]. unfold cell. destruct (at_key vals t); [|apply free_blank].
  apply free_app; [apply free_padl, inked_fixed|]. exact (free_blank 2).
Qed.
Lemma epoch_line_free7 c n : free (epoch_line c n).
Proof.
  unfold epoch_line. change (lit "> ") with [62; 32]. change (lit "  0 ") with [32; 32; 48; 32].
  repeat first [apply free_padl; first [apply inked_decz|apply inked_dec|exact (inked_fixed 7 (Fin (seconds c)))]|apply free_inked, inked_pad0|
    exact (free_blank 1)|apply free_app|intros I; cbn in I; repeat (destruct I as [I|I]; [discriminate I|]); exact I].
Qed.
Lemma file_back o : good_obs o -> exists text o', write_rinex_obs o = Ok text /\ read_rinex_obs utc_ok text = Ok o' /\
  marker o' = marker o /\ near_xyz (xyz o') (xyz o) /\ near_opt (1 # 2000) (interval o') (interval o) /\ obs_types o' = obs_types o /\
  Forall2 (epoch_back (obs_types o)) (o_epochs o') (o_epochs o).
Proof.
  intros G. pose proof (header_good o G) as HG.
  assert (HB : Forall (fun p => good_body (fst p)) (header_of o)) by (eapply Forall_impl; [|exact HG]; intros p (B & _); exact B).
  unfold write_rinex_obs. rewrite lines_of by exact HB. cbn [obind].
  set (hs := map _ (header_of o)). set (es := flat_map (epoch_lines (obs_types o)) (o_epochs o)).
  assert (FR : Forall free (hs ++ es)).
  { apply Forall_app. split.
    - apply Forall_map. eapply Forall_impl; [|exact HG]. intros p (_ & F & K). apply free_app; [|exact K]. unfold pad_right. apply free_app; [exact F|apply free_blank].
    - destruct G as (_ & _ & _ & _ & _ & _ & _ & E). unfold es. induction E as [|e l (_ & _ & _ & _ & _ & R) _ IH]; [constructor|]. cbn [flat_map]. apply Forall_app. split; [|exact IH].
      constructor; [apply epoch_line_free7|]. apply Forall_map. eapply Forall_impl; [|exact R]. intros p (S & _). now apply row_free. }
  destruct (header_back o (map nl es) G) as (h & Eh & A & B & C & D).
  assert (GE : Forall (good_epoch utc_ok (obs_types o)) (o_epochs o)) by apply G.
  destruct (blocks_back utc_ok (obs_types o) (o_epochs o) GE []) as (as_ & F & Ee). cbn [app] in Ee.
  exists (flat_map (fun l => l ++ [10]) (hs ++ es)), (Obs (h_marker h) (h_xyz h) (h_interval h) (h_types h) as_). split; [reflexivity|]. split.
  - unfold read_rinex_obs. rewrite cut_written by exact FR. rewrite map_app. unfold hs. rewrite map_map.
    match goal with |- obind ?r _ = _ => change r with (read_header h0 (map hline (header_of o) ++ map nl es)) end. rewrite Eh. cbn [obind fst snd]. rewrite D. unfold es. rewrite Ee. reflexivity.
  - cbn [marker xyz interval obs_types o_epochs]. auto.
Qed.
(** An epoch whose printed seconds reach 60 makes the rest of the file unreadable. *)
Lemma blocks_refused types a e b rest : Forall (good_epoch utc_ok types) a -> good_time (o_time e) -> N.of_nat (length (o_sats e)) <= usize_max ->
  60 <= ticks7 (o_time e) / 10000000 -> forall done_, read_epochs utc_ok types (map nl (flat_map (epoch_lines types) (a ++ e :: b)) ++ rest) None done_ = Err BadEpochDate.
Proof.
  intros Ha T L K. induction Ha as [|x a (T2 & K2 & U2 & L2 & ND & S) _ IH]; intros done_.
  - cbn [app flat_map]. unfold epoch_lines at 1. cbn [map app Robs_Model.read_epochs]. unfold nl at 1. rewrite epoch_line_back7 by assumption.
    destruct (N.ltb_spec (ticks7 (o_time e) / 10000000) 60); [lia|]. reflexivity.
  - cbn [app flat_map]. rewrite map_app, <- app_assoc. unfold epoch_lines at 1. cbn [map app Robs_Model.read_epochs]. unfold nl at 1. rewrite epoch_line_back7 by assumption.
    apply N.ltb_lt in K2. rewrite K2, U2. cbn [obind]. destruct (N.eqb_spec (N.of_nat (length (o_sats x))) 0) as [Z|Z].
    + destruct (o_sats x) as [|] eqn:E; [|discriminate Z]. cbn [map app]. apply IH.
    + assert (NE : o_sats x <> []) by (intros Y; rewrite Y in Z; now apply Z).
      destruct (rows_back utc_ok types (map nl (flat_map (epoch_lines types) (a ++ e :: b)) ++ rest) done_ (rounded7 (o_time x)) (o_sats x) S NE [] ND) as (qs & _ & R).
      rewrite R. apply IH.
Qed.
(** ** Nothing panics on ASCII text *)
Lemma ascii_forall s x : ascii s -> In x s -> is_ascii x = true.
Proof. unfold ascii. rewrite forallb_forall. auto. Qed.
Lemma cut_ascii s : ascii s -> Forall ascii (cut_lines s).
Proof.
  induction s as [|c s IH]; intros A; [constructor|]. unfold ascii in A. cbn [forallb] in A. apply andb_prop in A as (C & A). specialize (IH A).
  cbn [cut_lines]. destruct (c =? 10); [constructor; [unfold ascii; cbn [forallb]; now rewrite C|exact IH]|].
  destruct (cut_lines s) as [|l ls]; constructor; try (unfold ascii; cbn [forallb]; now rewrite C); try constructor.
  - inversion IH; subst. unfold ascii. cbn [forallb]. now rewrite C.
  - now inversion IH.
Qed.
Lemma upto_len s : upto60 s = [] \/ length (upto60 s) = 60%nat.
Proof. unfold upto60. destruct (Nat.leb_spec 60 (length s)); [|now left]. cbn [andb]. destruct (boundary s 60); [right|now left]. rewrite firstn_length. lia. Qed.
Lemma upto_ascii s : ascii s -> ascii (upto60 s).
Proof.
  intros A. unfold upto60. destruct (_ && _); [|reflexivity]. rewrite <- (firstn_skipn 60 s) in A. now apply ascii_inv in A.
Qed.
Lemma header_total ls : Forall ascii ls -> forall h, read_header h ls <> Panic /\ forall h' r, read_header h ls = Ok (h', r) -> Forall ascii r.
Proof.
  induction 1 as [|l ls A Fs IH]; intros h; [split; [discriminate|discriminate]|]. cbn [read_header].
  assert (ST : header_step h l <> Panic).
  { unfold header_step. destruct (h_wait h) as [((s, c), t)|]; [discriminate|]. cbn zeta. destruct (str_eqb _ _); [discriminate|]. destruct (str_eqb _ _).
    { destruct (numbers_in _) as [|? [|? [|? [|]]]]; discriminate. }
    destruct (str_eqb _ _); [discriminate|]. destruct (str_eqb _ _); [|destruct (str_eqb _ _); discriminate].
    pose proof (upto_ascii l A) as UA. destruct (upto_len l) as [->|UL]; [discriminate|]. remember (upto60 l) as b eqn:Eb. clear Eb. destruct b as [|s b]; [discriminate|].
    destruct (is_alpha s); [|discriminate]. rewrite !slice_ascii by (first [exact UA|rewrite UL; lia]). cbn [obind]. discriminate. }
  destruct (header_step h l) as [[h'|]|e|]; cbn [obind]; [apply IH| |split; discriminate|congruence].
  split; [discriminate|]. intros h' r E. injection E as _ <-. exact Fs.
Qed.
Lemma row_total types l : ascii l -> read_row types l <> Panic.
Proof.
  intros A. unfold read_row. cbn zeta. pose proof (ascii_trim_end l A) as B. destruct (Nat.ltb_spec (length (trim_end l)) 3); [discriminate|].
  rewrite !slice_ascii by (first [exact B|lia]). cbn [obind]. rewrite read_plain.
  - cbn [obind]. discriminate.
  - rewrite firstn_all2 by (rewrite skipn_length; lia). rewrite <- (firstn_skipn 3) in B. now apply ascii_inv in B.
Qed.
Lemma epoch_line_total l : read_epoch_line utc_ok l <> Panic.
Proof.
  unfold read_epoch_line. cbn zeta. destruct (starts_with _ _); [|discriminate]. destruct (split_ws _) as [|? [|? [|? [|? [|? [|? [|? [|? [|? ?]]]]]]]]]; try discriminate.
  destruct (_ && _); [|discriminate]. destruct (utc_ok _); discriminate.
Qed.
Lemma epochs_total types ls : Forall ascii ls -> forall w d, read_epochs utc_ok types ls w d <> Panic.
Proof.
  induction 1 as [|l ls A _ IH]; intros w d; [discriminate|]. cbn [Robs_Model.read_epochs]. destruct w as [(e, n)|].
  - pose proof (row_total types l A) as R. destruct (read_row types l) as [o|x|]; cbn [obind]; [|discriminate|congruence]. destruct (n =? 1); apply IH.
  - pose proof (epoch_line_total l) as R. destruct (read_epoch_line utc_ok l) as [[(c, n)|]|x|]; cbn [obind]; [destruct (n =? 0); apply IH|apply IH|discriminate|congruence].
Qed.
Lemma read_total text : ascii text -> read_rinex_obs utc_ok text <> Panic.
Proof.
  intros A. unfold read_rinex_obs. destruct (header_total (cut_lines text) (cut_ascii text A) h0) as (N & R).
  destruct (read_header h0 (cut_lines text)) as [(h, r)|e|]; cbn [obind fst snd]; [|discriminate|congruence].
  pose proof (epochs_total (h_types h) r (R h r eq_refl) None []) as E. destruct (read_epochs utc_ok (h_types h) r None []); cbn [obind]; [discriminate|discriminate|congruence].
Qed.
End F.
