From Coq Require Import Ascii String List NArith ZArith Bool QArith Qabs Qround Lia Lqa.
From Verif Require Import Base Text DecFloat Omm_Proofs Sp3_Model Sp3_Proofs.
Import ListNotations.
Local Open Scope N_scope.
Local Open Scope outcome_scope.

(** ** Lines *)
Lemma split_nl_app l rest : ~ In 10 l -> split_nl (l ++ 10 :: rest) = l :: split_nl rest.
Proof.
  induction l as [|c l IH]; intros H; [reflexivity|].
  cbn [app split_nl]. destruct (N.eqb_spec c 10) as [->|]; [exfalso; apply H; now left|].
  rewrite IH by (intros X; apply H; now right). reflexivity.
Qed.
Lemma split_nl_lines ls : Forall (fun l => ~ In 10 l) ls -> split_nl (flat_map (fun l => l ++ [10]) ls) = ls.
Proof.
  induction 1 as [|l ls Hl _ IH]; [reflexivity|]. cbn [flat_map]. rewrite <- app_assoc. cbn [app]. rewrite split_nl_app, IH by exact Hl. reflexivity.
Qed.
Definition eol_free (l : str) : Prop := ~ In 10 l /\ last l 0 <> 13.
Lemma trim_eol_id l : eol_free l -> trim_eol l = l.
Proof.
  intros (H & K). unfold trim_eol. destruct (rev l) as [|c t] eqn:E.
  - apply (f_equal (@rev N)) in E. rewrite rev_involutive in E. now rewrite E.
  - assert (L : l = rev t ++ [c]) by (apply (f_equal (@rev N)) in E; rewrite rev_involutive in E; exact E).
    assert (Hc : is_eol c = false).
    { subst l. rewrite last_last in K. unfold is_eol. destruct (N.eqb_spec c 13); [contradiction|].
      destruct (N.eqb_spec c 10) as [->|]; [|reflexivity]. exfalso. apply H. apply in_or_app. right. now left. }
    cbn [drop_eol]. rewrite Hc, <- E. apply rev_involutive.
Qed.
Lemma lines_written ls : Forall eol_free ls -> lines (flat_map (fun l => l ++ [10]) ls) = ls.
Proof.
  intros H. unfold lines. rewrite split_nl_lines by (eapply Forall_impl; [|exact H]; now intros a (? & _)).
  induction H as [|l ls Hl _ IH]; [reflexivity|]. cbn [map]. now rewrite trim_eol_id, IH.
Qed.

(** ** Fields *)
Lemma split_ws_spaces n s : split_ws (repeat 32 n ++ s) = split_ws s.
Proof. induction n as [|n IH]; [reflexivity|]. cbn [repeat app split_ws]. exact IH. Qed.
Lemma split_ws_last w : w <> [] -> inked w = true -> split_ws w = [w].
Proof.
  induction w as [|c t IH]; [congruence|]. intros _ H. cbn [inked forallb] in H. apply andb_prop in H as (Hc & Ht).
  cbn [split_ws]. apply negb_true_iff in Hc. rewrite Hc. destruct t as [|d t]; [reflexivity|].
  change (inked (d :: t) = true) in Ht. rewrite IH by (exact Ht || discriminate).
  cbn [inked forallb] in Ht. apply andb_prop in Ht as (Hd & _). apply negb_true_iff in Hd. now rewrite Hd.
Qed.
Lemma split_ws_word w s : w <> [] -> inked w = true -> split_ws (w ++ 32 :: s) = w :: split_ws s.
Proof.
  induction w as [|c t IH]; [congruence|]. intros _ H. cbn [inked forallb] in H. apply andb_prop in H as (Hc & Ht).
  cbn [app split_ws]. apply negb_true_iff in Hc. rewrite Hc. destruct t as [|d t]; [reflexivity|].
  change (inked (d :: t) = true) in Ht. rewrite IH by (exact Ht || discriminate). cbn [app].
  cbn [inked forallb] in Ht. apply andb_prop in Ht as (Hd & _). apply negb_true_iff in Hd. now rewrite Hd.
Qed.
Lemma split_ws_pad w k s : w <> [] -> inked w = true -> split_ws (pad_left k w ++ 32 :: s) = w :: split_ws s.
Proof. intros. unfold pad_left. rewrite <- app_assoc, split_ws_spaces. now apply split_ws_word. Qed.
Lemma split_ws_pad_last w k : w <> [] -> inked w = true -> split_ws (pad_left k w) = [w].
Proof. intros. unfold pad_left. rewrite split_ws_spaces. now apply split_ws_last. Qed.
Lemma inked_dec n : inked (dec n) = true. Proof. apply inked_digits, dec_digit. Qed.
Lemma inked_decz z : inked (decz z) = true.
Proof. unfold decz. destruct (_ <? _)%Z; [|apply inked_dec]. change (inked (dec (Z.abs_N z)) = true). apply inked_dec. Qed.
Lemma decz_nonempty z : decz z <> [].
Proof. unfold decz. destruct (_ <? _)%Z; [discriminate|apply dec_nonempty]. Qed.
Lemma fixed_nonempty p f : fmt_fixedF p f <> [].
Proof.
  destruct f as [q|[]|]; try discriminate. unfold fmt_fixedF, fmt_fixed. destruct (Qle_bool 0 q); [|discriminate].
  cbn [app]. intros H. apply app_eq_nil in H as (H & _). exact (dec_nonempty _ H).
Qed.
Lemma parse_dec max n : n <= max -> parse_uint max (dec n) = Some n.
Proof.
  intros H. rewrite parse_uint_digits by (apply dec_digit || apply dec_nonempty). rewrite dval_dec.
  destruct (N.leb_spec n max); [reflexivity|lia].
Qed.
Lemma parse_decz z : (-2147483648 <= z <= 2147483647)%Z -> parse_int i32_max (decz z) = Some z.
Proof.
  intros H. unfold decz. destruct (Z.ltb_spec z 0).
  - unfold parse_int, sign_of. cbn [N.eqb Pos.eqb]. destruct (dec (Z.abs_N z)) eqn:E; [exfalso; exact (dec_nonempty _ E)|].
    rewrite <- E, dec_digit, dval_dec. unfold i32_max. destruct (N.leb_spec (Z.abs_N z) (2147483647 + 1)); [f_equal; lia|lia].
  - rewrite parse_int_digits by (apply dec_digit || apply dec_nonempty). rewrite dval_dec. unfold i32_max.
    destruct (N.leb_spec (Z.abs_N z) 2147483647); [f_equal; lia|lia].
Qed.

(** ** Seconds: printed in units of 10 ns *)
Definition ticks (c : civil) : N := Z.to_N (round_even (seconds c * 100000000)).
Definition rounded (c : civil) : civil :=
  Civil (year c) (month c) (day c) (hour c) (minute c) (ticks c / 100000000) (10 * (ticks c mod 100000000)).
Lemma seconds_nonneg c : (0 <= seconds c)%Q.
Proof.
  unfold seconds. assert (A : (0 <= inject_Z (Z.of_N (second c)))%Q) by (rewrite <- (Zle_Qle 0); lia).
  assert (B : (0 <= inject_Z (Z.of_N (nano c)))%Q) by (rewrite <- (Zle_Qle 0); lia).
  assert (C : (0 <= inject_Z (Z.of_N (nano c)) / 1000000000)%Q) by (apply Qle_shift_div_l; [reflexivity|]; lra). lra.
Qed.
Lemma Qabs_pos_eq q : (0 <= q)%Q -> Qabs q = q.
Proof. destruct q as [n d]. unfold Qle, Qabs. cbn [Qnum Qden]. intros H. f_equal. lia. Qed.
Lemma seconds_parse c : exists x, parse_f64 (fmt_fixed 8 (seconds c)) = Some (Fin x) /\ (x == inject_Z (Z.of_N (ticks c)) * (1 # 100000000))%Q.
Proof.
  destruct (fmt_fixed_parse 8 (seconds c)) as (x & H & E). exists x. split; [exact H|]. rewrite E.
  pose proof (seconds_nonneg c) as P. apply Qle_bool_iff in P as P'. rewrite P'. cbn [negb qsgn].
  rewrite Qabs_pos_eq by exact P. change (p10 (Z.of_nat 8)) with (100000000%Q). change (p10 (- Z.of_nat 8)) with (1 # 100000000)%Q.
  unfold ticks. rewrite Z2N.id; [reflexivity|]. apply round_even_nonneg. lra.
Qed.
Lemma Qfloor_ticks x k : (x == inject_Z (Z.of_N k) * (1 # 100000000))%Q -> Qfloor x = Z.of_N (k / 100000000).
Proof.
  intros E. rewrite (Qfloor_comp _ _ E). unfold Qmult, inject_Z, Qfloor. cbn [Qnum Qden]. rewrite Z.mul_1_r, Pos.mul_1_l. lia.
Qed.
Lemma trunc_ticks x k : (x == inject_Z (Z.of_N k) * (1 # 100000000))%Q -> k / 100000000 <= u32_max -> trunc_u32 (Fin x) = k / 100000000.
Proof. intros E L. unfold trunc_u32, sat_u32. rewrite (Qfloor_ticks x k E), N2Z.id. lia. Qed.
Lemma nanos_ticks x k : (x == inject_Z (Z.of_N k) * (1 # 100000000))%Q -> k / 100000000 <= u32_max ->
  frac_nanos (Fin x) = 10 * (k mod 100000000).
Proof.
  intros E L. unfold frac_nanos. rewrite (trunc_ticks x k E L).
  rewrite (round_up_int (Z.of_N (10 * (k mod 100000000)))).
  - unfold sat_u32, u32_max. rewrite N2Z.id. pose proof (N.mod_lt k 100000000 ltac:(discriminate)). lia.
  - rewrite E. pose proof (N.div_mod k 100000000 ltac:(discriminate)) as D.
    assert (Z1 : (inject_Z (Z.of_N k) == 100000000 * inject_Z (Z.of_N (k / 100000000)) + inject_Z (Z.of_N (k mod 100000000)))%Q).
    { change 100000000%Q with (inject_Z 100000000). rewrite <- inject_Z_mult, <- inject_Z_plus. apply inject_Z_injective. lia. }
    rewrite Z1, N2Z.inj_mul, inject_Z_mult. change (inject_Z (Z.of_N 10)) with 10%Q. ring.
Qed.
Lemma rounded_exact c : nano c mod 10 = 0 -> nano c < 1000000000 -> rounded c = c.
Proof.
  intros M L. assert (T : ticks c = second c * 100000000 + nano c / 10).
  { unfold ticks. rewrite (round_even_int (Z.of_N (second c * 100000000 + nano c / 10))); [apply N2Z.id|].
    unfold seconds. pose proof (N.div_mod (nano c) 10 ltac:(discriminate)) as D.
    assert (Z1 : (inject_Z (Z.of_N (nano c)) == 10 * inject_Z (Z.of_N (nano c / 10)))%Q).
    { change 10%Q with (inject_Z 10). rewrite <- inject_Z_mult. apply inject_Z_injective. lia. }
    rewrite N2Z.inj_add, N2Z.inj_mul, inject_Z_plus, inject_Z_mult. change (inject_Z (Z.of_N 100000000)) with 100000000%Q.
    rewrite Z1. field. }
  unfold rounded. rewrite T. destruct c as [y mo d h mi s n]. cbn [year month day hour minute second nano] in *.
  assert (n / 10 < 100000000) by (apply N.div_lt_upper_bound; lia). f_equal.
  - rewrite N.div_add_l by discriminate. rewrite (N.div_small (n / 10)) by assumption. lia.
  - rewrite N.add_comm, N.mod_add by discriminate. rewrite N.mod_small by assumption. pose proof (N.div_mod n 10 ltac:(discriminate)). lia.
Qed.
Lemma Qle_Z z q : (inject_Z z <= q)%Q -> (z <= round_even q)%Z.
Proof.
  intros H. pose proof (round_even_err q) as E. apply Qabs_Qle_condition in E.
  destruct (Z.le_gt_cases z (round_even q)) as [|C]; [assumption|exfalso].
  assert (z - 1 >= round_even q)%Z by lia. assert (K : (inject_Z (round_even q) <= inject_Z z - 1)%Q).
  { change 1%Q with (inject_Z 1). unfold Qminus. rewrite <- inject_Z_opp, <- inject_Z_plus, <- Zle_Qle. lia. } lra.
Qed.
(** The nearest multiple of 10 ns *)
Lemma rounded_near c : let c' := rounded c in
  nano c' mod 10 = 0 /\ nano c' < 1000000000 /\
  (Z.abs (Z.of_N (second c' * 1000000000 + nano c') - Z.of_N (second c * 1000000000 + nano c)) <= 5)%Z.
Proof.
  cbn zeta. unfold rounded. cbn [second nano]. pose proof (N.div_mod (ticks c) 100000000 ltac:(discriminate)) as D.
  pose proof (N.mod_lt (ticks c) 100000000 ltac:(discriminate)) as L. split; [rewrite N.mul_comm; apply N.mod_mul; discriminate|].
  split; [lia|]. replace (ticks c / 100000000 * 1000000000 + 10 * (ticks c mod 100000000)) with (10 * ticks c) by lia.
  pose proof (round_even_err (seconds c * 100000000)) as E. apply Qabs_Qle_condition in E.
  assert (T : Z.of_N (ticks c) = round_even (seconds c * 100000000)).
  { unfold ticks. apply Z2N.id, round_even_nonneg. pose proof (seconds_nonneg c). lra. }
  assert (G : (seconds c * 100000000 * 10 == inject_Z (Z.of_N (second c * 1000000000 + nano c)))%Q).
  { unfold seconds. rewrite N2Z.inj_add, N2Z.inj_mul, inject_Z_plus, inject_Z_mult. change (inject_Z (Z.of_N 1000000000)) with 1000000000%Q. field. }
  rewrite <- T in E. assert (X : (inject_Z (10 * Z.of_N (ticks c)) - inject_Z (Z.of_N (second c * 1000000000 + nano c)) <= 5)%Q /\
    (-5 <= inject_Z (10 * Z.of_N (ticks c)) - inject_Z (Z.of_N (second c * 1000000000 + nano c)))%Q).
  { rewrite <- G, inject_Z_mult. change (inject_Z 10) with 10%Q. split; lra. }
  destruct X as (X1 & X2). change 5%Q with (inject_Z 5) in X1. change (-5)%Q with (inject_Z (-5)) in X2.
  unfold Qminus in *. rewrite <- inject_Z_opp, <- inject_Z_plus, <- Zle_Qle in X1, X2. lia.
Qed.

(** ** Reading back a written line *)
Section RT.
Variable date_ok : Z -> N -> N -> bool.
Variable utc_ok : civil -> bool.
Notation parse_epoch_line := (parse_epoch_line date_ok utc_ok).
Notation read_loop := (read_loop date_ok utc_ok).
Notation read_sp3 := (read_sp3 date_ok utc_ok).

(** A calendar time as the date crate represents one (leap seconds included) *)
Definition good_civil (c : civil) : Prop :=
  (-2147483648 <= year c <= 2147483647)%Z /\ month c <= u32_max /\ day c <= u32_max /\ date_ok (year c) (month c) (day c) = true /\
  hms_ok (hour c) (minute c) (second c) (nano c) = true.
Lemma ticks_u32 c : hms_ok (hour c) (minute c) (second c) (nano c) = true -> ticks c / 100000000 <= 61.
Proof.
  intros H. unfold hms_ok in H. pose proof (rounded_near c) as (_ & _ & R). unfold rounded in R. cbn [second nano] in R. lia.
Qed.
Lemma epoch_line_back c n : good_civil c ->
  parse_epoch_line (write_epoch_line c) n =
  if ticks c / 100000000 <? 60 then (if utc_ok (rounded c) then Ok (Epoch (rounded c) []) else Err (Record_err n BadUtc)) else Err (Record_err n BadDate).
Proof.
  intros (Y & M & D & Dk & H). unfold Sp3_Model.parse_epoch_line, write_epoch_line. change (lit "*  ") with [42; 32; 32]. cbn [app N.eqb Pos.eqb].
  change (split_ws (32 :: 32 :: ?x)) with (split_ws x).
  rewrite !split_ws_pad by (first [apply inked_decz|apply decz_nonempty|apply inked_dec|apply dec_nonempty]).
  rewrite split_ws_pad_last by (first [exact (inked_fixed 8 (Fin (seconds c)))|exact (fixed_nonempty 8 (Fin (seconds c)))]).
  rewrite parse_decz, !parse_dec by (try assumption; unfold hms_ok, u32_max in *; lia).
  destruct (seconds_parse c) as (x & -> & E). cbn [opt_field obind].
  pose proof (ticks_u32 c H) as T. unfold civil_to_time. rewrite (trunc_ticks x _ E), (nanos_ticks x _ E) by (unfold u32_max; lia).
  rewrite Dk. cbn [andb]. pose proof (N.mod_lt (ticks c) 100000000 ltac:(discriminate)) as L.
  assert (Eh : hms_ok (hour c) (minute c) (ticks c / 100000000) (10 * (ticks c mod 100000000)) = (ticks c / 100000000 <? 60)).
  { unfold hms_ok in *. apply eq_true_iff_eq. lia. }
  rewrite Eh. fold (rounded c). destruct (_ <? _); [|reflexivity]. destruct (utc_ok (rounded c)); reflexivity.
Qed.
Definition good_id (s : str) : Prop := (length s <= 3)%nat /\ solid s /\ ~ In 10 s /\ forallb is_ascii s = true.
Definition near6 (g f : fnum) : Prop := near (1 # 2000000) g f.
Definition like (p q : position) : Prop := sat p = sat q /\ near6 (px p) (px q) /\ near6 (py p) (py q) /\ near6 (pz p) (pz q) /\ near6 (clock p) (clock q).
Lemma p_line_back p n : good_id (sat p) -> exists q, parse_p_line (write_p_line p) n = Ok q /\ like q p.
Proof.
  intros (L & S & _ & _). unfold parse_p_line, write_p_line. cbn [app].
  set (tl := pad_left 14 _ ++ _). assert (Hid : length (pad_right 3 (sat p)) = 3%nat).
  { unfold pad_right. rewrite app_length, repeat_length. lia. }
  destruct (Nat.ltb_spec (length (80 :: pad_right 3 (sat p) ++ 32 :: tl)) 4) as [X|_].
  { cbn [length] in X. rewrite app_length in X. lia. }
  change (skipn 1 (80 :: ?x)) with x. change (skipn 4 (80 :: ?x)) with (skipn 3 x). rewrite firstn_app_exact, skipn_app_exact by exact Hid. rewrite trim_pad_right by exact S.
  change (32 :: tl) with (repeat 32 1 ++ tl). rewrite split_ws_spaces. unfold tl. cbn [app].
  rewrite !split_ws_pad by (first [apply inked_fixed|apply fixed_nonempty]).
  rewrite split_ws_pad_last by (first [apply inked_fixed|apply fixed_nonempty]).
  destruct (fixed_near 6 (px p)) as (x & -> & Nx). destruct (fixed_near 6 (py p)) as (y & -> & Ny).
  destruct (fixed_near 6 (pz p)) as (z & -> & Nz). destruct (fixed_near 6 (clock p)) as (k & -> & Nk).
  cbn [opt_field obind]. eexists. split; [reflexivity|]. repeat split; assumption.
Qed.
Lemma star_p p : star (write_p_line p) = false. Proof. reflexivity. Qed.
Lemma star_e c : star (write_epoch_line c) = true. Proof. reflexivity. Qed.
Lemma pline_p p : pline (write_p_line p) = true. Proof. reflexivity. Qed.
Lemma eof_p p : is_eof (write_p_line p) = false. Proof. reflexivity. Qed.
Lemma eof_e c : is_eof (write_epoch_line c) = false. Proof. reflexivity. Qed.

Definition good_line (l : str) : Prop := eol_free l /\ hd 0 l <> 42 /\ l <> lit "EOF".
Definition good_epoch (e : epoch) : Prop :=
  good_civil (time e) /\ ticks (time e) / 100000000 < 60 /\ utc_ok (rounded (time e)) = true /\ Forall (fun p => good_id (sat p)) (positions e).
Definition same_epoch (a b : epoch) : Prop := time a = rounded (time b) /\ Forall2 like (positions a) (positions b).

Lemma good_line_flags l : good_line l -> star l = false /\ is_eof l = false.
Proof.
  intros (_ & H & K). split.
  - unfold star. destruct l as [|c t]; [reflexivity|]. cbn [starts_with hd] in *. destruct (N.eqb_spec 42 c); [congruence|reflexivity].
  - unfold is_eof. destruct (str_eqb_spec l (lit "EOF")); [contradiction|reflexivity].
Qed.
Lemma read_header ls rest : Forall good_line ls -> forall no hd es,
  read_loop (ls ++ rest) no true hd es None = read_loop rest (no + N.of_nat (length ls)) true (hd ++ ls) es None.
Proof.
  induction 1 as [|l ls Hl _ IH]; intros no hd es.
  - cbn [app length N.of_nat]. now rewrite N.add_0_r, app_nil_r.
  - cbn [app Sp3_Model.read_loop]. destruct (good_line_flags l Hl) as (-> & ->). cbn [andb negb]. rewrite IH, <- app_assoc. cbn [app length].
    f_equal. lia.
Qed.
Lemma read_ps ps rest : Forall (fun p => good_id (sat p)) ps -> forall no hd es e, exists qs, Forall2 like qs ps /\
  read_loop (map write_p_line ps ++ rest) no false hd es (Some e) =
  read_loop rest (no + N.of_nat (length ps)) false hd es (Some (Epoch (time e) (positions e ++ qs))).
Proof.
  induction 1 as [|p ps Hp _ IH]; intros no hd es e.
  - exists []. split; [constructor|]. cbn [map app length N.of_nat]. rewrite N.add_0_r, app_nil_r. now destruct e.
  - destruct (p_line_back p (no + 1) Hp) as (q & Eq & Lq). destruct (IH (no + 1) hd es (push e q)) as (qs & F & R).
    exists (q :: qs). split; [now constructor|]. cbn [map app Sp3_Model.read_loop]. rewrite eof_p, star_p, pline_p. cbn [andb negb].
    rewrite Eq. cbn [obind]. rewrite R. cbn [push time positions length]. rewrite <- app_assoc. cbn [app].
    f_equal. lia.
Qed.
Lemma read_epochs bs : Forall good_epoch bs -> forall no hd es cur, exists as_, Forall2 same_epoch as_ bs /\
  read_loop (flat_map write_epoch bs ++ [lit "EOF"]) no false hd es cur = Ok (Sp3 hd (flush es cur ++ as_)).
Proof.
  induction 1 as [|b bs (Hc & Ht & Hu & Hp) _ IH]; intros no hd es cur.
  - exists []. split; [constructor|]. cbn [flat_map app Sp3_Model.read_loop]. rewrite app_nil_r. reflexivity.
  - cbn [flat_map write_epoch app]. rewrite <- app_assoc. cbn [Sp3_Model.read_loop]. rewrite eof_e, star_e. cbn [andb negb].
    rewrite epoch_line_back by exact Hc. apply N.ltb_lt in Ht. rewrite Ht, Hu. cbn [obind].
    destruct (read_ps (positions b) (flat_map write_epoch bs ++ [lit "EOF"]) Hp (no + 1) hd (flush es cur) (Epoch (rounded (time b)) [])) as (qs & F & ->).
    edestruct IH as (as_ & F2 & R). rewrite R. cbn [time positions app flush]. exists (Epoch (rounded (time b)) qs :: as_). split.
    + constructor; [split; [reflexivity|exact F]|exact F2].
    + rewrite <- app_assoc. reflexivity.
Qed.
Lemma no_nl_inked s : inked s = true -> ~ In 10 s.
Proof. intros H I. unfold inked in H. rewrite forallb_forall in H. specialize (H _ I). discriminate. Qed.
Lemma no_nl_pad k s : inked s = true -> ~ In 10 (pad_left k s).
Proof. intros H I. unfold pad_left in I. apply in_app_or in I as [I|I]; [apply repeat_spec in I; discriminate|exact (no_nl_inked _ H I)]. Qed.
Lemma last_inked s : s <> [] -> inked s = true -> last s 0 <> 13.
Proof.
  intros N H. assert (X : negb (is_ws (last s 0)) = true) by (apply (forallb_last (fun c => negb (is_ws c))); assumption). intros E. rewrite E in X. discriminate.
Qed.
Lemma last_pad k s : s <> [] -> inked s = true -> last (pad_left k s) 0 <> 13.
Proof. intros N H. unfold pad_left. rewrite last_app_r by exact N. now apply last_inked. Qed.
Lemma no_nl_app a b : ~ In 10 a -> ~ In 10 b -> ~ In 10 (a ++ b).
Proof. intros A B I. apply in_app_or in I as [I|I]; auto. Qed.
Ltac no_nl_lit := cbn; let I := fresh in intros I; repeat destruct I as [I|I]; first [discriminate I|exact I].
Lemma epoch_line_free c : eol_free (write_epoch_line c).
Proof.
  assert (X : pad_left 11 (fmt_fixed 8 (seconds c)) <> []).
  { unfold pad_left. intros X. apply app_eq_nil in X as (_ & X). exact (fixed_nonempty 8 (Fin (seconds c)) X). }
  split.
  - unfold write_epoch_line. repeat first [apply no_nl_pad; first [apply inked_decz|apply inked_dec|exact (inked_fixed 8 (Fin (seconds c)))]|apply no_nl_app|no_nl_lit].
  - unfold write_epoch_line. rewrite !app_assoc, last_app_r by exact X. apply last_pad; [exact (fixed_nonempty 8 (Fin (seconds c)))|exact (inked_fixed 8 (Fin (seconds c)))].
Qed.
Lemma p_line_free p : good_id (sat p) -> eol_free (write_p_line p).
Proof.
  intros (_ & _ & Hn & _). split.
  - unfold write_p_line. unfold pad_right. repeat first [apply no_nl_pad; apply inked_fixed|exact Hn|apply no_nl_app|no_nl_lit].
    intros I. apply repeat_spec in I. discriminate.
  - unfold write_p_line. rewrite !app_assoc, last_app_r by (unfold pad_left; intros X; apply app_eq_nil in X as (_ & X); exact (fixed_nonempty _ _ X)).
    apply last_pad; [apply fixed_nonempty|apply inked_fixed].
Qed.
Lemma written_lines r : Forall good_line (header r) -> Forall (fun e => Forall (fun p => good_id (sat p)) (positions e)) (epochs r) ->
  lines (write_sp3 r) = write_lines r.
Proof.
  intros Hh He. apply lines_written. unfold write_lines. apply Forall_app. split; [eapply Forall_impl; [|exact Hh]; now intros a (? & _)|].
  apply Forall_app. split.
  - induction He as [|e es Hp _ IH]; [constructor|]. cbn [flat_map]. apply Forall_app. split; [|exact IH].
    constructor; [apply epoch_line_free|]. apply Forall_map. eapply Forall_impl; [|exact Hp]. intros p. apply p_line_free.
  - constructor; [|constructor]. split; [|discriminate]. cbn. intros I. repeat destruct I as [I|I]; try discriminate I; exact I.
Qed.
Lemma write_read r : Forall good_line (header r) -> Forall good_epoch (epochs r) ->
  exists r', read_sp3 (write_sp3 r) = Ok r' /\ header r' = header r /\ Forall2 same_epoch (epochs r') (epochs r).
Proof.
  intros Hh He. unfold Sp3_Model.read_sp3. rewrite written_lines.
  2:{ exact Hh. }
  2:{ eapply Forall_impl; [|exact He]. now intros a (_ & _ & _ & ?). }
  unfold write_lines. rewrite read_header by exact Hh. cbn [app]. set (n := 0 + _).
  assert (X : exists as_, Forall2 same_epoch as_ (epochs r) /\
    read_loop (flat_map write_epoch (epochs r) ++ [lit "EOF"]) n true (header r) [] None = Ok (Sp3 (header r) as_)).
  { destruct He as [|e es He He']; [exists []; split; [constructor|reflexivity]|].
    destruct (read_epochs (e :: es) (Forall_cons _ He He') n (header r) [] None) as (as_ & F & R). exists as_. split; [exact F|].
    cbn [flush app] in R. rewrite <- R. cbn [flat_map write_epoch app Sp3_Model.read_loop]. rewrite star_e. reflexivity. }
  destruct X as (as_ & F & ->). eauto.
Qed.
(** An epoch whose printed seconds reach 60 makes the file unreadable. *)
Lemma write_unreadable hd a e b : Forall good_line hd -> Forall good_epoch a -> good_civil (time e) -> 60 <= ticks (time e) / 100000000 ->
  Forall (fun e => Forall (fun p => good_id (sat p)) (positions e)) (e :: b) ->
  exists n, read_sp3 (write_sp3 (Sp3 hd (a ++ e :: b))) = Err (Record_err n BadDate).
Proof.
  intros Hh Ha Hc Ht Hp. unfold Sp3_Model.read_sp3. rewrite written_lines.
  2:{ exact Hh. }
  2:{ cbn [epochs]. apply Forall_app. split; [|exact Hp]. eapply Forall_impl; [|exact Ha]. now intros x (_ & _ & _ & ?). }
  unfold write_lines. cbn [header epochs]. rewrite read_header by exact Hh. generalize (0 + N.of_nat (length hd)) as n.
  assert (G : forall a, Forall good_epoch a -> forall n ih es cur, exists m,
    read_loop (flat_map write_epoch (a ++ e :: b) ++ [lit "EOF"]) n ih hd es cur = Err (Record_err m BadDate)).
  { clear a Ha. induction 1 as [|x a (Hc2 & Ht2 & Hu2 & Hp2) _ IH]; intros n ih es cur.
    - cbn [app flat_map write_epoch Sp3_Model.read_loop]. rewrite eof_e, star_e. cbn [negb]. rewrite andb_false_r.
      rewrite epoch_line_back by exact Hc. destruct (N.ltb_spec (ticks (time e) / 100000000) 60); [lia|]. cbn [obind]. eauto.
    - cbn [app flat_map write_epoch Sp3_Model.read_loop]. rewrite eof_e, star_e. cbn [negb]. rewrite andb_false_r.
      rewrite epoch_line_back by exact Hc2. apply N.ltb_lt in Ht2. rewrite Ht2, Hu2. cbn [obind]. rewrite <- !app_assoc.
      destruct (read_ps (positions x) (flat_map write_epoch (a ++ e :: b) ++ [lit "EOF"]) Hp2 (n + 1) hd (flush es cur) (Epoch (rounded (time x)) [])) as (qs & _ & R).
      cbn [app] in R |- *. rewrite R. apply IH. }
  intros n. cbn [app]. apply G. exact Ha.
Qed.
End RT.
