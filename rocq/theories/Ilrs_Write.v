(** A written prediction file read back. *)
From Coq Require Import Ascii String List NArith ZArith Bool QArith Qabs Qround Lia Lqa.
From Verif Require Import Base Text DecFloat Lsk_Spec Cal_Proofs Sp3_Model Omm_Model Omm_Proofs Sp3_Write Oem_Model Oem_Epoch Ilrs_Model Ilrs_Cal Ilrs_Spec Ilrs_Proofs Ilrs_Files.
Import ListNotations.
Local Open Scope N_scope.

Definition plain (w : str) : Prop := w <> [] /\ inked w = true.
Lemma split_ws_sp ws : Forall plain ws -> split_ws (sp ws) = ws.
Proof.
  induction ws as [|w [|v ws] IH]; intros F; [reflexivity| |].
  - cbn [sp flat_map]. rewrite app_nil_r. apply split_ws_last; now inversion F as [|? ? (A & B) _].
  - inversion F as [|? ? (A & B) F']; subst. change (sp (w :: v :: ws)) with (w ++ 32 :: sp (v :: ws)). rewrite split_ws_word by assumption. now rewrite IH.
Qed.
Lemma sp_no_nl ws : Forall plain ws -> ~ In 10 (sp ws).
Proof.
  induction ws as [|w [|v ws] IH]; intros F; [intros []| |].
  - cbn [sp flat_map]. rewrite app_nil_r. apply no_nl_inked. now inversion F as [|? ? (A & B) _].
  - inversion F as [|? ? (A & B) F']; subst. change (sp (w :: v :: ws)) with (w ++ 32 :: sp (v :: ws)). intros H. apply in_app_or in H as [H|[H|H]]; [exact (no_nl_inked w B H)|discriminate|exact (IH F' H)].
Qed.
Lemma plain_decz z : plain (decz z). Proof. split; [apply decz_nonempty|apply inked_decz]. Qed.
Lemma plain_dec n : plain (dec n). Proof. split; [apply dec_nonempty|apply inked_dec]. Qed.
Lemma plain_fixed p f : plain (fmt_fixedF p f). Proof. split; [apply fixed_nonempty|apply inked_fixed]. Qed.
Lemma plain_fixedQ p q : plain (fmt_fixed p q). Proof. exact (plain_fixed p (Fin q)). Qed.
Ltac plains := repeat (apply Forall_cons; [first [assumption|apply plain_decz|apply plain_dec|apply plain_fixed|apply plain_fixedQ|split; [discriminate|reflexivity]]|]); apply Forall_nil.
Lemma parse_decz_wide max z : Z.abs_N z <= max -> parse_int max (decz z) = Some z.
Proof.
  intros H. unfold decz. destruct (Z.ltb_spec z 0).
  - unfold parse_int, sign_of. cbn [N.eqb Pos.eqb]. destruct (dec (Z.abs_N z)) eqn:E; [exfalso; exact (dec_nonempty _ E)|].
    rewrite <- E, dec_digit, dval_dec. destruct (N.leb_spec (Z.abs_N z) (max + 1)); [f_equal; lia|lia].
  - rewrite parse_int_digits by (apply dec_digit || apply dec_nonempty). rewrite dval_dec. destruct (N.leb_spec (Z.abs_N z) max); [f_equal; lia|lia].
Qed.
Lemma parse_f64_whole n : exists x, parse_f64 (dec n) = Some (Fin x) /\ (x == inject_Z (Z.of_N n))%Q.
Proof.
  pose proof (parse_f64_dec false (dec n) [] false [] 0 (dec_digit n) eq_refl (dec_nonempty n) (fun _ => eq_refl) eq_refl) as H. cbn [app length] in H. rewrite !app_nil_r in H.
  rewrite H. eexists. split; [reflexivity|]. cbn [qsgn]. rewrite dval_dec. change (p10 (0 - Z.of_nat 0)) with 1%Q. unfold QofN. ring.
Qed.

(** The words of the three kinds of line *)
Lemma words_h1 f : plain (c_version f) -> plain (c_source f) ->
  split_ws (cpf_line1 f) = [lit "H1"; lit "CPF"; c_version f; c_source f; lit "2024"; lit "01"; lit "01"; lit "00"; lit "1"] /\ ~ In 10 (cpf_line1 f).
Proof.
  intros V S. change (cpf_line1 f) with (sp [lit "H1"; lit "CPF"; c_version f; c_source f; lit "2024"; lit "01"; lit "01"; lit "00"; lit "1"]).
  split; [apply split_ws_sp|apply sp_no_nl]; plains.
Qed.
Definition name_of (f : cpf) : str := if is_nil (c_cospar f) then c_target f else c_cospar f.
Definition norad_of (f : cpf) : str := if is_nil (c_norad f) then lit "0" else c_norad f.
Definition step_of (f : cpf) : str := if fpos (c_step f) then dec (trunc_u64 (c_step f)) else lit "60".
Lemma words_h2 f : plain (name_of f) -> plain (norad_of f) -> plain (c_frame f) ->
  split_ws (cpf_line2 f) = lit "H2" :: ([name_of f; decz (c_sic f); norad_of f] ++ map lit ["2024"; "01"; "01"; "00"; "00"; "00"; "2024"; "01"; "01"; "01"; "00"; "00"]%string ++ [step_of f; lit "0"; c_frame f]) /\ ~ In 10 (cpf_line2 f).
Proof.
  intros A B C. assert (S : plain (step_of f)) by (unfold step_of; destruct (fpos _); [apply plain_dec|split; [discriminate|reflexivity]]).
  change (cpf_line2 f) with (sp (lit "H2" :: ([name_of f; decz (c_sic f); norad_of f] ++ map lit ["2024"; "01"; "01"; "00"; "00"; "00"; "2024"; "01"; "01"; "01"; "00"; "00"]%string ++ [step_of f; lit "0"; c_frame f]))).
  split; [apply split_ws_sp|apply sp_no_nl]; cbn [app map]; plains.
Qed.
Lemma words_10 e : split_ws (cpf_line10 e) = [lit "10"; lit "1"; decz (fst (mjd_sod (e_epoch e))); fmt_fixed 3 (snd (mjd_sod (e_epoch e))); lit "0";
    fmt_fixedF 3 (fmul (e_x e) 1000); fmt_fixedF 3 (fmul (e_y e) 1000); fmt_fixedF 3 (fmul (e_z e) 1000)] /\ ~ In 10 (cpf_line10 e).
Proof.
  change (cpf_line10 e) with (sp [lit "10"; lit "1"; decz (fst (mjd_sod (e_epoch e))); fmt_fixed 3 (snd (mjd_sod (e_epoch e))); lit "0";
    fmt_fixedF 3 (fmul (e_x e) 1000); fmt_fixedF 3 (fmul (e_y e) 1000); fmt_fixedF 3 (fmul (e_z e) 1000)]).
  split; [apply split_ws_sp|apply sp_no_nl]; plains.
Qed.

(** ** Epochs *)
Lemma day_upper y m d : (1 <= y <= 9999)%Z -> date_ok y m d -> (1 <= day_number y m d <= 3652059)%Z.
Proof.
  intros Y (M & D). rewrite length_before in D by lia. rewrite day_number_closed by lia. pose proof (leap_count y (proj1 Y)) as E.
  set (l := leap y) in *. clearbody l. unfold before in *.
  destruct (Z.eqb_spec m 12); destruct (Z.leb_spec m 2); destruct (Z.leb_spec (m + 1) 2); Z.to_euclidean_division_equations; lia.
Qed.
Lemma day_of_range c : dated c -> (Sp3_Model.year c <= 9999)%Z -> (first_mjd <= day_of c <= last_mjd)%Z.
Proof.
  intros (Y & D) L. pose proof (day_upper _ _ _ (conj Y L) D). unfold day_of. assert (K : day_number 1858 11 17 = 678576%Z) by (vm_compute; reflexivity).
  rewrite K. unfold first_mjd, last_mjd. lia.
Qed.
Lemma sod_ns c : (snd (mjd_sod c) == inject_Z (ns_of c) * (1 # 1000000000))%Q.
Proof.
  unfold mjd_sod, ns_of. cbn [snd]. generalize (hour c * 3600 + minute c * 60 + second c)%N. intros n. rewrite N2Z.inj_add, N2Z.inj_mul, inject_Z_plus, inject_Z_mult. change (inject_Z (Z.of_N 1000000000)) with 1000000000%Q. ring.
Qed.
Definition ms_of (c : civil) : Z := round_even (snd (mjd_sod c) * 1000).
Lemma ms_near c : (Z.abs (ms_of c * 1000000 - ns_of c) <= 500000)%Z /\ (0 <= ms_of c)%Z.
Proof.
  unfold ms_of. pose proof (round_even_err (snd (mjd_sod c) * 1000)) as E. apply Qabs_Qle_condition in E. pose proof (sod_ns c) as S.
  assert (P : (0 <= inject_Z (ns_of c))%Q) by (change 0%Q with (inject_Z 0); rewrite <- Zle_Qle; unfold ns_of; lia).
  split; [|apply round_even_nonneg; lra]. set (k := round_even _) in *.
  assert (A : (inject_Z (k * 1000000 - ns_of c) <= inject_Z 500000)%Q /\ (inject_Z (-500000) <= inject_Z (k * 1000000 - ns_of c))%Q).
  { unfold Zminus. rewrite inject_Z_plus, inject_Z_opp, inject_Z_mult. change (inject_Z 1000000) with 1000000%Q. change (inject_Z 500000) with 500000%Q. change (inject_Z (-500000)) with (-500000)%Q. rewrite S in E. split; lra. }
  rewrite <- !Zle_Qle in A. lia.
Qed.
Lemma sod_parse c : exists x, parse_f64 (fmt_fixed 3 (snd (mjd_sod c))) = Some (Fin x) /\ (x == inject_Z (ms_of c) * (1 # 1000))%Q /\ (0 <= x)%Q.
Proof.
  destruct (fmt_fixed_parse 3 (snd (mjd_sod c))) as (x & H & E). pose proof (sod_ns c) as S.
  assert (P : (0 <= snd (mjd_sod c))%Q). { rewrite S. apply Qmult_le_0_compat; [|discriminate]. change 0%Q with (inject_Z 0). rewrite <- Zle_Qle. unfold ns_of. lia. }
  apply Qle_bool_iff in P as P'. rewrite P' in E. cbn [negb qsgn] in E. rewrite Qabs_pos_eq in E by exact P.
  change (p10 (Z.of_nat 3)) with 1000%Q in E. change (p10 (- Z.of_nat 3)) with (1 # 1000)%Q in E. exists x. split; [exact H|]. split; [exact E|].
  rewrite E. pose proof (ms_near c) as (_ & K). apply Qmult_le_0_compat; [|discriminate]. change 0%Q with (inject_Z 0). rewrite <- Zle_Qle. exact K.
Qed.
Lemma ms_no_carry x k : (x == inject_Z k * (1 # 1000))%Q -> ~ carries x.
Proof.
  intros E C. unfold carries in C. pose proof (Qfloor_le x) as A. pose proof (Qlt_floor x) as B. rewrite inject_Z_plus in B. change (inject_Z 1) with 1%Q in B.
  set (g := Qfloor x) in *. clearbody g. assert (G : (inject_Z (1000 * g + 999) < inject_Z k)%Q /\ (inject_Z k < inject_Z (1000 * g + 1000))%Q).
  { rewrite !inject_Z_plus, inject_Z_mult. change (inject_Z 1000) with 1000%Q. change (inject_Z 999) with 999%Q. split; lra. }
  rewrite <- !Zlt_Qlt in G. lia.
Qed.

Section Written.
Variable utc_ok : civil -> bool.
(** the time crate accepts what lies within half a millisecond *)
Definition accepts (c : civil) : Prop := forall c', day_of c' = day_of c -> (Z.abs (ns_of c' - ns_of c) <= 500000)%Z -> nano c' < 1000000000 -> utc_ok c' = true.
Definition good_entry (e : cpf_entry) : Prop :=
  dated (e_epoch e) /\ (Sp3_Model.year (e_epoch e) <= 9999)%Z /\ (ns_of (e_epoch e) < 86399999500000)%Z /\ accepts (e_epoch e).
Definition same_entry (a b : cpf_entry) : Prop :=
  day_of (e_epoch a) = day_of (e_epoch b) /\ (Z.abs (ns_of (e_epoch a) - ns_of (e_epoch b)) <= 500000)%Z /\
  near (1 # 2000000) (e_x a) (e_x b) /\ near (1 # 2000000) (e_y a) (e_y b) /\ near (1 # 2000000) (e_z a) (e_z b).
Lemma coord f : exists g, parse_f64 (fmt_fixedF 3 (fmul f 1000)) = Some g /\ near (1 # 2000000) (fover g 1000) f.
Proof.
  destruct (fixed_near 3 (fmul f 1000)) as (g & P & N). exists g. split; [exact P|]. destruct f as [q|b|]; cbn [fmul near] in *.
  - destruct N as (x & -> & N). exists (x / 1000)%Q. split; [reflexivity|]. apply Qabs_Qle_condition in N. apply Qabs_Qle_condition.
    change ((1 # 2) * p10 (- Z.of_nat 3))%Q with (1 # 2000)%Q in N. assert (Ex : (x / 1000 == x * (1 # 1000))%Q) by field. rewrite Ex. split; lra.
  - now rewrite N.
  - now rewrite N.
Qed.
Lemma line10_back e f no : good_entry e -> exists e', same_entry e' e /\
  cpf_10 utc_ok f (tl (split_ws (cpf_line10 e))) no = Ok (push_entry f e').
Proof.
  intros (D & Y & L & A). destruct (words_10 e) as (W & _). rewrite W. cbn [tl]. unfold cpf_10, word. cbn [nth_error].
  pose proof (day_of_range _ D Y) as R. change (fst (mjd_sod (e_epoch e))) with (day_of (e_epoch e)).
  rewrite parse_decz_wide by (unfold first_mjd, last_mjd, i64_max in *; lia).
  destruct (sod_parse (e_epoch e)) as (x & -> & E & P).
  destruct (coord (e_x e)) as (gx & -> & Nx). destruct (coord (e_y e)) as (gy & -> & Ny). destruct (coord (e_z e)) as (gz & -> & Nz).
  destruct (ms_near (e_epoch e)) as (K & K0).
  assert (L2 : (x < 86400)%Q).
  { rewrite E. assert (G : (inject_Z (ms_of (e_epoch e)) < inject_Z 86400000)%Q) by (rewrite <- Zlt_Qlt; lia). change (inject_Z 86400000) with 86400000%Q in G. lra. }
  destruct (build_epoch_complete utc_ok (day_of (e_epoch e)) x R P L2 (ms_no_carry x _ E)) as (c & Dc & Ec & Nc & Nn & _ & B).
  assert (Ens : ns_of c = (ms_of (e_epoch e) * 1000000)%Z).
  { apply Qabs_Qle_condition in Nc. rewrite E in Nc. assert (G : (inject_Z (ms_of (e_epoch e) * 1000000 - 1) < inject_Z (ns_of c))%Q /\ (inject_Z (ns_of c) < inject_Z (ms_of (e_epoch e) * 1000000 + 1))%Q).
    { unfold Zminus. rewrite !inject_Z_plus, inject_Z_mult. change (inject_Z 1000000) with 1000000%Q. change (inject_Z (-(1))) with (-1)%Q. change (inject_Z 1) with 1%Q. split; lra. }
    rewrite <- !Zlt_Qlt in G. lia. }
  assert (U : utc_ok c = true) by (apply A; [exact Ec|rewrite Ens; exact K|exact Nn]). rewrite B, U. cbn [obind].
  eexists. split; [|reflexivity]. unfold same_entry. cbn [e_epoch e_x e_y e_z]. split; [exact Ec|]. split; [rewrite Ens; exact K|]. auto.
Qed.
Lemma line10_tag e : exists ws, split_ws (cpf_line10 e) = lit "10" :: ws /\ ws = tl (split_ws (cpf_line10 e)).
Proof. destruct (words_10 e) as (W & _). rewrite W. eexists. split; reflexivity. Qed.
Lemma loop_10 e rest f no : cpf_loop utc_ok f (cpf_line10 e :: rest) no = obind (cpf_10 utc_ok f (tl (split_ws (cpf_line10 e))) no) (fun f' => cpf_loop utc_ok f' rest (S no)).
Proof.
  cbn [cpf_loop]. rewrite split_ws_trim_end. destruct (line10_tag e) as (ws & W & T). rewrite W at 1.
  change (str_eqb (lit "10") (lit "H1")) with false. change (str_eqb (lit "10") (lit "H2")) with false. change (str_eqb (lit "10") (lit "10")) with true. cbn iota. now rewrite T.
Qed.
Lemma push_all (f : cpf) (es : list cpf_entry) : fold_left push_entry es f =
  Cpf (c_source f) (c_version f) (c_target f) (c_cospar f) (c_sic f) (c_norad f) (c_frame f) (c_step f) (c_entries f ++ es) (c_mode f).
Proof.
  revert f. induction es as [|e es IH]; intros f; cbn [fold_left]; [rewrite app_nil_r; now destruct f|]. rewrite IH. cbn. now rewrite <- app_assoc.
Qed.
Lemma entries_back es : Forall good_entry es -> forall f rest no, exists es', Forall2 same_entry es' es /\
  cpf_loop utc_ok f (map cpf_line10 es ++ rest) no = cpf_loop utc_ok (fold_left push_entry es' f) rest (no + length es).
Proof.
  induction 1 as [|e es G _ IH]; intros f rest no.
  - exists []. split; [constructor|]. cbn. f_equal. lia.
  - destruct (line10_back e f no G) as (e' & Se & B). destruct (IH (push_entry f e') rest (S no)) as (es' & F & Q).
    exists (e' :: es'). split; [now constructor|]. cbn [map app]. rewrite loop_10, B. cbn [obind fold_left length]. rewrite Q. f_equal. lia.
Qed.
Definition good_head (f : cpf) : Prop :=
  plain (c_version f) /\ plain (c_source f) /\ plain (name_of f) /\ plain (norad_of f) /\ plain (c_frame f) /\ (-2147483648 <= c_sic f <= 2147483647)%Z.
Definition step_word (f : cpf) : fnum := match parse_f64 (step_of f) with Some v => v | None => Fin 0 end.
Definition head_of (f : cpf) (m : pmode) : cpf := Cpf (c_source f) (c_version f) (name_of f) (name_of f) (c_sic f) (norad_of f) (c_frame f) (step_word f) [] m.
Lemma read_written f m : good_head f -> parse_cpf_with_mode utc_ok (write_cpf f) m = cpf_loop utc_ok (head_of f m) (map cpf_line10 (c_entries f) ++ [lit "99"]) 3.
Proof.
  intros (V & S & Nm & Nr & Fr & I). unfold parse_cpf_with_mode, write_cpf, unlines. destruct (words_h1 f V S) as (W1 & O1). destruct (words_h2 f Nm Nr Fr) as (W2 & O2).
  rewrite split_nl_lines.
  2: { unfold cpf_lines. constructor; [exact O1|]. constructor; [exact O2|]. apply Forall_app. split; [apply Forall_forall; intros l H; apply in_map_iff in H as (e & <- & _); apply words_10|].
       constructor; [vm_compute; intuition discriminate|constructor]. }
  unfold cpf_lines. cbn [cpf_loop]. rewrite split_ws_trim_end, W1. change (str_eqb (lit "H1") (lit "H1")) with true. cbn iota.
  rewrite split_ws_trim_end, W2. change (str_eqb (lit "H2") (lit "H1")) with false. change (str_eqb (lit "H2") (lit "H2")) with true. cbn iota.
  f_equal. unfold cpf_h1, cpf_h2, head_of. cbn [nth_error app map last c_source c_version c_target c_cospar c_sic c_norad c_frame c_step c_entries c_mode cpf_empty].
  rewrite parse_decz by exact I. reflexivity.
Qed.
Lemma loop_99 f no : cpf_loop utc_ok f [lit "99"] no = Ok f. Proof. reflexivity. Qed.
Theorem cpf_back f m : good_head f -> Forall good_entry (c_entries f) -> exists es, Forall2 same_entry es (c_entries f) /\
  parse_cpf_with_mode utc_ok (write_cpf f) m = Ok (Cpf (c_source f) (c_version f) (name_of f) (name_of f) (c_sic f) (norad_of f) (c_frame f) (step_word f) es m).
Proof.
  intros H G. rewrite read_written by exact H. destruct (entries_back _ G (head_of f m) [lit "99"] 3%nat) as (es & F & ->). exists es. split; [exact F|].
  rewrite loop_99, push_all. reflexivity.
Qed.
(** An entry in the last half millisecond of its day, or past it, stops the reader *)
Theorem cpf_last_half f m a e b : good_head f -> c_entries f = a ++ e :: b -> Forall good_entry a -> dated (e_epoch e) -> (Sp3_Model.year (e_epoch e) <= 9999)%Z ->
  (86399999500000 <= ns_of (e_epoch e))%Z -> parse_cpf_with_mode utc_ok (write_cpf f) m = Err (BadCivil (day_of (e_epoch e))).
Proof.
  intros H Es G D Y L. rewrite read_written by exact H. rewrite Es, map_app, <- app_assoc. cbn [map app].
  destruct (entries_back _ G (head_of f m) (cpf_line10 e :: map cpf_line10 b ++ [lit "99"]) 3%nat) as (es & _ & ->).
  rewrite loop_10. destruct (words_10 e) as (W & _). rewrite W. cbn [tl]. unfold cpf_10, word. cbn [nth_error].
  pose proof (day_of_range _ D Y) as R. change (fst (mjd_sod (e_epoch e))) with (day_of (e_epoch e)). rewrite parse_decz_wide by (unfold first_mjd, last_mjd, i64_max in *; lia).
  destruct (sod_parse (e_epoch e)) as (x & -> & E & P).
  destruct (coord (e_x e)) as (gx & -> & Nx). destruct (coord (e_y e)) as (gy & -> & Ny). destruct (coord (e_z e)) as (gz & -> & Nz).
  rewrite build_epoch_refused; [reflexivity|exact R|exact P|]. left. rewrite E.
  assert (K : (86400000 <= ms_of (e_epoch e))%Z).
  { unfold ms_of. pose proof (sod_ns (e_epoch e)) as S. destruct (Z.eq_dec (ns_of (e_epoch e)) 86399999500000) as [Q|Q].
    - assert (T : (snd (mjd_sod (e_epoch e)) * 1000 == 172799999 # 2)%Q) by (rewrite S, Q; reflexivity).
      assert (T2 : round_even (snd (mjd_sod (e_epoch e)) * 1000) = round_even (172799999 # 2)).
      { unfold round_even. rewrite (Qfloor_comp _ _ T). cbn zeta. rewrite T. reflexivity. }
      rewrite T2. vm_compute. discriminate.
    - pose proof (ms_near (e_epoch e)) as (N & _). unfold ms_of in N. lia. }
  rewrite Zle_Qle in K. change (inject_Z 86400000) with 86400000%Q in K. lra.
Qed.
End Written.
