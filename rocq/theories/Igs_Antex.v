(** Proofs about antenna offset files. *)
From Coq Require Import Ascii String List NArith ZArith Bool QArith Qabs Permutation Lia Lqa.
From Verif Require Import Base Text DecFloat Sort Lsk_Spec Sp3_Model Oem_Model Omm_Model Omm_Proofs Sp3_Write Ilrs_Model Nav_Model Igs_Model Igs_Proofs.
From Verif Require Ilrs_Proofs.
Import ListNotations.
Local Open Scope N_scope.

(** * Maps filled in one go *)
Lemma puts_look {V W} (g : V -> W) l : NoDup (map fst l) -> forall k m, look k (fold_left (fun m e => put (fst e) (g (snd e)) m) l m) = match look k l with Some v => Some (g v) | None => look k m end.
Proof.
  induction l as [|(a, v) l IH]; intros D k m; [reflexivity|]. cbn [fold_left fst snd]. cbn [map fst] in D. inversion D as [|? ? N D']; subst. rewrite IH by exact D'. cbn [look]. rewrite look_put.
  destruct (str_eqb_spec k a) as [->|Ne]; [|reflexivity]. apply look_none in N. now rewrite N.
Qed.
Lemma puts_keys {V W} (g : V -> W) l : forall m k, In k (map fst (fold_left (fun m e => put (fst e) (g (snd e)) m) l m)) <-> In k (map fst l) \/ In k (map fst m).
Proof. induction l as [|(a, v) l IH]; intros m k; cbn [fold_left map fst snd In]; [tauto|]. rewrite IH, put_keys. intuition congruence. Qed.
Lemma look_perm {V} (l l' : list (str * V)) : Permutation l l' -> NoDup (map fst l) -> forall k, look k l = look k l'.
Proof.
  intros P D k. assert (D' : NoDup (map fst l')) by (eapply Permutation_NoDup; [apply Permutation_map, P|exact D]).
  destruct (look k l) as [v|] eqn:E.
  - symmetry. apply look_in in E; [|exact D]. apply look_in; [exact D'|]. eapply Permutation_in; eauto.
  - symmetry. apply look_none in E. apply look_none. intros H. apply E. eapply Permutation_in; [apply Permutation_sym, Permutation_map, P|exact H].
Qed.
Lemma sorted_nodup {V} (l : list (str * V)) : NoDup (map fst l) -> NoDup (map fst (isort by_key l)).
Proof. intros D. eapply Permutation_NoDup; [apply Permutation_map, Permutation_sym, isort_perm|exact D]. Qed.
Lemma sorted_look {V} (l : list (str * V)) k : NoDup (map fst l) -> look k (isort by_key l) = look k l.
Proof. intros D. apply look_perm; [apply isort_perm|now apply sorted_nodup]. Qed.
Lemma sorted_forall {V} (P : str * V -> Prop) l : Forall P l -> Forall P (isort by_key l).
Proof. rewrite !Forall_forall. intros H x I. apply H. now apply isort_in in I. Qed.

(** * Lines *)
Definition hl (body label : str) : str := pad_right 60 body ++ label.
Lemma header_line_fit {E} body label : (length body <= 60)%nat -> @header_line E body label = Ok (hl body label ++ [10]).
Proof. intros L. unfold header_line. destruct (Nat.ltb_spec 60 (length body)); [lia|]. cbn [obind]. unfold hl. now rewrite <- app_assoc. Qed.
Lemma pad60 body : (length body <= 60)%nat -> length (pad_right 60 body) = 60%nat.
Proof. intros L. unfold pad_right. rewrite app_length, repeat_length. lia. Qed.
Definition ascii_head (s : str) : Prop := match s with c :: _ => c < 128 | [] => False end.
Lemma parts body label : (length body <= 60)%nat -> ascii_head label -> get_to (hl body label) 60 = pad_right 60 body /\ get_from (hl body label) 60 = label.
Proof.
  intros L A. pose proof (pad60 body L) as P. unfold get_to, get_from, hl. destruct label as [|c t]; [destruct A|]. cbn [ascii_head] in A.
  assert (B : (60 <=? length (pad_right 60 body ++ c :: t))%nat && boundary (pad_right 60 body ++ c :: t) 60 = true).
  { rewrite app_length. cbn [length]. rewrite P. apply andb_true_intro. split; [apply Nat.leb_le; lia|]. unfold boundary. rewrite app_length, app_nth2 by lia. cbn [length]. rewrite P. cbn [Nat.sub nth].
    apply orb_true_intro. right. apply andb_true_intro. split; [apply Nat.ltb_lt; lia|]. destruct (N.leb_spec 128 c); [lia|reflexivity]. }
  rewrite B, firstn_app, skipn_app, P. cbn [Nat.sub]. rewrite firstn_all2, skipn_all2 by lia. cbn [firstn skipn app]. now rewrite app_nil_r.
Qed.
Lemma line_start st body : (length body <= 60)%nat -> antex_line st (hl body (lit "START OF ANTENNA")) = AntState (t_cat st) None [] None.
Proof. intros L. destruct st. unfold antex_line. destruct (parts body (lit "START OF ANTENNA") L ltac:(reflexivity)) as (-> & ->). reflexivity. Qed.
Lemma line_type st body : (length body <= 60)%nat -> antex_line st (hl body (lit "TYPE / SERIAL NO")) = AntState (t_cat st) (Some (trim (pad_right 60 body))) (t_pcos st) (t_freq st).
Proof. intros L. destruct st. unfold antex_line. destruct (parts body (lit "TYPE / SERIAL NO") L ltac:(reflexivity)) as (-> & ->). reflexivity. Qed.
Lemma line_freq st body : (length body <= 60)%nat -> antex_line st (hl body (lit "START OF FREQUENCY")) = AntState (t_cat st) (t_name st) (t_pcos st) (match split_ws (pad_right 60 body) with w :: _ => Some w | [] => None end).
Proof. intros L. destruct st. unfold antex_line. destruct (parts body (lit "START OF FREQUENCY") L ltac:(reflexivity)) as (-> & ->). reflexivity. Qed.
Lemma line_pco st body : (length body <= 60)%nat -> antex_line st (hl body (lit "NORTH / EAST / UP")) =
  match t_freq st with
  | Some f => match floats (split_ws (pad_right 60 body)) with [n; e; u] => AntState (t_cat st) (t_name st) (put f (n, e, u) (t_pcos st)) (t_freq st) | _ => st end
  | None => st
  end.
Proof. intros L. destruct st. unfold antex_line. destruct (parts body (lit "NORTH / EAST / UP") L ltac:(reflexivity)) as (-> & ->). reflexivity. Qed.
Lemma line_end_freq st body : (length body <= 60)%nat -> antex_line st (hl body (lit "END OF FREQUENCY")) = AntState (t_cat st) (t_name st) (t_pcos st) None.
Proof. intros L. destruct st. unfold antex_line. destruct (parts body (lit "END OF FREQUENCY") L ltac:(reflexivity)) as (-> & ->). reflexivity. Qed.
Lemma line_end st body : (length body <= 60)%nat -> antex_line st (hl body (lit "END OF ANTENNA")) = match t_name st with Some n => AntState (put n (t_pcos st) (t_cat st)) None [] (t_freq st) | None => st end.
Proof. intros L. destruct st. unfold antex_line. destruct (parts body (lit "END OF ANTENNA") L ltac:(reflexivity)) as (-> & ->). reflexivity. Qed.

(** * What the fields read back as *)
Definition rd1 (v : fnum) : fnum := match parse_f64 (fmt_fixedF 2 v) with Some g => g | None => v end.
Definition rd (p : pco) : pco := let '(n, e, u) := p in (rd1 n, rd1 e, rd1 u).
Lemma rd1_parse v : parse_f64 (fmt_fixedF 2 v) = Some (rd1 v).
Proof. unfold rd1. destruct (fixed_near 2 v) as (g & -> & _). reflexivity. Qed.
Lemma rd1_near v : near (1 # 200) (rd1 v) v.
Proof. unfold rd1. destruct (fixed_near 2 v) as (g & -> & H). eapply near_le; [|exact H]. vm_compute. discriminate. Qed.
(** a blank is left in a field of ten *)
Definition roomy (v : fnum) : Prop := match v with Fin q => (-(9999999 # 100) <= q)%Q /\ (q <= 99999999 # 100)%Q | _ => True end.
Lemma fixed_len q B k : (Qabs q <= inject_Z B * (1 # 100))%Q -> (0 <= B < 10 ^ Z.of_nat (k + 2))%Z -> (1 <= k)%nat -> (length (dec (Z.to_N (round_even (Qabs q * p10 2)) / 100)) <= k)%nat.
Proof.
  intros H HB K. set (m := round_even (Qabs q * p10 2)). assert (M : (m <= B)%Z).
  { pose proof (round_even_err (Qabs q * p10 2)) as R. fold m in R. apply Qabs_Qle_condition in R. destruct R as (_ & R). assert (P : (p10 2 == 100)%Q) by reflexivity. rewrite P in R.
    assert (X : (inject_Z m <= inject_Z B + (1 # 2))%Q) by lra. unfold Qle in X. cbn in X. lia. }
  assert (M0 : (0 <= m)%Z) by (apply round_even_nonneg; apply Qmult_le_0_compat; [apply Qabs_nonneg|discriminate]).
  unfold dec. rewrite digits_length. apply ndig_le; [exact K|]. apply N.div_lt_upper_bound; [discriminate|].
  replace (100 * 10 ^ N.of_nat k) with (10 ^ N.of_nat (k + 2)). 2: { rewrite Nat2N.inj_add, N.pow_add_r. change (10 ^ N.of_nat 2) with 100. lia. }
  apply N2Z.inj_lt. rewrite Z2N.id by exact M0. rewrite N2Z.inj_pow, nat_N_Z. lia.
Qed.
Lemma roomy_len v : roomy v -> (length (fmt_fixedF 2 v) <= 9)%nat.
Proof.
  destruct v as [q|[]|]; cbn [roomy]; intros H; [|cbn; lia|cbn; lia|cbn; lia]. cbn [fmt_fixedF]. unfold fmt_fixed. cbv zeta. change (2 =? 0)%nat with false. cbv iota. change (Z.of_nat 2) with 2%Z. change (10 ^ N.of_nat 2) with 100.
  rewrite !app_length. cbn [length]. rewrite digits_length. destruct (Qle_bool 0 q) eqn:S.
  - apply Qle_bool_iff in S. pose proof (fixed_len q 99999999 6 ltac:(rewrite Qabs_pos by exact S; change (inject_Z 99999999 * (1 # 100))%Q with (99999999 # 100)%Q; lra) ltac:(cbn; lia) ltac:(lia)). cbn [length]. lia.
  - assert (N : (q <= 0)%Q). { destruct (Qlt_le_dec 0 q) as [L|L]; [|exact L]. apply Qlt_le_weak, Qle_bool_iff in L. congruence. }
    pose proof (fixed_len q 9999999 5 ltac:(rewrite Qabs_neg by exact N; change (inject_Z 9999999 * (1 # 100))%Q with (9999999 # 100)%Q; lra) ltac:(cbn; lia) ltac:(lia)). cbn [length]. lia.
Qed.
Lemma num10_roomy v : roomy v -> exists k, num10 v = 32 :: repeat 32 k ++ fmt_fixedF 2 v.
Proof. intros R. apply roomy_len in R. exists (9 - length (fmt_fixedF 2 v))%nat. unfold num10, pad_left. replace (10 - _)%nat with (S (9 - length (fmt_fixedF 2 v))) by lia. reflexivity. Qed.
Lemma split_pad_right w k : split_ws (pad_right k w) = split_ws w.
Proof. unfold pad_right. generalize (k - length w)%nat. intros n. induction n as [|n IH]; [now rewrite app_nil_r|]. replace (w ++ repeat 32 (S n)) with ((w ++ repeat 32 n) ++ [32]) by (rewrite <- app_assoc; f_equal; cbn [repeat]; symmetry; apply repeat_cons).
  now rewrite Ilrs_Proofs.split_ws_snoc. Qed.
Lemma pco_words n e u : roomy e -> roomy u -> split_ws (pco_body (n, e, u)) = [fmt_fixedF 2 n; fmt_fixedF 2 e; fmt_fixedF 2 u].
Proof.
  intros E U. unfold pco_body. destruct (num10_roomy e E) as (i & ->), (num10_roomy u U) as (j & ->). unfold num10.
  change ((32 :: repeat 32 i ++ fmt_fixedF 2 e) ++ 32 :: repeat 32 j ++ fmt_fixedF 2 u) with (32 :: (repeat 32 i ++ fmt_fixedF 2 e) ++ 32 :: repeat 32 j ++ fmt_fixedF 2 u).
  rewrite split_ws_pad by (first [apply fixed_nonempty|apply inked_fixed]). rewrite <- app_assoc, split_ws_spaces, split_ws_word by (first [apply fixed_nonempty|apply inked_fixed]).
  now rewrite split_ws_spaces, split_ws_last by (first [apply fixed_nonempty|apply inked_fixed]).
Qed.
Lemma num10_len v : roomy v -> length (num10 v) = 10%nat.
Proof. intros R. apply roomy_len in R. unfold num10, pad_left. rewrite app_length, repeat_length. lia. Qed.

(** * Writing *)
Definition good_name (n : str) : Prop := solid n /\ (length n <= 60)%nat /\ ~ In 10 n.
Definition good_freq (f : str) : Prop := f <> [] /\ inked f = true /\ (length f <= 57)%nat.
Definition good_pco (p : pco) : Prop := let '(n, e, u) := p in roomy n /\ roomy e /\ roomy u.
Definition good_antenna (a : antenna) : Prop := NoDup (map fst a) /\ Forall (fun e => good_freq (fst e) /\ good_pco (snd e)) a.
Definition good_catalog (c : catalog) : Prop := NoDup (map fst c) /\ Forall (fun e => good_name (fst e) /\ good_antenna (snd e)) c.
Definition freq_lines (e : str * pco) : list str := [hl (freq_body (fst e)) (lit "START OF FREQUENCY"); hl (pco_body (snd e)) (lit "NORTH / EAST / UP"); hl (freq_body (fst e)) (lit "END OF FREQUENCY")].
Definition ant_lines (e : str * antenna) : list str :=
  hl [] (lit "START OF ANTENNA") :: hl (fst e) (lit "TYPE / SERIAL NO") :: flat_map freq_lines (isort by_key (snd e)) ++ [hl [] (lit "END OF ANTENNA")].
Definition head_lines : list str := [hl (lit "     1.4            G                  ") (lit "ANTEX VERSION / SYST"); hl (lit "ANTEX                                                       ") (lit "PCV TYPE / REFANT"); hl [] (lit "END OF HEADER")].
Definition unl (ls : list str) : str := flat_map (fun l => l ++ [10]) ls.
Lemma texts_ok {A E} (f : A -> outcome str E) g l : Forall (fun x => f x = Ok (unl (g x))) l -> texts f l = Ok (unl (flat_map g l)).
Proof. induction 1 as [|x l H _ IH]; [reflexivity|]. cbn [texts flat_map]. rewrite H, IH. cbn [obind]. unfold unl. now rewrite flat_map_app. Qed.
Lemma freq_body_len f : good_freq f -> (length (freq_body f) <= 60)%nat.
Proof. intros (_ & _ & L). unfold freq_body, pad_right. rewrite !app_length, repeat_length. cbn [length lit map list_ascii_of_string]. lia. Qed.
Lemma freq_body_words f : good_freq f -> split_ws (freq_body f) = [f].
Proof. intros (N & I & _). unfold freq_body. change (lit "   ") with (repeat 32 3). rewrite split_ws_spaces, split_pad_right. now apply split_ws_last. Qed.
Lemma pco_body_len p : good_pco p -> (length (pco_body p) <= 60)%nat.
Proof. destruct p as ((n, e), u). intros (A & B & C). unfold pco_body. rewrite !app_length, !num10_len by assumption. lia. Qed.
Lemma freq_written {E} e : good_freq (fst e) -> good_pco (snd e) -> @freq_text E e = Ok (unl (freq_lines e)).
Proof.
  intros F P. unfold freq_text. rewrite !header_line_fit by (first [now apply freq_body_len|now apply pco_body_len]). cbn [obind]. unfold unl, freq_lines. cbn [flat_map]. now rewrite app_nil_r.
Qed.
Lemma antenna_written {E} e : good_name (fst e) -> good_antenna (snd e) -> @antenna_text E e = Ok (unl (ant_lines e)).
Proof.
  intros (_ & L & _) (_ & F). unfold antenna_text. rewrite !header_line_fit by (cbn [length]; lia). cbn [obind]. rewrite (texts_ok freq_text freq_lines).
  - cbn [obind]. unfold ant_lines, unl. cbn [flat_map]. rewrite flat_map_app. cbn [flat_map]. now rewrite app_nil_r.
  - apply sorted_forall. eapply Forall_impl; [|exact F]. intros x (A & B). now apply freq_written.
Qed.
Lemma written {E} c : good_catalog c -> @write_antex E c = Ok (unl (head_lines ++ flat_map ant_lines (isort by_key c))).
Proof.
  intros (_ & F). unfold write_antex. rewrite !header_line_fit by (cbn; lia). cbn [obind]. rewrite (texts_ok antenna_text ant_lines).
  - cbn [obind]. unfold unl. rewrite flat_map_app. unfold head_lines. cbn [flat_map]. now rewrite <- !app_assoc.
  - apply sorted_forall. eapply Forall_impl; [|exact F]. intros x (A & B). now apply antenna_written.
Qed.
(** the lines come back *)
Definition clean (l : str) : Prop := ~ In 10 l /\ last l 0 <> 13.
Lemma hl_clean body label : ~ In 10 body -> clean label -> label <> [] -> clean (hl body label).
Proof.
  intros B (L & R) N. unfold hl, pad_right. split; [|now rewrite last_app_r]. rewrite !in_app_iff. intros [[H|H]|H]; [tauto| |tauto]. apply repeat_spec in H. discriminate.
Qed.
Ltac out := cbn; let I := fresh in intros I; repeat destruct I as [I|I]; first [discriminate I|exact I].
Ltac cl := first [discriminate|split; [out|discriminate]|out].
Lemma lines_back ls : Forall clean ls -> text_lines (unl ls) = ls.
Proof.
  intros F. unfold text_lines, unl. rewrite split_nl_lines by (eapply Forall_impl; [|exact F]; intros l (A & _); exact A).
  induction F as [|l t (_ & L) _ IH]; [reflexivity|]. cbn [map]. rewrite IH. f_equal. unfold chop_cr. rewrite last_rev_hd in L. destruct (rev l) as [|c r]; [reflexivity|]. cbn [hd] in L. destruct (N.eq_dec c 13) as [->|N]; [congruence|].
  destruct c as [|p]; [reflexivity|]. do 4 (try (destruct p as [p|p|]; try reflexivity)). congruence.
Qed.
Lemma freq_body_nl f : good_freq f -> ~ In 10 (freq_body f).
Proof. intros (_ & I & _). unfold freq_body, pad_right. rewrite !in_app_iff. intros [H|[H|H]]; [cbn in H; intuition discriminate|now apply no_nl_inked in H|apply repeat_spec in H; discriminate]. Qed.
Lemma pco_body_nl p : ~ In 10 (pco_body p).
Proof. destruct p as ((n, e), u). unfold pco_body. apply no_nl_app; [|apply no_nl_app]; apply no_nl_pad, inked_fixed. Qed.
Lemma all_clean c : good_catalog c -> Forall clean (head_lines ++ flat_map ant_lines (isort by_key c)).
Proof.
  intros (_ & F). apply Forall_app. split; [apply Forall_cons; [apply hl_clean; cl|]; apply Forall_cons; [apply hl_clean; cl|]; apply Forall_cons; [apply hl_clean; cl|constructor]|].
  apply Forall_flat_map. apply sorted_forall. eapply Forall_impl; [|exact F]. intros x ((_ & _ & N) & (_ & A)). unfold ant_lines.
  apply Forall_cons; [apply hl_clean; cl|]. apply Forall_cons; [apply hl_clean; [exact N|cl|cl]|]. apply Forall_app. split; [|apply Forall_cons; [apply hl_clean; cl|constructor]].
  apply Forall_flat_map. apply sorted_forall. eapply Forall_impl; [|exact A]. intros y (Fq & _). unfold freq_lines.
  apply Forall_cons; [apply hl_clean; [now apply freq_body_nl|cl|cl]|]. apply Forall_cons; [apply hl_clean; [apply pco_body_nl|cl|cl]|]. apply Forall_cons; [apply hl_clean; [now apply freq_body_nl|cl|cl]|constructor].
Qed.

(** * Reading back *)
Lemma freqs_read l : Forall (fun e => good_freq (fst e) /\ good_pco (snd e)) l -> forall c n ps,
  fold_left antex_line (flat_map freq_lines l) (AntState c n ps None) = AntState c n (fold_left (fun m e => put (fst e) (rd (snd e)) m) l ps) None.
Proof.
  induction 1 as [|(f, p) l (F & P) _ IH]; intros c n ps; [reflexivity|]. cbn [flat_map]. rewrite fold_left_app. cbn [fst snd] in F, P. unfold freq_lines. cbn [fold_left fst snd].
  rewrite line_freq by now apply freq_body_len. rewrite split_pad_right, freq_body_words by exact F. cbn [t_cat t_name t_pcos].
  rewrite line_pco by now apply pco_body_len. cbn [t_freq]. rewrite split_pad_right. destruct p as ((a, b), d). destruct P as (A & B & D). rewrite pco_words by assumption.
  unfold floats. cbn [flat_map]. rewrite !rd1_parse. cbn [app t_cat t_name t_pcos t_freq]. rewrite line_end_freq by now apply freq_body_len. cbn [t_cat t_name t_pcos]. apply IH.
Qed.
Definition rda (a : antenna) : antenna := fold_left (fun m e => put (fst e) (rd (snd e)) m) (isort by_key a) [].
Lemma antennas_read l : Forall (fun e => good_name (fst e) /\ good_antenna (snd e)) l -> forall st,
  t_cat (fold_left antex_line (flat_map ant_lines l) st) = fold_left (fun m e => put (fst e) (rda (snd e)) m) l (t_cat st).
Proof.
  induction 1 as [|(n, a) l ((S & L & _) & (_ & A)) _ IH]; intros st; [reflexivity|]. cbn [flat_map]. rewrite fold_left_app. cbn [fst snd] in *. unfold ant_lines. cbn [fst snd].
  cbn [fold_left]. rewrite line_start by (cbn [length]; lia). rewrite line_type by exact L. cbn [t_cat t_pcos t_freq]. rewrite trim_pad_right by exact S. rewrite fold_left_app.
  rewrite freqs_read by now apply sorted_forall. cbn [fold_left]. rewrite line_end by (cbn [length]; lia). cbn [t_name t_pcos t_cat t_freq]. rewrite IH. reflexivity.
Qed.
Lemma read_back c : good_catalog c -> read_antex (unl (head_lines ++ flat_map ant_lines (isort by_key c))) = fold_left (fun m e => put (fst e) (rda (snd e)) m) (isort by_key c) [].
Proof.
  intros G. unfold read_antex. rewrite lines_back by now apply all_clean. destruct G as (_ & F). rewrite fold_left_app. rewrite antennas_read by now apply sorted_forall. reflexivity.
Qed.
(** an unknown label says nothing *)
Definition labels : list str := map lit ["START OF ANTENNA"; "TYPE / SERIAL NO"; "START OF FREQUENCY"; "NORTH / EAST / UP"; "END OF FREQUENCY"; "END OF ANTENNA"]%string.
Definition known (l : str) : bool := existsb (str_eqb (trim (get_from l 60))) labels.
Lemma unknown st l : known l = false -> antex_line st l = st.
Proof.
  unfold known, labels. cbn [map existsb]. destruct st. unfold antex_line. intros H. repeat (apply orb_false_iff in H; destruct H as (-> & H)). reflexivity.
Qed.
Lemma known_only ls st : fold_left antex_line ls st = fold_left antex_line (filter known ls) st.
Proof. revert st. induction ls as [|l t IH]; intros st; [reflexivity|]. cbn [fold_left filter]. destruct (known l) eqn:K; [cbn [fold_left]; apply IH|]. rewrite unknown by exact K. apply IH. Qed.
