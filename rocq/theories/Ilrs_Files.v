(** Whole laser ranging files: what is read, in which mode, and what a written prediction reads as. *)
From Coq Require Import Ascii String List NArith ZArith Bool QArith Qabs Qround Lia Lqa.
From Verif Require Import Base Text DecFloat Lsk_Spec Cal_Proofs Sp3_Model Omm_Model Omm_Proofs Sp3_Write Oem_Model Oem_Epoch Ilrs_Model Ilrs_Cal Ilrs_Spec Ilrs_Proofs.
Import ListNotations.
Local Open Scope N_scope.

(** ** Predictions *)
Section Cpf.
Variable utc_ok : civil -> bool.
Notation cpf_loop := (cpf_loop utc_ok).
Notation cpf_10 := (cpf_10 utc_ok).

Lemma km_fover f : km_of f (fover f 1000).
Proof. destruct f as [q|[]|]; try reflexivity. cbn. eexists. split; [reflexivity|]. field. Qed.
Lemma lit_ne a b : str_eqb (lit a) (lit b) = false -> lit a <> lit b.
Proof. intros H E. destruct (str_eqb_spec (lit a) (lit b)); congruence. Qed.
Lemma cpf_10_eq f l ws no : split_ws l = lit "10" :: ws ->
  (readable10 l = true /\ exists mjd sod x y z, record10 l mjd sod x y z /\
     cpf_10 f ws no = obind (build_epoch utc_ok mjd sod) (fun ep => Ok (push_entry f (Entry ep (fover x 1000) (fover y 1000) (fover z 1000))))) \/
  (readable10 l = false /\ exists e, e = NoMjd no \/ e = NoSod no \/ e = NoXyz no) /\
     exists e, (e = NoMjd no \/ e = NoSod no \/ e = NoXyz no) /\ cpf_10 f ws no = if is_strict (c_mode f) then Err e else Ok f.
Proof.
  intros E. unfold readable10, record10, Ilrs_Model.cpf_10, word. rewrite (tagged_cons "10" _ _ _ E), E. change (str_eqb (lit "10") (lit "10")) with true. cbn [andb].
  destruct ws as [|d ws]; [right; cbn; eauto 10|]. destruct ws as [|mw ws]; [right; cbn; eauto 10|].
  cbn [nth_error]. destruct (parse_int i64_max mw) as [mjd|] eqn:Em.
  2: { right. split; [split; [repeat (destruct ws as [|? ws]; try reflexivity); reflexivity|eauto]|]. exists (NoMjd no). eauto. }
  destruct ws as [|sw ws]; [right; cbn; eauto 10|]. cbn [nth_error]. destruct (parse_f64 sw) as [sod|] eqn:Es.
  2: { right. split; [split; [repeat (destruct ws as [|? ws]; try reflexivity); reflexivity|eauto]|]. exists (NoSod no). eauto. }
  destruct ws as [|k ws]; [right; cbn; eauto 10|]. destruct ws as [|xw ws]; [right; cbn; eauto 10|]. cbn [nth_error]. destruct (parse_f64 xw) as [x|] eqn:Ex.
  2: { right. split; [split; [repeat (destruct ws as [|? ws]; try reflexivity); reflexivity|eauto]|]. exists (NoXyz no). eauto. }
  destruct ws as [|yw ws]; [right; cbn; eauto 10|]. cbn [nth_error]. destruct (parse_f64 yw) as [y|] eqn:Ey.
  2: { right. split; [split; [repeat (destruct ws as [|? ws]; try reflexivity); reflexivity|eauto]|]. exists (NoXyz no). eauto. }
  destruct ws as [|zw ws]; [right; cbn; eauto 10|]. cbn [nth_error]. destruct (parse_f64 zw) as [z|] eqn:Ez.
  2: { right. split; [split; [reflexivity|eauto]|]. exists (NoXyz no). eauto. }
  left. split; [reflexivity|]. exists mjd, sod, x, y, z. split; [|reflexivity]. exists d, mw, sw, k, xw, yw, zw, ws. auto 10.
Qed.
Lemma cpf_10_entry f l ws no f' : split_ws l = lit "10" :: ws -> cpf_10 f ws no = Ok f' ->
  (readable10 l = true /\ exists e, f' = push_entry f e /\ entry_of l e) \/ (readable10 l = false /\ f' = f /\ c_mode f = Permissive).
Proof.
  intros E H. destruct (cpf_10_eq f l ws no E) as [(R & mjd & sod & x & y & z & Rc & Q)|((R & _) & e & _ & Q)]; rewrite Q in H.
  - left. split; [exact R|]. destruct (build_epoch utc_ok mjd sod) as [ep| |] eqn:B; try discriminate. cbn [obind] in H.
    exists (Entry ep (fover x 1000) (fover y 1000) (fover z 1000)). split; [congruence|]. exists mjd, sod, x, y, z. split; [exact Rc|].
    cbn [e_x e_y e_z e_epoch]. repeat (split; [apply km_fover|]). intros q -> P Rg. now apply (build_epoch_sound utc_ok).
  - right. destruct (c_mode f) eqn:M; cbn in H; [discriminate|]. split; [exact R|]. split; [congruence|reflexivity].
Qed.
Ltac tag_cases E :=
  match type of E with split_ws ?l = ?t :: ?ws =>
    rewrite ?(tagged_cons "99" l t ws E), ?(tagged_cons "10" l t ws E) end.
Lemma readable_tag l : tagged "10" l = false -> readable10 l = false.
Proof. unfold readable10. now intros ->. Qed.
Lemma cpf_entries ls : forall f no f', cpf_loop f ls no = Ok f' ->
  c_mode f' = c_mode f /\ exists es, c_entries f' = c_entries f ++ es /\ Forall2 entry_of (filter readable10 (before_end ls)) es.
Proof.
  induction ls as [|l ls IH]; intros f no f' H.
  - cbn in H. injection H as <-. split; [reflexivity|]. exists []. rewrite app_nil_r. split; [reflexivity|constructor].
  - cbn [Ilrs_Model.cpf_loop] in H. rewrite split_ws_trim_end in H. cbn [before_end].
    destruct (split_ws l) as [|tag ws] eqn:E.
    { assert (T : tagged "99" l = false) by (unfold tagged; now rewrite E). rewrite T. cbn [filter].
      rewrite readable_tag by (unfold tagged; now rewrite E). now apply (IH _ _ _ H). }
    rewrite (tagged_cons "99" l tag ws E).
    destruct (str_eqb_spec tag (lit "H1")) as [->|_].
    { change (str_eqb (lit "H1") (lit "99")) with false. cbn [filter]. rewrite readable_tag by (now rewrite (tagged_cons "10" l _ ws E)). exact (IH _ _ _ H). }
    destruct (str_eqb_spec tag (lit "H2")) as [->|_].
    { change (str_eqb (lit "H2") (lit "99")) with false. cbn [filter]. rewrite readable_tag by (now rewrite (tagged_cons "10" l _ ws E)). exact (IH _ _ _ H). }
    destruct (str_eqb_spec tag (lit "10")) as [->|N10].
    { change (str_eqb (lit "10") (lit "99")) with false. cbn [filter]. destruct (cpf_10 f ws no) as [f1| |] eqn:C; try discriminate. cbn [obind] in H.
      destruct (cpf_10_entry f l ws no f1 E C) as [(R & e & -> & En)|(R & -> & _)]; rewrite R.
      - destruct (IH _ _ _ H) as (M & es & Ee & F). split; [exact M|]. exists (e :: es). cbn [push_entry c_entries] in Ee. rewrite Ee, <- app_assoc. split; [reflexivity|]. now constructor.
      - exact (IH _ _ _ H). }
    destruct (str_eqb_spec tag (lit "99")) as [->|_].
    { injection H as <-. split; [reflexivity|]. exists []. rewrite app_nil_r. split; [reflexivity|constructor]. }
    cbn [filter]. rewrite readable_tag; [exact (IH _ _ _ H)|]. rewrite (tagged_cons "10" l tag ws E). destruct (str_eqb_spec tag (lit "10")); [contradiction|reflexivity].
Qed.

(** Strict reading accepts no incomplete record and names the first *)
Lemma cpf_strict_ok ls : forall f no f', c_mode f = Strict -> cpf_loop f ls no = Ok f' ->
  Forall (fun l => tagged "10" l = true -> readable10 l = true) (before_end ls).
Proof.
  induction ls as [|l ls IH]; intros f no f' M H; [constructor|]. cbn [Ilrs_Model.cpf_loop] in H. rewrite split_ws_trim_end in H. cbn [before_end].
  destruct (split_ws l) as [|tag ws] eqn:E.
  { assert (T : tagged "99" l = false) by (unfold tagged; now rewrite E). rewrite T. constructor; [unfold tagged; rewrite E; discriminate|]. exact (IH _ _ _ M H). }
  rewrite (tagged_cons "99" l tag ws E).
  destruct (str_eqb_spec tag (lit "H1")) as [->|_].
  { change (str_eqb (lit "H1") (lit "99")) with false. constructor; [rewrite (tagged_cons "10" l _ ws E); discriminate|]. refine (IH _ _ _ _ H). exact M. }
  destruct (str_eqb_spec tag (lit "H2")) as [->|_].
  { change (str_eqb (lit "H2") (lit "99")) with false. constructor; [rewrite (tagged_cons "10" l _ ws E); discriminate|]. refine (IH _ _ _ _ H). exact M. }
  destruct (str_eqb_spec tag (lit "10")) as [->|N10].
  { change (str_eqb (lit "10") (lit "99")) with false. destruct (cpf_10 f ws no) as [f1| |] eqn:C; try discriminate. cbn [obind] in H.
    destruct (cpf_10_entry f l ws no f1 E C) as [(R & e & -> & En)|(R & _ & M2)]; [|congruence]. constructor; [intros _; exact R|]. refine (IH _ _ _ _ H). exact M. }
  destruct (str_eqb_spec tag (lit "99")) as [->|_]; [constructor|].
  constructor; [|exact (IH _ _ _ M H)]. rewrite (tagged_cons "10" l tag ws E). destruct (str_eqb_spec tag (lit "10")); [contradiction|discriminate].
Qed.
Definition located (e : cpf_err) : option nat := match e with NoMjd n | NoSod n | NoXyz n => Some n | _ => None end.
Lemma build_unlocated mjd sod e : build_epoch utc_ok mjd sod = Err e -> located e = None.
Proof.
  unfold build_epoch. destruct (overflows mjd); [discriminate|]. destruct (fliegel mjd) as ((y, m), d). cbn zeta.
  destruct (_ && _); [destruct (utc_ok _); [discriminate|]|]; intros [= <-]; reflexivity.
Qed.
Lemma cpf_strict_err ls : forall f no e n, c_mode f = Strict -> cpf_loop f ls no = Err e -> located e = Some n ->
  exists a l b, ls = a ++ l :: b /\ n = (no + length a)%nat /\ tagged "10" l = true /\ readable10 l = false /\ before_end a = a /\
    Forall (fun l' => tagged "10" l' = true -> readable10 l' = true) a.
Proof.
  assert (More : forall l ls0 n no, tagged "99" l = false -> (tagged "10" l = true -> readable10 l = true) ->
    (exists a l0 b, ls0 = a ++ l0 :: b /\ n = (S no + length a)%nat /\ tagged "10" l0 = true /\ readable10 l0 = false /\ before_end a = a /\ Forall (fun l' => tagged "10" l' = true -> readable10 l' = true) a) ->
    exists a l0 b, l :: ls0 = a ++ l0 :: b /\ n = (no + length a)%nat /\ tagged "10" l0 = true /\ readable10 l0 = false /\ before_end a = a /\ Forall (fun l' => tagged "10" l' = true -> readable10 l' = true) a).
  { intros l ls0 n no T9 T1 (a & l0 & b & -> & -> & A & B & C & D). exists (l :: a), l0, b. repeat split; try assumption. cbn [length]. lia. cbn [before_end]. now rewrite T9, C. now constructor. }
  induction ls as [|l ls IH]; intros f no e n M H Ln; [discriminate|]. cbn [Ilrs_Model.cpf_loop] in H. rewrite split_ws_trim_end in H.
  destruct (split_ws l) as [|tag ws] eqn:E.
  { apply More; [unfold tagged; now rewrite E|unfold tagged; rewrite E; discriminate|]. exact (IH _ _ _ _ M H Ln). }
  destruct (str_eqb_spec tag (lit "H1")) as [->|_].
  { apply More; [now rewrite (tagged_cons "99" l _ ws E)|rewrite (tagged_cons "10" l _ ws E); discriminate|]. refine (IH _ _ _ _ _ H Ln). exact M. }
  destruct (str_eqb_spec tag (lit "H2")) as [->|_].
  { apply More; [now rewrite (tagged_cons "99" l _ ws E)|rewrite (tagged_cons "10" l _ ws E); discriminate|]. refine (IH _ _ _ _ _ H Ln). exact M. }
  destruct (str_eqb_spec tag (lit "10")) as [->|N10].
  { destruct (cpf_10_eq f l ws no E) as [(R & mjd & sod & x & y & z & Rc & Q)|((R & _) & e0 & He & Q)]; rewrite Q in H.
    - destruct (build_epoch utc_ok mjd sod) as [ep|e1|] eqn:B; cbn [obind] in H; [|injection H as <-; rewrite (build_unlocated _ _ _ B) in Ln; discriminate|discriminate].
      apply More; [now rewrite (tagged_cons "99" l _ ws E)|intros _; exact R|]. refine (IH _ _ _ _ _ H Ln). exact M.
    - rewrite M in H. cbn [is_strict obind] in H. injection H as <-. exists [], l, ls. split; [reflexivity|]. split; [|split; [now rewrite (tagged_cons "10" l _ ws E)|split; [exact R|split; [reflexivity|constructor]]]].
      cbn [length]. destruct He as [->|[->| ->]]; injection Ln as <-; lia. }
  destruct (str_eqb_spec tag (lit "99")) as [->|N99]; [discriminate|].
  apply More; [rewrite (tagged_cons "99" l tag ws E); destruct (str_eqb_spec tag (lit "99")); [contradiction|reflexivity]| |exact (IH _ _ _ _ M H Ln)].
  rewrite (tagged_cons "10" l tag ws E). destruct (str_eqb_spec tag (lit "10")); [contradiction|discriminate].
Qed.

(** Permissive reading is strict reading of the file without its incomplete records *)
Definition cpf_remode (m : pmode) (f : cpf) : cpf :=
  Cpf (c_source f) (c_version f) (c_target f) (c_cospar f) (c_sic f) (c_norad f) (c_frame f) (c_step f) (c_entries f) m.
Definition omap {A B E} (g : A -> B) (o : outcome A E) : outcome B E := match o with Ok a => Ok (g a) | Err e => Err e | Panic => Panic end.
Definition complete10 (l : str) : bool := negb (tagged "10" l) || readable10 l.
Lemma cpf_permissive ls : forall f no no', cpf_loop (cpf_remode Permissive f) ls no = omap (cpf_remode Permissive) (cpf_loop (cpf_remode Strict f) (filter complete10 ls) no').
Proof.
  induction ls as [|l ls IH]; intros f no no'; [reflexivity|]. cbn [Ilrs_Model.cpf_loop filter]. rewrite split_ws_trim_end. unfold complete10 at 1.
  destruct (split_ws l) as [|tag ws] eqn:E.
  { assert (T : tagged "10" l = false) by (unfold tagged; now rewrite E). rewrite T. cbn [negb orb Ilrs_Model.cpf_loop]. rewrite split_ws_trim_end, E. apply IH. }
  rewrite (tagged_cons "10" l tag ws E).
  destruct (str_eqb_spec tag (lit "H1")) as [->|N1].
  { change (str_eqb (lit "H1") (lit "10")) with false. cbn [negb orb Ilrs_Model.cpf_loop]. rewrite split_ws_trim_end, E. change (str_eqb (lit "H1") (lit "H1")) with true. cbn iota. apply (IH (cpf_h1 f ws)). }
  destruct (str_eqb_spec tag (lit "H2")) as [->|N2].
  { change (str_eqb (lit "H2") (lit "10")) with false. cbn [negb orb Ilrs_Model.cpf_loop]. rewrite split_ws_trim_end, E. change (str_eqb (lit "H2") (lit "H1")) with false. change (str_eqb (lit "H2") (lit "H2")) with true. cbn iota. apply (IH (cpf_h2 f ws)). }
  destruct (str_eqb_spec tag (lit "10")) as [->|N10].
  { cbn [negb orb]. destruct (cpf_10_eq (cpf_remode Permissive f) l ws no E) as [(R & mjd & sod & x & y & z & Rc & Q)|((R & _) & e0 & He & Q)]; rewrite Q, R.
    - cbn [Ilrs_Model.cpf_loop]. rewrite split_ws_trim_end, E. change (str_eqb (lit "10") (lit "H1")) with false. change (str_eqb (lit "10") (lit "H2")) with false. change (str_eqb (lit "10") (lit "10")) with true. cbn iota.
      destruct (cpf_10_eq (cpf_remode Strict f) l ws no' E) as [(_ & mjd' & sod' & x' & y' & z' & Rc' & Q')|((R' & _) & _)]; [|congruence].
      rewrite Q'. destruct Rc as (d & mw & sw & k & xw & yw & zw & r & W & A1 & A2 & A3 & A4 & A5). destruct Rc' as (d' & mw' & sw' & k' & xw' & yw' & zw' & r' & W' & B1 & B2 & B3 & B4 & B5).
      rewrite W in W'. injection W' as <- <- <- <- <- <- <- <-. assert (mjd' = mjd) by congruence. assert (sod' = sod) by congruence. assert (x' = x) by congruence. assert (y' = y) by congruence. assert (z' = z) by congruence. subst.
      destruct (build_epoch utc_ok mjd sod) as [ep| |]; cbn [obind omap]; [|reflexivity|reflexivity]. apply (IH (push_entry f (Entry ep (fover x 1000) (fover y 1000) (fover z 1000)))).
    - cbn [is_strict c_mode cpf_remode obind]. apply IH. }
  cbn [negb orb Ilrs_Model.cpf_loop]. rewrite split_ws_trim_end, E.
  destruct (str_eqb_spec tag (lit "H1")); [contradiction|]. destruct (str_eqb_spec tag (lit "H2")); [contradiction|]. destruct (str_eqb_spec tag (lit "10")); [contradiction|].
  destruct (str_eqb_spec tag (lit "99")); [reflexivity|]. apply IH.
Qed.
End Cpf.

(** ** Observations *)
Section Crd.
Variable utc_ok : civil -> bool.
Notation crd_loop := (crd_loop utc_ok).
Lemma last_with_step {A} (r : str -> option A) pre o l : last_with r pre o -> last_with r (pre ++ [l]) (match r l with Some v => Some v | None => o end).
Proof.
  intros H. destruct (r l) as [v|] eqn:E.
  - right. exists pre, l, [], v. auto.
  - destruct H as [(-> & F)|(a & l' & b & v & -> & Ev & -> & F)].
    + left. split; [reflexivity|]. apply Forall_app. split; [exact F|]. now constructor.
    + right. exists a, l', (b ++ [l]), v. split; [now rewrite <- app_assoc|]. split; [exact Ev|]. split; [reflexivity|]. apply Forall_app. split; [exact F|]. now constructor.
Qed.
Lemma session_line l ws : split_ws l = lit "H4" :: ws -> session_day utc_ok ws = session_on utc_ok l.
Proof.
  intros E. unfold session_day, session_on, word. rewrite E. change (str_eqb (lit "H4") (lit "H4")) with true. cbn iota.
  assert (Z0 : forall y d, ymd_ok y 0 d = false) by (intros; unfold ymd_ok; cbn; now rewrite andb_false_r).
  assert (Z1 : forall y m, ymd_ok y m 0 = false) by (intros; unfold ymd_ok; cbn; rewrite !andb_false_r; reflexivity).
  destruct ws as [|k ws]; [reflexivity|]. destruct ws as [|yw ws]; [reflexivity|].
  destruct ws as [|mw ws]; [cbn [nth_error orn]; now rewrite Z0|]. destruct ws as [|dw ws]; cbn [nth_error orn].
  { now rewrite Z1. }
  destruct (parse_uint u32_max mw) as [m|]; cbn [orn]; [|now rewrite Z0]. destruct (parse_uint u32_max dw) as [d|]; cbn [orn]; [|now rewrite Z1]. reflexivity.
Qed.
Lemma trunc_i64_fin q : (0 <= q)%Q -> (q <= 10000000000000)%Q -> trunc_i64 (Fin q) = Qfloor q.
Proof.
  intros P L. unfold trunc_i64. cbn zeta. apply Qle_bool_iff in P as P'. rewrite P'. pose proof (floor_range q P).
  change 10000000000000%Q with (inject_Z 10000000000000) in L. pose proof (Qfloor_resp_le _ _ L) as G. rewrite Qfloor_Z in G. lia.
Qed.
Lemma round_frac q : (0 <= q)%Q -> (q < 4294967296)%Q -> round_u32 (fmul (fplus (- inject_Z (Qfloor q)) (Fin q)) 1000000000) = frac_nanos (Fin q).
Proof.
  intros P L. unfold frac_nanos. rewrite trunc_fin by assumption. cbn [fplus fmul round_u32]. f_equal. unfold round_up. apply Qfloor_comp. ring.
Qed.
Lemma session_valid l y m d : session_on utc_ok l = Some (y, m, d) -> ymd_ok y m d = true.
Proof.
  unfold session_on. destruct (split_ws l) as [|t [|k [|yw [|mw [|dw ws]]]]]; try discriminate. destruct (str_eqb t _); [|discriminate].
  destruct (parse_uint _ mw) as [m'|]; [|discriminate]. destruct (parse_uint _ dw) as [d'|]; [|discriminate]. cbn zeta.
  destruct (_ && _) eqn:A; [|discriminate]. intros H. apply andb_true_iff in A as (A & _).
  injection H as H1 H2 H3. rewrite <- H1, <- H2, <- H3. exact A.
Qed.
Lemma point_epoch_says day sod : (forall y m d, day = Some (y, m, d) -> ymd_ok y m d = true) ->
  epoch_says utc_ok day sod (match day with Some d => point_epoch utc_ok d sod | None => None end).
Proof.
  intros V. destruct day as [((y, m), d)|]; [|reflexivity]. specialize (V y m d eq_refl). cbn [epoch_says]. intros q -> P.
  unfold point_epoch. rewrite V. cbn [andb]. split.
  - intros G L. assert (G2 : (86400 <= Qfloor q)%Z) by (change 86400%Q with (inject_Z 86400) in G; pose proof (Qfloor_resp_le _ _ G) as H; now rewrite Qfloor_Z in H).
    rewrite trunc_i64_fin by assumption. cbn [hour minute second nano].
    assert (L2 : (Qfloor q <= 10000000000000)%Z) by (change 10000000000000%Q with (inject_Z 10000000000000) in L; pose proof (Qfloor_resp_le _ _ L) as H; now rewrite Qfloor_Z in H).
    assert (Hh : u32_of (Z.quot (Qfloor q) 3600) = Z.to_N (Qfloor q / 3600)).
    { rewrite Z.quot_div_nonneg by lia. apply u32_id. clear - G2 L2. Z.to_euclidean_division_equations. lia. }
    rewrite Hh. match goal with |- context [hms_ok ?h ?a ?b ?c] => assert (K : hms_ok h a b c = false) end; [|rewrite K; reflexivity].
    unfold hms_ok. assert (K : (Z.to_N (Qfloor q / 3600) <? 24) = false); [|rewrite K; reflexivity]. apply N.ltb_ge. clear - G2. Z.to_euclidean_division_equations. lia.
  - intros L NC. assert (L2 : (q < 4294967296)%Q) by lra. assert (L3 : (q <= 10000000000000)%Q) by lra.
    rewrite trunc_i64_fin, round_frac by assumption. pose proof (floor_range q P) as F0. pose proof (floor_bound q 86400 L) as F1.
    set (w := Qfloor q) in *.
    assert (Hh : u32_of (Z.quot w 3600) = Z.to_N w / 3600). { rewrite Z.quot_div_nonneg, u32_id by (try lia; clear - F0 F1; Z.to_euclidean_division_equations; lia). clear - F0. zify. Z.to_euclidean_division_equations. lia. }
    assert (Hm : u32_of (Z.quot (Z.rem w 3600) 60) = Z.to_N w mod 3600 / 60).
    { rewrite Z.rem_mod_nonneg by lia. rewrite Z.quot_div_nonneg, u32_id by (try lia; clear - F0 F1; Z.to_euclidean_division_equations; lia). clear - F0. zify. Z.to_euclidean_division_equations. lia. }
    assert (Hs : u32_of (Z.rem w 60) = Z.to_N w mod 60). { rewrite Z.rem_mod_nonneg by lia. rewrite u32_id by (clear - F0 F1; Z.to_euclidean_division_equations; lia). clear - F0. zify. Z.to_euclidean_division_equations. lia. }
    rewrite Hh, Hm, Hs. cbn [hour minute second nano]. assert (Et : trunc_u32 (Fin q) = Z.to_N w) by (pose proof (trunc_fin q P L2); fold w in H; lia).
    assert (N1 : frac_nanos (Fin q) < 1000000000). { destruct (nanos_fin q P L2) as (_ & F). assert (frac_nanos (Fin q) <> 1000000000) by (now rewrite <- nanos_carry). lia. }
    assert (T : Z.to_N w < 86400) by lia.
    assert (K : hms_ok (Z.to_N w / 3600) (Z.to_N w mod 3600 / 60) (Z.to_N w mod 60) (frac_nanos (Fin q)) = true).
    { unfold hms_ok. destruct (hms_split (Z.to_N w)) as (_ & H1 & H2). rewrite !andb_true_iff, orb_true_iff, !N.ltb_lt.
      assert (Z.to_N w / 3600 < 24) by (apply N.div_lt_upper_bound; lia). repeat split; try assumption; try lia. }
    rewrite K. eexists. split; [|split; [|split; [|split; [|reflexivity]]]]; try reflexivity.
    pose proof (nanos_sum q P L2) as S. rewrite Et in S. unfold ns_of. cbn [hour minute second nano]. destruct (hms_split (Z.to_N w)) as (Ew & _). rewrite <- Ew. exact S.
Qed.
Lemma half_fover t : half_path t (fover (fmul t c_light) 2).
Proof. destruct t as [q|[]|]; try reflexivity. cbn. eexists. split; [reflexivity|]. unfold c_light. field. Qed.
Lemma point_of_says pre l t ws day cfg sod tof : split_ws l = t :: ws -> flight l = Some (sod, tof) ->
  last_with (session_on utc_ok) pre day -> last_with config_named pre cfg ->
  point_says utc_ok pre l (point_of utc_ok day (match cfg with Some c => c | None => lit "std" end) sod tof (skipn 2 ws)).
Proof.
  intros E F D C. unfold point_says, flag8, number. rewrite E. cbn [point_of p_sod p_tof p_range p_epoch p_sys p_event p_filter p_quality p_format p_raws p_rms p_rate].
  assert (W : exists a b r, ws = a :: b :: r).
  { unfold flight in F. rewrite E in F. destruct ws as [|a [|b r]]; try discriminate. eauto. }
  destruct W as (a & b & r & ->). cbn [skipn]. unfold word, orn.
  split; [exact F|]. split; [apply half_fover|]. split.
  { exists day. split; [exact D|]. apply point_epoch_says. intros y m d ->. destruct D as [(D & _)|(a0 & l0 & b0 & v & _ & Ev & Eq & _)]; [discriminate|]. injection Eq as <-. now apply session_valid in Ev. }
  split. { exists cfg. split; [exact C|]. cbn [nth_error]. now destruct r. }
  repeat match goal with |- context [nth_error (t :: a :: b :: r) (S (S (S ?k)))] => change (nth_error (t :: a :: b :: r) (S (S (S k)))) with (nth_error r k) end.
  do 4 (split; [match goal with |- context [nth_error r ?k] => destruct (nth_error r k); reflexivity end|]). split; [reflexivity|]. split; [|reflexivity].
  destruct (nth_error r 6) as [w|]; [|reflexivity]. destruct (parse_f64 w) as [[ps|[]|]|]; try reflexivity.
  cbn [fmul fover]. eexists. split; [reflexivity|]. unfold c_light. field.
Qed.
Definition sys_of (cfg : option str) : str := match cfg with Some c => c | None => lit "std" end.
Lemma flight_words l t ws : split_ws l = t :: ws -> flight l = match word parse_f64 ws 0, word parse_f64 ws 1 with Some s, Some v => Some (s, v) | _, _ => None end.
Proof.
  intros E. unfold flight, word. rewrite E. destruct ws as [|a [|b r]]; cbn [nth_error]; [reflexivity|destruct (parse_f64 a); reflexivity|reflexivity].
Qed.
Lemma not_session l t ws : split_ws l = t :: ws -> t <> lit "H4" -> session_on utc_ok l = None.
Proof. intros E N. unfold session_on. rewrite E. destruct ws as [|? [|? [|? [|? ?]]]]; try reflexivity. destruct (str_eqb_spec t (lit "H4")); [contradiction|reflexivity]. Qed.
Lemma not_config l t ws : split_ws l = t :: ws -> t <> lit "C0" -> config_named l = None.
Proof. intros E N. unfold config_named. rewrite E. destruct ws as [|? [|? ?]]; try reflexivity. destruct (str_eqb_spec t (lit "C0")); [contradiction|reflexivity]. Qed.
Lemma normal_tag l t ws : split_ws l = t :: ws -> t <> lit "11" -> normal l = false.
Proof. intros E N. unfold normal. rewrite (tagged_cons "11" l t ws E). destruct (str_eqb_spec t (lit "11")); [contradiction|reflexivity]. Qed.
Lemma crd_points ls : forall pre f cfg no f', last_with (session_on utc_ok) pre (d_date f) -> last_with config_named pre cfg ->
  crd_loop f (sys_of cfg) ls no = Ok f' -> d_mode f' = d_mode f /\ last_with (session_on utc_ok) (pre ++ ls) (d_date f') /\
  exists ps, d_points f' = d_points f ++ ps /\ Forall2 (fun pl p => point_says utc_ok (fst pl) (snd pl) p) (filter (fun pl => normal (snd pl)) (with_before pre ls)) ps.
Proof.
  induction ls as [|l ls IH]; intros pre f cfg no f' D C H.
  { cbn in H. injection H as <-. rewrite app_nil_r. split; [reflexivity|]. split; [exact D|]. exists []. rewrite app_nil_r. split; [reflexivity|constructor]. }
  cbn [Ilrs_Model.crd_loop] in H. rewrite split_ws_trim_end in H. cbn [with_before filter snd].
  replace (pre ++ l :: ls) with ((pre ++ [l]) ++ ls) by (now rewrite <- app_assoc).
  pose proof (last_with_step _ _ _ l D) as D1. pose proof (last_with_step _ _ _ l C) as C1.
  destruct (split_ws l) as [|tag ws] eqn:E.
  { assert (K : normal l = false) by (unfold normal, tagged; now rewrite E). rewrite K. unfold session_on in D1 at 2. unfold config_named in C1 at 2. rewrite E in D1, C1. refine (IH _ _ _ _ _ _ C1 H); exact D1. }
  destruct (str_eqb_spec tag (lit "H1")) as [->|N1].
  { rewrite (normal_tag l _ ws E) by discriminate. rewrite (not_session l _ ws E) in D1 by discriminate. rewrite (not_config l _ ws E) in C1 by discriminate.
    refine (IH _ _ _ _ _ _ C1 H); exact D1. }
  destruct (str_eqb_spec tag (lit "H2")) as [->|N2].
  { rewrite (normal_tag l _ ws E) by discriminate. rewrite (not_session l _ ws E) in D1 by discriminate. rewrite (not_config l _ ws E) in C1 by discriminate.
    refine (IH _ _ _ _ _ _ C1 H); exact D1. }
  destruct (str_eqb_spec tag (lit "H3")) as [->|N3].
  { rewrite (normal_tag l _ ws E) by discriminate. rewrite (not_session l _ ws E) in D1 by discriminate. rewrite (not_config l _ ws E) in C1 by discriminate.
    refine (IH _ _ _ _ _ _ C1 H); exact D1. }
  destruct (str_eqb_spec tag (lit "H4")) as [->|N4].
  { rewrite (normal_tag l _ ws E) by discriminate. rewrite (not_config l _ ws E) in C1 by discriminate. rewrite (session_line l ws E) in H.
    refine (IH _ _ _ _ _ _ C1 H); exact D1. }
  rewrite (not_session l _ ws E N4) in D1.
  destruct (str_eqb_spec tag (lit "C0")) as [->|NC].
  { rewrite (normal_tag l _ ws E) by discriminate. assert (K : match nth_error ws 1 with Some s => s | None => sys_of cfg end = sys_of (match config_named l with Some v => Some v | None => cfg end)).
    { unfold config_named. rewrite E. destruct ws as [|? [|? ?]]; reflexivity. }
    rewrite K in H. refine (IH _ _ _ _ _ _ C1 H); exact D1. }
  rewrite (not_config l _ ws E NC) in C1.
  destruct (str_eqb_spec tag (lit "10")) as [->|N10]; [cbn [orb] in H|destruct (str_eqb_spec tag (lit "11")) as [->|N11]; [cbn [orb] in H|cbn [orb] in H]].
  - rewrite (normal_tag l _ ws E) by discriminate. change (str_eqb (lit "10") (lit "11")) with false in H. cbn iota in H.
    destruct (word parse_f64 ws 0), (word parse_f64 ws 1); try (destruct (is_strict (d_mode f)); [discriminate|]); refine (IH _ _ _ _ _ _ C1 H); exact D1.
  - pose proof (flight_words l _ ws E) as Fl. unfold normal. rewrite (tagged_cons "11" l _ ws E). change (str_eqb (lit "11") (lit "11")) with true. cbn [andb].
    destruct (word parse_f64 ws 0) as [sod|], (word parse_f64 ws 1) as [tof|]; rewrite Fl; try (destruct (is_strict (d_mode f)); [discriminate|]; refine (IH _ _ _ _ _ _ C1 H); exact D1).
    cbn iota in H. pose proof (fun D => IH _ _ _ _ _ D C1 H) as K. destruct (K D1) as (M & Dd & ps & Ep & F). clear K. split; [exact M|]. split; [exact Dd|].
    exists (point_of utc_ok (d_date f) (sys_of cfg) sod tof (skipn 2 ws) :: ps). cbn [d_points] in Ep. rewrite Ep, <- app_assoc. split; [reflexivity|].
    constructor; [|exact F]. cbn [fst snd]. exact (point_of_says pre l _ ws _ cfg sod tof E Fl D C).
  - rewrite (normal_tag l _ ws E N11). refine (IH _ _ _ _ _ _ C1 H); exact D1.
Qed.

(** Modes *)
Definition crd_remode (m : pmode) (f : crd) : crd := Crd (d_version f) (d_station f) (d_target f) (d_date f) (d_points f) m.
Lemma broken_tag l t ws : split_ws l = t :: ws -> t <> lit "10" -> t <> lit "11" -> broken l = false.
Proof.
  intros E N0 N1. unfold broken, data_line. rewrite (tagged_cons "10" l t ws E), (tagged_cons "11" l t ws E).
  destruct (str_eqb_spec t (lit "10")); [contradiction|]. destruct (str_eqb_spec t (lit "11")); [contradiction|reflexivity].
Qed.
Ltac at_line E := cbn [filter negb Ilrs_Model.crd_loop]; rewrite split_ws_trim_end, E.
Lemma crd_permissive ls : forall f sys no no', crd_loop (crd_remode Permissive f) sys ls no = omap (crd_remode Permissive) (crd_loop (crd_remode Strict f) sys (filter (fun l => negb (broken l)) ls) no').
Proof.
  induction ls as [|l ls IH]; intros f sys no no'; [reflexivity|]. cbn [Ilrs_Model.crd_loop filter]. rewrite split_ws_trim_end.
  destruct (split_ws l) as [|tag ws] eqn:E.
  { assert (T : broken l = false) by (unfold broken, data_line, tagged; now rewrite E). rewrite T. at_line E. apply IH. }
  destruct (str_eqb_spec tag (lit "H1")) as [->|N1].
  { rewrite (broken_tag l _ ws E) by discriminate. at_line E. change (str_eqb (lit "H1") (lit "H1")) with true. cbn iota. apply (IH (Crd (match nth_error ws 1 with Some v => v | None => d_version f end) (d_station f) (d_target f) (d_date f) (d_points f) Strict)). }
  destruct (str_eqb_spec tag (lit "H2")) as [->|N2].
  { rewrite (broken_tag l _ ws E) by discriminate. at_line E. change (str_eqb (lit "H2") (lit "H1")) with false. change (str_eqb (lit "H2") (lit "H2")) with true. cbn iota. apply (IH (Crd (d_version f) (station_of ws) (d_target f) (d_date f) (d_points f) Strict)). }
  destruct (str_eqb_spec tag (lit "H3")) as [->|N3].
  { rewrite (broken_tag l _ ws E) by discriminate. at_line E. change (str_eqb (lit "H3") (lit "H1")) with false. change (str_eqb (lit "H3") (lit "H2")) with false. change (str_eqb (lit "H3") (lit "H3")) with true. cbn iota. apply (IH (Crd (d_version f) (d_station f) (target_of ws) (d_date f) (d_points f) Strict)). }
  destruct (str_eqb_spec tag (lit "H4")) as [->|N4].
  { rewrite (broken_tag l _ ws E) by discriminate. at_line E. change (str_eqb (lit "H4") (lit "H1")) with false. change (str_eqb (lit "H4") (lit "H2")) with false. change (str_eqb (lit "H4") (lit "H3")) with false. change (str_eqb (lit "H4") (lit "H4")) with true. cbn iota. apply (IH (Crd (d_version f) (d_station f) (d_target f) (match session_day utc_ok ws with Some d => Some d | None => d_date f end) (d_points f) Strict)). }
  destruct (str_eqb_spec tag (lit "C0")) as [->|NC].
  { rewrite (broken_tag l _ ws E) by discriminate. at_line E. change (str_eqb (lit "C0") (lit "H1")) with false. change (str_eqb (lit "C0") (lit "H2")) with false. change (str_eqb (lit "C0") (lit "H3")) with false. change (str_eqb (lit "C0") (lit "H4")) with false. change (str_eqb (lit "C0") (lit "C0")) with true. cbn iota. apply IH. }
  destruct (str_eqb tag (lit "10") || str_eqb tag (lit "11")) eqn:T.
  - pose proof (flight_words l _ ws E) as Fl. unfold broken, data_line. rewrite (tagged_cons "10" l _ ws E), (tagged_cons "11" l _ ws E), T. cbn [andb].
    destruct (word parse_f64 ws 0) as [sod|] eqn:W0, (word parse_f64 ws 1) as [tof|] eqn:W1; rewrite Fl; try (cbn [negb is_strict d_mode crd_remode]; apply IH).
    at_line E. destruct (str_eqb_spec tag (lit "H1")); [contradiction|]. destruct (str_eqb_spec tag (lit "H2")); [contradiction|]. destruct (str_eqb_spec tag (lit "H3")); [contradiction|]. destruct (str_eqb_spec tag (lit "H4")); [contradiction|]. destruct (str_eqb_spec tag (lit "C0")); [contradiction|].
    rewrite T, W0, W1. destruct (str_eqb tag (lit "11")); [apply (IH (Crd (d_version f) (d_station f) (d_target f) (d_date f) (d_points f ++ [point_of utc_ok (d_date f) sys sod tof (skipn 2 ws)]) Strict))|apply IH].
  - assert (B : broken l = false) by (unfold broken, data_line; now rewrite (tagged_cons "10" l _ ws E), (tagged_cons "11" l _ ws E), T). rewrite B. at_line E.
    destruct (str_eqb_spec tag (lit "H1")); [contradiction|]. destruct (str_eqb_spec tag (lit "H2")); [contradiction|]. destruct (str_eqb_spec tag (lit "H3")); [contradiction|]. destruct (str_eqb_spec tag (lit "H4")); [contradiction|]. destruct (str_eqb_spec tag (lit "C0")); [contradiction|].
    rewrite T. apply IH.
Qed.
Definition crd_line (e : crd_err) : nat := match e with NoSeconds _ n | NoFlight _ n => n end.
(** Strict reading fails exactly at the first broken data line, permissive reading never *)
Lemma crd_outcome ls : forall f sys no,
  match crd_loop f sys ls no with
  | Ok _ => d_mode f = Strict -> Forall (fun l => broken l = false) ls
  | Err e => d_mode f = Strict /\ exists a l b, ls = a ++ l :: b /\ crd_line e = (no + length a)%nat /\ broken l = true /\ Forall (fun l' => broken l' = false) a
  | Panic => False
  end.
Proof.
  assert (More : forall l ls0 f' f (sys : str) no (o : dres crd), d_mode f' = d_mode f -> broken l = false ->
    match o with Ok _ => d_mode f' = Strict -> Forall (fun l => broken l = false) ls0
      | Err e => d_mode f' = Strict /\ exists a l b, ls0 = a ++ l :: b /\ crd_line e = (S no + length a)%nat /\ broken l = true /\ Forall (fun l' => broken l' = false) a | Panic => False end ->
    match o with Ok _ => d_mode f = Strict -> Forall (fun l => broken l = false) (l :: ls0)
      | Err e => d_mode f = Strict /\ exists a l1 b, l :: ls0 = a ++ l1 :: b /\ crd_line e = (no + length a)%nat /\ broken l1 = true /\ Forall (fun l' => broken l' = false) a | Panic => False end).
  { intros l ls0 f' f sys no o M B. rewrite M. destruct o as [r|e|]; [intros H S; constructor; auto| |auto].
    intros (S & a & l1 & b & -> & Ln & B1 & F). split; [exact S|]. exists (l :: a), l1, b. split; [reflexivity|]. split; [cbn [length]; lia|]. split; [exact B1|now constructor]. }
  induction ls as [|l ls IH]; intros f sys no; [intros _; constructor|]. cbn [Ilrs_Model.crd_loop]. rewrite split_ws_trim_end.
  destruct (split_ws l) as [|tag ws] eqn:E.
  { eapply (More l ls _ f sys no); [|unfold broken, data_line, tagged; now rewrite E|apply IH]; auto. }
  destruct (str_eqb_spec tag (lit "H1")) as [->|N1]; [eapply (More l ls _ f sys no); [|apply (broken_tag l _ ws E); discriminate|apply IH]; auto|].
  destruct (str_eqb_spec tag (lit "H2")) as [->|N2]; [eapply (More l ls _ f sys no); [|apply (broken_tag l _ ws E); discriminate|apply IH]; auto|].
  destruct (str_eqb_spec tag (lit "H3")) as [->|N3]; [eapply (More l ls _ f sys no); [|apply (broken_tag l _ ws E); discriminate|apply IH]; auto|].
  destruct (str_eqb_spec tag (lit "H4")) as [->|N4]; [eapply (More l ls _ f sys no); [|apply (broken_tag l _ ws E); discriminate|apply IH]; auto|].
  destruct (str_eqb_spec tag (lit "C0")) as [->|NC]; [eapply (More l ls _ f sys no); [|apply (broken_tag l _ ws E); discriminate|apply IH]; auto|].
  destruct (str_eqb tag (lit "10") || str_eqb tag (lit "11")) eqn:T.
  - pose proof (flight_words l _ ws E) as Fl.
    assert (B : broken l = match flight l with Some _ => false | None => true end) by (unfold broken, data_line; now rewrite (tagged_cons "10" l _ ws E), (tagged_cons "11" l _ ws E), T).
    destruct (word parse_f64 ws 0) as [sod|] eqn:W0, (word parse_f64 ws 1) as [tof|] eqn:W1; rewrite Fl in B.
    + eapply (More l ls _ f sys no); [|exact B|apply IH]. destruct (str_eqb tag (lit "11")); reflexivity.
    + destruct (d_mode f) eqn:M; cbn [is_strict].
      * split; [reflexivity|]. exists [], l, ls. split; [reflexivity|]. cbn [crd_line length]. split; [lia|]. auto.
      * specialize (IH f sys (S no)). rewrite M in IH. destruct (crd_loop f sys ls (S no)); [discriminate|destruct IH; discriminate|exact IH].
    + destruct (d_mode f) eqn:M; cbn [is_strict].
      * split; [reflexivity|]. exists [], l, ls. split; [reflexivity|]. cbn [crd_line length]. split; [lia|]. auto.
      * specialize (IH f sys (S no)). rewrite M in IH. destruct (crd_loop f sys ls (S no)); [discriminate|destruct IH; discriminate|exact IH].
    + destruct (d_mode f) eqn:M; cbn [is_strict].
      * split; [reflexivity|]. exists [], l, ls. split; [reflexivity|]. cbn [crd_line length]. split; [lia|]. auto.
      * specialize (IH f sys (S no)). rewrite M in IH. destruct (crd_loop f sys ls (S no)); [discriminate|destruct IH; discriminate|exact IH].
  - eapply (More l ls _ f sys no); [|unfold broken, data_line; now rewrite (tagged_cons "10" l _ ws E), (tagged_cons "11" l _ ws E), T|apply IH]; auto.
Qed.
End Crd.
