(** C111 to C114: laser ranging predictions and observations. *)
From Coq Require Import Ascii String List NArith ZArith Bool QArith Qabs Qround Lia Lqa.
From Verif Require Import Base Text DecFloat Lsk_Spec Cal_Proofs Sp3_Model Omm_Model Omm_Proofs Sp3_Write Oem_Model Ilrs_Model Ilrs_Cal Ilrs_Spec Ilrs_Proofs Ilrs_Files Ilrs_Write.
Import ListNotations.
Local Open Scope N_scope.

Definition text (ls : list string) : str := unlines (map lit ls).
Definition always (_ : civil) : bool := true.

(** * C53, the seconds of an SP3 epoch *)
(** A number of seconds that is not negative is accepted, at a good hour and minute of a good date, exactly when it is below
    sixty and either does not round up to a whole second or lies in second 59, where the nanoseconds may reach 10^9. *)
Theorem C53_seconds date_ok y mo d h mi q n : date_ok y mo d = true -> h < 24 -> mi < 60 -> (0 <= q)%Q -> (q < 4294967296)%Q ->
  ((exists c, civil_to_time date_ok always y mo d h mi (Fin q) n = Ok c) <->
   (q < 60)%Q /\ ((q - inject_Z (Qfloor q) < 1 - (1 # 2000000000))%Q \/ (59 <= q)%Q)).
Proof.
  intros D H M P L. destruct (nanos_fin q P L) as (_ & B). pose proof (nanos_carry q P L) as K. pose proof (trunc_fin q P L) as T.
  pose proof (Qfloor_le q) as F1. pose proof (Qlt_floor q) as F2. rewrite inject_Z_plus in F2. change (inject_Z 1) with 1%Q in F2.
  assert (X : (q < 60)%Q <-> (Qfloor q < 60)%Z). { split; [apply (floor_bound q 60)|]. intros A. assert (A2 : (Qfloor q <= 59)%Z) by lia. rewrite Zle_Qle in A2. change (inject_Z 59) with 59%Q in A2. lra. }
  assert (Y : (59 <= q)%Q <-> (59 <= Qfloor q)%Z). { split; intros A; [change 59%Z with (Qfloor 59); now apply Qfloor_resp_le|]. rewrite Zle_Qle in A. change (inject_Z 59) with 59%Q in A. lra. }
  unfold civil_to_time. rewrite D. cbn [andb].
  assert (E : hms_ok h mi (trunc_u32 (Fin q)) (frac_nanos (Fin q)) = true <-> (q < 60)%Q /\ ((q - inject_Z (Qfloor q) < 1 - (1 # 2000000000))%Q \/ (59 <= q)%Q)).
  { rewrite X, Y. unfold hms_ok. rewrite !andb_true_iff, orb_true_iff, !N.ltb_lt, N.eqb_eq. unfold carries in K.
    assert (Z1 : frac_nanos (Fin q) < 1000000000 <-> (q - inject_Z (Qfloor q) < 1 - (1 # 2000000000))%Q).
    { split; intros A.
      - apply Qnot_le_lt. intros C. apply K in C. lia.
      - assert (frac_nanos (Fin q) <> 1000000000); [|lia]. intros C. apply K in C. lra. }
    rewrite Z1. clear -T B H M. split.
    - intros ((((_ & _) & A) & _) & [C|C]); (split; [lia|]); [left; exact C|right; lia].
    - intros (A & [C|C]); (split; [repeat split; lia|]); [left; exact C|right; lia]. }
  destruct (hms_ok _ _ _ _) eqn:G.
  - split; [intros _; now apply E|intros _; eexists; reflexivity].
  - split; [intros (c & C); discriminate|intros C; apply E in C; discriminate].
Qed.
(** so a tick short of a whole second refuses the record, except in second 59 *)
Example C53_seconds_case : let t q := civil_to_time (fun _ _ _ => true) always 2024 1 1 0 0 (Fin q) 7 in
  t (9999999999999 # 1000000000000)%Q = Err (Record_err 7 BadDate) /\ t (59999999999999 # 1000000000000)%Q = Ok (Civil 2024 1 1 0 0 59 1000000000).
Proof. split; vm_compute; reflexivity. Qed.
Print Assumptions C53_seconds.

(** * C111 *)
(** The entries are the complete position records before the end mark, in order. *)
Theorem C111_records utc t m f : parse_cpf_with_mode utc t m = Ok f ->
  Forall2 entry_of (filter readable10 (before_end (split_nl t))) (c_entries f) /\ c_mode f = m.
Proof.
  intros H. destruct (cpf_entries utc _ _ _ _ H) as (M & es & E & F). cbn [cpf_empty c_entries c_mode app] in *. rewrite E. auto.
Qed.
(** Every day of the years 1 to 9999 and every time of day is read, if the fraction of the second is
    not within half a nanosecond of the next second. *)
Theorem C111_epoch utc mjd q : (first_mjd <= mjd <= last_mjd)%Z -> (0 <= q)%Q -> (q < 86400)%Q -> ~ rounds_up q -> exists c,
  dated c /\ day_of c = mjd /\ (Qabs (inject_Z (ns_of c) - q * 1000000000) <= 1 # 2)%Q /\
  build_epoch utc mjd (Fin q) = if utc c then Ok c else Err (BadInstant mjd).
Proof.
  intros R P L C. destruct (build_epoch_complete utc mjd q R P L C) as (c & A & B & D & _ & _ & E). exists c. auto.
Qed.
(** The lines of a text, and what follows its first refused record *)
Lemma loop_app utc a : forall f b no f', before_end a = a -> cpf_loop utc f a no = Ok f' -> cpf_loop utc f (a ++ b) no = cpf_loop utc f' b (no + length a).
Proof.
  induction a as [|l a IH]; intros f b no f' B H.
  - cbn [app length]. replace (no + 0)%nat with no by lia. cbn [cpf_loop] in H. congruence.
  - cbn [before_end] in B. destruct (tagged "99" l) eqn:T; [discriminate|]. assert (B' : before_end a = a) by congruence.
    cbn [app cpf_loop length] in *. rewrite split_ws_trim_end in *. replace (no + S (length a))%nat with (S no + length a)%nat by lia. unfold tagged in T.
    destruct (split_ws l) as [|t ws]; [now apply IH|]. destruct (str_eqb t (lit "H1")); [now apply IH|]. destruct (str_eqb t (lit "H2")); [now apply IH|].
    destruct (str_eqb t (lit "10")); [|rewrite T in *; now apply IH].
    destruct (cpf_10 utc f ws no) as [g|e|]; cbn [obind] in *; try discriminate. now apply IH.
Qed.
(** A record whose seconds reach 86400, as in a leap second, is refused in either mode, and the file with it. *)
Theorem C111_refused utc m a l b f mjd q x y z : before_end a = a -> cpf_loop utc (cpf_empty m) a 1 = Ok f -> record10 l mjd (Fin q) x y z ->
  (first_mjd <= mjd <= last_mjd)%Z -> (86400 <= q)%Q -> cpf_loop utc (cpf_empty m) (a ++ l :: b) 1 = Err (BadCivil mjd).
Proof.
  intros B H (d & mw & sw & k & xw & yw & zw & rest & W & P1 & P2 & P3 & P4 & P5) R L. rewrite (loop_app _ _ _ _ _ _ B H). cbn [cpf_loop].
  rewrite split_ws_trim_end, W. change (str_eqb (lit "10") (lit "H1")) with false. change (str_eqb (lit "10") (lit "H2")) with false. change (str_eqb (lit "10") (lit "10")) with true. cbn iota.
  unfold cpf_10, word. cbn [nth_error]. rewrite P1, P2, P3, P4, P5. rewrite build_epoch_refused; [reflexivity|exact R|lra|now left].
Qed.
(** The same for a fraction within half a nanosecond of the next second, outside the last second of a minute. *)
Theorem C111_carry utc m a l b f mjd q x y z : before_end a = a -> cpf_loop utc (cpf_empty m) a 1 = Ok f -> record10 l mjd (Fin q) x y z ->
  (first_mjd <= mjd <= last_mjd)%Z -> (0 <= q)%Q -> rounds_up q -> (Qfloor q mod 60 <> 59)%Z -> cpf_loop utc (cpf_empty m) (a ++ l :: b) 1 = Err (BadCivil mjd).
Proof.
  intros B H (d & mw & sw & k & xw & yw & zw & rest & W & P1 & P2 & P3 & P4 & P5) R Pq C S. rewrite (loop_app _ _ _ _ _ _ B H). cbn [cpf_loop].
  rewrite split_ws_trim_end, W. change (str_eqb (lit "10") (lit "H1")) with false. change (str_eqb (lit "10") (lit "H2")) with false. change (str_eqb (lit "10") (lit "10")) with true. cbn iota.
  unfold cpf_10, word. cbn [nth_error]. rewrite P1, P2, P3, P4, P5. rewrite build_epoch_refused; [reflexivity|exact R|exact Pq|right; split; [exact C|exact S]].
Qed.
(** Seconds that are negative, or no number, are read as midnight. *)
Theorem C111_midnight_refuted utc mjd s : (first_mjd <= mjd <= last_mjd)%Z -> s = NaN \/ s = Inf true \/ (exists q, s = Fin q /\ (q <= -1)%Q) -> exists c,
  day_of c = mjd /\ ns_of c = 0%Z /\ build_epoch utc mjd s = if utc c then Ok c else Err (BadInstant mjd).
Proof.
  intros R S. assert (T : trunc_u32 s = 0 /\ frac_nanos s = 0).
  { destruct S as [->|[->|(q & -> & L)]]; [split; reflexivity|split; reflexivity|].
    assert (T : trunc_u32 (Fin q) = 0). { unfold trunc_u32, sat_u32. pose proof (Qfloor_resp_le _ _ L) as G. change (Qfloor (-1)) with (-1)%Z in G. lia. }
    split; [exact T|]. unfold frac_nanos. rewrite T. unfold round_up, sat_u32.
    assert (G : (Qfloor ((q - inject_Z (Z.of_N 0)) * 1000000000 + (1 # 2)) <= Qfloor (-1))%Z) by (apply Qfloor_resp_le; change (inject_Z (Z.of_N 0)) with 0%Q; lra). change (Qfloor (-1)) with (-1)%Z in G. lia. }
  destruct T as (T1 & T2). destruct (build_epoch_eq utc mjd s R) as (y & mo & d & Y & D & E & B). rewrite T1, T2 in B.
  destruct (civil_of_dated y mo d 0 0 ltac:(lia) D) as (C1 & C2 & C3). exists (civil_of y mo d 0 0). split; [rewrite C2; exact E|]. split; [exact C3|]. rewrite B. reflexivity.
Qed.
(** The year is cut to 32 bits: a day some four thousand million years ahead is read as a day of 2024. *)
Theorem C111_wrapped_refuted : exists mjd c, (last_mjd < mjd)%Z /\ build_epoch always mjd (Fin 0) = Ok c /\ Sp3_Model.year c = 2024%Z.
Proof. exists (60310 + 146097 * 10737418 + 365 * 96 + 24)%Z. eexists. split; [vm_compute; reflexivity|]. split; [vm_compute; reflexivity|vm_compute; reflexivity]. Qed.
(** A day number near the end of the 64-bit range overflows the arithmetic, in either mode. *)
Theorem C111_overflow : exists t, forall m, parse_cpf_with_mode always t m = Panic.
Proof. exists (text ["10 1 9223372036854775807 0.0 0 1.0 1.0 1.0"]%string). intros []; vm_compute; reflexivity. Qed.
Example C111_case : exists f, parse_cpf always (text ["H1 CPF 2 SGF 2024 1 1 0"; "H2 lageos1 1155 7603901 2024 1 1 0 0 0 2024 1 1 1 0 0 60 0 ITRF2014";
    "10 1 60310 0.0 0 6000000.0 9000000.0 7000000.0"; "20 0 1 2 3"; "10 1 60310 60.5 0 6001200.0 8999100.0 7001500.0"; "99"; "10 1 60310 120.0 0 1 1 1"]%string) = Ok f /\
  map (fun e => (Sp3_Model.year (e_epoch e), Sp3_Model.month (e_epoch e), Sp3_Model.day (e_epoch e), ns_of (e_epoch e))) (c_entries f) =
    [(2024%Z, 1, 1, 0%Z); (2024%Z, 1, 1, 60500000000%Z)] /\ c_frame f = lit "ITRF2014" /\ c_sic f = 1155%Z.
Proof. eexists. split; [vm_compute; reflexivity|]. split; [vm_compute; reflexivity|]. split; vm_compute; reflexivity. Qed.
Print Assumptions C111_records.
Print Assumptions C111_epoch.
Print Assumptions C111_refused.
Print Assumptions C111_carry.
Print Assumptions C111_midnight_refuted.
Print Assumptions C111_wrapped_refuted.
Print Assumptions C111_overflow.

(** * C112 *)
Definition in_i32 (z : Z) : Prop := (-2147483648 <= z <= 2147483647)%Z.
(** What a file needs to be read back: its names are single words *)
Definition writable (f : cpf) : Prop :=
  plain (c_version f) /\ plain (c_source f) /\ plain (c_cospar f) /\ plain (c_norad f) /\ plain (c_frame f) /\ in_i32 (c_sic f).
Lemma writable_head f : writable f -> good_head f /\ name_of f = c_cospar f /\ norad_of f = c_norad f.
Proof.
  intros (V & S & C & N & F & I). assert (A : name_of f = c_cospar f) by (unfold name_of; destruct (c_cospar f); [now destruct C|reflexivity]).
  assert (B : norad_of f = c_norad f) by (unfold norad_of; destruct (c_norad f); [now destruct N|reflexivity]). split; [|split; assumption].
  unfold good_head. rewrite A, B. repeat (split; [assumption|]). exact I.
Qed.
Lemma trunc_u64_whole q : (0 < q)%Q -> (q < 18446744073709551616)%Q -> Z.of_N (trunc_u64 (Fin q)) = Qfloor q.
Proof.
  intros P L. unfold trunc_u64. pose proof (Qfloor_le q) as A. pose proof (Qlt_floor q) as B. rewrite inject_Z_plus in B. change (inject_Z 1) with 1%Q in B.
  assert (U : (inject_Z (Qfloor q) < inject_Z 18446744073709551616)%Q) by (change (inject_Z 18446744073709551616) with 18446744073709551616%Q; lra). rewrite <- Zlt_Qlt in U.
  assert (D : (0 <= Qfloor q)%Z). { assert (G : (Qfloor 0 <= Qfloor q)%Z) by (apply Qfloor_resp_le; lra). exact G. } lia.
Qed.
(** A written file is read back in either mode: the same names, the step without its fraction, and the
    same entries to half a millisecond and half a millimetre. *)
Theorem C112_round_trip utc f m q : writable f -> c_step f = Fin q -> (0 < q)%Q -> (q < 18446744073709551616)%Q -> Forall (good_entry utc) (c_entries f) ->
  exists f' x, parse_cpf_with_mode utc (write_cpf f) m = Ok f' /\ c_source f' = c_source f /\ c_version f' = c_version f /\ c_target f' = c_cospar f /\ c_cospar f' = c_cospar f /\
    c_sic f' = c_sic f /\ c_norad f' = c_norad f /\ c_frame f' = c_frame f /\ c_step f' = Fin x /\ (x == inject_Z (Qfloor q))%Q /\ Forall2 same_entry (c_entries f') (c_entries f).
Proof.
  intros W S P L G. destruct (writable_head f W) as (H & A & B). destruct (cpf_back utc f m H G) as (es & F & E).
  destruct (parse_f64_whole (trunc_u64 (Fin q))) as (x & Px & Ex).
  assert (Sw : step_word f = Fin x).
  { unfold step_word, step_of. rewrite S. cbn [fpos]. destruct (Qle_bool q 0) eqn:Q0; [apply Qle_bool_iff in Q0; lra|]. cbn [negb]. now rewrite Px. }
  eexists. exists x. split; [exact E|]. cbn [c_source c_version c_target c_cospar c_sic c_norad c_frame c_step c_entries]. rewrite A, B, Sw.
  rewrite trunc_u64_whole in Ex by assumption. repeat (split; [first [reflexivity|assumption]|]). exact F.
Qed.
(** Without an international designator the name of the target stands in for it. *)
Theorem C112_target utc f m : plain (c_version f) -> plain (c_source f) -> c_cospar f = [] -> plain (c_target f) -> c_norad f = [] -> plain (c_frame f) -> in_i32 (c_sic f) ->
  Forall (good_entry utc) (c_entries f) -> exists f', parse_cpf_with_mode utc (write_cpf f) m = Ok f' /\ c_target f' = c_target f /\ c_cospar f' = c_target f /\ c_norad f' = lit "0".
Proof.
  intros V S C T N F I G. assert (A : name_of f = c_target f) by (unfold name_of; now rewrite C). assert (B : norad_of f = lit "0") by (unfold norad_of; now rewrite N).
  assert (H : good_head f). { unfold good_head. rewrite A, B. repeat (split; [first [assumption|split; [discriminate|reflexivity]]|]). exact I. }
  destruct (cpf_back utc f m H G) as (es & _ & E). eexists. split; [exact E|]. cbn [c_target c_cospar c_norad]. auto.
Qed.
(** One entry in the last half millisecond of its day, or in a leap second, makes the whole written file unreadable. *)
Theorem C112_day_end_refuted utc f m a e b : writable f -> c_entries f = a ++ e :: b -> Forall (good_entry utc) a -> dated (e_epoch e) -> (Sp3_Model.year (e_epoch e) <= 9999)%Z ->
  (86399999500000 <= ns_of (e_epoch e))%Z -> parse_cpf_with_mode utc (write_cpf f) m = Err (BadCivil (day_of (e_epoch e))).
Proof. intros W. destruct (writable_head f W) as (H & _). now apply cpf_last_half. Qed.
(** A step that is not positive is written as 60 seconds. *)
Theorem C112_step_refuted utc f m : writable f -> fpos (c_step f) = false -> Forall (good_entry utc) (c_entries f) ->
  exists f', parse_cpf_with_mode utc (write_cpf f) m = Ok f' /\ c_step f' = Fin 60.
Proof.
  intros W S G. destruct (writable_head f W) as (H & _). destruct (cpf_back utc f m H G) as (es & _ & E). eexists. split; [exact E|]. cbn [c_step].
  unfold step_word, step_of. rewrite S. vm_compute. reflexivity.
Qed.
Definition sample (source frame : string) (step : fnum) (c : civil) : cpf :=
  Cpf (lit source) (lit "2") (lit "lageos1") (lit "7603901") 1155 (lit "8820") (lit frame) step [Entry c (Fin 6000) (Fin (-12270)) (Fin (1 # 3))] Strict.
(** An empty frame is read back as 0, an empty source as the year of the header. *)
Theorem C112_empty_refuted : exists f g, parse_cpf always (write_cpf (sample "SGF" "" (Fin 60) (Civil 2024 2 29 12 30 15 250000000))) = Ok f /\ c_frame f = lit "0" /\
  parse_cpf always (write_cpf (sample "" "ITRF2014" (Fin 60) (Civil 2024 2 29 12 30 15 250000000))) = Ok g /\ c_source g = lit "2024".
Proof. eexists. eexists. split; [vm_compute; reflexivity|]. split; [reflexivity|]. split; [vm_compute; reflexivity|reflexivity]. Qed.
Example C112_case : let f := sample "SGF" "ITRF2014" (Fin (181 # 2)) (Civil 2024 2 29 12 30 15 250400000) in
  writable f /\ Forall (good_entry always) (c_entries f) /\
  (exists g, parse_cpf always (write_cpf f) = Ok g /\ c_step g = Fin 90 /\ map (fun e => ns_of (e_epoch e)) (c_entries g) = [45015250000000%Z]) /\
  parse_cpf_with_mode always (write_cpf (sample "SGF" "ITRF2014" (Fin 60) (Civil 2016 12 31 23 59 59 1500000000))) Permissive = Err (BadCivil 57753).
Proof.
  cbn zeta. split.
  { unfold writable, sample. cbn. repeat split; try discriminate; try reflexivity. }
  split.
  { constructor; [|constructor]. unfold good_entry, sample. cbn [e_epoch Sp3_Model.year]. split; [split; [cbn; lia|split; vm_compute; split; discriminate]|]. split; [lia|]. split; [vm_compute; reflexivity|]. intros c _ _ _. reflexivity. }
  split; [|vm_compute; reflexivity]. eexists. split; [vm_compute; reflexivity|]. split; vm_compute; reflexivity.
Qed.
Print Assumptions C112_round_trip.
Print Assumptions C112_target.
Print Assumptions C112_day_end_refuted.
Print Assumptions C112_step_refuted.
Print Assumptions C112_empty_refuted.

(** * C113 *)
(** The points are the normal-point lines that carry both numbers, in order; each takes its day and its
    configuration from the lines before it. *)
Theorem C113_points utc t m f : parse_crd_with_mode utc t m = Ok f ->
  Forall2 (fun pl p => point_says utc (fst pl) (snd pl) p) (filter (fun pl => normal (snd pl)) (with_before [] (split_nl t))) (d_points f) /\
  last_with (session_on utc) (split_nl t) (d_date f) /\ d_mode f = m.
Proof.
  intros H. assert (N0 : forall A (r : str -> option A), last_with r [] None) by (intros A r; left; split; [reflexivity|constructor]).
  destruct (crd_points utc (split_nl t) [] (crd_empty m) None 1%nat f (N0 _ _) (N0 _ _) H) as (M & L & ps & E & F). cbn [crd_empty d_points d_mode app] in *. rewrite E. auto.
Qed.
(** The documented example of a normal point gives its return rate as 90; the reader reports 0. *)
Theorem C113_rate_refuted : exists f p r, parse_crd always (text ["H4 0 2024 01 01 08 00 00 12 00 00 0 0 0 0 1 0"; "11 28800.0 0.05123456789 std 0 0 1 0 5 8.0 0.1 0.0 0.0 90.0"]%string) = Ok f /\
  d_points f = [p] /\ p_rate p = Some (Fin r) /\ (r == 0)%Q.
Proof. do 3 eexists. split; [vm_compute; reflexivity|]. split; [reflexivity|]. split; reflexivity. Qed.
(** Two points of a pass, one minute apart across midnight: the later is dated a day earlier than the other, the
    session's day being used for both. *)
Theorem C113_midnight_refuted : exists f p q c d, parse_crd always (text ["H4 0 2024 01 01 23 50 00 2024 01 02 00 10 00 0 0 0 0 1 0"; "11 86370.0 0.05 std"; "11 30.0 0.05 std"]%string) = Ok f /\
  d_points f = [p; q] /\ p_epoch p = Some c /\ p_epoch q = Some d /\ day_of d = day_of c /\ (ns_of d < ns_of c)%Z.
Proof. do 5 eexists. split; [vm_compute; reflexivity|]. split; [reflexivity|]. split; [reflexivity|]. split; [reflexivity|]. split; vm_compute; reflexivity. Qed.
(** Seconds counted on past midnight give a point without an epoch. *)
Theorem C113_late utc y m d q : (86400 <= q)%Q -> (q <= 10000000000000)%Q -> ymd_ok y m d = true -> point_epoch utc (y, m, d) (Fin q) = None.
Proof.
  intros A B C. pose proof (point_epoch_says utc (Some (y, m, d)) (Fin q)) as H. assert (V : forall y0 m0 d0, Some (y, m, d) = Some (y0, m0, d0) -> ymd_ok y0 m0 d0 = true) by (intros y0 m0 d0 E; congruence).
  specialize (H V). unfold epoch_says in H. apply (H q eq_refl ltac:(lra)); assumption.
Qed.
(** Beyond that the hour is cut to 32 bits, and seconds of that size can be read as a time of day. *)
Theorem C113_wrapped_refuted : exists q c, (86400 < q)%Q /\ point_epoch always (2024%Z, 1, 1) (Fin q) = Some c /\ ns_of c = 0%Z.
Proof. exists 15461882265600%Q. eexists. split; [reflexivity|]. split; vm_compute; reflexivity. Qed.
(** A session year that cannot be read counts as year 0. *)
Theorem C113_year_refuted : exists f p c, parse_crd always (text ["H4 0 20X4 01 01"; "11 30.0 0.05 std"]%string) = Ok f /\ d_points f = [p] /\ p_epoch p = Some c /\ Sp3_Model.year c = 0%Z.
Proof. do 3 eexists. split; [vm_compute; reflexivity|]. split; [reflexivity|]. split; reflexivity. Qed.
Example C113_case : exists f p q, parse_crd always (text ["H4 0 2024 01 01 08 00 00"; "C0 0 cfg1 a b"; "11 28800.0 0.02"; "10 1.0 2.0"; "11 28830.25 0.04 cfg2 1 2 3 4 57 8.0"]%string) = Ok f /\
  d_points f = [p; q] /\ p_sys p = lit "cfg1" /\ p_sys q = lit "cfg2" /\ (exists r, p_range p = Fin r /\ (r == 299792458 # 100)%Q) /\ p_raws q = Some 57 /\
  (exists c, p_epoch q = Some c /\ ns_of c = 28830250000000%Z).
Proof.
  do 3 eexists. split; [vm_compute; reflexivity|]. split; [reflexivity|]. split; [reflexivity|]. split; [reflexivity|].
  split; [eexists; split; [reflexivity|reflexivity]|]. split; [reflexivity|]. eexists. split; reflexivity.
Qed.
Print Assumptions C113_points.
Print Assumptions C113_rate_refuted.
Print Assumptions C113_midnight_refuted.
Print Assumptions C113_late.
Print Assumptions C113_wrapped_refuted.
Print Assumptions C113_year_refuted.

(** * C114 *)
(** Observations: permissive reading always succeeds; strict reading succeeds exactly when no data line is broken,
    and otherwise names the first broken line. *)
Theorem C114_crd_permissive utc t : exists f, parse_crd_with_mode utc t Permissive = Ok f.
Proof.
  pose proof (crd_outcome utc (split_nl t) (crd_empty Permissive) (lit "std") 1) as H. unfold parse_crd_with_mode. destruct (crd_loop _ _ _ _ _); [eauto|destruct H as (H & _); discriminate|destruct H].
Qed.
Theorem C114_crd_strict utc t : (exists f, parse_crd utc t = Ok f) <-> Forall (fun l => broken l = false) (split_nl t).
Proof.
  pose proof (crd_outcome utc (split_nl t) (crd_empty Strict) (lit "std") 1) as H. unfold parse_crd, parse_crd_with_mode. destruct (crd_loop _ _ _ _ _) as [f|e|]; [|destruct H as (_ & a & l & b & E & _ & B & _)|destruct H].
  - split; [intros _; now apply H|eauto].
  - split; [intros (f & F); discriminate|]. intros F. rewrite E in F. apply Forall_app in F as (_ & F). inversion F; congruence.
Qed.
Theorem C114_crd_error utc t e : parse_crd utc t = Err e -> exists a l b, split_nl t = a ++ l :: b /\ crd_line e = S (length a) /\ broken l = true /\ Forall (fun l' => broken l' = false) a.
Proof.
  pose proof (crd_outcome utc (split_nl t) (crd_empty Strict) (lit "std") 1) as H. unfold parse_crd, parse_crd_with_mode. intros E. rewrite E in H. exact (proj2 H).
Qed.
(** Permissive reading gives what strict reading gives of the file without its broken lines. *)
Theorem C114_crd_modes utc ls f : parse_crd_with_mode utc (unlines ls) Permissive = Ok f -> Forall (fun l => ~ In 10 l) ls ->
  exists g, parse_crd utc (unlines (filter (fun l => negb (broken l)) ls)) = Ok g /\ d_points g = d_points f /\ d_station g = d_station f /\ d_target g = d_target f /\ d_date g = d_date f /\ d_version g = d_version f.
Proof.
  intros H N. unfold parse_crd, parse_crd_with_mode, unlines in *. rewrite split_nl_lines in * by assumption.
  rewrite split_nl_lines by (apply Forall_forall; intros l I; apply filter_In in I as (I & _); now apply (proj1 (Forall_forall _ _) N)).
  pose proof (crd_permissive utc ls (crd_empty Permissive) (lit "std") 1%nat 1%nat) as P. change (crd_remode Permissive (crd_empty Permissive)) with (crd_empty Permissive) in P. change (crd_remode Strict (crd_empty Permissive)) with (crd_empty Strict) in P.
  rewrite H in P. destruct (crd_loop utc (crd_empty Strict) _ _ _) as [g|e|]; cbn [omap] in P; try discriminate. exists g. split; [reflexivity|]. assert (Q : f = crd_remode Permissive g) by congruence. rewrite Q. cbn [crd_remode d_points d_station d_target d_date d_version]. auto.
Qed.
(** Predictions: strict reading accepts only complete position records, and an error with a line number names
    the first incomplete one. *)
Theorem C114_cpf_strict utc t f : parse_cpf utc t = Ok f -> Forall (fun l => tagged "10" l = true -> readable10 l = true) (before_end (split_nl t)).
Proof. intros H. exact (cpf_strict_ok utc _ (cpf_empty Strict) _ _ eq_refl H). Qed.
Theorem C114_cpf_error utc t e n : parse_cpf utc t = Err e -> located e = Some n -> exists a l b, split_nl t = a ++ l :: b /\ n = S (length a) /\ tagged "10" l = true /\ readable10 l = false /\
  Forall (fun l' => tagged "10" l' = true -> readable10 l' = true) a.
Proof. intros H L. destruct (cpf_strict_err utc _ (cpf_empty Strict) _ _ _ eq_refl H L) as (a & l & b & A & B & C & D & _ & E). exists a, l, b. auto 6. Qed.
Theorem C114_cpf_modes utc ls f : parse_cpf_with_mode utc (unlines ls) Permissive = Ok f -> Forall (fun l => ~ In 10 l) ls ->
  exists g, parse_cpf utc (unlines (filter (fun l => negb (tagged "10" l && negb (readable10 l))) ls)) = Ok g /\ c_entries g = c_entries f /\ c_source g = c_source f /\ c_target g = c_target f /\
    c_frame g = c_frame f /\ c_step g = c_step f.
Proof.
  intros H N. rewrite (filter_ext _ complete10) by (intros l; unfold complete10; now destruct (tagged "10" l), (readable10 l)).
  unfold parse_cpf, parse_cpf_with_mode, unlines in *. rewrite split_nl_lines in * by assumption.
  rewrite split_nl_lines by (apply Forall_forall; intros l I; apply filter_In in I as (I & _); now apply (proj1 (Forall_forall _ _) N)).
  pose proof (cpf_permissive utc ls (cpf_empty Permissive) 1%nat 1%nat) as P. change (cpf_remode Permissive (cpf_empty Permissive)) with (cpf_empty Permissive) in P. change (cpf_remode Strict (cpf_empty Permissive)) with (cpf_empty Strict) in P.
  rewrite H in P. destruct (cpf_loop utc (cpf_empty Strict) _ _) as [g|e|]; cbn [omap] in P; try discriminate. exists g. split; [reflexivity|]. assert (Q : f = cpf_remode Permissive g) by congruence. rewrite Q. cbn [cpf_remode c_entries c_source c_target c_frame c_step]. auto 6.
Qed.
(** Permissive reading of predictions does not always succeed: a record in a leap second ends it. *)
Theorem C114_cpf_permissive_refuted : exists t, parse_cpf_with_mode always t Permissive = Err (BadCivil 57753).
Proof. exists (text ["10 1 57753 86400.5 0 1.0 1.0 1.0"; "99"]%string). vm_compute. reflexivity. Qed.
Example C114_case : let ls := map lit ["H2 GRAZ 7839 1 1 0"; "11 1.0 0.05 std"; "11 BROKEN"; "10 5.0"; "11 2.0 0.05 std"]%string in
  parse_crd always (unlines ls) = Err (NoSeconds (lit "11") 3) /\ map broken ls = [false; false; true; true; false] /\
  (exists f, parse_crd_with_mode always (unlines ls) Permissive = Ok f /\ length (d_points f) = 2%nat /\ st_pad (d_station f) = 7839%Z) /\
  parse_cpf always (text ["H1 CPF 2 SGF"; "10 1 60310 0.0 0 1.0 x 1.0"]%string) = Err (NoXyz 2).
Proof. cbn zeta. split; [vm_compute; reflexivity|]. split; [vm_compute; reflexivity|]. split; [|vm_compute; reflexivity]. eexists. split; [vm_compute; reflexivity|]. split; reflexivity. Qed.
Print Assumptions C114_crd_permissive.
Print Assumptions C114_crd_strict.
Print Assumptions C114_crd_error.
Print Assumptions C114_crd_modes.
Print Assumptions C114_cpf_strict.
Print Assumptions C114_cpf_error.
Print Assumptions C114_cpf_modes.
Print Assumptions C114_cpf_permissive_refuted.
