(** Theorems about station solutions, orbit exchange, antenna offsets and beacon observations: C123 to C127. *)
From Coq Require Import Ascii String List NArith ZArith Lia Bool QArith Qround Qabs Lqa.
From Verif Require Import Base Text DecFloat Sort Lsk_Spec Sp3_Model Omm_Model Omm_Proofs Sp3_Write Oem_Model Ilrs_Model Nav_Model Igs_Model Igs_Spec Igs_Proofs Igs_Orbex Igs_Antex Igs_Doris.
From Verif Require Lsk_Proofs Cal_Proofs.
Import ListNotations.
Local Open Scope N_scope.
Local Open Scope string_scope.

(** lines of text *)
Definition txt (ls : list string) : str := flat_map (fun l => lit l ++ [10])%list ls.

(** * C123 *)
(** What is read of a file: the agency is the third word of its last heading that has one; each station occurs once. A station is there
    exactly when the readable lines of estimates give all three of its coordinates; each is the last one given, and the point, solution and epoch
    are those of the last line about the station. Its velocity is there when all three components are. *)
Theorem C123_stations text m ag sts : read_sinex text m = Ok (ag, sts) ->
  ag = heading snx_head 2 (until snx_end (text_lines text)) /\ NoDup (map s_code sts) /\
  forall st, In st sts <-> exists e x y z, let es := readable text in let c := s_code st in
    last_line es c = Some e /\ s_point st = e_point e /\ s_soln st = e_soln e /\ s_epoch st = e_epoch e /\
    last_value es c (lit "STAX") = Some x /\ last_value es c (lit "STAY") = Some y /\ last_value es c (lit "STAZ") = Some z /\ s_pos st = (x, y, z) /\
    match s_vel st with
    | Some (u, v, w) => last_value es c (lit "VELX") = Some u /\ last_value es c (lit "VELY") = Some v /\ last_value es c (lit "VELZ") = Some w
    | None => last_value es c (lit "VELX") = None \/ last_value es c (lit "VELY") = None \/ last_value es c (lit "VELZ") = None
    end.
Proof.
  unfold read_sinex. pose proof (sinex_loop_spec m (text_lines text) [] 1 NoBlock eq_refl (fun _ => Forall_nil _)) as L. cbv zeta in L. cbn [app] in L.
  change (folded (flat_map pick (each est_in []))) with (@nil (str * est_row)) in L. change (heading snx_head 2 []) with (@nil N) in L.
  destruct (sinex_loop _ _ _ _ _ _) as [(a, rows)|e|]; cbn [obind]; try discriminate. destruct L as (-> & -> & _). intros X. injection X as <- <-. split; [reflexivity|].
  change (flat_map pick (each est_in (until snx_end (text_lines text)))) with (readable text). set (es := readable text). clearbody es. split; [apply stations_nodup, folded_nodup|].
  intros st. rewrite in_flat_map. split.
  - intros ((c & r) & I & S). cbn [snd] in S. apply look_in in I; [|apply folded_nodup]. rewrite folded_look in I. unfold row_of in I. destruct (last_line es c) as [e|] eqn:L; [|discriminate].
    assert (R := I). injection R as R. subst r. cbn [station_of] in S. clear I.
    destruct (last_value es c (lit "STAX")) as [x|] eqn:X; [|contradiction]. destruct (last_value es c (lit "STAY")) as [y|] eqn:Y; [|contradiction]. destruct (last_value es c (lit "STAZ")) as [z|] eqn:Z; [|contradiction].
    destruct S as [<-|[]]. exists e, x, y, z. cbv zeta. cbn [s_code s_point s_soln s_epoch s_pos s_vel]. rewrite X, Y, Z. repeat (split; [trivial|]).
    destruct (last_value es c (lit "VELX")) as [u|]; [|now left]. destruct (last_value es c (lit "VELY")) as [v|]; [|now right; left]. destruct (last_value es c (lit "VELZ")) as [w|]; [|now right; right]. auto.
  - intros (e & x & y & z & H). cbv zeta in H. destruct st as [c p s ep q v]. cbn [s_code s_point s_soln s_epoch s_pos s_vel] in H. destruct H as (L & -> & -> & -> & X & Y & Z & -> & V).
    eexists (c, _). split. { apply look_in; [apply folded_nodup|]. rewrite folded_look. unfold row_of. rewrite L. reflexivity. }
    cbn [station_of]. rewrite X, Y, Z. left. f_equal. destruct v as [((u, v), w)|]; [destruct V as (-> & -> & ->); reflexivity|].
    destruct V as [V|[V|V]]; rewrite V; [reflexivity|now destruct (last_value es c (lit "VELX"))|]. destruct (last_value es c (lit "VELX")); [|reflexivity]. now destruct (last_value es c (lit "VELY")).
Qed.
(** Strict reading succeeds exactly when every line of estimates has nine words, the ninth a number; permissive reading always does. *)
Theorem C123_strict text : (exists r, read_sinex text Strict = Ok r) <-> Forall (fun l => estimate_of l <> None) (estimates text).
Proof.
  unfold read_sinex. pose proof (sinex_loop_spec Strict (text_lines text) [] 1 NoBlock eq_refl (fun _ => Forall_nil _)) as L. cbv zeta in L. cbn [app] in L.
  change (folded (flat_map pick (each est_in []))) with (@nil (str * est_row)) in L. change (heading snx_head 2 []) with (@nil N) in L.
  change (each est_in (until snx_end (text_lines text))) with (estimates text) in L. change (Forall line_ok (estimates text)) with (Forall (fun l => estimate_of l <> None) (estimates text)) in L.
  destruct (sinex_loop _ _ _ _ _ _) as [(a, rows)|e|]; cbn [obind]; [|split; [intros (? & ?); discriminate|tauto]|contradiction].
  destruct L as (_ & _ & F). split; [intros _; now apply F|]. intros _. eauto.
Qed.
Theorem C123_permissive text : exists r, read_sinex text Permissive = Ok r.
Proof.
  unfold read_sinex. pose proof (sinex_loop_spec Permissive (text_lines text) [] 1 NoBlock eq_refl (fun _ => Forall_nil _)) as L. cbv zeta in L.
  change (folded (flat_map pick (each est_in []))) with (@nil (str * est_row)) in L. change (heading snx_head 2 []) with (@nil N) in L.
  destruct (sinex_loop _ _ _ _ _ _) as [(a, rows)|e|]; cbn [obind]; [eauto|destruct L; discriminate|contradiction].
Qed.
Definition two_solutions : str := txt
  ["%=SNX 2.02 IGN 24:001:00000"; "+SOLUTION/ESTIMATE"; "*INDEX TYPE__ CODE PT SOLN _REF_EPOCH__ UNIT S VALUE STD";
   " 1 STAX GRAZ A 1 10:001:00000 m 2 100.5 0"; " 2 STAY GRAZ A 1 10:001:00000 m 2 200.5 0"; " 3 STAZ GRAZ A 1 10:001:00000 m 2 300.5 0";
   " 4 STAX GRAZ A 2 20:001:00000 m 2 111.5 0"; "-SOLUTION/ESTIMATE"; "%ENDSNX"].
(** The solutions of one station are not kept apart: here the first coordinate is of solution 2, the others are of solution 1 ten years before, and all is labelled solution 2. *)
Theorem C123_mixed_refuted : exists ag st e, read_sinex two_solutions Strict = Ok (ag, [st]) /\ s_soln st = lit "2" /\
  In e (readable two_solutions) /\ e_soln e = lit "1" /\ e_type e = lit "STAY" /\ snd (fst (s_pos st)) = e_value e /\ s_epoch st <> e_epoch e.
Proof.
  eexists _, _, (Est (lit "STAY") (lit "GRAZ") (lit "A") (lit "1") _ _). split; [vm_compute; reflexivity|]. split; [reflexivity|]. split.
  { right. left. vm_compute. reflexivity. } repeat (split; [reflexivity|]). vm_compute. discriminate.
Qed.
Example C123_case : exists st, read_sinex (txt ["%=SNX 2.02 IGN"; "+SOLUTION/ESTIMATE"; " 1 STAX GRAZ A 1 10:001:43200 m 2 100.5 0"; " 2 STAY GRAZ A 1 10:001:43200 m 2 200.5 0"; "short";
   " 3 STAZ GRAZ A 1 10:001:43200 m 2 300.5 0"; " 4 STAX WTZR A 1 10:001:43200 m 2 100.5 0"; "-SOLUTION/ESTIMATE"; " 4 STAX GRAZ A 2 20:001:00000 m 2 111.5 0"; "%ENDSNX"; "+SOLUTION/ESTIMATE"; " 4 STAX GRAZ A 2 20:001:00000 m 2 111.5 0"]) Permissive = Ok (lit "IGN", [st])
   /\ s_code st = lit "GRAZ" /\ s_vel st = None.
Proof. eexists. split; [vm_compute; reflexivity|]. split; reflexivity. Qed.

(** * C124 *)
Definition day_of_year (y m d : Z) : Z := (day_number y m d - day_number y 1 1 + 1)%Z.
Definition mjd_of (y m d : Z) : Z := (day_number y m d - day_number 1858 11 17)%Z.
Lemma doy_bounds y m d : (1 <= y)%Z -> date_ok y m d -> (1 <= day_of_year y m d <= if leap_year y then 366 else 365)%Z.
Proof.
  intros Y (M & D). unfold day_of_year. rewrite !Cal_Proofs.day_number_closed by lia. rewrite Cal_Proofs.length_before in D by lia.
  assert (B : forall l k, (0 <= l <= 1 -> 1 <= k <= 12 -> 0 <= Cal_Proofs.before l k <= 334 + l)%Z).
  { intros l k L K. assert (C : k = 1%Z \/ k = 2%Z \/ k = 3%Z \/ k = 4%Z \/ k = 5%Z \/ k = 6%Z \/ k = 7%Z \/ k = 8%Z \/ k = 9%Z \/ k = 10%Z \/ k = 11%Z \/ k = 12%Z) by lia.
    assert (L' : l = 0%Z \/ l = 1%Z) by lia. clear -C L'. destruct L' as [->| ->]; repeat destruct C as [->|C]; try subst k; vm_compute; split; discriminate. }
  change (Cal_Proofs.before (Cal_Proofs.leap y) 1) with 0%Z. set (Y0 := (365 * (y - 1) + (y - 1) / 4 - (y - 1) / 100 + (y - 1) / 400)%Z) in *. clearbody Y0.
  assert (L : Cal_Proofs.leap y = if leap_year y then 1%Z else 0%Z) by reflexivity. rewrite L in *.
  destruct (Z.eqb_spec m 12).
  - pose proof (B (if leap_year y then 1%Z else 0%Z) m). destruct (leap_year y); lia.
  - pose proof (B (if leap_year y then 1%Z else 0%Z) m). pose proof (B (if leap_year y then 1%Z else 0%Z) (m + 1)%Z). destruct (leap_year y); lia.
Qed.
Lemma yo_exact y m d s : (1 <= y <= 262142)%Z -> date_ok y m d -> exists x, yo_epoch y (Z.to_N (day_of_year y m d)) (Fin s) = Fin x /\ (x == inject_Z (mjd_of y m d) + s / 86400)%Q.
Proof.
  intros Y D. pose proof (doy_bounds y m d ltac:(lia) D) as B. set (k := day_of_year y m d) in *. unfold yo_epoch. cbv zeta. replace (N.max (Z.to_N k) 1) with (Z.to_N k) by lia.
  unfold yo_ok. rewrite Z2N.id by lia.
  replace ((-262143 <=? y) && (y <=? 262142) && (1 <=? k) && (k <=? (if leap_year y then 366 else 365)))%Z with true.
  2: { symmetry. repeat (apply andb_true_intro; split); apply Z.leb_le; lia. }
  cbn [fplus fover]. eexists. split; [reflexivity|]. unfold yo_mjd. rewrite Z2N.id by lia.
  replace (day_number y 1 1 + k - 1 - day_number 1858 11 17)%Z with (mjd_of y m d) by (unfold mjd_of, k, day_of_year; lia). reflexivity.
Qed.
(** A station epoch with a year of two digits, a day of the year and a second of the day is the modified Julian date of that time, years 80 to 99 being of the twentieth century. *)
Theorem C124_sinex a b c yy m d s : ~ In 58 a -> ~ In 58 b -> ~ In 58 c -> let y := (if yy <? 80 then 2000 + yy else 1900 + yy)%Z in
  parse_int i32_max a = Some yy -> (0 <= yy <= 99)%Z -> date_ok y m d -> parse_uint u32_max b = Some (Z.to_N (day_of_year y m d)) -> parse_f64 c = Some (Fin s) ->
  exists x, sinex_epoch (a ++ 58 :: b ++ 58 :: c)%list = Fin x /\ (x == inject_Z (mjd_of y m d) + s / 86400)%Q.
Proof.
  intros A B C y Py Y D Pd Ps. unfold sinex_epoch. rewrite !Lsk_Proofs.split_on_app by assumption. rewrite Lsk_Proofs.split_on_none by assumption. rewrite Py, Pd, Ps. cbn [or_else].
  replace (if (yy =? 0)%Z then 2000%Z else if (80 <=? yy)%Z then (1900 + yy)%Z else (2000 + yy)%Z) with y by (unfold y; destruct (Z.eqb_spec yy 0), (Z.leb_spec 80 yy), (Z.ltb_spec yy 80); lia).
  apply yo_exact; [unfold y; destruct (Z.ltb_spec yy 80); lia|exact D].
Qed.
(** An orbit epoch line with a year, a day of the year and a second of the day likewise. *)
Theorem C124_orbex l ys ds ss more y m d s cur : split_ws (trim (trim_hash l)) = ys :: ds :: ss :: more ->
  parse_int i32_max ys = Some y -> (1 <= y <= 262142)%Z -> date_ok y m d -> parse_uint u32_max ds = Some (Z.to_N (day_of_year y m d)) -> parse_f64 ss = Some (Fin s) ->
  exists x, ox_epoch l cur = Fin x /\ (x == inject_Z (mjd_of y m d) + s / 86400)%Q.
Proof. intros W Py Y D Pd Ps. unfold ox_epoch. rewrite W, Py, Pd, Ps. cbn [or_else]. now apply yo_exact. Qed.
(** Other epochs are not refused, in either mode: without two colons, or on a day the year does not have, the epoch is 1858-11-17; day 0 is day 1. *)
Theorem C124_silent : (forall t, length (split_on 58 t) <> 3%nat -> sinex_epoch t = Fin 0) /\
  (forall y k s, (if leap_year y then 366 else 365) < k -> yo_epoch y k s = Fin 0) /\ (forall y s, yo_epoch y 0 s = yo_epoch y 1 s).
Proof.
  split; [|split].
  - intros t H. unfold sinex_epoch. destruct (split_on 58 t) as [|a [|b [|c [|]]]]; try reflexivity. now cbn in H.
  - intros y k s H. unfold yo_epoch. cbv zeta. replace (yo_ok y (N.max k 1)) with false; [reflexivity|]. symmetry. unfold yo_ok. apply andb_false_iff. right. apply Z.leb_gt. destruct (leap_year y); lia.
  - reflexivity.
Qed.
(** A year of four digits, which later versions of the format allow, is counted from 1900: 2024 becomes 3924. *)
Theorem C124_year_refuted : sinex_epoch (lit "2024:001:00000") = Fin (inject_Z (mjd_of 3924 1 1) + 0 / 86400)%Q.
Proof. unfold mjd_of. rewrite !Cal_Proofs.day_number_closed by lia. vm_compute. reflexivity. Qed.
Example C124_case : date_ok 2024 12 31 /\ day_of_year 2024 12 31 = 366%Z /\ parse_uint u32_max (lit "366") = Some 366 /\ parse_int i32_max (lit "24") = Some 24%Z /\ (exists x, parse_f64 (lit "43200") = Some (Fin x)).
Proof. split; [split; cbn; lia|]. split; [unfold day_of_year; rewrite !Cal_Proofs.day_number_closed by lia; reflexivity|]. split; [reflexivity|]. split; [reflexivity|]. eexists. vm_compute. reflexivity. Qed.

(** * C125 *)
(** What is read of an orbit file: the entries its lines of data say, in order, each by the last section and the last epoch above it. *)
Theorem C125_entries text m p : read_orbex text m = Ok p ->
  ox_version p = heading ox_head 1 (ox_lines text) /\ ox_orbits p = flat_map orb_of (ox_of Orb text) /\ ox_clocks p = flat_map clk_of (ox_of Clk text) /\ ox_attitudes p = flat_map att_of (ox_of Att text).
Proof.
  unfold read_orbex. pose proof (ox_loop_spec m (text_lines text) [] 1 (fun k => Forall_nil _)) as L. cbv zeta in L. cbn [app] in L.
  change (ox_when []) with (Fin 0) in L. change (ox_kind []) with NoSection in L. change (prod (heading ox_head 1 []) []) with (Orbex [] [] [] []) in L.
  intros E. rewrite E in L. destruct L as (-> & _). unfold prod, ox_of, ox_lines. cbn [ox_version ox_orbits ox_clocks ox_attitudes]. auto.
Qed.
(** It can be read exactly when every number is readable and, in strict mode, no line of data is short of words. *)
Theorem C125_readable text m : (exists p, read_orbex text m = Ok p) <-> forall k, Forall (ox_good m k) (ox_of k text).
Proof.
  unfold read_orbex. pose proof (ox_loop_spec m (text_lines text) [] 1 (fun k => Forall_nil _)) as L. cbv zeta in L. cbn [app] in L.
  change (ox_when []) with (Fin 0) in L. change (ox_kind []) with NoSection in L. change (prod (heading ox_head 1 []) []) with (Orbex [] [] [] []) in L.
  change (all_good m (until ox_end (text_lines text))) with (forall k, Forall (ox_good m k) (ox_of k text)) in L.
  destruct (ox_loop _ _ _ _ _ _) as [p|e|]; [split; [tauto|eauto]|split; [intros (? & ?); discriminate|tauto]|contradiction].
Qed.
(** An entry has a position exactly as given and a velocity exactly when six numbers are. *)
Theorem C125_velocity e sat a b c more : let ws := sat :: a :: b :: c :: more in parse_f64 a <> None -> parse_f64 b <> None -> parse_f64 c <> None ->
  exists o, orb_of (e, ws) = [o] /\ o_sat o = sat /\ o_epoch o = e /\ (length more < 3 -> o_vel o = None)%nat.
Proof.
  intros ws A B C. destruct (parse_f64 a) as [x|] eqn:X, (parse_f64 b) as [y|] eqn:Y, (parse_f64 c) as [z|] eqn:Z; try congruence.
  unfold ws, orb_of, three, number. cbn [nth_error Nat.add hd]. rewrite X, Y, Z. eexists. split; [reflexivity|]. split; [reflexivity|]. split; [reflexivity|]. cbn [o_vel].
  destruct more as [|u [|v [|w t]]]; cbn [length nth_error]; intros L; try lia; [reflexivity|now destruct (parse_f64 u)|destruct (parse_f64 u); [now destruct (parse_f64 v)|reflexivity]].
Qed.
Definition bad_number : str := txt ["%=ORBEX 0.09"; "## 2024 001 00000"; "#ORB"; " G01 1.5 x 3.5"; " G02 1.5 2.5 3.5"; "%ENDORBEX"].
(** Errors are said to be raised in strict mode only; a bad number raises one in permissive mode too, and the good lines are lost. *)
Theorem C125_permissive_refuted : read_orbex bad_number Permissive = Err (BadValue 4).
Proof. vm_compute. reflexivity. Qed.
Example C125_case : exists p o, read_orbex (txt ["%=ORBEX 0.09"; "+FILE/DESCRIPTION"; "## 2024 001 43200"; "#ORB"; " G01 1.5 2.5 3.5"; "## 2024 002 00000"; " G02 1.5 2.5 3.5 4.5 5.5 6.5"; "#CLK"; " G01 0.25"; "#ATT"; " G01 1 0 0 0"; "%ENDORBEX"; " G09 1"]) Strict = Ok p
  /\ ox_version p = lit "0.09" /\ nth_error (ox_orbits p) 1 = Some o /\ o_sat o = lit "G02" /\ (length (ox_orbits p) = 2 /\ length (ox_clocks p) = 1 /\ length (ox_attitudes p) = 1)%nat.
Proof. eexists _, _. split; [vm_compute; reflexivity|]. split; [reflexivity|]. split; [reflexivity|]. repeat split. Qed.

(** * C126 *)
(** two offsets agree to half of a hundredth *)
Definition pco_near (p q : pco) : Prop := let '(a, b, c) := p in let '(x, y, z) := q in near (1 # 200) a x /\ near (1 # 200) b y /\ near (1 # 200) c z.
(** A written catalogue reads back with the same antennas, each with the same frequencies, and the offsets to half of a hundredth: names of at most sixty bytes without
    blanks at their ends, frequencies of one word, offsets that leave a blank in a field of ten. *)
Theorem C126_round_trip c : good_catalog c -> exists text, @write_antex unit c = Ok text /\ let c' := read_antex text in
  (forall n, match look n c, look n c' with
             | Some a, Some a' => forall f, match look f a, look f a' with Some p, Some p' => pco_near p' p | None, None => True | _, _ => False end
             | None, None => True
             | _, _ => False
             end).
Proof.
  intros G. eexists. split; [now apply written|]. cbv zeta. rewrite read_back by exact G. destruct G as (D & F). intros n. rewrite puts_look by now apply sorted_nodup. rewrite sorted_look by exact D.
  destruct (look n c) as [a|] eqn:E; [|exact I]. apply look_in in E; [|exact D]. rewrite Forall_forall in F. destruct (F _ E) as (_ & (Da & _)). cbn [snd] in Da.
  intros f. unfold rda. rewrite puts_look by now apply sorted_nodup. rewrite sorted_look by exact Da. destruct (look f a) as [((x, y), z)|]; [|exact I]. cbn [rd pco_near]. auto using rd1_near.
Qed.
(** Only lines with six of the labels have any effect. *)
Theorem C126_ignored text : let ls := filter (fun l => existsb (str_eqb (trim (get_from l 60))) labels) (text_lines text) in
  read_antex text = t_cat (fold_left antex_line ls (AntState [] None [] None)).
Proof. unfold read_antex. now rewrite known_only. Qed.
Definition one (n f : string) (p : pco) : catalog := [(lit n, [(lit f, p)])].
(** "Round-trips exactly" fails: a tenth of a hundredth is lost. *)
Theorem C126_exact_refuted : exists text, @write_antex unit (one "AOAD/M_T        NONE" "G01" (Fin (1 # 1000), Fin 0, Fin 0)%Q) = Ok text /\
  exists z, look (lit "G01") (or_else (look (lit "AOAD/M_T        NONE") (read_antex text)) []) = Some (Fin z, Fin z, Fin z) /\ (z == 0)%Q.
Proof. eexists. split; [vm_compute; reflexivity|]. eexists. split; vm_compute; reflexivity. Qed.
(** An offset that fills its field runs into the one before, and the frequency is lost without an error. *)
Theorem C126_glued_refuted : exists text, @write_antex unit (one "AOAD/M_T        NONE" "G01" (Fin 0, Fin (-100000), Fin 0)%Q) = Ok text /\ look (lit "AOAD/M_T        NONE") (read_antex text) = Some [].
Proof. eexists. split; vm_compute; reflexivity. Qed.
(** Names that agree in their first sixty bytes become one. *)
Theorem C126_names_refuted : exists n n' text, n <> n' /\ @write_antex unit [(n, []); (n', [])] = Ok text /\ length (read_antex text) = 1%nat.
Proof. exists (repeat 65 61), (repeat 65 60 ++ [66])%list. eexists. split; [vm_compute; discriminate|]. split; vm_compute; reflexivity. Qed.
(** A frequency of two words comes back as the first. *)
Theorem C126_words_refuted : exists text, @write_antex unit (one "A" "G 1" (Fin 0, Fin 0, Fin 0)%Q) = Ok text /\ exists p, look (lit "A") (read_antex text) = Some [(lit "G", p)].
Proof. eexists. split; [vm_compute; reflexivity|]. eexists. vm_compute. reflexivity. Qed.
Example C126_case : good_catalog [(lit "TRM59800.00     SCIT", [(lit "G02", (Fin (25 # 100), Fin (-(13 # 10)), Fin (8857 # 100))); (lit "G01", (Fin (25 # 100), Fin (-(13 # 10)), Fin (8857 # 100)))]%Q); (lit "AOAD/M_T        NONE", [])].
Proof.
  assert (P : forall f, f = lit "G01" \/ f = lit "G02" -> good_freq f) by (intros f [->| ->]; repeat split; try discriminate; cbn; lia).
  split; [repeat constructor; cbn; intuition discriminate|]. apply Forall_cons; [|apply Forall_cons; [|constructor]]; cbn [fst snd].
  - split; [split; [right; split; reflexivity|split; [cbn; lia|out]]|]. split; [repeat constructor; cbn; intuition discriminate|].
    apply Forall_cons; [|apply Forall_cons; [|constructor]]; (split; [apply P; auto|repeat split; vm_compute; discriminate]).
  - split; [split; [right; split; reflexivity|split; [cbn; lia|out]]|]. split; constructor.
Qed.

(** * C127 *)
(** The date of an epoch line is counted exactly: midnight of the day and the time of day, for every year from 1. *)
Theorem C127_epoch y m d h mi s : (1 <= y)%Z -> 1 <= m <= 12 ->
  exists x, date_to_mjd y m d h mi (Fin s) = Fin x /\ (x == inject_Z (mjd_of y (Z.of_N m) (Z.of_N d)) + (inject_Z (Z.of_N h) * 3600 + inject_Z (Z.of_N mi) * 60 + s) / 86400)%Q.
Proof. unfold mjd_of. rewrite mjd_zero_day. apply date_mjd. Qed.
(** What is read of a file of ASCII: header fields by label, columns and last occurrence; then an observation for every line that begins with D and three bytes, below an
    epoch, with that epoch, the three bytes and the rest; every other line that is neither empty nor an epoch is counted, and so is an observation without a rest. *)
Theorem C127_read text : forallb is_ascii text = true -> let ls := map trim_eol (split_nl text) in let h := d_head ls in
  exists p, parse_doris text = Ok p /\ d_obs p = each d_obs_of (d_body ls) /\ d_unsupported p = length (each d_counted (d_body ls)) /\
    h_version (d_header p) = d_field (lit "RINEX VERSION / TYPE") 0 9 h /\ h_program (d_header p) = d_field (lit "PGM / RUN BY / DATE") 0 20 h /\ h_agency (d_header p) = d_field (lit "PGM / RUN BY / DATE") 20 40 h /\
    h_marker (d_header p) = d_field (lit "MARKER NAME") 0 60 h /\ h_antenna (d_header p) = d_field (lit "ANT # / TYPE") 20 60 h /\ h_receiver (d_header p) = d_field (lit "REC # / TYPE / VERS") 20 40 h.
Proof.
  intros A ls h. assert (F : Forall (fun l => forallb is_ascii l = true) (split_nl text)).
  { apply Forall_forall. intros l I. apply forallb_forall. intros c J. rewrite forallb_forall in A. apply A. assert (G : forall s l, In l (split_nl s) -> incl l s).
    { clear. induction s as [|x s IH]; cbn [split_nl]; intros l I; [destruct I|]. destruct (N.eqb x 10).
      { destruct I as [<-|I]; [intros z []|]. apply incl_tl. now apply IH. }
      destruct (split_nl s) as [|l0 t]; [destruct I as [<-|[]]; intros z [<-|[]]; now left|]. destruct I as [<-|I]; [|apply incl_tl, IH; now right].
      intros z [<-|J]; [now left|]. right. apply (IH l0); [now left|exact J]. }
    now apply (G text l). }
  unfold parse_doris. change (DorisHeader [] [] [] [] [] []) with (d_header_of []). rewrite doris_head_spec by exact F. eexists. split; [reflexivity|]. cbn [app d_obs d_unsupported d_header]. unfold d_header_of. cbn [h_version h_program h_agency h_marker h_antenna h_receiver]. repeat split.
Qed.
Definition two_line_record : str := txt
  ["     4.00           O                   D                   RINEX VERSION / TYPE"; "                                                            END OF HEADER";
   "> 2024 01 02 00 00 00.0"; "D01  1234.5  2345.5"; "     3456.5  4567.5"; "D02"].
(** The lines that continue a record are promised to be joined to it; they never are: they are counted as unsupported, and the record keeps its first line only. *)
Theorem C127_continuation_refuted : exists p o, parse_doris two_line_record = Ok p /\ nth_error (d_obs p) 0 = Some o /\ d_raw o = lit "1234.5  2345.5" /\ d_unsupported p = 2%nat.
Proof. eexists _, _. split; [vm_compute; reflexivity|]. split; [reflexivity|]. split; reflexivity. Qed.
Theorem C127_lines_lost before c l : c <> 62 -> c <> 68 -> d_obs_of before (c :: l) = [] /\ d_counted before (c :: l) = [c :: l].
Proof.
  intros A B. assert (O : d_obs_of before (c :: l) = []) by (unfold d_obs_of, first_is; destruct (N.eqb_spec c 68); [contradiction|reflexivity]).
  split; [exact O|]. unfold d_counted. rewrite O. unfold d_data. destruct (N.eqb_spec c 62); [contradiction|reflexivity].
Qed.
(** The count is said to be of records skipped; one without a payload is counted and yet kept. *)
Theorem C127_skipped_refuted : exists p o, parse_doris two_line_record = Ok p /\ nth_error (d_obs p) 1 = Some o /\ d_raw o = [] /\ length (d_obs p) = 2%nat /\ (d_unsupported p + length (d_obs p) = 4)%nat.
Proof. eexists _, _. split; [vm_compute; reflexivity|]. split; [reflexivity|]. repeat split. Qed.
(** Unreadable fields of an epoch are not refused: they are zero. *)
Theorem C127_unreadable y mo d h mi s more cur : parse_int i32_max y = None -> parse_uint u32_max mo = None -> parse_uint u32_max d = None ->
  forall l, split_ws l = y :: mo :: d :: h :: mi :: s :: more -> doris_epoch l cur = Some (date_to_mjd 0 0 0 (or_else (parse_uint u32_max h) 0) (or_else (parse_uint u32_max mi) 0) (or_else (parse_f64 s) (Fin 0))).
Proof. intros Y M D l W. unfold doris_epoch. rewrite W, Y, M, D. reflexivity. Qed.
Example C127_case : forallb is_ascii two_line_record = true /\ exists p o x, parse_doris two_line_record = Ok p /\ h_version (d_header p) = lit "4.00" /\ nth_error (d_obs p) 0 = Some o /\ d_sat o = lit "D01" /\ d_epoch o = Fin x /\ (x == 60311)%Q.
Proof. split; [reflexivity|]. eexists _, _, _. split; [vm_compute; reflexivity|]. split; [reflexivity|]. split; [reflexivity|]. split; [reflexivity|]. split; [reflexivity|]. vm_compute. reflexivity. Qed.

Print Assumptions C123_stations.
Print Assumptions C123_strict.
Print Assumptions C123_permissive.
Print Assumptions C123_mixed_refuted.
Print Assumptions C124_sinex.
Print Assumptions C124_orbex.
Print Assumptions C124_silent.
Print Assumptions C124_year_refuted.
Print Assumptions C125_entries.
Print Assumptions C125_readable.
Print Assumptions C125_velocity.
Print Assumptions C125_permissive_refuted.
Print Assumptions C126_round_trip.
Print Assumptions C126_ignored.
Print Assumptions C126_exact_refuted.
Print Assumptions C126_glued_refuted.
Print Assumptions C126_names_refuted.
Print Assumptions C126_words_refuted.
Print Assumptions C127_epoch.
Print Assumptions C127_read.
Print Assumptions C127_continuation_refuted.
Print Assumptions C127_lines_lost.
Print Assumptions C127_skipped_refuted.
Print Assumptions C127_unreadable.
