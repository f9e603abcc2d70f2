(** C182: RINEX observation files. *)
From Coq Require Import Ascii String List NArith ZArith Bool QArith Qabs Lia Lqa Zify ZifyBool ZifyN ZifyNat.
From Verif Require Import Base Text DecFloat Lsk_Spec Ilrs_Model Ilrs_Proofs Pck_Model Omm_Model Omm_Proofs Sp3_Model Sp3_Write Tle_Roundtrip Robs_Model Robs_Proofs.
Import ListNotations.
Close Scope Q_scope.
Local Open Scope N_scope.
Local Open Scope list_scope.

(** A value of a row is the number in its own sixteen columns: after the name of three, the value of the type in place [i] is read from the
    fourteen columns from [3 + 16 i] on, and is missing when they are blank or no number. *)
Theorem C182_columns types line sat vals : forallb is_ascii line = true -> read_row types line = Ok (Some (sat, vals)) ->
  sat = firstn 3 line /\
  forall i t, nth_error (keep (at_sys types (hd 32 line)) []) i = Some t -> NoDup (keep (at_sys types (hd 32 line)) []) ->
    at_key vals t = parse_f64 (trim (firstn 14 (skipn (3 + 16 * i) line))).
Proof.
  intros A. unfold read_row. cbn zeta. pose proof (ascii_trim_end line A) as B. destruct (Nat.ltb_spec (length (trim_end line)) 3) as [L|L]; [discriminate|].
  rewrite !slice_ascii by (first [exact B|lia]). cbn [obind]. rewrite Nat.sub_0_r. change (skipn 0 ?x) with x.
  rewrite (firstn_all2 (skipn 3 (trim_end line))) by (rewrite skipn_length; lia). rewrite read_plain.
  2:{ rewrite <- (firstn_skipn 3) in B. now apply ascii_inv in B. }
  cbn [obind]. intros E. injection E as <- <-.
  destruct (trim_end_split line) as (w & E & W). assert (F3 : firstn 3 (trim_end line) = firstn 3 line).
  { rewrite E at 2. rewrite firstn_app. replace (3 - length (trim_end line))%nat with 0%nat by lia. cbn [firstn]. now rewrite app_nil_r. }
  assert (HD : hd 32 (firstn 3 (trim_end line)) = hd 32 line). { rewrite F3. destruct line; reflexivity. }
  split; [exact F3|]. intros i t Hi ND.
  match goal with |- context [plain _ _ ?l _] => replace l with (keep (at_sys types (hd 32 line)) []) by (rewrite <- HD; reflexivity) end.
  set (ts := keep (at_sys types (hd 32 line)) []) in *.
  assert (S3 : skipn 3 line = skipn 3 (trim_end line) ++ w).
  { rewrite E at 1. rewrite skipn_app. replace (3 - length (trim_end line))%nat with 0%nat by lia. reflexivity. }
  assert (PB : plain (skipn 3 line) 0 ts [] = plain (skipn 3 (trim_end line)) 0 ts []) by (rewrite S3; apply plain_blank; exact W).
  match goal with |- at_key ?x t = _ => change x with (plain (skipn 3 (trim_end line)) 0 ts []) end. rewrite <- PB.
  assert (SK : skipn (3 + 16 * i) line = skipn (16 * i) (skipn 3 line)).
  { clear. generalize (16 * i)%nat as n. intros n. destruct line as [|a [|b [|c l]]]; cbn; try reflexivity; now rewrite ?skipn_nil. }
  rewrite SK. generalize (skipn 3 line) as p. intros p.
  assert (G : forall l j m, NoDup l -> (forall k, In k l -> at_key m k = None) -> forall n k, nth_error l n = Some k ->
    at_key (plain p j l m) k = parse_f64 (trim (firstn 14 (skipn ((j + n) * 16) p)))).
  { clear. assert (Out : forall l j m k, ~ In k l -> at_key (plain p j l m) k = at_key m k).
    { induction l as [|t l IH]; intros j m k N; [reflexivity|]. cbn [plain]. rewrite IH by (intros I; apply N; now right). unfold put.
      destruct (trim _) as [|c s]; [reflexivity|]. destruct (parse_f64 _); [|reflexivity]. rewrite at_upsert. destruct (str_eqb_spec t k) as [->|_]; [|reflexivity].
      exfalso. apply N. now left. }
    induction l as [|t l IH]; intros j m ND Z n k Hn; [destruct n; discriminate|]. apply NoDup_cons_iff in ND as (NI & ND). destruct n as [|n]; cbn [nth_error] in Hn; cbn [plain].
    - injection Hn as <-. rewrite Out by exact NI. rewrite Nat.add_0_r. unfold put. destruct (trim _) as [|c s] eqn:Q.
      + rewrite Z by now left. reflexivity.
      + destruct (parse_f64 (c :: s)); [rewrite at_upsert; destruct (str_eqb_spec t t); congruence|]. apply Z. now left.
    - rewrite (IH (S j) _ ND) with (n := n); [f_equal; f_equal; f_equal; f_equal; lia| |exact Hn].
      intros k' I. unfold put. destruct (trim _) as [|c s]; [apply Z; now right|]. destruct (parse_f64 _); [|apply Z; now right]. rewrite at_upsert.
      destruct (str_eqb_spec t k') as [->|_]; [contradiction|apply Z; now right]. }
  rewrite (G ts 0%nat [] ND (fun _ _ => eq_refl) i t Hi). rewrite Nat.mul_comm. reflexivity.
Qed.
Example C182_columns_case : read_row [(71, [lit "C1C"; lit "L1C"; lit "S1C"])] (lit "G01  20100000.125 8                      45.500") =
  Ok (Some (lit "G01", [(lit "C1C", Fin (20100000125 # 1000)); (lit "S1C", Fin (45500 # 1000))])).
Proof. vm_compute. reflexivity. Qed.

(** A written row reads back as the satellite and, for every declared type, its value to half a thousandth. *)
Theorem C182_row types sat vals : length sat = 3%nat -> forallb is_ascii sat = true -> is_ws (last sat 0) = false -> ~ In 10 sat ->
  (forall t v, In t (keep (at_sys types (hd 32 sat)) []) -> at_key vals t = Some v -> (length (fmt_fixedF 3 v) <= 14)%nat) ->
  exists got, read_row types (write_row types sat vals ++ [10]) = Ok (Some (sat, got)) /\
  forall k, match at_key vals k with
    | Some v => if existsb (str_eqb k) (keep (at_sys types (hd 32 sat)) []) then exists g, at_key got k = Some g /\ near (1 # 2000) g v else at_key got k = None
    | None => at_key got k = None
    end.
Proof. intros L A W N F. apply (row_back types sat vals); [repeat split; assumption|exact F]. Qed.
Example C182_row_case : let types := [(71, [lit "C1C"; lit "L1C"; lit "S1C"])] in let vals := [(lit "S1C", Fin (91 # 2)); (lit "C1C", Fin (20100000 # 1))] in
  write_row types (lit "G01") vals = lit "G01  20100000.000                          45.500" /\
  (forall t v, In t (keep (at_sys types (hd 32 (lit "G01"))) []) -> at_key vals t = Some v -> (length (fmt_fixedF 3 v) <= 14)%nat).
Proof.
  cbn zeta. split; [vm_compute; reflexivity|]. intros t v I E. cbn in I.
  repeat (destruct I as [<-|I]; [vm_compute in E; try discriminate E; injection E as <-; vm_compute; lia|]). destruct I.
Qed.

(** Every list of observation types is read back from its lines, thirteen to a line, whatever its length. *)
Theorem C182_types sys ts rest h : is_alpha sys = true -> Forall (fun t => t <> [] /\ inked t = true /\ forallb is_ascii t = true /\ (length t <= 3)%nat) ts ->
  N.of_nat (length ts) <= 99999 -> h_wait h = None -> ~ In sys (map fst (h_types h)) ->
  read_header h (map (fun b => pad_right 60 b ++ lit "SYS / # / OBS TYPES" ++ [10]) (sys_bodies sys ts) ++ rest) =
  read_header (H (h_marker h) (h_xyz h) (h_interval h) (h_types h ++ [(sys, ts)]) None) rest.
Proof.
  intros A F C W N. pose proof (sys_back (sys, ts) rest h (conj A (conj F C)) W) as E. cbn [fst snd] in E.
  rewrite upsert_sys_new in E by exact N. unfold with_types in E. etransitivity; [|exact E]. f_equal. f_equal.
  apply map_ext. intros b. unfold tline, hline, nl, tlabel. cbn [fst snd]. now rewrite <- app_assoc.
Qed.

(** The time of an epoch comes back as the nearest multiple of 100 ns. *)
Theorem C182_time utc_ok c n : ymd_ok (year c) (month c) (day c) = true -> hms_ok (hour c) (minute c) (second c) (nano c) = true -> N.of_nat n <= usize_max ->
  (forall c', utc_ok c' = true) -> second c * 1000000000 + nano c < 59999999950 ->
  exists c', read_epoch_line utc_ok (epoch_line c n ++ [10]) = Ok (Some (c', N.of_nat n)) /\
    year c' = year c /\ month c' = month c /\ day c' = day c /\ hour c' = hour c /\ minute c' = minute c /\
    nano c' mod 100 = 0 /\ nano c' < 1000000000 /\
    (Z.abs (Z.of_N (second c' * 1000000000 + nano c') - Z.of_N (second c * 1000000000 + nano c)) <= 50)%Z.
Proof.
  intros Y Hh U K L. rewrite epoch_line_back7 by (first [split; assumption|exact U]). pose proof (rounded7_near c) as (R1 & R2 & R3).
  assert (T : ticks7 c / 10000000 <? 60 = true).
  { unfold rounded7 in R1, R2, R3. cbn [second nano] in R1, R2, R3. revert R1 R2 R3. generalize (ticks7 c / 10000000) as q, (ticks7 c mod 10000000) as r. intros. lia. }
  rewrite T, K. exists (rounded7 c). repeat split; assumption.
Qed.
Example C182_time_case : read_epoch_line (fun _ => true) (epoch_line (Civil 2024 1 1 12 30 15 123456789) 3 ++ [10]) =
  Ok (Some (Civil 2024 1 1 12 30 15 123456800, 3)).
Proof. vm_compute. reflexivity. Qed.

(** What is needed of a file for it to come back *)
Definition C182_writable (utc_ok : civil -> bool) (o : obs_file) : Prop :=
  (forallb is_ascii (marker o) = true /\ (length (marker o) <= 60)%nat) /\ solid (marker o) /\ ~ In 10 (marker o) /\
  match xyz o with Some (a, b, c) => (length (fmt_fixedF 4 a) <= 13)%nat /\ (length (fmt_fixedF 4 b) <= 13)%nat /\ (length (fmt_fixedF 4 c) <= 13)%nat | None => True end /\
  match interval o with Some f => (length (fmt_fixedF 3 f) <= 60)%nat | None => True end /\
  Forall (fun p => is_alpha (fst p) = true /\ Forall (fun t => t <> [] /\ inked t = true /\ forallb is_ascii t = true /\ (length t <= 3)%nat) (snd p) /\
    N.of_nat (length (snd p)) <= 99999) (obs_types o) /\
  NoDup (map fst (obs_types o)) /\
  Forall (fun e => (ymd_ok (year (o_time e)) (month (o_time e)) (day (o_time e)) = true /\
      hms_ok (hour (o_time e)) (minute (o_time e)) (second (o_time e)) (nano (o_time e)) = true) /\
    ticks7 (o_time e) / 10000000 < 60 /\ utc_ok (rounded7 (o_time e)) = true /\ N.of_nat (length (o_sats e)) <= usize_max /\ NoDup (map fst (o_sats e)) /\
    Forall (fun p => (length (fst p) = 3%nat /\ forallb is_ascii (fst p) = true /\ is_ws (last (fst p) 0) = false /\ ~ In 10 (fst p)) /\
      forall t v, In t (keep (at_sys (obs_types o) (hd 32 (fst p))) []) -> at_key (snd p) t = Some v -> (length (fmt_fixedF 3 v) <= 14)%nat) (o_sats e)) (o_epochs o).
(** A file written and read is the same file: names, types, satellites and epochs as they were, numbers to half a unit of the last place
    printed, times to the nearest 100 ns. *)
Theorem C182_roundtrip utc_ok o : C182_writable utc_ok o -> exists text o', write_rinex_obs o = Ok text /\ read_rinex_obs utc_ok text = Ok o' /\
  marker o' = marker o /\
  match xyz o', xyz o with
  | Some (x, y, z), Some (u, v, w) => near (1 # 20000) x u /\ near (1 # 20000) y v /\ near (1 # 20000) z w | None, None => True | _, _ => False end /\
  match interval o', interval o with Some g, Some f => near (1 # 2000) g f | None, None => True | _, _ => False end /\
  obs_types o' = obs_types o /\
  Forall2 (fun a b => o_time a = rounded7 (o_time b) /\
    Forall2 (fun p q => fst p = fst q /\ forall k, match at_key (snd q) k with
      | Some v => if existsb (str_eqb k) (keep (at_sys (obs_types o) (hd 32 (fst q))) []) then exists g, at_key (snd p) k = Some g /\ near (1 # 2000) g v else at_key (snd p) k = None
      | None => at_key (snd p) k = None
      end) (o_sats a) (o_sats b)) (o_epochs o') (o_epochs o).
Proof. exact (file_back utc_ok o). Qed.
Definition C182_sample : obs_file :=
  Obs (lit "TINY") (Some (Fin (4331297 # 1), Fin (567556 # 1), Fin (- (46333 # 10)))) (Some (Fin (30 # 1)))
    [(69, [lit "C1X"]); (71, map (fun i => lit "L" ++ dec i) [1; 2; 3; 4; 5; 6; 7; 8; 9; 10; 11; 12; 13; 14; 15])]
    [OEpoch (Civil 2024 1 1 0 0 30 0) [(lit "E05", []); (lit "G01", [(lit "L15", Fin (45 # 1)); (lit "L2", Fin (- (7 # 2)))])]].
Example C182_case : C182_writable (fun _ => true) C182_sample /\
  exists text, write_rinex_obs C182_sample = Ok text /\ exists o', read_rinex_obs (fun _ => true) text = Ok o' /\ obs_types o' = obs_types C182_sample /\
    map (fun e => map fst (o_sats e)) (o_epochs o') = [[lit "E05"; lit "G01"]].
Proof.
  split.
  - unfold C182_writable, C182_sample. cbn [marker xyz interval obs_types o_epochs].
    split; [split; [reflexivity|cbn; lia]|]. split; [right; split; reflexivity|]. split; [cbn; intuition discriminate|].
    split; [vm_compute; lia|]. split; [vm_compute; lia|]. split.
    { constructor; [|constructor; [|constructor]]; cbn [fst snd]; (split; [reflexivity|split; [|vm_compute; discriminate]]).
      - constructor; [|constructor]. repeat split; [discriminate|cbn; lia].
      - apply Forall_map. repeat constructor; try discriminate; vm_compute; lia. }
    split; [repeat constructor; cbn; intuition discriminate|]. constructor; [|constructor]. cbn [o_time o_sats].
    split; [split; reflexivity|]. split; [vm_compute; reflexivity|]. split; [reflexivity|]. split; [vm_compute; discriminate|].
    split; [repeat constructor; cbn; intuition discriminate|].
    constructor; [|constructor; [|constructor]]; cbn [fst snd]; (split; [split; [reflexivity|split; [reflexivity|split; [reflexivity|cbn; intuition discriminate]]]|]).
    + intros t v _ E. discriminate E.
    + intros t v _ E. cbn [at_key] in E. destruct (str_eqb _ _); [injection E as <-; vm_compute; lia|]. destruct (str_eqb _ _); [injection E as <-; vm_compute; lia|discriminate E].
  - eexists. split; [vm_compute; reflexivity|]. eexists. split; [vm_compute; reflexivity|]. split; vm_compute; reflexivity.
Qed.

(** But an epoch within 50 ns of the next minute is printed with 60 seconds, and the whole file is refused. *)
Theorem C182_minute_refuted : exists o, write_rinex_obs o <> Panic /\
  (exists text, write_rinex_obs o = Ok text /\ read_rinex_obs (fun _ => true) text = Err BadEpochDate) /\
  map o_time (o_epochs o) = [Civil 2024 1 1 0 0 59 999999960].
Proof.
  exists (Obs (lit "TINY") None None [] [OEpoch (Civil 2024 1 1 0 0 59 999999960) []]). split; [vm_compute; discriminate|]. split; [|reflexivity].
  eexists. split; [vm_compute; reflexivity|]. vm_compute. reflexivity.
Qed.
(** This is so for every such epoch, after any readable ones. *)
Theorem C182_minute types utc_ok a e b rest done_ : Forall (good_epoch utc_ok types) a ->
  ymd_ok (year (o_time e)) (month (o_time e)) (day (o_time e)) = true ->
  hms_ok (hour (o_time e)) (minute (o_time e)) (second (o_time e)) (nano (o_time e)) = true -> N.of_nat (length (o_sats e)) <= usize_max ->
  59999999950 < second (o_time e) * 1000000000 + nano (o_time e) ->
  read_epochs utc_ok types (map (fun l => l ++ [10]) (flat_map (epoch_lines types) (a ++ e :: b)) ++ rest) None done_ = Err BadEpochDate.
Proof.
  intros A Y Hh U L. refine (blocks_refused utc_ok types a e b rest A (conj Y Hh) U _ done_).
  pose proof (rounded7_near (o_time e)) as (R1 & R2 & R3). unfold rounded7 in R1, R2, R3. cbn [second nano] in R1, R2, R3.
  assert (M : 100 * (ticks7 (o_time e) mod 10000000) <= 999999900) by (pose proof (N.mod_lt (ticks7 (o_time e)) 10000000 ltac:(discriminate)); lia).
  revert R1 R2 R3 M. generalize (ticks7 (o_time e) / 10000000) as q, (ticks7 (o_time e) mod 10000000) as r. intros. lia.
Qed.

(** Reading never panics on ASCII text. *)
Theorem C182_no_panic utc_ok text : forallb is_ascii text = true -> read_rinex_obs utc_ok text <> Panic.
Proof. exact (read_total utc_ok text). Qed.
(** It does panic on a row whose fourth byte is inside a character, and the writer on a name of the marker cut inside one. *)
Theorem C182_panic_refuted : exists text, read_rinex_obs (fun _ => true) text = Panic /\ (forallb is_ascii (removelast text) = false) /\
  exists o, write_rinex_obs o = Panic /\ marker o = [97] ++ flat_map (fun _ => [195; 169]) (seq 0 30).
Proof.
  exists (repeat 32 60 ++ lit "END OF HEADER" ++ [10] ++ lit "> 2024 01 01 00 00 30.0 0 1" ++ [10] ++ lit "G0" ++ [195; 169; 10]).
  split; [vm_compute; reflexivity|]. split; [vm_compute; reflexivity|].
  exists (Obs ([97] ++ flat_map (fun _ => [195; 169]) (seq 0 30)) None None [] []). split; [vm_compute; reflexivity|reflexivity].
Qed.
(** A value of more than fourteen columns is cut and moves those after it: here the first comes back without its last two digits
    and the next one is lost. *)
Theorem C182_wide_refuted : let types := [(71, [lit "C1C"; lit "L1C"])] in
  exists g, read_row types (write_row types (lit "G01") [(lit "C1C", Fin (1234567890123456 # 1)); (lit "L1C", Fin (1234567890 # 1))] ++ [10]) =
    Ok (Some (lit "G01", [(lit "C1C", Fin g)])) /\ Qeq_bool g 12345678901234 = true.
Proof. eexists. split; [vm_compute; reflexivity|]. vm_compute. reflexivity. Qed.
(** A satellite whose name has not three characters comes back under another name, or, with no values, not at all. *)
Theorem C182_name_refuted : let types := [(71, [lit "C1C"])] in
  (exists v, read_row types (write_row types (lit "G1") [(lit "C1C", Fin 1)] ++ [10]) = Ok (Some (lit "G1 ", v))) /\
  read_row types (write_row types (lit "G1") [] ++ [10]) = Ok None.
Proof. cbn zeta. split; [eexists|]; vm_compute; reflexivity. Qed.
(** A list of thirteen types of four characters is cut, and the file cannot be read any more. *)
Theorem C182_long_types_refuted : exists o text, write_rinex_obs o = Ok text /\ read_rinex_obs (fun _ => true) text = Err EarlyEnd /\
  obs_types o = [(71, repeat (lit "C1CX") 13)].
Proof. exists (Obs (lit "TINY") None None [(71, repeat (lit "C1CX") 13)] []). eexists. split; [vm_compute; reflexivity|]. split; vm_compute; reflexivity. Qed.

Print Assumptions C182_columns.
Print Assumptions C182_row.
Print Assumptions C182_types.
Print Assumptions C182_time.
Print Assumptions C182_roundtrip.
Print Assumptions C182_minute_refuted.
Print Assumptions C182_minute.
Print Assumptions C182_no_panic.
Print Assumptions C182_panic_refuted.
Print Assumptions C182_wide_refuted.
Print Assumptions C182_name_refuted.
Print Assumptions C182_long_types_refuted.
