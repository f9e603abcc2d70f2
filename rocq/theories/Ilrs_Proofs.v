(** Readers and writer of the laser ranging files against [Ilrs_Spec]. *)
From Coq Require Import Ascii String List NArith ZArith Bool QArith Qabs Qround Lia Lqa.
From Verif Require Import Base Text DecFloat Lsk_Spec Cal_Proofs Sp3_Model Omm_Model Omm_Proofs Sp3_Write Oem_Model Oem_Epoch Ilrs_Model Ilrs_Cal Ilrs_Spec.
Import ListNotations.
Local Open Scope N_scope.

(** ** Words *)
Lemma split_ws_cons c t : split_ws (c :: t) =
  if is_ws c then split_ws t else match t with [] => [[c]] | d :: _ => if is_ws d then [c] :: split_ws t
    else match split_ws t with [] => [[c]] | w :: ws => (c :: w) :: ws end end.
Proof. reflexivity. Qed.
Lemma split_ws_snoc s c : is_ws c = true -> split_ws (s ++ [c]) = split_ws s.
Proof.
  intros C. induction s as [|a [|b s] IH].
  - cbn. now rewrite C.
  - cbn. rewrite C. destruct (is_ws a); reflexivity.
  - cbn [app] in *. rewrite (split_ws_cons a (b :: s)), (split_ws_cons a (b :: s ++ [c])). rewrite IH. reflexivity.
Qed.
Lemma split_ws_trim_end s : split_ws (trim_end s) = split_ws s.
Proof.
  induction s as [|c s IH] using rev_ind; [reflexivity|]. unfold trim_end in *. rewrite rev_app_distr. cbn [rev app trim_start].
  destruct (is_ws c) eqn:C; [rewrite IH; symmetry; now apply split_ws_snoc|]. cbn [rev]. now rewrite rev_involutive.
Qed.
Lemma tagged_cons k l t ws : split_ws l = t :: ws -> tagged k l = str_eqb t (lit k).
Proof. unfold tagged. now intros ->. Qed.

(** ** Epochs of predictions *)
Lemma u32_id z : (0 <= z < 4294967296)%Z -> u32_of z = Z.to_N z.
Proof. intros H. unfold u32_of. now rewrite Z.mod_small. Qed.
Lemma i32_id z : (-2147483648 <= z < 2147483648)%Z -> i32_of z = z.
Proof. intros H. unfold i32_of. rewrite Z.mod_small by lia. lia. Qed.
Lemma day_bounds y m d : (1 <= y)%Z -> date_ok y m d ->
  (365 * (y - 1) + (y - 1) / 4 - (y - 1) / 100 + (y - 1) / 400 + 1 <= day_number y m d)%Z.
Proof.
  intros Y (M & D). rewrite day_number_closed by lia. unfold before, leap. destruct (Z.leb_spec m 2); destruct (leap_year y); Z.to_euclidean_division_equations; lia.
Qed.
Lemma mjd_date mjd : (first_mjd <= mjd <= last_mjd)%Z -> exists y m d, (1 <= y <= 9999)%Z /\ date_ok y m d /\
  (day_number y m d - day_number 1858 11 17 = mjd)%Z /\ fliegel mjd = (y, m, d) /\ overflows mjd = false.
Proof.
  intros R. unfold first_mjd, last_mjd in R. assert (K : day_number 1858 11 17 = 678576%Z) by (vm_compute; reflexivity).
  destruct (has_date (mjd + 678576) ltac:(lia)) as (y & m & d & Y & D & E). exists y, m, d.
  pose proof (day_bounds y m d Y D) as B. assert (Y2 : (y <= 9999)%Z).
  { clear - B E R Y. destruct (Z.le_gt_cases y 9999) as [|G]; [assumption|exfalso]. clear Y. Z.to_euclidean_division_equations. lia. }
  split; [clear - Y Y2; lia|]. split; [exact D|]. split; [rewrite K; clear - E; lia|]. split.
  - rewrite <- (fliegel_date y m d Y D), K. f_equal. clear - E. lia.
  - unfold overflows. cbn zeta. clear - R. lia.
Qed.
Lemma month_len y m : (28 <= month_length y m <= 31)%Z.
Proof. unfold month_length. destruct (m =? 2)%Z; [destruct (leap_year y); lia|]. destruct (_ || _)%bool; lia. Qed.
Lemma ymd_ok_spec y m d : (-262143 <= y <= 262142)%Z -> ymd_ok y m d = true <-> date_ok y (Z.of_N m) (Z.of_N d).
Proof. intros H. unfold ymd_ok, date_ok. rewrite !andb_true_iff, !Z.leb_le. lia. Qed.
Definition carries (q : Q) : Prop := (1 - (1 # 2000000000) <= q - inject_Z (Qfloor q))%Q.
Lemma floor_range q : (0 <= q)%Q -> (0 <= Qfloor q)%Z.
Proof. intros H. change 0%Z with (Qfloor 0). now apply Qfloor_resp_le. Qed.
Lemma floor_bound q k : (q < inject_Z k)%Q -> (Qfloor q < k)%Z.
Proof. intros H. pose proof (Qfloor_le q). rewrite Zlt_Qlt. lra. Qed.
Lemma trunc_fin q : (0 <= q)%Q -> (q < 4294967296)%Q -> Z.of_N (trunc_u32 (Fin q)) = Qfloor q.
Proof.
  intros P L. unfold trunc_u32, sat_u32, u32_max. pose proof (floor_range q P). pose proof (floor_bound q 4294967296 L). lia.
Qed.
Lemma nanos_fin q : (0 <= q)%Q -> (q < 4294967296)%Q -> Z.of_N (frac_nanos (Fin q)) = Qfloor ((q - inject_Z (Qfloor q)) * 1000000000 + (1 # 2)) /\
  (frac_nanos (Fin q) <= 1000000000).
Proof.
  intros P L. unfold frac_nanos. rewrite trunc_fin by assumption. unfold round_up, sat_u32, u32_max. pose proof (Qfloor_le q) as A. pose proof (Qlt_floor q) as B.
  rewrite inject_Z_plus in B. change (inject_Z 1) with 1%Q in B.
  set (w := ((q - inject_Z (Qfloor q)) * 1000000000 + (1 # 2))%Q).
  assert (W : (0 <= w)%Q /\ (w < inject_Z 1000000001)%Q) by (unfold w; split; [|change (inject_Z 1000000001) with 1000000001%Q]; lra).
  pose proof (floor_range w (proj1 W)). pose proof (floor_bound w 1000000001 (proj2 W)). lia.
Qed.
Lemma nanos_carry q : (0 <= q)%Q -> (q < 4294967296)%Q -> carries q <-> frac_nanos (Fin q) = 1000000000.
Proof.
  intros P L. destruct (nanos_fin q P L) as (E & B). unfold carries. set (w := (q - inject_Z (Qfloor q))%Q) in *. split.
  - intros C. assert (G : (inject_Z 1000000000 <= w * 1000000000 + (1 # 2))%Q) by (change (inject_Z 1000000000) with 1000000000%Q; lra).
    pose proof (Qfloor_resp_le _ _ G) as G2. rewrite Qfloor_Z in G2. lia.
  - intros C. rewrite C in E. pose proof (Qfloor_le (w * 1000000000 + (1 # 2))) as G. rewrite <- E in G. change (inject_Z (Z.of_N 1000000000)) with 1000000000%Q in G. lra.
Qed.
Lemma nanos_sum q : (0 <= q)%Q -> (q < 4294967296)%Q ->
  (Qabs (inject_Z (Z.of_N (trunc_u32 (Fin q) * 1000000000 + frac_nanos (Fin q))) - q * 1000000000) <= 1 # 2)%Q.
Proof.
  intros P L. destruct (nanos_fin q P L) as (E & _). rewrite N2Z.inj_add, N2Z.inj_mul, trunc_fin, E by assumption.
  rewrite inject_Z_plus, inject_Z_mult. change (inject_Z (Z.of_N 1000000000)) with 1000000000%Q.
  set (w := ((q - inject_Z (Qfloor q)) * 1000000000 + (1 # 2))%Q). pose proof (Qfloor_le w) as A. pose proof (Qlt_floor w) as B. rewrite inject_Z_plus in B.
  change (inject_Z 1) with 1%Q in B. apply Qabs_Qle_condition.
  assert (Ew : (w == (q - inject_Z (Qfloor q)) * 1000000000 + (1 # 2))%Q) by reflexivity. clearbody w. split; lra.
Qed.
Lemma hms_split n : n = n / 3600 * 3600 + n mod 3600 / 60 * 60 + n mod 60 /\ n mod 3600 / 60 < 60 /\ n mod 60 < 60.
Proof. zify. Z.to_euclidean_division_equations. lia. Qed.
(** The civil time of a day and seconds of it *)
Definition civil_of (y m d : Z) (s n : N) : civil := Civil y (Z.to_N m) (Z.to_N d) (s / 3600) (s mod 3600 / 60) (s mod 60) n.
Section Epochs.
Variable utc_ok : civil -> bool.
Lemma build_epoch_eq mjd sod : (first_mjd <= mjd <= last_mjd)%Z -> exists y m d, (1 <= y <= 9999)%Z /\ date_ok y m d /\
  (day_number y m d - day_number 1858 11 17 = mjd)%Z /\ build_epoch utc_ok mjd sod =
  let c := civil_of y m d (trunc_u32 sod) (frac_nanos sod) in
  if hms_ok (hour c) (minute c) (second c) (nano c) then (if utc_ok c then Ok c else Err (BadInstant mjd)) else Err (BadCivil mjd).
Proof.
  intros R. destruct (mjd_date mjd R) as (y & m & d & Y & D & E & F & O). exists y, m, d. split; [exact Y|]. split; [exact D|]. split; [exact E|].
  unfold build_epoch. rewrite O, F. pose proof (month_len y m) as ML. destruct D as (M1 & D1).
  rewrite i32_id, !u32_id by lia. cbn [Sp3_Model.year Sp3_Model.month Sp3_Model.day hour minute second nano].
  assert (Ok1 : ymd_ok y (Z.to_N m) (Z.to_N d) = true). { apply ymd_ok_spec; [lia|]. rewrite !Z2N.id by lia. split; assumption. }
  rewrite Ok1. reflexivity.
Qed.
Lemma civil_of_dated y m d s n : (1 <= y)%Z -> date_ok y m d -> dated (civil_of y m d s n) /\
  (day_of (civil_of y m d s n) = day_number y m d - day_number 1858 11 17)%Z /\ ns_of (civil_of y m d s n) = Z.of_N (s * 1000000000 + n).
Proof.
  intros Y D. destruct D as (M & D). pose proof (month_len y m). unfold dated, day_of, ns_of, civil_of. cbn [Sp3_Model.year Sp3_Model.month Sp3_Model.day hour minute second nano].
  rewrite !Z2N.id by lia. split; [split; [exact Y|split; assumption]|]. split; [reflexivity|].
  destruct (hms_split s) as (E & _). f_equal. f_equal. f_equal. lia.
Qed.
(** What comes out, when something does *)
Lemma build_epoch_sound mjd q c : (first_mjd <= mjd <= last_mjd)%Z -> (0 <= q)%Q -> build_epoch utc_ok mjd (Fin q) = Ok c ->
  (q < 86400)%Q /\ dated c /\ day_of c = mjd /\ (Qabs (inject_Z (ns_of c) - q * 1000000000) <= 1 # 2)%Q.
Proof.
  intros R P H. destruct (build_epoch_eq mjd (Fin q) R) as (y & m & d & Y & D & E & B). rewrite B in H. cbn zeta in H. clear B.
  destruct (hms_ok _ _ _ _) eqn:Hm in H; [|discriminate]. destruct (utc_ok _); [|discriminate]. assert (H' : civil_of y m d (trunc_u32 (Fin q)) (frac_nanos (Fin q)) = c) by congruence. clear H. rename H' into H.
  destruct (civil_of_dated y m d (trunc_u32 (Fin q)) (frac_nanos (Fin q)) ltac:(lia) D) as (C1 & C2 & C3). rewrite H in C1, C2, C3.
  cbn [civil_of hour minute second nano] in Hm. unfold hms_ok in Hm. rewrite !andb_true_iff in Hm. destruct Hm as ((((Hh & _) & _) & _) & _).
  apply N.ltb_lt in Hh. assert (T : trunc_u32 (Fin q) < 86400) by (zify; Z.to_euclidean_division_equations; lia).
  assert (L : (q < 86400)%Q).
  { destruct (Qlt_le_dec q 86400) as [|G]; [assumption|exfalso]. change 86400%Q with (inject_Z 86400) in G. pose proof (Qfloor_resp_le _ _ G) as G2.
    rewrite Qfloor_Z in G2. unfold trunc_u32, sat_u32, u32_max in T. lia. }
  split; [exact L|]. split; [exact C1|]. split; [lia|]. rewrite C3. apply nanos_sum; lra.
Qed.
Lemma build_epoch_complete mjd q : (first_mjd <= mjd <= last_mjd)%Z -> (0 <= q)%Q -> (q < 86400)%Q -> ~ carries q -> exists c,
  dated c /\ day_of c = mjd /\ (Qabs (inject_Z (ns_of c) - q * 1000000000) <= 1 # 2)%Q /\ nano c < 1000000000 /\
  hms_ok (hour c) (minute c) (second c) (nano c) = true /\
  build_epoch utc_ok mjd (Fin q) = if utc_ok c then Ok c else Err (BadInstant mjd).
Proof.
  intros R P L NC. destruct (build_epoch_eq mjd (Fin q) R) as (y & m & d & Y & D & E & B).
  destruct (civil_of_dated y m d (trunc_u32 (Fin q)) (frac_nanos (Fin q)) ltac:(lia) D) as (C1 & C2 & C3).
  exists (civil_of y m d (trunc_u32 (Fin q)) (frac_nanos (Fin q))). assert (L2 : (q < 4294967296)%Q) by lra.
  assert (T : trunc_u32 (Fin q) < 86400). { pose proof (trunc_fin q P L2). pose proof (floor_bound q 86400 L). lia. }
  assert (N1 : frac_nanos (Fin q) < 1000000000). { destruct (nanos_fin q P L2) as (_ & F). assert (frac_nanos (Fin q) <> 1000000000) by (now rewrite <- nanos_carry). lia. }
  assert (Hm : hms_ok (trunc_u32 (Fin q) / 3600) (trunc_u32 (Fin q) mod 3600 / 60) (trunc_u32 (Fin q) mod 60) (frac_nanos (Fin q)) = true).
  { unfold hms_ok. destruct (hms_split (trunc_u32 (Fin q))) as (_ & H1 & H2). rewrite !andb_true_iff, orb_true_iff, !N.ltb_lt.
    assert (trunc_u32 (Fin q) / 3600 < 24) by (apply N.div_lt_upper_bound; lia). repeat split; try assumption; try lia. }
  split; [exact C1|]. split; [lia|]. split; [rewrite C3; apply nanos_sum; assumption|]. split; [exact N1|]. split; [exact Hm|].
  rewrite B. cbn zeta. cbn [civil_of hour minute second nano]. rewrite Hm. reflexivity.
Qed.
(** Refusals of the calendar: past the day, or a fraction that rounds up to a second not the last of its minute *)
Lemma build_epoch_refused mjd q : (first_mjd <= mjd <= last_mjd)%Z -> (0 <= q)%Q ->
  (86400 <= q)%Q \/ (carries q /\ (Qfloor q mod 60 <> 59)%Z) -> build_epoch utc_ok mjd (Fin q) = Err (BadCivil mjd).
Proof.
  intros R P C. destruct (build_epoch_eq mjd (Fin q) R) as (y & m & d & Y & D & E & B). rewrite B. cbn zeta. cbn [civil_of hour minute second nano].
  assert (H : hms_ok (trunc_u32 (Fin q) / 3600) (trunc_u32 (Fin q) mod 3600 / 60) (trunc_u32 (Fin q) mod 60) (frac_nanos (Fin q)) = false); [|now rewrite H].
  apply not_true_is_false. intros Hm. unfold hms_ok in Hm. rewrite !andb_true_iff, orb_true_iff, !N.ltb_lt, N.eqb_eq in Hm.
  destruct Hm as ((((Hh & _) & _) & _) & Hn). destruct (Qlt_le_dec q 86400) as [L|G].
  - destruct C as [C|(C & F)]; [lra|]. assert (L2 : (q < 4294967296)%Q) by lra. apply nanos_carry in C; [|assumption|assumption].
    rewrite C in Hn. destruct Hn as [Hn|Hn]; [lia|]. pose proof (trunc_fin q P L2). lia.
  - change 86400%Q with (inject_Z 86400) in G. pose proof (Qfloor_resp_le _ _ G) as G2. rewrite Qfloor_Z in G2.
    assert (86400 <= trunc_u32 (Fin q)) by (unfold trunc_u32, sat_u32, u32_max; lia). zify. Z.to_euclidean_division_equations. lia.
Qed.
End Epochs.
