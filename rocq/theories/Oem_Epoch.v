(** Printed epochs: the date is the calendar date and reading gives the instant back. *)
From Coq Require Import Ascii String List NArith ZArith Bool QArith Qabs Qround Lia Lqa.
From Coq Require Import ZifyBool ZifyNat ZifyN.
From Verif Require Import Base Text DecFloat Omm_Model Omm_Proofs Pck_Model Ik_Proofs Sp3_Model Sp3_Write Lsk_Spec Oem_Model Cal_Proofs.
Import ListNotations.
Local Open Scope N_scope.

(** ** Splitting *)
Lemma split_on_none c s : ~ In c s -> split_on c s = [s].
Proof.
  induction s as [|a s IH]; intros H; [reflexivity|]. cbn [split_on]. destruct (N.eqb_spec a c) as [->|]; [destruct H; now left|].
  rewrite IH by (intros X; apply H; now right). reflexivity.
Qed.
Lemma split_on_app c w s : ~ In c w -> split_on c (w ++ c :: s) = w :: split_on c s.
Proof.
  induction w as [|a w IH]; intros H; cbn [app split_on]; [now rewrite N.eqb_refl|]. destruct (N.eqb_spec a c) as [->|]; [destruct H; now left|].
  rewrite IH by (intros X; apply H; now right). reflexivity.
Qed.
Lemma digits_no c s : forallb is_digit s = true -> is_digit c = false -> ~ In c s.
Proof. intros H C I. rewrite forallb_forall in H. rewrite (H _ I) in C. discriminate. Qed.
Lemma pad0_no c w n : is_digit c = false -> ~ In c (pad0 w n).
Proof. apply digits_no, pad0_digit. Qed.
Lemma pad0_nonempty w n : pad0 w n <> [].
Proof. intros E. apply (f_equal (@length N)) in E. rewrite pad0_length in E. cbn in E. destruct (ndig_spec n) as (_ & H & _). lia. Qed.
Lemma parse_pad0 max w n : n <= max -> parse_uint max (pad0 w n) = Some n.
Proof.
  intros H. rewrite parse_uint_digits by (apply pad0_digit || apply pad0_nonempty). rewrite dval_pad0. destruct (N.leb_spec n max); [reflexivity|lia].
Qed.
Lemma parse_pad0_int max w n : n <= max -> parse_int max (pad0 w n) = Some (Z.of_N n).
Proof.
  intros H. rewrite parse_int_digits by (apply pad0_digit || apply pad0_nonempty). rewrite dval_pad0. destruct (N.leb_spec n max); [reflexivity|lia].
Qed.

(** ** Seconds *)
(** leading zeros do not change a number that is not negative *)
Lemma dval_zeros k s : dval (repeat 48 k ++ s) = dval s.
Proof. rewrite dval_app. assert (Z0 : dval (repeat 48 k) = 0) by (induction k as [|k IH]; [reflexivity|]; unfold dval in *; cbn [repeat fold_left]; exact IH). rewrite Z0. lia. Qed.
Lemma zeros_digit k : forallb is_digit (repeat 48 k) = true.
Proof. induction k as [|k IH]; [reflexivity|]. exact IH. Qed.
Lemma pad0_fixed_parse w p v : (0 <= v)%Q -> (0 < p)%nat -> exists x, parse_f64 (pad0_fixed w p v) = Some (Fin x) /\ (Qabs (x - v) <= (1 # 2) * p10 (- Z.of_nat p))%Q.
Proof.
  intros V P. unfold pad0_fixed. set (k := (w - _)%nat). clearbody k. destruct (fmt_fixed_close p v) as (x & Hx & C). exists x. split; [|exact C]. rewrite <- Hx.
  unfold fmt_fixed. apply Qle_bool_iff in V. rewrite V. cbn [app]. destruct (Nat.eqb_spec p 0); [lia|]. set (m := Z.to_N _).
  set (ip := dec _). set (fp := digits p _).
  assert (Hi : forallb is_digit ip = true) by apply dec_digit. assert (Hf : forallb is_digit fp = true) by apply digits_digit.
  pose proof (parse_f64_dec false (repeat 48 k ++ ip) fp true [] 0) as A. pose proof (parse_f64_dec false ip fp true [] 0) as B.
  cbn [app] in A, B. rewrite !app_nil_r in A, B. rewrite <- app_assoc in A. rewrite A, B; try reflexivity; try assumption; try discriminate.
  - rewrite <- app_assoc, dval_zeros. reflexivity.
  - apply dec_nonempty.
  - rewrite forallb_app, zeros_digit. exact Hi.
  - intros X. apply app_eq_nil in X as (_ & X). exact (dec_nonempty _ X).
Qed.
Lemma pad0_fixed_chars w p v c : (0 <= v)%Q -> In c (pad0_fixed w p v) -> is_digit c = true \/ c = 46.
Proof.
  intros V I. unfold pad0_fixed in I. apply in_app_or in I as [I|I]; [apply repeat_spec in I; subst c; now left|].
  unfold fmt_fixed in I. apply Qle_bool_iff in V. rewrite V in I. cbn [app] in I. apply in_app_or in I as [I|I].
  - left. pose proof (dec_digit) as D. specialize (D (Z.to_N (round_even (Qabs v * p10 (Z.of_nat p))) / 10 ^ N.of_nat p)). rewrite forallb_forall in D. now apply D.
  - destruct (p =? 0)%nat; [destruct I|]. destruct I as [<-|I]; [now right|]. left. pose proof (digits_digit p (Z.to_N (round_even (Qabs v * p10 (Z.of_nat p))) mod 10 ^ N.of_nat p)) as D. rewrite forallb_forall in D. now apply D.
Qed.

(** ** Clock fields of a fraction of a day *)
Lemma Qfloor_bounds q : (inject_Z (Qfloor q) <= q < inject_Z (Qfloor q) + 1)%Q.
Proof. split; [apply Qfloor_le|]. pose proof (Qlt_floor q) as H. rewrite inject_Z_plus in H. exact H. Qed.
Lemma Qfloor_range q a b : (inject_Z a <= q)%Q -> (q < inject_Z b)%Q -> (a <= Qfloor q < b)%Z.
Proof.
  intros A B. pose proof (Qfloor_bounds q) as (C & D). split.
  - rewrite <- (Qfloor_Z a). now apply Qfloor_resp_le.
  - assert (X : (inject_Z (Qfloor q) < inject_Z b)%Q) by lra. rewrite <- Zlt_Qlt in X. exact X.
Qed.
Section Clock.
Variable total : Q.
Hypothesis day : (0 <= total < 86400)%Q.
Let h : Z := Qfloor (total / 3600).
Let rem : Q := (total - 3600 * inject_Z h)%Q.
Let mi : Z := Qfloor (rem / 60).
Let sec : Q := (total - 60 * inject_Z (Qfloor (total / 60)))%Q.
Lemma hour_range : (0 <= h < 24)%Z.
Proof.
  apply Qfloor_range; [apply Qle_shift_div_l; [reflexivity|]; change (inject_Z 0) with 0%Q; lra|].
  apply Qlt_shift_div_r; [reflexivity|]. change (inject_Z 24) with 24%Q. lra.
Qed.
Lemma rem_range : (0 <= rem < 3600)%Q.
Proof.
  unfold rem. pose proof (Qfloor_bounds (total / 3600)) as (A & B). fold h in A, B.
  assert (E : (total == 3600 * (total / 3600))%Q) by field. set (t := (total / 3600)%Q) in *. clearbody t. set (H := inject_Z h) in *. clearbody H. lra.
Qed.
Lemma min_range : (0 <= mi < 60)%Z.
Proof.
  pose proof rem_range. apply Qfloor_range; [apply Qle_shift_div_l; [reflexivity|]; change (inject_Z 0) with 0%Q; lra|].
  apply Qlt_shift_div_r; [reflexivity|]. change (inject_Z 60) with 60%Q. lra.
Qed.
Lemma minute_of_day : Qfloor (total / 60) = (60 * h + mi)%Z.
Proof.
  assert (E : (total / 60 == rem / 60 + inject_Z (60 * h))%Q) by (unfold rem; rewrite inject_Z_mult; change (inject_Z 60) with 60%Q; field).
  rewrite (Qfloor_comp _ _ E). unfold mi.
  pose proof (Qfloor_bounds (rem / 60)) as (A & B). set (q := (rem / 60)%Q) in *. clearbody q.
  assert (L : (60 * h + Qfloor q <= Qfloor (q + inject_Z (60 * h)) < 60 * h + Qfloor q + 1)%Z).
  { apply Qfloor_range; rewrite !inject_Z_plus; [|change (inject_Z 1) with 1%Q]; lra. }
  lia.
Qed.
Lemma sec_range : (0 <= sec < 60)%Q.
Proof.
  unfold sec. pose proof (Qfloor_bounds (total / 60)) as (A & B).
  assert (E : (total == 60 * (total / 60))%Q) by field. set (t := (total / 60)%Q) in *. clearbody t. set (H := inject_Z (Qfloor t)) in *. clearbody H. lra.
Qed.
Lemma clock_total : (inject_Z h * 3600 + inject_Z mi * 60 + sec == total)%Q.
Proof. unfold sec. rewrite minute_of_day, inject_Z_plus, inject_Z_mult. change (inject_Z 60) with 60%Q. ring. Qed.
End Clock.

(** ** The text of a date *)
Definition first_day : Q := 1721426 - (1 # 2).
Lemma date_of_day j : (1721426 <= j)%Z -> exists y m d, (1 <= y)%Z /\ date_ok y m d /\ (day_number y m d + 1721425 = j)%Z /\ date_of_jdn j = (y, m, d).
Proof.
  intros H. destruct (has_date (j - 1721425)) as (y & m & d & Y & D & E); [lia|]. exists y, m, d. repeat split; try assumption; try apply D; [lia|].
  replace j with (day_number y m d + 1721425)%Z by lia. now apply date_back.
Qed.
(** What is printed: a valid calendar date and a valid time of day that together are the instant *)
Lemma iso_shape jd : (first_day <= jd)%Q -> exists y m d h mi sec,
  jd_to_iso jd = pad0 4 (Z.to_N y) ++ [45] ++ pad0 2 (Z.to_N m) ++ [45] ++ pad0 2 (Z.to_N d) ++ [84] ++
    pad0 2 (Z.to_N h) ++ [58] ++ pad0 2 (Z.to_N mi) ++ [58] ++ pad0_fixed 9 6 sec /\
  (1 <= y)%Z /\ date_ok y m d /\ (0 <= h < 24)%Z /\ (0 <= mi < 60)%Z /\ (0 <= sec < 60)%Q /\
  (jd == inject_Z (day_number y m d + 1721425) - (1 # 2) + (inject_Z h * 3600 + inject_Z mi * 60 + sec) / 86400)%Q.
Proof.
  intros H. unfold jd_to_iso. set (j := Qfloor (jd + (1 # 2))).
  pose proof (Qfloor_bounds (jd + (1 # 2))) as (A & B). fold j in A, B.
  assert (J : (1721426 <= j)%Z).
  { change 1721426%Z with (Qfloor 1721426). apply Qfloor_resp_le. unfold first_day in H. lra. }
  destruct (date_of_day j J) as (y & m & d & Y & D & E & ->).
  set (total := ((jd + (1 # 2) - inject_Z j) * 86400)%Q).
  assert (T : (0 <= total < 86400)%Q) by (unfold total; set (f := inject_Z j) in *; clearbody f; lra).
  exists y, m, d, (Qfloor (total / 3600)), (Qfloor ((total - 3600 * inject_Z (Qfloor (total / 3600))) / 60)), (total - 60 * inject_Z (Qfloor (total / 60)))%Q.
  pose proof (hour_range total T) as Hh. split; [|split; [exact Y|split; [exact D|split; [exact Hh|split; [exact (min_range total)|split; [exact (sec_range total)|]]]]]].
  - unfold pad0_int. destruct (Z.ltb_spec y 0); [lia|]. rewrite (Z.mod_small (Qfloor (total / 3600)) 24) by exact Hh. replace (Z.abs_N y) with (Z.to_N y) by lia. reflexivity.
  - rewrite (clock_total total). rewrite E. unfold total. field.
Qed.
Lemma month_length_31 y m : (month_length y m <= 31)%Z.
Proof. unfold month_length. destruct (_ =? 2)%Z; [destruct (leap_year y); lia|]. destruct (_ || _)%bool; lia. Qed.
(** Reading a printed date gives the instant to half a microsecond. The year must fit an [i32]. *)
Theorem iso_back jd : (first_day <= jd)%Q -> (jd < 700000000000)%Q -> exists t, iso_to_jd (jd_to_iso jd) = Some (Fin t) /\ (Qabs (t - jd) * 86400 <= 1 # 2000000)%Q.
Proof.
  intros H U. destruct (iso_shape jd H) as (y & m & d & h & mi & sec & -> & Y & (M & D) & Hh & Hm & Hs & E).
  assert (Yb : (y <= 2147483647)%Z).
  { assert (X : (day_number y m d + 1721425 < 700000000001)%Z).
    { rewrite Zlt_Qlt. apply (Qle_lt_trans _ (jd + (1 # 2))); [|change (inject_Z 700000000001) with 700000000001%Q; lra]. rewrite E.
      assert (0 <= (inject_Z h * 3600 + inject_Z mi * 60 + sec) / 86400)%Q; [|lra]. apply Qle_shift_div_l; [reflexivity|].
      assert (0 <= inject_Z h)%Q by (change 0%Q with (inject_Z 0); rewrite <- Zle_Qle; lia).
      assert (0 <= inject_Z mi)%Q by (change 0%Q with (inject_Z 0); rewrite <- Zle_Qle; lia). lra. }
    rewrite day_number_closed in X by lia. assert (0 <= before (leap y) m)%Z by (unfold before, leap; destruct (Z.leb_spec m 2); destruct (leap_year y); Z.to_euclidean_division_equations; lia).
    Z.to_euclidean_division_equations; lia. }
  pose proof (month_length_31 y m) as L31.
  assert (Sq : exists t, parse_f64 (pad0_fixed 9 6 sec) = Some (Fin t) /\ (Qabs (t - sec) <= 1 # 2000000)%Q).
  { destruct (pad0_fixed_parse 9 6 sec) as (t & P & C); [lra|lia|]. exists t. split; [exact P|]. eapply Qle_trans; [exact C|]. discriminate. }
  destruct Sq as (t & P & C).
  assert (N45 : forall w n, ~ In 45 (pad0 w n)) by (intros; now apply pad0_no).
  assert (N58 : forall w n, ~ In 58 (pad0 w n)) by (intros; now apply pad0_no).
  assert (N84 : forall w n, ~ In 84 (pad0 w n)) by (intros; now apply pad0_no).
  assert (S58 : ~ In 58 (pad0_fixed 9 6 sec)).
  { intros I. apply pad0_fixed_chars in I as [I|I]; [discriminate|discriminate|lra]. }
  unfold iso_to_jd.
  set (date := pad0 4 (Z.to_N y) ++ [45] ++ pad0 2 (Z.to_N m) ++ [45] ++ pad0 2 (Z.to_N d)).
  set (time := pad0 2 (Z.to_N h) ++ [58] ++ pad0 2 (Z.to_N mi) ++ [58] ++ pad0_fixed 9 6 sec).
  assert (Sp : split_once 84 (pad0 4 (Z.to_N y) ++ [45] ++ pad0 2 (Z.to_N m) ++ [45] ++ pad0 2 (Z.to_N d) ++ [84] ++ time) = Some (date, time)).
  { apply split_once_spec. split; [unfold date; rewrite <- !app_assoc; reflexivity|]. unfold date. intros I.
    repeat (apply in_app_or in I as [I|I]; [first [exact (N84 _ _ I)|destruct I as [I|[]]; discriminate]|]). exact (N84 _ _ I). }
  unfold time in Sp. fold time in Sp. rewrite Sp. unfold date, time. cbn [app].
  rewrite (split_on_app 45) by apply N45. rewrite (split_on_app 45) by apply N45. rewrite (split_on_none 45) by apply N45.
  rewrite (split_on_app 58) by apply N58. rewrite (split_on_app 58) by apply N58. rewrite (split_on_none 58) by exact S58.
  rewrite parse_pad0_int by (unfold i32_max; lia). rewrite !parse_pad0 by (unfold u32_max; lia). rewrite P.
  eexists. split; [reflexivity|]. rewrite !Z2N.id by lia. rewrite jdn_count by lia.
  set (J := inject_Z (day_number y m d + 1721425)) in *. set (a := inject_Z h) in *. set (b := inject_Z mi) in *. clearbody J a b.
  assert (G : (J - (1 # 2) + (a * 3600 + b * 60 + t) / 86400 - jd == (t - sec) / 86400)%Q) by (rewrite E; field).
  rewrite G. assert (X : ((t - sec) / 86400 == (t - sec) * (1 # 86400))%Q) by field. rewrite X, Qabs_Qmult. change (Qabs (1 # 86400)) with (1 # 86400)%Q.
  setoid_replace (Qabs (t - sec) * (1 # 86400) * 86400)%Q with (Qabs (t - sec)) by ring. exact C.
Qed.
