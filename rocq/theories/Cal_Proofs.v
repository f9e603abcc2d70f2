(** The two calendar conversions of the ephemeris codec against the calendar counted year by year. *)
From Coq Require Import List NArith ZArith Bool Lia.
From Verif Require Import Base Text Lsk_Spec Oem_Model.
Import ListNotations.
Local Open Scope Z_scope.

Local Ltac Zify.zify_post_hook ::= Z.to_euclidean_division_equations.
Lemma sum_app a b : sum (a ++ b) = sum a + sum b.
Proof. unfold sum. induction a as [|x a IH]; cbn [fold_right app]; lia. Qed.
Lemma upto_S n : upto (S n) = upto n ++ [Z.of_nat n + 1].
Proof. unfold upto. rewrite seq_S, map_app. reflexivity. Qed.
Lemma leap_spec y : leap_year y = true <-> (y mod 4 = 0 /\ y mod 100 <> 0) \/ y mod 400 = 0.
Proof. unfold leap_year. rewrite orb_true_iff, andb_true_iff, negb_true_iff, !Z.eqb_eq, Z.eqb_neq. reflexivity. Qed.
Definition leap (y : Z) : Z := if leap_year y then 1 else 0.
Lemma year_length_leap y : year_length y = 365 + leap y.
Proof. unfold year_length, leap, upto. cbn [seq map sum fold_right month_length Z.of_nat]. cbn. destruct (leap_year y); reflexivity. Qed.
Lemma leap_count y : 1 <= y -> leap y = (y / 4 - y / 100 + y / 400) - ((y - 1) / 4 - (y - 1) / 100 + (y - 1) / 400).
Proof.
  intros H. unfold leap. destruct (leap_year y) eqn:E.
  - apply leap_spec in E. lia.
  - assert (N : ~ ((y mod 4 = 0 /\ y mod 100 <> 0) \/ y mod 400 = 0)) by (rewrite <- leap_spec; congruence). lia.
Qed.
Lemma years_before n : sum (map year_length (upto n)) = 365 * Z.of_nat n + Z.of_nat n / 4 - Z.of_nat n / 100 + Z.of_nat n / 400.
Proof.
  induction n as [|n IH]; [reflexivity|]. rewrite upto_S, map_app, sum_app, IH. cbn [map sum fold_right].
  rewrite year_length_leap, leap_count by lia. replace (Z.of_nat n + 1 - 1) with (Z.of_nat n) by lia. replace (Z.of_nat (S n)) with (Z.of_nat n + 1) by lia. lia.
Qed.
(** days before a month *)
Definition before (l m : Z) : Z := if m <=? 2 then 31 * (m - 1) else (153 * (m - 3) + 2) / 5 + 59 + l.
Lemma months_before y m : 1 <= m <= 12 -> sum (map (month_length y) (upto (Z.to_nat (m - 1)))) = before (leap y) m.
Proof.
  intros H. assert (C : m = 1 \/ m = 2 \/ m = 3 \/ m = 4 \/ m = 5 \/ m = 6 \/ m = 7 \/ m = 8 \/ m = 9 \/ m = 10 \/ m = 11 \/ m = 12) by lia.
  unfold leap, month_length. destruct (leap_year y); repeat destruct C as [->|C]; try subst m; reflexivity.
Qed.
Lemma day_number_closed y m d : 1 <= y -> 1 <= m <= 12 ->
  day_number y m d = 365 * (y - 1) + (y - 1) / 4 - (y - 1) / 100 + (y - 1) / 400 + before (leap y) m + d.
Proof. intros Y M. unfold day_number. rewrite years_before, months_before, Z2Nat.id by lia. reflexivity. Qed.
Lemma length_before y m : 1 <= m <= 12 -> month_length y m = (if m =? 12 then 365 + leap y else before (leap y) (m + 1)) - before (leap y) m.
Proof.
  intros H. assert (C : m = 1 \/ m = 2 \/ m = 3 \/ m = 4 \/ m = 5 \/ m = 6 \/ m = 7 \/ m = 8 \/ m = 9 \/ m = 10 \/ m = 11 \/ m = 12) by lia.
  unfold leap, month_length. destruct (leap_year y); repeat destruct C as [->|C]; try subst m; reflexivity.
Qed.

(** Every day from 1 January of year 1 on has a date *)
Lemma has_date n : 1 <= n -> exists y m d, 1 <= y /\ date_ok y m d /\ day_number y m d = n.
Proof.
  intros H. replace n with (1 + Z.of_nat (Z.to_nat (n - 1))) by lia. generalize (Z.to_nat (n - 1)). clear n H. intros k. induction k as [|k (y & m & d & Y & (M & D) & E)].
  - exists 1, 1, 1. repeat split; try lia; try reflexivity. cbn. lia.
  - destruct (Z.eq_dec d (month_length y m)) as [Q|Q].
    + destruct (Z.eq_dec m 12) as [->|N].
      * exists (y + 1), 1, 1. split; [lia|]. split; [split; [lia|cbn; lia]|]. rewrite !day_number_closed in * by lia.
        rewrite length_before in Q by lia. cbn [Z.eqb Pos.eqb] in Q. set (B12 := before (leap y) 12) in *. clearbody B12. rewrite leap_count in Q by lia. replace (y + 1 - 1) with y by lia.
        unfold before at 1. cbn [Z.leb Z.compare Pos.compare Pos.compare_cont]. lia.
      * exists y, (m + 1), 1. assert (L : 28 <= month_length y (m + 1)).
        { unfold month_length. destruct (_ =? 2); [destruct (leap_year y); lia|]. destruct (_ || _)%bool; lia. }
        split; [lia|]. split; [split; lia|]. rewrite !day_number_closed in * by lia. rewrite length_before in Q by lia.
        destruct (Z.eqb_spec m 12); [contradiction|]. lia.
    + exists y, m, (d + 1). split; [lia|]. split; [split; lia|]. unfold day_number in *. lia.
Qed.

(** oem.rs:411-416 counts days; day 1 of year 1 is 1721426 *)
Lemma jdn_count y m d : 1 <= y -> 1 <= m <= 12 -> jdn_of_date y m d = day_number y m d + 1721425.
Proof.
  intros Y M. rewrite day_number_closed by lia. rewrite leap_count by lia. unfold jdn_of_date, before. cbn zeta.
  destruct (Z.leb_spec m 2).
  - assert (A : Z.quot (14 - m) 12 = 1) by (rewrite Z.quot_div_nonneg by lia; lia). rewrite A. rewrite !Z.quot_div_nonneg by lia. lia.
  - assert (A : Z.quot (14 - m) 12 = 0) by (rewrite Z.quot_div_nonneg by lia; lia). rewrite A. rewrite !Z.quot_div_nonneg by lia. lia.
Qed.
(** oem.rs:132-140 undoes it *)
Lemma date_back y m d : 1 <= y -> date_ok y m d -> date_of_jdn (day_number y m d + 1721425) = (y, m, d).
Proof.
  intros Y (M & D). rewrite length_before in D by lia.
  set (s := if m <=? 2 then 1 else 0).
  set (yy := y + 4800 - s). set (mm := m + 12 * s - 3).
  assert (Hs : (m <= 2 /\ s = 1) \/ (2 < m /\ s = 0)) by (unfold s; destruct (Z.leb_spec m 2); lia).
  assert (J : day_number y m d + 1721425 + 32044 = 365 * yy + yy / 4 - yy / 100 + yy / 400 + ((153 * mm + 2) / 5 + d - 1)).
  { rewrite day_number_closed by lia. rewrite leap_count by lia. unfold before, yy, mm. destruct (Z.leb_spec m 2); destruct Hs as [(? & ->)|(? & ->)]; lia. }
  (* the day of the shifted year *)
  assert (Lp : 0 <= leap y <= 1) by (unfold leap; destruct (leap_year y); lia).
  set (doy := (153 * mm + 2) / 5 + d - 1) in *.
  assert (Hd : 0 <= doy <= 364 + (if (s =? 1) then leap y else 0)).
  { unfold doy, mm. unfold before in D. destruct (Z.eqb_spec m 12); destruct (Z.leb_spec m 2); destruct (Z.leb_spec (m + 1) 2); destruct Hs as [(? & ->)|(? & ->)]; cbn [Z.eqb Pos.eqb]; lia. }
  assert (Hm : (153 * mm + 2) / 5 <= doy < (153 * (mm + 1) + 2) / 5 /\ 0 <= mm <= 11 \/ mm = 11 /\ 337 <= doy <= 365).
  { destruct (Z.eq_dec mm 11).
    - right. split; [assumption|]. unfold doy. unfold leap in *. destruct (s =? 1), (leap_year y); lia.
    - left. unfold doy, mm in *. unfold before in D. destruct (Z.eqb_spec m 12); destruct (Z.leb_spec m 2); destruct (Z.leb_spec (m + 1) 2); destruct Hs as [(? & ->)|(? & ->)]; lia. }
  assert (Hl : doy <= 364 \/ (doy = 365 /\ leap_year (yy + 1) = true)).
  { destruct (Z.eqb_spec s 1) as [Es|Es]; [|lia]. unfold yy. replace (y + 4800 - s + 1) with (y + 4800) by lia. unfold leap in Hd.
    destruct (leap_year y) eqn:L; [|lia]. destruct (Z.eq_dec doy 365); [right|lia]. split; [assumption|]. apply leap_spec. apply leap_spec in L. lia. }
  assert (Hy : 4800 <= yy) by (unfold yy; lia).
  assert (Ed : doy - (153 * mm + 2) / 5 + 1 = d) by (unfold doy; lia).
  clearbody doy. clear D Hd.
  set (b := yy / 100) in *. set (r := yy - 100 * b).
  assert (Rr : 0 <= r <= 99) by (unfold r, b; lia).
  assert (Eb : 48 <= b) by (unfold b; lia).
  assert (A : day_number y m d + 1721425 + 32044 = 146097 * b / 4 + 365 * r + r / 4 + doy).
  { rewrite J. unfold r. replace (yy / 4) with (25 * b + r / 4) by (unfold r; lia). replace (yy / 400) with (b / 4) by (unfold b; lia). unfold r. lia. }
  assert (Hc : 365 * r + r / 4 + doy <= 36523 + (if b mod 4 =? 3 then 1 else 0)).
  { destruct Hl as [Hl|(-> & Hl)]; [destruct (b mod 4 =? 3); lia|]. apply leap_spec in Hl. assert (yy + 1 = 100 * b + r + 1) by (unfold r; lia).
    destruct (Z.eqb_spec (b mod 4) 3); lia. }
  unfold date_of_jdn. cbn zeta. rewrite A. set (c := 365 * r + r / 4 + doy) in *.
  replace (146097 * b / 4 + 365 * r + r / 4 + doy) with (146097 * b / 4 + c) by (unfold c; lia).
  assert (B1 : Z.quot (4 * (146097 * b / 4 + c) + 3) 146097 = b).
  { rewrite Z.quot_div_nonneg by lia. assert (0 <= c) by (unfold c; lia). destruct (Z.eqb_spec (b mod 4) 3); lia. }
  rewrite B1. rewrite (Z.quot_div_nonneg (146097 * b)) by lia. replace (146097 * b / 4 + c - 146097 * b / 4) with c by lia.
  assert (D1 : Z.quot (4 * c + 3) 1461 = r).
  { rewrite Z.quot_div_nonneg by (unfold c; lia). unfold c. destruct Hl as [Hl|(-> & Hl)]; [lia|]. apply leap_spec in Hl. assert (yy + 1 = 100 * b + r + 1) by (unfold r; lia). lia. }
  rewrite D1. rewrite (Z.quot_div_nonneg (1461 * r)) by lia.
  assert (E1 : c - 1461 * r / 4 = doy) by (unfold c; lia). rewrite E1.
  assert (M1 : Z.quot (5 * doy + 2) 153 = mm).
  { rewrite Z.quot_div_nonneg by lia. lia. }
  rewrite M1. rewrite !Z.quot_div_nonneg by lia.
  assert (T : mm / 10 = s) by (unfold mm; destruct Hs as [(? & ->)|(? & ->)]; lia). rewrite T.
  rewrite Ed. f_equal. f_equal; unfold r, yy, mm in *; destruct Hs as [(? & ->)|(? & ->)]; lia.
Qed.
