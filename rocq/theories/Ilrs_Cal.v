(** The date arithmetic of the prediction reader against the calendar counted year by year. *)
From Coq Require Import List NArith ZArith Bool Lia.
From Verif Require Import Base Text Lsk_Spec Cal_Proofs Ilrs_Model.
Import ListNotations.
Local Open Scope Z_scope.

Local Ltac Zify.zify_post_hook ::= Z.to_euclidean_division_equations.

(** A date as century, year of the century and day of a year that starts in March *)
Lemma march y m d : 1 <= y -> date_ok y m d -> exists b r doy mm s,
  day_number y m d + 1721425 + 32044 = 146097 * b / 4 + (365 * r + r / 4 + doy) /\ 0 <= r <= 99 /\ 48 <= b /\
  ((153 * mm + 2) / 5 <= doy < (153 * (mm + 1) + 2) / 5 /\ 0 <= mm <= 11 \/ mm = 11 /\ 337 <= doy <= 365) /\
  0 <= doy /\ (doy <= 364 \/ (doy = 365 /\ (r mod 4 = 3))) /\
  365 * r + r / 4 + doy <= 36523 + (if b mod 4 =? 3 then 1 else 0) /\
  doy - (153 * mm + 2) / 5 + 1 = d /\ (m <= 2 /\ s = 1 \/ 2 < m /\ s = 0) /\ m = mm + 3 - 12 * s /\ y = 100 * b + r - 4800 + s.
Proof.
  intros Y (M & D). rewrite length_before in D by lia.
  set (s := if m <=? 2 then 1 else 0).
  set (yy := y + 4800 - s). set (mm := m + 12 * s - 3).
  assert (Hs : (m <= 2 /\ s = 1) \/ (2 < m /\ s = 0)) by (unfold s; destruct (Z.leb_spec m 2); lia).
  assert (J : day_number y m d + 1721425 + 32044 = 365 * yy + yy / 4 - yy / 100 + yy / 400 + ((153 * mm + 2) / 5 + d - 1)).
  { rewrite day_number_closed by lia. rewrite leap_count by lia. unfold before, yy, mm. destruct (Z.leb_spec m 2); destruct Hs as [(? & ->)|(? & ->)]; lia. }
  assert (Lp : 0 <= leap y <= 1) by (unfold leap; destruct (leap_year y); lia).
  set (doy := (153 * mm + 2) / 5 + d - 1) in *.
  assert (Hd : 0 <= doy <= 364 + (if (s =? 1) then leap y else 0)).
  { unfold doy, mm. unfold before in D. destruct (Z.eqb_spec m 12); destruct (Z.leb_spec m 2); destruct (Z.leb_spec (m + 1) 2); destruct Hs as [(? & ->)|(? & ->)]; cbn [Z.eqb Pos.eqb]; lia. }
  assert (Hm : (153 * mm + 2) / 5 <= doy < (153 * (mm + 1) + 2) / 5 /\ 0 <= mm <= 11 \/ mm = 11 /\ 337 <= doy <= 365).
  { destruct (Z.eq_dec mm 11).
    - right. split; [assumption|]. unfold doy. unfold leap in *. destruct (s =? 1), (leap_year y); lia.
    - left. unfold doy, mm in *. unfold before in D. destruct (Z.eqb_spec m 12); destruct (Z.leb_spec m 2); destruct (Z.leb_spec (m + 1) 2); destruct Hs as [(? & ->)|(? & ->)]; lia. }
  assert (Hl : doy <= 364 \/ (doy = 365 /\ leap_year (yy + 1) = true)).
  { destruct (Z.eqb_spec s 1) as [Es|Es]; [|lia]. unfold yy. replace (y + 4800 - s + 1) with (y + 4800) by lia. unfold leap in Hd.
    destruct (leap_year y) eqn:L; [|lia]. destruct (Z.eq_dec doy 365); [right|lia]. split; [assumption|]. apply leap_spec. apply leap_spec in L. lia. }
  assert (Hy : 4800 <= yy) by (unfold yy; lia).
  assert (Ed : doy - (153 * mm + 2) / 5 + 1 = d) by (unfold doy; lia).
  assert (D0 : 0 <= doy) by lia.
  clearbody doy. clear D Hd.
  set (b := yy / 100) in *. set (r := yy - 100 * b).
  assert (Rr : 0 <= r <= 99) by (unfold r, b; lia).
  assert (Eb : 48 <= b) by (unfold b; lia).
  exists b, r, doy, mm, s.
  assert (A : day_number y m d + 1721425 + 32044 = 146097 * b / 4 + 365 * r + r / 4 + doy).
  { rewrite J. unfold r. replace (yy / 4) with (25 * b + r / 4) by (unfold r; lia). replace (yy / 400) with (b / 4) by (unfold b; lia). unfold r. lia. }
  assert (Hc : 365 * r + r / 4 + doy <= 36523 + (if b mod 4 =? 3 then 1 else 0)).
  { destruct Hl as [Hl|(-> & Hl)]; [destruct (b mod 4 =? 3); lia|]. apply leap_spec in Hl. assert (yy + 1 = 100 * b + r + 1) by (unfold r; lia).
    destruct (Z.eqb_spec (b mod 4) 3); lia. }
  assert (Hq : doy <= 364 \/ doy = 365 /\ r mod 4 = 3).
  { destruct Hl as [Hl|(-> & Hl)]; [now left|right]. split; [reflexivity|]. apply leap_spec in Hl. assert (yy + 1 = 100 * b + r + 1) by (unfold r; lia). lia. }
  repeat split; try lia; try assumption; unfold mm, r, yy in *; lia.
Qed.

Theorem fliegel_date y m d : 1 <= y -> date_ok y m d -> fliegel (day_number y m d - day_number 1858 11 17) = (y, m, d).
Proof.
  intros Y D. destruct (march y m d Y D) as (b & r & doy & mm & s & A & R & B & Hm & D0 & Hl & Hc & Ed & Hs & Em & Ey).
  assert (K : day_number 1858 11 17 = 678576) by (vm_compute; reflexivity).
  unfold fliegel. cbn zeta. rewrite K. set (c := 365 * r + r / 4 + doy) in *.
  assert (C0 : 0 <= c) by (unfold c; clear - D0 R; lia).
  assert (L : day_number y m d - 678576 + 2400001 + 68569 = 146097 * b / 4 + c + 36525) by (clear - A; lia). rewrite L. clear L A K.
  assert (N1 : Z.quot (4 * (146097 * b / 4 + c + 36525)) 146097 = b + 1).
  { clearbody c. clear - B Hc C0. rewrite Z.quot_div_nonneg by lia. destruct (Z.eqb_spec (b mod 4) 3); lia. }
  rewrite N1. rewrite (Z.quot_div_nonneg (146097 * (b + 1) + 3)) by (clear - B; lia).
  assert (L : 146097 * b / 4 + c + 36525 - (146097 * (b + 1) + 3) / 4 = c) by (clearbody c; clear; lia). rewrite L. clear L N1.
  assert (I1 : Z.quot (4000 * (c + 1)) 1461001 = r).
  { rewrite Z.quot_div_nonneg by (clearbody c; clear - C0; lia).
    assert (G : 365 * r + r / 4 <= c /\ c < 365 * (r + 1) + (r + 1) / 4) by (unfold c; clear - D0 R Hl; lia). clearbody c. clear - G R.
    assert (Gl : 1461001 * r <= 4000 * (365 * r + r / 4 + 1)) by (clear - R; lia).
    assert (Gu : 4000 * (365 * (r + 1) + (r + 1) / 4) < 1461001 * (r + 1)) by (clear - R; lia).
    revert G Gl Gu. generalize (365 * r + r / 4), (365 * (r + 1) + (r + 1) / 4). intros u v G Gl Gu.
    symmetry. apply Z.div_unique with (4000 * (c + 1) - 1461001 * r); [|ring]. left. clear R. lia. }
  rewrite I1. rewrite (Z.quot_div_nonneg (1461 * r)) by (clear - R; lia).
  assert (L : c - 1461 * r / 4 + 31 = doy + 31) by (unfold c; clear; lia). rewrite L. clear L I1 C0 Hc. clearbody c.
  assert (Mm : 0 <= mm <= 11) by (clear - Hm; lia).
  assert (J1 : Z.quot (80 * (doy + 31)) 2447 = mm + 1).
  { rewrite Z.quot_div_nonneg by (clear - D0; lia). clear - Hm. lia. }
  rewrite J1. rewrite (Z.quot_div_nonneg (2447 * (mm + 1))) by (clear - Mm; lia).
  assert (L4 : Z.quot (mm + 1) 11 = s).
  { destruct D as (M & _). clear - Mm Hs Em M. rewrite Z.quot_div_nonneg by lia. destruct Hs as [(? & ->)|(? & ->)]; lia. }
  rewrite L4. assert (Dd : doy + 31 - 2447 * (mm + 1) / 80 = d) by (clear - Hm Ed; lia).
  rewrite Dd. clear - Em Ey. f_equal. f_equal; lia.
Qed.
