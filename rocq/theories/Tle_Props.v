(** C09-C14, C50: two-line element sets. *)
From Coq Require Import Ascii String List NArith ZArith Lia Bool QArith Qround Qabs.
From Verif Require Import Base Text DecFloat Tle_Model Tle_Spec Tle_Proofs Tle_Fields Tle_Roundtrip.
Import ListNotations.
Local Open Scope N_scope.

Definition iss1 : str := lit "1 25544U 98067A   08264.51782528 -.00002182  00000-0 -11606-4 0  2927".
Definition iss2 : str := lit "2 25544  51.6416 247.4627 0006703 130.5360 325.0288 15.72125391563537".

(** ** C09 *)
Theorem C09_accept line : forallb is_ascii line = true ->
  (validate_tle_checksum line = Ok tt <->
   length line = 69%nat /\ nth 68 line 0 = 48 + weights (firstn 68 line) mod 10).
Proof. exact (validate_iff line). Qed.

Theorem C09_digit_change line i d : forallb is_ascii line = true -> (i < 69)%nat ->
  validate_tle_checksum line = Ok tt -> is_digit (nth i line 0) = true -> is_digit d = true ->
  d <> nth i line 0 -> exists a b c, validate_tle_checksum (upd line i d) = Err (BadChecksum a b c).
Proof. exact (digit_change_rejected line i d). Qed.

(** Exactly which one-column changes are missed. *)
Theorem C09_one_column line i v : forallb is_ascii line = true -> is_ascii v = true ->
  (i < 69)%nat -> validate_tle_checksum line = Ok tt -> v <> nth i line 0 ->
  (validate_tle_checksum (upd line i v) = Ok tt <-> (i < 68)%nat /\ weight v = weight (nth i line 0)).
Proof. exact (one_column_change line i v). Qed.

Example C09_case : forallb is_ascii iss1 = true /\ validate_tle_checksum iss1 = Ok tt /\
  is_digit (nth 20 iss1 0) = true /\ is_digit 49 = true /\ 49 <> nth 20 iss1 0.
Proof. vm_compute. repeat split; discriminate. Qed.

(** A lost sign (minus read as 1) and an exchange of two digits both pass. *)
Theorem C09_sign_lost_refuted : exists line, validate_tle_checksum line = Ok tt /\
  nth 33 line 0 = 45 /\ validate_tle_checksum (upd line 33 49) = Ok tt.
Proof. exists iss1. vm_compute. repeat split. Qed.
Theorem C09_transposition_refuted : exists line, validate_tle_checksum line = Ok tt /\
  nth 3 line 0 <> nth 4 line 0 /\
  validate_tle_checksum (upd (upd line 4 (nth 3 line 0)) 3 (nth 4 line 0)) = Ok tt.
Proof. exists (upd (upd iss1 4 52) 5 53). vm_compute. repeat split; discriminate. Qed.

(** A 69-byte line whose last character takes two bytes panics instead of failing. *)
Theorem C09_non_ascii_refuted : exists line, length line = 69%nat /\ validate_tle_checksum line = Panic.
Proof. exists (repeat 49 67 ++ [195; 169]). vm_compute. split; reflexivity. Qed.

(** ** C10 *)
Theorem C10_roundtrip n : n < 340000 ->
  exists s, format_alpha5 n = Ok s /\ length s = 5%nat /\ forallb is_ascii s = true /\
    is_ws (hd 0 s) = false /\ sat_parse s = Ok n.
Proof. exact (alpha5_roundtrip n). Qed.
Theorem C10_refused n : 340000 <= n -> format_alpha5 n = Err InvalidAlpha5.
Proof. exact (alpha5_refused n). Qed.
Theorem C10_canonical s n : length s = 5%nat -> is_ws (hd 0 s) = false -> sat_parse s = Ok n ->
  format_alpha5 n = Ok s.
Proof. exact (alpha5_canonical s n). Qed.
Corollary C10_injective s1 s2 n : length s1 = 5%nat -> length s2 = 5%nat -> is_ws (hd 0 s1) = false ->
  is_ws (hd 0 s2) = false -> sat_parse s1 = Ok n -> sat_parse s2 = Ok n -> s1 = s2.
Proof.
  intros L1 L2 W1 W2 P1 P2. apply C10_canonical in P1; auto. apply C10_canonical in P2; auto. congruence.
Qed.
Theorem C10_no_panic s : sat_parse s <> Panic.
Proof. exact (sat_parse_no_panic s). Qed.
Example C10_case : sat_parse (lit "B1234") = Ok 111234 /\ format_alpha5 111234 = Ok (lit "B1234") /\
  format_alpha5 339999 = Ok (lit "Z9999") /\ sat_parse (lit "Z9999") = Ok 339999.
Proof. vm_compute. repeat split. Qed.

(** ** C11 *)
Theorem C11_roundtrip v : drag_value v ->
  length (format_assumed v) = 8%nat /\ forallb is_ascii (format_assumed v) = true /\
  exists x, parse_assumed (format_assumed v) = Ok x /\ (x == v)%Q.
Proof. exact (drag_roundtrip v). Qed.
Theorem C11_width v e : dexp v e ->
  length (format_assumed v) =
    ((if Qle_bool (99999 + (1 # 2)) (Qabs v * p10 (5 - e)) then 8 else 7) + ndig (Z.to_N (Z.abs e)))%nat.
Proof. exact (format_assumed_length v e). Qed.
Theorem C11_close v e : dexp v e -> (Z.abs e <= 2147483647)%Z ->
  (Qabs v * p10 (5 - e) < 99999 + (1 # 2))%Q ->
  exists x, parse_assumed (format_assumed v) = Ok x /\ (Qabs (x - v) <= (1 # 2) * p10 (e - 5))%Q.
Proof. exact (assumed_close v e). Qed.
Example C11_case : drag_value (-11606 # 1000000000) /\
  format_assumed (-11606 # 1000000000) = lit "-11606-4" /\
  dexp (123456 # 10000000) (-1) /\ format_assumed (123456 # 10000000) = lit " 12346-1".
Proof.
  split; [|split; [vm_compute; reflexivity|split; [|vm_compute; reflexivity]]].
  - right. exists true, 11606, (-4)%Z. split; [lia|]. split; [lia|]. reflexivity.
  - unfold dexp. vm_compute. split; [discriminate|reflexivity].
Qed.
(** A mantissa that rounds up to one prints a sixth digit and is read back ten times too small. *)
Theorem C11_carry_refuted : exists v x, (v == 999999 # 1000000)%Q /\
  format_assumed v = lit " 100000+0" /\ parse_assumed (format_assumed v) = Ok x /\ (x == 1 # 10)%Q.
Proof. exists (999999 # 1000000)%Q. eexists. vm_compute. repeat split. Qed.

(** ** C12 *)
Theorem C12_checksum l : forallb is_ascii l = true -> length l = 68%nat ->
  length (with_checksum l) = 69%nat /\ forallb is_ascii (with_checksum l) = true /\
  validate_tle_checksum (with_checksum l) = Ok tt.
Proof. exact (with_checksum_valid l). Qed.
Theorem C12_lines t : printable t -> exists l1 l2, format_tle t = Ok (l1, l2) /\
  length l1 = 69%nat /\ length l2 = 69%nat /\
  validate_tle_checksum l1 = Ok tt /\ validate_tle_checksum l2 = Ok tt.
Proof.
  intros P. destruct (tle_roundtrip t None P) as (l1 & l2 & F & L1 & L2 & _ & _ & V1 & V2 & _).
  exists l1, l2. auto.
Qed.

Definition iss : tle := {| t_name := None; t_norad := 25544; t_class := Unclassified; t_desig := lit "98067A";
  t_epoch := Epoch 2008 264 44740104192000; t_ndot := Fin (-2182 # 100000000); t_nddot := 0;
  t_bstar := -11606 # 1000000000; t_elset := 292; t_rev := 56353; t_inc := Fin (516416 # 10000);
  t_raan := Fin (2474627 # 10000); t_ecc := 6703 # 10000000; t_argp := Fin (1305360 # 10000);
  t_ma := Fin (3250288 # 10000); t_mm := Fin (1572125391 # 100000000) |}.
Lemma iss_printable : printable iss.
Proof.
  split; unfold iss; cbn [t_norad t_desig t_epoch t_ndot t_nddot t_bstar t_elset t_rev t_inc t_raan t_ecc t_argp t_ma t_mm ep_year ep_doy ep_nanos].
  - lia.
  - reflexivity.
  - right. split; reflexivity.
  - cbn. lia.
  - lia.
  - change (days_in_year 2008) with 366%Z. lia.
  - exists 51782528%Z. split; [lia|reflexivity].
  - eexists. split; [reflexivity|]. split; [exists (-2182)%Z; reflexivity|split; discriminate].
  - left. reflexivity.
  - right. exists true, 11606, (-4)%Z. split; [lia|]. split; [lia|]. reflexivity.
  - lia.
  - lia.
  - eexists. split; [reflexivity|]. split; [exists 516416%Z; reflexivity|split; discriminate].
  - eexists. split; [reflexivity|]. split; [exists 2474627%Z; reflexivity|split; discriminate].
  - split; [exists 6703%Z; reflexivity|split; discriminate].
  - eexists. split; [reflexivity|]. split; [exists 1305360%Z; reflexivity|split; discriminate].
  - eexists. split; [reflexivity|]. split; [exists 3250288%Z; reflexivity|split; discriminate].
  - eexists. split; [reflexivity|]. split; [exists 1572125391%Z; reflexivity|split; discriminate].
Qed.
Example C12_case : printable iss /\ exists l1 l2, format_tle iss = Ok (l1, l2) /\ l1 = iss1 /\ l2 = iss2.
Proof. split; [exact iss_printable|]. do 2 eexists. split; [vm_compute; reflexivity|]. split; vm_compute; reflexivity. Qed.

(** ** C13 *)
Theorem C13_expand yy : (0 <= yy <= 99)%Z ->
  (expand_two_digit_year yy mod 100 = yy /\ 1957 <= expand_two_digit_year yy <= 2056)%Z.
Proof. exact (year_roundtrip yy). Qed.
Theorem C13_year y : (expand_two_digit_year (y mod 100) = y <-> 1957 <= y <= 2056)%Z.
Proof.
  split; [|apply year_survives]. intros E. pose proof (Z.mod_pos_bound y 100 ltac:(lia)).
  pose proof (year_roundtrip (y mod 100) ltac:(lia)) as [_ R]. lia.
Qed.
Example C13_case : (expand_two_digit_year 57 = 1957 /\ expand_two_digit_year 56 = 2056)%Z.
Proof. split; reflexivity. Qed.
(** The two-column year field is read as a signed number: "-5" is taken as 1995. *)
Theorem C13_signed_refuted : exists f v, length f = 2%nat /\ forallb is_digit f = false /\
  parse_int_field f = Ok v /\ expand_two_digit_year v = 1995%Z.
Proof. exists (lit "-5"). eexists. vm_compute. repeat split. Qed.

(** ** C14 *)
Theorem C14_roundtrip f : forallb is_ascii f = true ->
  contract_intl_designator (expand_intl_designator f) = trim f.
Proof. exact (contract_expand f). Qed.
Example C14_case : expand_intl_designator (lit "98067A  ") = lit "1998-067A" /\
  contract_intl_designator (lit "1998-067A") = lit "98067A".
Proof. vm_compute. split; reflexivity. Qed.
(** The other direction loses the century outside 1957..2056. *)
Theorem C14_century_refuted : exists s, s = lit "1950-001A" /\
  expand_intl_designator (contract_intl_designator s) = lit "2050-001A".
Proof. exists (lit "1950-001A"). vm_compute. split; reflexivity. Qed.

(** ** C50 *)
Theorem C50_roundtrip t name : printable t ->
  exists l1 l2, format_tle t = Ok (l1, l2) /\
    exists t', parse_tle_inner name l1 l2 = Ok t' /\
      tle_eq t' {| t_name := name; t_norad := t_norad t; t_class := t_class t; t_desig := t_desig t;
                   t_epoch := t_epoch t; t_ndot := t_ndot t; t_nddot := t_nddot t; t_bstar := t_bstar t;
                   t_elset := t_elset t; t_rev := t_rev t; t_inc := t_inc t; t_raan := t_raan t;
                   t_ecc := t_ecc t; t_argp := t_argp t; t_ma := t_ma t; t_mm := t_mm t |}.
Proof.
  intros P. destruct (tle_roundtrip t name P) as (l1 & l2 & F & _ & _ & _ & _ & _ & _ & R). eauto.
Qed.
Example C50_case : printable iss /\ exists t', parse_tle iss1 iss2 = Ok t' /\ t_epoch t' = t_epoch iss /\ t_norad t' = 25544.
Proof. split; [exact iss_printable|]. eexists. split; [vm_compute; reflexivity|]. split; vm_compute; reflexivity. Qed.

Definition new_year_eve : tle := {| t_name := None; t_norad := 25544; t_class := Unclassified; t_desig := lit "98067A";
  t_epoch := Epoch 2009 365 86399999900000; t_ndot := Fin 0; t_nddot := 0;
  t_bstar := 0; t_elset := 1; t_rev := 1; t_inc := Fin 1;
  t_raan := Fin 1; t_ecc := 0; t_argp := Fin 1; t_ma := Fin 1; t_mm := Fin 1 |}.
(** An epoch in the last half unit (432 us) of a year prints as day 366 and cannot be read back. *)
Theorem C50_year_end_refuted : exists l1 l2, format_tle new_year_eve = Ok (l1, l2) /\
  validate_tle_checksum l1 = Ok tt /\ validate_tle_checksum l2 = Ok tt /\
  exists e, parse_tle l1 l2 = Err e.
Proof.
  do 2 eexists. split; [vm_compute; reflexivity|]. split; [vm_compute; reflexivity|].
  split; [vm_compute; reflexivity|]. eexists. vm_compute. reflexivity.
Qed.
(** Text no number can hold is accepted as an angle. *)
Theorem C50_nan_refuted : exists l1 l2 t, parse_tle l1 l2 = Ok t /\ t_inc t = NaN.
Proof.
  exists iss1, (with_checksum (lit "2 25544      NaN 247.4627 0006703 130.5360 325.0288 15.7212539156353")).
  eexists. split; vm_compute; reflexivity.
Qed.

(** A name line changes nothing but the name, with or without the leading [0]. *)
Definition renamed (t : tle) (n : option str) : tle :=
  {| t_name := n; t_norad := t_norad t; t_class := t_class t; t_desig := t_desig t; t_epoch := t_epoch t; t_ndot := t_ndot t; t_nddot := t_nddot t; t_bstar := t_bstar t;
     t_elset := t_elset t; t_rev := t_rev t; t_inc := t_inc t; t_raan := t_raan t; t_ecc := t_ecc t; t_argp := t_argp t; t_ma := t_ma t; t_mm := t_mm t |}.
Lemma inner_name n l1 l2 : parse_tle_inner n l1 l2 = match parse_tle l1 l2 with Ok t => Ok (renamed t n) | Err e => Err e | Panic => Panic end.
Proof.
  unfold parse_tle, parse_tle_inner. repeat (match goal with |- (if ?c then _ else _) = _ => destruct c; [reflexivity|] end). unfold obind.
  repeat (match goal with
          | |- match ?x with Ok _ => _ | Err _ => _ | Panic => _ end = _ => destruct x; [|reflexivity..]
          | |- (if ?c then _ else _) = _ => destruct c; [reflexivity|]
          end). reflexivity.
Qed.
Theorem C50_name n l1 l2 : n <> [] -> trim n = n -> (forall r, n <> 48 :: 32 :: r) ->
  parse_3le n l1 l2 = (match parse_tle l1 l2 with Ok t => Ok (renamed t (Some n)) | Err e => Err e | Panic => Panic end) /\ parse_3le (lit "0 " ++ n) l1 l2 = parse_3le n l1 l2.
Proof.
  intros N T Z. assert (S0 : forall k, strip_zero_blank k n = n).
  { intros [|k]; [reflexivity|]. destruct n as [|a [|b r]]; [reflexivity..|]. cbn [strip_zero_blank]. destruct (N.eqb_spec a 48) as [->|]; [|reflexivity]. destruct (N.eqb_spec b 32) as [->|]; [|reflexivity]. now elim (Z r). }
  assert (P : parse_3le n l1 l2 = parse_tle_inner (Some n) l1 l2) by (unfold parse_3le; rewrite S0, T; destruct n; [contradiction|reflexivity]).
  split; [rewrite P; apply inner_name|]. rewrite P. unfold parse_3le. change (lit "0 " ++ n) with (48 :: 32 :: n). change (strip_zero_blank (length (48 :: 32 :: n)) (48 :: 32 :: n)) with (strip_zero_blank (S (length n)) n). rewrite S0, T. destruct n; [contradiction|reflexivity].
Qed.
Theorem C50_blank n l1 l2 : trim (strip_zero_blank (length n) n) = [] -> parse_3le n l1 l2 = parse_tle l1 l2.
Proof. intros H. unfold parse_3le. now rewrite H. Qed.
(** A name that itself begins with [0] and a blank is not kept. *)
Theorem C50_zero_name_refuted : exists n, trim n = n /\ forall l1 l2 t, parse_3le n l1 l2 = Ok t -> t_name t <> Some n.
Proof.
  exists (lit "0 FACE"). split; [vm_compute; reflexivity|]. intros l1 l2 t H. change (parse_3le (lit "0 FACE") l1 l2) with (parse_3le (lit "0 " ++ lit "FACE") l1 l2) in H.
  destruct (C50_name (lit "FACE") l1 l2) as [A B]; [discriminate|vm_compute; reflexivity|intros r; vm_compute; discriminate|]. rewrite B, A in H. destruct (parse_tle l1 l2); try discriminate. injection H as <-. vm_compute. discriminate.
Qed.
Print Assumptions C09_accept.
Print Assumptions C09_digit_change.
Print Assumptions C09_one_column.
Print Assumptions C10_roundtrip.
Print Assumptions C10_canonical.
Print Assumptions C11_roundtrip.
Print Assumptions C11_width.
Print Assumptions C11_close.
Print Assumptions C12_lines.
Print Assumptions C13_year.
Print Assumptions C14_roundtrip.
Print Assumptions C50_roundtrip.
Print Assumptions C50_year_end_refuted.
Print Assumptions C50_name.
