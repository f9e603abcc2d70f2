(** Proofs about beacon observation files. *)
From Coq Require Import Ascii String List NArith ZArith Bool QArith Qabs Qround Lia.
From Verif Require Import Base Text DecFloat Sort Lsk_Spec Sp3_Model Oem_Model Omm_Model Ilrs_Model Nav_Model Igs_Model Igs_Spec Igs_Proofs.
From Verif Require Cal_Proofs.
Import ListNotations.
Local Open Scope N_scope.

(** * Dates *)
Lemma floor_frac a (b : positive) q : (q == a # b)%Q -> Qfloor q = (a / Z.pos b)%Z. Proof. intros ->. reflexivity. Qed.
Section Count.
Local Ltac Zify.zify_post_hook ::= Z.to_euclidean_division_equations.
Local Open Scope Z_scope.
Lemma month_floor m : 3 <= m <= 14 -> 306001 * (m + 1) / 10000 = (153 * (m - 3) + 2) / 5 + 122.
Proof. intros H. assert (C : m = 3 \/ m = 4 \/ m = 5 \/ m = 6 \/ m = 7 \/ m = 8 \/ m = 9 \/ m = 10 \/ m = 11 \/ m = 12 \/ m = 13 \/ m = 14) by lia. repeat destruct C as [->|C]; try subst m; reflexivity. Qed.
Lemma meeus_count y m d : 1 <= y -> 1 <= m <= 12 ->
  let yy := if m <=? 2 then y - 1 else y in let mm := if m <=? 2 then m + 12 else m in
  1461 * (yy + 4716) / 4 + 306001 * (mm + 1) / 10000 + d + (2 - yy / 100 + yy / 100 / 4) - 1524 = day_number y m d + 1721425.
Proof.
  intros Y M. rewrite Cal_Proofs.day_number_closed, Cal_Proofs.leap_count by lia. unfold Cal_Proofs.before. cbv zeta. rewrite Z.div_div by lia. change (100 * 4) with 400.
  destruct (Z.leb_spec m 2); rewrite month_floor by lia; lia.
Qed.
End Count.
Definition mjd_zero : Z := 678576.
Lemma mjd_zero_day : day_number 1858 11 17 = mjd_zero. Proof. rewrite Cal_Proofs.day_number_closed by lia. reflexivity. Qed.
(** midnight and the rest of the day *)
Lemma date_mjd y m d h mi s : (1 <= y)%Z -> 1 <= m <= 12 ->
  exists x, date_to_mjd y m d h mi (Fin s) = Fin x /\
    (x == inject_Z (day_number y (Z.of_N m) (Z.of_N d) - mjd_zero) + (inject_Z (Z.of_N h) * 3600 + inject_Z (Z.of_N mi) * 60 + s) / 86400)%Q.
Proof.
  intros Y M. pose proof (meeus_count y (Z.of_N m) (Z.of_N d) Y ltac:(lia)) as C. cbv zeta in C.
  assert (L : (Z.of_N m <=? 2)%Z = (m <=? 2)) by (destruct (N.leb_spec m 2), (Z.leb_spec (Z.of_N m) 2); lia || reflexivity). rewrite L in C.
  unfold date_to_mjd. set (yy := if m <=? 2 then (y - 1)%Z else y) in *. set (mm := if m <=? 2 then m + 12 else m) in *. cbv zeta. cbn [fover fplus].
  assert (Mm : (if (m <=? 2)%N then Z.of_N m + 12 else Z.of_N m)%Z = Z.of_N mm) by (unfold mm; destruct (m <=? 2); lia). rewrite Mm in C.
  eexists. split; [reflexivity|].
  rewrite <- (Zdiv_Qdiv yy 100 : (yy / 100)%Z = Qfloor (inject_Z yy / 100)).
  rewrite <- (Zdiv_Qdiv (yy / 100) 4 : (yy / 100 / 4)%Z = Qfloor (inject_Z (yy / 100) / 4)).
  rewrite (floor_frac (1461 * (yy + 4716)) 4) by (rewrite (Qmake_Qdiv (1461 * (yy + 4716))), inject_Z_mult, inject_Z_plus; change (inject_Z 1461) with (1461 # 1); change (inject_Z 4716) with (4716 # 1); change (inject_Z 4) with (4 # 1); field).
  rewrite (floor_frac (306001 * (Z.of_N mm + 1)) 10000) by (rewrite (Qmake_Qdiv (306001 * (Z.of_N mm + 1))), inject_Z_mult, inject_Z_plus; change (inject_Z 306001) with (306001 # 1); change (inject_Z 1) with (1 # 1); change (inject_Z 10000) with (10000 # 1); field).
  replace (day_number y (Z.of_N m) (Z.of_N d) - mjd_zero)%Z with
    (1461 * (yy + 4716) / 4 + 306001 * (Z.of_N mm + 1) / 10000 + Z.of_N d + (2 - yy / 100 + yy / 100 / 4) - 1524 - 2400001)%Z by (unfold mjd_zero; lia).
  unfold Z.sub. rewrite !inject_Z_plus, !inject_Z_opp. generalize (1461 * (yy + 4716) / 4)%Z (306001 * (Z.of_N mm + 1) / 10000)%Z (yy / 100 / 4)%Z (yy / 100)%Z. intros a b c e.
  change (inject_Z 2400001) with (2400001 # 1). change (inject_Z 1524) with (1524 # 1). change (inject_Z 2) with (2 # 1). field.
Qed.

(** * Lines *)
Lemma slice_whole {E} s a : forallb is_ascii s = true -> (a <= length s)%nat -> @slice E s a (length s) = Ok (skipn a s).
Proof. intros A L. rewrite slice_ascii by (assumption || lia). f_equal. rewrite firstn_all2; [reflexivity|]. rewrite skipn_length. lia. Qed.
Lemma ascii_skip n s : forallb is_ascii s = true -> forallb is_ascii (skipn n s) = true.
Proof. rewrite !forallb_forall. intros H x I. apply H. rewrite <- (firstn_skipn n s). apply in_app_iff. now right. Qed.
Lemma ascii_first n s : forallb is_ascii s = true -> forallb is_ascii (firstn n s) = true.
Proof. rewrite !forallb_forall. intros H x I. apply H. rewrite <- (firstn_skipn n s). apply in_app_iff. now left. Qed.

Definition d_header_of (ls : list str) : doris_header :=
  DorisHeader (d_field (lit "RINEX VERSION / TYPE") 0 9 ls) (d_field (lit "PGM / RUN BY / DATE") 0 20 ls) (d_field (lit "PGM / RUN BY / DATE") 20 40 ls)
    (d_field (lit "MARKER NAME") 0 60 ls) (d_field (lit "ANT # / TYPE") 20 60 ls) (d_field (lit "REC # / TYPE / VERS") 20 40 ls).
Lemma field_snoc label a b ls l : d_field label a b (ls ++ [l]) = if str_eqb (d_label l) label then trim (firstn (b - a) (skipn a l)) else d_field label a b ls.
Proof. unfold d_field. rewrite last_with_snoc. now destruct (str_eqb _ _). Qed.
Lemma cut_twice a b n (l : str) : (b <= n)%nat -> firstn (b - a) (skipn a (firstn n l)) = firstn (b - a) (skipn a l).
Proof. intros H. rewrite skipn_firstn_comm, firstn_firstn. f_equal. lia. Qed.
Lemma header_step pre l : forallb is_ascii l = true -> doris_header_line l (d_header_of pre) = Ok (d_header_of (pre ++ [l]), d_last l).
Proof.
  intros A. unfold doris_header_line, d_header_of. rewrite !field_snoc. unfold d_last, d_label.
  destruct (Nat.ltb_spec (length l) 61) as [L|L]; destruct (Nat.leb_spec 61 (length l)) as [L'|L']; try lia.
  { reflexivity. }
  rewrite slice_ascii by (assumption || lia). cbn [obind]. rewrite slice_whole by (assumption || lia). cbn [obind]. set (data := firstn (60 - 0) (skipn 0 l)).
  assert (Da : data = firstn 60 l) by reflexivity. assert (Dl : length data = 60%nat) by (rewrite Da; apply firstn_length_le; lia). assert (Aa : forallb is_ascii data = true) by (rewrite Da; now apply ascii_first).
  destruct (str_eqb_spec (trim (skipn 60 l)) (lit "RINEX VERSION / TYPE")) as [->|N1].
  { rewrite slice_ascii by (assumption || lia). cbn [obind]. rewrite Da, cut_twice by lia. reflexivity. }
  destruct (str_eqb_spec (trim (skipn 60 l)) (lit "PGM / RUN BY / DATE")) as [->|N2].
  { rewrite slice_ascii by (assumption || lia). cbn [obind]. rewrite slice_ascii by (assumption || lia). cbn [obind]. rewrite Da, !cut_twice by lia. reflexivity. }
  destruct (str_eqb_spec (trim (skipn 60 l)) (lit "MARKER NAME")) as [->|N3]; [reflexivity|].
  destruct (str_eqb_spec (trim (skipn 60 l)) (lit "ANT # / TYPE")) as [->|N4].
  { rewrite slice_ascii by (assumption || lia). cbn [obind]. rewrite Da, cut_twice by lia. reflexivity. }
  destruct (str_eqb_spec (trim (skipn 60 l)) (lit "REC # / TYPE / VERS")) as [->|N5].
  { rewrite slice_ascii by (assumption || lia). cbn [obind]. rewrite Da, cut_twice by lia. reflexivity. }
  reflexivity.
Qed.
Lemma when_step pre l : first_is 62 l = true -> doris_epoch (tl l) (d_when pre) = d_when (pre ++ [l]).
Proof.
  intros H. symmetry. unfold d_when at 1. rewrite last_with_snoc. unfold doris_epoch. unfold d_time at 1. rewrite H. cbn [andb].
  destruct (split_ws (tl l)) as [|a [|b [|c [|d [|e [|f ws]]]]]] eqn:W; cbn [length Nat.leb]; try reflexivity. now rewrite W.
Qed.
Lemma when_stay pre l : first_is 62 l = false -> d_when (pre ++ [l]) = d_when pre.
Proof. intros H. unfold d_when. rewrite last_with_snoc. unfold d_time at 1. now rewrite H. Qed.
Lemma body_step pre l obs un : forallb is_ascii l = true -> doris_line l (d_when pre) obs un = Ok (d_when (pre ++ [l]), obs ++ d_obs_of pre l, (un + length (d_counted pre l))%nat).
Proof.
  intros A. unfold d_counted, d_obs_of. destruct l as [|c t].
  { cbn. rewrite app_nil_r, Nat.add_0_r. now rewrite when_stay. }
  destruct (N.eq_dec c 62) as [->|N].
  { cbn [doris_line d_data N.eqb Pos.eqb negb first_is andb length]. rewrite app_nil_r, Nat.add_0_r. f_equal. f_equal. f_equal. now apply (when_step pre (62 :: t)). }
  assert (First : first_is 62 (c :: t) = false) by (cbn; now apply N.eqb_neq).
  assert (D : d_data (c :: t) = true) by (cbn; destruct (N.eqb_spec c 62); [contradiction|reflexivity]). rewrite (when_stay _ _ First), D. clear First D.
  assert (Eq : doris_line (c :: t) (d_when pre) obs un =
    obind (if (3 <=? length (c :: t))%nat && (c =? 68) then obind (slice (c :: t) 0 3) (fun s => Ok (Some s)) else Ok None) (fun sat =>
      match d_when pre, sat with
      | Some mjd, Some sat => obind (if (3 <? length (c :: t))%nat then obind (slice (c :: t) 3 (length (c :: t))) (fun r => Ok (trim r)) else Ok []) (fun raw =>
          Ok (d_when pre, obs ++ [DorisObs mjd sat raw], match raw with [] => S un | _ => un end))
      | _, _ => Ok (d_when pre, obs, S un)
      end)).
  { clear -N. destruct c as [|p]; [reflexivity|]. do 6 (destruct p as [p|p|]; try reflexivity). congruence. }
  rewrite Eq. clear Eq N. cbn [first_is]. rewrite (andb_comm (c =? 68)). set (l := c :: t) in *. destruct ((3 <=? length l)%nat && (c =? 68)) eqn:S; cbn [obind].
  2: { rewrite app_nil_r. cbn [length]. rewrite Nat.add_1_r. destruct (d_when pre); reflexivity. }
  apply andb_prop in S. destruct S as (L & _). apply Nat.leb_le in L. rewrite slice_ascii by (assumption || lia). change (firstn (3 - 0) (skipn 0 l)) with (firstn 3 l). cbn [obind]. destruct (d_when pre) as [e|] eqn:W.
  - assert (R : (if (3 <? length l)%nat then obind (slice l 3 (length l)) (fun r => Ok (trim r)) else @Ok str igs_err []) = Ok (trim (skipn 3 l))).
    { destruct (Nat.ltb_spec 3 (length l)); [rewrite slice_whole by (assumption || lia); reflexivity|]. rewrite skipn_all2 by lia. reflexivity. }
    match goal with |- obind ?x _ = _ => replace x with (@Ok str igs_err (trim (skipn 3 l))) by (symmetry; exact R) end. cbn [obind d_raw]. destruct (trim (skipn 3 l)); cbn [length]; [rewrite Nat.add_1_r|rewrite Nat.add_0_r]; reflexivity.
  - rewrite app_nil_r. cbn [length]. now rewrite Nat.add_1_r.
Qed.
Lemma trim_eol_ascii s : forallb is_ascii s = true -> forallb is_ascii (trim_eol s) = true.
Proof.
  induction s as [|c s IH]; [reflexivity|]. cbn [forallb trim_eol]. intros H. apply andb_prop in H. destruct H as (C & H). specialize (IH H).
  destruct (trim_eol s) as [|d r]; [destruct (_ || _); cbn; now rewrite ?C|]. cbn [forallb] in *. now rewrite C.
Qed.
Lemma doris_body_spec ls : forall h pre no, Forall (fun l => forallb is_ascii l = true) ls ->
  doris_loop ls false h (d_when pre) (each d_obs_of pre) (no + length (each d_counted pre)) =
  Ok (Doris h (each d_obs_of (pre ++ map trim_eol ls)) (no + length (each d_counted (pre ++ map trim_eol ls)))).
Proof.
  induction ls as [|l t IH]; intros h pre no A; cbn [doris_loop map]; [now rewrite app_nil_r|]. inversion A as [|? ? A1 A2]; subst. cbv zeta.
  rewrite body_step by now apply trim_eol_ascii. cbn [obind]. rewrite <- each_snoc.
  replace (no + length (each d_counted pre) + length (d_counted pre (trim_eol l)))%nat with (no + length (each d_counted (pre ++ [trim_eol l])))%nat by (rewrite each_snoc, app_length; lia).
  rewrite IH by exact A2. now rewrite <- app_assoc.
Qed.
Lemma doris_head_spec ls : forall pre, Forall (fun l => forallb is_ascii l = true) ls -> let tls := map trim_eol ls in
  doris_loop ls true (d_header_of pre) None [] 0 =
  Ok (Doris (d_header_of (pre ++ d_head tls)) (each d_obs_of (d_body tls)) (length (each d_counted (d_body tls)))).
Proof.
  induction ls as [|l t IH]; intros pre A tls; cbn [doris_loop map d_head until d_body] in *; [subst tls; cbn; now rewrite app_nil_r|]. inversion A as [|? ? A1 A2]; subst. subst tls. cbn [map]. cbv zeta.
  rewrite header_step by now apply trim_eol_ascii. cbn [obind fst snd]. unfold d_head. cbn [until d_body]. destruct (d_last (trim_eol l)) eqn:E; cbn [negb].
  - pose proof (doris_body_spec t (d_header_of (pre ++ [trim_eol l])) [] 0 A2) as B. cbn [app] in B. change (d_when []) with (@None fnum) in B. change (each d_obs_of []) with (@nil doris_obs) in B.
    etransitivity; [exact B|]. rewrite app_nil_r. cbn [Nat.add]. f_equal. f_equal. unfold d_header_of. rewrite !field_snoc.
    unfold d_last in E. destruct (str_eqb_spec (d_label (trim_eol l)) (lit "END OF HEADER")) as [->|]; [reflexivity|discriminate].
  - etransitivity; [exact (IH (pre ++ [trim_eol l]) A2)|]. unfold d_head. now rewrite <- app_assoc.
Qed.
