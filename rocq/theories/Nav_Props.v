(** Theorems about navigation files: C120 to C122. *)
From Coq Require Import Ascii String List NArith ZArith Lia Bool QArith Qround Qabs Lqa.
From Coq Require Import ZifyBool ZifyNat ZifyN.
From Verif Require Import Base Text DecFloat Lsk_Spec Sp3_Model Omm_Model Omm_Proofs Sp3_Write Oem_Model Ilrs_Model Ilrs_Proofs Ilrs_Write Nav_Model Nav_Spec Nav_Proofs Nav_Write.
Import ListNotations.
Local Open Scope N_scope.

(** * C120 *)
(** The text after the header is cut into records in exactly one way. *)
Theorem C120_cut ls no : exists bs e, blocks ls no bs e /\ forall bs' e', blocks ls no bs' e' -> bs' = bs /\ e' = e.
Proof. destruct (blocks_exist (length ls) ls no (le_n _)) as (bs & e & B). exists bs, e. split; [exact B|]. now apply blocks_det. Qed.
(** Strict reading gives exactly the records the text says, in order; it succeeds exactly when the header ends, no record is cut short and all of them say something. *)
Theorem C120_strict utc_ok text rs : parse_nav utc_ok text Strict = Ok rs <->
  exists ls no bs, body_of text ls no /\ blocks ls no bs None /\ Forall2 (says utc_ok) bs rs.
Proof.
  unfold parse_nav. destruct (after_header (text_lines text) 1) as [(ls, no)|] eqn:H.
  - apply body_spec in H. destruct (blocks_exist (length ls) ls no (le_n _)) as (bs & e & B). rewrite (loop_over utc_ok Strict _ _ _ _ B). rewrite over_strict by (eapply blocks_start; exact B). split.
    + intros (-> & rs' & -> & F). exists ls, no, bs. auto.
    + intros (ls' & no' & bs' & H' & B' & F). apply body_spec in H, H'. rewrite H in H'. injection H' as <- <-. destruct (blocks_det _ _ _ _ B _ _ B') as (-> & <-). split; [reflexivity|]. now exists rs.
  - split; [discriminate|]. intros (ls & no & bs & B & _). apply body_spec in B. congruence.
Qed.
(** Permissive reading never reports an error: it gives the records that say something, leaving out the others and one cut short, or it panics. *)
Theorem C120_permissive utc_ok text ls no bs e : body_of text ls no -> blocks ls no bs e ->
  Forall (fun b => ~ across (first_line b) /\ ~ short_of_numbers utc_ok b) bs -> exists rs, kept utc_ok bs rs /\ parse_nav utc_ok text Permissive = Ok rs.
Proof.
  intros H B F. apply body_spec in H. unfold parse_nav. rewrite H, (loop_over utc_ok Permissive _ _ _ _ B). destruct (over_permissive utc_ok bs e (blocks_start _ _ _ _ B) []) as [(_ & rs & K & E)|(X & _)]; [now exists rs|].
  exfalso. apply Exists_exists in X as (b & I & [A|A]); rewrite Forall_forall in F; specialize (F b I); tauto.
Qed.
Theorem C120_no_error utc_ok text e : parse_nav utc_ok text Permissive <> Err e.
Proof.
  unfold parse_nav. destruct (after_header (text_lines text) 1) as [(ls, no)|]; [|discriminate]. destruct (blocks_exist (length ls) ls no (le_n _)) as (bs & f & B). rewrite (loop_over utc_ok Permissive _ _ _ _ B).
  destruct (over_permissive utc_ok bs f (blocks_start _ _ _ _ B) []) as [(_ & rs & _ & E)|(_ & E)]; rewrite E; discriminate.
Qed.
(** Without the header's end mark the permissive reader finds no records, whatever the text. *)
Theorem C120_no_mark utc_ok text : Forall (fun l => ~ marked l) (text_lines text) -> parse_nav utc_ok text Permissive = Ok [] /\ parse_nav utc_ok text Strict = Err NoHeader.
Proof. intros F. apply body_none in F. unfold parse_nav. rewrite F. split; reflexivity. Qed.
(** The documentation says that permissive reading skips malformed records. A record whose words all read but one of whose five lines has too few of them
    makes it panic instead, whatever else the file holds; so does a character of several bytes across the fourth byte, in both modes unless strict reading
    stopped before. *)
Theorem C120_skip_refuted utc_ok text ls no bs e b : body_of text ls no -> blocks ls no bs e -> In b bs ->
  across (first_line b) \/ short_of_numbers utc_ok b -> parse_nav utc_ok text Permissive = Panic.
Proof.
  intros H B I X. apply body_spec in H. unfold parse_nav. rewrite H, (loop_over utc_ok Permissive _ _ _ _ B). destruct (over_permissive utc_ok bs e (blocks_start _ _ _ _ B) []) as [(F & _)|(_ & E)]; [|exact E].
  exfalso. rewrite Forall_forall in F. specialize (F b I). tauto.
Qed.
Definition nl : str := [10].
Definition short_text : str :=
  lit "END OF HEADER" ++ nl ++ lit "G01 2024 01 01 00 00 00 1.0D-04 5.6D-12 0.0" ++ nl ++ lit " 1.0 20.0 3.4D-9 1.2" ++ nl ++ lit " 1.0 2.0" ++ nl ++ lit " 1 2 3 4" ++ nl ++
  lit " 1 2 3 4" ++ nl ++ lit " 1" ++ nl ++ lit " 0" ++ nl ++ lit " 0" ++ nl.
Definition fine_text : str :=
  lit "END OF HEADER" ++ nl ++ lit "G01 2024 01 01 00 00 00 1.0D-04 5.6D-12 0.0" ++ nl ++ lit " 1.0 20.0 3.4D-9 1.2" ++ nl ++ lit " 1.0 2.0 3 4" ++ nl ++ lit " 1 2 3 4" ++ nl ++
  lit " 1 2 3 4" ++ nl ++ lit " 1" ++ nl ++ lit " 0" ++ nl ++ lit " 0" ++ nl.
Example C120_case : parse_nav (fun _ => true) short_text Permissive = Panic /\ parse_nav (fun _ => true) short_text Strict = Err (ShortBody 4 2) /\
  (exists r, parse_nav (fun _ => true) fine_text Strict = Ok [r] /\ parse_nav (fun _ => true) fine_text Permissive = Ok [r] /\ prn r = 1 /\ toc r = Civil 2024 1 1 0 0 0 0 /\ (exists q, crs r = Fin q /\ (q == 20)%Q)).
Proof.
  split; [reflexivity|]. split; [reflexivity|]. eexists. split; [reflexivity|]. split; [reflexivity|]. split; [reflexivity|]. split; [reflexivity|]. eexists. split; reflexivity.
Qed.
Print Assumptions C120_cut.
Print Assumptions C120_strict.
Print Assumptions C120_permissive.
Print Assumptions C120_no_error.
Print Assumptions C120_no_mark.
Print Assumptions C120_skip_refuted.

(** * C121: the time of a record *)
(** A calendar date and a time of day below a minute's last half nanosecond are taken as written, to the nanosecond. *)
Theorem C121_time utc_ok y mo d h mi q : (-262143 <= y <= 262142)%Z -> date_ok y mo d -> (0 <= h < 24)%Z -> (0 <= mi < 60)%Z -> (0 <= q)%Q -> (q < 60)%Q -> ~ carries q ->
  (forall c, utc_ok c = true) -> exists c, build_toc utc_ok y mo d h mi (Fin q) 0 = Ok c /\
  year c = y /\ Z.of_N (month c) = mo /\ Z.of_N (day c) = d /\ Z.of_N (hour c) = h /\ Z.of_N (minute c) = mi /\
  (Qabs (inject_Z (Z.of_N (second c)) + inject_Z (Z.of_N (nano c)) * (1 # 1000000000) - q) <= 1 # 2000000000)%Q /\ nano c < 1000000000.
Proof.
  intros Y D H Mi P L C U. unfold build_toc. pose proof (floor_range q P) as F0. pose proof (floor_bound q 60 L) as F1.
  assert (T : trunc_u64 (Fin q) = Z.to_N (Qfloor q)) by (unfold trunc_u64; lia). assert (T' : Z.of_N (trunc_u64 (Fin q)) = Qfloor q) by (rewrite T; lia).
  set (w := ((q - inject_Z (Qfloor q)) * 1000000000 + (1 # 2))%Q). pose proof (Qfloor_le q) as A. pose proof (Qlt_floor q) as B. rewrite inject_Z_plus in B. change (inject_Z 1) with 1%Q in B.
  assert (W : (0 <= w)%Q /\ (w < inject_Z 1000000000)%Q). { unfold w. split; [lra|]. unfold carries in C. change (inject_Z 1000000000) with 1000000000%Q. lra. }
  pose proof (floor_range w (proj1 W)) as G0. pose proof (floor_bound w 1000000000 (proj2 W)) as G1.
  assert (R : Z.of_N (rest_nanos (Fin q)) = Qfloor w).
  { unfold rest_nanos. rewrite T'. cbn [fplus fmul round_u32]. unfold round_up, sat_u32, u32_max. assert (E : Qfloor ((- inject_Z (Qfloor q) + q) * 1000000000 + (1 # 2)) = Qfloor w) by (apply Qfloor_comp; unfold w; ring). rewrite E. lia. }
  pose proof D as (M1 & D1). pose proof (month_len y mo) as ML. rewrite i32_id by lia. rewrite !u32_id by lia. rewrite T. rewrite N.mod_small by lia.
  set (c := Civil y (Z.to_N mo) (Z.to_N d) (Z.to_N h) (Z.to_N mi) (Z.to_N (Qfloor q)) (rest_nanos (Fin q))).
  exists c. split.
  - subst c. cbn [year month day hour minute second nano]. rewrite U, andb_true_r. rewrite (proj2 (ymd_ok_spec y (Z.to_N mo) (Z.to_N d) ltac:(lia))) by (rewrite !Z2N.id by lia; exact D). cbn [andb].
    replace (hms_ok _ _ _ _) with true; [reflexivity|]. symmetry. unfold hms_ok. lia.
  - subst c. cbn [year month day hour minute second nano]. rewrite !Z2N.id by lia. do 5 (split; [reflexivity|]). rewrite R. split; [|lia].
    pose proof (Qfloor_le w) as W1. pose proof (Qlt_floor w) as W2. rewrite inject_Z_plus in W2. change (inject_Z 1) with 1%Q in W2. apply Qabs_Qle_condition. unfold w in *. split; lra.
Qed.
(** The conversions wrap: a month, day, hour, minute or year off by a multiple of 2^32 is read as if it were not. *)
Theorem C121_wrap_refuted utc_ok y mo d h mi s no ky kmo kd kh kmi :
  build_toc utc_ok (y + 4294967296 * ky) (mo + 4294967296 * kmo) (d + 4294967296 * kd) (h + 4294967296 * kh) (mi + 4294967296 * kmi) s no = build_toc utc_ok y mo d h mi s no.
Proof.
  assert (U : forall z k, u32_of (z + 4294967296 * k) = u32_of z) by (intros; unfold u32_of; rewrite Z.mul_comm, Z_mod_plus_full; reflexivity).
  assert (I : i32_of (y + 4294967296 * ky) = i32_of y). { unfold i32_of. replace (y + 4294967296 * ky + 2147483648)%Z with (y + 2147483648 + ky * 4294967296)%Z by ring. now rewrite Z_mod_plus_full. }
  unfold build_toc. rewrite I, !U. reflexivity.
Qed.
(** Seconds below zero and NaN are read as zero seconds. *)
Theorem C121_negative_refuted utc_ok y mo d h mi q no : (q <= 0)%Q -> build_toc utc_ok y mo d h mi (Fin q) no = build_toc utc_ok y mo d h mi (Fin 0) no /\ build_toc utc_ok y mo d h mi NaN no = build_toc utc_ok y mo d h mi (Fin 0) no.
Proof.
  intros L. assert (T : trunc_u64 (Fin q) = 0). { unfold trunc_u64. assert (Qfloor q < 1)%Z by (rewrite Zlt_Qlt; pose proof (Qfloor_le q); change (inject_Z 1) with 1%Q; lra). lia. }
  assert (R : rest_nanos (Fin q) = 0).
  { unfold rest_nanos. rewrite T. cbn [fplus fmul round_u32]. unfold round_up, sat_u32. set (x := ((- inject_Z (Z.of_N 0) + q) * 1000000000 + (1 # 2))%Q). assert (X : (x < 1)%Q) by (unfold x; change (inject_Z (Z.of_N 0)) with 0%Q; lra).
    assert (Qfloor x < 1)%Z by (rewrite Zlt_Qlt; pose proof (Qfloor_le x); change (inject_Z 1) with 1%Q; lra). lia. }
  split; [|reflexivity]. unfold build_toc. rewrite T, R. reflexivity.
Qed.
Example C121_case : date_ok 2024 2 29 /\ ~ carries (7 # 2) /\ exists c, build_toc (fun _ => true) (2024 + 4294967296) 2 29 23 59 (Fin (7 # 2)) 0 = Ok c /\ second c = 3 /\ nano c = 500000000 /\ year c = 2024%Z.
Proof. split; [vm_compute; intuition discriminate|]. split; [unfold carries; vm_compute; congruence|]. eexists. split; [reflexivity|]. repeat split. Qed.
Print Assumptions C121_time.
Print Assumptions C121_wrap_refuted.
Print Assumptions C121_negative_refuted.

(** * C122: writing and reading back *)
(** Records with satellite numbers 1 to 99, times without leap second and numbers that leave a blank in their field come back in either mode, their
    times to the second and their numbers to one part in 2e12; the first numbers of the lines may be anything, what is not finite coming back as zero. *)
Theorem C122_round_trip utc_ok rs m : Forall (good utc_ok) rs -> exists rs', parse_nav utc_ok (write_nav rs) m = Ok rs' /\ Forall2 same rs' rs.
Proof.
  intros F. rewrite read_written. destruct (over_good utc_ok m rs [] F 3 [] None) as (rs' & S & E). rewrite app_nil_r in E. exists rs'. split; [|exact S]. rewrite E. reflexivity.
Qed.
(** The documentation promises one part in 1e15. *)
Theorem C122_precision_refuted utc_ok : (forall c, utc_ok c = true) -> exists r, good utc_ok r /\ forall m r', parse_nav utc_ok (write_nav [r]) m = Ok [r'] ->
  exists x y, m0 r = Fin x /\ m0 r' = Fin y /\ (Qabs (y - x) > Qabs x * (39 # 100000000000000))%Q.
Proof.
  intros U. pose (r := Nav 1 (Civil 2024 1 1 0 0 0 0) (Fin 0) (Fin 0) (Fin 0) (Fin 0) (Fin 0) (Fin 0) (Fin (10000000000004 # 10000000000000)) (Fin 0) (Fin 0) (Fin 0) (Fin 0) (Fin 0) (Fin 0) (Fin 0) (Fin 0) (Fin 0) (Fin 0) (Fin 0) (Fin 0) (Fin 0)).
  assert (G : good utc_ok r).
  { split; [cbn; lia|]. split; [split; [cbn; lia|]; split; [vm_compute; intuition discriminate|]; cbn; repeat (split; [lia|]); apply U|]. split.
    - repeat (apply Forall_cons; [left; reflexivity|]). apply Forall_nil.
    - unfold good_body. do 2 (apply Forall_cons; [left; reflexivity|]). apply Forall_cons; [right; left; split; [apply Qle_bool_iff; vm_compute; reflexivity|vm_compute; reflexivity]|]. repeat (apply Forall_cons; [left; reflexivity|]). apply Forall_nil. }
  exists r. split; [exact G|]. intros m r' E. rewrite read_written in E. cbn [blocks_of over] in E. destruct (block_back utc_ok 3 r G) as (r'' & Sy & _). pose proof Sy as Sy'. apply (rec_ok utc_ok m) in Sy; [|apply line0_begins]. rewrite Sy in E. cbn [over app] in E. assert (r'' = r') by congruence. subst r''.
  cbn [says block_of] in Sy'. destruct Sy' as (_ & (x & N1) & _). exists (10000000000004 # 10000000000000)%Q.
  assert (N2 : exists y z, numbers (cont (Fin 0) (Fin 0) (Fin 0) (Fin (10000000000004 # 10000000000000))) (z ++ [Fin y]) /\ length z = 3%nat /\ (y == 1)%Q).
  { eexists _, [_; _; _]. split; [|split; [reflexivity|]].
    - unfold numbers. set (l := split_ws _). vm_compute in l. subst l. repeat (constructor; [vm_compute; reflexivity|]). constructor.
    - reflexivity. }
  destruct N2 as (y & z & N2 & L & Y). exists y. split; [reflexivity|]. pose proof (numbers_det _ _ _ N1 N2) as D. destruct z as [|z1 [|z2 [|z3 [|z4 z]]]]; try discriminate L. cbn [app] in D.
  split; [congruence|]. rewrite Y. vm_compute. reflexivity.
Qed.
(** A clock drift between -1e-10 and 0, which is the usual size, fills its field and runs into the clock offset before it: strict reading of the file written
    then fails at that record, and permissive reading drops it. The same befalls a leap second and satellite number 0. *)
Definition spoilt (r : nav) (no : nat) (e : nav_err) : Prop :=
  (glued r /\ e = FewTokens no 8) \/ (leaping r /\ e = BadToc no) \/ (prn r = 0 /\ (0 <= year (toc r))%Z /\ e = BadPrn no).
Theorem C122_unreadable utc_ok a r b e : Forall (good utc_ok) a -> spoilt r (3 + 8 * length a) e ->
  parse_nav utc_ok (write_nav (a ++ r :: b)) Strict = Err e /\
  (Forall (good utc_ok) b -> exists a' b', parse_nav utc_ok (write_nav (a ++ r :: b)) Permissive = Ok (a' ++ b') /\ Forall2 same a' a /\ Forall2 same b' b).
Proof.
  intros F S. assert (R : forall m, rec_of utc_ok m (block_of (3 + 8 * length a) r) = Err e).
  { intros m. destruct S as [(G & ->)|[(G & ->)|(P & Y & ->)]]; [now apply glued_err|now apply leaping_err|now apply unnumbered_err]. }
  split.
  - rewrite read_written. destruct (over_good utc_ok Strict a (r :: b) F 3 [] None) as (a' & _ & E). rewrite E. cbn [blocks_of over is_strict]. now rewrite R.
  - intros Fb. rewrite read_written. destruct (over_good utc_ok Permissive a (r :: b) F 3 [] None) as (a' & Sa & E). rewrite E. cbn [blocks_of over is_strict]. rewrite R.
    destruct (over_good utc_ok Permissive b [] Fb (3 + 8 * length a + 8) ([] ++ a') None) as (b' & Sb & E2). rewrite app_nil_r in E2. exists a', b'. split; [|auto]. rewrite E2. reflexivity.
Qed.
Definition sample (drift : Q) : nav :=
  Nav 7 (Civil 2024 1 1 2 0 0 250000000) (Fin (-1 # 10000)) (Fin drift) (Fin 0) (Fin (-1 # 100000000000)) (Fin 20) (Fin (4 # 1000000000)) (Fin (-1)) (Fin 0) (Fin (1 # 100)) (Fin 0) (Fin (51536 # 10)) (Fin 7200) (Fin 0) (Fin 1) (Fin 0) (Fin 1) (Fin 250) (Fin (-1)) (Fin (-8 # 1000000000)) (Fin (-1 # 10000000000)).
Example C122_case : good (fun _ => true) (sample (3 # 1000000000000)) /\ glued (sample (-3 # 1000000000000)).
Proof.
  assert (R : forall q, ((Qle_bool (p10 (-99)) q && negb (Qle_bool (p10 309) q)) || (negb (Qle_bool q (- p10 99)) && Qle_bool q (- p10 (-9))) || Qeq_bool q 0)%bool = true -> roomy (Fin q)).
  { intros q H. cbn [roomy]. rewrite !orb_true_iff, !andb_true_iff, !negb_true_iff, !Qle_bool_iff, Qeq_bool_iff in H. destruct H as [[(A & B)|(A & B)]|A]; [right; left|right; right|left; exact A]; (split; [|]); try assumption; apply Qnot_le_lt; rewrite <- Qle_bool_iff; congruence. }
  split.
  - split; [cbn; lia|]. split; [split; [cbn; lia|]; split; [vm_compute; intuition discriminate|]; cbn; repeat (split; [lia|]); reflexivity|]. split; [|unfold good_body]; repeat (apply Forall_cons; [apply R; vm_compute; reflexivity|]); apply Forall_nil.
  - split; [cbn; lia|]. split; [cbn; lia|]. split; [apply R; vm_compute; reflexivity|]. split; [split; vm_compute; reflexivity|apply R; vm_compute; reflexivity].
Qed.
Print Assumptions C122_round_trip.
Print Assumptions C122_precision_refuted.
Print Assumptions C122_unreadable.
