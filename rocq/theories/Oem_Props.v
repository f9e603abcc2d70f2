(** C61, C62: dates and files of ephemeris messages. *)
From Coq Require Import Ascii String List NArith ZArith Bool QArith Qabs Lia Lqa.
From Verif Require Import Base Text DecFloat Omm_Model Omm_Proofs Pck_Model Ik_Proofs Ctx_Proofs Kvn_Proofs Sp3_Model Sp3_Write Lsk_Spec Oem_Model Cal_Proofs Oem_Epoch Oem_Proofs Oem_Write.
Import ListNotations.
Local Open Scope N_scope.
Local Open Scope list_scope.

(** ** C61 *)
(** A printed date is a valid date of the Gregorian calendar and a valid time of day, and the two are the instant. Seconds are
    rounded to six digits when printed. *)
Theorem C61_calendar_date jd : (first_day <= jd)%Q -> exists y m d h mi sec,
  jd_to_iso jd = pad0 4 (Z.to_N y) ++ [45] ++ pad0 2 (Z.to_N m) ++ [45] ++ pad0 2 (Z.to_N d) ++ [84] ++
    pad0 2 (Z.to_N h) ++ [58] ++ pad0 2 (Z.to_N mi) ++ [58] ++ pad0_fixed 9 6 sec /\
  (1 <= y)%Z /\ date_ok y m d /\ (0 <= h < 24)%Z /\ (0 <= mi < 60)%Z /\ (0 <= sec < 60)%Q /\
  (jd == inject_Z (day_number y m d + 1721425) - (1 # 2) + (inject_Z h * 3600 + inject_Z mi * 60 + sec) / 86400)%Q.
Proof. exact (iso_shape jd). Qed.
(** Reading it gives the instant back. *)
Theorem C61_date_back jd : (first_day <= jd)%Q -> (jd < 700000000000)%Q -> exists t, iso_to_jd (jd_to_iso jd) = Some (Fin t) /\ (Qabs (t - jd) * 86400 <= 1 # 2000000)%Q.
Proof. exact (iso_back jd). Qed.
(** The two integer conversions behind them are inverse to each other and count days of the calendar. *)
Theorem C61_day_count y m d : (1 <= y)%Z -> date_ok y m d -> jdn_of_date y m d = (day_number y m d + 1721425)%Z.
Proof. intros Y (M & _). exact (jdn_count y m d Y M). Qed.
Theorem C61_date_of_day y m d : (1 <= y)%Z -> date_ok y m d -> date_of_jdn (jdn_of_date y m d) = (y, m, d).
Proof. intros Y D. rewrite (jdn_count y m d Y (proj1 D)). now apply date_back. Qed.
(** A date is read without checks of its ranges: the 31st of February is the second or third of March. *)
Theorem C61_ranges_unchecked : exists s t, iso_to_jd s = Some t /\ iso_to_jd (lit "2023-03-03T00:00:00") = Some t /\ s = lit "2023-02-31T00:00:00".
Proof. exists (lit "2023-02-31T00:00:00"). eexists. split; [vm_compute; reflexivity|]. split; vm_compute; reflexivity. Qed.
Example C61_case : jd_to_iso 2451545 = lit "2000-01-01T12:00:00.000000" /\ jd_to_iso (2460370 - (1 # 4)) = lit "2024-02-29T06:00:00.000000" /\
  date_ok 2024 2 29 /\ jdn_of_date 2024 2 29 = 2460370%Z /\ date_of_jdn 2460370 = (2024, 2, 29)%Z.
Proof. split; [vm_compute; reflexivity|]. split; [vm_compute; reflexivity|]. split; [unfold date_ok; vm_compute; intuition discriminate|]. split; vm_compute; reflexivity. Qed.

(** ** C62 *)
(** A file laid out as a header followed by blocks reads exactly as what its lines say: each header entry and each required metadata
    entry by the last line about it, each data row in order, and it is refused when a required entry is not told or a row cannot be
    read. *)
Theorem C62_reads_documents Hs bs f : Forall keyed Hs -> Forall good_block bs -> bs <> [] ->
  (read_lines (Hs ++ flat_map block_lines bs) = Ok f <-> file_is Hs bs f).
Proof. exact (read_document Hs bs f). Qed.
Theorem C62_by_lines text : read_oem text = read_lines (split_nl text). Proof. exact (read_oem_lines text). Qed.
(** Written files read back. *)
Theorem C62_roundtrip bad_date m ss : good_meta m -> ss <> [] -> Forall good_state ss ->
  exists text ts, write_oem bad_date m ss = Ok text /\ read_oem text = Ok (written_file m ts) /\ Forall2 like ts ss.
Proof. exact (oem_back bad_date m ss). Qed.
(** Nothing is written for an empty list of states. *)
Theorem C62_needs_states bad_date m ss : write_oem bad_date m ss = Err NoStates <-> ss = [].
Proof. destruct ss; cbn; split; congruence. Qed.
Theorem C62_no_panic text : read_oem text <> Panic. Proof. exact (read_oem_np text). Qed.
(** Values that are not finite are written all the same, and the file written is refused. *)
Theorem C62_not_finite_refused bad_date m ss s text : good_meta m -> Forall (fun s => in_calendar (epoch_jd s)) ss -> In s ss ->
  Exists (fun f => ~ finite f) [x s; y s; z s; vx s; vy s; vz s] -> write_oem bad_date m ss = Ok text -> exists e, read_oem text = Err e.
Proof.
  intros G C I E W. pose proof (oem_not_finite bad_date m ss s text G C I E W) as N. pose proof (read_oem_np text) as P.
  destruct (read_oem text) as [f|e|]; [now destruct (N f)|now exists e|now destruct P].
Qed.
(** A covariance or manoeuvre block after a segment takes the states of that segment with it: a file of one segment is then refused as
    empty, and otherwise the segment before it appears twice, the first time without its states. *)
Theorem C62_blocks_refuted Hs bs o K c ss s f : Forall keyed Hs -> Forall good_block bs -> bs <> [] -> opens o -> Forall not_end K -> closes c ->
  read_lines (Hs ++ flat_map block_lines bs) = Ok f -> segments f = ss ++ [s] ->
  read_lines (Hs ++ flat_map block_lines bs ++ [o] ++ K ++ [c]) =
    match rev ss with
    | [] => Err NoSegments
    | p :: r => Ok (Oem (version f) (creation_date f) (originator f) (rev r ++ [Segment (meta p) []; p]))
    end.
Proof. exact (block_loses Hs bs o K c ss s f). Qed.

Definition case_meta : metadata := Meta (lit "1998-067A") (lit "ISS (ZARYA)") (lit "EME2000") (lit "UTC") [].
Definition case_state (t a : Q) : state := State (Fin t) (Fin a) (Fin 0) (Fin (1 # 3)) (Fin (-7)) (Fin 0) (Fin (1 # 1000)).
Definition no_date (f : fnum) : str := lit "?".
Definition case_text (tail : list str) : str :=
  unlines (oem_lines no_date case_meta (case_state 2451545 1) (case_state 2451546 2) [case_state 2451545 1; case_state 2451546 2] ++ tail).
Definition two_segments : list str :=
  [lit "META_START"; lit "OBJECT_ID = B"; lit "OBJECT_NAME = B"; lit "REF_FRAME = ICRF"; lit "TIME_SYSTEM = TDB"; lit "CENTER_NAME = SUN"; lit "META_STOP"; lit "2001-01-01T00:00:00 1 2 3 4 5 6"].
Definition lost (o : res oem_file) : list (str * nat) := match o with Ok f => map (fun s => (object_id (meta s), length (states s))) (segments f) | _ => [] end.
Example C62_case :
  good_meta case_meta /\ Forall good_state [case_state 2451545 1; case_state 2451546 2] /\
  lost (read_oem (case_text [])) = [(lit "1998-067A", 2%nat)] /\
  read_oem (case_text [lit "COVARIANCE_START"; lit "EPOCH = x"; lit "COVARIANCE_STOP"]) = Err NoSegments /\
  lost (read_oem (case_text two_segments)) = [(lit "1998-067A", 2%nat); (lit "B", 1%nat)] /\
  lost (read_oem (case_text (two_segments ++ [lit "MAN_START"; lit "MAN_STOP"]))) = [(lit "1998-067A", 0%nat); (lit "1998-067A", 2%nat)].
Proof.
  split; [|split].
  - unfold good_meta. repeat (constructor; [split; [first [left; reflexivity|right; split; reflexivity]|no_eq]|]). constructor.
  - repeat (constructor; [split; [eexists; split; [reflexivity|split; [discriminate|reflexivity]]|repeat (constructor; [eexists; reflexivity|]); constructor]|]). constructor.
  - split; [vm_compute; reflexivity|]. split; [vm_compute; reflexivity|]. split; vm_compute; reflexivity.
Qed.

Print Assumptions C61_calendar_date.
Print Assumptions C61_date_back.
Print Assumptions C61_day_count.
Print Assumptions C61_date_of_day.
Print Assumptions C61_ranges_unchecked.
Print Assumptions C62_reads_documents.
Print Assumptions C62_by_lines.
Print Assumptions C62_roundtrip.
Print Assumptions C62_needs_states.
Print Assumptions C62_no_panic.
Print Assumptions C62_not_finite_refused.
Print Assumptions C62_blocks_refuted.
