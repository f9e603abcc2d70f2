(** C58, C59, C60: the tolerant readers of mean-elements messages, the XML form and the record behind the JSON form. *)
From Coq Require Import Ascii String List NArith ZArith Lia Bool QArith Qabs.
From Verif Require Import Base Text DecFloat Tle_Model Tle_Spec Tle_Proofs Tle_Fields Tle_Roundtrip Omm_Model Omm_Proofs Omm_Props Xml_Model Xml_Proofs Kvn_Proofs Ctx_Proofs.
Import ListNotations.
Local Open Scope N_scope.
Local Open Scope list_scope.

(** ** C58 *)
(** A key has the value said by the last line about it; every other line is ignored. *)
Theorem C58_last_line_counts text k v : kv_get (kv_parse text) k = Some v <-> told text k v.
Proof. exact (kv_get_told text k v). Qed.
(** Exactly which texts are read, and as what. *)
Theorem C58_reads {E} (parse_epoch : str -> res E) text o : kvn_read parse_epoch text = Ok o <-> message parse_epoch (told text) (fun s => s) o.
Proof. exact (kvn_reads parse_epoch text o). Qed.
Theorem C58_no_panic {E} (parse_epoch : str -> res E) text : (forall s, parse_epoch s <> Panic) -> kvn_read parse_epoch text <> Panic.
Proof. intros P. exact (proj1 (readers_np parse_epoch text P)). Qed.
(** Texts that say the same of every key read the same: order of lines, blanks, comments and unknown keys do not matter. *)
Theorem C58_same_sayings {E} (parse_epoch : str -> res E) text text' o : (forall k v, told text k v <-> told text' k v) ->
  kvn_read parse_epoch text = Ok o -> kvn_read parse_epoch text' = Ok o.
Proof.
  intros H R. rewrite kvn_is_omm_of in *. rewrite <- R.
  assert (G : forall k, kv_get (kv_parse text') k = kv_get (kv_parse text) k).
  { intros k. destruct (kv_get (kv_parse text') k) as [v|] eqn:A.
    - symmetry. apply kv_get_told, H, kv_get_told. exact A.
    - destruct (kv_get (kv_parse text) k) as [v|] eqn:B; [|reflexivity]. apply kv_get_told, H, kv_get_told in B. congruence. }
  unfold omm_of, num, count. now rewrite !G.
Qed.
Definition ok_text (s : str) : res str := Ok s.
Definition kvn_sample : str := lit "COMMENT EPOCH = nowhere" ++ [10] ++ lit "  EPOCH = first" ++ [10] ++ lit "EPOCH=a=b " ++ [13; 10] ++ lit "UNKNOWN = 1" ++ [10].
Example C58_case : told kvn_sample (lit "EPOCH") (lit "a=b") /\ ~ told kvn_sample (lit "EPOCH") (lit "first") /\
  (exists text o, kvn_read ok_text text = Ok o /\ o_esn o = 0 /\ o_norad o = 25544).
Proof.
  split; [apply kv_get_told; vm_compute; reflexivity|]. split; [rewrite <- kv_get_told; vm_compute; discriminate|].
  exists (lit "EPOCH=x" ++ [10] ++ lit "OBJECT_NAME=" ++ [10] ++ lit "OBJECT_ID=y" ++ [10] ++ lit "NORAD_CAT_ID=25544" ++ [10] ++ lit "MEAN_MOTION=15.5" ++ [10] ++ lit "ECCENTRICITY=0" ++ [10] ++
    lit "INCLINATION=1e1" ++ [10] ++ lit "RA_OF_ASC_NODE=2" ++ [10] ++ lit "ARG_OF_PERICENTER=3" ++ [10] ++ lit "MEAN_ANOMALY=4" ++ [10] ++ lit "ELEMENT_SET_NO=99999").
  eexists. split; [vm_compute; reflexivity|]. split; reflexivity.
Qed.

(** ** C59 *)
(** Decoding undoes encoding for every text. *)
Theorem C59_unescape_escape s : xml_unescape (xml_escape s) = s.
Proof. exact (unescape_escape s). Qed.
(** Text written with plain characters and the five references decodes to what it means: decoding makes no new references. *)
Theorem C59_unescape_meaning l : Forall plain_ok l -> xml_unescape (flat_map spelled l) = map meant l.
Proof. exact (unescape_pieces l). Qed.
(** Encoded text holds no markup and no quotation marks. *)
Theorem C59_no_markup s c : In c (xml_escape s) -> ~ In c (lit "<>""'").
Proof. exact (escape_clean s c). Qed.
(** Writing and reading back. *)
Theorem C59_xml_roundtrip {E} (format_epoch : E -> res str) (parse_epoch : str -> res E) (o : omm E) s e' : format_epoch (o_epoch o) = Ok s -> parse_epoch s = Ok e' ->
  solid (o_name o) -> solid (o_id o) -> solid s -> ~ In 60 s -> fits_ints o -> o_norad o < 100000 ->
  exists text o', xml_write format_epoch o = Ok text /\ xml_read parse_epoch text = Ok o' /\
    o_name o' = o_name o /\ o_id o' = o_id o /\ o_epoch o' = e' /\ o_class o' = o_class o /\
    o_norad o' = o_norad o /\ o_eph o' = o_eph o /\ o_esn o' = o_esn o /\ o_rev o' = o_rev o /\
    near (5 # 1000000000) (o_mm o') (o_mm o) /\ near (5 # 100000000) (o_ecc o') (o_ecc o) /\
    near (5 # 100000) (o_inc o') (o_inc o) /\ near (5 # 100000) (o_raan o') (o_raan o) /\
    near (5 # 100000) (o_argp o') (o_argp o) /\ near (5 # 100000) (o_ma o') (o_ma o) /\
    near_rel (5 # 1000000000) (o_bstar o') (o_bstar o) /\
    near_rel (5 # 1000000000) (o_ndot o') (o_ndot o) /\
    near_rel (5 # 1000000000) (o_nddot o') (o_nddot o).
Proof. intros A B C D F G. exact (xml_roundtrip format_epoch parse_epoch o s e' A B C D F G). Qed.
(** Catalogue numbers of six digits are written but refused on reading, as in the keyword-value form. *)
Theorem C59_catalogue_number_refuted {E} (format_epoch : E -> res str) (parse_epoch : str -> res E) (o : omm E) s e' : format_epoch (o_epoch o) = Ok s -> parse_epoch s = Ok e' ->
  solid (o_name o) -> solid (o_id o) -> solid s -> ~ In 60 s -> 100000 <= o_norad o ->
  exists text, xml_write format_epoch o = Ok text /\ xml_read parse_epoch text = Err InvalidAlpha5.
Proof. intros A B C D F G. exact (xml_six_digits format_epoch parse_epoch o s e' A B C D F G). Qed.
(** Exactly which texts are read, and as what. *)
Theorem C59_reads {E} (parse_epoch : str -> res E) text o : xml_read parse_epoch text = Ok o <-> message parse_epoch (tagged text) xml_unescape o.
Proof. exact (xml_reads parse_epoch text o). Qed.
Theorem C59_no_panic {E} (parse_epoch : str -> res E) text : (forall s, parse_epoch s <> Panic) -> xml_read parse_epoch text <> Panic.
Proof. intros P. exact (proj2 (readers_np parse_epoch text P)). Qed.
(** In a document of tags and texts the first leaf element with a tag gives its text, whatever else surrounds it. *)
Theorem C59_leaf t l m v w : tag_ok t -> doc_ok (l ++ (t, v) :: (47 :: t, w) :: m) -> ~ In t (map fst l) ->
  extract_tag (doc (l ++ (t, v) :: (47 :: t, w) :: m)) t = Some (trim v).
Proof. intros T D N. rewrite extract_doc, text_of_leaf by assumption. reflexivity. Qed.
(** The reader's description says it tolerates attributes: an element with one is not found. *)
Theorem C59_attributes_refuted l t : tag_ok t -> doc_ok l -> ~ In t (map fst l) -> extract_tag (doc l) t = None.
Proof. intros T D N. now rewrite extract_doc, text_of_none by assumption. Qed.
Definition odd : omm str := {| o_name := lit "R&D <""A'>" ++ [10] ++ lit "&amp;lt;"; o_id := lit "&lt;"; o_epoch := lit "2008-09-20T12:25:40.104192"; o_mm := Fin (1572125391 # 100000000);
  o_ecc := Fin (6703 # 10000000); o_inc := NaN; o_raan := Inf true; o_argp := Fin 0; o_ma := Fin (-1 # 3); o_eph := 0; o_class := Secret; o_norad := 99999; o_esn := 292;
  o_rev := 56353; o_bstar := Fin (-11606 # 1000000000); o_ndot := Fin (-2182 # 100000000); o_nddot := Fin 0 |}.
Example C59_case : (exists text o', xml_write ok_text odd = Ok text /\ xml_read ok_text text = Ok o' /\ o_name o' = o_name odd /\ o_id o' = lit "&lt;") /\
  xml_unescape (lit "&amp;lt;") = lit "&lt;" /\ extract_tag (lit "<EPOCH zone=""UTC"">x</EPOCH>") (lit "EPOCH") = None.
Proof.
  split; [|split; reflexivity].
  destruct (C59_xml_roundtrip ok_text ok_text odd (o_epoch odd) (o_epoch odd) eq_refl eq_refl) as (text & o' & W & R & N & I & _).
  - right. split; reflexivity.
  - right. split; reflexivity.
  - right. split; reflexivity.
  - apply plain_no. reflexivity.
  - repeat split; vm_compute; discriminate.
  - reflexivity.
  - exists text, o'. auto.
Qed.

(** ** C60 *)
(** The record behind the JSON form keeps everything, catalogue numbers of any size included. *)
Theorem C60_record_roundtrip {E} (format_epoch : E -> res str) (parse_epoch : str -> res E) o s : format_epoch (o_epoch o) = Ok s -> forall e', parse_epoch s = Ok e' ->
  exists d, dto_of format_epoch o = Ok d /\
    omm_of_dto parse_epoch d = Ok {| o_name := o_name o; o_id := o_id o; o_epoch := e'; o_mm := o_mm o; o_ecc := o_ecc o; o_inc := o_inc o; o_raan := o_raan o;
      o_argp := o_argp o; o_ma := o_ma o; o_eph := o_eph o; o_class := o_class o; o_norad := o_norad o; o_esn := o_esn o; o_rev := o_rev o;
      o_bstar := o_bstar o; o_ndot := o_ndot o; o_nddot := o_nddot o |}.
Proof. exact (dto_roundtrip format_epoch parse_epoch o s). Qed.
Theorem C60_record_reads {E} (parse_epoch : str -> res E) d o : omm_of_dto parse_epoch d = Ok o <->
  (forall t, d_theory d = Some t -> map lower t = lit "sgp4") /\ parse_epoch (d_epoch d) = Ok (o_epoch o) /\
  ((exists c v, d_class d = Some (c :: v) /\ class_of c = Ok (o_class o)) \/ ((d_class d = None \/ d_class d = Some []) /\ o_class o = Unclassified)) /\
  o_name o = d_name d /\ o_id o = d_id d /\ o_norad o = d_norad d /\
  o_mm o = d_mm d /\ o_ecc o = d_ecc d /\ o_inc o = d_inc d /\ o_raan o = d_raan d /\ o_argp o = d_argp d /\ o_ma o = d_ma d /\
  (forall x, o_eph o = x <-> d_eph d = Some x \/ d_eph d = None /\ x = 0) /\
  (forall x, o_esn o = x <-> d_esn d = Some x \/ d_esn d = None /\ x = 0) /\
  (forall x, o_rev o = x <-> d_rev d = Some x \/ d_rev d = None /\ x = 0) /\
  (forall x, o_bstar o = x <-> d_bstar d = Some x \/ d_bstar d = None /\ x = Fin 0) /\
  (forall x, o_ndot o = x <-> d_ndot d = Some x \/ d_ndot d = None /\ x = Fin 0) /\
  (forall x, o_nddot o = x <-> d_nddot d = Some x \/ d_nddot d = None /\ x = Fin 0).
Proof. exact (dto_reads parse_epoch d o). Qed.
(** The three forms do not agree on large catalogue numbers: the record is read back, the texts are not. *)
Theorem C60_forms_agree_refuted : exists o : omm str,
  (exists d, dto_of ok_text o = Ok d /\ omm_of_dto ok_text d = Ok o) /\
  (exists t, kvn_write ok_text o = Ok t /\ kvn_read ok_text t = Err InvalidAlpha5) /\
  (exists t, xml_write ok_text o = Ok t /\ xml_read ok_text t = Err InvalidAlpha5).
Proof.
  exists {| o_name := lit "X"; o_id := lit "Y"; o_epoch := lit "Z"; o_mm := Fin 15; o_ecc := Fin 0; o_inc := Fin 0; o_raan := Fin 0; o_argp := Fin 0; o_ma := Fin 0; o_eph := 0;
    o_class := Secret; o_norad := 100000; o_esn := 0; o_rev := 0; o_bstar := Fin 0; o_ndot := Fin 0; o_nddot := Fin 0 |}.
  split; [eexists; split; reflexivity|]. split; (eexists; split; [reflexivity|vm_compute; reflexivity]).
Qed.
Example C60_case : exists d, dto_of ok_text odd = Ok d /\ omm_of_dto ok_text d = Ok odd /\
  omm_of_dto ok_text {| d_name := []; d_id := []; d_epoch := []; d_mm := NaN; d_ecc := NaN; d_inc := NaN; d_raan := NaN; d_argp := NaN; d_ma := NaN; d_eph := None; d_class := None;
    d_norad := 7; d_esn := Some 3; d_rev := None; d_bstar := None; d_ndot := None; d_nddot := None; d_theory := Some (lit "SGP8") |} = Err OmmUnsupportedTheory.
Proof. eexists. split; [reflexivity|]. split; reflexivity. Qed.

Print Assumptions C58_last_line_counts.
Print Assumptions C58_reads.
Print Assumptions C58_no_panic.
Print Assumptions C58_same_sayings.
Print Assumptions C59_unescape_escape.
Print Assumptions C59_unescape_meaning.
Print Assumptions C59_no_markup.
Print Assumptions C59_xml_roundtrip.
Print Assumptions C59_catalogue_number_refuted.
Print Assumptions C59_reads.
Print Assumptions C59_no_panic.
Print Assumptions C59_leaf.
Print Assumptions C59_attributes_refuted.
Print Assumptions C60_record_roundtrip.
Print Assumptions C60_record_reads.
Print Assumptions C60_forms_agree_refuted.
