(** Model of the orbit mean-elements message in XML form (/repo/src/formats/tle/omm/xml.rs) and of the record behind the JSON
    form (json.rs:98-179; the JSON text itself is serde's and is not modelled). *)
From Coq Require Import Ascii String List NArith ZArith Bool QArith.
From Verif Require Import Base Text DecFloat Tle_Model Omm_Model.
Import ListNotations.
Local Open Scope N_scope.
Local Open Scope list_scope.
Local Open Scope outcome_scope.

(** [str::replace] of one character *)
Definition replace_char (c : N) (to : str) (s : str) : str := flat_map (fun x => if x =? c then to else [x]) s.
(** [str::replace] of a non-empty pattern: matches left to right without overlap; [skip] characters of a match remain *)
Fixpoint rep (pat to s : str) (skip : nat) : str :=
  match s with
  | [] => []
  | c :: t =>
      match skip with
      | S k => rep pat to t k
      | O => if starts_with pat s then to ++ rep pat to t (length pat - 1) else c :: rep pat to t 0
      end
  end.
Definition replace_str (pat to s : str) : str := rep pat to s 0.
(** xml.rs:202-216 *)
Definition xml_escape (s : str) : str :=
  replace_char 39 (lit "&apos;") (replace_char 34 (lit "&quot;") (replace_char 62 (lit "&gt;") (replace_char 60 (lit "&lt;") (replace_char 38 (lit "&amp;") s)))).
Definition xml_unescape (s : str) : str :=
  replace_str (lit "&amp;") [38] (replace_str (lit "&lt;") [60] (replace_str (lit "&gt;") [62] (replace_str (lit "&quot;") [34] (replace_str (lit "&apos;") [39] s)))).

(** [str::find] of a pattern: the text before and after the first occurrence *)
Fixpoint find_str (pat s : str) : option (str * str) :=
  if starts_with pat s then Some ([], skipn (length pat) s)
  else match s with
       | [] => None
       | c :: t => match find_str pat t with Some (a, b) => Some (c :: a, b) | None => None end
       end.
(** xml.rs:193-200 *)
Definition extract_tag (input tag : str) : option str :=
  match find_str ([60] ++ tag ++ [62]) input with
  | None => None
  | Some (_, after) =>
      match find_str ([60; 47] ++ tag ++ [62]) after with
      | None => None
      | Some (v, _) => Some (trim v)
      end
  end.

Section Epochs.
  Context {E : Type} (format_epoch : E -> res str) (parse_epoch : str -> res E).

  (** An element, its text and what follows its end tag *)
  Definition elem (tag : string) (v : str) (after : str) : str := [60] ++ lit tag ++ [62] ++ v ++ [60; 47] ++ lit tag ++ [62] ++ after.
  (** xml.rs:34-87 *)
  Definition xml_text (o : omm E) (epoch : str) : str :=
    let nl := [10] in
    lit "<?xml version=""1.0"" encoding=""UTF-8""?>" ++ nl ++ lit "<omm id=""CCSDS_OMM_VERS"" version=""2.0"">" ++ nl ++ lit "<body><segment><metadata>" ++ nl ++
    elem "OBJECT_NAME" (xml_escape (o_name o)) nl ++ elem "OBJECT_ID" (xml_escape (o_id o)) nl ++ elem "CENTER_NAME" (lit "EARTH") nl ++
    elem "REF_FRAME" (lit "TEME") nl ++ elem "TIME_SYSTEM" (lit "UTC") nl ++ elem "MEAN_ELEMENT_THEORY" (lit "SGP4") nl ++
    lit "</metadata><data>" ++ nl ++ lit "<meanElements>" ++ nl ++
    elem "EPOCH" epoch nl ++ elem "MEAN_MOTION" (fmt_fixedF 8 (o_mm o)) nl ++ elem "ECCENTRICITY" (fmt_fixedF 7 (o_ecc o)) nl ++
    elem "INCLINATION" (fmt_fixedF 4 (o_inc o)) nl ++ elem "RA_OF_ASC_NODE" (fmt_fixedF 4 (o_raan o)) nl ++
    elem "ARG_OF_PERICENTER" (fmt_fixedF 4 (o_argp o)) nl ++ elem "MEAN_ANOMALY" (fmt_fixedF 4 (o_ma o)) nl ++
    lit "</meanElements>" ++ nl ++ lit "<tleParameters>" ++ nl ++
    elem "EPHEMERIS_TYPE" (dec (o_eph o)) nl ++ elem "CLASSIFICATION_TYPE" [class_char (o_class o)] nl ++ elem "NORAD_CAT_ID" (dec (o_norad o)) nl ++
    elem "ELEMENT_SET_NO" (dec (o_esn o)) nl ++ elem "REV_AT_EPOCH" (dec (o_rev o)) nl ++ elem "BSTAR" (fmt_expF 8 (o_bstar o)) nl ++
    elem "MEAN_MOTION_DOT" (fmt_expF 8 (o_ndot o)) nl ++ elem "MEAN_MOTION_DDOT" (fmt_expF 8 (o_nddot o)) nl ++
    lit "</tleParameters>" ++ nl ++ lit "</data></segment></body></omm>" ++ nl.
  Definition xml_write (o : omm E) : res str := epoch <- format_epoch (o_epoch o) ;; Ok (xml_text o epoch).

  (** xml.rs:107-167 and kvn.rs:115-177: the message of the fields [get] finds, whose names are decoded by [text] *)
  Definition num (get : str -> option str) (k : str) : res fnum := v <- need (get k) (OmmMissingField k) ;; need (parse_f64 v) OmmMalformed.
  Definition count (get : str -> option str) (k : str) (max : N) : N :=
    match get k with Some v => match parse_uint max v with Some n => n | None => 0 end | None => 0 end.
  Definition omm_of (get : str -> option str) (text : str -> str) : res (omm E) :=
    let theory := match get (lit "MEAN_ELEMENT_THEORY") with Some t => t | None => lit "SGP4" end in
    if negb (str_eqb (map lower theory) (map lower (lit "SGP4"))) then Err OmmUnsupportedTheory
    else
      name <- need (get (lit "OBJECT_NAME")) (OmmMissingField (lit "OBJECT_NAME")) ;;
      id <- need (get (lit "OBJECT_ID")) (OmmMissingField (lit "OBJECT_ID")) ;;
      ep <- need (get (lit "EPOCH")) (OmmMissingField (lit "EPOCH")) ;;
      epoch <- parse_epoch ep ;;
      let cls_raw := match get (lit "CLASSIFICATION_TYPE") with Some c => c | None => lit "U" end in
      cls <- class_of (hd 85 cls_raw) ;;
      norad_str <- need (get (lit "NORAD_CAT_ID")) (OmmMissingField (lit "NORAD_CAT_ID")) ;;
      norad <- sat_parse norad_str ;;
      mm <- num get (lit "MEAN_MOTION") ;;
      ecc <- num get (lit "ECCENTRICITY") ;;
      inc <- num get (lit "INCLINATION") ;;
      raan <- num get (lit "RA_OF_ASC_NODE") ;;
      argp <- num get (lit "ARG_OF_PERICENTER") ;;
      ma <- num get (lit "MEAN_ANOMALY") ;;
      Ok {| o_name := text name; o_id := text id; o_epoch := epoch; o_mm := mm; o_ecc := ecc; o_inc := inc;
            o_raan := raan; o_argp := argp; o_ma := ma;
            o_eph := count get (lit "EPHEMERIS_TYPE") 255; o_class := cls; o_norad := norad;
            o_esn := count get (lit "ELEMENT_SET_NO") 65535;
            o_rev := count get (lit "REV_AT_EPOCH") u32_max;
            o_bstar := unwrap_or (Fin 0) (num get (lit "BSTAR"));
            o_ndot := unwrap_or (Fin 0) (num get (lit "MEAN_MOTION_DOT"));
            o_nddot := unwrap_or (Fin 0) (num get (lit "MEAN_MOTION_DDOT")) |}.
  (** xml.rs:107-114, 168-191: every tag asked for is in the list of tags read *)
  Definition xml_read (input : str) : res (omm E) := omm_of (extract_tag input) xml_unescape.

  (** json.rs:98-124: the JSON record; [None] where the JSON text leaves a field out *)
  Record dto := Dto { d_name : str; d_id : str; d_epoch : str; d_mm : fnum; d_ecc : fnum; d_inc : fnum; d_raan : fnum; d_argp : fnum; d_ma : fnum;
    d_eph : option N; d_class : option str; d_norad : N; d_esn : option N; d_rev : option N; d_bstar : option fnum; d_ndot : option fnum; d_nddot : option fnum;
    d_theory : option str }.
  Definition or {A} (o : option A) (d : A) : A := match o with Some a => a | None => d end.
  (** json.rs:131-152 *)
  Definition dto_of (o : omm E) : res dto :=
    epoch <- format_epoch (o_epoch o) ;;
    Ok (Dto (o_name o) (o_id o) epoch (o_mm o) (o_ecc o) (o_inc o) (o_raan o) (o_argp o) (o_ma o) (Some (o_eph o)) (Some [class_char (o_class o)]) (o_norad o)
          (Some (o_esn o)) (Some (o_rev o)) (Some (o_bstar o)) (Some (o_ndot o)) (Some (o_nddot o)) (Some (lit "SGP4"))).
  (** json.rs:154-178 *)
  Definition omm_of_dto (d : dto) : res (omm E) :=
    if match d_theory d with Some t => negb (str_eqb (map lower t) (map lower (lit "SGP4"))) | None => false end then Err OmmUnsupportedTheory
    else
      epoch <- parse_epoch (d_epoch d) ;;
      cls <- class_of (hd 85 (or (d_class d) (lit "U"))) ;;
      Ok {| o_name := d_name d; o_id := d_id d; o_epoch := epoch; o_mm := d_mm d; o_ecc := d_ecc d; o_inc := d_inc d; o_raan := d_raan d;
            o_argp := d_argp d; o_ma := d_ma d; o_eph := or (d_eph d) 0; o_class := cls; o_norad := d_norad d; o_esn := or (d_esn d) 0;
            o_rev := or (d_rev d) 0; o_bstar := or (d_bstar d) (Fin 0); o_ndot := or (d_ndot d) (Fin 0); o_nddot := or (d_nddot d) (Fin 0) |}.
End Epochs.
