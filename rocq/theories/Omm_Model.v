(** Model of the orbit mean-elements message in keyword-value form
    (/repo/src/formats/tle/omm/mod.rs, kvn.rs). Strings are byte lists, [f64] values are exact
    decimals, infinities or NaN ([DecFloat]). *)
From Coq Require Import Ascii String List NArith ZArith Bool QArith Qabs.
From Verif Require Import Base Text DecFloat Tle_Model.
Import ListNotations.
Local Open Scope N_scope.
Local Open Scope outcome_scope.

(** [{f:.pe}] *)
Definition fmt_expF (p : nat) (f : fnum) : str :=
  match f with
  | Fin q => fmt_exp p q
  | Inf neg => (if neg then [45] else []) ++ w_inf
  | NaN => [78;97;78]
  end.

(** [str::lines] without the removal of a final carriage return, which the reader's [trim]
    subsumes; an empty last line is kept and skipped by the reader. *)
Fixpoint split_lines (s : str) : list str :=
  match s with
  | [] => [[]]
  | c :: t =>
      match split_lines t with
      | [] => [[]]
      | l :: ls => if c =? 10 then [] :: l :: ls else (c :: l) :: ls
      end
  end.

Section Epochs.
  (** The date codec (chrono) is a parameter: mod.rs:216-251 [format_epoch], [parse_epoch]. *)
  Context {E : Type} (format_epoch : E -> res str) (parse_epoch : str -> res E).

  (** mod.rs:51-87 *)
  Record omm : Type := Omm {
    o_name : str; o_id : str; o_epoch : E; o_mm : fnum; o_ecc : fnum; o_inc : fnum; o_raan : fnum;
    o_argp : fnum; o_ma : fnum; o_eph : N; o_class : classification; o_norad : N; o_esn : N;
    o_rev : N; o_bstar : fnum; o_ndot : fnum; o_nddot : fnum }.

  Definition kline (kv : str * str) : str := fst kv ++ [32; 61; 32] ++ snd kv ++ [10].

  (** kvn.rs:29-73 [write] *)
  Definition kvn_fields (o : omm) (epoch : str) : list (str * str) :=
    [ (lit "CCSDS_OMM_VERS", lit "2.0"); (lit "CREATION_DATE", epoch);
      (lit "ORIGINATOR", lit "siderust-tle"); (lit "OBJECT_NAME", o_name o);
      (lit "OBJECT_ID", o_id o); (lit "CENTER_NAME", lit "EARTH"); (lit "REF_FRAME", lit "TEME");
      (lit "TIME_SYSTEM", lit "UTC"); (lit "MEAN_ELEMENT_THEORY", lit "SGP4"); (lit "EPOCH", epoch);
      (lit "MEAN_MOTION", fmt_fixedF 8 (o_mm o)); (lit "ECCENTRICITY", fmt_fixedF 7 (o_ecc o));
      (lit "INCLINATION", fmt_fixedF 4 (o_inc o)); (lit "RA_OF_ASC_NODE", fmt_fixedF 4 (o_raan o));
      (lit "ARG_OF_PERICENTER", fmt_fixedF 4 (o_argp o)); (lit "MEAN_ANOMALY", fmt_fixedF 4 (o_ma o));
      (lit "EPHEMERIS_TYPE", dec (o_eph o)); (lit "CLASSIFICATION_TYPE", [class_char (o_class o)]);
      (lit "NORAD_CAT_ID", dec (o_norad o)); (lit "ELEMENT_SET_NO", dec (o_esn o));
      (lit "REV_AT_EPOCH", dec (o_rev o)); (lit "BSTAR", fmt_expF 8 (o_bstar o));
      (lit "MEAN_MOTION_DOT", fmt_expF 8 (o_ndot o)); (lit "MEAN_MOTION_DDOT", fmt_expF 8 (o_nddot o)) ].
  Definition kvn_write (o : omm) : res str :=
    epoch <- format_epoch (o_epoch o) ;;
    Ok (concat (map kline (kvn_fields o epoch))).

  (** kvn.rs:101-112, one line; the map is the list of insertions. [find] returns the position
      of an ASCII character, hence a character boundary, so the slices cannot panic. *)
  Definition kv_line (raw : str) : list (str * str) :=
    let line := trim raw in
    match line with
    | [] => []
    | _ =>
        if starts_with (lit "COMMENT") line then []
        else match find_char 61 line with
             | None => []
             | Some i => [(trim (firstn i line), trim (skipn (S i) line))]
             end
    end.
  Definition kv_parse (text : str) : list (str * str) := flat_map kv_line (split_lines text).
  (** [HashMap::get] after the insertions: the last one wins. *)
  Definition kv_get (kv : list (str * str)) (k : str) : option str :=
    match find (fun e => str_eqb (fst e) k) (rev kv) with Some e => Some (snd e) | None => None end.

  (** kvn.rs:98-178 [read] *)
  Definition getf (kv : list (str * str)) (k : str) : res fnum :=
    v <- need (kv_get kv k) (OmmMissingField k) ;; need (parse_f64 v) OmmMalformed.
  Definition unwrap_or {A} (d : A) (x : res A) : A := match x with Ok a => a | _ => d end.
  Definition opt_uint (kv : list (str * str)) (k : str) (max : N) : N :=
    match kv_get kv k with
    | Some v => match parse_uint max v with Some n => n | None => 0 end
    | None => 0
    end.
  Definition kvn_read (input : str) : res omm :=
    let kv := kv_parse input in
    let theory := match kv_get kv (lit "MEAN_ELEMENT_THEORY") with Some t => t | None => lit "SGP4" end in
    if negb (str_eqb (map lower theory) (map lower (lit "SGP4"))) then Err OmmUnsupportedTheory
    else
      name <- need (kv_get kv (lit "OBJECT_NAME")) (OmmMissingField (lit "OBJECT_NAME")) ;;
      id <- need (kv_get kv (lit "OBJECT_ID")) (OmmMissingField (lit "OBJECT_ID")) ;;
      ep <- need (kv_get kv (lit "EPOCH")) (OmmMissingField (lit "EPOCH")) ;;
      epoch <- parse_epoch ep ;;
      let cls_raw := match kv_get kv (lit "CLASSIFICATION_TYPE") with Some c => c | None => lit "U" end in
      cls <- class_of (hd 85 cls_raw) ;;
      norad_str <- need (kv_get kv (lit "NORAD_CAT_ID")) (OmmMissingField (lit "NORAD_CAT_ID")) ;;
      norad <- sat_parse norad_str ;;
      mm <- getf kv (lit "MEAN_MOTION") ;;
      ecc <- getf kv (lit "ECCENTRICITY") ;;
      inc <- getf kv (lit "INCLINATION") ;;
      raan <- getf kv (lit "RA_OF_ASC_NODE") ;;
      argp <- getf kv (lit "ARG_OF_PERICENTER") ;;
      ma <- getf kv (lit "MEAN_ANOMALY") ;;
      Ok {| o_name := name; o_id := id; o_epoch := epoch; o_mm := mm; o_ecc := ecc; o_inc := inc;
            o_raan := raan; o_argp := argp; o_ma := ma;
            o_eph := opt_uint kv (lit "EPHEMERIS_TYPE") 255; o_class := cls; o_norad := norad;
            o_esn := opt_uint kv (lit "ELEMENT_SET_NO") 65535;
            o_rev := opt_uint kv (lit "REV_AT_EPOCH") u32_max;
            o_bstar := unwrap_or (Fin 0) (getf kv (lit "BSTAR"));
            o_ndot := unwrap_or (Fin 0) (getf kv (lit "MEAN_MOTION_DOT"));
            o_nddot := unwrap_or (Fin 0) (getf kv (lit "MEAN_MOTION_DDOT")) |}.
End Epochs.
Arguments omm E : clear implicits.

(** mod.rs:111-136 [from_tle], 154-175 [to_tle] *)
Definition from_tle (t : tle) : omm epoch := {|
  o_name := match t_name t with Some n => n | None => lit "NORAD " ++ dec (t_norad t) end;
  o_id := expand_intl_designator (t_desig t); o_epoch := t_epoch t; o_mm := t_mm t;
  o_ecc := Fin (t_ecc t); o_inc := t_inc t; o_raan := t_raan t; o_argp := t_argp t; o_ma := t_ma t;
  o_eph := 0; o_class := t_class t; o_norad := t_norad t; o_esn := t_elset t; o_rev := t_rev t;
  o_bstar := Fin (t_bstar t); o_ndot := t_ndot t; o_nddot := Fin (t_nddot t) |}.
Definition finval (f : fnum) : Q := match f with Fin q => q | _ => 0%Q end.
(** Eccentricity, BSTAR and the second derivative are kept as rationals in [tle]; the
    conversion is only used on messages whose three values are finite. *)
Definition to_tle (o : omm epoch) : tle := {|
  t_name := Some (o_name o); t_norad := o_norad o; t_class := o_class o;
  t_desig := contract_intl_designator (o_id o); t_epoch := o_epoch o; t_ndot := o_ndot o;
  t_nddot := finval (o_nddot o); t_bstar := finval (o_bstar o); t_elset := o_esn o; t_rev := o_rev o;
  t_inc := o_inc o; t_raan := o_raan o; t_ecc := finval (o_ecc o); t_argp := o_argp o; t_ma := o_ma o;
  t_mm := o_mm o |}.
