(** Orbit parameter messages (src/formats/ccsds/opm.rs).

    Text is bytes and white space that of ASCII; text that is not UTF-8 and failures of the stream are
    not modelled. Numbers are exact decimals ([DecFloat]). The map of the reader is the list of its
    insertions, and a key has the value inserted last. *)
From Coq Require Import Ascii String List NArith ZArith Bool QArith.
From Verif Require Import Base Text DecFloat Omm_Model Pck_Model Sp3_Model Oem_Model.
Import ListNotations.
Local Open Scope N_scope.
Local Open Scope outcome_scope.

(** opm.rs:47-54, 76-89, 107-118, 144-151 *)
Record kepler := Kepler { k_a : fnum; k_e : fnum; k_i : fnum; k_node : fnum; k_peri : fnum; k_nu : fnum }.
Record opm := Opm { o_meta : metadata; o_epoch : str; px : fnum; py : fnum; pz : fnum; ux : fnum; uy : fnum; uz : fnum; o_kepler : option kepler }.

Inductive opm_err := MissingField (k : str) | CannotParse (k : str).
Definition ores A := outcome A opm_err.
(** opm.rs:196-207 *)
Definition get (kv : list (str * str)) (k : string) : ores str :=
  match kv_get kv (lit k) with Some v => Ok v | None => Err (MissingField (lit k)) end.
Definition getf (kv : list (str * str)) (k : string) : ores fnum :=
  match kv_get kv (lit k) with
  | None => Err (MissingField (lit k))
  | Some v => match parse_f64 v with Some f => Ok f | None => Err (CannotParse (lit k)) end
  end.
Definition get_or (kv : list (str * str)) (k : string) (d : str) : str := or_else (kv_get kv (lit k)) d.
(** opm.rs:224-235 *)
Definition kepler_of (kv : list (str * str)) : ores (option kepler) :=
  match kv_get kv (lit "SEMI_MAJOR_AXIS") with
  | None => Ok None
  | Some _ => a <- getf kv "SEMI_MAJOR_AXIS" ;; e <- getf kv "ECCENTRICITY" ;; i <- getf kv "INCLINATION" ;;
              n <- getf kv "RA_OF_ASC_NODE" ;; p <- getf kv "ARG_OF_PERICENTER" ;; t <- getf kv "TRUE_ANOMALY" ;;
              Ok (Some (Kepler a e i n p t))
  end.
(** opm.rs:209-241 *)
Definition opm_of (kv : list (str * str)) : ores opm :=
  name <- get kv "OBJECT_NAME" ;;
  let m := Meta (get_or kv "OBJECT_ID" []) name (get_or kv "REF_FRAME" (lit "EME2000")) (get_or kv "TIME_SYSTEM" (lit "UTC")) (get_or kv "CENTER_NAME" (lit "EARTH")) in
  ep <- get kv "EPOCH" ;;
  x <- getf kv "X" ;; y <- getf kv "Y" ;; z <- getf kv "Z" ;;
  u <- getf kv "X_DOT" ;; v <- getf kv "Y_DOT" ;; w <- getf kv "Z_DOT" ;;
  k <- kepler_of kv ;; Ok (Opm m ep x y z u v w k).
(** opm.rs:175-194 [read_opm]; the block words hold no equals sign, so passing over them is the same as reading them *)
Definition read_opm (text : str) : ores opm := opm_of (flat_map kv_line (split_nl text)).

(** opm.rs:277-325 [write_opm] *)
Definition opm_lines (m : opm) : list str :=
  [ lit "CCSDS_OPM_VERS = 2.0"; lit "META_START";
    lit "OBJECT_NAME          = " ++ object_name (o_meta m); lit "OBJECT_ID            = " ++ object_id (o_meta m);
    lit "CENTER_NAME          = " ++ center_name (o_meta m); lit "REF_FRAME            = " ++ ref_frame (o_meta m);
    lit "TIME_SYSTEM          = " ++ time_system (o_meta m); lit "META_STOP"; [];
    lit "EPOCH                = " ++ o_epoch m;
    lit "X                    = " ++ fmt_fixedF 6 (px m); lit "Y                    = " ++ fmt_fixedF 6 (py m); lit "Z                    = " ++ fmt_fixedF 6 (pz m);
    lit "X_DOT                = " ++ fmt_fixedF 6 (ux m); lit "Y_DOT                = " ++ fmt_fixedF 6 (uy m); lit "Z_DOT                = " ++ fmt_fixedF 6 (uz m) ] ++
  match o_kepler m with
  | None => []
  | Some k =>
      [ []; lit "SEMI_MAJOR_AXIS      = " ++ fmt_fixedF 6 (k_a k); lit "ECCENTRICITY         = " ++ fmt_fixedF 7 (k_e k);
        lit "INCLINATION          = " ++ fmt_fixedF 4 (k_i k); lit "RA_OF_ASC_NODE       = " ++ fmt_fixedF 4 (k_node k);
        lit "ARG_OF_PERICENTER    = " ++ fmt_fixedF 4 (k_peri k); lit "TRUE_ANOMALY         = " ++ fmt_fixedF 4 (k_nu k) ]
  end.
Definition write_opm (m : opm) : str := unlines (opm_lines m).
