(** Star tables (src/catalogs/ingest.rs), VLBI side-car headers (src/formats/vlbi/vgosdb.rs) and body names
    (src/formats/spice/naif.rs). White space is ASCII white space; decimal texts are read exactly, not rounded to f64. *)
From Coq Require Import Ascii String List NArith ZArith Bool QArith.
From Verif Require Import Base Text DecFloat Sp3_Model Oem_Model Pck_Model Nav_Model Igs_Model.
Import ListNotations.
Local Open Scope N_scope.
Local Open Scope outcome_scope.

(** ingest.rs:23-42 *)
Inductive csv_err := MissingColumn (col : str) (line : nat) | InvalidNumber (col : str) (line : nat) (raw : str).
(** record.rs:15-41; right ascension and declination are kept in degrees, as read, before [to_radians] *)
Record star := Star { s_id : N; s_ra : fnum; s_dec : fnum; s_epoch : fnum; s_pmra : option fnum; s_pmdec : option fnum; s_parallax : option fnum; s_rv : option fnum;
  s_g : option fnum; s_bp : option fnum; s_rp : option fnum; s_quality : bool }.

(** ingest.rs:51: lines passed over *)
Definition skipped (raw : str) : bool := match trim raw with [] => true | c :: _ => c =? 35 end.
(** ingest.rs:54 *)
Definition csv_fields (raw : str) : list str := map trim (split_on 44 (trim raw)).
(** [Iterator::position] *)
Fixpoint index (x : str) (l : list str) : option nat :=
  match l with [] => None | y :: t => if str_eqb y x then Some 0%nat else match index x t with Some i => Some (S i) | None => None end end.
(** ingest.rs:60-66 *)
Definition csv_col (hdr fields : list str) (name : str) : option str :=
  match index name hdr with
  | Some i => match nth_error fields i with Some s => match trim s with [] => None | t => Some t end | None => None end
  | None => None
  end.
(** ingest.rs:67-79 *)
Definition opt_num (get : str -> option str) (name : str) (no : nat) : outcome (option fnum) csv_err :=
  match get name with Some s => match parse_f64 s with Some v => Ok (Some v) | None => Err (InvalidNumber name no s) end | None => Ok None end.
(** ingest.rs:80-85 *)
Definition need_num (get : str -> option str) (name : str) (no : nat) : outcome fnum csv_err :=
  v <- opt_num get name no ;; match v with Some x => Ok x | None => Err (MissingColumn name no) end.
(** ingest.rs:101-104 *)
Definition quality_of (s : option str) : bool :=
  match s with None => true | Some s => let w := map lower s in str_eqb w (lit "1") || str_eqb w (lit "true") || str_eqb w (lit "ok") end.
(** ingest.rs:86-118 *)
Definition csv_row (get : str -> option str) (no : nat) : outcome star csv_err :=
  match get (lit "source_id") with
  | None => Err (MissingColumn (lit "source_id") no)
  | Some s =>
      match parse_uint 18446744073709551615 s with
      | None => Err (InvalidNumber (lit "source_id") no s)
      | Some id =>
          ra <- need_num get (lit "ra") no ;;
          dec <- need_num get (lit "dec") no ;;
          epoch <- need_num get (lit "epoch") no ;;
          let q := quality_of (get (lit "quality")) in
          pmra <- opt_num get (lit "pmra") no ;;
          pmdec <- opt_num get (lit "pmdec") no ;;
          plx <- opt_num get (lit "parallax") no ;;
          rv <- opt_num get (lit "radial_velocity") no ;;
          g <- opt_num get (lit "g_mag") no ;;
          bp <- opt_num get (lit "bp_mag") no ;;
          rp <- opt_num get (lit "rp_mag") no ;;
          Ok (Star id ra dec epoch pmra pmdec plx rv g bp rp q)
      end
  end.
(** ingest.rs:46-120 *)
Fixpoint csv_lines (hdr : option (list str)) (no : nat) (ls : list str) : outcome (list star) csv_err :=
  match ls with
  | [] => Ok []
  | raw :: t =>
      if skipped raw then csv_lines hdr (S no) t
      else match hdr with
           | None => csv_lines (Some (map (map lower) (csv_fields raw))) (S no) t
           | Some h => s <- csv_row (csv_col h (csv_fields raw)) no ;; rest <- csv_lines hdr (S no) t ;; Ok (s :: rest)
           end
  end.
Definition parse_csv_chunk (input : str) : outcome (list star) csv_err := csv_lines None 1 (text_lines input).

(** vgosdb.rs:24-40 *)
Record vgos := Vgos { v_code : str; v_epoch : str; v_stations : list str }.
Inductive vgos_err := ExpectedPair (line : nat) | UnknownKey (line : nat) (key : str).
Definition nonempty (s : str) : bool := match s with [] => false | _ => true end.
(** vgosdb.rs:102-120 *)
Definition vgos_line (h : vgos) (no : nat) (raw : str) : outcome vgos vgos_err :=
  if skipped raw then Ok h
  else match split_once 61 (trim raw) with
       | None => Err (ExpectedPair no)
       | Some (k, v) =>
           let k := trim k in
           if str_eqb k (lit "session_code") then Ok (Vgos (trim v) (v_epoch h) (v_stations h))
           else if str_eqb k (lit "start_epoch") then Ok (Vgos (v_code h) (trim v) (v_stations h))
           else if str_eqb k (lit "stations") then Ok (Vgos (v_code h) (v_epoch h) (filter nonempty (map trim (split_on 44 v))))
           else Err (UnknownKey no k)
       end.
(** vgosdb.rs:88-123 *)
Fixpoint vgos_lines (h : vgos) (no : nat) (ls : list str) : outcome vgos vgos_err :=
  match ls with [] => Ok h | l :: t => h <- vgos_line h no l ;; vgos_lines h (S no) t end.
Definition read_vgosdb_sidecar (input : str) : outcome vgos vgos_err := vgos_lines (Vgos [] [] []) 1 (split_nl input).

(** naif.rs:25-48 *)
Definition up (c : N) : N := if (97 <=? c) && (c <=? 122) then c - 32 else c.
Definition naif_table : list (str * Z) :=
  [ (lit "SSB", 0%Z); (lit "SOLAR SYSTEM BARYCENTER", 0%Z); (lit "MERCURY BARYCENTER", 1%Z); (lit "VENUS BARYCENTER", 2%Z); (lit "EMB", 3%Z); (lit "EARTH BARYCENTER", 3%Z);
    (lit "EARTH MOON BARYCENTER", 3%Z); (lit "MARS BARYCENTER", 4%Z); (lit "JUPITER BARYCENTER", 5%Z); (lit "SATURN BARYCENTER", 6%Z); (lit "URANUS BARYCENTER", 7%Z);
    (lit "NEPTUNE BARYCENTER", 8%Z); (lit "PLUTO BARYCENTER", 9%Z); (lit "PLUTO", 9%Z); (lit "SUN", 10%Z); (lit "MERCURY", 199%Z); (lit "VENUS", 299%Z); (lit "EARTH", 399%Z);
    (lit "MARS", 499%Z); (lit "JUPITER", 599%Z); (lit "SATURN", 699%Z); (lit "URANUS", 799%Z); (lit "NEPTUNE", 899%Z); (lit "MOON", 301%Z) ].
Fixpoint assoc {A} (k : str) (l : list (str * A)) : option A := match l with [] => None | (x, v) :: t => if str_eqb x k then Some v else assoc k t end.
Definition naif_id_for_name (name : str) : option Z := assoc (map up (trim name)) naif_table.
(** naif.rs:57-74 *)
Definition well_known : list (str * Z) :=
  [ (lit "SSB", 0%Z); (lit "EARTH MOON BARYCENTER", 3%Z); (lit "MARS BARYCENTER", 4%Z); (lit "JUPITER BARYCENTER", 5%Z); (lit "SUN", 10%Z); (lit "EARTH", 399%Z); (lit "MOON", 301%Z); (lit "MARS", 499%Z) ].
