(** Ephemeris messages (src/formats/ccsds/oem.rs): keyword-value writer and reader and the date codec. The XML form is in
    [OemXml_Model].

    Text is bytes; white space is that of ASCII; text that is not UTF-8 is refused before the parser
    sees it and is not modelled. Floating-point values are exact decimals ([DecFloat]), so Julian dates
    carry no rounding here; integer casts are only modelled inside their range. *)
From Coq Require Import Ascii String List NArith ZArith Bool QArith Qround.
From Verif Require Import Base Text DecFloat Omm_Model Pck_Model Sp3_Model.
Import ListNotations.
Local Open Scope N_scope.
Local Open Scope outcome_scope.

(** oem.rs:40-47, 62-73 *)
Record state := State { epoch_jd : fnum; x : fnum; y : fnum; z : fnum; vx : fnum; vy : fnum; vz : fnum }.
Record metadata := Meta { object_id : str; object_name : str; ref_frame : str; time_system : str; center_name : str }.

(** oem.rs:132-140, division of [i64] truncates *)
Definition date_of_jdn (j : Z) : Z * Z * Z :=
  (let a := j + 32044 in
   let b := Z.quot (4 * a + 3) 146097 in
   let c := a - Z.quot (146097 * b) 4 in
   let d := Z.quot (4 * c + 3) 1461 in
   let e := c - Z.quot (1461 * d) 4 in
   let m := Z.quot (5 * e + 2) 153 in
   (100 * b + d - 4800 + Z.quot m 10, m + 3 - 12 * Z.quot m 10, e - Z.quot (153 * m + 2) 5 + 1))%Z.
(** [{:04}] of an [i32], [{:09.6}] of an [f64] that is not negative *)
Definition pad0_int (w : nat) (v : Z) : str := if (v <? 0)%Z then 45 :: pad0 (w - 1) (Z.abs_N v) else pad0 w (Z.abs_N v).
Definition pad0_fixed (w p : nat) (v : Q) : str := repeat 48 (w - length (fmt_fixed p v)) ++ fmt_fixed p v.
(** oem.rs:128-151 [jd_to_iso8601] of a finite date *)
Definition jd_to_iso (jd : Q) : str :=
  let j := Qfloor (jd + (1 # 2)) in
  let frac := (jd + (1 # 2) - inject_Z j)%Q in
  let '(year, month, day) := date_of_jdn j in
  let total := (frac * 86400)%Q in
  let hours := (Qfloor (total / 3600) mod 24)%Z in
  let rem := (total - 3600 * inject_Z (Qfloor (total / 3600)))%Q in
  let mins := Qfloor (rem / 60) in
  let secs := (total - 60 * inject_Z (Qfloor (total / 60)))%Q in
  pad0_int 4 year ++ [45] ++ pad0 2 (Z.to_N month) ++ [45] ++ pad0 2 (Z.to_N day) ++ [84] ++
  pad0 2 (Z.to_N hours) ++ [58] ++ pad0 2 (Z.to_N mins) ++ [58] ++ pad0_fixed 9 6 secs.

(** [str::split] on a character *)
Fixpoint split_on (c : N) (s : str) : list str :=
  match s with
  | [] => [[]]
  | a :: t => if a =? c then [] :: split_on c t
              else match split_on c t with [] => [[a]] | w :: ws => (a :: w) :: ws end
  end.
(** oem.rs:411-416 *)
Definition jdn_of_date (y m d : Z) : Z :=
  (let a := Z.quot (14 - m) 12 in
   let yy := y + 4800 - a in
   let mm := m + 12 * a - 3 in
   d + Z.quot (153 * mm + 2) 5 + 365 * yy + Z.quot yy 4 - Z.quot yy 100 + Z.quot yy 400 - 32045)%Z.
Definition fplus (q : Q) (f : fnum) : fnum := match f with Fin p => Fin (q + p) | Inf b => Inf b | NaN => NaN end.
Definition fover (f : fnum) (q : Q) : fnum := match f with Fin p => Fin (p / q) | Inf b => Inf b | NaN => NaN end.
(** oem.rs:399-419 [iso8601_to_jd]; further parts are ignored *)
Definition iso_to_jd (s : str) : option fnum :=
  match split_once 84 s with
  | None => None
  | Some (date, time) =>
      match split_on 45 date, split_on 58 time with
      | ys :: ms :: ds :: _, hs :: ns :: ss :: _ =>
          match parse_int i32_max ys, parse_uint u32_max ms, parse_uint u32_max ds,
                parse_uint u32_max hs, parse_uint u32_max ns, parse_f64 ss with
          | Some y, Some m, Some d, Some h, Some mi, Some sec =>
              Some (fplus (inject_Z (jdn_of_date y (Z.of_N m) (Z.of_N d)) - (1 # 2))
                     (fover (fplus (inject_Z (Z.of_N h) * 3600 + inject_Z (Z.of_N mi) * 60) sec) 86400))
          | _, _, _, _, _, _ => None
          end
      | _, _ => None
      end
  end.

(** oem.rs:76-122 [write_oem]. The text of a date that is not finite is left open: [bad_date]. *)
Inductive oem_err := NoStates | NotKv (line : nat) | MissingMeta (k : str) | MissingValue (line : nat) (k : nat)
  | BadNumber (line : nat) (k : nat) | NotFinite (line : nat) (k : nat) | BadEpoch (line : nat) | NoSegments
  | MissingState (k : nat).
Definition res A := outcome A oem_err.
Section Writer.
Variable bad_date : fnum -> str.
Definition iso (f : fnum) : str := match f with Fin q => jd_to_iso q | _ => bad_date f end.
Definition data_line (s : state) : str :=
  iso (epoch_jd s) ++ [32] ++ fmt_fixedF 6 (x s) ++ [32] ++ fmt_fixedF 6 (y s) ++ [32] ++ fmt_fixedF 6 (z s) ++ [32] ++
  fmt_fixedF 9 (vx s) ++ [32] ++ fmt_fixedF 9 (vy s) ++ [32] ++ fmt_fixedF 9 (vz s).
Definition oem_lines (m : metadata) (first last_ : state) (ss : list state) : list str :=
  [ lit "CCSDS_OEM_VERS = 3.0"; lit "CREATION_DATE  = 2026-01-01T00:00:00"; lit "ORIGINATOR     = SIDERUST-POD"; [];
    lit "META_START";
    lit "OBJECT_NAME          = " ++ object_name m; lit "OBJECT_ID            = " ++ object_id m;
    lit "CENTER_NAME          = " ++ center_name m; lit "REF_FRAME            = " ++ ref_frame m;
    lit "TIME_SYSTEM          = " ++ time_system m;
    lit "START_TIME           = " ++ iso (epoch_jd first); lit "STOP_TIME            = " ++ iso (epoch_jd last_);
    lit "META_STOP"; [] ] ++ map data_line ss.
Definition unlines (ls : list str) : str := flat_map (fun l => l ++ [10]) ls.
Definition write_oem (m : metadata) (ss : list state) : res str :=
  match ss with
  | [] => Err NoStates
  | s :: _ => Ok (unlines (oem_lines m s (last ss s) ss))
  end.
End Writer.

(** oem.rs:155-173 *)
Record segment := Segment { meta : metadata; states : list state }.
Record oem_file := Oem { version : str; creation_date : str; originator : str; segments : list segment }.
(** oem.rs:217-231 *)
Record builder := B { b_id : option str; b_name : option str; b_frame : option str; b_time : option str; b_center : option str }.
Definition empty_builder : builder := B None None None None None.
Inductive mode := Header | InMeta (b : builder) | InData (s : segment) | SkipBlock.
Definition set_meta (b : builder) (k v : str) : builder :=
  if str_eqb k (lit "OBJECT_ID") then B (Some v) (b_name b) (b_frame b) (b_time b) (b_center b)
  else if str_eqb k (lit "OBJECT_NAME") then B (b_id b) (Some v) (b_frame b) (b_time b) (b_center b)
  else if str_eqb k (lit "REF_FRAME") then B (b_id b) (b_name b) (Some v) (b_time b) (b_center b)
  else if str_eqb k (lit "TIME_SYSTEM") then B (b_id b) (b_name b) (b_frame b) (Some v) (b_center b)
  else if str_eqb k (lit "CENTER_NAME") then B (b_id b) (b_name b) (b_frame b) (b_time b) (Some v)
  else b.
(** oem.rs:347-355 *)
Definition split_kv (line : str) (no : nat) : res (str * str) :=
  match split_once 61 line with Some (k, v) => Ok (trim k, trim v) | None => Err (NotKv no) end.
Definition need (o : option str) (k : string) : res str := match o with Some v => Ok v | None => Err (MissingMeta (lit k)) end.
(** oem.rs:255-275 *)
Definition finish_meta (b : builder) : res metadata :=
  i <- need (b_id b) "OBJECT_ID" ;; n <- need (b_name b) "OBJECT_NAME" ;; f <- need (b_frame b) "REF_FRAME" ;;
  t <- need (b_time b) "TIME_SYSTEM" ;; c <- need (b_center b) "CENTER_NAME" ;; Ok (Meta i n f t c).
(** oem.rs:362-379 *)
Definition is_finite (f : fnum) : bool := match f with Fin _ => true | _ => false end.
Definition value_at (ws : list str) (no k : nat) : res fnum :=
  match nth_error ws k with
  | None => Err (MissingValue no k)
  | Some w => match parse_f64 w with
              | None => Err (BadNumber no k)
              | Some f => if is_finite f then Ok f else Err (NotFinite no k)
              end
  end.
(** oem.rs:357-393 [parse_data_line]; further words are ignored *)
Definition parse_data_line (line : str) (no : nat) : res state :=
  match split_ws line with
  | [] => Err (MissingValue no 0)
  | e :: _ =>
      let ws := split_ws line in
      a <- value_at ws no 1 ;; b <- value_at ws no 2 ;; c <- value_at ws no 3 ;;
      d <- value_at ws no 4 ;; f <- value_at ws no 5 ;; g <- value_at ws no 6 ;;
      match iso_to_jd e with Some jd => Ok (State jd a b c d f g) | None => Err (BadEpoch no) end
  end.
(** oem.rs:235-238 *)
Definition skipped (line : str) : bool := match line with [] => true | _ => starts_with (lit "COMMENT") line end.
(** oem.rs:316-323: the last segment is taken out and an empty one with its metadata stays in its place *)
Definition empty_last (l : list segment) : list segment :=
  match rev l with [] => [] | s :: r => rev r ++ [Segment (meta s) []] end.
(** oem.rs:234-330, one line at a time; [no] lines have been read *)
Record acc := Acc { a_version : option str; a_date : option str; a_orig : option str; a_segs : list segment; a_mode : mode }.
Definition set_header (a : acc) (k v : str) : acc :=
  if str_eqb k (lit "CCSDS_OEM_VERS") then Acc (Some v) (a_date a) (a_orig a) (a_segs a) (a_mode a)
  else if str_eqb k (lit "CREATION_DATE") then Acc (a_version a) (Some v) (a_orig a) (a_segs a) (a_mode a)
  else if str_eqb k (lit "ORIGINATOR") then Acc (a_version a) (a_date a) (Some v) (a_segs a) (a_mode a)
  else a.
Definition with_mode (a : acc) (m : mode) : acc := Acc (a_version a) (a_date a) (a_orig a) (a_segs a) m.
Definition with_segs (a : acc) (l : list segment) (m : mode) : acc := Acc (a_version a) (a_date a) (a_orig a) l m.
Definition step (a : acc) (raw : str) (no : nat) : res acc :=
  let line := trim raw in
  if skipped line then Ok a
  else match a_mode a with
  | Header =>
      if str_eqb line (lit "META_START") then Ok (with_mode a (InMeta empty_builder))
      else kv <- split_kv line no ;; Ok (set_header a (fst kv) (snd kv))
  | InMeta b =>
      if str_eqb line (lit "META_STOP") then m <- finish_meta b ;; Ok (with_mode a (InData (Segment m [])))
      else kv <- split_kv line no ;; Ok (with_mode a (InMeta (set_meta b (fst kv) (snd kv))))
  | InData s =>
      if str_eqb line (lit "META_START") then Ok (with_segs a (a_segs a ++ [s]) (InMeta empty_builder))
      else if str_eqb line (lit "COVARIANCE_START") || str_eqb line (lit "MAN_START") then Ok (with_mode a SkipBlock)
      else st <- parse_data_line line no ;; Ok (with_mode a (InData (Segment (meta s) (states s ++ [st]))))
  | SkipBlock =>
      if str_eqb line (lit "COVARIANCE_STOP") || str_eqb line (lit "MAN_STOP") then
        match rev (a_segs a) with
        | s :: _ => Ok (with_segs a (empty_last (a_segs a)) (InData s))
        | [] => Ok (with_mode a Header)
        end
      else Ok a
  end.
Fixpoint steps (a : acc) (ls : list str) (no : nat) : res acc :=
  match ls with [] => Ok a | l :: t => a' <- step a l no ;; steps a' t (S no) end.
Definition or_else (o : option str) (d : str) : str := match o with Some v => v | None => d end.
(** oem.rs:331-344 *)
Definition finish (a : acc) : res oem_file :=
  let segs := match a_mode a with InData s => a_segs a ++ [s] | _ => a_segs a end in
  match segs with
  | [] => Err NoSegments
  | _ => Ok (Oem (or_else (a_version a) (lit "unknown")) (or_else (a_date a) []) (or_else (a_orig a) []) segs)
  end.
(** oem.rs:207-345 [read_oem]; [str::lines] up to the carriage return, which [trim] takes away *)
Definition read_oem (text : str) : res oem_file :=
  a <- steps (Acc None None None [] Header) (split_nl text) 0 ;; finish a.
