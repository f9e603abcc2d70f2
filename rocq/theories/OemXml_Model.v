(** Ephemeris messages as XML (src/formats/ccsds/oem.rs:450-746): the writer byte by byte, and the reader over the events that the XML
    crate hands to it.

    The XML crate itself is outside this model. What it hands over is an event list: a start or end tag with the name as written, a run
    of character data, or something else (declaration, comment, reference). How the character data of one element is cut into runs is
    left open ([chars] below); [whole] is one run per element. Dates, numbers and the structures are those of [Oem_Model]. *)
From Coq Require Import Ascii String List NArith ZArith Bool QArith.
From Verif Require Import Base Text DecFloat Pck_Model Sp3_Model Oem_Model.
Import ListNotations.
Local Open Scope N_scope.
Local Open Scope list_scope.
Local Open Scope outcome_scope.

(** [str::replace] of a character *)
Definition replace (c : N) (r s : str) : str := flat_map (fun a => if a =? c then r else [a]) s.
(** oem.rs:530-535 *)
Definition xml_escape (s : str) : str :=
  replace 34 (lit "&quot;") (replace 62 (lit "&gt;") (replace 60 (lit "&lt;") (replace 38 (lit "&amp;") s))).

(** ** Writing: oem.rs:450-528 *)
Inductive item := Decl (text : str) | Open (name : str) (attrs : list (str * str)) | Close (name : str) | Chars (text : str).
Definition attr_text (a : str * str) : str := [32] ++ fst a ++ lit "=""" ++ snd a ++ lit """".
Definition item_text (i : item) : str :=
  match i with
  | Decl t => t
  | Open n a => lit "<" ++ n ++ flat_map attr_text a ++ lit ">"
  | Close n => lit "</" ++ n ++ lit ">"
  | Chars t => t
  end.
(** a line: its indentation and what stands on it *)
Definition xline := (nat * list item)%type.
Definition line_text (l : xline) : str := repeat 32 (fst l) ++ flat_map item_text (snd l) ++ [10].
Definition leaf (n : nat) (k : string) (a : list (str * str)) (t : str) : xline := (n, [Open (lit k) a; Chars t; Close (lit k)]).
Definition tag (n : nat) (k : string) : xline := (n, [Open (lit k) []]).
Definition untag (n : nat) (k : string) : xline := (n, [Close (lit k)]).
Definition km : list (str * str) := [(lit "units", lit "km")].
Definition km_s : list (str * str) := [(lit "units", lit "km/s")].
Section Write.
Variable bad_date : fnum -> str.
(** oem.rs:500-522 *)
Definition state_lines (s : state) : list xline :=
  [ tag 8 "stateVector"; leaf 10 "EPOCH" [] (iso bad_date (epoch_jd s));
    leaf 10 "X" km (fmt_fixedF 6 (x s)); leaf 10 "Y" km (fmt_fixedF 6 (y s)); leaf 10 "Z" km (fmt_fixedF 6 (z s));
    leaf 10 "X_DOT" km_s (fmt_fixedF 9 (vx s)); leaf 10 "Y_DOT" km_s (fmt_fixedF 9 (vy s)); leaf 10 "Z_DOT" km_s (fmt_fixedF 9 (vz s));
    untag 8 "stateVector" ].
(** oem.rs:460-527 *)
Definition xml_lines (m : metadata) (first last_ : state) (ss : list state) : list xline :=
  [ (0%nat, [Decl (lit "<?xml version=""1.0"" encoding=""UTF-8""?>")]);
    (0%nat, [Open (lit "oem") [(lit "id", lit "CCSDS_OEM_VERS"); (lit "version", lit "3.0")]]);
    tag 2 "header"; leaf 4 "CREATION_DATE" [] (lit "2026-01-01T00:00:00"); leaf 4 "ORIGINATOR" [] (lit "SIDERUST-POD"); untag 2 "header";
    tag 2 "body"; tag 4 "segment"; tag 6 "metadata";
    leaf 8 "OBJECT_NAME" [] (xml_escape (object_name m)); leaf 8 "OBJECT_ID" [] (xml_escape (object_id m));
    leaf 8 "CENTER_NAME" [] (xml_escape (center_name m)); leaf 8 "REF_FRAME" [] (xml_escape (ref_frame m));
    leaf 8 "TIME_SYSTEM" [] (xml_escape (time_system m));
    leaf 8 "START_TIME" [] (iso bad_date (epoch_jd first)); leaf 8 "STOP_TIME" [] (iso bad_date (epoch_jd last_));
    untag 6 "metadata"; tag 6 "data" ] ++ flat_map state_lines ss ++
  [ untag 6 "data"; untag 4 "segment"; untag 2 "body"; untag 0 "oem" ].
Definition write_items (m : metadata) (ss : list state) : res (list xline) :=
  match ss with [] => Err NoStates | s :: _ => Ok (xml_lines m s (last ss s) ss) end.
Definition write_oem_xml (m : metadata) (ss : list state) : res str := ls <- write_items m ss ;; Ok (flat_map line_text ls).
End Write.

(** ** What the XML crate hands over *)
(** [Run (Some t)]: character data, decoded, its references resolved (oem.rs:674-680); [Run None]: data with a reference that cannot be
    resolved. [Broken]: the crate refuses the document at this point (oem.rs:598-601). *)
Inductive event := Start (name : str) (attrs : list (str * str)) | End_ (name : str) | Run (t : option str) | Other | Broken.
(** white space of XML *)
Definition is_xws (c : N) : bool := (c =? 32) || (c =? 9) || (c =? 10) || (c =? 13).
Fixpoint xtrim_start (s : str) : str := match s with c :: t => if is_xws c then xtrim_start t else s | [] => [] end.
(** [trim_text(true)], oem.rs:577 *)
Definition xtrim (s : str) : str := rev (xtrim_start (rev (xtrim_start s))).
(** [xml10_content]: a carriage return, alone or before a line feed, becomes a line feed *)
Fixpoint norm_eol (s : str) : str :=
  match s with
  | [] => []
  | c :: t => if c =? 13 then match t with d :: t' => if d =? 10 then norm_eol t else 10 :: norm_eol t | [] => [10] end else c :: norm_eol t
  end.
(** [quick_xml::escape::unescape]; numeric references are left open ([charref]) *)
Definition entity (charref : str -> option str) (n : str) : option str :=
  if str_eqb n (lit "amp") then Some [38] else if str_eqb n (lit "lt") then Some [60] else if str_eqb n (lit "gt") then Some [62]
  else if str_eqb n (lit "quot") then Some [34] else if str_eqb n (lit "apos") then Some [39]
  else match n with 35 :: r => charref r | _ => None end.
Section Deliver.
Variable charref : str -> option str.
Fixpoint unescape_from (pending : option str) (s : str) : option str :=
  match s with
  | [] => match pending with None => Some [] | Some _ => None end
  | c :: t =>
      match pending with
      | None => if c =? 38 then unescape_from (Some []) t else option_map (cons c) (unescape_from None t)
      | Some r => if c =? 59 then match entity charref r with Some v => option_map (app v) (unescape_from None t) | None => None end
                  else unescape_from (Some (r ++ [c])) t
      end
  end.
Definition unescape (s : str) : option str := unescape_from None s.
(** one run for all the character data of an element; nothing for an element without any *)
Definition whole (t : str) : list (option str) := match xtrim t with [] => [] | u => [unescape (norm_eol u)] end.
(** the data cut at its references, which are then events of their own *)
Fixpoint cut_refs (acc : str) (inside : bool) (s : str) : list str :=
  match s with
  | [] => [acc]
  | c :: t => if inside then cut_refs acc (negb (c =? 59)) t
              else if c =? 38 then acc :: cut_refs [] true t else cut_refs (acc ++ [c]) false t
  end.
Definition at_refs (t : str) : list (option str) := flat_map whole (cut_refs [] false t).
Variable chars : str -> list (option str).
Definition deliver (i : item) : list event :=
  match i with Decl _ => [Other] | Open n a => [Start n a] | Close n => [End_ n] | Chars t => map Run (chars t) end.
Definition delivered (ls : list xline) : list event := flat_map (fun l => flat_map deliver (snd l)) ls.
End Deliver.

(** ** Reading: oem.rs:568-746 *)
(** oem.rs:580-588 *)
Record sbuild := SB { s_epoch : option fnum; s_x : option fnum; s_y : option fnum; s_z : option fnum; s_vx : option fnum; s_vy : option fnum; s_vz : option fnum }.
Definition sb0 : sbuild := SB None None None None None None None.
(** oem.rs:589-598 *)
Record gbuild := GB { g_meta : builder; g_states : list state; g_cur : option sbuild }.
Definition gb0 : gbuild := GB empty_builder [] None.
(** oem.rs:600-606 *)
Record racc := RA { r_version : str; r_date : str; r_orig : str; r_segs : list segment; r_seg : option gbuild; r_tag : option str }.
Inductive xml_err := XmlBroken | XmlText | NoVector (k : string) | NoMeta (k : string) | XmlNoSegments.
Definition xres A := outcome A xml_err.
(** [rsplit(':').next()] *)
Definition local (n : str) : str := last (split_on 58 n) [].
Definition vneed (o : option fnum) (k : string) : xres fnum := match o with Some v => Ok v | None => Err (NoVector k) end.
Definition mneed (o : option str) (k : string) : xres str := match o with Some v => Ok v | None => Err (NoMeta k) end.
(** oem.rs:639-652 *)
Definition finish_state (b : sbuild) : xres state :=
  e <- vneed (s_epoch b) "EPOCH" ;; a <- vneed (s_x b) "X" ;; b' <- vneed (s_y b) "Y" ;; c <- vneed (s_z b) "Z" ;;
  d <- vneed (s_vx b) "X_DOT" ;; f <- vneed (s_vy b) "Y_DOT" ;; g <- vneed (s_vz b) "Z_DOT" ;; Ok (State e a b' c d f g).
(** oem.rs:656-676 *)
Definition finish_xmeta (b : builder) : xres metadata :=
  i <- mneed (b_id b) "OBJECT_ID" ;; n <- mneed (b_name b) "OBJECT_NAME" ;; f <- mneed (b_frame b) "REF_FRAME" ;;
  t <- mneed (b_time b) "TIME_SYSTEM" ;; c <- mneed (b_center b) "CENTER_NAME" ;; Ok (Meta i n f t c).
(** oem.rs:608-611 *)
Definition version_of (v : str) (attrs : list (str * str)) : str :=
  fold_left (fun v a => if str_eqb (fst a) (lit "version") then snd a else v) attrs v.
(** oem.rs:603-626 *)
Definition on_start (a : racc) (n : str) (attrs : list (str * str)) : racc :=
  let l := local n in
  if str_eqb l (lit "oem") then RA (version_of (r_version a) attrs) (r_date a) (r_orig a) (r_segs a) (r_seg a) (Some l)
  else if str_eqb l (lit "segment") then RA (r_version a) (r_date a) (r_orig a) (r_segs a) (Some gb0) (Some l)
  else if str_eqb l (lit "stateVector") then
    RA (r_version a) (r_date a) (r_orig a) (r_segs a)
      (match r_seg a with Some g => Some (GB (g_meta g) (g_states g) (Some sb0)) | None => None end) (Some l)
  else RA (r_version a) (r_date a) (r_orig a) (r_segs a) (r_seg a) (Some l).
(** oem.rs:627-680 *)
Definition on_end (a : racc) (n : str) : xres racc :=
  let l := local n in
  if str_eqb l (lit "stateVector") then
    match r_seg a with
    | Some (GB m ss (Some b)) =>
        s <- finish_state b ;; Ok (RA (r_version a) (r_date a) (r_orig a) (r_segs a) (Some (GB m (ss ++ [s]) None)) None)
    | _ => Ok (RA (r_version a) (r_date a) (r_orig a) (r_segs a) (r_seg a) None)
    end
  else if str_eqb l (lit "segment") then
    match r_seg a with
    | Some g => m <- finish_xmeta (g_meta g) ;; Ok (RA (r_version a) (r_date a) (r_orig a) (r_segs a ++ [Segment m (g_states g)]) None None)
    | None => Ok (RA (r_version a) (r_date a) (r_orig a) (r_segs a) None None)
    end
  else Ok (RA (r_version a) (r_date a) (r_orig a) (r_segs a) (r_seg a) None).
(** oem.rs:693-702: a text that is not a number leaves the entry empty *)
Definition set_vector (b : sbuild) (k t : str) : sbuild :=
  if str_eqb k (lit "EPOCH") then SB (iso_to_jd t) (s_x b) (s_y b) (s_z b) (s_vx b) (s_vy b) (s_vz b)
  else if str_eqb k (lit "X") then SB (s_epoch b) (parse_f64 t) (s_y b) (s_z b) (s_vx b) (s_vy b) (s_vz b)
  else if str_eqb k (lit "Y") then SB (s_epoch b) (s_x b) (parse_f64 t) (s_z b) (s_vx b) (s_vy b) (s_vz b)
  else if str_eqb k (lit "Z") then SB (s_epoch b) (s_x b) (s_y b) (parse_f64 t) (s_vx b) (s_vy b) (s_vz b)
  else if str_eqb k (lit "X_DOT") then SB (s_epoch b) (s_x b) (s_y b) (s_z b) (parse_f64 t) (s_vy b) (s_vz b)
  else if str_eqb k (lit "Y_DOT") then SB (s_epoch b) (s_x b) (s_y b) (s_z b) (s_vx b) (parse_f64 t) (s_vz b)
  else if str_eqb k (lit "Z_DOT") then SB (s_epoch b) (s_x b) (s_y b) (s_z b) (s_vx b) (s_vy b) (parse_f64 t)
  else b.
(** oem.rs:681-722; the metadata keys are those of [set_meta] *)
Definition on_text (a : racc) (t : option str) : xres racc :=
  match t with
  | None => Err XmlText
  | Some txt =>
      match r_tag a with
      | None => Ok a
      | Some k =>
          match r_seg a with
          | Some (GB m ss (Some b)) => Ok (RA (r_version a) (r_date a) (r_orig a) (r_segs a) (Some (GB m ss (Some (set_vector b k txt)))) (r_tag a))
          | Some (GB m ss None) => Ok (RA (r_version a) (r_date a) (r_orig a) (r_segs a) (Some (GB (set_meta m k txt) ss None)) (r_tag a))
          | None =>
              if str_eqb k (lit "CREATION_DATE") then Ok (RA (r_version a) txt (r_orig a) (r_segs a) None (r_tag a))
              else if str_eqb k (lit "ORIGINATOR") then Ok (RA (r_version a) (r_date a) txt (r_segs a) None (r_tag a))
              else Ok a
          end
      end
  end.
Definition on_event (a : racc) (e : event) : xres racc :=
  match e with
  | Start n attrs => Ok (on_start a n attrs)
  | End_ n => on_end a n
  | Run t => on_text a t
  | Other => Ok a
  | Broken => Err XmlBroken
  end.
Fixpoint run_events (a : racc) (es : list event) : xres racc :=
  match es with [] => Ok a | e :: t => a' <- on_event a e ;; run_events a' t end.
Definition ra0 : racc := RA (lit "3.0") [] [] [] None None.
(** oem.rs:568-746 over the events of the document *)
Definition read_oem_xml (es : list event) : xres oem_file :=
  a <- run_events ra0 es ;;
  match r_segs a with [] => Err XmlNoSegments | segs => Ok (Oem (r_version a) (r_date a) (r_orig a) segs) end.
