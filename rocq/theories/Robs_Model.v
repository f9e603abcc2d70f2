(** RINEX observation files (src/formats/rinex/obs.rs): reader and writer.

    Text is bytes; white space is that of ASCII. Text that is not UTF-8 is refused by [read_line] and is not modelled. Numbers are
    those of [DecFloat]. The calendar crate is represented by the calendar counted year by year ([ymd_ok], [hms_ok]) and the time crate
    by [utc_ok], which says of which civil times it makes an instant; an instant is its civil time, as in [Sp3_Model]. A [HashMap] is a
    list of its entries without repeated keys; the writer takes the entries in order of their keys, which is the order it sorts them in. *)
From Coq Require Import Ascii String List NArith ZArith Bool QArith.
From Verif Require Import Base Text DecFloat Omm_Model Pck_Model Sp3_Model Ilrs_Model.
Import ListNotations.
Local Open Scope N_scope.
Local Open Scope list_scope.
Local Open Scope outcome_scope.

Inductive obs_err := EarlyEnd | BadEpochDate | BadUtcEpoch.
Definition ores A := outcome A obs_err.
(** obs.rs:44-62 *)
Record obs_epoch := OEpoch { o_time : civil; o_sats : list (str * list (str * fnum)) }.
Record obs_file := Obs { marker : str; xyz : option (fnum * fnum * fnum); interval : option fnum; obs_types : list (N * list str); o_epochs : list obs_epoch }.

(** [HashMap::insert] and [get] *)
Fixpoint upsert {V} (k : str) (v : V) (m : list (str * V)) : list (str * V) :=
  match m with [] => [(k, v)] | (a, b) :: t => if str_eqb a k then (a, v) :: t else (a, b) :: upsert k v t end.
Fixpoint at_key {V} (m : list (str * V)) (k : str) : option V :=
  match m with [] => None | (a, b) :: t => if str_eqb a k then Some b else at_key t k end.
Fixpoint upsert_sys (k : N) (v : list str) (m : list (N * list str)) : list (N * list str) :=
  match m with [] => [(k, v)] | (a, b) :: t => if a =? k then (a, v) :: t else (a, b) :: upsert_sys k v t end.
Fixpoint at_sys (m : list (N * list str)) (k : N) : option (list str) :=
  match m with [] => None | (a, b) :: t => if a =? k then Some b else at_sys t k end.
(** [BufRead::read_line] until the end: every line keeps its line feed *)
Fixpoint cut_lines (s : str) : list str :=
  match s with
  | [] => []
  | c :: t => if c =? 10 then [c] :: cut_lines t else match cut_lines t with [] => [[c]] | l :: ls => (c :: l) :: ls end
  end.
(** [str::get(60..)], [str::get(..60)] with [unwrap_or("")] *)
Definition from60 (s : str) : str := if (60 <=? length s)%nat && boundary s 60 then skipn 60 s else [].
Definition upto60 (s : str) : str := if (60 <=? length s)%nat && boundary s 60 then firstn 60 s else [].
Definition usize_max : N := 18446744073709551615.
Definition is_alpha (c : N) : bool := ((65 <=? c) && (c <=? 90)) || ((97 <=? c) && (c <=? 122)).
Definition keep {A} (o : option A) (d : A) : A := match o with Some a => a | None => d end.
Definition numbers_in (ws : list str) : list fnum := flat_map (fun w => match parse_f64 w with Some f => [f] | None => [] end) ws.

(** ** Header: obs.rs:74-130. A list of observation types that is not complete waits for the following lines ([h_wait]). *)
Record hstate := H { h_marker : str; h_xyz : option (fnum * fnum * fnum); h_interval : option fnum; h_types : list (N * list str); h_wait : option (N * N * list str) }.
(** obs.rs:113-125 *)
Definition settle (h : hstate) (sys count : N) (ts : list str) : hstate :=
  if N.of_nat (length ts) <? count then H (h_marker h) (h_xyz h) (h_interval h) (h_types h) (Some (sys, count, ts))
  else H (h_marker h) (h_xyz h) (h_interval h) (upsert_sys sys (firstn (N.to_nat count) ts) (h_types h)) None.
(** one line; [None] is the end of the header *)
Definition header_step (h : hstate) (line : str) : ores (option hstate) :=
  match h_wait h with
  | Some (sys, count, ts) => Ok (Some (settle h sys count (ts ++ split_ws (upto60 line))))
  | None =>
      let label := trim (from60 line) in
      let body := upto60 line in
      if str_eqb label (lit "MARKER NAME") then Ok (Some (H (trim body) (h_xyz h) (h_interval h) (h_types h) None))
      else if str_eqb label (lit "APPROX POSITION XYZ") then
        match numbers_in (split_ws body) with
        | [a; b; c] => Ok (Some (H (h_marker h) (Some (a, b, c)) (h_interval h) (h_types h) None))
        | _ => Ok (Some h)
        end
      else if str_eqb label (lit "INTERVAL") then
        Ok (Some (H (h_marker h) (h_xyz h) (match split_ws body with w :: _ => parse_f64 w | [] => None end) (h_types h) None))
      else if str_eqb label (lit "SYS / # / OBS TYPES") then
        match body with
        | [] => Ok (Some h)
        | sys :: _ =>
            if is_alpha sys then
              c <- slice body 1 6 ;; r <- slice body 7 (length body) ;;
              Ok (Some (settle h sys (keep (parse_uint usize_max (trim c)) 0) (split_ws r)))
            else Ok (Some h)
        end
      else if str_eqb label (lit "END OF HEADER") then Ok None
      else Ok (Some h)
  end.
Fixpoint read_header (h : hstate) (ls : list str) : ores (hstate * list str) :=
  match ls with
  | [] => Err EarlyEnd
  | l :: t => o <- header_step h l ;; match o with None => Ok (h, t) | Some h' => read_header h' t end
  end.

(** ** Epochs: obs.rs:132-211 *)
(** obs.rs:184-204 *)
Fixpoint read_cells (payload : str) (i : nat) (ts : list str) (m : list (str * fnum)) : ores (list (str * fnum)) :=
  match ts with
  | [] => Ok m
  | ty :: r =>
      let start := (i * 16)%nat in
      if (length payload <=? start)%nat then Ok m
      else
        raw <- slice payload start (Nat.min (start + 14) (length payload)) ;;
        read_cells payload (S i) r
          (match trim raw with [] => m | w => match parse_f64 w with Some v => upsert ty v m | None => m end end)
  end.
(** obs.rs:168-207; [None] is a line that is passed over. The first character of the name is looked up as a system. *)
Definition read_row (types : list (N * list str)) (line : str) : ores (option (str * list (str * fnum))) :=
  let row := trim_end line in
  if (length row <? 3)%nat then Ok None
  else
    sat <- slice row 0 3 ;; payload <- slice row 3 (length row) ;;
    let ts := keep (at_sys types (hd 32 sat)) [] in
    vals <- read_cells payload 0 ts [] ;; Ok (Some (sat, vals)).
Section Read.
Variable utc_ok : civil -> bool.
(** obs.rs:141-163; [None] is a line that is passed over *)
Definition read_epoch_line (line : str) : ores (option (civil * N)) :=
  let t := trim_end line in
  if starts_with [62] t then
    match split_ws t with
    | _ :: y :: mo :: d :: h :: mi :: s :: _ :: n :: _ =>
        let sec := keep (parse_f64 s) (Fin 0) in
        let c := Civil (keep (parse_int i32_max y) 0%Z) (keep (parse_uint u32_max mo) 0) (keep (parse_uint u32_max d) 0)
                   (keep (parse_uint u32_max h) 0) (keep (parse_uint u32_max mi) 0) (trunc_u32 sec) (frac_nanos sec) in
        if ymd_ok (year c) (month c) (day c) && hms_ok (hour c) (minute c) (second c) (nano c) then
          if utc_ok c then Ok (Some (c, keep (parse_uint usize_max n) 0)) else Err BadUtcEpoch
        else Err BadEpochDate
    | _ => Ok None
    end
  else Ok None.
(** [wait]: the epoch being read and how many of its rows are still to come *)
Fixpoint read_epochs (types : list (N * list str)) (ls : list str) (wait : option (obs_epoch * N)) (done_ : list obs_epoch) : ores (list obs_epoch) :=
  match ls with
  | [] => Ok (done_ ++ match wait with Some (e, _) => [e] | None => [] end)
  | l :: t =>
      match wait with
      | Some (e, n) =>
          o <- read_row types l ;;
          let e' := match o with Some (sat, vals) => OEpoch (o_time e) (upsert sat vals (o_sats e)) | None => e end in
          if n =? 1 then read_epochs types t None (done_ ++ [e']) else read_epochs types t (Some (e', n - 1)) done_
      | None =>
          o <- read_epoch_line l ;;
          match o with
          | None => read_epochs types t None done_
          | Some (c, n) => if n =? 0 then read_epochs types t None (done_ ++ [OEpoch c []]) else read_epochs types t (Some (OEpoch c [], n)) done_
          end
      end
  end.
(** obs.rs:65-216 *)
Definition h0 : hstate := H [] None None [] None.
Definition read_rinex_obs (text : str) : ores obs_file :=
  p <- read_header h0 (cut_lines text) ;;
  es <- read_epochs (h_types (fst p)) (snd p) None [] ;;
  Ok (Obs (h_marker (fst p)) (h_xyz (fst p)) (h_interval (fst p)) (h_types (fst p)) es).
End Read.

(** ** Writing: obs.rs:255-333 *)
(** [{:<w}] counts characters, that is bytes that do not continue one *)
Definition char_count (s : str) : nat := length (filter (fun c => negb ((128 <=? c) && (c <? 192))) s).
Definition pad_chars (w : nat) (s : str) : str := s ++ repeat 32 (w - char_count s).
(** obs.rs:256-259 *)
Definition header_line (body : str) (label : string) : ores str :=
  b <- (if (60 <? length body)%nat then slice body 0 60 else Ok body) ;; Ok (pad_chars 60 b ++ lit label).
(** obs.rs:280-290 *)
Definition code (t : str) : str := 32 :: pad_chars 3 t.
Fixpoint type_bodies (i : nat) (body : str) (ts : list str) : list str :=
  match ts with
  | [] => [body]
  | t :: r => if (0 <? i)%nat && (i mod 13 =? 0)%nat then body :: type_bodies (S i) (repeat 32 6 ++ code t) r else type_bodies (S i) (body ++ code t) r
  end.
Definition sys_bodies (sys : N) (ts : list str) : list str := type_bodies 0 ([sys] ++ pad_left 5 (dec (N.of_nat (length ts)))) ts.
Fixpoint header_lines (l : list (str * string)) : ores (list str) :=
  match l with [] => Ok [] | (b, k) :: t => x <- header_line b k ;; r <- header_lines t ;; Ok (x :: r) end.
Definition header_of (o : obs_file) : list (str * string) :=
  [(lit "     3.04           OBSERVATION DATA    M (MIXED)", "RINEX VERSION / TYPE"%string); (marker o, "MARKER NAME"%string)] ++
  match xyz o with Some (a, b, c) => [(pad_left 14 (fmt_fixedF 4 a) ++ pad_left 14 (fmt_fixedF 4 b) ++ pad_left 14 (fmt_fixedF 4 c), "APPROX POSITION XYZ"%string)] | None => [] end ++
  flat_map (fun p => map (fun b => (b, "SYS / # / OBS TYPES"%string)) (sys_bodies (fst p) (snd p))) (obs_types o) ++
  match interval o with Some f => [(pad_left 10 (fmt_fixedF 3 f), "INTERVAL"%string)] | None => [] end ++
  [([], "END OF HEADER"%string)].
(** obs.rs:304-316 *)
Definition epoch_line (c : civil) (n : nat) : str :=
  lit "> " ++ pad_left 4 (decz (year c)) ++ [32] ++ pad0 2 (month c) ++ [32] ++ pad0 2 (day c) ++ [32] ++ pad0 2 (hour c) ++ [32] ++
  pad0 2 (minute c) ++ [32] ++ pad_left 10 (fmt_fixed 7 (seconds c)) ++ lit "  0 " ++ pad_left 2 (dec (N.of_nat n)).
(** obs.rs:318-330 *)
Definition cell (vals : list (str * fnum)) (ty : str) : str :=
  match at_key vals ty with Some v => pad_left 14 (fmt_fixedF 3 v) ++ [32; 32] | None => repeat 32 16 end.
Definition write_row (types : list (N * list str)) (sat : str) (vals : list (str * fnum)) : str :=
  trim_end (pad_chars 3 sat ++ flat_map (cell vals) (keep (at_sys types (hd 32 sat)) [])).
Definition epoch_lines (types : list (N * list str)) (e : obs_epoch) : list str :=
  epoch_line (o_time e) (length (o_sats e)) :: map (fun p => write_row types (fst p) (snd p)) (o_sats e).
Definition write_rinex_obs (o : obs_file) : ores str :=
  hs <- header_lines (header_of o) ;; Ok (flat_map (fun l => l ++ [10]) (hs ++ flat_map (epoch_lines (obs_types o)) (o_epochs o))).
