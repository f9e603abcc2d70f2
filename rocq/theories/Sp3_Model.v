(** SP3 orbit files (src/formats/igs/sp3.rs): batch reader, streaming reader, writer.

    Text is ASCII bytes (bytes that are not UTF-8 are an I/O error in the code and are not modelled;
    other white space is not). Floating-point values are exact decimals. The calendar and the
    conversion to an instant are in external crates: [date_ok] says which dates the first accepts,
    [utc_ok] which civil times the second does; the instant is represented by its civil time. *)
From Coq Require Import Ascii String List NArith ZArith Bool QArith Qround.
From Verif Require Import Base Text DecFloat.
Import ListNotations.
Local Open Scope N_scope.
Local Open Scope outcome_scope.

(** [read_line] until the end, line ends removed: sp3.rs:144-151 *)
Fixpoint split_nl (s : str) : list str :=
  match s with
  | [] => []
  | c :: t => if c =? 10 then [] :: split_nl t else match split_nl t with [] => [[c]] | l :: ls => (c :: l) :: ls end
  end.
Definition is_eol (c : N) : bool := (c =? 13) || (c =? 10).
Fixpoint drop_eol (s : str) : str := match s with c :: t => if is_eol c then drop_eol t else s | [] => [] end.
Definition trim_eol (s : str) : str := rev (drop_eol (rev s)).
Definition lines (s : str) : list str := map trim_eol (split_nl s).

(** [str::split_whitespace] *)
Fixpoint split_ws (s : str) : list str :=
  match s with
  | [] => []
  | c :: t => if is_ws c then split_ws t
              else match t with
                   | [] => [[c]]
                   | d :: _ => if is_ws d then [c] :: split_ws t
                               else match split_ws t with [] => [[c]] | w :: ws => (c :: w) :: ws end
                   end
  end.

(** sp3.rs:58-79, the texts reduced to what failed *)
Inductive what := Fields (got : nat) | BadField (k : nat) | BadDate | BadUtc | NoEpoch | ShortId.
Inductive sp3_err := Record_err (line : N) (w : what).
Definition res A := outcome A sp3_err.

(** sp3.rs:81-108 *)
Record civil := Civil { year : Z; month : N; day : N; hour : N; minute : N; second : N; nano : N }.
Record position := Position { sat : str; px : fnum; py : fnum; pz : fnum; clock : fnum }.
Record epoch := Epoch { time : civil; positions : list position }.
Record sp3 := Sp3 { header : list str; epochs : list epoch }.

Definition u32_max : N := 4294967295.
Definition i32_max : N := 2147483647.
(** [f64 as u32]: truncation, saturation, NaN to zero; [round] before it *)
Definition sat_u32 (z : Z) : N := N.min u32_max (Z.to_N z).
Definition trunc_u32 (f : fnum) : N := match f with Fin q => sat_u32 (Qfloor q) | Inf false => u32_max | _ => 0 end.
Definition frac_nanos (f : fnum) : N :=
  match f with
  | Fin q => sat_u32 (round_up ((q - inject_Z (Z.of_N (trunc_u32 f))) * 1000000000))
  | Inf false => u32_max
  | _ => 0
  end.
Definition opt_field {A} (line : N) (k : nat) (o : option A) : res A := match o with Some a => Ok a | None => Err (Record_err line (BadField k)) end.

Section Reader.
Variable date_ok : Z -> N -> N -> bool.
Variable utc_ok : civil -> bool.
(** chrono's [and_hms_nano_opt] *)
Definition hms_ok (h m s n : N) : bool := (h <? 24) && (m <? 60) && (s <? 60) && (n <? 2000000000) && ((n <? 1000000000) || (s =? 59)).
(** sp3.rs:110-132 *)
Definition civil_to_time (y : Z) (mo d h mi : N) (s : fnum) (line : N) : res civil :=
  let si := trunc_u32 s in
  let n := frac_nanos s in
  if date_ok y mo d && hms_ok h mi si n
  then (if utc_ok (Civil y mo d h mi si n) then Ok (Civil y mo d h mi si n) else Err (Record_err line BadUtc))
  else Err (Record_err line BadDate).
(** sp3.rs:172-194, 418-442 *)
Definition parse_epoch_line (line : str) (no : N) : res epoch :=
  let f := split_ws (match line with c :: t => if c =? 42 then t else line | [] => [] end) in
  match f with
  | y :: mo :: d :: h :: mi :: s :: _ =>
      y <- opt_field no 0 (parse_int i32_max y) ;; mo <- opt_field no 1 (parse_uint u32_max mo) ;;
      d <- opt_field no 2 (parse_uint u32_max d) ;; h <- opt_field no 3 (parse_uint u32_max h) ;;
      mi <- opt_field no 4 (parse_uint u32_max mi) ;; s <- opt_field no 5 (parse_f64 s) ;;
      t <- civil_to_time y mo d h mi s no ;; Ok (Epoch t [])
  | _ => Err (Record_err no (Fields (length f)))
  end.
(** sp3.rs:203-226, 444-469; [get(1..4)] is refused when short *)
Definition parse_p_line (line : str) (no : N) : res position :=
  if (length line <? 4)%nat then Err (Record_err no ShortId)
  else
    let id := trim (firstn 3 (skipn 1 line)) in
    let rest := split_ws (skipn 4 line) in
    match rest with
    | a :: b :: c :: d :: _ =>
        x <- opt_field no 0 (parse_f64 a) ;; y <- opt_field no 1 (parse_f64 b) ;;
        z <- opt_field no 2 (parse_f64 c) ;; k <- opt_field no 3 (parse_f64 d) ;;
        Ok (Position id x y z k)
    | _ => Err (Record_err no (Fields (length rest)))
    end.
Definition is_eof (l : str) : bool := str_eqb l (lit "EOF").
Definition star (l : str) : bool := starts_with [42] l.
Definition pline (l : str) : bool := starts_with [80] l.
Definition flush (es : list epoch) (cur : option epoch) : list epoch := match cur with Some e => es ++ [e] | None => es end.
Definition push (e : epoch) (p : position) : epoch := Epoch (time e) (positions e ++ [p]).

(** sp3.rs:135-241 [read_sp3]; [no] lines have been read *)
Fixpoint read_loop (ls : list str) (no : N) (in_header : bool) (hd : list str) (es : list epoch) (cur : option epoch) : res sp3 :=
  match ls with
  | [] => Ok (Sp3 hd (flush es cur))
  | l :: t =>
      let no := no + 1 in
      if is_eof l then Ok (Sp3 hd (flush es cur))
      else if in_header && negb (star l) then read_loop t no true (hd ++ [l]) es cur
      else if star l then
        e <- parse_epoch_line l no ;; read_loop t no false hd (flush es cur) (Some e)
      else if pline l then
        match cur with
        | None => Err (Record_err no NoEpoch)
        | Some e => p <- parse_p_line l no ;; read_loop t no false hd es (Some (push e p))
        end
      else read_loop t no false hd es cur
  end.
Definition read_sp3 (text : str) : res sp3 := read_loop (lines text) 0 true [] [] None.

(** sp3.rs:332-338 *)
Record stream := Stream { s_rest : list str; s_header : list str; s_pending : option (N * str); s_no : N; s_finished : bool }.
(** sp3.rs:343-371 *)
Fixpoint open_loop (ls : list str) (no : N) (hd : list str) : stream :=
  match ls with
  | [] => Stream [] hd None no false
  | l :: t =>
      let no := no + 1 in
      if is_eof l then Stream t hd None no false
      else if star l then Stream t hd (Some (no, l)) no false
      else open_loop t no (hd ++ [l])
  end.
Definition open_stream (text : str) : stream := open_loop (lines text) 0 [].
(** sp3.rs:392-413: the epoch, or the error, and the stream left behind *)
Fixpoint body (ls : list str) (no : N) (hd : list str) (e : epoch) : res epoch * stream :=
  match ls with
  | [] => (Ok e, Stream [] hd None no true)
  | l :: t =>
      let no := no + 1 in
      if is_eof l then (Ok e, Stream t hd None no true)
      else if star l then (Ok e, Stream t hd (Some (no, l)) no false)
      else if pline l then
        match parse_p_line l no with
        | Ok p => body t no hd (push e p)
        | Err x => (Err x, Stream t hd None no false)
        | Panic => (Panic, Stream t hd None no false)
        end
      else body t no hd e
  end.
(** sp3.rs:379-415 [next_epoch] *)
Definition next_epoch (s : stream) : res (option epoch) * stream :=
  if s_finished s then (Ok None, s)
  else match s_pending s with
  | None => (Ok None, Stream (s_rest s) (s_header s) None (s_no s) true)
  | Some (no, l) =>
      match parse_epoch_line l no with
      | Ok e => match body (s_rest s) (s_no s) (s_header s) e with
                | (Ok e', s') => (Ok (Some e'), s')
                | (Err x, s') => (Err x, s')
                | (Panic, s') => (Panic, s')
                end
      | Err x => (Err x, Stream (s_rest s) (s_header s) None (s_no s) false)
      | Panic => (Panic, s)
      end
  end.
(** A caller that takes epochs until the first [None] or error. *)
Fixpoint drain (fuel : nat) (s : stream) : option (list epoch * res unit) :=
  match fuel with
  | O => None
  | S f => match next_epoch s with
           | (Ok None, _) => Some ([], Ok tt)
           | (Err x, _) => Some ([], Err x)
           | (Panic, _) => Some ([], Panic)
           | (Ok (Some e), s') => match drain f s' with None => None | Some (es, r) => Some (e :: es, r) end
           end
  end.
End Reader.

(** sp3.rs:256-291 [write_sp3]. [second] is [dt.second() as f64 + dt.nanosecond() as f64 / 1e9]. *)
Definition decz (z : Z) : str := if (z <? 0)%Z then 45 :: dec (Z.abs_N z) else dec (Z.abs_N z).
Definition seconds (c : civil) : Q := (inject_Z (Z.of_N (second c)) + inject_Z (Z.of_N (nano c)) / 1000000000)%Q.
Definition write_epoch_line (c : civil) : str :=
  lit "*  " ++ pad_left 4 (decz (year c)) ++ [32] ++ pad_left 2 (dec (month c)) ++ [32] ++ pad_left 2 (dec (day c)) ++ [32] ++
  pad_left 2 (dec (hour c)) ++ [32] ++ pad_left 2 (dec (minute c)) ++ [32] ++ pad_left 11 (fmt_fixed 8 (seconds c)).
Definition write_p_line (p : position) : str :=
  [80] ++ pad_right 3 (sat p) ++ [32] ++ pad_left 14 (fmt_fixedF 6 (px p)) ++ [32] ++ pad_left 14 (fmt_fixedF 6 (py p)) ++ [32] ++
  pad_left 14 (fmt_fixedF 6 (pz p)) ++ [32] ++ pad_left 14 (fmt_fixedF 6 (clock p)).
Definition write_epoch (e : epoch) : list str := write_epoch_line (time e) :: map write_p_line (positions e).
Definition write_lines (r : sp3) : list str := header r ++ flat_map write_epoch (epochs r) ++ [lit "EOF"].
Definition write_sp3 (r : sp3) : str := flat_map (fun l => l ++ [10]) (write_lines r).
