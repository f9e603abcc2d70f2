(** What station-solution, orbit-exchange and beacon files say, line by line: each line is read by what precedes it. *)
From Coq Require Import Ascii String List NArith ZArith Bool QArith.
From Verif Require Import Base Text DecFloat Lsk_Spec Sp3_Model Omm_Model Ilrs_Model Nav_Model Igs_Model.
Import ListNotations.
Local Open Scope N_scope.

Definition first_is (c : N) (l : str) : bool := match l with x :: _ => x =? c | [] => false end.
(** the last of [l] with [p] *)
Definition last_with {A} (p : A -> bool) (l : list A) : option A := find p (rev l).
(** the lines before the first that ends the file *)
Fixpoint until {A} (stop : A -> bool) (l : list A) : list A := match l with [] => [] | x :: t => if stop x then [] else x :: until stop t end.
(** [f] of every line with the lines before it, in order *)
Definition each {A} (f : list str -> str -> list A) (ls : list str) : list A :=
  flat_map (fun i => match nth_error ls i with Some l => f (firstn i ls) l | None => [] end) (seq 0 (length ls)).

(** * Station solutions *)
Definition snx_head (l : str) : bool := starts_with (lit "%=SNX") l.
Definition snx_end (l : str) : bool := starts_with (lit "%ENDSNX") l.
Definition snx_mark (l : str) : bool := first_is 43 l || first_is 45 l.
Definition snx_data (l : str) : bool := negb (snx_mark l || first_is 42 l || first_is 37 l).
(** the block of estimates is open: it is the last to have been opened or closed *)
Definition snx_open (before : list str) : bool := match last_with snx_mark before with Some (43 :: r) => str_eqb (trim r) (lit "SOLUTION/ESTIMATE") | _ => false end.
(** the lines of estimates of a file *)
Definition estimates (text : str) : list str := each (fun before l => if snx_data l && snx_open before then [l] else []) (until snx_end (text_lines text)).
Record estimate := Est { e_type : str; e_code : str; e_point : str; e_soln : str; e_epoch : fnum; e_value : fnum }.
Definition estimate_of (l : str) : option estimate :=
  match nth_error (split_ws l) 8 with
  | Some v => match parse_f64 v with
              | Some v => let w i := nth i (split_ws l) [] in Some (Est (w 1%nat) (w 2%nat) (w 3%nat) (w 4%nat) (sinex_epoch (w 5%nat)) v)
              | None => None
              end
  | None => None
  end.
Definition readable (text : str) : list estimate := flat_map (fun l => match estimate_of l with Some e => [e] | None => [] end) (estimates text).
(** the last value of a type for a station *)
Definition last_value (es : list estimate) (code ty : str) : option fnum :=
  option_map e_value (last_with (fun e => str_eqb code (e_code e) && str_eqb (e_type e) ty) es).
Definition last_line (es : list estimate) (code : str) : option estimate := last_with (fun e => str_eqb code (e_code e)) es.

(** * Orbit exchange *)
Definition ox_head (l : str) : bool := starts_with (lit "%=ORBEX") l.
Definition ox_end (l : str) : bool := starts_with (lit "%ENDORBEX") l || starts_with (lit "%EOF") l.
(** one [#]: the kind of the lines to follow; two: their epoch *)
Definition ox_mark (l : str) : bool := first_is 35 l && negb (starts_with (lit "##") l).
Definition ox_time (l : str) : bool := starts_with (lit "##") l && (3 <=? length (split_ws (trim_hash l)))%nat.
Definition ox_kind (before : list str) : ox_section :=
  match last_with ox_mark before with
  | Some l => if starts_with (lit "#ORB") l then Orb else if starts_with (lit "#CLK") l then Clk else if starts_with (lit "#ATT") l then Att else NoSection
  | None => NoSection
  end.
Definition ox_when (before : list str) : fnum :=
  match last_with ox_time before with
  | Some l => match split_ws (trim_hash l) with
              | y :: d :: s :: _ => yo_epoch (or_else (parse_int i32_max y) 2000%Z) (or_else (parse_uint u32_max d) 1) (or_else (parse_f64 s) (Fin 0))
              | _ => Fin 0
              end
  | None => Fin 0
  end.
Definition ox_lines (text : str) : list str := until ox_end (text_lines text).
(** words of a line of data of a kind *)
Definition ox_words (k : ox_section) (before : list str) (l : str) : list (fnum * list str) :=
  match ox_kind before, k with
  | Orb, Orb | Clk, Clk | Att, Att => if first_is 32 l then match split_ws l with [] => [] | ws => [(ox_when before, ws)] end else []
  | _, _ => []
  end.
Definition ox_of (k : ox_section) (text : str) : list (fnum * list str) := each (ox_words k) (ox_lines text).
(** how many words a line of the kind must have, and how many of those after the first are numbers *)
Definition ox_least (k : ox_section) : nat := match k with Orb => 4 | Clk => 2 | Att => 5 | NoSection => 0 end.
Definition ox_numbers (k : ox_section) (ws : list str) : list str :=
  match k with Orb => firstn (if (7 <=? length ws)%nat then 6 else 3) (tl ws) | _ => firstn (ox_least k - 1) (tl ws) end.
(** the entries such lines make: the words after the satellite, as numbers *)
Definition number (ws : list str) (i : nat) : option fnum := match nth_error ws i with Some w => parse_f64 w | None => None end.
Definition three (ws : list str) (i : nat) : option (fnum * fnum * fnum) :=
  match number ws i, number ws (i + 1), number ws (i + 2) with Some a, Some b, Some c => Some (a, b, c) | _, _, _ => None end.
Definition orb_of (x : fnum * list str) : list orb_entry := let '(e, ws) := x in match three ws 1 with Some p => [OrbEntry (hd [] ws) e p (three ws 4)] | None => [] end.
Definition clk_of (x : fnum * list str) : list clk_entry := let '(e, ws) := x in match number ws 1 with Some b => [ClkEntry (hd [] ws) e b] | None => [] end.
Definition att_of (x : fnum * list str) : list att_entry :=
  let '(e, ws) := x in match number ws 1, three ws 2 with Some w, Some (a, b, c) => [AttEntry (hd [] ws) e (w, a, b, c)] | _, _ => [] end.
(** a line that can be read: enough words, or leave to skip it, and numbers where they belong *)
Definition ox_good (m : pmode) (k : ox_section) (x : fnum * list str) : Prop :=
  (is_strict m = true -> (ox_least k <= length (snd x))%nat) /\ ((ox_least k <= length (snd x))%nat -> Forall (fun w => parse_f64 w <> None) (ox_numbers k (snd x))).

(** * Beacon observations *)
Definition d_label (l : str) : str := if (61 <=? length l)%nat then trim (skipn 60 l) else [].
Definition d_last (l : str) : bool := str_eqb (d_label l) (lit "END OF HEADER").
(** the header, and what follows the line that ends it *)
Definition d_head (ls : list str) : list str := until d_last ls.
Fixpoint d_body (ls : list str) : list str := match ls with [] => [] | l :: t => if d_last l then t else d_body t end.
(** columns of the last header line with a label *)
Definition d_field (label : str) (from to : nat) (ls : list str) : str :=
  match last_with (fun l => str_eqb (d_label l) label) ls with Some l => trim (firstn (to - from) (skipn from l)) | None => [] end.
(** the epoch in force: that of the last line of epochs with six words *)
Definition d_time (l : str) : bool := first_is 62 l && (6 <=? length (split_ws (tl l)))%nat.
Definition d_when (before : list str) : option fnum :=
  match last_with d_time before with
  | Some l => match split_ws (tl l) with
              | y :: mo :: d :: h :: mi :: s :: _ =>
                  let num w := or_else (parse_uint u32_max w) 0 in
                  Some (date_to_mjd (or_else (parse_int i32_max y) 0%Z) (num mo) (num d) (num h) (num mi) (or_else (parse_f64 s) (Fin 0)))
              | _ => None
              end
  | None => None
  end.
Definition d_data (l : str) : bool := match l with [] => false | c :: _ => negb (c =? 62) end.
Definition d_obs_of (before : list str) (l : str) : list doris_obs :=
  if first_is 68 l && (3 <=? length l)%nat then match d_when before with Some e => [DorisObs e (firstn 3 l) (trim (skipn 3 l))] | None => [] end else [].
(** lines counted as unsupported: those that make no observation, and those that make one without a payload *)
Definition d_counted (before : list str) (l : str) : list str :=
  if d_data l then match d_obs_of before l with [] => [l] | o :: _ => match d_raw o with [] => [l] | _ => [] end end else [].

(** a word of the last line with a heading that has it *)
Definition heading (head : str -> bool) (i : nat) (ls : list str) : str :=
  match last_with (fun l => head l && (i <? length (split_ws l))%nat) ls with Some l => nth i (split_ws l) [] | None => [] end.
