(** Crossings of a signal over Chebyshev pieces: src/event/search/crossings.rs, with its uniform scan
    src/event/search/scan_fallback.rs (the root finder of that file is in Root_Model) and the
    configuration of src/event/altitude/search.rs.

    Times and values are exact rationals as in Root_Model, times kept in lowest terms. The polynomial
    of a piece (the external crate [cheby]) is an arbitrary function from the piece to a tail norm
    and roots with slopes, so it stands for every degree, sampling and root option
    (crossings.rs:177-181, 198-200, 234-245). The counters of [SearchDiagnostics] are not modelled. *)
From Coq Require Import List ZArith QArith Qabs Qminmax Qround Bool.
From Verif Require Import Qb Root_Model Cross_Model.
Import ListNotations.
Local Open Scope Q_scope.

(** crossings.rs:22-23, scan_fallback.rs:16; the other literals of the two files *)
Definition poly_zero_tol : Q := f_eps.
Definition min_segment_days : Q := 4722366482869645 # 4722366482869645213696.
Definition tenth_micro : Q := 944473296573929 # 9444732965739290427392.
Definition milli : Q := 1152921504606847 # 1152921504606846976.
Definition ten_micro : Q := 5902958103587057 # 590295810358705651712.

(** search.rs:45-107, without the degree of the polynomial *)
Record config := Config {
  time_tolerance : Q; segment_length : Q; max_tail_norm : Q; max_residual : Q; refine : bool; refine_margin : Q;
  min_slope : Q; adaptive_split : bool; max_split_depth : nat; scan_step : option Q; force_scan : bool }.
(** search.rs:69-83, 86, 112-119 *)
Definition public_config (tol : Q) : config :=
  Config tol (1 # 2) (4722366482869645 # 4722366482869645213696) (7737125245533627 # 77371252455336267181195264) true
    (2001599834386887 # 144115188075855872) (3022314549036573 # 302231454903657293676544) true 2 None false.
(** search.rs:129-131 *)
Definition fallback_scan_step (o : config) (default_step : Q) : Q := match scan_step o with Some s => s | None => default_step end.

(** [f64::clamp] *)
Definition clamp (lo hi x : Q) : Q := if qltb x lo then lo else if qltb hi x then hi else x.

(** scan_fallback.rs:106-154 *)
Definition endpoint_direction (g : Q -> Q) (p : interval) (step t : Q) : option Z :=
  let probe := clamp tenth_micro milli (step * (1 # 4)) in
  let left_t := Qred (Qmax (t - probe) (fst p)) in
  let right_t := Qred (Qmin (t + probe) (snd p)) in
  if qleb right_t left_t then None else
  let left := g left_t in
  let right := g right_t in
  if qleb (Qabs (t - fst p)) epsilon then (if qltb 0 right then Some 1%Z else if qltb right 0 then Some (-1)%Z else None)
  else if qleb (Qabs (t - snd p)) epsilon then (if qltb left 0 then Some 1%Z else if qltb 0 left then Some (-1)%Z else None)
  else if qleb left 0 && qltb 0 right then Some 1%Z
  else if qltb 0 left && qleb right 0 then Some (-1)%Z
  else None.
(** scan_fallback.rs:46-52, 64-78 *)
Definition endpoint_hit (g : Q -> Q) (p : interval) (step rt t v : Q) : list crossing :=
  if qleb (Qabs v) rt then match endpoint_direction g p step t with Some d => [Cr t d] | None => [] end else [].
(** scan_fallback.rs:80-96 *)
Definition bracket_hit (g : Q -> Q) (p : interval) (tt rt t prev next_t next_v : Q) : list crossing :=
  if same_sign prev next_v then [] else
  match brent_f64 t next_t prev next_v g tt rt with
  | Some x => if qleb (fst p) x && qleb x (snd p) then [Cr x (if qltb prev 0 then 1 else -1)%Z] else []
  | None => []
  end.
Definition scan_hit (g : Q -> Q) (p : interval) (step tt rt t prev next_t next_v : Q) : list crossing :=
  endpoint_hit g p step rt t prev ++ endpoint_hit g p step rt next_t next_v ++ bracket_hit g p tt rt t prev next_t next_v.
(** The number of passes of a loop that advances by [step] through the interval. *)
Definition passes_for (p : interval) (step : Q) : nat := Z.to_nat (Qceiling ((snd p - fst p) / step)).
(** scan_fallback.rs:19-104; [g] is the signal less the threshold *)
Definition scan_labelled_crossings (p : interval) (step : Q) (g : Q -> Q) (time_tol max_res : Q) : list crossing :=
  if qleb (snd p) (fst p) then [] else
  let step := Qmax step min_segment_days in
  let tt := Qmax time_tol epsilon in
  let rt := Qmax max_res poly_zero_tol in
  match scan (passes_for p step) (snd p) step g (scan_hit g p step tt rt) (fst p) (g (fst p)) with
  | Some l => sort_dedup ct l
  | None => []
  end.

(** ** crossings.rs *)
(** A fitted piece: its tail norm if finite, and its roots with the slopes there. *)
Record fitted := Fitted { tail_norm : option Q; roots : list (Q * Q) }.
(** crossings.rs:57-59 *)
Definition span (s : interval) : Q := snd s - fst s.
(** crossings.rs:65-77 *)
Definition split (s : interval) : interval * interval :=
  let mid := Qred (fst s + span s * (1 # 2)) in ((fst s, mid), (mid, snd s)).
(** crossings.rs:79-82 *)
Definition time_from_unit (s : interval) (x : Q) : Q := Qred (fst s + span s * ((clamp (- (1)) 1 x + 1) * (1 # 2))).

Section Search.
(** [p] is the whole window, [step] the resolved scan step and [g] the signal less the threshold. *)
Variables (o : config) (fit : interval -> option fitted) (p : interval) (step : Q) (g : Q -> Q).

(** crossings.rs:279-293 *)
Definition fallback_segment (s : interval) : list crossing := scan_labelled_crossings s step g (time_tolerance o) (max_residual o).
(** crossings.rs:254-277 *)
Definition hidden_sign_change (s : interval) : bool :=
  let f_start := g (fst s) in
  let f_end := g (snd s) in
  let f_mid := g (time_from_unit s 0) in
  let differs v := negb (same_sign f_start v) || negb (same_sign v f_end) in
  negb (same_sign f_start f_end) || differs f_mid || differs (g (time_from_unit s (- (1) # 2))) || differs (g (time_from_unit s (1 # 2))).
(** crossings.rs:454-456 *)
Definition radius_exhausts (center radius : Q) (s : interval) : bool := qleb (center - radius) (fst s) && qleb (snd s) (center + radius).
(** crossings.rs:350-381: [n] passes are left *)
Fixpoint widen (n : nat) (s : interval) (initial radius : Q) : option Q :=
  match n with
  | O => None
  | S n =>
      let lo := Qred (Qmax (initial - radius) (fst s)) in
      let hi := Qred (Qmin (initial + radius) (snd s)) in
      let again := if radius_exhausts initial (radius * 2) s then None else widen n s initial (radius * 2) in
      if qltb lo hi then
        if qleb (Qabs (g lo)) (max_residual o) then Some lo else
        if qleb (Qabs (g hi)) (max_residual o) then Some hi else
        if same_sign (g lo) (g hi) then again else brent_f64 lo hi (g lo) (g hi) g (Qmax (time_tolerance o) poly_zero_tol) (max_residual o)
      else again
  end.
(** crossings.rs:326-382 *)
Definition refine_precise_root (s : interval) (initial : Q) : option Q :=
  let t := Qred (clamp (fst s) (snd s) initial) in
  if qleb (Qabs (g t)) (max_residual o) then Some t else widen 8 s initial (Qmax (refine_margin o) ten_micro).
(** crossings.rs:384-422 *)
Definition classify_direction (t : Q) : option Z :=
  let probe := clamp min_segment_days milli (refine_margin o) in
  let left_t := Qred (Qmax (t - probe) (fst p)) in
  let right_t := Qred (Qmin (t + probe) (snd p)) in
  if qleb right_t left_t then None else
  let left := g left_t in
  let right := g right_t in
  let eps := Qmax (max_residual o) poly_zero_tol in
  if qleb left eps && qltb eps right then Some 1%Z
  else if qltb eps left && qleb right eps then Some (-1)%Z
  else if qltb left (- eps) && qleb (- eps) right then Some 1%Z
  else if qleb (- eps) left && qltb right (- eps) then Some (-1)%Z
  else None.
(** crossings.rs:295-324 *)
Definition validate_candidate (s : interval) (root_x : Q) : option crossing :=
  let initial := time_from_unit s root_x in
  match (if refine o then refine_precise_root s initial else Some initial) with
  | None => None
  | Some t => if qltb (max_residual o) (Qabs (g t)) then None else
              match classify_direction t with Some d => Some (Cr t d) | None => None end
  end.
(** crossings.rs:208-231: [None] sends the piece to the scan *)
Fixpoint accept_roots (s : interval) (l : list (Q * Q)) : option (list crossing) :=
  match l with
  | [] => Some []
  | (x, slope) :: l =>
      if qltb (Qabs slope) (min_slope o) then None else
      match validate_candidate s x with
      | None => None
      | Some c => match accept_roots s l with Some r => Some (c :: r) | None => None end
      end
  end.
(** crossings.rs:163-232: [budget] is how much deeper the piece may be split *)
Fixpoint segment_crossings (budget : nat) (s : interval) : list crossing :=
  if qleb (span s) 0 then [] else
  if qltb (span s) min_segment_days then fallback_segment s else
  match fit s with
  | None => fallback_segment s
  | Some c =>
      if match tail_norm c with Some n => qltb (max_tail_norm o) n | None => true end then
        match budget with
        | S b => if adaptive_split o
                 then segment_crossings b (fst (split s)) ++ segment_crossings b (snd (split s))
                 else fallback_segment s
        | O => fallback_segment s
        end
      else
        if (match roots c with [] => true | _ => false end) && hidden_sign_change s then fallback_segment s else
        match accept_roots s (roots c) with Some l => l | None => fallback_segment s end
  end.
End Search.
(** crossings.rs:86-148: the crossings and whether the signal starts above the threshold. The loop
    of 120-144 never ends when [segment_length] is not positive, and the result is then [None]. *)
Definition find_labelled_crossings (o : config) (fit : interval -> option fitted) (p : interval) (fallback_step : Q) (signal : Q -> Q) (threshold : Q) : option (list crossing * bool) :=
  if qleb (snd p) (fst p) then Some ([], false) else
  let g := fun t => signal t - threshold in
  let start_above := qltb threshold (signal (fst p)) in
  let step := fallback_scan_step o fallback_step in
  if force_scan o then Some (scan_labelled_crossings p step g (time_tolerance o) (max_residual o), start_above) else
  match scan (passes_for p (segment_length o)) (snd p) (segment_length o) (fun t => t)
          (fun t _ next _ => segment_crossings o fit p step g (max_split_depth o) (t, next)) (fst p) (fst p) with
  | Some l => Some (sort_dedup ct l, start_above)
  | None => None
  end.

(** ** src/event/altitude/events.rs, over the sine of the altitude of the target *)
(** search.rs:166-172 *)
Definition resolve_scan_step (hint : option Q) (o : config) (default_step : Q) : Q :=
  match scan_step o with Some s => s | None => match hint with Some s => s | None => default_step end end.
(** search.rs:194 *)
Definition default_scan_step : Q := 2001599834386887 # 288230376151711744.
(** types.rs: the direction of an event *)
Inductive way := Rising | Setting.
(** events.rs:82-94 *)
Definition crossing_events (l : list crossing) : list (Q * way) := map (fun c => (ct c, if Z.ltb 0 (cdir c) then Rising else Setting)) l.
(** events.rs:61-80, 145-175 *)
Definition generic_crossings (tol : Q) (hint : option Q) (fit : interval -> option fitted) (p : interval) (signal : Q -> Q) (threshold : Q) : option (list (Q * way)) :=
  let o := public_config tol in
  match find_labelled_crossings o fit p (resolve_scan_step hint o default_scan_step) signal threshold with
  | Some (cs, _) => Some (crossing_events cs)
  | None => None
  end.
(** events.rs:366-396 *)
Definition generic_above_threshold (tol : Q) (hint : option Q) (fit : interval -> option fitted) (p : interval) (signal : Q -> Q) (threshold : Q) : option (list interval) :=
  let o := public_config tol in
  match find_labelled_crossings o fit p (resolve_scan_step hint o default_scan_step) signal threshold with
  | Some (cs, above) => Some (build_above_periods_directed cs p above)
  | None => None
  end.
