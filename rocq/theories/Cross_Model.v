(** Threshold crossings and periods: src/event/search/intervals.rs, src/event/search/periods.rs and
    the fixed- and adaptive-step seeding of src/event/search/bracketing.rs.

    Times and values are exact rationals, times in lowest terms ([Qred]). Loops take a number of
    passes; [None] means they did not finish within it. [Interval::complement] and
    [Interval::intersect_many] are in an external crate and are parameters where they are used. *)
From Coq Require Import List ZArith QArith Qabs Bool.
From Verif Require Import Qb Sort Root_Model.
Import ListNotations.
Local Open Scope Q_scope.

(** intervals.rs:45, 48 *)
Definition probe_dt : Q := 944473296573929 # 9444732965739290427392.
Definition dedupe_eps : Q := 3022314549036573 # 302231454903657293676544.

(** intervals.rs:57-62 *)
Record crossing := Cr { ct : Q; cdir : Z }.
Definition interval := (Q * Q)%type.

(** intervals.rs:64-67, 258-259: stable sort by time, then [dedup_by] drops an element close to
    the last one kept *)
Fixpoint dedup_from {A} (key : A -> Q) (kept : A) (l : list A) : list A :=
  match l with
  | [] => [kept]
  | x :: t => if qltb (Qabs (key x - key kept)) dedupe_eps then dedup_from key kept t else kept :: dedup_from key x t
  end.
Definition dedup {A} (key : A -> Q) (l : list A) : list A := match l with [] => [] | x :: t => dedup_from key x t end.
Definition sort_dedup {A} (key : A -> Q) (l : list A) : list A := dedup key (isort (fun x y => qleb (key x) (key y)) l).

(** the common step of the scans: intervals.rs:96-103, 152-159, bracketing.rs:68-75 *)
Definition next_time (stop step t : Q) : Q := if qleb (t + step) stop then Qred (t + step) else stop.

(** intervals.rs:95-118, 151-185; [hit] is what a step contributes *)
Fixpoint scan {A} (fuel : nat) (stop step : Q) (g : Q -> Q) (hit : Q -> Q -> Q -> Q -> list A) (t prev : Q) : option (list A) :=
  if qltb t stop then
    match fuel with
    | O => None
    | S n =>
        let next_t := next_time stop step t in
        let next_v := g next_t in
        match scan n stop step g hit next_t next_v with
        | Some r => Some (hit t prev next_t next_v ++ r)
        | None => None
        end
    end
  else Some [].

(** intervals.rs:162-168; the test of 106 is its being present *)
Definition direction (prev next : Q) : option Z :=
  if qltb prev 0 && qltb 0 next then Some 1%Z else if qltb 0 prev && qltb next 0 then Some (-1)%Z else None.
Definition directed_hit (start stop : Q) (g : Q -> Q) (t prev next_t next_v : Q) : list crossing :=
  match direction prev next_v with
  | Some d => match brent_with_values t next_t prev next_v g with
              | Some r => if qleb start r && qleb r stop then [Cr r d] else []
              | None => []
              end
  | None => []
  end.
Definition plain_hit (start stop : Q) (g : Q -> Q) (t prev next_t next_v : Q) : list Q :=
  if (qltb prev 0 && qltb 0 next_v) || (qltb 0 prev && qltb next_v 0) then
    match brent_with_values t next_t prev next_v g with
    | Some r => if qleb start r && qleb r stop then [r] else []
    | None => []
    end
  else [].
(** intervals.rs:75-121 *)
Definition find_crossings (fuel : nat) (p : interval) (step : Q) (f : Q -> Q) (threshold : Q) : option (list Q) :=
  let g := fun t => f t - threshold in
  scan fuel (snd p) step g (plain_hit (fst p) (snd p) g) (fst p) (g (fst p)).
(** intervals.rs:129-189 *)
Definition find_directed_crossings (fuel : nat) (p : interval) (step : Q) (f : Q -> Q) (threshold : Q) : option (list crossing * bool) :=
  let g := fun t => f t - threshold in
  match scan fuel (snd p) step g (directed_hit (fst p) (snd p) g) (fst p) (g (fst p)) with
  | Some cs => Some (sort_dedup ct cs, qltb 0 (g (fst p)))
  | None => None
  end.
(** intervals.rs:193-240; [ROOT_EPS] equals [F_EPS] *)
Definition segment_hit (p : interval) (g : Q -> Q) (a b : Q) : list Q :=
  if qleb b a then [] else
  if qltb (Qabs (g a)) f_eps then [a] else
  if qltb (Qabs (g b)) f_eps then [b] else
  plain_hit (fst p) (snd p) g a (g a) b (g b).
Fixpoint find_crossings_in_segments (key_times : list Q) (p : interval) (f : Q -> Q) (threshold : Q) : list Q :=
  match key_times with
  | a :: t => match t with
              | b :: _ => segment_hit p (fun t => f t - threshold) a b ++ find_crossings_in_segments t p f threshold
              | [] => []
              end
  | [] => []
  end.
(** intervals.rs:249-282 *)
Definition label (f : Q -> Q) (threshold t : Q) : option crossing :=
  let before := qltb threshold (f (Qred (t - probe_dt))) in
  let after := qltb threshold (f (Qred (t + probe_dt))) in
  if negb before && after then Some (Cr t 1) else if before && negb after then Some (Cr t (-1)) else None.
Fixpoint filter_map {A B} (h : A -> option B) (l : list A) : list B :=
  match l with [] => [] | x :: t => match h x with Some y => y :: filter_map h t | None => filter_map h t end end.
Definition label_crossings (crossings : list Q) (f : Q -> Q) (threshold : Q) : list crossing :=
  filter_map (label f threshold) (sort_dedup (fun t => t) crossings).

(** intervals.rs:333-354, 390-408: the enter/exit pairs; [keep] decides whether a period is pushed *)
Fixpoint pair_up (keep : Q -> Q -> bool) (stop : Q) (l : list crossing) : list interval :=
  match l with
  | [] => []
  | c :: t =>
      if Z.eqb (cdir c) 1 then
        match t with
        | x :: t' => if Z.eqb (cdir x) (-1)
                     then (if keep (ct c) (ct x) then [(ct c, ct x)] else []) ++ pair_up keep stop t'
                     else (if keep (ct c) stop then [(ct c, stop)] else []) ++ pair_up keep stop t
        | [] => if keep (ct c) stop then [(ct c, stop)] else []
        end
      else pair_up keep stop t
  end.
Definition midpoint (a b : Q) : Q := Qred (a + (b - a) * (1 # 2)).
(** intervals.rs:295-357 *)
Definition build_above_periods (l : list crossing) (p : interval) (start_above : bool) (f : Q -> Q) (threshold : Q) : list interval :=
  let above := fun t => qltb threshold (f t) in
  let keep := fun a b => let m := midpoint a b in qleb (fst p) m && qleb m (snd p) && above m in
  match l with
  | [] => if start_above then [p] else []
  | c :: t =>
      if start_above && Z.eqb (cdir c) (-1)
      then (if above (midpoint (fst p) (ct c)) then [(fst p, ct c)] else []) ++ pair_up keep (snd p) t
      else pair_up keep (snd p) l
  end.
(** intervals.rs:364-411 and periods.rs:15-21 *)
Definition build_above_periods_directed (l : list crossing) (p : interval) (start_above : bool) : list interval :=
  match l with
  | [] => if start_above then [p] else []
  | c :: t =>
      if start_above && Z.eqb (cdir c) (-1)
      then (if qltb (fst p) (ct c) then [(fst p, ct c)] else []) ++ pair_up qltb (snd p) t
      else pair_up qltb (snd p) l
  end.
(** intervals.rs:420-434 *)
Definition above_threshold_periods (fuel : nat) (p : interval) (step : Q) (f : Q -> Q) (threshold : Q) : option (list interval) :=
  match find_crossings fuel p step f threshold with
  | Some cs => Some (build_above_periods (label_crossings cs f threshold) p (qltb threshold (f (fst p))) f threshold)
  | None => None
  end.
(** intervals.rs:441-453 *)
Definition above_threshold_periods_directed (fuel : nat) (p : interval) (step : Q) (f : Q -> Q) (threshold : Q) : option (list interval) :=
  match find_directed_crossings fuel p step f threshold with
  | Some (cs, a) => Some (build_above_periods_directed cs p a)
  | None => None
  end.
(** intervals.rs:457-471 *)
Definition above_threshold_periods_segmented (key_times : list Q) (p : interval) (f : Q -> Q) (threshold : Q) : list interval :=
  build_above_periods (label_crossings (find_crossings_in_segments key_times p f threshold) f threshold) p (qltb threshold (f (fst p))) f threshold.

(** intervals.rs:498-513 and periods.rs:35-46, over the external period algebra *)
Section Ranges.
Variables (complement : interval -> list interval -> list interval) (intersect : list interval -> list interval -> list interval).
Definition in_range_periods_directed (fuel : nat) (p : interval) (step : Q) (f : Q -> Q) (h_min h_max : Q) : option (list interval) :=
  match above_threshold_periods_directed fuel p step f h_min, above_threshold_periods_directed fuel p step f h_max with
  | Some a, Some b => Some (intersect a (complement p b))
  | _, _ => None
  end.
Definition assemble_in_range_periods (min_crossings : list crossing) (start_above_min : bool) (max_crossings : list crossing) (start_above_max : bool) (p : interval) : list interval :=
  intersect (build_above_periods_directed min_crossings p start_above_min) (complement p (build_above_periods_directed max_crossings p start_above_max)).
End Ranges.

(** ** Seeding: bracketing.rs *)
(** bracketing.rs:40-42; the sign of +0.0 is positive *)
Definition opposite_sign (a b : Q) : bool := negb (same_sign a b).
(** bracketing.rs:51-87 *)
Definition fixed_step_brackets (fuel : nat) (p : interval) (step : Q) (f : Q -> Q) (threshold : Q) : option (list interval) :=
  let g := fun t => f t - threshold in
  scan fuel (snd p) step g (fun t prev nt nv => if opposite_sign prev nv then [(t, nt)] else []) (fst p) (g (fst p)).
(** bracketing.rs:143-167: the stack, its top first *)
Record frame := Frame { fr_lo : Q; fr_hi : Q; fr_glo : Q; fr_ghi : Q }.
Fixpoint subdivide (fuel : nat) (min_step : Q) (g : Q -> Q) (stack : list frame) : option (list interval) :=
  match stack with
  | [] => Some []
  | fr :: rest =>
      match fuel with
      | O => None
      | S n =>
          if opposite_sign (fr_glo fr) (fr_ghi fr) then
            let width := fr_hi fr - fr_lo fr in
            if qleb width (min_step + min_step) then
              match subdivide n min_step g rest with Some r => Some ((fr_lo fr, fr_hi fr) :: r) | None => None end
            else
              let mid := Qred (fr_lo fr + width * (1 # 2)) in
              subdivide n min_step g (Frame mid (fr_hi fr) (g mid) (fr_ghi fr) :: Frame (fr_lo fr) mid (fr_glo fr) (g mid) :: rest)
          else subdivide n min_step g rest
      end
  end.
(** bracketing.rs:97-171 *)
Definition adaptive_step_brackets (fuel : nat) (p : interval) (initial_step min_step : Q) (f : Q -> Q) (threshold : Q) : option (list interval) :=
  let g := fun t => f t - threshold in
  match scan fuel (snd p) initial_step g (fun t prev nt nv => [Frame t nt prev nv]) (fst p) (g (fst p)) with
  | Some frames => match subdivide fuel min_step g (rev frames) with
                   | Some bs => Some (isort (fun x y => qleb (fst x) (fst y)) bs)
                   | None => None
                   end
  | None => None
  end.
