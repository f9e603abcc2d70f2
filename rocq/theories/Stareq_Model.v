(** Threshold crossings of a fixed star by hour angle (src/event/stellar), over the reals: f64 rounding and NaN are
    not modelled. *)
From Coq Require Import ZArith Reals List Bool Lra.
From Verif Require Import Mat3 Ang Sort Geom_Model Horiz_Model.
Import ListNotations.
Local Open Scope R_scope.

(** star_equations.rs:93-103; the right ascension and longitude are kept in degrees *)
Record params := Params { p_a : R; p_b : R; p_ra : R; p_lon : R }.
(** star_equations.rs:110-146; [npb] is the matrix of the reference epoch, latitude and longitude in degrees *)
Definition from_j2000 (npb : mat) (ra dec lat lon : R) : params :=
  let '(x, y, z) := apply npb (unit_of ra dec) in
  let d := asin z in
  Params (sin d * sin (lat * PI / 180)) (cos d * cos (lat * PI / 180)) (atan2 y x * 180 / PI) lon.
(** star_equations.rs:66-77 *)
Inductive threshold_result := AlwaysAbove | NeverAbove | Crossings (h0 : R).
(** star_equations.rs:153-177; DEGENERATE_B_EPS is star_equations.rs:55 *)
Definition threshold_ha (p : params) (threshold : R) : threshold_result :=
  let sin_h := sin threshold in
  if rltb (Rabs (p_b p)) 1e-15 then (if rltb sin_h (p_a p) then AlwaysAbove else NeverAbove) else
  let cos_h0 := (sin_h - p_a p) / p_b p in
  if rleb cos_h0 (-1) then AlwaysAbove else if rleb 1 cos_h0 then NeverAbove else Crossings (acos cos_h0).
(** star_equations.rs:183-193, in degrees; the sidereal time [gast] at the instant is a parameter *)
Definition hour_angle_deg (p : params) (gast : R) : R := (gast + p_lon p * PI / 180 - p_ra p * PI / 180) * 180 / PI.

(** CROSSING_EDGE_EPS, star_equations.rs:58 *)
Definition edge_eps : R := 1e-12.
(** the loop of star_equations.rs:220-233; [day] is SIDEREAL_DAY_DAYS, a constant of the external unit crate *)
Fixpoint occurrences (fuel : nat) (day start stop dt : R) (dir : Z) : list (R * Z) :=
  match fuel with
  | O => []
  | S fuel =>
    if rleb (start + dt) (stop + edge_eps) then
      let t := start + dt in
      let c := if rleb stop t then stop else if rleb t start then start else t in
      (c, dir) :: occurrences fuel day start stop (dt + day) dir
    else []
  end.
(** enough turns of the loop for any first offset that is not negative *)
Definition turns (day start stop : R) : nat := Z.to_nat (up ((stop + edge_eps - start) / day)) + 1.
(** star_equations.rs:213-236; [normalize] of the external unit crate is the Euclidean remainder by 360 *)
Definition first_offset (day ha_start target : R) : R := day * (rem_e (target - ha_start) 360 / 360).
Definition predict_crossings (day ha_start start stop h0 : R) : list (R * Z) :=
  let h := h0 * 180 / PI in
  let run target dir := occurrences (turns day start stop) day start stop (first_offset day ha_start target) dir in
  isort (fun a b => rleb (fst a) (fst b)) (run (360 - h) 1%Z ++ run h (-1)%Z).

(** BRACKET_HALF, altitude_periods.rs:63 *)
Definition bracket_half : R := 15 / 1440.
(** altitude_periods.rs:52-55; the sign of a zero difference is positive *)
Definition opposite_sign (a b : R) : bool := (rltb a 0 && rleb 0 b) || (rleb 0 a && rltb b 0).
(** altitude_periods.rs:213-251; [brent lo hi] is the root finder on the shifted altitude *)
Definition bracket (start stop t : R) : R * R :=
  (if rleb start (t - bracket_half) then t - bracket_half else start, if rleb (t + bracket_half) stop then t + bracket_half else stop).
Definition refine (g : R -> R) (brent : R -> R -> option R) (start stop : R) (t : R) : list R :=
  let '(lo, hi) := bracket start stop t in
  if rltb (hi - lo) 1e-12 then [] else
  if opposite_sign (g lo) (g hi) then
    match brent lo hi with
    | Some root => if rleb start root && rleb root stop then [root] else []
    | None => []
    end
  else [].
(** altitude_periods.rs:180-257 (find_crossings_analytical) as the crossings it labels; [scan] is the uniform scan
    it falls back to; the labelling is in Sweep_Model.v *)
Definition find_crossings (f : R -> R) (brent : R -> R -> option R) (scan : list R) (p : params) (day ha_start start stop thr : R) : list R * bool :=
  let start_above := rltb thr (f start) in
  match threshold_ha p thr with
  | AlwaysAbove => if start_above && rltb thr (f stop) then ([], true) else (scan, start_above)
  | NeverAbove => if negb start_above && negb (rltb thr (f stop)) then ([], false) else (scan, start_above)
  | Crossings h0 => (flat_map (fun c => refine (fun t => f t - thr) brent start stop (fst c)) (predict_crossings day ha_start start stop h0), start_above)
  end.
