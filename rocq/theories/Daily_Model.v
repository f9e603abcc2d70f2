(** The Sun's crossings day by day: src/event/solar/daily_events.rs and src/event/solar/periods.rs.

    The search works on exact rationals as in Sweep_Model. The altitude of the Sun, precise and
    fast, the solution of a day and the angles computed from it are arbitrary functions here; their
    formulas are in the second half, on the reals. The counters of [SolarDailyDiagnostics] are not
    modelled, nor the tests for values that are not finite (566-568, 604, 640-642, 822-824). *)
From Coq Require Import List ZArith QArith Qabs Qminmax Qround Bool Reals.
From Verif Require Import Qb Root_Model Cross_Model Sweep_Model Ang.
Import ListNotations.
Local Open Scope Q_scope.

(** daily_events.rs:26 *)
Definition graze_eps : Q := milli.
(** daily_events.rs:30-36, rounded to f64 *)
Definition bracket_radii : list Q := [6004799503160661 # 576460752303423488; 6004799503160661 # 288230376151711744; 6004799503160661 # 144115188075855872; 6004799503160661 # 72057594037927936; 6004799503160661 # 36028797018963968].
Definition last_radius : Q := 6004799503160661 # 36028797018963968.
(** search.rs:185, 191; daily_events.rs:372, 625, 681, 762 *)
Definition root_interval_eps : Q := f_eps.
Definition diurnal_step : Q := 6004799503160661 # 72057594037927936.
Definition fast_at_root_tol : Q := 7378697629483821 # 73786976294838206464.
Definition flat_slope : Q := 3022314549036573 # 302231454903657293676544.
Definition tiny_dt : Q := 2535301200456459 # 2535301200456458802993406410752.

(** What is derived from the day's solution for a threshold: cos(latitude) cos(declination), the
    cosine of the hour angle at the threshold (383), that angle in days (487) and the slope (491). *)
Record aim := Aim { denom : Q; cos_h0 : Q; half_arc : Q; base_slope : Q }.

(** daily_events.rs:904-935 *)
Definition floor_day (t : Q) : Q := inject_Z (Qfloor t).
Definition max_mjd (a b : Q) : Q := if qleb b a then a else b.
Definition min_mjd (a b : Q) : Q := if qleb a b then a else b.
Definition mid_day (s : interval) : Q := Qred ((fst s + snd s) / 2).
(** daily_events.rs:171-187: the loop starts at a whole day and goes by whole days *)
Definition days (p : interval) : list interval :=
  if qltb (fst p) (snd p) then
    map (fun k => let a := (Qfloor (fst p) - 1 + Z.of_nat k)%Z in (inject_Z a, inject_Z (a + 1))) (seq 0 (Z.to_nat (Qfloor (snd p) - Qfloor (fst p) + 3)))
  else [].
(** daily_events.rs:531-541 *)
Definition influence (day p : interval) : interval :=
  (max_mjd (fst p) (Qred (fst day - (1 # 2))), min_mjd (snd p) (Qred (snd day + (1 # 2)))).

(** daily_events.rs:618-654, 799-836: the first radius with an end at the root or a sign change *)
Fixpoint find_bracket (f : Q -> Q) (tol : Q) (bounds : interval) (center : Q) (radii : list Q) : option interval :=
  match radii with
  | [] => None
  | r :: radii =>
      let lo := max_mjd (fst bounds) (Qred (center - r)) in
      let hi := min_mjd (snd bounds) (Qred (center + r)) in
      if qleb hi lo then find_bracket f tol bounds center radii else
      if qleb (Qabs (f lo)) tol then Some (lo, lo) else
      if qleb (Qabs (f hi)) tol then Some (hi, hi) else
      if same_sign (f lo) (f hi) then find_bracket f tol bounds center radii else Some (lo, hi)
  end.
(** daily_events.rs:747-773: the accepted time, or where the full search starts *)
Fixpoint newton (n : nat) (g : Q -> Q) (bounds : interval) (tol analytic t r slope : Q) : Q + Q :=
  match n with
  | O => inr t
  | S n =>
      if qltb (Qabs slope) flat_slope then inr t else
      let next := Qred (t - r / slope) in
      if qltb next (fst bounds) || qltb (snd bounds) next then inr t else
      let r' := g next in
      if qleb (Qabs r') tol then inl next else
      let dt := next - t in
      let chord := (r' - r) / dt in
      let slope := if qltb tiny_dt (Qabs dt) && same_sign chord analytic && qltb flat_slope (Qabs chord) then chord else slope in
      if qleb (Qabs r) (Qabs r') then inr t else newton n g bounds tol analytic next r' slope
  end.

Section Daily.
(** [signal] and [fast] are the sines of the altitude; [fit] as in Sweep_Model for each threshold *)
Context {A : Type}.
Variables (o : config) (predictor : bool) (signal fast : Q -> Q) (fit : Q -> interval -> option fitted)
  (solve : interval -> option A) (transit : A -> Q) (aim_at : A -> Q -> aim).

(** daily_events.rs:848-850 *)
Definition residual_tol : Q := Qmax (max_residual o) poly_zero_tol.
(** daily_events.rs:882-892; the search ends when the piece length is positive *)
Definition chebyshev (w : interval) (thr : Q) : list crossing :=
  match find_labelled_crossings o (fit thr) w diurnal_step signal thr with Some (l, _) => l | None => [] end.
(** daily_events.rs:517-529, 852-866 *)
Definition fallback (w : interval) (thr : Q) : list crossing := if qltb (fst w) (snd w) then chebyshev w thr else [].
(** daily_events.rs:589-615 *)
Definition accept_no_crossing (w : interval) (thr : Q) (expected_above : bool) : bool :=
  if qleb (snd w) (fst w) then true else
  forallb (fun t => let r := signal t - thr in
    negb (qleb (Qabs r) (residual_tol * 10)) && negb (expected_above && qltb r 0) && negb (negb expected_above && qltb 0 r)) [fst w; mid_day w; snd w].
(** daily_events.rs:679-692 *)
Definition bracket_center (bounds : interval) (predicted thr slope : Q) : Q :=
  if qltb flat_slope (Qabs slope) then
    let t := Qred (predicted - (fast predicted - thr) / slope) in
    if qleb (fst bounds) t && qleb t (snd bounds) then t else predicted
  else predicted.
(** daily_events.rs:703-717: the root of the fast model *)
Definition fast_root (bounds : interval) (center thr : Q) : option Q :=
  let f := fun t => fast t - thr in
  match find_bracket f fast_at_root_tol bounds center bracket_radii with
  | None => None
  | Some (lo, hi) => if qltb (hi - lo) root_interval_eps then Some lo else brent_f64 lo hi (f lo) (f hi) f (time_tolerance o) residual_tol
  end.
(** daily_events.rs:775-795: the root of the precise model *)
Definition full_root (bounds : interval) (center thr : Q) : option Q :=
  let g := fun t => signal t - thr in
  match find_bracket g residual_tol bounds center bracket_radii with
  | None => None
  | Some (lo, hi) =>
      if qltb (hi - lo) root_interval_eps then Some lo else
      match brent_f64 lo hi (g lo) (g hi) g (time_tolerance o) residual_tol with
      | Some x => if qleb (fst bounds) x && qleb x (snd bounds) then Some x else None
      | None => None
      end
  end.
(** daily_events.rs:666-796 *)
Definition refine_candidate (bounds : interval) (predicted thr slope : Q) : option Q :=
  let g := fun t => signal t - thr in
  match fast_root bounds (bracket_center bounds predicted thr slope) thr with
  | None => None
  | Some t =>
      if qltb t (fst bounds) || qltb (snd bounds) t then None else
      if qleb (Qabs (g t)) residual_tol then Some t else
      match newton 6 g bounds (residual_tol * 10) slope t (g t) slope with
      | inl x => Some x
      | inr t => full_root bounds t thr
      end
  end.
(** daily_events.rs:482-504 *)
Definition candidates (a : A) (m : aim) : list (Q * Z * Q) :=
  [(Qred (transit a - half_arc m), 1%Z, base_slope m); (Qred (transit a + half_arc m), (-1)%Z, - base_slope m)].
(** daily_events.rs:506-515 *)
Definition near_window (p : interval) (t : Q) : bool := qleb (fst p - last_radius) t && qleb t (snd p + last_radius).
(** daily_events.rs:435-465: the refined crossings, or [None] if one failed *)
Fixpoint refine_all (bounds p : interval) (thr : Q) (l : list (Q * Z * Q)) : option (list crossing) :=
  match l with
  | [] => Some []
  | (t, d, slope) :: l =>
      if near_window p t then
        match refine_candidate bounds t thr slope, refine_all bounds p thr l with
        | Some x, Some r => Some (if qleb (fst p) x && qleb x (snd p) then Cr x d :: r else r)
        | _, _ => None
        end
      else refine_all bounds p thr l
  end.
(** daily_events.rs:355-480 *)
Definition day_crossings (day p : interval) (thr : Q) (a : A) : list crossing :=
  let w := influence day p in
  let m := aim_at a thr in
  if qltb (Qabs (denom m)) f_eps then fallback w thr else
  if qltb (1 + graze_eps) (cos_h0 m) then (if accept_no_crossing w thr false then [] else fallback w thr) else
  if qltb (cos_h0 m) (- (1) - graze_eps) then (if accept_no_crossing w thr true then [] else fallback w thr) else
  if negb (qleb (- (1)) (cos_h0 m) && qleb (cos_h0 m) 1) || qltb (Qabs (cos_h0 m + 1)) graze_eps || qltb (Qabs (cos_h0 m - 1)) graze_eps then fallback w thr else
  match refine_all w p thr (candidates a m) with Some l => l | None => fallback w thr end.
(** daily_events.rs:300-327, 220-248: a day without a solution is searched *)
Definition one_day (p : interval) (thr : Q) (day : interval) : list crossing :=
  match solve day with Some a => day_crossings day p thr a | None => fallback (influence day p) thr end.
(** daily_events.rs:259-332; [predictor] is [!disable_solar_daily_predictor] *)
Definition solar_crossings (p : interval) (thr : Q) : list crossing :=
  if qleb (snd p) (fst p) then [] else
  if force_scan o then scan_labelled_crossings p (fallback_scan_step o diurnal_step) (fun t => signal t - thr) (time_tolerance o) (max_residual o) else
  if negb predictor then chebyshev p thr else
  sort_dedup ct (flat_map (one_day p thr) (days p)).
(** daily_events.rs:191-256: one pass over the days extends the result of every threshold *)
Definition extend (p day : interval) (thrs : list Q) (results : list (list crossing)) : list (list crossing) :=
  map (fun '(thr, r) => r ++ one_day p thr day) (combine thrs results).
Definition solar_crossings_for_thresholds (p : interval) (thrs : list Q) : list (list crossing) :=
  match thrs with
  | [] => []
  | _ =>
      if qleb (snd p) (fst p) then map (fun _ => []) thrs else
      if force_scan o || negb predictor then map (solar_crossings p) thrs else
      map (sort_dedup ct) (fold_left (fun results day => extend p day thrs results) (days p) (map (fun _ => []) thrs))
  end.
(** daily_events.rs:335-353 *)
Definition solar_events (p : interval) (thr : Q) : list (Q * way) := crossing_events (solar_crossings p thr).
(** periods.rs:21-29, 78-88 *)
Definition solar_above (p : interval) (thr : Q) : list interval :=
  build_above_periods_directed (solar_crossings p thr) p (qltb thr (signal (fst p))).
(** periods.rs:41-67 *)
Definition solar_ranges (complement : interval -> list interval -> list interval) (intersect : list interval -> list interval -> list interval) (p : interval) (min_sin max_sin : Q) : list interval :=
  if qleb (snd p) (fst p) then [] else
  match solar_crossings_for_thresholds p [min_sin; max_sin] with
  | [cmin; cmax] => assemble_in_range_periods complement intersect cmin (qltb min_sin (signal (fst p))) cmax (qltb max_sin (signal (fst p))) p
  | _ => []
  end.
End Daily.

(** ** The formulas, on the reals *)
Local Open Scope R_scope.
(** daily_events.rs:122-131, 550-559: [n] days from J2000; the ecliptic longitude and the obliquity *)
Definition to_radians (deg : R) : R := deg * (PI / 180).
Definition sun_longitude (n : R) : R :=
  let g := to_radians (357.52911 + 0.98560028 * n) in
  to_radians (280.46646 + 0.98564736 * n) + to_radians 1.914602 * sin g + to_radians 0.019993 * sin (2 * g) + to_radians 0.000289 * sin (3 * g).
Definition sun_obliquity (n : R) : R := to_radians (23.439291 - 0.00000036 * n).
(** daily_events.rs:133-138, 561-564 *)
Definition sun_ra (n : R) : R := atan2 (cos (sun_obliquity n) * sin (sun_longitude n)) (cos (sun_longitude n)).
Definition sun_sin_dec (n : R) : R := sin (sun_obliquity n) * sin (sun_longitude n).
(** daily_events.rs:141 *)
Definition fast_gmst (n : R) : R := rem_e (4.894961 + 6.300388 * n) (2 * PI).
(** daily_events.rs:121-145 *)
Definition sin_altitude_fast (n lat lon : R) : R :=
  let sin_dec := sun_sin_dec n in
  let cos_dec := sqrt (1 - sin_dec * sin_dec) in
  let ha := rem_e (fast_gmst n + lon - sun_ra n) (2 * PI) in
  sin lat * sin_dec + cos lat * cos_dec * cos ha.
(** daily_events.rs:543-587, after the position: the middle of the day, the sidereal time there and
    the right ascension give the transit; the day is one day long *)
Definition approx_transit (start stop gmst lon ra : R) : R :=
  let mid := (start + stop) / 2 in
  let lst := rem_e (gmst + lon) (2 * PI) in
  let hour_angle := rem_e (lst - ra) (2 * PI) in
  let t := mid + - hour_angle / (2 * PI) in
  if Rlt_dec t start then t + 1 else if Rlt_dec stop t then t + - (1) else t.
(** daily_events.rs:383, 487, 491 *)
Definition r_cos_h0 (thr_sin sin_lat cos_lat sin_dec cos_dec : R) : R := (thr_sin - sin_lat * sin_dec) / (cos_lat * cos_dec).
Definition r_half_arc (c : R) : R := acos c / (2 * PI).
Definition r_base_slope (cos_lat cos_dec h0 : R) : R := cos_lat * cos_dec * sin h0 * (2 * PI).
