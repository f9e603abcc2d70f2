(** Phases of the Moon (src/event/lunar/phase.rs).

    Angles and distances are exact reals; the ephemerides are parameters. *)
From Coq Require Import List Reals Bool.
From Verif Require Import Ang.
Import ListNotations.
Local Open Scope R_scope.

(** [MoonPhaseLabel] (phase.rs 121-138). *)
Inductive label := NewMoon | WaxingCrescent | FirstQuarter | WaxingGibbous | FullMoon | WaningGibbous | LastQuarter | WaningCrescent.

Definition ltb (a b : R) : bool := if Rlt_dec a b then true else false.
Definition leb (a b : R) : bool := if Rle_dec a b then true else false.

(** [while e >= full { e -= full; }] (phase.rs 148-150); [None] when the fuel
    runs out. *)
Fixpoint bring_down (fuel : nat) (e : R) : option R :=
  if leb 360 e then match fuel with O => None | S f => bring_down f (e - 360) end else Some e.
(** [while e < 0 { e += full; }] (phase.rs 151-153). *)
Fixpoint bring_up (fuel : nat) (e : R) : option R :=
  if ltb e 0 then match fuel with O => None | S f => bring_up f (e + 360) end else Some e.
(** The chain of comparisons (phase.rs 155-171). *)
Definition classify (hw e : R) : label :=
  if ltb e hw || leb (360 - hw) e then NewMoon
  else if ltb e (90 - hw) then WaxingCrescent
  else if ltb e (90 + hw) then FirstQuarter
  else if ltb e (180 - hw) then WaxingGibbous
  else if ltb e (180 + hw) then FullMoon
  else if ltb e (270 - hw) then WaningGibbous
  else if ltb e (270 + hw) then LastQuarter
  else WaningCrescent.
(** [MoonPhaseLabel::from_elongation] (phase.rs 143-172), degrees. *)
Definition from_elongation (fuel : nat) (e hw : R) : option label :=
  match bring_down fuel e with
  | Some e => match bring_up fuel e with Some e => Some (classify hw e) | None => None end
  | None => None
  end.
(** [is_waxing], [is_waning] (phase.rs 175-188). *)
Definition is_waxing (l : label) : bool := match l with WaxingCrescent | FirstQuarter | WaxingGibbous => true | _ => false end.
Definition is_waning (l : label) : bool := match l with WaningGibbous | LastQuarter | WaningCrescent => true | _ => false end.
(** [From<MoonPhaseLabel> for Degrees] (phase.rs 211-224). *)
Definition nominal (l : label) : R :=
  match l with NewMoon => 0 | WaxingCrescent => 45 | FirstQuarter => 90 | WaxingGibbous => 135 | FullMoon => 180 | WaningGibbous => 225 | LastQuarter => 270 | WaningCrescent => 315 end.

(** [PhaseKind] and its target elongation (phase.rs 233-262). *)
Inductive kind := KNew | KFirst | KFull | KLast.
Definition target (k : kind) : R := match k with KNew => 0 | KFirst => PI / 2 | KFull => PI | KLast => 3 * PI / 2 end.
Definition all_kinds : list kind := [KNew; KFirst; KFull; KLast].

(** [AU_KM] (phase.rs 82). *)
Definition au_km : R := 149597870700 / 1000.

(** [elongation_from_longitudes] (phase.rs 376-378). *)
Definition elongation (moon_lon sun_lon : R) : R := rem_e (moon_lon - sun_lon) (2 * PI).

(** [f64::clamp] with the bounds -1 and 1. *)
Definition clamp1 (x : R) : R := if Rlt_dec x (-1) then -1 else if Rlt_dec 1 x then 1 else x.
(** [phase_angle_from_triangle] (phase.rs 388-404). *)
Definition phase_angle (r_moon_km r_sun_au psi : R) : R :=
  let r_moon := r_moon_km / au_km in
  let d_sq := r_sun_au * r_sun_au + r_moon * r_moon - 2 * r_sun_au * r_moon * cos psi in
  let d := sqrt (Rmax d_sq 0) in
  if Rlt_dec d (/ 10 ^ 15) then 0
  else acos (clamp1 ((d * d + r_moon * r_moon - r_sun_au * r_sun_au) / (2 * d * r_moon))).

(** [great_circle_elongation] (phase.rs 461-472). *)
Definition great_circle (lon1 lat1 lon2 lat2 : R) : R :=
  let dlon := lon2 - lon1 in
  let x := cos lat1 * sin lat2 - sin lat1 * cos lat2 * cos dlon in
  let y := cos lat2 * sin dlon in
  let z := sin lat1 * sin lat2 + cos lat1 * cos lat2 * cos dlon in
  atan2 (sqrt (x * x + y * y)) z.

(** [MoonPhaseGeometry] (phase.rs 306-316). *)
Record geometry := { g_angle : R; g_fraction : R; g_elong : R; g_waxing : bool }.

(** The end of both geometry functions (phase.rs 441-449, 545-552). *)
Definition geometry_of (i signed : R) : geometry :=
  {| g_angle := i; g_fraction := (1 + cos i) / 2; g_elong := signed; g_waxing := ltb 0 signed && ltb signed PI |}.
(** [moon_phase_geocentric] (phase.rs 427-450) from the geocentric longitude,
    latitude and distance (km) of the Moon and the longitude and distance (AU)
    of the Earth seen from the Sun. *)
Definition geocentric (moon_lon moon_lat moon_km earth_lon sun_au : R) : geometry :=
  let sun_lon := rem_e (earth_lon + PI) (2 * PI) in
  let psi := great_circle sun_lon 0 moon_lon moon_lat in
  geometry_of (phase_angle moon_km sun_au psi) (elongation moon_lon sun_lon).
(** [moon_phase_topocentric] (phase.rs 510-553) from the topocentric right
    ascensions and declinations and the geocentric distances. *)
Definition topocentric (moon_ra moon_dec sun_ra sun_dec moon_km sun_au : R) : geometry :=
  let psi := great_circle moon_ra moon_dec sun_ra sun_dec in
  let dra := rem_e (moon_ra - sun_ra) (2 * PI) in
  let signed := if Rlt_dec dra PI then psi else 2 * PI - psi in
  geometry_of (phase_angle moon_km sun_au psi) signed.
(** [MoonPhaseGeometry::label_with] (phase.rs 339-341). *)
Definition label_with (fuel : nat) (g : geometry) (hw : R) : option label := from_elongation fuel (g_elong g * 180 / PI) hw.

(** [angle_diff] (phase.rs 667-674). *)
Definition angle_diff (a b : R) : R := let d := rem_e (a - b) (2 * PI) in if Rlt_dec PI d then d - 2 * PI else d.

(** [find_phase_events] (phase.rs 626-664). [elong] is the elongation at a
    time, [crossings f] what [intervals::find_crossings] returns for the signed
    function [f] (C36); the stable sort is an insertion sort. *)
Record event := { e_time : R; e_kind : kind }.
Definition phase_fun (elong : R -> R) (k : kind) : R -> R := fun t => sin (elong t - target k).
Definition events_of (elong : R -> R) (crossings : (R -> R) -> list R) (k : kind) : list event :=
  map (fun t => {| e_time := t; e_kind := k |}) (filter (fun t => ltb (Rabs (angle_diff (elong t) (target k))) (1 / 2)) (crossings (phase_fun elong k))).
Fixpoint insert (e : event) (l : list event) : list event :=
  match l with [] => [e] | h :: r => if leb (e_time e) (e_time h) then e :: h :: r else h :: insert e r end.
Fixpoint sort_events (l : list event) : list event := match l with [] => [] | h :: r => insert h (sort_events r) end.
Definition find_phase_events (elong : R -> R) (crossings : (R -> R) -> list R) : list event :=
  sort_events (flat_map (events_of elong crossings) all_kinds).

(** The loop of [MoonPhaseSeries::sample] (phase.rs 709-716): the instants. *)
Fixpoint sample (fuel : nat) (t last step : R) : option (list R) :=
  if leb t last then match fuel with O => None | S f => option_map (cons t) (sample f (t + step) last step) end else Some [].
