(** Mission geometry (src/mission/geometry), over the reals. f64 rounding, NaN and infinities are not
    modelled; positions are triples in one common centre and frame. *)
From Coq Require Import List Reals Lra Bool.
From Verif Require Import Base Mat3 Ang Sort.
Import ListNotations.
Local Open Scope R_scope.

Definition vminus (u v : vec) : vec := let '(a, b, c) := u in let '(x, y, z) := v in (a - x, b - y, c - z).
Definition scale (k : R) (u : vec) : vec := let '(a, b, c) := u in (k * a, k * b, k * c).
Definition vplus (u v : vec) : vec := let '(a, b, c) := u in let '(x, y, z) := v in (a + x, b + y, c + z).
Definition norm (u : vec) : R := sqrt (dot3 u u).
Definition rltb (x y : R) : bool := if Rlt_dec x y then true else false.
Definition rleb (x y : R) : bool := if Rle_dec x y then true else false.
Definition reqb (x y : R) : bool := if Req_EM_T x y then true else false.
(** f64::clamp *)
Definition clamp (lo hi x : R) : R := if Rlt_dec x lo then lo else if Rlt_dec hi x then hi else x.

(** local_frame.rs:31-40 *)
Definition basis (lat lon : R) : vec * vec * vec :=
  ((- sin lon, cos lon, 0), (- sin lat * cos lon, - sin lat * sin lon, cos lat), (cos lat * cos lon, cos lat * sin lon, sin lat)).
(** affn's line_of_sight_with_distance: unit vector and length. Over the reals a division by zero
    stands for what the library does with coincident points, about which nothing is proved. *)
Definition line_of_sight (observer target : vec) : vec * R :=
  let d := vminus target observer in let n := norm d in (scale (/ n) d, n).
Inductive los_status := Clear | BodyObstructed | BelowTerrainMask.
Record az_el_range := Aer { aer_el : R; aer_az : R; aer_range : R; aer_rate : R; aer_light : R; aer_status : los_status }.
Definition c_m_per_s : R := 299792458.
(** az_el_range.rs:72-108 *)
Definition azimuth_elevation_range (op ov tp tv : vec) (lat lon : R) : az_el_range :=
  let '(dir, rng) := line_of_sight op tp in
  let '(east, north, up) := basis lat lon in
  let az := atan2 (dot3 dir east) (dot3 dir north) in
  let az := if Rlt_dec az 0 then az + 2 * PI else az in
  Aer (asin (dot3 dir up)) az rng (dot3 (vminus tv ov) dir) (rng / c_m_per_s) Clear.

(** occultation.rs:17-44 *)
Definition line_of_sight_obstructed (observer target : vec) (r : R) : bool :=
  let d := vminus target observer in
  let f := observer in
  let a := dot3 d d in
  if reqb a 0 then rleb (norm f) r
  else let b := 2 * dot3 f d in
       let c := dot3 f f - r * r in
       let disc := b * b - 4 * a * c in
       if rltb disc 0 then false
       else let sd := sqrt disc in
            let t1 := (- b - sd) / (2 * a) in let t2 := (- b + sd) / (2 * a) in
            (rleb 0 t1 && rleb t1 1) || (rleb 0 t2 && rleb t2 1) || (rltb t1 0 && rltb 1 t2).

(** occultation.rs:88-106: the overlap of two discs of radii [r], [r2] at distance [d] *)
Definition lens (r r2 d : R) : R :=
  r * r * acos (clamp (-1) 1 ((d * d + r * r - r2 * r2) / (2 * d * r))) +
  r2 * r2 * acos (clamp (-1) 1 ((d * d + r2 * r2 - r * r) / (2 * d * r2))) -
  1 / 2 * sqrt (Rmax ((- d + r + r2) * (d + r - r2) * (d - r + r2) * (d + r + r2)) 0).
(** occultation.rs:71-74 *)
Definition separation (dt d_o : vec) : R := acos (clamp (-1) 1 (dot3 dt d_o / (norm dt * norm d_o))).
(** occultation.rs:51-108 *)
Definition occultation_fraction (observer target : vec) (target_radius : R) (occulter : vec) (occulter_radius : R) : R :=
  let d_t := vminus target observer in let d_o := vminus occulter observer in
  let nt := norm d_t in let no := norm d_o in
  if reqb nt 0 || reqb no 0 then 0
  else let app_t := atan (target_radius / nt) in let app_o := atan (occulter_radius / no) in
       let sep := separation d_t d_o in
       if rleb (app_t + app_o) sep then 0
       else if rleb (sep + app_t) app_o then 1
       else if rleb (sep + app_o) app_t then (app_o * app_o) / (app_t * app_t)
       else clamp 0 1 (lens app_t app_o sep / (PI * app_t * app_t)).

(** eclipse.rs:13-20 *)
Inductive eclipse := Sunlight | Penumbra | Umbra.
(** eclipse.rs:29-55 *)
Definition eclipse_state (sat sun : vec) (sun_radius : R) (occulter : vec) (occulter_radius : R) : eclipse :=
  let f := occultation_fraction sat sun sun_radius occulter occulter_radius in
  if rleb (1 - 1 / 1000000000) f then Umbra else if rltb 0 f then Penumbra else Sunlight.
(** eclipse.rs:58-73 *)
Definition solar_eclipsing (sat sun : vec) (sun_radius : R) (occulter : vec) (occulter_radius : R) : bool :=
  match eclipse_state sat sun sun_radius occulter occulter_radius with Sunlight => false | _ => true end.

(** terrain_mask.rs:22-29: the stable sort, then the reduction of each azimuth *)
Definition mask_new (samples : list (R * R)) : list (R * R) :=
  map (fun s => (rem_e (fst s) (2 * PI), snd s)) (isort (fun a b => rleb (fst a) (fst b)) samples).
(** terrain_mask.rs:49-50 *)
Definition mask_between (az a0 e0 a1 e1 : R) : R := e0 + (if Req_EM_T a1 a0 then 0 else (az - a0) / (a1 - a0)) * (e1 - e0).
(** terrain_mask.rs:40-52; the sample after the last is the first, a turn on *)
Fixpoint mask_scan (first : R * R) (l : list (R * R)) (az : R) : option R :=
  match l with
  | [] => None
  | (a0, e0) :: t =>
      let '(a1, e1) := match t with s :: _ => s | [] => (fst first + 2 * PI, snd first) end in
      if rleb a0 az && rleb az a1 then Some (mask_between az a0 e0 a1 e1) else mask_scan first t az
  end.
(** terrain_mask.rs:32-63 *)
Definition elevation_at (mask : list (R * R)) (azimuth : R) : R :=
  match mask with
  | [] => 0
  | first :: _ =>
      let az := rem_e azimuth (2 * PI) in
      match mask_scan first mask az with
      | Some e => e
      | None => let '(a0, e0) := last mask first in let '(a1, e1) := first in mask_between az (a0 - 2 * PI) e0 a1 e1
      end
  end.
(** terrain_mask.rs:67-69 *)
Definition clears (mask : list (R * R)) (azimuth elevation : R) : bool := rleb (elevation_at mask azimuth) elevation.

(** orbit_relative.rs:23-42: [expect] panics when the cross product of the two unit vectors has no
    direction *)
Definition beta_angle (pos vel sun : vec) : outcome R unit :=
  let h := cross (scale (/ norm pos) pos) (scale (/ norm vel) vel) in
  if reqb (norm h) 0 then Panic else Ok (asin (clamp (-1) 1 (dot3 (scale (/ norm h) h) sun))).
(** orbit_relative.rs:49-55 *)
Definition local_solar_time (sub_sat_lon sun_lon : R) : R :=
  let diff := rem_e (sub_sat_lon - sun_lon) (2 * PI) in rem_e (12 + diff * 24 / (2 * PI)) 24 * 3600.
(** orbit_relative.rs:64-68 *)
Definition ltan (raan sun_ra : R) : R :=
  let diff := rem_e (raan - sun_ra) (2 * PI) in rem_e (12 + diff * 24 / (2 * PI)) 24 * 3600.

(** fov.rs:10-24 *)
Inductive fov := Conical (half_angle : R) | Rectangular (across along : R).
(** fov.rs:37-52 *)
Definition contains_boresight (f : fov) (off_axis : R) : bool :=
  match f with
  | Conical h => rleb (Rabs off_axis) h
  | Rectangular across along => let half_x := across / 2 in let half_y := along / 2 in rleb (Rabs off_axis) (if Rle_dec half_x half_y then half_x else half_y)
  end.
