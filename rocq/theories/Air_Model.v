(** Air: the standard atmosphere (src/bodies/aircraft/isa.rs), dead reckoning (src/bodies/aircraft/inner.rs), airmass,
    scattering depth, transmission and airglow (src/atmosphere/{airmass,rayleigh,mie,profile,extinction,airglow}.rs).
    Over the reals; [powf] is [Rpower], used only where its base is positive. *)
From Coq Require Import Reals List.
From Verif Require Import Base Geom_Model.
Local Open Scope R_scope.

(** isa.rs:47-75 *)
Definition p0 : R := 101325.
Definition t0 : R := 28815 / 100.
Definition t_tropo : R := 21665 / 100.
Definition lapse : R := - (65 / 10000).
Definition h_tropo : R := 11000.
Definition molar : R := 289644 / 10000000.
Definition gas : R := 8314462618 / 1000000000.
Definition g0 : R := 980665 / 100000.
Definition r_earth : R := 6356766.
Definition exp_trop : R := g0 * molar / (gas * - lapse).
(** isa.rs:82-85 *)
Definition p_tropo : R := p0 * Rpower (1 + lapse * h_tropo / t0) exp_trop.
(** isa.rs:118-130 *)
Definition pressure_at_altitude (h : R) : R :=
  if Rle_dec h h_tropo then p0 * Rpower (1 + lapse * h / t0) exp_trop
  else p_tropo * exp (- g0 * molar * (h - h_tropo) / (gas * t_tropo)).
(** isa.rs:156-170 *)
Definition pressure_altitude (p : R) : R :=
  if Rle_dec p_tropo p then t0 / lapse * (Rpower (p / p0) (1 / exp_trop) - 1)
  else h_tropo - gas * t_tropo / (g0 * molar) * ln (p / p_tropo).
(** isa.rs:196-204 *)
Definition temperature_at_altitude (h : R) : R := if Rle_dec h h_tropo then t0 + lapse * h else t_tropo.
(** isa.rs:232-235, 260-263 *)
Definition geopotential_altitude (z : R) : R := r_earth * z / (r_earth + z).
Definition geometric_altitude (hp : R) : R := r_earth * hp / (r_earth - hp).

(** inner.rs:162-171, 281-286; angles in degrees, lengths in metres, epoch as a Julian date. The position is made by a
    constructor of an external crate; what is modelled is what it is given *)
Record aircraft := Aircraft { lon : R; lat : R; height : R; ground_speed : R; track_angle : R; vertical_rate : R }.
Definition deg (x : R) : R := x * (PI / 180).
(** inner.rs:308-349 *)
Definition track (s : aircraft) (epoch jd : R) : aircraft :=
  let dt := (jd - epoch) * 86400 in
  let ds := ground_speed s * dt in
  let dlat := ds * cos (deg (track_angle s)) / 6371000 * (180 / PI) in
  let cos_lat := Rmax (cos (deg (lat s))) (1 / 1000000000) in
  let dlon := ds * sin (deg (track_angle s)) / (6371000 * cos_lat) * (180 / PI) in
  let dalt := vertical_rate s * dt in
  Aircraft (lon s + dlon) (lat s + dlat) (height s + dalt) (ground_speed s) (track_angle s) (vertical_rate s).

(** airmass.rs:62-124 *)
Definition plane_parallel (z : R) : R := 1 / cos z.
Definition young (z : R) : R :=
  let c := cos z in
  let num := 1002432 / 1000000 * c * c + 148386 / 1000000 * c + 96467 / 10000000 in
  let den := c * c * c + 149864 / 1000000 * c * c + 102963 / 10000000 * c + 303978 / 1000000000 in
  num / den.
Definition rozenberg (z : R) : R := let c := cos z in 1 / (c + 25 / 1000 * exp (- 11 * c)).
Definition krisciunas_schaefer (z : R) : R := let s := sin z in Rpower (1 - 96 / 100 * s * s) (- (1 / 2)).

(** rayleigh.rs:47-49, 73-101 *)
Definition rayleigh_tau_sea (l2 : R) : R :=
  let inv_l2 := 1 / l2 in
  2152 / 1000000 * (10455996 / 10000000 - 34129061 / 100000 * inv_l2 - 90230850 / 100000000 * l2) / (1 + 27059889 / 10000000000 * inv_l2 - 85968563 / 1000000 * l2).
Definition rayleigh_optical_depth (nm pressure altitude scale : R) : R :=
  let lam := nm / 1000 in
  let p_atm := pressure / (101325 / 100) in
  p_atm * rayleigh_tau_sea (lam * lam) * exp (- altitude / scale).
Definition rayleigh_phase (theta : R) : R := let c := cos theta in 3 / (16 * PI) * (1 + c * c).
(** mie.rs:55-65, 197-200 *)
Record mie_params := Mie { tau0 : R; alpha : R; lambda_ref : R }.
Definition mie_optical_depth (m : mie_params) (nm : R) : R := tau0 m * Rpower (nm / lambda_ref m) (alpha m).
(** extinction.rs:34-36 *)
Definition transmission (tau x : R) : R := exp (- tau * x).
(** profile.rs:59-129 *)
Record profile := Profile { surface_pressure : R; observer_altitude : R; scale_height : R; mie : mie_params }.
Definition optical_depth (a : profile) (nm : R) : R :=
  rayleigh_optical_depth nm (surface_pressure a) (observer_altitude a) (scale_height a) + mie_optical_depth (mie a) nm.
Definition profile_transmission (a : profile) (nm x : R) : R := transmission (optical_depth a nm) x.
Definition paranal : profile := Profile 744 (2635 / 1000) 8 (Mie (5 / 100) (- (138 / 100)) 550).

(** airglow.rs:59-78, for finite arguments; None is NaN, Some None infinity *)
Definition van_rhijn (z h r : R) : option (option R) :=
  if Rle_dec h 0 then None else if Rle_dec r 0 then None
  else
    let ratio := r / (r + h) in
    let s := sin z in
    let inner := 1 - (ratio * s) * (ratio * s) in
    Some (if Rle_dec inner 0 then None else Some (/ sqrt inner)).
