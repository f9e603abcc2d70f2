(** Stellar motion (src/astro/proper_motion.rs, Star::position_at of src/bodies/stars.rs).

    Floating-point numbers are taken as real numbers; not-a-number and infinite inputs are not modelled. A position is what is given to
    the constructor of the coordinate crate: right ascension and declination in degrees and a distance. That crate may fold the angles
    into others of the same direction. The conversions of its unit crate between km/s and astronomical units per year, and between
    light-years and astronomical units, are parameters. *)
From Coq Require Import Reals Bool.
From Verif Require Import Base Ang.
Local Open Scope R_scope.
Local Open Scope outcome_scope.

Record pos := Pos { p_ra : R; p_dec : R; p_dist : R }.
(** proper_motion.rs:57-62 *)
Inductive convention := MuAlpha | MuAlphaStar.
(** proper_motion.rs:82-91; degrees per Julian year *)
Record proper_motion := PM { pm_ra : R; pm_dec : R; pm_conv : convention }.
(** proper_motion.rs:105-111 *)
Inductive pm_err := PoleUndefined (dec : R).
Definition pres A := outcome A pm_err.
Definition rad (d : R) : R := d * (PI / 180).
Definition deg (r : R) : R := r * (180 / PI).
(** proper_motion.rs:52 *)
Definition cos_dec_epsilon : R := / 1000000000000.
(** proper_motion.rs:128-143 *)
Definition to_mu_alpha (c : convention) (rate dec : R) : pres R :=
  match c with
  | MuAlpha => Ok rate
  | MuAlphaStar => if Rle_dec (Rabs (cos (rad dec))) cos_dec_epsilon then Err (PoleUndefined dec) else Ok (rate / cos (rad dec))
  end.
(** proper_motion.rs:189-206 *)
Definition set_proper_motion_since_epoch (p : pos) (m : proper_motion) (jd epoch : R) : pres pos :=
  let t := (jd - epoch) / (36525 / 100) in
  rate <- to_mu_alpha (pm_conv m) (pm_ra m) (p_dec p) ;;
  Ok (Pos (p_ra p + rate * t) (p_dec p + pm_dec m * t) (p_dist p)).
Definition J2000 : R := 2451545.
(** proper_motion.rs:217-223 *)
Definition set_proper_motion_since_j2000 (p : pos) (m : proper_motion) (jd : R) : pres pos := set_proper_motion_since_epoch p m jd J2000.

(** proper_motion.rs:244-253: mas per year, mas per year, mas, km/s *)
Record space_motion := Space { mu_a : R; mu_d : R; parallax : R; radial : R }.
Definition mas (x : R) : R := x / 3600000 * (PI / 180).
Section Units.
Variables km_s au_ly : R.
(** proper_motion.rs:290-373 *)
Definition propagate_space_motion (p : pos) (m : space_motion) (jd epoch : R) : pres pos :=
  let d := rad (p_dec p) in
  let a := rad (p_ra p) in
  if Rle_dec (Rabs (cos d)) cos_dec_epsilon then Err (PoleUndefined (p_dec p))
  else
    let pi_rad := mas (parallax m) in
    if Rle_dec pi_rad 0 then Err (PoleUndefined (p_dec p))
    else
      let r := 1 / pi_rad in
      let v_alpha := mas (mu_a m) / cos d * r * cos d in
      let v_delta := mas (mu_d m) * r in
      let v_r := radial m * km_s in
      let vx := - sin a * v_alpha + - sin d * cos a * v_delta + cos d * cos a * v_r in
      let vy := cos a * v_alpha + - sin d * sin a * v_delta + cos d * sin a * v_r in
      let vz := 0 * v_alpha + cos d * v_delta + sin d * v_r in
      let dt := (jd - epoch) / (36525 / 100) in
      let x := r * cos d * cos a + dt * vx in
      let y := r * cos d * sin a + dt * vy in
      let z := r * sin d + dt * vz in
      let r' := sqrt (x * x + y * y + z * z) in
      if Rle_dec r' 0 then Err (PoleUndefined (p_dec p))
      else Ok (Pos (deg (rem_e (atan2 y x) (2 * PI))) (deg (asin (z / r'))) r').
(** proper_motion.rs:379-385 *)
Definition propagate_since_j2000 (p : pos) (m : space_motion) (jd : R) : pres pos := propagate_space_motion p m jd J2000.

(** the parts of a star that its place depends on: bodies/stars.rs:59-84; the distance in light-years *)
Record star := Star { s_ra : R; s_dec : R; s_ly : R; s_motion : option proper_motion; s_parallax : option R; s_radial : option R }.
(** bodies/stars.rs:164-214 *)
Definition star_position_at (s : star) (jd : R) : pres pos :=
  let p := Pos (s_ra s) (s_dec s) (s_ly s * au_ly) in
  match s_parallax s, s_radial s, s_motion s with
  | Some plx, Some rv, Some m =>
      let dec_mas := pm_dec m * 3600000 in
      let ra_mas := match pm_conv m with MuAlphaStar => pm_ra m * 3600000 | MuAlpha => pm_ra m * 3600000 * cos (rad (s_dec s)) end in
      propagate_since_j2000 p (Space ra_mas dec_mas plx rv) jd
  | _, _, Some m => set_proper_motion_since_j2000 p m jd
  | _, _, None => Ok p
  end.
(** bodies/stars.rs:218-222 *)
Definition has_full_space_motion (s : star) : bool :=
  match s_parallax s with Some _ => true | None => false end && match s_radial s with Some _ => true | None => false end &&
  match s_motion s with Some _ => true | None => false end.
End Units.
