(** The short lunar series (src/event/lunar/meeus_ch47.rs), the place of the
    Sun (src/event/solar/sun_equations.rs) and the change of frame of a velocity
    (src/coordinates/transform/frames/velocity.rs), over the reals; rounding is
    not modelled. *)
From Coq Require Import Reals.
From Verif Require Import Base Mat3 Ang Geom_Model Moon_Model Earth_Model Horiz_Model.
Local Open Scope R_scope.

(** [f64::to_radians] *)
Definition rad (x : R) : R := x * (PI / 180).
(** meeus_ch47.rs:61-75, the five mean elements in degrees, before the remainder *)
Definition el_l (t : R) : R := 218.3164477 + 481267.88123421 * t - 0.0015786 * t * t + t * t * t / 538841 - t * t * t * t / 65194000.
Definition el_d (t : R) : R := 297.8501921 + 445267.1114034 * t - 0.0018819 * t * t + t * t * t / 545868 - t * t * t * t / 113065000.
Definition el_m (t : R) : R := 357.5291092 + 35999.0502909 * t - 0.0001536 * t * t + t * t * t / 24490000.
Definition el_mp (t : R) : R := 134.9633964 + 477198.8675055 * t + 0.0087414 * t * t + t * t * t / 69699 - t * t * t * t / 14712000.
Definition el_f (t : R) : R := 93.2720950 + 483202.0175233 * t - 0.0036539 * t * t - t * t * t / 3526000 + t * t * t * t / 863310000.
(** meeus_ch47.rs:82-100, of the arguments in radians *)
Definition sum_l (d m mp f : R) : R :=
  6288774 * sin mp + 1274027 * sin (2 * d - mp) + 658314 * sin (2 * d) + 213618 * sin (2 * mp) - 185116 * sin m - 114332 * sin (2 * f).
Definition sum_b (d mp f : R) : R := 5128122 * sin f + 280602 * sin (mp + f) + 277693 * sin (mp - f) + 173237 * sin (2 * d - f).
Definition sum_r (d mp : R) : R := - 20905355 * cos mp - 3699111 * cos (2 * d - mp) - 2955968 * cos (2 * d) - 569925 * cos (2 * mp).
(** meeus_ch47.rs:32-46 *)
Record moon := { m_ra : R; m_dec : R; m_dist : R; m_lon : R; m_lat : R }.
(** meeus_ch47.rs:77-122, of the elements after the remainder and the obliquity *)
Definition moon_of (lp d m mp f eps : R) : moon :=
  let d := rad d in let m := rad m in let mp := rad mp in let f := rad f in
  let lon := rem_e (rad (lp + sum_l d m mp f / 1000000)) (2 * PI) in
  let lat := rad (sum_b d mp f / 1000000) in
  {| m_ra := rem_e (atan2 (sin lon * cos eps - tan lat * sin eps) (cos lon)) (2 * PI);
     m_dec := asin (clamp1 (sin lat * cos eps + cos lat * sin eps * sin lon));
     m_dist := 385000.56 + sum_r d mp / 1000;
     m_lon := lon; m_lat := lat |}.
(** meeus_ch47.rs:57-122 *)
Definition moon_position (jd : R) : moon :=
  let t := centuries jd in
  moon_of (rem_t (el_l t) 360) (rem_t (el_d t) 360) (rem_t (el_m t) 360) (rem_t (el_mp t) 360) (rem_t (el_f t) 360) (mean_obliquity jd).

(** * The Sun *)
(** sun_equations.rs:86-91, 114-121, 186-189: the origin of the heliocentric frame seen from the Earth; [e] is the
    heliocentric ecliptic position of the Earth that the centre shift subtracts *)
Definition sun_ecliptic (e : vec) : vec := vminus (0, 0, 0) e.
Definition sun_mean_equatorial (e : vec) : vec := apply ecl_to_eq (sun_ecliptic e).
(** affn's [from_cartesian] as in [apparent_topocentric]: azimuth, polar, distance *)
Definition spherical_of (v : vec) : R * R * R :=
  let '(x, y, z) := v in let r := sqrt (x * x + y * y + z * z) in (atan2 y x, asin (z / r), r).
(** sun_equations.rs:80-101; the nutation angles are parameters *)
Definition sun_apparent_vector (jd dpsi deps : R) (e : vec) : vec := apply (precession_nutation jd dpsi deps) (sun_mean_equatorial e).
Definition sun_apparent (jd dpsi deps : R) (e : vec) : R * R * R := spherical_of (sun_apparent_vector jd dpsi deps e).
(** sun_equations.rs:185-195 *)
Definition sun_longitude (e : vec) : R := fst (fst (spherical_of (sun_ecliptic e))).

(** * Velocities *)
(** the three frames of velocity.rs *)
Inductive vframe := Ecliptic | Equatorial | Icrs.
(** velocity.rs:34-106: one [to_frame] for every pair; the two between the ecliptic and ICRS go through the equator *)
Definition to_frame (a b : vframe) (v : vec) : vec :=
  match a, b with
  | Ecliptic, Ecliptic | Equatorial, Equatorial | Icrs, Icrs => v
  | Ecliptic, Equatorial => apply ecl_to_eq v
  | Equatorial, Ecliptic => apply eq_to_ecl v
  | Icrs, Equatorial => apply bias v
  | Equatorial, Icrs => apply (transpose bias) v
  | Ecliptic, Icrs => apply (transpose bias) (apply ecl_to_eq v)
  | Icrs, Ecliptic => apply eq_to_ecl (apply bias v)
  end.
