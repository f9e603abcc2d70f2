(** Apparent places and changes of centre, over the reals (src/astro/{aberration,light_deflection}.rs,
    src/coordinates/observation/observational_direction.rs, src/coordinates/transform/centers/mod.rs,
    centers/position/to_bodycentric.rs, providers/{mod,centers_standard,centers_planetary,centers_lagrange}.rs,
    frames/to_horizontal.rs). f64 rounding is not modelled; ephemerides and rotation matrices are parameters. *)
From Coq Require Import Reals Bool Lra.
From Verif Require Import Mat3 Ang Geom_Model.
Local Open Scope R_scope.

(** aberration.rs:53-76. affn's [Direction::from_array] may or may not renormalise; C105_unit shows the
    vector handed to it already has length one. *)
Definition lorentz (u beta : vec) : vec :=
  let beta2 := dot3 beta beta in
  if reqb beta2 0 then u else
  let gamma := 1 / sqrt (1 - beta2) in
  let bu := dot3 beta u in
  scale (/ (1 + bu)) (vplus (scale (1 / gamma) u) (scale (1 + gamma / (gamma + 1) * bu) beta)).
(** aberration.rs:80-95; [c] is qtty's AU_PER_DAY_C *)
Definition apply_with_velocity (c : R) (u v : vec) : vec := lorentz u (scale (/ c) v).
Definition remove_with_velocity (c : R) (u v : vec) : vec := lorentz u (scale (-1) (scale (/ c) v)).
(** aberration.rs:136-175 for positions; [v] is the Earth's barycentric velocity at the date, turned to
    the equator (109-111, 121-123) *)
Definition at_distance (f : vec -> vec) (p : vec) : vec :=
  if reqb (norm p) 0 then p else scale (norm p) (f (scale (/ norm p) p)).
Definition apply_aberration (c : R) (v p : vec) : vec := at_distance (fun u => apply_with_velocity c u v) p.
Definition remove_aberration (c : R) (v p : vec) : vec := at_distance (fun u => remove_with_velocity c u v) p.

(** observational_direction.rs:135-157, 236-258; [m] turns frame F into EquatorialMeanJ2000 and its
    transpose turns back *)
Definition to_apparent (c : R) (m : mat) (v u : vec) : vec := apply (transpose m) (apply_with_velocity c (apply m u) v).
Definition to_astrometric (c : R) (m : mat) (v u : vec) : vec := apply (transpose m) (remove_with_velocity c (apply m u) v).
(** observational_direction.rs:111-132, 212-233; affn's conversions between angles and vectors are parameters *)
Definition sph_apparent {S} (cart : S -> vec) (sph : vec -> S) (c : R) (m : mat) (v : vec) (d : S) : S := sph (to_apparent c m v (cart d)).
Definition sph_astrometric {S} (cart : S -> vec) (sph : vec -> S) (c : R) (m : mat) (v : vec) (d : S) : S := sph (to_astrometric c m v (cart d)).

(** light_deflection.rs:56, 66, 74 *)
Definition solar_schwarzschild : R := 197412574336 / 10 ^ 19.
Definition jupiter_schwarzschild : R := solar_schwarzschild / (1047348644 / 10 ^ 6).
Definition saturn_schwarzschild : R := solar_schwarzschild / (34979018 / 10 ^ 4).
(** affn's [Direction::normalize] *)
Definition normalize (v : vec) : vec := scale (/ norm v) v.
(** light_deflection.rs:133-160; [q] runs from the body to the observer *)
Definition body_deflection (s q : vec) (rs : R) : vec :=
  let q_mag := norm q in
  if rltb q_mag (1 / 10 ^ 10) || rleb rs 0 then s else
  let qh := scale (/ q_mag) q in
  let sq := dot3 s qh in
  let denom := 1 + sq in
  if rltb (Rabs denom) (1 / 10 ^ 15) then s else
  let f := rs / q_mag / denom in
  normalize (vplus s (scale f (vminus qh (scale sq s)))).
(** light_deflection.rs:101-110, 176-204, 226-235 *)
Definition solar_deflection (s q : vec) : vec := body_deflection s q solar_schwarzschild.
Definition full_deflection (s sun jupiter saturn : vec) : vec :=
  body_deflection (body_deflection (solar_deflection s sun) jupiter jupiter_schwarzschild) saturn saturn_schwarzschild.
(** light_deflection.rs:258-271, before the conversion to arcseconds *)
Definition deflection_magnitude (angle dist : R) : R :=
  if rleb angle 0 || rleb dist 0 then 0 else
  let half := angle * (1 / 2) in
  solar_schwarzschild / dist * (cos half / Rmax (Rabs (sin half)) (1 / 10 ^ 10)).
(** light_deflection.rs:291-305 *)
Definition deflection_inverse (a q : vec) : vec := normalize (vminus (scale 2 a) (solar_deflection a q)).

(** coordinates/centers.rs and providers/mod.rs:42-47: the centres without parameters *)
Inductive lpoint := SEL1 | SEL2 | SEL3 | SEL4 | SEL5.
Inductive planet := Mercury | Venus | Mars | Jupiter | Saturn | Uranus | Neptune.
Inductive center := Bary | Helio | Geo | Planet (p : planet) | Pluto | Moon | Lagrange (l : lpoint).
(** What a context supplies at one date, in ecliptic axes and AU. [e_vsop] (VSOP87E) and [e_pluto] (the
    Keplerian orbit) do not come from the ephemeris of the context. [e_km] is AU per kilometre. *)
Record eph := Eph { e_sun : vec; e_earth : vec; e_moon_km : vec; e_km : R; e_vsop : planet -> vec; e_pluto : vec; e_lagrange : lpoint -> vec }.
Section Shifts.
  Variable e : eph.
  (** [FrameRotationProvider<EclipticMeanJ2000, F>] at the date *)
  Variable rot : mat.
  (** providers/mod.rs:178-186, 269-283 *)
  Definition negate (v : vec) : vec := scale (-1) v.
  Definition turned (v : vec) : vec := apply rot v.
  (** Centre to Barycentric: centers_standard.rs:27-39, 63-75; centers_planetary.rs:42-54, 77-102, 115-138;
      centers_lagrange.rs:16-29; identity: providers/mod.rs:125-142 *)
  Definition to_bary (c : center) : vec :=
    match c with
    | Bary => (0, 0, 0)
    | Helio => turned (e_sun e)
    | Geo => turned (e_earth e)
    | Planet p => turned (e_vsop e p)
    | Pluto => turned (vplus (e_pluto e) (e_sun e))
    | Moon => turned (vplus (scale (e_km e) (e_moon_km e)) (e_earth e))
    | Lagrange l => turned (e_lagrange e l)
    end.
  (** Barycentric to centre: [inverse_shift] (providers/mod.rs:190-198, 324-336, 400-412) *)
  Definition from_bary (c : center) : vec := match c with Bary => (0, 0, 0) | _ => negate (to_bary c) end.
  (** Heliocentric to centre: [compose_shift] (202-213, 338-350, 414-426; centers_standard.rs:95-107) *)
  Definition helio_to (c : center) : vec :=
    match c with Helio => (0, 0, 0) | Bary => to_bary Helio | _ => vplus (to_bary Helio) (from_bary c) end.
  (** Geocentric to centre (366-378; centers_standard.rs:109-121; the Moon's own: centers_planetary.rs:144-166) *)
  Definition geo_to (c : center) : vec :=
    match c with
    | Geo => (0, 0, 0)
    | Bary => to_bary Geo
    | Helio => negate (helio_to Geo)
    | Moon => turned (scale (-1) (scale (e_km e) (e_moon_km e)))
    | _ => vplus (to_bary Geo) (from_bary c)
    end.
  Definition planet_eqb (p q : planet) : bool :=
    match p, q with Mercury, Mercury | Venus, Venus | Mars, Mars | Jupiter, Jupiter | Saturn, Saturn | Uranus, Uranus | Neptune, Neptune => true | _, _ => false end.
  Definition lpoint_eqb (p q : lpoint) : bool :=
    match p, q with SEL1, SEL1 | SEL2, SEL2 | SEL3, SEL3 | SEL4, SEL4 | SEL5, SEL5 => true | _, _ => false end.
  Definition center_eqb (a b : center) : bool :=
    match a, b with
    | Bary, Bary | Helio, Helio | Geo, Geo | Pluto, Pluto | Moon, Moon => true
    | Planet p, Planet q => planet_eqb p q | Lagrange p, Lagrange q => lpoint_eqb p q | _, _ => false end.
  (** [center_shift_as] (496-507), one arm per impl; None: no impl, the call does not compile *)
  Definition shift (a b : center) : option vec :=
    match a, b with
    | Bary, _ => Some (from_bary b)
    | Helio, _ => Some (helio_to b)
    | Geo, _ => Some (geo_to b)
    | _, Bary => Some (to_bary a)
    | _, Helio => Some (negate (helio_to a))
    | _, Geo => Some (negate (geo_to a))
    | _, _ => if center_eqb a b then Some (0, 0, 0) else None
    end.
  (** centers/mod.rs:162-183; [k] is the number of position units in one AU *)
  Definition to_center (k : R) (a b : center) (p : vec) : option vec :=
    match shift a b with Some s => Some (vplus p (scale k s)) | None => None end.
End Shifts.

(** to_bodycentric.rs:58-224. [body] is where the orbit puts the body, in AU and ecliptic axes, about the
    centre [oc] (centers.rs:329-337: Bary, Helio or Geo); [dflt] is the default context, because
    [to_center(jd)] (88, 97, 145, 155, 203, 212) builds its own and [_ctx] is not used; the change of centre
    happens in ecliptic axes and [fr] (the static [to_frame]) turns the result into F. *)
Definition body_about (dflt : eph) (fr : mat) (k : R) (own oc : center) (body : vec) : option vec :=
  match to_center dflt identity k oc own (scale k body) with Some p => Some (apply fr p) | None => None end.
Definition to_bodycentric (dflt : eph) (fr : mat) (k : R) (own oc : center) (body p : vec) : option vec :=
  match body_about dflt fr k own oc body with Some b => Some (vminus p b) | None => None end.
(** to_bodycentric.rs:230-279 *)
Definition from_bodycentric (dflt : eph) (fr : mat) (k : R) (oc : center) (body p : vec) : option vec :=
  match body_about dflt fr k Geo oc body with Some b => Some (vplus p b) | None => None end.

(** to_horizontal.rs:70-96; [lst] is the mean sidereal time plus the longitude *)
Definition horizontal_angles (ra dec lst lat : R) : R * R :=
  let ha := rem_e (lst - ra) (2 * PI) in
  (asin (sin dec * sin lat + cos dec * cos lat * cos ha),
   atan2 (- cos dec * sin ha) (sin dec * cos lat - cos dec * cos ha * sin lat)).
(** to_horizontal.rs:109-136; None: a division by zero, NaN in the code *)
Definition equatorial_angles (alt az lst lat : R) : option (R * R) :=
  let sin_dec := sin alt * sin lat + cos alt * cos lat * cos az in
  let dec := asin sin_dec in
  if reqb (cos lat * cos dec) 0 then None else
  let cos_ha := (sin alt - sin lat * sin dec) / (cos lat * cos dec) in
  let sin_ha := - cos alt * sin az / cos dec in
  Some (rem_e (lst - atan2 sin_ha cos_ha) (2 * PI), dec).
(** to_horizontal.rs:148-176; the zero vector gives NaN (161) *)
Definition to_horizontal (lst lat : R) (p : vec) : option vec :=
  let '(x, y, z) := p in
  let r := norm p in
  if reqb r 0 then None else
  let '(alt, az) := horizontal_angles (atan2 (y / r) (x / r)) (asin (z / r)) lst lat in
  Some (r * cos alt * cos az, - r * cos alt * sin az, r * sin alt).
(** to_horizontal.rs:183-214 *)
Definition from_horizontal (lst lat : R) (p : vec) : option vec :=
  let '(x, y, z) := p in
  let r := norm p in
  if reqb r 0 then None else
  match equatorial_angles (asin (z / r)) (atan2 (- y / r) (x / r)) lst lat with
  | None => None
  | Some (ra, dec) => Some (r * cos dec * cos ra, r * cos dec * sin ra, r * sin dec)
  end.
