(** Perturbing forces on a satellite (src/astro/dynamics/forces, density.rs, src/pod/force/{thrust,low_thrust,
    empirical_periodic}.rs), over the reals: f64 rounding, NaN and infinities are not modelled, so every finiteness
    test passes. Vectors are triples; the units are those of the code (km, km/s, km/s^2). *)
From Coq Require Import List Reals Lra Bool.
From Verif Require Import Base Mat3 Ang Geom_Model.
From Verif Require Earth_Model.
Import ListNotations.
Local Open Scope R_scope.

(** [powf(1.5)] of a non-negative number *)
Definition pow15 (x : R) : R := x * sqrt x.
(** third_body.rs:23-46 *)
Definition battin (rs rb : vec) (mu : R) : vec :=
  let rb2 := dot3 rb rb in
  let rbn := sqrt rb2 in
  if reqb rbn 0 then (0, 0, 0) else
  let '(x, y, z) := rs in let '(bx, by_, bz) := rb in
  let q := (x * (x - 2 * bx) + y * (y - 2 * by_) + z * (z - 2 * bz)) / rb2 in
  let fq := q * (3 + q * (3 + q)) / (1 + pow15 (1 + q)) in
  let denom := rbn * rb2 * (1 + fq) in
  if reqb denom 0 then (0, 0, 0) else
  let s := - mu / denom in
  (s * (bx * fq + x), s * (by_ * fq + y), s * (bz * fq + z)).
(** third_body.rs:185-215: each body's position as the ephemeris answers it ([Err]: unavailable) and its GM *)
Fixpoint third_body_sum {E} (rs : vec) (total : vec) (bodies : list (outcome vec E * R)) : outcome vec E :=
  match bodies with
  | [] => Ok total
  | (Ok rb, mu) :: rest => third_body_sum rs (vplus total (battin rs rb mu)) rest
  | (Err e, _) :: _ => Err e
  | (Panic, _) :: _ => Panic
  end.
(** third_body.rs:180-216; [eph] is [Err] without an ephemeris in the context (182-184) *)
Definition third_body {E} (eph : outcome unit E) (rs : vec) (bodies : list (outcome vec E * R)) : outcome vec E :=
  match bodies with
  | [] => Ok (0, 0, 0)
  | _ => match eph with Ok _ => third_body_sum rs (0, 0, 0) bodies | Err e => Err e | Panic => Panic end
  end.

(** third_body.rs:48-84 (and srp.rs through it): the rotation applied to the ecliptic J2000 geocentric vector of the Sun
    or the Moon before it is called GCRS (precession.rs:312-314) *)
Definition body_rotation : mat := transpose (Earth_Model.mean_equatorial_to_ecliptic_of_date Earth_Model.j2000).

(** srp.rs:117-144 *)
Definition cylindrical (sat sun : vec) (re : R) : R :=
  let m := norm sun in
  if reqb m 0 then 1 else
  let h := scale (/ m) sun in
  let proj := dot3 sat h in
  if rleb 0 proj then 1 else
  let perp := vminus sat (scale proj h) in
  if rltb (dot3 perp perp) (re * re) then 0 else 1.
(** srp.rs:186-197: the part of the Sun's disc left uncovered when the discs partly overlap *)
Definition partial_factor (rs re th : R) : R :=
  let x := (th * th + rs * rs - re * re) / (2 * th) in
  let y := (th * th + re * re - rs * rs) / (2 * th) in
  let alpha := acos (clamp (-1) 1 (x / rs)) in
  let beta := acos (clamp (-1) 1 (y / re)) in
  let k := (rs + re + th) * (rs + re - th) * (th + rs - re) * (th - rs + re) in
  let t := sqrt (Rmax k 0) / 2 in
  let overlap := rs * rs * alpha + re * re * beta - t in
  clamp 0 1 (1 - overlap / (PI * rs * rs)).
(** srp.rs:177-198, from the three angles *)
Definition disc_factor (rs re th : R) : R :=
  if rleb (rs + re) th then 1
  else if rleb rs re && rleb th (re - rs) then 0
  else if rltb re rs && rleb th (rs - re) then 1 - (re / rs) ^ 2
  else partial_factor rs re th.
(** srp.rs:146-198 *)
Definition conical (sat sun : vec) (re_km rs_km : R) : R :=
  let d_earth := norm sat in
  if reqb d_earth 0 then 1 else
  let to_sun := vminus sun sat in
  let d_sun := norm to_sun in
  if reqb d_sun 0 then 1 else
  let rho_e := asin (Rmin (re_km / d_earth) 1) in
  let rho_s := asin (Rmin (rs_km / d_sun) 1) in
  let th := acos (clamp (-1) 1 (- dot3 sat to_sun / (d_earth * d_sun))) in
  disc_factor rho_s rho_e th.
(** forces/mod.rs:29-40; [au] is the astronomical unit in km, srp.rs:22 *)
Definition r_earth : R := 6378.137.
Definition p0 : R := 4.560 / 10 ^ 6.
Definition au : R := 149597870.7.
Definition r_sun_km : R := 695700.
(** srp.rs:208-244, given the Sun's geocentric position and the shadow factor *)
Definition srp (cr am : R) (shadow : vec -> vec -> R) (sat sun : vec) : vec :=
  let d := vminus sat sun in
  let r := norm d in
  if reqb r 0 then (0, 0, 0) else
  let nu := shadow sat sun in
  let mag := nu * cr * p0 * (au * au / (r * r)) * am / 1000 in
  let '(x, y, z) := d in let inv := 1 / r in
  (mag * x * inv, mag * y * inv, mag * z * inv).
(** srp.rs:66-93 *)
Definition no_eclipse (sat sun : vec) : R := 1.
Definition cylindrical_eclipse (sat sun : vec) : R := cylindrical sat sun r_earth.
Definition conical_eclipse (sat sun : vec) : R := conical sat sun r_earth r_sun_km.

(** density.rs:103-118, 131-148 *)
Inductive dyn_err := AltitudeBelowSurface (h : R) | AtmosphereProviderError | DegenerateGeometry.
Definition exponential (rho0 h0 hs : R) (h : R) : outcome R dyn_err :=
  if rltb h 0 then Err (AltitudeBelowSurface h) else Ok (rho0 * exp (- (h - h0) / hs)).
Definition constant_density (rho : R) (_ : R) : outcome R dyn_err := Ok rho.
(** density.rs:250-257: one bracket, log-linear *)
Definition bracket (e1 e2 : R * R) (h : R) : R :=
  let '(h1, r1) := e1 in let '(h2, r2) := e2 in
  let frac := (h - h1) / (h2 - h1) in exp (ln r1 + frac * (ln r2 - ln r1)).
Fixpoint scan (table : list (R * R)) (h : R) : R :=
  match table with
  | (h1, r1) :: (((h2, r2) :: _) as rest) =>
      if rleb h1 h && rleb h h2 then bracket (h1, r1) (h2, r2) h else scan rest h
  | [(_, r)] => r
  | [] => 0
  end.
(** density.rs:237-260. The table is in another crate: a parameter. Tables of fewer than two entries would panic in
    the code; here they give 0. *)
Definition interpolate (table : list (R * R)) (h : R) : R :=
  match table, rev table with
  | (h0, r0) :: _, (hn, rn) :: (hm, rm) :: _ =>
      if rleb h h0 then r0
      else if rleb hn h then bracket (hm, rm) (hn, rn) h
      else scan table h
  | _, _ => 0
  end.
Definition nrlmsise (table : list (R * R)) (h : R) : outcome R dyn_err :=
  if rltb h 0 then Err (AltitudeBelowSurface h) else Ok (interpolate table h).

(** density.rs:291-332 *)
Definition bowring_phi (a f p z beta : R) : R :=
  let b := a * (1 - f) in
  let e2 := 2 * f - f * f in
  let ep2 := (a * a - b * b) / (b * b) in
  atan2 (z + ep2 * b * sin beta ^ 3) (p - e2 * a * cos beta ^ 3).
Definition bowring_step (a f p z beta : R) : R :=
  let phi := bowring_phi a f p z beta in atan2 ((1 - f) * sin phi) (cos phi).
Definition geodetic_altitude (a f : R) (r : vec) : R :=
  let '(x, y, z) := r in
  let b := a * (1 - f) in
  let e2 := 2 * f - f * f in
  let p := sqrt (x * x + y * y) in
  let beta := atan2 (z * a) (p * b) in
  let beta := bowring_step a f p z (bowring_step a f p z (bowring_step a f p z beta)) in
  let phi := bowring_phi a f p z beta in
  let n := a / sqrt (1 - e2 * sin phi * sin phi) in
  if rltb (1 / 10 ^ 10) (Rabs (cos phi)) then p / cos phi - n
  else Rabs z / Rabs (sin phi) - n * (1 - e2).
Definition wgs84_f : R := 1 / 298.257223563.

(** drag.rs:75-108: [omega] is the public field omega_earth, of which only z is read (94) *)
Definition drag (cd am : R) (omega : vec) (density : R -> outcome R dyn_err) (pos vel : vec) : outcome vec dyn_err :=
  let h := geodetic_altitude r_earth wgs84_f pos in
  if rltb h 0 then Err (AltitudeBelowSurface h) else
  match density h with
  | Ok rho =>
      let '(rx, ry, _) := pos in let '(_, _, oz) := omega in let '(ux, uy, uz) := vel in
      let vx := ux - (- oz * ry) in let vy := uy - oz * rx in let vz := uz in
      let v := sqrt (vx * vx + vy * vy + vz * vz) * 1000 in
      let pre := - (1 / 2) * cd * am * rho * v in
      Ok (pre * vx, pre * vy, pre * vz)
  | Err e => Err e
  | Panic => Panic
  end.

(** relativity.rs:48-84; forces/mod.rs:33-34 *)
Definition degenerate_radius : R := 100.
Definition relativity (gm c : R) (pos vel : vec) : outcome vec dyn_err :=
  let '(rx, ry, rz) := pos in let '(vx, vy, vz) := vel in
  let r2 := rx * rx + ry * ry + rz * rz in
  let r := sqrt r2 in
  if rltb r degenerate_radius then Err DegenerateGeometry else
  let r3 := r2 * r in
  let v2 := vx * vx + vy * vy + vz * vz in
  let rdotv := rx * vx + ry * vy + rz * vz in
  let pre := gm / (c ^ 2 * r3) in
  let kr := 4 * gm / r - v2 in
  let kv := 4 * rdotv in
  Ok (pre * (kr * rx + kv * vx), pre * (kr * ry + kv * vy), pre * (kr * rz + kv * vz)).

(** empirical.rs:48-98 *)
Definition empirical (radial transverse normal : R) (pos vel : vec) : outcome vec dyn_err :=
  let r := norm pos in
  if reqb r 0 then Err DegenerateGeometry else
  let n := cross pos vel in
  let nn := norm n in
  if reqb nn 0 then Err DegenerateGeometry else
  let rh := scale (/ r) pos in
  let nh := scale (/ nn) n in
  let th := cross nh rh in
  Ok (vplus (vplus (scale radial rh) (scale transverse th)) (scale normal nh)).
(** empirical_periodic.rs:29-35, 113-122; a period that is not positive gives phase 0 *)
Inductive harmonic := OncePerRev | TwicePerRev.
Definition multiplier (h : harmonic) : R := match h with OncePerRev => 1 | TwicePerRev => 2 end.
Definition phase (h : harmonic) (epoch_ref period epoch : R) : R :=
  let dt := (epoch - epoch_ref) * 86400 in
  if rleb period 0 then 0 else multiplier h * (2 * PI / period) * dt.
(** empirical_periodic.rs:132-148; the RTN triad of the external crate is taken to be that of [empirical] *)
Definition empirical_periodic (h : harmonic) (epoch_ref period : R) (rc rs tc ts nc ns : R) (epoch : R) (pos vel : vec) : outcome vec dyn_err :=
  let th := phase h epoch_ref period epoch in
  empirical (rc * cos th + rs * sin th) (tc * cos th + ts * sin th) (nc * cos th + ns * sin th) pos vel.

(** thrust.rs:20-35; times are seconds on one uniform scale *)
Definition g0 : R := 9.80665.
Record arc := Arc { start : R; stop : R; thrust : R; isp : R; direction : vec }.
Inductive maneuver_err := InvalidDirection (d : vec) | NonPositiveIsp (i : R) | NonPositiveMass (m : R) | EmptyInterval (a b : R).
(** thrust.rs:61-96 *)
Definition with_normalised_direction (s e f i : R) (d : vec) : outcome arc maneuver_err :=
  if rleb i 0 then Err (NonPositiveIsp i)
  else if negb (rltb s e) then Err (EmptyInterval s e)
  else let m := norm d in
       if negb (rltb 0 m) then Err (InvalidDirection d)
       else Ok (Arc s e f i (scale (/ m) d)).
(** thrust.rs:98-101 *)
Definition is_active (a : arc) (t : R) : bool := rleb (start a) t && rltb t (stop a).
(** thrust.rs:108-124 *)
Definition thrust_acceleration (a : arc) (mass t : R) : outcome vec maneuver_err :=
  if rleb mass 0 then Err (NonPositiveMass mass)
  else if negb (is_active a t) then Ok (0, 0, 0)
  else Ok (scale (thrust a / mass) (direction a)).
(** thrust.rs:129-135 *)
Definition mass_flow_rate (f i : R) : outcome R maneuver_err :=
  if rleb i 0 then Err (NonPositiveIsp i) else Ok (f / (i * g0)).

(** low_thrust.rs:20-31, 60-67 *)
Record record := Record_ { wet_before : R; used : R; delta_v : R; duration : R }.
Record log := Log { mass : R; total_dv : R; total_used : R; records : list record }.
(** low_thrust.rs:75-87 *)
Definition try_new (m : R) : outcome log maneuver_err := if rleb m 0 then Err (NonPositiveMass m) else Ok (Log m 0 0 []).
(** low_thrust.rs:162-172 *)
Definition duration_seconds (a : arc) : outcome R maneuver_err :=
  let s := stop a - start a in if rleb s 0 then Err (EmptyInterval (start a) (stop a)) else Ok s.
(** low_thrust.rs:133-159: the log afterwards (unchanged on error) and the answer *)
Definition append (l : log) (a : arc) : log * outcome record maneuver_err :=
  match duration_seconds a with
  | Err e => (l, Err e) | Panic => (l, Panic)
  | Ok d =>
  match mass_flow_rate (thrust a) (isp a) with
  | Err e => (l, Err e) | Panic => (l, Panic)
  | Ok mdot =>
      let u := mdot * d in
      let after := mass l - u in
      if rleb after 0 then (l, Err (NonPositiveMass after))
      else let dv := isp a * g0 * ln (mass l / after) in
           let r := Record_ (mass l) u dv d in
           (Log after (total_dv l + dv) (total_used l + u) (records l ++ [r]), Ok r)
  end end.
(** appending arcs one after another, as a caller does; refused arcs leave the log as it was *)
Fixpoint append_all (l : log) (arcs : list arc) : log :=
  match arcs with [] => l | a :: rest => append_all (fst (append l a)) rest end.

(** geopotential.rs:57-108: [kernel] is the external spherical-harmonic routine in the Earth-fixed axes *)
Definition geopotential {E} (order : nat) (era : R) (kernel : vec -> outcome vec E) (pos : vec) : outcome vec E :=
  match order with
  | O => kernel pos
  | _ =>
      let s := sin era in let c := cos era in
      let '(x, y, z) := pos in
      match kernel (c * x + s * y, - s * x + c * y, z) with
      | Ok (ax, ay, az) => Ok (c * ax - s * ay, s * ax + c * ay, az)
      | Err e => Err e | Panic => Panic
      end
  end.
