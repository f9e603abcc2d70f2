(** Positions on Keplerian orbits (src/astro/conic_equations.rs,
    src/astro/orbit.rs, src/astro/units.rs).

    Exact reals. The solver of Kepler's equation lives in another crate and is
    a parameter [solve mean_anomaly eccentricity]. Angles given in degrees are
    turned into radians where the code does. *)
From Coq Require Import Reals.
From Verif Require Import Base Ang.
Local Open Scope R_scope.

Definition vec3 : Type := R * R * R.
(** Degrees to radians. *)
Definition rad (d : R) : R := d * PI / 180.

(** [GAUSSIAN_GRAVITATIONAL_CONSTANT] (conic_equations.rs 36). *)
Definition gauss_k : R := 1720209895 / 10 ^ 11.
(** [heliocentric_period_days] (units.rs 108-113): a^1.5 Gaussian years of
    365.256898326 days. *)
Definition period_days (a : R) : R := a * sqrt a * (365256898326 / 10 ^ 9).
(** [mu_to_au3_d2] (conic_equations.rs 46-50). *)
Definition mu_to_au3_d2 (mu : R) : R := mu * (86400 * 86400) / (1495978707 / 10 * (1495978707 / 10) * (1495978707 / 10)).

(** [OrientationTrig] (orbit.rs 189-196) and its constructor (224-236). *)
Record trig := { t_sin_i : R; t_cos_i : R; t_sin_w : R; t_cos_w : R; t_sin_n : R; t_cos_n : R }.
Definition trig_of (inc argp node : R) : trig :=
  {| t_sin_i := sin (rad inc); t_cos_i := cos (rad inc); t_sin_w := sin (rad argp); t_cos_w := cos (rad argp); t_sin_n := sin (rad node); t_cos_n := cos (rad node) |}.

(** [rotate_to_ecliptic_precomputed] (conic_equations.rs 79-96). *)
Definition rotate_precomputed (r : R) (t : trig) (nu : R) : vec3 :=
  let sin_nu := sin nu in let cos_nu := cos nu in
  let sin_u := t_sin_w t * cos_nu + t_cos_w t * sin_nu in
  let cos_u := t_cos_w t * cos_nu - t_sin_w t * sin_nu in
  (r * (t_cos_n t * cos_u - t_sin_n t * sin_u * t_cos_i t),
   r * (t_sin_n t * cos_u + t_cos_n t * sin_u * t_cos_i t),
   r * sin_u * t_sin_i t).
(** [rotate_to_ecliptic] (conic_equations.rs 99-118). *)
Definition rotate (r inc argp node nu : R) : vec3 :=
  let sin_i := sin (rad inc) in let cos_i := cos (rad inc) in
  let u := rad argp + nu in
  let sin_u := sin u in let cos_u := cos u in
  let sin_n := sin (rad node) in let cos_n := cos (rad node) in
  (r * (cos_n * cos_u - sin_n * sin_u * cos_i), r * (sin_n * cos_u + cos_n * sin_u * cos_i), r * sin_u * sin_i).

(** [(s1 * (E/2).tan() / s2).atan()]. The f64 tangent is finite and huge next to its
    pole, where the arctangent gives a quarter turn; the exact pole takes that
    limit here. *)
Definition atan_tan (s1 s2 half : R) : R := if Req_EM_T (cos half) 0 then PI / 2 else atan (s1 * tan half / s2).
(** [elliptic_true_anomaly_and_radius] (conic_equations.rs 123-134). *)
Definition elliptic (ea e a : R) : R * R := (2 * atan_tan (sqrt (1 + e)) (sqrt (1 - e)) (ea * / 2), a * (1 - e * cos ea)).

(** [KeplerianOrbit] (orbit.rs 73-80): degrees and days. *)
Record orbit := { o_a : R; o_e : R; o_inc : R; o_node : R; o_argp : R; o_m0 : R; o_epoch : R }.

(** [PreparedOrbit] (orbit.rs 269-278) and [from_validated] (330-343). *)
Record prepared := { p_orbit : orbit; p_n : R; p_m0 : R; p_trig : trig }.
Definition prepare (o : orbit) : prepared :=
  {| p_orbit := o; p_n := 2 * PI / period_days (o_a o); p_m0 := rad (o_m0 o); p_trig := trig_of (o_inc o) (o_argp o) (o_node o) |}.

Section Solver.
Variable solve : R -> R -> R.

(** [calculate_prepared_position] (conic_equations.rs 324-341). *)
Definition prepared_position (p : prepared) (jd : R) : vec3 :=
  let m := rem_t (p_m0 p + p_n p * (jd - o_epoch (p_orbit p))) (2 * PI) in
  let e := o_e (p_orbit p) in
  let (nu, r) := elliptic (solve m e) e (o_a (p_orbit p)) in
  rotate_precomputed r (p_trig p) nu.
(** [KeplerianOrbit::kepler_position] (conic_equations.rs 298-300). *)
Definition kepler_position (o : orbit) (jd : R) : vec3 := prepared_position (prepare o) jd.
(** The common part of [calculate_orbit_position] (conic_equations.rs 231-254)
    and [calculate_orbit_position_with_mu] (263-288), given the mean motion. *)
Definition position_at_rate (o : orbit) (n jd : R) : vec3 :=
  let m := rem_t (rad (o_m0 o) + n * (jd - o_epoch o)) (2 * PI) in
  let (nu, r) := elliptic (solve m (o_e o)) (o_e o) (o_a o) in
  rotate r (o_inc o) (o_argp o) (o_node o) nu.
Definition orbit_position (o : orbit) (jd : R) : vec3 := position_at_rate o (2 * PI / period_days (o_a o)) jd.
Definition orbit_position_with_mu (o : orbit) (jd mu : R) : vec3 := position_at_rate o (sqrt (mu_to_au3_d2 mu / (o_a o * o_a o * o_a o))) jd.

(** [calculate_mean_motion_position] (conic_equations.rs 138-157): the mean
    motion is in degrees per day and the mean anomaly is zero at the epoch. *)
Definition mean_motion_position (o : orbit) (deg_per_day jd : R) : vec3 :=
  let m := rem_e (rad deg_per_day * (jd - o_epoch o)) (2 * PI) in
  let (nu, r) := elliptic (solve m (o_e o)) (o_e o) (o_a o) in
  rotate_precomputed r (trig_of (o_inc o) (o_argp o) (o_node o)) nu.

(** [ConicOrbit] (conic.rs 190-196): here [o_a] is the periapsis distance. The
    kind is that of the eccentricity. *)
Inductive conic_err := ParabolicUnsupported | HyperbolicSolverFailed.
(** The hyperbolic solver may fail. *)
Variable solve_h : R -> R -> option R.
(** Radius and true anomaly on a hyperbola (conic_equations.rs 194-197). *)
Definition hyperbolic (h e a : R) : R * R :=
  (2 * atan2 (sqrt (e + 1) * sinh (h * / 2)) (sqrt (e - 1) * cosh (h * / 2)), a * (e * cosh h - 1)).
(** [calculate_conic_position] (conic_equations.rs 160-203). *)
Definition conic_position (o : orbit) (jd : R) : outcome vec3 conic_err :=
  let q := o_a o in let e := o_e o in let t := trig_of (o_inc o) (o_argp o) (o_node o) in
  if Rlt_dec e 1 then
    let a := q / (1 - e) in
    let n := gauss_k / (a * sqrt a) in
    let m := rem_e (rad (o_m0 o) + n * (jd - o_epoch o)) (2 * PI) in
    let (nu, r) := elliptic (solve m e) e a in Ok (rotate_precomputed r t nu)
  else if Rlt_dec 1 e then
    let a := q / (e - 1) in
    let n := gauss_k / (a * sqrt a) in
    let m := rad (o_m0 o) + n * (jd - o_epoch o) in
    match solve_h m e with
    | None => Err HyperbolicSolverFailed
    | Some h => let (nu, r) := hyperbolic h e a in Ok (rotate_precomputed r t nu)
    end
  else Err ParabolicUnsupported.
End Solver.
