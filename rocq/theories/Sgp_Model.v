(** Propagation of two-line elements (src/astro/sgp4), over the reals: f64 rounding, NaN and infinities are not
    modelled, so every finiteness test passes. *)
From Coq Require Import ZArith Reals Lra Bool.
From Verif Require Import Base Mat3 Ang Geom_Model.
From Verif Require Conic_Model.
Local Open Scope R_scope.

(** propagator.rs:39-67 *)
Inductive gravity_model := Wgs72 | Wgs72Iau | Wgs84.
Record constants := Constants { k_mu : R; k_radius : R; k_j2 : R }.
Definition constants_of (m : gravity_model) : constants :=
  match m with
  | Wgs72 | Wgs72Iau => Constants 398600.8 6378.135 1.082616e-3
  | Wgs84 => Constants 398600.5 6378.137 1.08262998905e-3
  end.
(** the numbers of a two-line element set; angles in degrees, mean motion in revolutions a day; [t_year] is the
    calendar year of the epoch *)
Record tle := Tle { t_epoch : R; t_year : Z; t_inc : R; t_raan : R; t_ecc : R; t_argp : R; t_anomaly : R; t_motion : R; t_dot : R; t_ddot : R; t_bstar : R }.
(** elements.rs:20-32 *)
Record elements := Elements { e_epoch : R; e_inc : R; e_raan : R; e_ecc : R; e_argp : R; e_anomaly : R; e_motion : R; e_dot : R; e_ddot : R; e_bstar : R }.
Inductive sgp_err := InvalidEpoch | BadEccentricity | BadMotion | BadMeanMotion | BadPerigee | MotionLost | BadRectum | NoKepler.
(** elements.rs:35-69 *)
Definition tle_to_elements (t : tle) : outcome elements sgp_err :=
  if (t_year t <? 1950)%Z then Err InvalidEpoch
  else if negb (rleb 0 (t_ecc t) && rltb (t_ecc t) 1) then Err BadEccentricity
  else if rleb (t_motion t) 0 then Err BadMotion
  else Ok (Elements (t_epoch t) (Conic_Model.rad (t_inc t)) (Conic_Model.rad (t_raan t)) (t_ecc t) (Conic_Model.rad (t_argp t)) (Conic_Model.rad (t_anomaly t))
             (t_motion t) (t_dot t) (t_ddot t) (t_bstar t)).
(** propagator.rs:390-396 *)
Definition mean_motion_rad_s (e : elements) (dt : R) : R :=
  let rev := e_motion e + e_dot e * dt + 0.5 * e_ddot e * dt * dt - 1e-5 * e_bstar e * Rabs dt in
  rev * (2 * PI) / 86400.
(** [f64::cbrt] of a positive number *)
Definition cbrt (x : R) : R := Rpower x (1 / 3).
(** propagator.rs:398-400 *)
Definition semi_major_axis (mu n : R) : R := cbrt (mu / (n * n)).
(** propagator.rs:300-318 *)
Definition validate (e : elements) (k : constants) : outcome unit sgp_err :=
  let n := mean_motion_rad_s e 0 in
  if rleb n 0 then Err BadMeanMotion else
  let a := semi_major_axis (k_mu k) n in
  if rleb (a * (1 - e_ecc e)) 0 then Err BadPerigee else Ok tt.
(** propagator.rs:102-108, 134-164 *)
Record propagator := Propagator { p_constants : constants; p_elements : elements; p_model : gravity_model; p_epoch : R }.
Definition from_tle_with_model (t : tle) (m : gravity_model) : outcome propagator sgp_err :=
  match tle_to_elements t with
  | Ok e => match validate e (constants_of m) with
            | Ok _ => Ok (Propagator (constants_of m) e m (e_epoch e))
            | Err x => Err x
            | Panic => Panic
            end
  | Err x => Err x
  | Panic => Panic
  end.
Definition from_tle (t : tle) : outcome propagator sgp_err := from_tle_with_model t Wgs72.

(** propagator.rs:402-423 *)
Fixpoint newton (fuel : nat) (m ecc x : R) : option R :=
  match fuel with
  | O => None
  | S fuel =>
    let f := x - ecc * sin x - m in
    let fp := 1 - ecc * cos x in
    if rltb (Rabs fp) 1e-14 then None else
    let step := f / fp in
    let x := x - step in
    if rltb (Rabs step) 1e-13 then Some x else newton fuel m ecc x
  end.
Definition solve_kepler (m ecc : R) : outcome R sgp_err :=
  match newton 32 m ecc (if rltb ecc 0.8 then m else PI) with Some x => Ok x | None => Err NoKepler end.
(** propagator.rs:425-451 *)
Definition rotate (v : R * R) (raan inc argp : R) : vec :=
  let sin_o := sin raan in let cos_o := cos raan in
  let sin_i := sin inc in let cos_i := cos inc in
  let sin_w := sin argp in let cos_w := cos argp in
  let r11 := cos_o * cos_w - sin_o * sin_w * cos_i in
  let r12 := - cos_o * sin_w - sin_o * cos_w * cos_i in
  let r21 := sin_o * cos_w + cos_o * sin_w * cos_i in
  let r22 := - sin_o * sin_w + cos_o * cos_w * cos_i in
  let r31 := sin_w * sin_i in
  let r32 := cos_w * sin_i in
  let '(x, y) := v in (r11 * x + r12 * y, r21 * x + r22 * y, r31 * x + r32 * y).
(** propagator.rs:320-388 *)
Definition propagate_native (e : elements) (k : constants) (minutes : R) : outcome (vec * vec) sgp_err :=
  let days := minutes / 1440 in
  let seconds := minutes * 60 in
  let n := mean_motion_rad_s e days in
  if rleb n 0 then Err MotionLost else
  let a := semi_major_axis (k_mu k) n in
  let ecc := e_ecc e in
  let one_minus_e2 := 1 - ecc * ecc in
  let p := a * one_minus_e2 in
  if rleb p 0 then Err BadRectum else
  let j2_factor := k_j2 k * (k_radius k / p) * (k_radius k / p) in
  let cos_i := cos (e_inc e) in
  let raan_dot := -1.5 * j2_factor * n * cos_i in
  let argp_dot := 0.75 * j2_factor * n * (5 * cos_i * cos_i - 1) in
  let mean_dot := 0.75 * j2_factor * n * sqrt one_minus_e2 * (3 * cos_i * cos_i - 1) in
  let raan := e_raan e + raan_dot * seconds in
  let argp := e_argp e + argp_dot * seconds in
  let phase := 2 * PI * (e_motion e * days + 0.5 * e_dot e * days * days + e_ddot e * days * days * days / 6) in
  let m := rem_e (e_anomaly e + phase + mean_dot * seconds) (2 * PI) in
  match solve_kepler m ecc with
  | Ok x =>
    let sin_e := sin x in let cos_e := cos x in
    let edot := n / (1 - ecc * cos_e) in
    let root := sqrt one_minus_e2 in
    Ok (rotate (a * (cos_e - ecc), a * root * sin_e) raan (e_inc e) argp,
        rotate (- a * sin_e * edot, a * root * cos_e * edot) raan (e_inc e) argp)
  | Err x => Err x
  | Panic => Panic
  end.
(** propagator.rs:233-243, 269-291, 457-464; a state is its epoch, position and velocity *)
Definition propagate_internal (p : propagator) (minutes target : R) : outcome (R * (vec * vec)) sgp_err :=
  match propagate_native (p_elements p) (p_constants p) minutes with Ok s => Ok (target, s) | Err x => Err x | Panic => Panic end.
Definition propagate_at (p : propagator) (jd : R) : outcome (R * (vec * vec)) sgp_err :=
  propagate_internal p ((jd - p_epoch p) * 1440) jd.
Definition propagate_minutes (p : propagator) (minutes : R) : outcome (R * (vec * vec)) sgp_err :=
  propagate_internal p minutes (p_epoch p + minutes / 1440).
