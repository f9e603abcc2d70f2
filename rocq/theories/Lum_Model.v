(** Lunar photometry (src/event/lunar/photometry.rs).  Inputs are [rnum]; the
    arithmetic on finite values is exact real arithmetic, [None] is NaN.  The
    result of an operation with an infinite phase angle follows IEEE: the
    exponent is minus infinity and the power is zero. *)
From Coq Require Import Reals Bool.
From Verif Require Import Base Noise_Model.
Local Open Scope R_scope.

(** [f64::to_degrees]. *)
Definition to_deg (x : R) : R := x * 180 / PI.
(** [MEAN_MOON_RADIUS], [MEAN_MOON_DISTANCE] (photometry.rs 39, 42), in kilometres. *)
Definition moon_radius : R := 17374 / 10.
Definition moon_distance : R := 384400.
(** [clamp(300, 1100)] (photometry.rs 59-61); NaN stays NaN. *)
Definition clamp_nm (w : rnum) : option R :=
  match w with
  | RF x => Some (if Rlt_dec x 300 then 300 else if Rlt_dec 1100 x then 1100 else x)
  | RInf true => Some 300
  | RInf false => Some 1100
  | RNaN => None
  end.
(** [lunar_full_moon_albedo_jones2013] (photometry.rs 58-64). *)
Definition full_albedo (w : rnum) : option R :=
  match clamp_nm w with Some l => Some (75 / 1000 + 65 / 1000 * ((l - 300) / 800)) | None => None end.
(** [lunar_phase_attenuation_jones2013] (photometry.rs 80-83). *)
Definition attenuation (p : rnum) : option R :=
  match p with
  | RF x => let a := to_deg (Rabs x) in Some (Rpower 10 (- (4 / 10) * (26 / 1000 * a + 4 / 1000000000 * a ^ 4)))
  | RInf _ => Some 0
  | RNaN => None
  end.
(** [lunar_albedo_jones2013] (photometry.rs 96-100). *)
Definition albedo (p w : rnum) : option R :=
  match full_albedo w, attenuation p with Some a, Some b => Some (a * b) | _, _ => None end.
(** [reflected_lunar_spectral_radiance_jones2013] (photometry.rs 120-138). *)
Definition radiance (irradiance w p d : rnum) : option R :=
  if negb (finite irradiance) || negb (finite d) || atmost0 d then None
  else match albedo p w with
       | None => None
       | Some alb =>
           let omega_over_pi := (moon_radius / rv d) ^ 2 in
           let distance_scale := (moon_distance / rv d) ^ 2 in
           Some (rv irradiance * omega_over_pi * alb * distance_scale)
       end.
