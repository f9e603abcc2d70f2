(** Correction policies and the providers of altitude and azimuth:
    src/astro/apparent.rs, src/event/altitude/provider.rs, src/event/azimuth/provider.rs.

    Angles are real numbers in radians, times exact rationals. What the Sun, the Moon and the planets
    show, and the matrix and the sidereal time of a date, are parameters. *)
From Coq Require Import List NArith ZArith QArith Bool Reals.
From Verif Require Import Qb Ang Mat3 Horiz_Model Cross_Model Sweep_Model Azim_Model.
Import ListNotations.

(** apparent.rs [CorrectionPolicy]: the bits of a u8 *)
Definition GEOMETRIC : N := 0.
Definition PROPER_MOTION : N := N.shiftl 1 0.
Definition LIGHT_TIME : N := N.shiftl 1 1.
Definition ABERRATION : N := N.shiftl 1 2.
Definition LIGHT_DEFLECTION : N := N.shiftl 1 3.
Definition APPARENT : N := N.lor (N.lor (N.lor PROPER_MOTION LIGHT_TIME) ABERRATION) LIGHT_DEFLECTION.
(** apparent.rs [contains], [union], [bitor] *)
Definition contains (a b : N) : bool := N.eqb (N.land a b) b.
Definition union (a b : N) : N := N.lor a b.
(** apparent.rs [CORRECTION_ORDER] *)
Definition correction_order : list N := [PROPER_MOTION; LIGHT_TIME; ABERRATION; LIGHT_DEFLECTION].
(** apparent.rs [AppliedCorrections], [from_request], [record] *)
Record corrections := Corrections { requested : N; applied : N; light_time_iters : N }.
Definition from_request (p : N) : corrections := Corrections p GEOMETRIC 0.
Definition record (c : corrections) (stage : N) : corrections := Corrections (requested c) (union (applied c) stage) (light_time_iters c).
(** horizontal.rs:267, stellar/altitude_periods.rs:116: the one thing the star functions ask of a policy *)
Definition policy_of (p : N) : policy := if N.eqb p GEOMETRIC then Geometric else Apparent.

(** the implementors of the two traits; [Star] keeps the direction of its coordinate (bodies/stars.rs:225-234) *)
Inductive body := Sun | Moon | Planet (k : nat) | Star (ra dec : R) | Direction (ra dec : R).
(** what the sky shows to a site, over time: the Sun, the Moon and the planets (altitude, azimuth), and the
    matrix and the sidereal time of the date *)
Record sky := Sky { s_sun : Q -> R * R; s_moon : Q -> R * R; s_planet : nat -> Q -> R * R; s_npb : Q -> mat; s_gast : Q -> R; s_lon : R; s_lat : R }.
(** altitude/provider.rs:256-275, azimuth/provider.rs:296-314: a direction, with a policy *)
Definition dir_altitude (s : sky) (p : N) (ra dec : R) (t : Q) : R := fixed_star_altitude (policy_of p) (s_npb s t) (s_gast s t) (s_lon s) (s_lat s) ra dec.
Definition dir_azimuth (s : sky) (p : N) (ra dec : R) (t : Q) : R := fixed_star_azimuth (policy_of p) (s_npb s t) (s_gast s t) (s_lon s) (s_lat s) ra dec.
(** [altitude_at]: altitude/provider.rs:101-104, 174-177, 241-244, 256-259, 283-330 *)
Definition altitude_at (s : sky) (b : body) (t : Q) : R :=
  match b with
  | Sun => fst (s_sun s t)
  | Moon => fst (s_moon s t)
  | Planet k => fst (s_planet s k t)
  | Star ra dec => dir_altitude s APPARENT ra dec t
  | Direction ra dec => dir_altitude s APPARENT ra dec t
  end.
(** [altitude_at_with_policy]: altitude/provider.rs:32-40 (the default), 246-253, 261-274 *)
Definition altitude_at_with_policy (s : sky) (b : body) (p : N) (t : Q) : R :=
  match b with
  | Star ra dec => dir_altitude s p ra dec t
  | Direction ra dec => dir_altitude s p ra dec t
  | _ => altitude_at s b t
  end.
(** [azimuth_at]: azimuth/provider.rs:246-248, 265-267, 284-287, 297-299, 363-371 *)
Definition azimuth_at (s : sky) (b : body) (t : Q) : R :=
  match b with
  | Sun => snd (s_sun s t)
  | Moon => snd (s_moon s t)
  | Planet k => snd (s_planet s k t)
  | Star ra dec => dir_azimuth s APPARENT ra dec t
  | Direction ra dec => dir_azimuth s APPARENT ra dec t
  end.
(** [azimuth_at_with_policy]: azimuth/provider.rs:86-94 (the default, which [Star] keeps), 301-314 *)
Definition azimuth_at_with_policy (s : sky) (b : body) (p : N) (t : Q) : R :=
  match b with
  | Direction ra dec => dir_azimuth s p ra dec t
  | _ => azimuth_at s b t
  end.
(** [scan_step_hint]: altitude/provider.rs:42-44, 179-181, 320-322; azimuth/provider.rs:184-186, 258, 276, 381 *)
Definition two_hours : Q := 1 # 12.
Definition altitude_hint (b : body) : option Q := match b with Moon => Some two_hours | Planet _ => Some two_hours | _ => None end.
Definition azimuth_hint (b : body) : option Q := match b with Sun => Some two_hours | Moon => Some two_hours | Planet _ => Some two_hours | _ => None end.
(** [azimuth_periods]: azimuth/provider.rs:250-256, 289-292 (a star asks its direction), 316-321 *)
Definition periods_of (num : R -> Q) complement (s : sky) (b : body) (p : N) (window : interval) (min max : R) : option (list interval) :=
  let b := match b with Star ra dec => Direction ra dec | _ => b end in
  azimuth_periods num complement (azimuth_at_with_policy s b p) (azimuth_hint b) window min max.
(** [in_azimuth_range], [outside_azimuth_range]: azimuth/provider.rs:130-174, events.rs:352-424 *)
Definition inside_of num complement s b window min max : option (list interval) := periods_of num complement s b APPARENT window min max.
Definition outside_of num (complement : interval -> list interval -> list interval) s b (window : interval) min max : option (list interval) :=
  match inside_of num complement s b window min max with Some l => Some (complement window l) | None => None end.
(** [azimuth_crossings] of a body: events.rs:182-212 *)
Definition crossings_of (num : R -> Q) (s : sky) (b : body) (window : interval) (bearing : R) : option (list (Q * way)) :=
  azimuth_crossings num (azimuth_at_with_policy s b APPARENT) (azimuth_hint b) window bearing.
