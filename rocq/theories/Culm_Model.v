(** Culminations: src/event/altitude/events.rs:197-242, on top of the search for extrema of Ext_Model.

    Times and altitudes are exact rationals. The altitude of the target above the observer's horizon, by correction policy and time, is a
    parameter, and so is the number of degrees in a radian. *)
From Coq Require Import List ZArith QArith Bool.
From Verif Require Import Qb Cross_Model Ext_Model.
Import ListNotations.
Local Open Scope Q_scope.

(** altitude/types.rs:88-95 *)
Inductive culmination_kind := CMax | CMin.
Record culmination := Culmination { c_mjd : Q; c_altitude : Q; c_kind : culmination_kind }.
(** altitude/search.rs:197; twenty minutes, the rounding of the literal is left out *)
Definition extrema_scan_step : Q := 1 # 72.
Section Target.
  Context {policy : Type} (apparent : policy) (altitude : policy -> Q -> Q) (degrees : Q) (hint : option Q).
  (** altitude/events.rs:229-240 *)
  Definition event_of (e : extremum) : culmination := Culmination (et e) (ev e * degrees) (match ek e with Maximum => CMax | Minimum => CMin end).
  (** altitude/events.rs:45-52, 214-242 *)
  Definition generic_culminations_with_policy (fuel : nat) (window : interval) (tol : Q) (pol : policy) : option (list culmination) :=
    let f := altitude pol in
    let step := match hint with Some s => s | None => extrema_scan_step end in
    match find_extrema_tol fuel window step f tol with
    | Some raw => Some (map event_of raw)
    | None => None
    end.
  (** altitude/events.rs:197-212; the default of the provider's event_culminations *)
  Definition culminations (fuel : nat) (window : interval) (tol : Q) : option (list culmination) := generic_culminations_with_policy fuel window tol apparent.
End Target.
