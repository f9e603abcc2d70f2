(** Bearings: src/event/azimuth/events.rs, on top of the crossing search of Cross_Model.

    Azimuths are real numbers in radians and times exact rationals. [num] turns a real into the
    number the search works with: f64 rounding, of which only the sign is used. The conversion from
    degrees, the search options and the correction policy are not modelled. *)
From Coq Require Import List ZArith QArith Bool Reals.
From Verif Require Import Qb Ang Cross_Model Sweep_Model.
Import ListNotations.
Local Open Scope R_scope.

(** azimuth/search.rs:30: 10 minutes, rounded to f64; events.rs:61-63 *)
Definition azimuth_scan_step : Q := 2001599834386887 # 288230376151711744.
Definition azimuth_step (hint : option Q) : Q := match hint with Some s => s | None => azimuth_scan_step end.
(** events.rs:73-84 *)
Definition bearing_signal (num : R -> Q) (az : Q -> R) (bearing : R) (t : Q) : Q := num (sin (az t - bearing)).
(** events.rs:91-103 *)
Definition arc_signal (num : R -> Q) (az : Q -> R) (mid cos_hw : R) (t : Q) : Q := num (cos (az t - mid) - cos_hw).
(** events.rs:182-212; [None] stands for a search that does not end *)
Definition azimuth_crossings (num : R -> Q) (az : Q -> R) (hint : option Q) (window : interval) (bearing : R) : option (list (Q * way)) :=
  let f := bearing_signal num az bearing in
  let step := azimuth_step hint in
  match find_crossings (passes_for window step) window step f 0 with
  | Some raw => Some (crossing_events (label_crossings raw f 0))
  | None => None
  end.
(** events.rs:291-328 *)
Definition azimuth_range_periods (num : R -> Q) (complement : interval -> list interval -> list interval) (az : Q -> R) (hint : option Q) (window : interval) (min max : R) : option (list interval) :=
  let step := azimuth_step hint in
  if Rle_dec min max then
    above_threshold_periods (passes_for window step) window step (arc_signal num az ((min + max) * (1 / 2)) (cos ((max - min) * (1 / 2)))) 0
  else
    match above_threshold_periods (passes_for window step) window step (arc_signal num az ((max + min) * (1 / 2)) (cos ((min - max) * (1 / 2)))) 0 with
    | Some outside => Some (complement window outside)
    | None => None
    end.
(** provider.rs:251-256, 316-321, 368-373 *)
Definition azimuth_periods num complement az hint (window : interval) (min max : R) : option (list interval) :=
  if qleb (snd window - fst window) 0 then Some [] else azimuth_range_periods num complement az hint window min max.
(** events.rs:414-424 *)
Definition outside_azimuth_range num (complement : interval -> list interval -> list interval) az hint window min max : option (list interval) :=
  match azimuth_periods num complement az hint window min max with Some inside => Some (complement window inside) | None => None end.

(** events.rs:114-137: the previous azimuth and the offset; one call *)
Definition unwrap_step (st : option R * R) (raw : R) : (option R * R) * R :=
  let offset :=
    match fst st with
    | None => snd st
    | Some p => let diff := raw - p in
                if Rlt_dec PI diff then snd st - 2 * PI else if Rlt_dec diff (- PI) then snd st + 2 * PI else snd st
    end in
  ((Some raw, offset), raw + offset).
(** the values returned over a run of calls *)
Fixpoint unwrap_run (st : option R * R) (raws : list R) : list R :=
  match raws with [] => [] | r :: l => let '(st', v) := unwrap_step st r in v :: unwrap_run st' l end.
Definition unwrapped (raws : list R) : list R := unwrap_run (None, 0) raws.
