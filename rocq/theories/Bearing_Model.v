(** Azimuth conventions (src/coordinates/horizontal.rs). Angles are real
    numbers of degrees; rounding is not modelled. *)
From Coq Require Import Reals Lra.
From Verif Require Import Ang.
Local Open Scope R_scope.

(** [AzimuthOrigin] (horizontal.rs 78-88) and [AzimuthSense] (91-97). *)
Inductive origin := North | South | East | West.
Inductive sense := Clockwise | CounterClockwise.

(** [HorizontalConvention] (horizontal.rs 103-112). *)
Record convention := Conv { c_origin : origin; c_sense : sense }.

(** The derived [PartialEq] of the three types (horizontal.rs 77, 90, 102). *)
Definition origin_eq (a b : origin) : bool :=
  match a, b with
  | North, North | South, South | East, East | West, West => true
  | _, _ => false
  end.
Definition sense_eq (a b : sense) : bool :=
  match a, b with Clockwise, Clockwise | CounterClockwise, CounterClockwise => true | _, _ => false end.
Definition conv_eq (a b : convention) : bool :=
  andb (origin_eq (c_origin a) (c_origin b)) (sense_eq (c_sense a) (c_sense b)).

(** The constants (horizontal.rs 114-162). *)
Definition NORTH_CLOCKWISE := Conv North Clockwise.
Definition SOUTH_CLOCKWISE := Conv South Clockwise.
Definition NORTH_COUNTERCLOCKWISE := Conv North CounterClockwise.
Definition EAST_COUNTERCLOCKWISE := Conv East CounterClockwise.

(** [Degrees::normalize] of the qtty crate: the representative in [0, 360). *)
Definition normalize (x : R) : R := rem_e x 360.

(** [origin_offset_cw] (horizontal.rs 178-185). *)
Definition origin_offset_cw (o : origin) : R :=
  match o with North => 0 | East => 90 | South => 180 | West => 270 end.

(** [convert_azimuth] (horizontal.rs 222-246). *)
Definition convert_azimuth (azimuth : R) (from to : convention) : R :=
  if conv_eq from to then normalize azimuth
  else
    let az_ncw := match c_sense from with
                  | Clockwise => azimuth + origin_offset_cw (c_origin from)
                  | CounterClockwise => - azimuth + origin_offset_cw (c_origin from)
                  end in
    let az_target := match c_sense to with
                     | Clockwise => az_ncw - origin_offset_cw (c_origin to)
                     | CounterClockwise => - (az_ncw - origin_offset_cw (c_origin to))
                     end in
    normalize az_target.

(** A horizontal position as stored: the observing site, altitude, azimuth and
    distance ([spherical::Position<Topocentric, Horizontal, U>]). *)
Record hpos (S : Type) := HPos { h_site : S; h_alt : R; h_az : R; h_dist : R }.
Arguments HPos {S}. Arguments h_site {S}. Arguments h_alt {S}. Arguments h_az {S}. Arguments h_dist {S}.

(** [convert_position], [position_to_native], [position_from_native]
    (horizontal.rs 365-434), written with [new_unchecked_with_params]. *)
Definition convert_position {S} (pos : hpos S) (from to : convention) : hpos S :=
  HPos (h_site pos) (h_alt pos) (convert_azimuth (h_az pos) from to) (h_dist pos).
Definition position_to_native {S} (pos : hpos S) (from : convention) : hpos S :=
  HPos (h_site pos) (h_alt pos) (convert_azimuth (h_az pos) from NORTH_CLOCKWISE) (h_dist pos).
Definition position_from_native {S} (pos : hpos S) (to : convention) : hpos S :=
  HPos (h_site pos) (h_alt pos) (convert_azimuth (h_az pos) NORTH_CLOCKWISE to) (h_dist pos).

(** [flip_north_south] and [flip_sense] (horizontal.rs 466-468, 493-495). *)
Definition flip_north_south (azimuth : R) : R := normalize (azimuth + 180).
Definition flip_sense (azimuth : R) : R := normalize (- azimuth).
