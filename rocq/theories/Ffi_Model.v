(** The C interface: enumerations, coordinates and orbits
    (siderust-ffi/src/ffi_utils.rs, types.rs, error.rs, twilight.rs,
    coordinates.rs; src/coordinates/transform/horizontal.rs).

    A call answers a status and, when it wrote through its output pointer, the
    value written. [None] as second component means the caller's memory was
    left alone. Pointers enter as a flag saying whether they are null. A
    number that must be finite enters as [option R], [None] standing for NaN
    and the infinities; the other numbers are exact reals. The panic guard
    (ffi_utils.rs 28-36) has nothing to catch here, as no modelled path
    panics. *)
From Coq Require Import ZArith Ascii String List Reals Bool.
From Verif Require Import Base Ang Mat3 Geom_Model Conic_Model.
Import ListNotations.

(** [SiderustStatus] (error.rs 12-51). *)
Inductive status := SOk | SNullPointer | SInvalidFrame | SInvalidCenter | STransformFailed | SInvalidBody | SUnknownStar | SInvalidPeriod
  | SAllocationFailed | SInvalidArgument | SInternalPanic | SDataError | SInvalidDimension | SOutOfRange | SNoEopData.
Definition reply (A : Type) := (status * option A)%type.

(** * [ffi_enum!] (ffi_utils.rs 299-409)

    The macro turns a table of variants, codes and names into three matches.
    The first name of a row is the canonical one. Rows without names belong to
    the second form of the macro, which makes no name functions. *)
Record row (A : Type) := Row { r_variant : A; r_code : Z; r_names : list string }.
Arguments Row {A}. Arguments r_variant {A}. Arguments r_code {A}. Arguments r_names {A}.
(** ffi_utils.rs 346-351: the arms are tried in order. *)
Fixpoint from_raw {A} (t : list (row A)) (raw : Z) : option A :=
  match t with [] => None | r :: t' => if (raw =? r_code r)%Z then Some (r_variant r) else from_raw t' raw end.
(** [str::to_ascii_lowercase] *)
Definition lower_ascii (c : ascii) : ascii :=
  let n := nat_of_ascii c in if (Nat.leb 65 n && Nat.leb n 90)%bool then ascii_of_nat (n + 32) else c.
Fixpoint lower (s : string) : string := match s with EmptyString => EmptyString | String c s' => String (lower_ascii c) (lower s') end.
(** ffi_utils.rs 356-362 *)
Fixpoint parse_lower {A} (t : list (row A)) (s : string) : option A :=
  match t with [] => None | r :: t' => if existsb (String.eqb s) (r_names r) then Some (r_variant r) else parse_lower t' s end.
Definition parse_name {A} (t : list (row A)) (s : string) : option A := parse_lower t (lower s).
(** ffi_utils.rs 365-369: the row of the variant, its first name; [eqb] is the
    derived equality. *)
Fixpoint as_str {A} (eqb : A -> A -> bool) (t : list (row A)) (a : A) : string :=
  match t with
  | [] => EmptyString
  | r :: t' => if eqb a (r_variant r) then hd EmptyString (r_names r) else as_str eqb t' a
  end.

(** types.rs 78-116 *)
Inductive frame := ICRS | EclipticMeanJ2000 | EquatorialMeanJ2000 | EquatorialMeanOfDate | EquatorialTrueOfDate | Horizontal | ECEF | Galactic
  | GCRS | EclipticOfDate | EclipticTrueOfDate | CIRS | TIRS | ITRF | ICRF.
Definition frame_eqb (a b : frame) : bool :=
  match a, b with
  | ICRS, ICRS | EclipticMeanJ2000, EclipticMeanJ2000 | EquatorialMeanJ2000, EquatorialMeanJ2000 | EquatorialMeanOfDate, EquatorialMeanOfDate
  | EquatorialTrueOfDate, EquatorialTrueOfDate | Horizontal, Horizontal | ECEF, ECEF | Galactic, Galactic | GCRS, GCRS
  | EclipticOfDate, EclipticOfDate | EclipticTrueOfDate, EclipticTrueOfDate | CIRS, CIRS | TIRS, TIRS | ITRF, ITRF | ICRF, ICRF => true
  | _, _ => false
  end.
Local Open Scope string_scope.
Definition frames : list (row frame) :=
  [Row ICRS 1 ["icrs"];
   Row EclipticMeanJ2000 2 ["ecliptic_mean_j2000"; "eclipticmeanj2000"; "mean_ecliptic_j2000"];
   Row EquatorialMeanJ2000 3 ["equatorial_mean_j2000"; "equatorialmeanj2000"; "mean_equatorial_j2000"];
   Row EquatorialMeanOfDate 4 ["equatorial_mean_of_date"; "equatorialmeanofdate"; "mean_of_date"];
   Row EquatorialTrueOfDate 5 ["equatorial_true_of_date"; "equatorialtrueofdate"; "true_of_date"];
   Row Horizontal 6 ["horizontal"; "altaz"; "local_horizontal"];
   Row ECEF 7 ["ecef"; "earth_fixed"];
   Row Galactic 8 ["galactic"; "gal"];
   Row GCRS 9 ["gcrs"; "geocentric_celestial"];
   Row EclipticOfDate 10 ["ecliptic_of_date"; "eclipticofdate"];
   Row EclipticTrueOfDate 11 ["ecliptic_true_of_date"; "ecliptictrueofdate"];
   Row CIRS 12 ["cirs"; "celestial_intermediate"];
   Row TIRS 13 ["tirs"; "terrestrial_intermediate"];
   Row ITRF 14 ["itrf"; "terrestrial_reference"];
   Row ICRF 15 ["icrf"; "celestial_reference"]].
(** types.rs 118-132 *)
Inductive ccenter := Barycentric | Heliocentric | Geocentric | Topocentric | Bodycentric.
Definition ccenter_eqb (a b : ccenter) : bool :=
  match a, b with
  | Barycentric, Barycentric | Heliocentric, Heliocentric | Geocentric, Geocentric | Topocentric, Topocentric | Bodycentric, Bodycentric => true
  | _, _ => false
  end.
Definition ccenters : list (row ccenter) :=
  [Row Barycentric 1 ["barycentric"; "ssb"; "solar_system_barycenter"];
   Row Heliocentric 2 ["heliocentric"; "solar"; "sun"];
   Row Geocentric 3 ["geocentric"; "earth"];
   Row Topocentric 4 ["topocentric"; "observer"; "site"];
   Row Bodycentric 5 ["bodycentric"; "body"]].
(** [SiderustEarthOrientationModel] (types.rs) *)
Inductive eomodel := Iau2000A | Iau2000B | Iau2006 | Iau2006A.
Definition eomodel_eqb (a b : eomodel) : bool :=
  match a, b with Iau2000A, Iau2000A | Iau2000B, Iau2000B | Iau2006, Iau2006 | Iau2006A, Iau2006A => true | _, _ => false end.
Definition eomodels : list (row eomodel) :=
  [Row Iau2000A 0 ["iau2000a"]; Row Iau2000B 1 ["iau2000b"]; Row Iau2006 2 ["iau2006"]; Row Iau2006A 3 ["iau2006a"]].
(** [SiderustTwilightPhase] (twilight.rs 22-34) *)
Inductive twilight := Day | Civil | Nautical | Astronomical | Dark.
Definition twilight_eqb (a b : twilight) : bool :=
  match a, b with Day, Day | Civil, Civil | Nautical, Nautical | Astronomical, Astronomical | Dark, Dark => true | _, _ => false end.
Definition twilights : list (row twilight) :=
  [Row Day 0 ["day"]; Row Civil 1 ["civil"]; Row Nautical 2 ["nautical"]; Row Astronomical 3 ["astronomical"]; Row Dark 4 ["dark"; "night"]].
(** [SiderustBody], [SiderustSubjectKind], [SiderustLengthUnit] (types.rs): no names *)
Inductive cbody := BSun | BMoon | BMercury | BVenus | BMars | BJupiter | BSaturn | BUranus | BNeptune.
Definition cbodies : list (row cbody) :=
  [Row BSun 0 []; Row BMoon 1 []; Row BMercury 2 []; Row BVenus 3 []; Row BMars 4 []; Row BJupiter 5 []; Row BSaturn 6 []; Row BUranus 7 []; Row BNeptune 8 []].
Inductive lunit := UAu | UKm | ULightYear | UParsec | UMeter.
Definition lunits : list (row lunit) := [Row UAu 0 []; Row UKm 1 []; Row ULightYear 2 []; Row UParsec 3 []; Row UMeter 4 []].
Local Close Scope string_scope.
Local Open Scope R_scope.

(** * Directions and positions (types.rs) *)
Record sdir := Sdir { sd_polar : R; sd_azimuth : R; sd_frame : frame }.
Record cpos := Cpos { cp_v : vec; cp_frame : frame; cp_center : ccenter; cp_unit : lunit }.

(** The spherical directions of the affn crate: degrees, polar angle from the
    equator of the frame. Its range reduction does not move the point and is
    left out. *)
Definition deg (x : R) : R := x * 180 / PI.
Definition cart_of (polar azimuth : R) : vec :=
  (cos (rad polar) * cos (rad azimuth), cos (rad polar) * sin (rad azimuth), sin (rad polar)).
(** [sph_to_pair] of [spherical::Direction::from_cartesian] (coordinates.rs 36-38):
    the pair is (polar, azimuth). *)
Definition sph_of (v : vec) : R * R := let '(x, y, z) := v in (deg (asin z), deg (rem_e (atan2 y x) (2 * PI))).

(** The rotation from ICRS to a frame at a date, under one orientation model.
    [to_frame] into ICRS uses the transpose (the provider is the subject of
    other properties). *)
Definition rotations := frame -> R -> mat.
Definition into_icrs (m : rotations) (src : frame) (t : R) (v : vec) : vec := apply (transpose (m src t)) v.
Definition from_icrs (m : rotations) (dst : frame) (t : R) (v : vec) : vec := apply (m dst t) v.

(** The frames the macros know (coordinates.rs 81-110, 186-222). *)
Definition known (f : frame) : bool :=
  match f with ICRS | EclipticMeanJ2000 | EquatorialMeanJ2000 | EquatorialMeanOfDate | EquatorialTrueOfDate => true | _ => false end.
(** Positions know ICRF as well (coordinates.rs 673-811). *)
Definition known_pos (f : frame) : bool := match f with ICRF => true | _ => known f end.

(** [transform_spherical_dir_from!] (coordinates.rs 78-110): for ICRS one step,
    for the others two, with a spherical direction in between. The date is
    only looked at in the arm of a known destination. *)
Definition to_frame_sph (m : rotations) (dir : R * R) (src dst : frame) (t : R) : R * R :=
  let icrs := sph_of (into_icrs m src t (cart_of (fst dir) (snd dir))) in
  match dst with
  | ICRS => icrs
  | _ => sph_of (from_icrs m dst t (cart_of (fst icrs) (snd icrs)))
  end.
(** [siderust_spherical_dir_transform_frame] (coordinates.rs 236-271) *)
Definition spherical_transform (m : rotations) (polar azimuth : R) (src dst : frame) (jd : option R) (null : bool) : reply sdir :=
  if null then (SNullPointer, None) else
  if negb (known src) then (SInvalidFrame, None) else
  if negb (known dst) then (SInvalidFrame, None) else
  match jd with
  | None => (SInvalidArgument, None)
  | Some t => let '(p, a) := to_frame_sph m (polar, azimuth) src dst t in (SOk, Some (Sdir p a dst))
  end.
(** [siderust_spherical_dir_transform_frame_with_context] (coordinates.rs
    275-314): the context, None when null, names the orientation model. *)
Definition spherical_transform_ctx (ms : eomodel -> rotations) (polar azimuth : R) (src dst : frame) (jd : option R) (ctx : option eomodel) (null : bool) :
  reply sdir :=
  if null then (SNullPointer, None) else
  match ctx with
  | None => (SNullPointer, None)
  | Some mo => spherical_transform (ms mo) polar azimuth src dst jd false
  end.
(** [siderust_cartesian_dir_transform_frame] (coordinates.rs 571-611): the
    vector is not normalised; the label says barycentric and AU. *)
Definition cartesian_dir_transform (m : rotations) (v : vec) (src dst : frame) (jd : option R) (null : bool) : reply cpos :=
  if null then (SNullPointer, None) else
  if negb (known src) then (SInvalidFrame, None) else
  if negb (known dst) then (SInvalidFrame, None) else
  match jd with
  | None => (SInvalidArgument, None)
  | Some t =>
      let icrs := into_icrs m src t v in
      (SOk, Some (Cpos (match dst with ICRS => icrs | _ => from_icrs m dst t icrs end) dst Barycentric UAu))
  end.
(** [siderust_cartesian_pos_transform_frame] (coordinates.rs 821-858) *)
Definition cartesian_pos_transform (m : rotations) (p : cpos) (dst : frame) (jd : option R) (null : bool) : reply cpos :=
  if null then (SNullPointer, None) else
  if negb (known_pos (cp_frame p)) then (SInvalidFrame, None) else
  if negb (known_pos dst) then (SInvalidFrame, None) else
  match jd with
  | None => (SInvalidArgument, None)
  | Some t =>
      let icrs := into_icrs m (cp_frame p) t (cp_v p) in
      (SOk, Some (Cpos (match dst with ICRS => icrs | _ => from_icrs m dst t icrs end) dst (cp_center p) (cp_unit p)))
  end.

(** * Horizontal directions *)
Record geodetic := Geodetic { g_lon : R; g_lat : R; g_height : R }.
(** [ToHorizontal for Direction<EquatorialTrueOfDate>] (horizontal.rs 90-133):
    [theta] is the apparent sidereal time of Greenwich. The direction is
    (altitude, azimuth) in degrees. *)
Definition alt_az (theta : R) (site : geodetic) (ra dec : R) : R * R :=
  let ha := theta + rad (g_lon site) - ra in
  let sh := sin ha in let ch := cos ha in
  let sd := sin dec in let cd := cos dec in
  let sp := sin (rad (g_lat site)) in let cp := cos (rad (g_lat site)) in
  let x := - ch * cd * sp + sd * cp in
  let y := - sh * cd in
  let z := ch * cd * cp + sd * sp in
  let r := sqrt (x * x + y * y) in
  let az := rem_e (if Req_EM_T r 0 then 0 else atan2 y x) (2 * PI) in
  (deg (atan2 z r), deg az).
Definition horizontal_dir (theta : R) (site : geodetic) (v : vec) : vec :=
  let '(dec, ra) := sph_of v in
  let '(alt, az) := alt_az theta site (rad ra) (rad dec) in
  cart_of alt az.
(** [spherical_dir_to_horizontal_from!] (coordinates.rs 145-154): through ICRS
    and the true equator of date. *)
Definition to_horizontal_sph (m : rotations) (theta : R) (site : geodetic) (dir : R * R) (src : frame) (t : R) : R * R :=
  let '(p, a) := to_frame_sph m dir src EquatorialTrueOfDate t in
  sph_of (horizontal_dir theta site (cart_of p a)).
(** [siderust_spherical_dir_to_horizontal] (coordinates.rs 321-357). [gast ut1 tt]
    is the sidereal time and [ut1_of] the clock of ext.rs 141-155. The pair is
    bound as (az, alt). *)
Definition dir_to_horizontal (m : rotations) (gast : R -> R -> R) (ut1_of : R -> R) (polar azimuth : R) (src : frame) (jd : option R) (site : geodetic)
  (null : bool) : reply sdir :=
  if null then (SNullPointer, None) else
  if negb (known src) then (SInvalidFrame, None) else
  match jd with
  | None => (SInvalidArgument, None)
  | Some t =>
      let '(az, alt) := to_horizontal_sph m (gast (ut1_of t) t) site (polar, azimuth) src t in
      (SOk, Some (Sdir alt az Horizontal))
  end.
(** [siderust_spherical_dir_to_horizontal_precise] (coordinates.rs 360-401) *)
Definition dir_to_horizontal_precise (m : rotations) (gast : R -> R -> R) (polar azimuth : R) (src : frame) (tt ut1 : option R) (site : geodetic)
  (null : bool) : reply sdir :=
  if null then (SNullPointer, None) else
  if negb (known src) then (SInvalidFrame, None) else
  match tt, ut1 with
  | Some t, Some u =>
      let '(az, alt) := to_horizontal_sph m (gast u t) site (polar, azimuth) src t in
      (SOk, Some (Sdir alt az Horizontal))
  | _, _ => (SInvalidArgument, None)
  end.
(** [.._precise_with_context] (coordinates.rs 405-455): the rotations follow
    the model, the sidereal time does not. *)
Definition dir_to_horizontal_ctx (ms : eomodel -> rotations) (gast : R -> R -> R) (polar azimuth : R) (src : frame) (tt ut1 : option R) (site : geodetic)
  (ctx : option eomodel) (null : bool) : reply sdir :=
  if null then (SNullPointer, None) else
  match ctx with None => (SNullPointer, None) | Some mo => dir_to_horizontal_precise (ms mo) gast polar azimuth src tt ut1 site false end.

(** * Centres and orbits *)
(** The two offsets of VSOP87: the Sun from the barycentre and the Earth from
    the Sun, mean ecliptic of J2000, astronomical units. *)
Record offsets := Offsets { of_sun : R -> vec; of_earth : R -> vec }.
(** [shift_center_xyz] (coordinates.rs 948-988): codes 0, 1, 2, the others
    count as heliocentric. *)
Definition shift_center (o : offsets) (v : vec) (from to : nat) (jd : option R) : status + vec :=
  if Nat.eqb from to then inr v else
  match jd with
  | None => inl SInvalidArgument
  | Some t =>
      let h := match from with 0%nat => vminus v (of_sun o t) | 2%nat => vplus v (of_earth o t) | _ => v end in
      inr (match to with 0%nat => vplus h (of_sun o t) | 2%nat => vminus h (of_earth o t) | _ => h end)
  end.
(** [center_to_shift_code] (coordinates.rs 991-998) *)
Definition shift_code (c : ccenter) : option nat :=
  match c with Barycentric => Some 0%nat | Heliocentric => Some 1%nat | Geocentric => Some 2%nat | _ => None end.
(** [siderust_cartesian_pos_transform_center] (coordinates.rs 1008-1045) *)
Definition transform_center (o : offsets) (p : cpos) (dst : ccenter) (jd : option R) (null : bool) : reply cpos :=
  if null then (SNullPointer, None) else
  match shift_code (cp_center p) with
  | None => (SInvalidCenter, None)
  | Some from =>
      match shift_code dst with
      | None => (SInvalidCenter, None)
      | Some to =>
          match shift_center o (cp_v p) from to jd with
          | inl s => (s, None)
          | inr v => (SOk, Some (Cpos v (cp_frame p) dst (cp_unit p)))
          end
      end
  end.
(** [orbit_ref_center_to_siderust] (coordinates.rs 1068-1075) *)
Definition orbit_center (code : nat) : option ccenter :=
  match code with 0%nat => Some Barycentric | 1%nat => Some Heliocentric | 2%nat => Some Geocentric | _ => None end.
(** [SiderustOrbit] with an epoch that may not be finite, and
    [SiderustOrbit::try_to_rust] (types.rs): nothing else is checked. *)
Record corbit := Corbit { co_elements : orbit; co_epoch : option R }.
Definition try_to_rust (c : corbit) : option orbit :=
  match co_epoch c with
  | None => None
  | Some e => let k := co_elements c in Some (Build_orbit (o_a k) (o_e k) (o_inc k) (o_node k) (o_argp k) (o_m0 k) e)
  end.
(** [siderust_kepler_position_ex] (coordinates.rs 1084-1104) *)
Definition kepler_position_ex (solve : R -> R -> R) (orb : corbit) (code : nat) (jd : option R) (null : bool) : reply cpos :=
  if null then (SNullPointer, None) else
  match orbit_center code with
  | None => (SInvalidCenter, None)
  | Some c =>
      match try_to_rust orb, jd with
      | Some k, Some t => (SOk, Some (Cpos (kepler_position solve k t) EclipticMeanJ2000 c UAu))
      | _, _ => (SInvalidArgument, None)
      end
  end.
(** [siderust_to_bodycentric] (coordinates.rs 1244-1291) *)
Definition to_bodycentric_c (solve : R -> R -> R) (o : offsets) (p : cpos) (orb : corbit) (code : nat) (jd : option R) (null : bool) : reply cpos :=
  if null then (SNullPointer, None) else
  match shift_code (cp_center p) with
  | None => (SInvalidCenter, None)
  | Some own =>
      match try_to_rust orb, jd with
      | Some k, Some t =>
          match shift_center o (kepler_position solve k t) code own jd with
          | inl s => (s, None)
          | inr b => (SOk, Some (Cpos (vminus (cp_v p) b) (cp_frame p) Bodycentric (cp_unit p)))
          end
      | _, _ => (SInvalidArgument, None)
      end
  end.
(** [siderust_from_bodycentric] (coordinates.rs 1302-1341): the answer is
    labelled AU. *)
Definition from_bodycentric_c (solve : R -> R -> R) (o : offsets) (p : cpos) (orb : corbit) (code : nat) (jd : option R) (null : bool) : reply cpos :=
  if null then (SNullPointer, None) else
  match try_to_rust orb, jd with
  | Some k, Some t =>
      match shift_center o (kepler_position solve k t) code 2 jd with
      | inl s => (s, None)
      | inr b => (SOk, Some (Cpos (vplus (cp_v p) b) (cp_frame p) Geocentric UAu))
      end
  | _, _ => (SInvalidArgument, None)
  end.
