(** Bodies and their builders (src/bodies), body-fixed frames
    (src/astro/orientation.rs, src/coordinates/transform/providers), the small
    gravity fields (src/astro/dynamics/gravity/egm_low_degree.rs), planet
    identifiers (src/ephemeris/mod.rs) and thrust arcs (src/pod). *)
From Coq Require Import Reals List ZArith String Ascii Bool Arith.
From Verif Require Import Base Mat3 Ang Geom_Model Moon_Model Earth_Model Conic_Model.
Import ListNotations.
Local Open Scope list_scope.

(** * Planets (bodies/planets.rs); [O] is the orbit type, numbers are reals *)
(** planets.rs:77-86 *)
Record planet (O : Type) := Planet { p_mass : R; p_radius : R; p_orbit : O; p_albedo : option R }.
Arguments Planet {O}. Arguments p_mass {O}. Arguments p_radius {O}. Arguments p_orbit {O}. Arguments p_albedo {O}.
(** planets.rs:123-140 *)
Inductive planet_error := MissingMass | MissingRadius | MissingOrbit.
Record planet_builder (O : Type) := PB { b_mass : option R; b_radius : option R; b_orbit : option O; b_albedo : option R }.
Arguments PB {O}. Arguments b_mass {O}. Arguments b_radius {O}. Arguments b_orbit {O}. Arguments b_albedo {O}.
(** one setter call (planets.rs:144-165) *)
Inductive planet_call (O : Type) := CMass (x : R) | CRadius (x : R) | COrbit (o : O) | CAlbedo (x : R).
Arguments CMass {O}. Arguments CRadius {O}. Arguments COrbit {O}. Arguments CAlbedo {O}.
Definition planet_set {O} (b : planet_builder O) (c : planet_call O) : planet_builder O :=
  match c with
  | CMass x => PB (Some x) (b_radius b) (b_orbit b) (b_albedo b)
  | CRadius x => PB (b_mass b) (Some x) (b_orbit b) (b_albedo b)
  | COrbit o => PB (b_mass b) (b_radius b) (Some o) (b_albedo b)
  | CAlbedo x => PB (b_mass b) (b_radius b) (b_orbit b) (Some x)
  end.
(** [Planet::builder()] and the chain of calls (planets.rs:112-114) *)
Definition planet_chain {O} (cs : list (planet_call O)) : planet_builder O := fold_left planet_set cs (PB None None None None).
(** planets.rs:168-175 *)
Definition try_build {O} (b : planet_builder O) : outcome (planet O) planet_error :=
  match b_mass b with
  | None => Err MissingMass
  | Some m => match b_radius b with
    | None => Err MissingRadius
    | Some r => match b_orbit b with None => Err MissingOrbit | Some o => Ok (Planet m r o (b_albedo b)) end
    end
  end.
(** planets.rs:179-181: [expect] *)
Definition build {O} (b : planet_builder O) : outcome (planet O) planet_error := match try_build b with Ok p => Ok p | _ => Panic end.
(** planets.rs:184-194 *)
Definition build_unchecked {O} (b : planet_builder O) : outcome (planet O) planet_error :=
  match b_mass b, b_radius b, b_orbit b with
  | Some m, Some r, Some o => Ok (Planet m r o None)
  | _, _, _ => Panic
  end.

(** * Asteroids (bodies/asteroid.rs:36-68, 113-167) *)
Inductive asteroid_class := MainBelt | NearEarth | Trojan | Centaur | TransNeptunian | DwarfPlanet.
Record asteroid (O : Type) := Asteroid { a_name : string; a_designation : string; a_composition : string; a_class : asteroid_class; a_orbit : O; a_albedo : option R }.
Arguments Asteroid {O}. Arguments a_name {O}. Arguments a_designation {O}. Arguments a_composition {O}. Arguments a_class {O}. Arguments a_orbit {O}. Arguments a_albedo {O}.
Record asteroid_builder (O : Type) := AB { ab_name : option string; ab_designation : option string; ab_composition : option string; ab_class : option asteroid_class; ab_orbit : option O; ab_albedo : option R }.
Arguments AB {O}. Arguments ab_name {O}. Arguments ab_designation {O}. Arguments ab_composition {O}. Arguments ab_class {O}. Arguments ab_orbit {O}. Arguments ab_albedo {O}.
Inductive asteroid_call (O : Type) := AName (s : string) | ADesignation (s : string) | AComposition (s : string) | AClass (c : asteroid_class) | AOrbit (o : O) | AAlbedo (x : R).
Arguments AName {O}. Arguments ADesignation {O}. Arguments AComposition {O}. Arguments AClass {O}. Arguments AOrbit {O}. Arguments AAlbedo {O}.
(** asteroid.rs:124-154 *)
Definition asteroid_set {O} (b : asteroid_builder O) (c : asteroid_call O) : asteroid_builder O :=
  let '(AB n d k l o a) := b in
  match c with
  | AName s => AB (Some s) d k l o a | ADesignation s => AB n (Some s) k l o a | AComposition s => AB n d (Some s) l o a
  | AClass c => AB n d k (Some c) o a | AOrbit x => AB n d k l (Some x) a | AAlbedo x => AB n d k l o (Some x)
  end.
Definition asteroid_chain {O} (cs : list (asteroid_call O)) : asteroid_builder O := fold_left asteroid_set cs (AB None None None None None None).
Definition or_else {A} (x : option A) (d : A) : A := match x with Some v => v | None => d end.
(** asteroid.rs:157-166 *)
Definition asteroid_build {O} (b : asteroid_builder O) : outcome (asteroid O) unit :=
  match ab_name b, ab_designation b, ab_orbit b with
  | Some n, Some d, Some o => Ok (Asteroid n d (or_else (ab_composition b) "Unknown"%string) (or_else (ab_class b) MainBelt) o (ab_albedo b))
  | _, _, _ => Panic
  end.

(** * Comets (bodies/comet.rs:40-60, 88-128) *)
Inductive orbit_frame := Heliocentric | Barycentric.
Record comet (O : Type) := Comet { c_name : string; c_tail : R; c_orbit : O; c_reference : orbit_frame }.
Arguments Comet {O}. Arguments c_name {O}. Arguments c_tail {O}. Arguments c_orbit {O}. Arguments c_reference {O}.
Record comet_builder (O : Type) := KB { kb_name : option string; kb_tail : option R; kb_orbit : option O; kb_reference : option orbit_frame }.
Arguments KB {O}. Arguments kb_name {O}. Arguments kb_tail {O}. Arguments kb_orbit {O}. Arguments kb_reference {O}.
Inductive comet_call (O : Type) := KName (s : string) | KTail (x : R) | KOrbit (o : O) | KReference (f : orbit_frame).
Arguments KName {O}. Arguments KTail {O}. Arguments KOrbit {O}. Arguments KReference {O}.
(** comet.rs:97-117 *)
Definition comet_set {O} (b : comet_builder O) (c : comet_call O) : comet_builder O :=
  let '(KB n t o f) := b in
  match c with KName s => KB (Some s) t o f | KTail x => KB n (Some x) o f | KOrbit x => KB n t (Some x) f | KReference x => KB n t o (Some x) end.
Definition comet_chain {O} (cs : list (comet_call O)) : comet_builder O := fold_left comet_set cs (KB None None None None).
(** comet.rs:120-127 *)
Definition comet_build {O} (b : comet_builder O) : outcome (comet O) unit :=
  match kb_name b, kb_tail b, kb_orbit b with Some n, Some t, Some o => Ok (Comet n t o (or_else (kb_reference b) Heliocentric)) | _, _, _ => Panic end.
(** comet.rs:150-155, of the semi-major axis in astronomical units *)
Definition comet_period_years (a : R) : R := (a * sqrt a)%R.
(** planets.rs:222-231, in seconds *)
Definition orbit_period (a : R) : R := (period_days a * 86400)%R.

(** * Body-fixed frames *)
(** orientation.rs:45-58, in degrees *)
Record iau := { alpha0 : R; alpha1 : R; delta0 : R; delta1 : R; w0 : R; w1 : R }.
(** orientation.rs:66-89 *)
Definition pole_ra (p : iau) (jd : R) : R := (alpha0 p + alpha1 p * ((jd - 2451545) / 36525))%R.
Definition pole_dec (p : iau) (jd : R) : R := (delta0 p + delta1 p * ((jd - 2451545) / 36525))%R.
Definition meridian (p : iau) (jd : R) : R := (w0 p + w1 p * (jd - 2451545))%R.
(** affn's [from_euler_zxz(z1, x, z2)]. That crate's source is not at hand and nothing in the repository fixes its
    convention, so both senses of the elementary rotations and both orders of composition are kept *)
Inductive euler_sense := Active | Passive.
Inductive euler_order := Outward | Inward.
Definition convention : Type := euler_sense * euler_order.
Definition sensed (s : euler_sense) (x : R) : R := match s with Active => x | Passive => (- x)%R end.
Definition from_euler_zxz (k : convention) (z1 x z2 : R) : mat :=
  let '(s, o) := k in let z1 := sensed s z1 in let x := sensed s x in let z2 := sensed s z2 in
  match o with Outward => mul (rz z2) (mul (rx x) (rz z1)) | Inward => mul (rz z1) (mul (rx x) (rz z2)) end.
(** transform/providers/mod.rs:452-462 *)
Definition body_fixed_to_icrs (k : convention) (p : iau) (jd : R) : mat :=
  let a := rad (pole_ra p jd) in let d := rad (pole_dec p jd) in let w := rad (meridian p jd) in let q := rad 90 in
  from_euler_zxz k (- w) (- (q - d)) (- (a + q)).
(** frames_planetary.rs:31-39, providers/mod.rs:163-171: the inverse is the transpose *)
Definition icrs_to_body_fixed (k : convention) (p : iau) (jd : R) : mat := transpose (body_fixed_to_icrs k p jd).
(** frames_planetary.rs:53-71, providers/mod.rs:148-159, 285-307: [m] takes the other inertial frame to ICRS *)
Definition inertial_to_fixed (m : mat) (k : convention) (p : iau) (jd : R) : mat := mul (icrs_to_body_fixed k p jd) m.
Definition fixed_to_inertial (m : mat) (k : convention) (p : iau) (jd : R) : mat := transpose (inertial_to_fixed m k p jd).

(** * Small gravity fields (egm_low_degree.rs); the coefficient table is in another crate *)
Definition entry : Type := nat * nat * R * R.
(** egm_low_degree.rs:39-45 *)
Definition two_body_c (n m : nat) : R := if n =? 0 then 1%R else 0%R.
Definition two_body_s (n m : nat) : R := 0%R.
(** egm_low_degree.rs:53-63 *)
Fixpoint scan (t : list entry) (n m : nat) : R * R :=
  match t with [] => (0, 0)%R | (tn, tm, c, s) :: t => if (tn =? n) && (tm =? m) then (c, s) else scan t n m end.
Definition low_lookup (t : list entry) (n m : nat) : R * R := if (n =? 0) && (m =? 0) then (1, 0)%R else scan t n m.
(** egm_low_degree.rs:75-97, max degree 4 *)
Definition low_c (t : list entry) (n m : nat) : R := if (4 <? n) || (n <? m) then 0%R else fst (low_lookup t n m).
Definition low_s (t : list entry) (n m : nat) : R := if (4 <? n) || (n <? m) then 0%R else snd (low_lookup t n m).

(** * Planet identifiers (ephemeris/mod.rs:132-192) *)
Inductive major := Mercury | Venus | Mars | Jupiter | Saturn | Uranus | Neptune.
Inductive point := Center | SystemBarycenter.
Definition barycenter_id (p : major) : Z := match p with Mercury => 1 | Venus => 2 | Mars => 4 | Jupiter => 5 | Saturn => 6 | Uranus => 7 | Neptune => 8 end%Z.
Definition center_id (p : major) : Z := match p with Mercury => 199 | Venus => 299 | Mars => 499 | Jupiter => 599 | Saturn => 699 | Uranus => 799 | Neptune => 899 end%Z.
Definition naif_id (p : major) (q : point) : Z := match q with Center => center_id p | SystemBarycenter => barycenter_id p end.

(** * Thrust arcs and arcs of a problem *)
(** force/thrust_arc.rs:12-24; the kind of every parameter is [Custom name] *)
Record thrust_arc := { ta_id : string; ta_start : R; ta_stop : R; ta_scale : bool; ta_delta_v : bool }.
Record param := { pr_name : string; pr_initial : R; pr_sigma : option R }.
(** force/thrust_arc.rs:28-47 *)
Definition thrust_parameters (a : thrust_arc) : list param :=
  (if ta_scale a then [{| pr_name := "thrust_scale[" ++ ta_id a ++ "]"; pr_initial := 1; pr_sigma := Some 0.1%R |}] else []) ++
  (if ta_delta_v a then map (fun axis => {| pr_name := "delta_v_" ++ axis ++ "[" ++ ta_id a ++ "]"; pr_initial := 0; pr_sigma := Some 0.01%R |}) ["X"; "Y"; "Z"]%string else [])%string.
(** problem/arc.rs:97-106, 129-151; instants in seconds *)
Record arc := { arc_id : string; arc_start : R; arc_stop : R; arc_step : option R }.
Definition arc_duration (a : arc) : R := (arc_stop a - arc_start a)%R.
Definition arc_valid (a : arc) : Prop := (arc_start a <= arc_stop a)%R.
