(** The dynamics part of the C interface (siderust-ffi/src/dynamics.rs), the
    translation of dynamics errors (src/astro/dynamics/errors.rs) and the
    spacecraft properties (src/astro/dynamics/state.rs).

    Handles are addresses of a heap of boxes; address 0 is the null pointer.
    Reading or freeing through an address that holds no box of the right kind
    is undefined behaviour in the code and [None] here.  Numbers are [rnum]
    (a real, an infinity or NaN): the arithmetic is exact, rounding is not
    modelled.  The C callbacks are functions of their arguments ([user_data]
    is part of the function).  The integrator ([dop853_propagate] of the
    principia crate) is a parameter that may succeed, fail or panic. *)
From Coq Require Import List PeanoNat NArith Reals Bool String.
From Verif Require Import Base Noise_Model.
Import ListNotations.
Local Open Scope R_scope.

(** * Errors *)
(** [DynamicsError] (errors.rs 12-60): the variant and the payload that takes
    part in a translation; reasons and names are kept as strings, boxed sources
    are dropped. *)
Inductive dyn_err :=
| EEphemeris | EEop | ECoefficient (degree order : N) | EBelowSurface | EDegenerate (reason : string)
| EStep (reason : string) | EAtmosphere | EProvider | EGravityField | EDegreeRange (requested max : N).
(** [PrincipiaError] as far as errors.rs names its variants (93-128); [POther]
    stands for every other one (the enum is non-exhaustive). *)
Inductive prin_err :=
| PDegenerate (reason : string) | PStep (reason : string) | PControl (reason : string) | PBelowMinimum (reason : string) | PFailed (reason : string)
| PCoefficient (degree order : N) | PDegreeRange (requested max : N) | PPartials | PContext (what : string) | POther.
(** [DynamicsError::into_principia] (errors.rs 64-90). *)
Definition into_principia (e : dyn_err) : prin_err :=
  match e with
  | EEphemeris => PContext "ephemeris"
  | EEop => PContext "eop"
  | ECoefficient n m => PCoefficient n m
  | EBelowSurface => PDegenerate "altitude below surface"
  | EDegenerate r => PDegenerate r
  | EStep r => PStep r
  | EAtmosphere => PContext "atmosphere"
  | EProvider => PContext "provider"
  | EGravityField => PContext "gravity field"
  | EDegreeRange a b => PDegreeRange a b
  end.
(** [From<PrincipiaError> for DynamicsError] (errors.rs 92-130). *)
Definition from_principia (e : prin_err) : dyn_err :=
  match e with
  | PDegenerate r => EDegenerate r
  | PStep r | PControl r | PBelowMinimum r | PFailed r => EStep r
  | PCoefficient n m => ECoefficient n m
  | PDegreeRange a b => EDegreeRange a b
  | PPartials => EProvider
  | PContext w =>
      if String.eqb w "ephemeris" then EEphemeris
      else if String.eqb w "eop" then EEop
      else if String.eqb w "gravity" || String.eqb w "gravity field" then EGravityField
      else if String.eqb w "atmosphere" then EAtmosphere
      else EProvider
  | POther => EProvider
  end.
(** [SiderustDynamicsStatus] (dynamics.rs 106-133). *)
Inductive dstatus := DOk | DNull | DEphemeris | DEop | DCoefficient | DBelowSurface | DDegenerate | DStep | DAtmosphere | DProvider | DGravityField | DDegreeRange | DPanic.
(** its [repr(i32)] values. *)
Definition dcode (s : dstatus) : N :=
  match s with
  | DOk => 0 | DNull => 1 | DEphemeris => 2 | DEop => 3 | DCoefficient => 4 | DBelowSurface => 5 | DDegenerate => 6
  | DStep => 7 | DAtmosphere => 8 | DProvider => 9 | DGravityField => 10 | DDegreeRange => 11 | DPanic => 99
  end%N.
(** [SiderustDynamicsStatus::from_dynamics_error] (dynamics.rs 136-153). *)
Definition from_dynamics_error (e : dyn_err) : dstatus :=
  match e with
  | EEphemeris => DEphemeris | EEop => DEop | ECoefficient _ _ => DCoefficient | EBelowSurface => DBelowSurface
  | EDegenerate _ => DDegenerate | EStep _ => DStep | EAtmosphere => DAtmosphere | EProvider => DProvider
  | EGravityField => DGravityField | EDegreeRange _ _ => DDegreeRange
  end.

(** * Callbacks *)
(** [SiderustAtmosphereVtable] (dynamics.rs 172-180). *)
Definition atm_table := R -> rnum.
(** [SiderustGravityVtable] (dynamics.rs 195-210). *)
Record grav_table := { v_gm : rnum; v_radius : rnum; v_degree : N; v_order : N; v_c : N -> N -> rnum; v_s : N -> N -> rnum }.
(** [FfiDensityProvider::density] (dynamics.rs 229-243). *)
Definition density (t : atm_table) (altitude : R) : outcome R dyn_err :=
  let rho := t altitude in
  if negb (finite rho) then Err EProvider
  else if below0 rho then Err EBelowSurface
  else Ok (rv rho).
(** [n as u32] and [n as u16] (dynamics.rs 273-277). *)
Definition as_u32 (n : N) : N := (n mod 4294967296)%N.
Definition as_u16 (n : N) : N := (n mod 65536)%N.
(** [FfiGravityProvider::c_normalized] and [s_normalized] (dynamics.rs 271-293). *)
Definition coefficient (f : N -> N -> rnum) (n m : N) : outcome R prin_err :=
  let v := f (as_u32 n) (as_u32 m) in
  if negb (finite v) then Err (PCoefficient (as_u16 n) (as_u16 m)) else Ok (rv v).

(** * The heap *)
(** [SiderustStatus] (error.rs 11-51), the four used here. *)
Inductive cstatus := COk | CNull | CArgument | CPanic.
(** [OrbitState]: seconds since J2000, position, velocity. *)
Record orbit := { o_epoch : R; o_pos : R * R * R; o_vel : R * R * R }.

Section Heap.
Variable eph : Type.
(** [DynamicsContext] with its three providers (src/astro/dynamics/context.rs;
    the fourth, earth orientation, is never set by this file). *)
Record context := { x_eph : option eph; x_atm : option atm_table; x_grav : option grav_table }.
Definition no_context : context := {| x_eph := None; x_atm := None; x_grav := None |}.
(** The boxes: a context, a runtime ephemeris, an orbit state, a propagator. *)
Inductive box := BContext (x : context) | BEph (e : eph) | BState (s : orbit) | BProp (gm : R).
(** The heap: the boxes by address, and the next address to hand out.
    Simplification: addresses are never reused. *)
Record heap := { h_next : nat; h_at : nat -> option box }.
Definition empty_heap : heap := {| h_next := 1; h_at := fun _ => None |}.
Definition put (h : heap) (a : nat) (b : option box) : heap :=
  {| h_next := h_next h; h_at := fun i => if Nat.eqb i a then b else h_at h i |}.
(** [Box::into_raw(Box::new(..))]. *)
Definition alloc (h : heap) (b : box) : nat * heap :=
  (h_next h, {| h_next := S (h_next h); h_at := fun i => if Nat.eqb i (h_next h) then Some b else h_at h i |}).

(** The external integrator, [propagate_with_context] (dynamics.rs 704-712): the
    error it yields has already been translated by [?]. *)
Variable integrate : R -> orbit -> R -> context -> outcome orbit prin_err.
(** [GM_EARTH]. *)
Variable gm_earth : R.

(** What a call reports: its status and what it wrote through its outputs. *)
Inductive reply :=
| RHandle (s : cstatus) (written : option nat)
| RNumbers (s : cstatus) (written : list R)
| RDynamics (s : dstatus) (written : option nat)
| RNothing.

(** The calls.  A flag [out] says whether the output pointer is non-null. *)
Inductive call :=
| ContextNew (out : bool)
| ContextFree (a : nat)
| WithEphemeris (a e : nat)
| WithAtmosphere (a : nat) (t : option atm_table)
| WithGravity (a : nat) (t : option grav_table)
| StateNew (jd x y z vx vy vz : rnum) (out : bool)
| StateFree (a : nat)
| StatePosition (a : nat) (ox oy oz : bool)
| StateVelocity (a : nat) (ox oy oz : bool)
| StateEpoch (a : nat) (out : bool)
| PropEarth (out : bool)
| PropNew (gm : rnum) (out : bool)
| PropFree (a : nat)
| Propagate (p s : nat) (dt : rnum) (c : nat) (out : bool)
| EphemerisFree (a : nat).

Definition null (a : nat) : bool := Nat.eqb a 0.
(** Dereferencing a pointer to each kind of box. *)
Definition get_context (h : heap) (a : nat) : option context := match h_at h a with Some (BContext x) => Some x | _ => None end.
Definition get_eph (h : heap) (a : nat) : option eph := match h_at h a with Some (BEph e) => Some e | _ => None end.
Definition get_state (h : heap) (a : nat) : option orbit := match h_at h a with Some (BState s) => Some s | _ => None end.
Definition get_prop (h : heap) (a : nat) : option R := match h_at h a with Some (BProp g) => Some g | _ => None end.
(** [JulianDate::new(jd).to_j2000s()] and [epoch.to::<JD>()] (dynamics.rs 476, 556). *)
Definition j2000s (jd : R) : R := (jd - 2451545) * 86400.
Definition to_jd (t : R) : R := t / 86400 + 2451545.

(** One call.  siderust_dynamics_context_new (dynamics.rs 321-335), _free
    (343-347), _with_ephemeris (356-371), _with_atmosphere (384-400),
    _with_gravity_field (413-433), siderust_orbit_state_new (458-485), _free
    (493-497), _position (501-520), _velocity (524-543), _epoch_jd (547-560),
    siderust_propagator_two_body_earth_new (582-596), _two_body_new (606-624),
    _free (632-636), _propagate (652-697), and
    siderust_runtime_ephemeris_free (runtime_ephemeris.rs). *)
Definition step (h : heap) (c : call) : option (heap * reply) :=
  match c with
  | ContextNew out =>
      if negb out then Some (h, RHandle CNull None)
      else let '(a, h') := alloc h (BContext no_context) in Some (h', RHandle COk (Some a))
  | ContextFree a =>
      if null a then Some (h, RNothing)
      else match get_context h a with Some _ => Some (put h a None, RNothing) | None => None end
  | WithEphemeris a e =>
      if null a || null e then Some (h, RHandle CNull None)
      else match get_context h a, get_eph h e with
           | Some x, Some v => Some (put h a (Some (BContext {| x_eph := Some v; x_atm := x_atm x; x_grav := x_grav x |})), RHandle COk None)
           | _, _ => None
           end
  | WithAtmosphere a t =>
      if null a then Some (h, RHandle CNull None)
      else match t with
           | None => Some (h, RHandle CNull None)
           | Some t => match get_context h a with
               | Some x => Some (put h a (Some (BContext {| x_eph := x_eph x; x_atm := Some t; x_grav := x_grav x |})), RHandle COk None)
               | None => None
               end
           end
  | WithGravity a t =>
      if null a then Some (h, RHandle CNull None)
      else match t with
           | None => Some (h, RHandle CNull None)
           | Some t =>
               if negb (finite (v_gm t)) || atmost0 (v_gm t) || negb (finite (v_radius t)) || atmost0 (v_radius t) then Some (h, RHandle CArgument None)
               else match get_context h a with
               | Some x => Some (put h a (Some (BContext {| x_eph := x_eph x; x_atm := x_atm x; x_grav := Some t |})), RHandle COk None)
               | None => None
               end
           end
  | StateNew jd x y z vx vy vz out =>
      if negb out then Some (h, RHandle CNull None)
      else if negb (forallb finite [jd; x; y; z; vx; vy; vz]) then Some (h, RHandle CArgument None)
      else let '(a, h') := alloc h (BState {| o_epoch := j2000s (rv jd); o_pos := (rv x, rv y, rv z); o_vel := (rv vx, rv vy, rv vz) |}) in
           Some (h', RHandle COk (Some a))
  | StateFree a =>
      if null a then Some (h, RNothing)
      else match get_state h a with Some _ => Some (put h a None, RNothing) | None => None end
  | StatePosition a ox oy oz =>
      if null a || negb ox || negb oy || negb oz then Some (h, RNumbers CNull [])
      else match get_state h a with
           | Some s => let '(x, y, z) := o_pos s in Some (h, RNumbers COk [x; y; z])
           | None => None
           end
  | StateVelocity a ox oy oz =>
      if null a || negb ox || negb oy || negb oz then Some (h, RNumbers CNull [])
      else match get_state h a with
           | Some s => let '(x, y, z) := o_vel s in Some (h, RNumbers COk [x; y; z])
           | None => None
           end
  | StateEpoch a out =>
      if null a || negb out then Some (h, RNumbers CNull [])
      else match get_state h a with Some s => Some (h, RNumbers COk [to_jd (o_epoch s)]) | None => None end
  | PropEarth out =>
      if negb out then Some (h, RHandle CNull None)
      else let '(a, h') := alloc h (BProp gm_earth) in Some (h', RHandle COk (Some a))
  | PropNew gm out =>
      if negb out then Some (h, RHandle CNull None)
      else if negb (finite gm) || atmost0 gm then Some (h, RHandle CArgument None)
      else let '(a, h') := alloc h (BProp (rv gm)) in Some (h', RHandle COk (Some a))
  | PropFree a =>
      if null a then Some (h, RNothing)
      else match get_prop h a with Some _ => Some (put h a None, RNothing) | None => None end
  | Propagate p s dt c out =>
      if null p || null s || negb out then Some (h, RDynamics DNull None)
      else if negb (finite dt) then Some (h, RDynamics DStep None)
      else match get_prop h p, get_state h s, (if null c then Some no_context else get_context h c) with
           | Some gm, Some s0, Some x =>
               match integrate gm s0 (rv dt) x with
               | Ok s1 => let '(a, h') := alloc h (BState s1) in Some (h', RDynamics DOk (Some a))
               | Err e => Some (h, RDynamics (from_dynamics_error (from_principia e)) None)
               | Panic => Some (h, RDynamics DPanic None)
               end
           | _, _, _ => None
           end
  | EphemerisFree a =>
      if null a then Some (h, RNothing)
      else match get_eph h a with Some _ => Some (put h a None, RNothing) | None => None end
  end.
(** A program: the calls made one after another, with the replies. *)
Fixpoint run (h : heap) (cs : list call) : option (heap * list reply) :=
  match cs with
  | [] => Some (h, [])
  | c :: cs => match step h c with
               | Some (h', r) => match run h' cs with Some (h'', rs) => Some (h'', r :: rs) | None => None end
               | None => None
               end
  end.
End Heap.

(** * Spacecraft properties *)
Inductive craft_err := BadMass | BadDragArea | BadSrpArea | BadCd | BadCr.
(** [SpacecraftProperties] (state.rs 40-56). *)
Record craft := { k_mass : R; k_drag_area : R; k_cd : R; k_srp_area : R; k_cr : R; k_drag_ratio : R; k_srp_ratio : R }.
(** [SpacecraftProperties::try_new] (state.rs 111-152). *)
Definition try_new (mass drag_area cd srp_area cr : rnum) : outcome craft craft_err :=
  if negb (finite mass) || atmost0 mass then Err BadMass
  else if negb (finite drag_area) || below0 drag_area then Err BadDragArea
  else if negb (finite srp_area) || below0 srp_area then Err BadSrpArea
  else if negb (finite cd) || below0 cd then Err BadCd
  else if negb (finite cr) || below0 cr then Err BadCr
  else Ok {| k_mass := rv mass; k_drag_area := rv drag_area; k_cd := rv cd; k_srp_area := rv srp_area; k_cr := rv cr;
             k_drag_ratio := rv drag_area / rv mass; k_srp_ratio := rv srp_area / rv mass |}.
(** [SpacecraftProperties::new] (state.rs 66-75): [expect]. *)
Definition new (mass drag_area cd srp_area cr : rnum) : outcome craft craft_err :=
  match try_new mass drag_area cd srp_area cr with Ok k => Ok k | _ => Panic end.
