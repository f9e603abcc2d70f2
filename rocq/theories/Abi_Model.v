(** The C interface: arrays, handles, names, subjects and targets
    (siderust-ffi/src/ffi_utils.rs, altitude.rs, subject.rs, phase.rs,
    target.rs, bodies.rs, oem.rs, sgp4.rs, lambert.rs, sampling.rs). *)
From Coq Require Import ZArith NArith QArith Ascii String List Reals Bool.
From Verif Require Import Base Text DecFloat Fnum Ang Mat3 Geom_Model Conic_Model Ffi_Model.
Import ListNotations.
Local Open Scope nat_scope.

(** * Arrays and handles given to C

    The memory the library allocates is a partial map from addresses to
    blocks. A block remembers the type it was allocated for ([tag]) and its
    values. Address 0 is null. Giving a block back under another type or
    another length, or giving back an address that holds no block, is
    undefined behaviour, written [None]. *)
Section Memory.
Variable V : Type.
Record block := Block { b_tag : nat; b_items : list V }.
Definition memory := N -> option block.
(** The allocator: any function choosing the address of the next block. *)
Variable fresh : memory -> N.
(** The address an empty boxed slice has: the alignment, not an allocation. *)
Variable dangling : N.

Definition upd (h : memory) (a : N) (b : option block) : memory := fun x => if (x =? a)%N then b else h x.
(** [Box::into_raw] *)
Definition into_raw (h : memory) (tag : nat) (l : list V) : N * memory :=
  match l with
  | [] => (dangling, h)
  | _ => let a := fresh h in (a, upd h a (Some (Block tag l)))
  end.
(** Dropping [Box::from_raw] *)
Definition drop_raw (h : memory) (tag : nat) (a : N) (len : nat) : option memory :=
  match h a with
  | Some b => if Nat.eqb (b_tag b) tag && Nat.eqb (length (b_items b)) len then Some (upd h a None) else None
  | None => None
  end.
(** [vec_to_c] (ffi_utils.rs 414-440): status, what the two outputs receive, memory. *)
Definition vec_to_c (h : memory) (tag : nat) (l : list V) (null_out null_count : bool) : status * option (N * nat) * memory :=
  if null_out || null_count then (SNullPointer, None, h) else
  let '(a, h') := into_raw h tag l in (SOk, Some (a, length l), h').
(** [free_boxed_slice] (ffi_utils.rs 450-456) *)
Definition free_boxed_slice (h : memory) (tag : nat) (a : N) (count : nat) : option memory :=
  if negb (a =? 0)%N && Nat.ltb 0 count then drop_raw h tag a count else Some h.
(** The end of [siderust_oem_parse_str] (oem.rs 97-118): null when empty. *)
Definition oem_to_c (h : memory) (tag : nat) (l : list V) : N * nat * memory :=
  match l with
  | [] => (0%N, 0, h)
  | _ => let '(a, h') := into_raw h tag l in (a, length l, h')
  end.
(** [siderust_oem_states_free] (oem.rs 130-140) *)
Definition oem_free (h : memory) (tag : nat) (a : N) (count : nat) : option memory :=
  if (a =? 0)%N || Nat.eqb count 0 then Some h else drop_raw h tag a count.
(** Handles: a box of one value (bodies.rs 72-74 and the other constructors)
    and the free functions (bodies.rs 158-166, target.rs 263-270, sgp4.rs, ...). *)
Definition new_handle (h : memory) (tag : nat) (v : V) : N * memory := into_raw h tag [v].
Definition free_handle (h : memory) (tag : nat) (a : N) : option memory := if (a =? 0)%N then Some h else drop_raw h tag a 1.
End Memory.
Arguments Block {V}. Arguments b_tag {V}. Arguments b_items {V}. Arguments upd {V}. Arguments into_raw {V}. Arguments drop_raw {V}. Arguments vec_to_c {V}.
Arguments free_boxed_slice {V}. Arguments oem_to_c {V}. Arguments oem_free {V}. Arguments new_handle {V}. Arguments free_handle {V}.

(** * Names of stars *)
(** [CStr::from_ptr]: the bytes before the first NUL. *)
Fixpoint c_str (b : list N) : list N := match b with [] => [] | c :: b' => if (c =? 0)%N then [] else c :: c_str b' end.
(** The name taken by [siderust_star_create] (bodies.rs 107-114); [utf8] is the
    check of [CStr::to_str]. *)
Definition created_name (utf8 : list N -> bool) (text : list N) : status + list N :=
  let s := c_str text in if utf8 s then inr s else inl SInvalidArgument.
(** [siderust_star_name] (bodies.rs 171-197): the buffer of [buf_len] bytes
    after the call and what [written] receives. *)
Definition star_name (name : list N) (buf : list N) (buf_len : nat) (null_handle null_buf null_written : bool) : status * list N * option nat :=
  if null_handle || null_buf then (SNullPointer, buf, None) else
  if Nat.ltb buf_len (length name + 1) then (SInvalidArgument, buf, None) else
  (SOk, name ++ 0%N :: skipn (length name + 1) buf, if null_written then None else Some (length name)).
(** [siderust_star_catalog] (bodies.rs 43-82) for names in ASCII; the Unicode
    part of [to_uppercase] is left out. *)
Definition upper_ascii (c : ascii) : ascii :=
  let n := nat_of_ascii c in if (Nat.leb 97 n && Nat.leb n 122)%bool then ascii_of_nat (n - 32) else c.
Fixpoint upper (s : string) : string := match s with EmptyString => EmptyString | String c s' => String (upper_ascii c) (upper s') end.
Local Open Scope string_scope.
Inductive star_id := Vega | Sirius | Polaris | Canopus | Arcturus | Rigel | Betelgeuse | Procyon | Aldebaran | Altair.
Definition catalog_arms : list (string * star_id) :=
  [("VEGA", Vega); ("SIRIUS", Sirius); ("POLARIS", Polaris); ("CANOPUS", Canopus); ("ARCTURUS", Arcturus); ("RIGEL", Rigel); ("BETELGEUSE", Betelgeuse);
   ("PROCYON", Procyon); ("ALDEBARAN", Aldebaran); ("ALTAIR", Altair)].
Local Close Scope string_scope.
Definition star_catalog (s : string) : option star_id :=
  match find (fun p => String.eqb (upper s) (fst p)) catalog_arms with Some p => Some (snd p) | None => None end.

(** * Searches *)
(** [window_from_c] (altitude.rs 17-28): the comparison comes before the
    check for finite numbers. *)
Definition finite (a : fnum) : option Q := match a with Fin q => Some q | _ => None end.
Definition window_from_c (start stop : fnum) : status + (Q * Q) :=
  if flt stop start then inl SInvalidPeriod else
  match finite start, finite stop with Some a, Some b => inr (a, b) | _, _ => inl SInvalidArgument end.
(** [SiderustSearchOpts::try_to_rust] (types.rs 734-742) *)
Definition search_opts (tol : fnum) : status + Q :=
  match tol with Fin q => if Qle_bool q 0 then inl SInvalidArgument else inr q | _ => inl SInvalidArgument end.

(** What a search looks at: a body, or a fixed direction in ICRS given by right
    ascension and declination in degrees. *)
Inductive provider := PBody (b : cbody) | PFixed (ra dec : R).

(** Targets (target.rs) *)
Record motion := Motion { pm_ra : R; pm_dec : R; pm_star : bool }.
Inductive coord :=
  | SphericalDir (polar azimuth : R) (f : frame)
  | SphericalPos (lon lat distance : option R) (f : frame) (c : ccenter) (u : lunit)
  | CartesianPos (x y z : option R) (f : frame) (c : ccenter) (u : lunit).
Record tdata := TData { td_coord : coord; td_epoch : option R; td_motion : option motion }.
Record target := Target { tg_dir : R * R; tg_epoch : R; tg_motion : option motion; tg_data : tdata }.
Local Open Scope R_scope.
(** [icrs_direction_from_spherical_dir] (target.rs 74-117): (polar, azimuth) in ICRS *)
Definition icrs_direction (m : rotations) (polar azimuth : R) (f : frame) (t : R) : status + (R * R) :=
  match f with
  | ICRS => inr (polar, azimuth)
  | ICRF | EclipticMeanJ2000 | EquatorialMeanJ2000 | EquatorialMeanOfDate | EquatorialTrueOfDate =>
      inr (sph_of (into_icrs m f t (cart_of polar azimuth)))
  | _ => inl SInvalidFrame
  end.
(** [direction_payload_from_spherical_pos] (target.rs 119-134) *)
Definition payload_spherical (lon lat distance : option R) : status + (R * R) :=
  match lon, lat, distance with
  | Some a, Some p, Some d => if Rle_dec d 0 then inl SInvalidArgument else inr (p, a)
  | _, _, _ => inl SInvalidArgument
  end.
(** [direction_payload_from_cartesian_pos] (target.rs 136-161); the squares do
    not overflow here. *)
Definition epsilon : R := / 2 ^ 52.
Definition payload_cartesian (x y z : option R) : status + (R * R) :=
  match x, y, z with
  | Some x, Some y, Some z =>
      let n := sqrt (x * x + y * y + z * z) in
      if Rle_dec n epsilon then inl SInvalidArgument else
      let x := x / n in let y := y / n in let z := z / n in
      inr (deg (atan2 z (sqrt (x * x + y * y))), rem_e (deg (atan2 y x)) 360)
  | _, _, _ => inl SInvalidArgument
  end.
(** [build_inner_target] (target.rs 163-187) and [siderust_generic_target_create]
    (target.rs 193-213) *)
Definition target_create (m : rotations) (d : tdata) (null : bool) : status * option target :=
  if null then (SNullPointer, None) else
  match td_epoch d with
  | None => (SInvalidArgument, None)
  | Some t =>
      let src := match td_coord d with
        | SphericalDir p a f => inr (p, a, f)
        | SphericalPos lon lat dist f _ _ => match payload_spherical lon lat dist with inl s => inl s | inr (p, a) => inr (p, a, f) end
        | CartesianPos x y z f _ _ => match payload_cartesian x y z with inl s => inl s | inr (p, a) => inr (p, a, f) end
        end in
      match src with
      | inl s => (s, None)
      | inr (p, a, f) =>
          match icrs_direction m p a f t with
          | inl s => (s, None)
          | inr dir => (SOk, Some (Target dir t (td_motion d) d))
          end
      end
  end.
(** [siderust_generic_target_create_icrs] and [.._with_pm] (target.rs 216-277) *)
Definition target_icrs (m : rotations) (ra dec : R) (epoch : option R) (pm : option motion) (null : bool) : status * option target :=
  target_create m (TData (SphericalDir dec ra ICRS) epoch pm) null.
(** [siderust_generic_target_get_data], [siderust_generic_target_epoch_jd] (target.rs 292-323) *)
Definition target_data (g : target) : tdata := tg_data g.
Definition target_epoch (g : target) : option R := td_epoch (tg_data g).

(** Stars: J2000 coordinates with an epoch and perhaps a proper motion
    (bodies.rs 94-152). *)
Record star := Star { st_ra : R; st_dec : R; st_distance : R; st_epoch : R; st_motion : option motion }.
(** [SiderustSubject] (types.rs 264-275); null handles are [None]. *)
Inductive kind := KBody | KStar | KIcrs | KTarget.
Record subject := Subject { su_kind : kind; su_body : cbody; su_star : option star; su_dir : sdir; su_target : option target }.
(** [dispatch_subject!] (ffi_utils.rs 160-197) with the providers of
    src/event/altitude/provider.rs 241-274 and src/bodies/stars.rs 225-234. *)
Definition dispatch (s : subject) : status + provider :=
  match su_kind s with
  | KBody => inr (PBody (su_body s))
  | KStar => match su_star s with None => inl SNullPointer | Some st => inr (PFixed (st_ra st) (st_dec st)) end
  | KIcrs => inr (PFixed (sd_azimuth (su_dir s)) (sd_polar (su_dir s)))
  | KTarget => match su_target s with None => inl SNullPointer | Some g => inr (PFixed (snd (tg_dir g)) (fst (tg_dir g))) end
  end.
(** [siderust_altitude_at], [siderust_azimuth_at] (subject.rs 36-59, 242-265) *)
Definition instant_at {A} (value : provider -> Q -> A) (s : subject) (mjd : fnum) (null : bool) : reply A :=
  if null then (SNullPointer, None) else
  match dispatch s with
  | inl e => (e, None)
  | inr p => match finite mjd with None => (SInvalidArgument, None) | Some t => (SOk, Some (value p t)) end
  end.
(** The nine searches of subject.rs 65-236 and 271-400: window, options, then
    the subject, and the output pointers only after the search. *)
Definition search {E} (run : provider -> Q * Q -> Q -> list E) (s : subject) (start stop tol : fnum) (null_out null_count : bool) : reply (list E) :=
  match window_from_c start stop with
  | inl e => (e, None)
  | inr w =>
      match search_opts tol with
      | inl e => (e, None)
      | inr q =>
          match dispatch s with
          | inl e => (e, None)
          | inr p => let l := run p w q in if null_out || null_count then (SNullPointer, None) else (SOk, Some l)
          end
      end
  end.
(** The four searches of phase.rs 147-262: [search_opts_to_phase] takes the
    tolerance as it is. *)
Definition phase_search {E} (run : Q * Q -> fnum -> list E) (start stop tol : fnum) (null_out null_count : bool) : reply (list E) :=
  match window_from_c start stop with
  | inl e => (e, None)
  | inr w => let l := run w tol in if null_out || null_count then (SNullPointer, None) else (SOk, Some l)
  end.

(** * Codes taken as plain integers *)
(** [siderust_sgp4_new] and [siderust_sgp4_gravity_model] (sgp4.rs) *)
Inductive sgp4_model := Wgs72 | Wgs72Iau | Wgs84.
Definition sgp4_of_code (c : Z) : sgp4_model := if (c =? 1)%Z then Wgs72Iau else if (c =? 2)%Z then Wgs84 else Wgs72.
Definition sgp4_code (m : sgp4_model) : Z := match m with Wgs72 => 0 | Wgs72Iau => 1 | Wgs84 => 2 end.
(** [siderust_lambert_solve] (lambert.rs): true for the retrograde branch *)
Definition lambert_retrograde (c : Z) : bool := (c =? 1)%Z.
