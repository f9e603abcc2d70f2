(** Prepared orbit handles of the C interface: siderust-ffi/src/coordinates.rs:1149-1232.

    Memory is the list of live boxes by address. Where the allocator puts a new box is a parameter. Validation of the elements
    (PreparedOrbit::try_from_elements), of dates (jd_from_f64) and propagation are parameters; a panic of the propagation is [None]
    (ffi_guard! turns it into a status); a panic of the validation or of the allocator is not modelled.
    Reading or freeing an address that holds no live box is undefined behaviour: [None] for the whole call. Writing through an output
    pointer that is neither null nor valid is not modelled. *)
From Coq Require Import List NArith Bool.
Import ListNotations.
Local Open Scope N_scope.

Inductive status := SOk | SNull | SInvalid | SPanic.
(** types.rs: the frame, center and unit of what is written *)
Inductive center := Barycentric | Heliocentric | Geocentric.
Inductive unit_ := AU | KM.
Inductive frame := EclipticMeanJ2000 | ICRS.
Section Prepared.
Context {elements prepared scalar date vec : Type}.
Context (epoch : elements -> scalar) (check : elements -> date -> option prepared) (jd_of : scalar -> option date) (propagate : prepared -> date -> option vec) (fresh : list N -> N).
(** coordinates.rs:1049-1065 *)
Record cartesian := Cartesian { c_xyz : vec; c_frame : frame; c_center : center; c_unit : unit_ }.
Definition write_ecliptic_au_position (v : vec) (c : center) : cartesian := Cartesian v EclipticMeanJ2000 c AU.
Definition heap := list (N * prepared).
Fixpoint lookup (h : heap) (a : N) : option prepared := match h with [] => None | (b, p) :: t => if a =? b then Some p else lookup t a end.
Fixpoint remove (h : heap) (a : N) : heap := match h with [] => [] | (b, p) :: t => if a =? b then t else (b, p) :: remove t a end.
(** coordinates.rs:1169-1194; what is written to the handle *)
Definition create (h : heap) (e : elements) (out_null : bool) : status * option N * heap :=
  if out_null then (SNull, None, h) else
  match jd_of (epoch e) with
  | None => (SInvalid, None, h)
  | Some d =>
      match check e d with
      | None => (SInvalid, None, h)
      | Some p => let a := fresh (map fst h) in (SOk, Some a, (a, p) :: h)
      end
  end.
(** coordinates.rs:1201-1215; what is written to the position *)
Definition position (h : heap) (a : N) (jd : scalar) (out_null : bool) : option (status * option cartesian) :=
  if (a =? 0) || out_null then Some (SNull, None) else
  match lookup h a with
  | None => None
  | Some p =>
      Some match jd_of jd with
           | None => (SInvalid, None)
           | Some d => match propagate p d with None => (SPanic, None) | Some v => (SOk, Some (write_ecliptic_au_position v Heliocentric)) end
           end
  end.
(** coordinates.rs:1221-1232 *)
Definition destroy (h : heap) (a : N) : option (status * heap) :=
  if a =? 0 then Some (SNull, h) else match lookup h a with None => None | Some _ => Some (SOk, remove h a) end.

(** a caller *)
Inductive op := Create (e : elements) (out_null : bool) | Position (a : N) (jd : scalar) (out_null : bool) | Destroy (a : N).
Inductive reply := RHandle (s : status) (a : option N) | RPlace (s : status) (p : option cartesian) | RStatus (s : status).
Definition step (h : heap) (o : op) : option (heap * reply) :=
  match o with
  | Create e n => let '(s, a, h') := create h e n in Some (h', RHandle s a)
  | Position a jd n => match position h a jd n with Some (s, p) => Some (h, RPlace s p) | None => None end
  | Destroy a => match destroy h a with Some (s, h') => Some (h', RStatus s) | None => None end
  end.
Fixpoint run (h : heap) (os : list op) : option (heap * list reply) :=
  match os with
  | [] => Some (h, [])
  | o :: t => match step h o with
              | None => None
              | Some (h', r) => match run h' t with None => None | Some (h'', rs) => Some (h'', r :: rs) end
              end
  end.
End Prepared.
