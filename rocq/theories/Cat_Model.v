(** Large star catalogues (src/catalogs/record.rs, src/catalogs/catalog.rs): proper motion, filters and cone searches.
    Floating-point numbers are taken as real numbers; not-a-number inputs are not modelled. *)
From Coq Require Import Reals List Bool.
From Verif Require Import Base Ang.
Import ListNotations.
Local Open Scope R_scope.

(** record.rs:15-41; angles in radians; parallax, radial velocity and the BP and RP magnitudes are carried but never read *)
Record crecord := CRecord { c_id : nat; c_ra : R; c_dec : R; c_epoch : R; c_pmra : option R; c_pmdec : option R; c_gmag : option R; c_quality : bool }.
(** record.rs:74-80 *)
Record cfilter := CFilter { f_max_g : option R; f_quality : option bool }.

(** record.rs:52 *)
Definition mas_to_rad : R := (PI / 180) / 3600000.
(** record.rs:47-70 *)
Definition propagate_to (r : crecord) (t : R) : R * R :=
  match c_pmra r, c_pmdec r with
  | Some mu_a, Some mu_d =>
      let dt := t - c_epoch r in
      let cos_d := cos (c_dec r) in
      let d_ra := if Rlt_dec (/ 1000000000000) (Rabs cos_d) then mu_a * mas_to_rad * dt / cos_d else 0 in
      let d_dec := mu_d * mas_to_rad * dt in
      let ra := rem_e (c_ra r + d_ra) (2 * PI) in
      let dec := c_dec r + d_dec in
      if Rlt_dec (PI / 2) dec then (rem_e (ra + PI) (2 * PI), PI - dec)
      else if Rlt_dec dec (- (PI / 2)) then (rem_e (ra + PI) (2 * PI), - PI - dec)
      else (ra, dec)
  | _, _ => (c_ra r, c_dec r)
  end.

(** record.rs:82-98 *)
Definition passes_filter (r : crecord) (f : cfilter) : bool :=
  match f_max_g f with
  | Some m => match c_gmag r with Some g => if Rlt_dec m g then false else true | None => false end
  | None => true
  end &&
  match f_quality f with Some q => Bool.eqb (c_quality r) q | None => true end.

(** record.rs:108-112; the square root of a negative number is not a number, and [min] of that and one is one *)
Definition cone_distance (ra dec c_ra c_dec : R) : R :=
  let s := sin (dec - c_dec) in
  let s2 := sin ((ra - c_ra) / 2) in
  let a := (s / 2) ^ 2 + cos dec * cos c_dec * s2 * s2 in
  2 * asin (if Rlt_dec a 0 then 1 else Rmin (sqrt a) 1).
(** record.rs:101-114 *)
Definition inside_cone (ra dec c_ra c_dec radius : R) : bool := if Rle_dec (cone_distance ra dec c_ra c_dec) radius then true else false.

(** catalog.rs:54-67 *)
Definition cone_search (rs : list crecord) (ra dec radius : R) (f : cfilter) : list crecord :=
  filter (fun r => inside_cone (c_ra r) (c_dec r) ra dec radius && passes_filter r f) rs.
(** catalog.rs:72-87 *)
Definition cone_search_at_epoch (rs : list crecord) (ra dec radius t : R) (f : cfilter) : list crecord :=
  filter (fun r => let (a, d) := propagate_to r t in inside_cone a d ra dec radius && passes_filter r f) rs.
(** [slice::chunks]: consecutive pieces of [n] records, the last one shorter *)
Fixpoint chunks_fuel {A} (fuel n : nat) (l : list A) : list (list A) :=
  match fuel, l with S k, _ :: _ => firstn n l :: chunks_fuel k n (skipn n l) | _, _ => [] end.
Definition chunks {A} (n : nat) (l : list A) : list (list A) := chunks_fuel (length l) n l.
(** catalog.rs:92-110 *)
Definition cone_search_chunked (rs : list crecord) (ra dec radius : R) (f : cfilter) (n : nat) : list (list crecord) :=
  map (fun c => cone_search c ra dec radius f) (chunks (Nat.max n 1) rs).
