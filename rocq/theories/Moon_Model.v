(** The Moon's altitude from cached positions and nutation, over the reals
    (src/event/lunar/moon_cache.rs; f64 rounding is not modelled). *)
From Coq Require Import List PeanoNat ZArith Bool Reals.
From Verif Require Import Base Mat3 Ang Horiz_Model Geom_Model Jpl_Model Cheb.
Import ListNotations.
Local Open Scope R_scope.

(** Rust's [as usize] of a float: toward zero, below zero gives 0 *)
Definition as_usize (x : R) : nat := Z.to_nat (trunc x).
(** Rust's [ceil] *)
Definition ceil (x : R) : Z := (- Int_part (- x))%Z.

(** moon_cache.rs:71-74 *)
Definition cheb_nodes : nat := 9.
Definition segment_days : R := 4.
(** moon_cache.rs:82 *)
Definition nut_step : R := 2 / 24.

(** A table read; reading past the end panics *)
Definition get {A} (l : list A) (i : nat) : outcome A unit := match nth_error l i with Some a => Ok a | None => Panic end.

Section POSITION.
  (** The full ephemeris, by date (moon_cache.rs:150-153, 209-217) *)
  Variable truth : R -> vec.
  (** moon_cache.rs:93-105 *)
  Record pos_cache := { p_start : R; p_num : nat; p_x : list (list R); p_y : list (list R); p_z : list (list R) }.
  Definition coord_x (v : vec) : R := let '(x, _, _) := v in x.
  Definition coord_y (v : vec) : R := let '(_, y, _) := v in y.
  Definition coord_z (v : vec) : R := let '(_, _, z) := v in z.
  (** the samples of one segment (moon_cache.rs:134-153) *)
  Definition segment_samples (t0 : R) (seg : nat) : list vec :=
    let mid := t0 + INR seg * segment_days + segment_days * (1 / 2) in
    map (fun x => truth (mid + segment_days * (1 / 2) * x)) (nodes cheb_nodes).
  (** moon_cache.rs:122-168 *)
  Definition pos_new (start stop : R) : pos_cache :=
    let t0 := start - 1 in
    let span := stop + 1 - t0 in
    let num := Nat.max (Z.to_nat (ceil (span / segment_days))) 1 in
    let fitted coord := map (fun seg => fit_coeffs (map coord (segment_samples t0 seg))) (seq 0 num) in
    {| p_start := t0; p_num := num; p_x := fitted coord_x; p_y := fitted coord_y; p_z := fitted coord_z |}.
  (** moon_cache.rs:182-206 *)
  Definition get_position (c : pos_cache) (mjd : R) : outcome vec unit :=
    let offset := mjd - p_start c in
    if rltb offset 0 then Ok (truth mjd) else
    let idx := as_usize (offset / segment_days) in
    if (p_num c <=? idx)%nat then Ok (truth mjd) else
    let mid := p_start c + INR idx * segment_days + segment_days * (1 / 2) in
    let x := (mjd - mid) / (segment_days * (1 / 2)) in
    (cx <- get (p_x c) idx ;; cy <- get (p_y c) idx ;; cz <- get (p_z c) idx ;;
     Ok (evaluate cx x, evaluate cy x, evaluate cz x))%outcome.
End POSITION.

Section NUTATION.
  (** The full series: nutation in longitude, in obliquity, mean obliquity (moon_cache.rs:254-255, 301-305) *)
  Variable series : R -> vec.
  (** moon_cache.rs:225-231 *)
  Record nut_cache := { n_start : R; n_num : nat; n_values : list vec }.
  (** moon_cache.rs:242-263 *)
  Definition nut_new (start stop : R) : nut_cache :=
    let t0 := start - 1 in
    let t1 := stop + 1 in
    let num := (Z.to_nat (ceil ((t1 - t0) / nut_step)) + 1)%nat in
    {| n_start := t0; n_num := num; n_values := map (fun i => series (t0 + INR i * nut_step)) (seq 0 num) |}.
  Definition lerp (t a b : R) : R := a + t * (b - a).
  (** moon_cache.rs:276-299 *)
  Definition get_nutation (c : nut_cache) (mjd : R) : outcome vec unit :=
    let offset := mjd - n_start c in
    if rltb offset 0 then Ok (series mjd) else
    let frac := offset / nut_step in
    let idx := as_usize frac in
    if (n_num c <=? idx + 1)%nat then Ok (series mjd) else
    let t := frac - INR idx in
    (a <- get (n_values c) idx ;; b <- get (n_values c) (idx + 1) ;;
     Ok (lerp t (coord_x a) (coord_x b), lerp t (coord_y a) (coord_y b), lerp t (coord_z a) (coord_z b)))%outcome.
End NUTATION.

(** affn's [Rotation3::rx] and [rz] turn the vector: the inverse of the frame rotations r1 and r3 *)
Definition rx (a : R) : mat := r1 (- a).
Definition rz (a : R) : mat := r3 (- a).
(** moon_cache.rs:315-320; src/astro/nutation/mod.rs:341-346 *)
Definition nutation_matrix (n : vec) : mat :=
  let '(dpsi, deps, eps0) := n in mul (mul (rx (eps0 + deps)) (rz dpsi)) (rx (- eps0)).

Section ALTITUDE.
  Variable truth series : R -> vec.
  (** The Earth orientation (src/coordinates), the precession matrix and the apparent sidereal time as a
      function of the date, nutation in longitude and mean obliquity: all external to this file *)
  Variable itrs prec : R -> mat.
  Variable gast : R -> R -> R -> R.
  (** The J2000 obliquity (moon_cache.rs:78-79) *)
  Variable obliquity : R.
  (** moon_cache.rs:336-344 *)
  Record context := { x_pos : pos_cache; x_nut : nut_cache; x_site : vec; x_lat : R; x_lon : R }.
  (** moon_cache.rs:362-384; the site's Cartesian position is a parameter *)
  Definition context_new (start stop : R) (site : vec) (lat lon : R) : context :=
    {| x_pos := pos_new truth start stop; x_nut := nut_new series start stop; x_site := site; x_lat := lat; x_lon := lon |}.
  (** moon_cache.rs:416-421 *)
  Definition to_equatorial (p : vec) : vec := let '(x, y, z) := p in (x, cos obliquity * y - sin obliquity * z, sin obliquity * y + cos obliquity * z).
  (** steps 2-7 (moon_cache.rs:416-473) for given position and nutation *)
  Definition altitude_of (mjd : R) (site : vec) (lat lon : R) (p n : vec) : R :=
    let topo := vminus (to_equatorial p) (apply (itrs mjd) site) in
    let '(x, y, z) := apply (nutation_matrix n) (apply (prec mjd) topo) in
    let ra := atan2 y x in
    let dec := atan2 z (sqrt (x * x + y * y)) in
    let lst := gast mjd (coord_x n) (coord_z n) + lon in
    let ha := rem_e (lst - ra) (2 * PI) in
    asin (sin dec * sin lat + cos dec * cos lat * cos ha).
  (** moon_cache.rs:405-474 *)
  Definition altitude_rad (c : context) (mjd : R) : outcome R unit :=
    (p <- get_position truth (x_pos c) mjd ;; n <- get_nutation series (x_nut c) mjd ;;
     Ok (altitude_of mjd (x_site c) (x_lat c) (x_lon c) p n))%outcome.
End ALTITUDE.
