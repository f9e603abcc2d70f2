(** The runtime JPL ephemeris (src/ephemeris/jpl/eval.rs, src/ephemeris/jpl/bodies.rs,
    src/ephemeris/runtime_backend.rs).

    Numbers that the code checks for finiteness are reals with the infinities
    and NaN beside them ([rnum]); the arithmetic after the checks, and the
    coefficient data, are exact reals: rounding and overflow of f64 are not
    modelled, nor the infinities that a record of radius zero would give.  The
    external crate [cheby] is modelled by the three-term recurrence of the
    Chebyshev polynomials. *)
From Coq Require Import List PeanoNat ZArith Reals Bool.
From Verif Require Import Base Noise_Model Mat3 Geom_Model.
Import ListNotations.
Local Open Scope R_scope.

(** eval.rs 49-55 *)
Definition day : R := 86400.
Definition j2000 : R := 2451545.
Definition naif_m0 : R := 6239996 / 1000000.
Definition naif_m1 : R := 199096871 / 1000000000000000.
Definition naif_eb : R := 1671 / 100000.
Definition naif_k : R := 1657 / 1000000.

(** [EphemerisError], the two cases raised here *)
Inductive eph_err := InvalidSegment (init intlen : rnum) (n : nat) | OutOfRange (jd start_jd end_jd : rnum).
Definition res A := outcome A eph_err.

(** One turn of the loop in [jd_tt_to_spice_et_seconds] (eval.rs 93-95) *)
Definition et_step (tt et : R) : R :=
  let mean := naif_m0 + naif_m1 * et in
  let ecc := mean + naif_eb * sin mean in
  tt + naif_k * sin ecc.
(** The loop (eval.rs 92-101) *)
Fixpoint et_loop (fuel : nat) (tt et : R) : R :=
  match fuel with
  | O => et
  | S k => let next := et_step tt et in
           if rltb (Rabs (next - et)) (1 / 1000000000000) then next else et_loop k tt next
  end.
(** [jd_tt_to_spice_et_seconds] (eval.rs 89-102) for a finite date *)
Definition tt_to_et (jd_tt : R) : R := let tt := (jd_tt - j2000) * day in et_loop 5 tt tt.

(** A slice [l[start..start+len]]; a panic when it runs past the end *)
Definition slice {A} (l : list A) (start len : nat) : res (list A) :=
  if (start + len <=? length l)%nat then Ok (firstn len (skipn start l)) else Panic.
Definition index {A} (l : list A) (i : nat) : res A := match nth_error l i with Some x => Ok x | None => Panic end.

(** [f64] comparisons [a <= b]; false for NaN *)
Definition rle (a b : rnum) : bool :=
  match a, b with
  | RF x, RF y => rleb x y
  | RInf true, RF _ | RF _, RInf false | RInf true, RInf _ | RInf false, RInf false => true
  | _, _ => false
  end.
(** [J2000_JD + x / SECONDS_PER_DAY] *)
Definition to_jd (x : rnum) : rnum := match x with RF s => RF (j2000 + s / day) | y => y end.

(** [locate_params_et] (eval.rs 136-170) *)
Definition locate_et (init intlen : rnum) (n : nat) (et : rnum) : res (nat * R) :=
  match init, intlen with
  | RF i, RF len =>
      if (n =? 0)%nat || rleb len 0 then Err (InvalidSegment init intlen n)
      else
        let stop := i + len * INR n in
        let refuse := Err (OutOfRange (to_jd et) (to_jd init) (to_jd (RF stop))) in
        match et with
        | RF t =>
            if rltb t i || rltb stop t then refuse
            else let rel := (t - i) / len in
                 Ok (if rleb (INR n) rel then (n - 1)%nat else Z.to_nat (Int_part rel), t)
        | _ => refuse
        end
  | _, _ => Err (InvalidSegment init intlen n)
  end.
(** [locate_params] with [jd_to_et] (eval.rs 63-65, 125-133) for a finite date *)
Definition jd_to_et (jd : R) : rnum := RF ((jd - j2000) * day).

Local Open Scope outcome_scope.
(** [xyz_coeffs] and [type3_velocity_coeffs] (eval.rs 105-121): the three
    blocks of [nc] coefficients from [start] on *)
Definition blocks (record : list R) (start nc : nat) : res (list R * list R * list R) :=
  x <- slice record start nc ;; y <- slice record (start + nc) nc ;; z <- slice record (start + 2 * nc) nc ;; Ok (x, y, z).
Definition xyz_coeffs (record : list R) (nc : nat) := blocks record 2 nc.
Definition type3_coeffs (record : list R) (nc : nat) := blocks record (2 + 3 * nc) nc.

(** [record_tau] (eval.rs 174-179) *)
Definition record_tau (record : list R) (et : R) : res (R * R) :=
  mid <- index record 0 ;; radius <- index record 1 ;; Ok ((et - mid) / radius, radius).

(** The external [cheby::evaluate], [evaluate_derivative] and [evaluate_both]:
    [a], [b] are the polynomials of two consecutive degrees at [x], [a'], [b']
    their slopes *)
Fixpoint cheb_sum (c : list R) (a b x : R) : R :=
  match c with [] => 0 | h :: t => h * a + cheb_sum t b (2 * x * b - a) x end.
Definition evaluate (c : list R) (x : R) : R := cheb_sum c 1 x x.
Fixpoint cheb_both (c : list R) (a b a' b' x : R) : R * R :=
  match c with
  | [] => (0, 0)
  | h :: t => let '(p, v) := cheb_both t b (2 * x * b - a) b' (2 * b + 2 * x * b' - a') x in (h * a + p, h * a' + v)
  end.
Definition evaluate_both (c : list R) (x : R) : R * R := cheb_both c 1 x 0 1 x.
Definition evaluate_derivative (c : list R) (x : R) : R := snd (evaluate_both c x).

(** [eval_position], [eval_velocity], [eval_type3_velocity], [eval_both]
    (eval.rs 183-247); km and km/day *)
Definition eval_position (record : list R) (nc : nat) (tau : R) : res vec :=
  cs <- xyz_coeffs record nc ;; let '(cx, cy, cz) := cs in Ok (evaluate cx tau, evaluate cy tau, evaluate cz tau).
Definition eval_velocity (record : list R) (nc : nat) (tau radius : R) : res vec :=
  cs <- xyz_coeffs record nc ;; let '(cx, cy, cz) := cs in
  let scale := day / radius in
  Ok (evaluate_derivative cx tau * scale, evaluate_derivative cy tau * scale, evaluate_derivative cz tau * scale).
Definition eval_type3_velocity (record : list R) (nc : nat) (tau : R) : res vec :=
  cs <- type3_coeffs record nc ;; let '(cx, cy, cz) := cs in
  Ok (evaluate cx tau * day, evaluate cy tau * day, evaluate cz tau * day).
Definition eval_both (record : list R) (nc : nat) (tau radius : R) : res (vec * vec) :=
  cs <- xyz_coeffs record nc ;; let '(cx, cy, cz) := cs in
  let scale := day / radius in
  let '(px, vx) := evaluate_both cx tau in let '(py, vy) := evaluate_both cy tau in let '(pz, vz) := evaluate_both cz tau in
  Ok ((px, py, pz), (vx * scale, vy * scale, vz * scale)).

(** [DynSegmentDescriptor] (eval.rs 258-274); [SegmentData] (spk.rs 15-30) has the same fields *)
Record desc := { d_type : Z; d_init : rnum; d_intlen : rnum; d_ncoeff : nat; d_rsize : nat; d_n : nat; d_data : list R }.
(** [record] (eval.rs 292-295) *)
Definition record (d : desc) (i : nat) : res (list R) := slice (d_data d) (i * d_rsize d) (d_rsize d).
(** [try_locate_et] (eval.rs 308-316) *)
Definition try_locate_et (d : desc) (et : rnum) : res (list R * R * R) :=
  p <- locate_et (d_init d) (d_intlen d) (d_n d) et ;;
  let '(idx, t) := p in
  r <- record d idx ;; q <- record_tau r t ;; let '(tau, radius) := q in Ok (r, tau, radius).
(** [try_position_et], [try_velocity_et] and [try_position_velocity] (eval.rs 330-336, 367-377, 395-405);
    the forms taking a Julian date are these at [jd_to_et] *)
Definition d_position (d : desc) (et : rnum) : res vec :=
  l <- try_locate_et d et ;; let '(r, tau, _) := l in eval_position r (d_ncoeff d) tau.
Definition d_velocity (d : desc) (et : rnum) : res vec :=
  l <- try_locate_et d et ;; let '(r, tau, radius) := l in
  if (d_type d =? 3)%Z then eval_type3_velocity r (d_ncoeff d) tau else eval_velocity r (d_ncoeff d) tau radius.
Definition d_state (d : desc) (et : rnum) : res (vec * vec) :=
  l <- try_locate_et d et ;; let '(r, tau, radius) := l in
  if (d_type d =? 3)%Z then p <- eval_position r (d_ncoeff d) tau ;; v <- eval_type3_velocity r (d_ncoeff d) tau ;; Ok (p, v)
  else eval_both r (d_ncoeff d) tau radius.

(** [StackedSegment] and [DynSegmentStack] (eval.rs 429-439) *)
Record stacked := { s_start : rnum; s_end : rnum; s_desc : desc }.
Definition stack := list stacked.
(** [IndexedSegmentData] (spk.rs 34-47), without the frame, which is not read here *)
Record indexed := { x_target : Z; x_center : Z; x_start : rnum; x_end : rnum; x_data : desc }.
(** [coverage_from_spk], [single], [from_spk_segment] (eval.rs 443-464) for finite metadata *)
Definition coverage_from_spk (d : desc) : rnum * rnum :=
  match d_init d, d_intlen d with RF i, RF len => (RF i, RF (i + len * INR (d_n d))) | i, _ => (i, RNaN) end.
Definition from_spk_segment (d : desc) : stack := let '(a, b) := coverage_from_spk d in [{| s_start := a; s_end := b; s_desc := d |}].
(** [for_indexed_pair] (eval.rs 467-482) *)
Definition for_pair (l : list indexed) (target center : Z) : stack :=
  map (fun s => {| s_start := x_start s; s_end := x_end s; s_desc := x_data s |})
      (filter (fun s => (x_target s =? target)%Z && (x_center s =? center)%Z) l).
(** [covers_et], [out_of_range_et] (eval.rs 485-496) *)
Definition covers_et (s : stacked) (et : rnum) : bool := finite et && rle (s_start s) et && rle et (s_end s).
Definition out_of_range_et (s : stacked) (et : rnum) : eph_err := OutOfRange (to_jd et) (to_jd (s_start s)) (to_jd (s_end s)).
(** [get_or_insert] *)
Definition keep (o : option eph_err) (e : eph_err) : option eph_err := match o with None => Some e | _ => o end.
(** [select_et] (eval.rs 498-518) *)
Fixpoint select_loop (l : list stacked) (et : rnum) (o : option eph_err) : res desc :=
  match l with
  | [] => Err (match o with Some e => e | None => InvalidSegment RNaN RNaN 0 end)
  | s :: t =>
      if negb (covers_et s et) then select_loop t et (keep o (out_of_range_et s et))
      else match try_locate_et (s_desc s) et with
           | Ok _ => Ok (s_desc s)
           | Err (OutOfRange a b c) => select_loop t et (keep o (OutOfRange a b c))
           | Err e => Err e
           | Panic => Panic
           end
  end.
Definition select_et (s : stack) (et : rnum) : res desc := select_loop (rev s) et None.
(** [DynSegmentStack::try_position_et], [try_velocity_et] (eval.rs 522-536) *)
Definition k_position (s : stack) (et : rnum) : res vec := d <- select_et s et ;; d_position d et.
Definition k_velocity (s : stack) (et : rnum) : res vec := d <- select_et s et ;; d_velocity d et.

(** Vector operations of the external crate [affn] *)
Definition vadd (a b : vec) : vec := let '(x, y, z) := a in let '(u, v, w) := b in (x + u, y + v, z + w).
Definition vscale (k : R) (a : vec) : vec := let '(x, y, z) := a in (k * x, k * y, k * z).
Definition vsub (a b : vec) : vec := vadd a (vscale (-1) b).

(** [RuntimeEphemerisInner] (runtime_backend.rs 27-32) *)
Record ephemeris := { e_sun : stack; e_emb : stack; e_moon : stack; e_earth : option stack }.
(** [from_indexed_segments] (runtime_backend.rs 78-99), with the body numbers of spk.rs 50-64 *)
Definition from_indexed (l : list indexed) : ephemeris :=
  {| e_sun := for_pair l 10 0; e_emb := for_pair l 3 0; e_moon := for_pair l 301 3;
     e_earth := match for_pair l 399 3 with [] => None | s => Some s end |}.

Section Bodies.
  (** The constants of the archive crate and the rotation ICRF -> EclipticMeanJ2000 *)
  Variable emrat : R.
  Variable au : R.
  Variable ecl : mat.
  (** bodies.rs 71-83 *)
  Definition frac_earth : R := emrat / (emrat + 1).
  Definition earth_offset : R := 1 / emrat.
  Definition moon_geo : R := 1 / frac_earth.
  (** [to_frame::<EclipticMeanJ2000>().to_unit::<AstronomicalUnit>()] *)
  Definition out_au (v : vec) : vec := vscale (/ au) (apply ecl v).
  (** [try_dyn_sun_barycentric] (bodies.rs 93-107) *)
  Definition sun_barycentric (e : ephemeris) (jd : R) : res vec :=
    let et := RF (tt_to_et jd) in s <- k_position (e_sun e) et ;; Ok (out_au s).
  (** [try_earth_barycentric] (runtime_backend.rs 179-187; bodies.rs 120-157) *)
  Definition earth_barycentric (e : ephemeris) (jd : R) : res vec :=
    let et := RF (tt_to_et jd) in
    match e_earth e with
    | Some earth => b <- k_position (e_emb e) et ;; o <- k_position earth et ;; Ok (out_au (vadd b o))
    | None => b <- k_position (e_emb e) et ;; m <- k_position (e_moon e) et ;; Ok (out_au (vsub b (vscale earth_offset m)))
    end.
  (** [try_earth_heliocentric] (runtime_backend.rs 202-215; bodies.rs 172-213) *)
  Definition earth_heliocentric (e : ephemeris) (jd : R) : res vec :=
    let et := RF (tt_to_et jd) in
    match e_earth e with
    | Some earth => b <- k_position (e_emb e) et ;; o <- k_position earth et ;; s <- k_position (e_sun e) et ;;
                    Ok (out_au (vsub (vadd b o) s))
    | None => b <- k_position (e_emb e) et ;; m <- k_position (e_moon e) et ;; s <- k_position (e_sun e) et ;;
              Ok (out_au (vsub (vsub b (vscale earth_offset m)) s))
    end.
  (** [try_earth_barycentric_velocity] (runtime_backend.rs 235-243; bodies.rs 229-256) *)
  Definition earth_velocity (e : ephemeris) (jd : R) : res vec :=
    let et := RF (tt_to_et jd) in
    match e_earth e with
    | Some earth => b <- k_velocity (e_emb e) et ;; o <- k_velocity earth et ;; Ok (out_au (vadd b o))
    | None => b <- k_velocity (e_emb e) et ;; m <- k_velocity (e_moon e) et ;; Ok (out_au (vsub b (vscale earth_offset m)))
    end.
  (** [try_moon_geocentric] (runtime_backend.rs 255-263; bodies.rs 271-303); km *)
  Definition moon_geocentric (e : ephemeris) (jd : R) : res vec :=
    let et := RF (tt_to_et jd) in
    match e_earth e with
    | Some earth => m <- k_position (e_moon e) et ;; o <- k_position earth et ;; Ok (apply ecl (vsub m o))
    | None => m <- k_position (e_moon e) et ;; Ok (apply ecl (vscale moon_geo m))
    end.
End Bodies.
