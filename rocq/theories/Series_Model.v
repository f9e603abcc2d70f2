(** The planetary series (src/ephemeris/vsop87/vsop87_impl.rs) and Pluto's (src/ephemeris/pluto.rs).

    Coordinates and times are real numbers: the rounding of f64, and the approximations of the vector library's sine
    and cosine, are not modelled. A date is the Julian date in TDB; the conversion to that scale is in the time crate.
    The tables are arguments: the coefficients are data of another crate. *)
From Coq Require Import List Reals Arith.
From Verif Require Import Base.
Import ListNotations.
Local Open Scope R_scope.

(** [archive::vsop::Vsop87]: amplitude, phase, frequency *)
Record term := Term { amp : R; pha : R; frq : R }.
Definition no_term : term := Term 0 0 0.
Definition angle (m : term) (t : R) : R := frq m * t + pha m.
(** vsop87_impl.rs:50-55 *)
Definition dt_dt : R := / (36525 * 10).

(** vsop87_impl.rs:74-123: terms four at a time, the rest one by one *)
Definition add_cos (t v : R) (m : term) : R := v + amp m * cos (angle m t).
Definition four_cos (terms : list term) (t v : R) (i : nat) : R :=
  let m j := nth (i * 4 + j) terms no_term in add_cos t (add_cos t (add_cos t (add_cos t v (m 0%nat)) (m 1%nat)) (m 2%nat)) (m 3%nat).
Definition rest (terms : list term) : list term := let n := (length terms / 4)%nat in firstn (length terms mod 4) (skipn (n * 4) terms).
Definition serie_val (terms : list term) (t : R) : R :=
  fold_left (add_cos t) (rest terms) (fold_left (four_cos terms t) (seq 0 (length terms / 4)) 0).
Fixpoint value_loop (ss : list (list term)) (t t_pow value : R) : R :=
  match ss with [] => value | terms :: r => value_loop r t (t_pow * t) (t_pow * serie_val terms t + value) end.
Definition coord_value (ss : list (list term)) (t : R) : R := value_loop ss t 1 0.

(** vsop87_impl.rs:125-189; both sums in one pass *)
Definition add_both (t : R) (p : R * R) (m : term) : R * R :=
  (fst p + amp m * cos (angle m t), snd p - amp m * frq m * sin (angle m t)).
Definition four_both (terms : list term) (t : R) (p : R * R) (i : nat) : R * R :=
  let m j := nth (i * 4 + j) terms no_term in
  let cs := fst p + amp (m 0%nat) * cos (angle (m 0%nat) t) + amp (m 1%nat) * cos (angle (m 1%nat) t) + amp (m 2%nat) * cos (angle (m 2%nat) t) + amp (m 3%nat) * cos (angle (m 3%nat) t) in
  let sn := snd p - amp (m 0%nat) * frq (m 0%nat) * sin (angle (m 0%nat) t) - amp (m 1%nat) * frq (m 1%nat) * sin (angle (m 1%nat) t)
            - amp (m 2%nat) * frq (m 2%nat) * sin (angle (m 2%nat) t) - amp (m 3%nat) * frq (m 3%nat) * sin (angle (m 3%nat) t) in
  (cs, sn).
Definition serie_both (terms : list term) (t : R) : R * R :=
  fold_left (add_both t) (rest terms) (fold_left (four_both terms t) (seq 0 (length terms / 4)) (0, 0)).
Fixpoint deriv_loop (ss : list (list term)) (k : nat) (t t_pow t_pow_der deriv : R) : R :=
  match ss with
  | [] => deriv
  | terms :: r => let p := serie_both terms t in
      deriv_loop r (S k) t (t_pow * t) ((INR k + 1) * t_pow) (t_pow_der * fst p + (t_pow * snd p + deriv))
  end.
Definition coord_deriv (ss : list (list term)) (t : R) : R := deriv_loop ss 0 t 1 0 0 * dt_dt.
(** vsop87_impl.rs:191-258 *)
Fixpoint both_loop (ss : list (list term)) (k : nat) (t t_pow t_pow_der value deriv : R) : R * R :=
  match ss with
  | [] => (value, deriv)
  | terms :: r => let p := serie_both terms t in
      both_loop r (S k) t (t_pow * t) ((INR k + 1) * t_pow) (t_pow * fst p + value) (t_pow_der * fst p + (t_pow * snd p + deriv))
  end.
Definition coord_both (ss : list (list term)) (t : R) : R * R := let r := both_loop ss 0 t 1 0 0 0 in (fst r, snd r * dt_dt).

(** [JulianDate::julian_centuries], then to millennia *)
Definition millennia (jd : R) : R := (jd - 2451545) / 36525 / 10.
(** vsop87_impl.rs:264-309 *)
Definition tables : Type := list (list term) * list (list term) * list (list term).
Definition position (jd : R) (tb : tables) : R * R * R :=
  let '(x, y, z) := tb in let t := millennia jd in (coord_value x t, coord_value y t, coord_value z t).
Definition velocity (jd : R) (tb : tables) : R * R * R :=
  let '(x, y, z) := tb in let t := millennia jd in (coord_deriv x t, coord_deriv y t, coord_deriv z t).
Definition position_velocity (jd : R) (tb : tables) : (R * R * R) * (R * R * R) :=
  let '(x, y, z) := tb in let t := millennia jd in
  let bx := coord_both x t in let by_ := coord_both y t in let bz := coord_both z t in
  ((fst bx, fst by_, fst bz), (snd bx, snd by_, snd bz)).

(** * Pluto *)
Record pl_arg := PlArg { pj : R; ps : R; pp : R }.
Record pl_term := PlTerm { ta : R; tb : R }.
Definition deg (x : R) : R := x * (PI / 180).
(** pluto.rs:36-38 *)
Definition jupiter_lon (t : R) : R := 34.35 + 3034.9057 * t.
Definition saturn_lon (t : R) : R := 50.08 + 1222.1138 * t.
Definition pluto_lon (t : R) : R := 238.96 + 144.96 * t.
Definition pl_sum (terms : list pl_term) (i : nat) (s c acc : R) : option R :=
  match nth_error terms i with Some m => Some (acc + (ta m * s + tb m * c)) | None => None end.
(** pluto.rs:44-58; a table shorter than that of the arguments is a panic *)
Fixpoint pl_loop (args : list pl_arg) (i : nat) (lons lats rads : list pl_term) (t lo la ra : R) : option (R * R * R) :=
  match args with
  | [] => Some (lo, la, ra)
  | g :: r =>
      let a := deg (jupiter_lon t * pj g + saturn_lon t * ps g + pluto_lon t * pp g) in
      match pl_sum lons i (sin a) (cos a) lo, pl_sum lats i (sin a) (cos a) la, pl_sum rads i (sin a) (cos a) ra with
      | Some lo, Some la, Some ra => pl_loop r (S i) lons lats rads t lo la ra
      | _, _, _ => None
      end
  end.
(** pluto.rs:60-70: longitude and latitude in degrees, distance in astronomical units *)
Definition pl_sphere (args : list pl_arg) (lons lats rads : list pl_term) (t : R) : option (R * R * R) :=
  match pl_loop args 0 lons lats rads t 0 0 0 with
  | Some (lo, la, ra) => Some (lo * 0.000001 + (238.958116 + 144.96 * t), la * 0.000001 - 3.908239, ra * 0.0000001 + 40.7241346)
  | None => None
  end.
(** [spherical::Position::to_cartesian] *)
Definition pluto (args : list pl_arg) (lons lats rads : list pl_term) (t : R) : option (R * R * R) :=
  match pl_sphere args lons lats rads t with
  | Some (lo, la, r) => Some (r * cos (deg la) * cos (deg lo), r * cos (deg la) * sin (deg lo), r * sin (deg la))
  | None => None
  end.
