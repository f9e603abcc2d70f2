(** Quaternion interpolation (src/formats/spice/ck.rs:247-299) over the real numbers: rounding, infinities and NaN are
    not modelled. *)
From Coq Require Import Reals.
Local Open Scope R_scope.

(** [f64; 4] *)
Record quat4 := Q4 { q0 : R; q1 : R; q2 : R; q3 : R }.
Definition dot (a b : quat4) : R := q0 a * q0 b + q1 a * q1 b + q2 a * q2 b + q3 a * q3 b.
Definition scale (k : R) (a : quat4) : quat4 := Q4 (k * q0 a) (k * q1 a) (k * q2 a) (k * q3 a).
Definition add (a b : quat4) : quat4 := Q4 (q0 a + q0 b) (q1 a + q1 b) (q2 a + q2 b) (q3 a + q3 b).
Definition neg (a : quat4) : quat4 := Q4 (- q0 a) (- q1 a) (- q2 a) (- q3 a).
(** [f64::EPSILON] *)
Definition eps : R := / 4503599627370496.

(** ck.rs:247-262 *)
Definition normalize (a : quat4) : quat4 :=
  let norm := sqrt (q0 a * q0 a + q1 a * q1 a + q2 a * q2 a + q3 a * q3 a) in
  if Rle_dec norm eps then a else Q4 (q0 a / norm) (q1 a / norm) (q2 a / norm) (q3 a / norm).

(** ck.rs:264-299 *)
Definition slerp (lq rq : quat4) (t : R) : quat4 :=
  let lq := normalize lq in
  let rq := normalize rq in
  let d := dot lq rq in
  let '(d, rq) := if Rlt_dec d 0 then (- d, neg rq) else (d, rq) in
  if Rge_dec d 1 then lq
  else if Rgt_dec d (9995 / 10000) then
    normalize (Q4 (q0 lq + t * (q0 rq - q0 lq)) (q1 lq + t * (q1 rq - q1 lq))
                  (q2 lq + t * (q2 rq - q2 lq)) (q3 lq + t * (q3 rq - q3 lq)))
  else
    let theta := acos d in
    let sin_theta := sin theta in
    let wl := sin ((1 - t) * theta) / sin_theta in
    let wr := sin (t * theta) / sin_theta in
    normalize (Q4 (wl * q0 lq + wr * q0 rq) (wl * q1 lq + wr * q1 rq)
                  (wl * q2 lq + wr * q2 rq) (wl * q3 lq + wr * q3 rq)).
