(** Bracketed root finders: src/event/search/root_finding.rs and the one of
    src/event/search/scan_fallback.rs.

    Times and values are exact rationals: rounding, NaN, infinities and -0.0 are not modelled. The
    moving point is kept in lowest terms ([Qred]), so that a function of rationals is asked about
    one representation. Constants are the exact values of the f64 literals. *)
From Coq Require Import List QArith Qabs Qminmax Bool.
From Verif Require Import Qb.
Local Open Scope Q_scope.

(** root_finding.rs:46-59 *)
Definition default_tol : Q := 4835703278458517 # 4835703278458516698824704.
Definition brent_max_iter : nat := 100.
Definition bisect_max_iter : nat := 80.
Definition f_eps : Q := 4951760157141521 # 4951760157141521099596496896.
Definition coincidence_eps : Q := 6338253001141147 # 633825300114114700748351602688.
(** root_finding.rs:66-70; the sign of +0.0 is positive *)
Definition same_sign (a b : Q) : bool := Bool.eqb (neg a) (neg b).

Record bst := Bst { ba : Q; bb : Q; bc : Q; bfa : Q; bfb : Q; bfc : Q; bd : Q; be : Q }.

(** root_finding.rs:223-256: the next [e] and [d] *)
Definition proposal (s : bst) (m tol : Q) : Q * Q :=
  let '(Bst a b c fa fb fc d e) := s in
  if qltb (Qabs e) tol || qleb (Qabs fa) (Qabs fb) then (m, m) else
  let r_s := fb / fa in
  let '(p, q) :=
    if qltb (Qabs (a - c)) coincidence_eps then (m * (2 * r_s), 1 - r_s)
    else
      let q_val := fa / fc in
      let r := fb / fc in
      (m * (2 * r_s * q_val * (q_val - r)) - (b - a) * (r_s * (r - 1)), (q_val - 1) * (r - 1) * (r_s - 1)) in
  let '(p, q) := if qltb 0 p then (p, - q) else (- p, q) in
  if qltb (p * 2) (m * (3 * q) - Qabs (tol * q)) && qltb p (Qabs (e * ((1 # 2) * q))) then (d, p / q) else (m, m).
(** root_finding.rs:216-288: one pass of the loop; the left result is returned *)
Definition brent_step (f : Q -> Q) (tol : Q) (s : bst) : Q + bst :=
  let m := (bc s - bb s) * (1 # 2) in
  if qltb (Qabs (bfb s)) f_eps || qleb (Qabs m) tol then inl (bb s) else
  let '(e, d) := proposal s m tol in
  let a := bb s in
  let fa := bfb s in
  let b := Qred (bb s + (if qltb tol (Qabs d) then d else if qltb 0 m then tol else - tol)) in
  let fb := f b in
  let '(c, fc, e, d) := if same_sign fb (bfc s) then (a, fa, b - a, b - a) else (bc s, bfc s, e, d) in
  inr (if qltb (Qabs fc) (Qabs fb) then Bst b c b fb fc fb d e else Bst a b c fa fb fc d e).
Fixpoint brent_loop (f : Q -> Q) (tol : Q) (n : nat) (s : bst) : Q :=
  match n with
  | O => bb s
  | S n => match brent_step f tol s with inl x => x | inr s' => brent_loop f tol n s' end
  end.
(** root_finding.rs:175-214 *)
Definition brent_engine (lo hi f_lo f_hi : Q) (f : Q -> Q) (tol : Q) : option Q :=
  if qltb (Qabs f_lo) f_eps then Some lo else
  if qltb (Qabs f_hi) f_eps then Some hi else
  if same_sign f_lo f_hi then None else
  let '(a, b, fa, fb) := if qltb (Qabs f_lo) (Qabs f_hi) then (hi, lo, f_hi, f_lo) else (lo, hi, f_lo, f_hi) in
  Some (brent_loop f tol brent_max_iter (Bst a b a fa fb fa (b - a) (b - a))).
(** root_finding.rs:89-98 *)
Definition brent (lo hi : Q) (f : Q -> Q) : option Q := brent_engine lo hi (f lo) (f hi) f default_tol.
(** root_finding.rs:142-169; offsets from the start of the interval *)
Definition brent_core (start stop f_lo f_hi : Q) (f : Q -> Q) (tol : Q) : option Q :=
  match brent_engine 0 (Qred (stop - start)) f_lo f_hi (fun o => f (Qred (start + o))) tol with
  | Some o => Some (Qred (start + o))
  | None => None
  end.
(** root_finding.rs:105-117, 123-136 *)
Definition brent_with_values (start stop f_lo f_hi : Q) (f : Q -> Q) : option Q := brent_core start stop f_lo f_hi f default_tol.
Definition brent_tol := brent_core.

(** root_finding.rs:300-342 *)
Fixpoint bisect_loop (f : Q -> Q) (n : nat) (a b fa : Q) : Q :=
  let mid := Qred ((a + b) * (1 # 2)) in
  match n with
  | O => mid
  | S n =>
      let fm := f mid in
      if qltb (Qabs fm) f_eps || qltb (Qabs (b - a)) default_tol then mid
      else if same_sign fa fm then bisect_loop f n mid b fm else bisect_loop f n a mid fa
  end.
Definition bisection (lo hi : Q) (f : Q -> Q) : option Q :=
  let fa := f lo in
  let fb := f hi in
  if qltb (Qabs fa) f_eps then Some lo else
  if qltb (Qabs fb) f_eps then Some hi else
  if same_sign fa fb then None else
  Some (bisect_loop f bisect_max_iter lo hi fa).

(** ** scan_fallback.rs *)
Definition epsilon : Q := 1 # 4503599627370496.
(** scan_fallback.rs:267-276 *)
Definition converged (fb width time_tol residual_tol : Q) : bool := qleb (Qabs fb) residual_tol || qleb width (time_tol * 4).
(** scan_fallback.rs:191-204 *)
Definition rebracket (s : bst) : bst :=
  let '(Bst a b c fa fb fc d e) := s in
  let '(c, fc, d, e) := if same_sign fb fc then (a, fa, b - a, b - a) else (c, fc, d, e) in
  if qltb (Qabs fc) (Qabs fb) then Bst b c b fb fc fb d e else Bst a b c fa fb fc d e.
(** scan_fallback.rs:216-245 *)
Definition proposal2 (s : bst) (xm tol1 : Q) : Q * Q :=
  let '(Bst a b c fa fb fc d e) := s in
  if qleb tol1 (Qabs e) && qltb (Qabs fb) (Qabs fa) then
    let r_s := fb / fa in
    let '(p, q) :=
      if qleb (Qabs (a - c)) epsilon then (2 * xm * r_s, 1 - r_s)
      else
        let q := fa / fc in
        let r := fb / fc in
        (r_s * (2 * xm * q * (q - r) - (b - a) * (r - 1)), (q - 1) * (r - 1) * (r_s - 1)) in
    let q := if qltb 0 p then - q else q in
    let p := Qabs p in
    let min1 := 3 * xm * q - Qabs (tol1 * q) in
    let min2 := Qabs (e * q) in
    if qltb (2 * p) (Qmin min1 min2) then (d, p / q) else (xm, xm)
  else (xm, xm).
(** scan_fallback.rs:190-258: one pass of the loop *)
Definition brent2_step (f : Q -> Q) (time_tol residual_tol : Q) (s : bst) : Q + bst :=
  let s := rebracket s in
  let tol1 := 2 * epsilon * Qabs (bb s) + time_tol * (1 # 2) in
  let xm := (1 # 2) * (bc s - bb s) in
  if (if qleb (Qabs xm) tol1 then converged (bfb s) (Qabs (bc s - bb s)) time_tol residual_tol else qleb (Qabs (bfb s)) residual_tol)
  then inl (bb s) else
  let '(e, d) := proposal2 s xm tol1 in
  let b := Qred (bb s + (if qltb tol1 (Qabs d) then d else if qltb xm 0 then - tol1 else tol1)) in
  inr (Bst (bb s) b (bc s) (bfb s) (f b) (bfc s) d e).
Fixpoint brent2_loop (f : Q -> Q) (time_tol residual_tol : Q) (n : nat) (s : bst) : option Q :=
  match n with
  | O => if converged (bfb s) (Qabs (bc s - bb s)) time_tol residual_tol then Some (bb s) else None
  | S n => match brent2_step f time_tol residual_tol s with inl x => Some x | inr s' => brent2_loop f time_tol residual_tol n s' end
  end.
(** scan_fallback.rs:156-189 *)
Definition brent_f64 (lo hi f_lo f_hi : Q) (f : Q -> Q) (time_tol residual_tol : Q) : option Q :=
  if qltb hi lo then None else
  if qleb (Qabs f_lo) residual_tol then Some lo else
  if qleb (Qabs f_hi) residual_tol then Some hi else
  if same_sign f_lo f_hi then None else
  brent2_loop f time_tol residual_tol 100 (Bst lo hi lo f_lo f_hi f_lo (hi - lo) (hi - lo)).
