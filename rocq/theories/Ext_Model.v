(** Extremum search: src/event/search/extrema.rs.

    Times and values are exact rationals, times in lowest terms; the golden ratio is the exact
    value of its f64 literal. [Interval::length] is the end minus the start. *)
From Coq Require Import List ZArith QArith Bool.
From Verif Require Import Qb Sort Root_Model Cross_Model.
Import ListNotations.
Local Open Scope Q_scope.

(** extrema.rs:53, 56, 59, 62 *)
Definition phi : Q := 5566755282872657 # 9007199254740992.
Definition ext_tol : Q := 4835703278458517 # 4835703278458516698824704.
Definition max_iter : nat := 100.
Definition probe_eps : Q := 944473296573929 # 9444732965739290427392.

(** extrema.rs:119-123 *)
Record golden := Golden { gs : Q; ge : Q; gx1 : Q; gx2 : Q; gf1 : Q; gf2 : Q }.
Definition golden_start (p : interval) (f : Q -> Q) : golden :=
  let x1 := Qred (snd p - (snd p - fst p) * phi) in
  let x2 := Qred (fst p + (snd p - fst p) * phi) in
  Golden (fst p) (snd p) x1 x2 (f x1) (f x2).
(** extrema.rs:129-141 *)
Definition golden_step (f : Q -> Q) (s : golden) : golden :=
  if qltb (gf1 s) (gf2 s) then
    let e := gx2 s in let x1 := Qred (e - phi * (e - gs s)) in Golden (gs s) e x1 (gx1 s) (f x1) (gf1 s)
  else
    let st := gx1 s in let x2 := Qred (st + phi * (ge s - st)) in Golden st (ge s) (gx2 s) x2 (gf2 s) (f x2).
(** extrema.rs:125-142 *)
Fixpoint golden_loop (f : Q -> Q) (tol : Q) (n : nat) (s : golden) : golden :=
  match n with
  | O => s
  | S n => if qltb (ge s - gs s) tol then s else golden_loop f tol n (golden_step f s)
  end.
(** extrema.rs:110-146 *)
Definition minimize_tol (p : interval) (f : Q -> Q) (tol : Q) : Q * Q :=
  let s := golden_loop f tol max_iter (golden_start p f) in
  let t := Qred ((gs s + ge s) / 2) in (t, f t).
(** extrema.rs:98-107 *)
Definition minimize (p : interval) (f : Q -> Q) : Q * Q := minimize_tol p f ext_tol.
(** extrema.rs:163-175 *)
Definition maximize_tol (p : interval) (f : Q -> Q) (tol : Q) : Q * Q :=
  let t := fst (minimize_tol p (fun t => - f t) tol) in (t, f t).
(** extrema.rs:151-160 *)
Definition maximize (p : interval) (f : Q -> Q) : Q * Q := maximize_tol p f ext_tol.

(** extrema.rs:70-85 *)
Inductive kind := Maximum | Minimum.
Record extremum := Ext { et : Q; ev : Q; ek : kind }.
(** extrema.rs:185-206 *)
Definition classify (t : Q) (f : Q -> Q) : option kind :=
  let fc := f t in let fl := f (Qred (t - probe_eps)) in let fr := f (Qred (t + probe_eps)) in
  if qleb fl fc && qleb fr fc then Some Maximum else if qleb fc fl && qleb fc fr then Some Minimum else None.

(** extrema.rs:258-299 *)
Fixpoint extrema_loop (fuel : nat) (stop step tol : Q) (f : Q -> Q) (t0 t1 f1 : Q) (rising : bool) : option (list extremum) :=
  match fuel with
  | O => None
  | S n =>
      let t2 := next_time stop step t1 in
      if qleb t2 t1 then Some [] else
      let f2 := f t2 in
      let now := qltb f1 f2 in
      let here :=
        if rising && negb now then let '(t, v) := maximize_tol (t0, t2) f tol in [Ext t v Maximum]
        else if negb rising && now then let '(t, v) := minimize_tol (t0, t2) f tol in [Ext t v Minimum]
        else [] in
      match extrema_loop n stop step tol f t1 t2 f2 now with Some r => Some (here ++ r) | None => None end
  end.
(** extrema.rs:229-306 *)
Definition find_extrema_tol (fuel : nat) (p : interval) (step : Q) (f : Q -> Q) (tol : Q) : option (list extremum) :=
  if qleb step 0 || qleb (snd p) (fst p) then Some [] else
  let t0 := fst p in let t1 := next_time (snd p) step t0 in
  match extrema_loop fuel (snd p) step tol f t0 t1 (f t1) (qltb (f t0) (f t1)) with
  | Some r => Some (isort (fun a b => qleb (et a) (et b)) r)
  | None => None
  end.
(** extrema.rs:216-226 *)
Definition find_extrema (fuel : nat) (p : interval) (step : Q) (f : Q -> Q) : option (list extremum) := find_extrema_tol fuel p step f ext_tol.

(** extrema.rs:328-337 *)
Definition deriv (f : Q -> Q) (h t : Q) : Q := (f (Qred (t + h)) - f (Qred (t - h))) / (h + h).
(** extrema.rs:353-377 *)
Definition deriv_hit (f d : Q -> Q) (t prev next_t next_d : Q) : list extremum :=
  if opposite_sign prev next_d then
    match brent_with_values t next_t prev next_d d with
    | Some r => [Ext r (f r) match classify r f with Some k => k | None => if qltb 0 prev then Maximum else Minimum end]
    | None => []
    end
  else [].
(** extrema.rs:313-385 *)
Definition find_extrema_via_derivative (fuel : nat) (p : interval) (step : Q) (f : Q -> Q) (h : Q) : option (list extremum) :=
  let d := deriv f h in
  match scan fuel (snd p) step d (deriv_hit f d) (fst p) (d (fst p)) with
  | Some r => Some (isort (fun a b => qleb (et a) (et b)) r)
  | None => None
  end.
