(** Sun-Earth Lagrange points (src/ephemeris/lagrange/solver.rs, mod.rs, fit.rs).

    Real arithmetic: rounding, overflow and NaN of f64 are not modelled, so the
    finiteness tests always succeed; the starting value [f64::INFINITY] of the
    step and residual norms is [None].  The gravitational parameters and the
    ephemeris are arbitrary. *)
From Coq Require Import List PeanoNat ZArith Reals Bool.
From Verif Require Import Base Mat3 Geom_Model Jpl_Model.
Import ListNotations.
Local Open Scope R_scope.
Local Open Scope outcome_scope.

(** * Linear systems *)
(** [solve_linear] (solver.rs 557-589) for [n] unknowns; the code has [n = 3].
    Rows and columns are numbered from 0. *)
Definition swap_row {A} (p c : nat) (f : nat -> A) : nat -> A := fun r => if (r =? c)%nat then f p else if (r =? p)%nat then f c else f r.
(** The search for the pivot (solver.rs 559-564) *)
Fixpoint pivot_search (a : nat -> nat -> R) (col row todo pivot : nat) : nat :=
  match todo with
  | O => pivot
  | S k => pivot_search a col (S row) k (if rltb (Rabs (a pivot col)) (Rabs (a row col)) then row else pivot)
  end.
(** One column (solver.rs 559-586) *)
Definition lin_column (n col : nat) (s : (nat -> nat -> R) * (nat -> R)) : option ((nat -> nat -> R) * (nat -> R)) :=
  let '(a, b) := s in
  let pivot := pivot_search a col (S col) (n - S col) col in
  if rltb (Rabs (a pivot col)) (1 / 1000000000000000000000000000000) then None
  else
    let a := if (pivot =? col)%nat then a else swap_row pivot col a in
    let b := if (pivot =? col)%nat then b else swap_row pivot col b in
    let div := a col col in
    let prow := fun c => if (c <? col)%nat then a col c else a col c / div in
    let pb := b col / div in
    Some (fun r => if (r =? col)%nat then prow else fun c => if (c <? col)%nat then a r c else a r c - a r col * prow c,
          fun r => if (r =? col)%nat then pb else b r - a r col * pb).
Fixpoint lin_loop (n col todo : nat) (s : (nat -> nat -> R) * (nat -> R)) : option (nat -> R) :=
  match todo with
  | O => Some (snd s)
  | S k => match lin_column n col s with None => None | Some s' => lin_loop n (S col) k s' end
  end.
Definition solve_linear (n : nat) (a : nat -> nat -> R) (b : nat -> R) : option (nat -> R) := lin_loop n 0 n (a, b).

(** * The rotating frame *)
Inductive point := L1 | L2 | L3 | L4 | L5.
Inductive lag_err := Eph (e : eph_err) | DegenerateFrame | SingularJacobian | DidNotConverge (iterations : nat) (step residual : option R).
Record frame := { f_sun : vec; f_earth : vec; f_moon : vec; f_origin : vec; f_x : vec; f_y : vec; f_z : vec; f_omega : R; f_distance : R; f_accel : vec }.
Definition lift {A} (x : outcome A eph_err) : outcome A lag_err := match x with Ok a => Ok a | Err e => Err (Eph e) | Panic => Panic end.

Section Solver.
  Variables gm_sun gm_earth gm_moon : R.
  (** [Sampler] (solver.rs 231-269): positions in km *)
  Variables sun earth moon_geo : R -> outcome vec eph_err.

  (** [relative_velocity] (solver.rs 475-487) *)
  Definition relative_velocity (jd : R) : outcome vec lag_err :=
    let h := 1 / 100 in
    eb <- lift (earth (jd - h)) ;; sb <- lift (sun (jd - h)) ;; ea <- lift (earth (jd + h)) ;; sa <- lift (sun (jd + h)) ;;
    Ok (scale (1 / (2 * h * day)) (vminus (vminus ea sa) (vminus eb sb))).
  (** [point_mass_accel] (solver.rs 517-525), and one term of [grav_accel] (527-537) *)
  Definition point_mass (pos body : vec) (mu : R) : vec :=
    let r := vminus body pos in let n := norm r in if rltb 0 n then scale (mu / (n * n * n)) r else (0, 0, 0).
  Definition grav_accel (pos : vec) (bodies : list (vec * R)) : vec :=
    fold_left (fun acc '(body, mu) => vplus acc (point_mass pos body mu)) bodies (0, 0, 0).
  (** [sun_earth_barycenter_external_accel] (solver.rs 504-515) *)
  Definition external_accel (s e m : vec) : vec :=
    scale (1 / (gm_sun + gm_earth)) (vplus (scale gm_sun (point_mass s m gm_moon)) (scale gm_earth (point_mass e m gm_moon))).
  (** [normalize] (solver.rs 616-619) *)
  Definition normalize (a : vec) : option vec := let n := norm a in if rltb 0 n then Some (scale (1 / n) a) else None.
  (** The part of [RotatingFrame::new] after the samples (solver.rs 393-434) *)
  Definition frame_of (s e m : vec) (vel : outcome vec lag_err) : outcome frame lag_err :=
    let rel := vminus e s in
    let d := norm rel in
    if rleb d 0 then Err DegenerateFrame
    else
      let x := scale (1 / d) rel in
      v <- vel ;;
      let zc := cross rel v in
      let zn := norm zc in
      let z := if rleb zn 0 then (0, 0, 1) else scale (1 / zn) zc in
      match normalize (cross z x) with
      | None => Err DegenerateFrame
      | Some y =>
          let total := gm_sun + gm_earth in
          Ok {| f_sun := s; f_earth := e; f_moon := m; f_origin := scale (1 / total) (vplus (scale gm_sun s) (scale gm_earth e));
                f_x := x; f_y := y; f_z := z; f_omega := if rltb 0 zn then zn / (d * d) else sqrt (total / (d * d * d));
                f_distance := d; f_accel := external_accel s e m |}
      end.
  (** [RotatingFrame::new] (solver.rs 389-435) *)
  Definition frame_new (jd : R) : outcome frame lag_err :=
    s <- lift (sun jd) ;; e <- lift (earth jd) ;; g <- lift (moon_geo jd) ;; frame_of s e (vplus e g) (relative_velocity jd).
  (** [residual] (solver.rs 437-449) *)
  Definition residual (f : frame) (pos : vec) : vec :=
    let rho := vminus pos (f_origin f) in
    let w := scale (f_omega f) (f_z f) in
    vminus (vminus (grav_accel pos [(f_sun f, gm_sun); (f_earth f, gm_earth); (f_moon f, gm_moon)]) (f_accel f)) (cross w (cross w rho)).
  (** [seed] (solver.rs 451-472); the cube root of a positive number *)
  Definition seed (f : frame) (p : point) : vec :=
    let d := norm (vminus (f_earth f) (f_sun f)) in
    let mu := gm_earth / (gm_sun + gm_earth) in
    let gamma := Rpower (mu / 3) (1 / 3) in
    let x := match p with L1 => 1 - gamma | L2 => 1 + gamma | L3 => -1 - 5 * mu / 12 | L4 | L5 => 1 / 2 end in
    let y := match p with L4 => sqrt 3 / 2 | L5 => - sqrt 3 / 2 | _ => 0 end in
    vplus (f_origin f) (vplus (scale ((x - mu) * d) (f_x f)) (scale (y * d) (f_y f))).
End Solver.

(** * Newton's iteration, for any residual function *)
Record config := { max_iterations : nat; step_tol : R; fd_step : R; res_tol : R }.
Record solution := { s_pos : vec; s_iter : nat; s_step : option R; s_res : R }.
Definition at3 (v : vec) (i : nat) : R := let '(x, y, z) := v in match i with 0%nat => x | 1%nat => y | _ => z end.
Definition of3 (f : nat -> R) : vec := (f 0%nat, f 1%nat, f 2%nat).
Definition axis (i : nat) (h : R) : vec := of3 (fun j => if (j =? i)%nat then h else 0).
Section Newton.
  Variable F : vec -> vec.
  (** [jacobian] (solver.rs 539-555) *)
  Definition jacobian (pos : vec) (h : R) : nat -> nat -> R :=
    fun row ax => at3 (scale (1 / (2 * h)) (vminus (F (vplus pos (axis ax h))) (F (vminus pos (axis ax h))))) row.
  (** The step length (solver.rs 322-331): [None] when the twelve trials all fail *)
  Fixpoint line_loop (todo : nat) (alpha : R) (pos delta : vec) (r : R) : option vec :=
    match todo with
    | O => None
    | S k => if rleb (norm (F (vplus pos (scale alpha delta)))) r || rleb alpha (1 / 4096) then Some (scale alpha delta)
             else line_loop k (alpha * (1 / 2)) pos delta r
    end.
  Definition line_search (pos delta : vec) (r : R) : vec := match line_loop 12 1 pos delta r with Some s => s | None => delta end.
  (** The accepted step from a position (solver.rs 315-331); [distance] is the
      Sun-Earth distance *)
  Definition newton_step (c : config) (distance : R) (pos : vec) : option vec :=
    let r := F pos in
    match solve_linear 3 (jacobian pos (fd_step c)) (at3 (scale (-1) r)) with
    | None => None
    | Some x =>
        let delta := of3 x in
        let cap := 5 / 100 * distance in
        let dn := norm delta in
        let delta := if rltb cap dn then scale (cap / dn) delta else delta in
        Some (line_search pos delta (norm r))
    end.
  (** The best position so far (solver.rs 287-301) *)
  Record best := { b_pos : vec; b_res : option R; b_iter : nat; b_step : option R }.
  Definition better (b : best) (pos : vec) (r : R) (iter : nat) (step : option R) : best :=
    let new := {| b_pos := pos; b_res := Some r; b_iter := iter; b_step := step |} in
    match b_res b with None => new | Some r0 => if rltb r r0 then new else b end.
  (** After the loop (solver.rs 351-369) *)
  Definition finish (c : config) (b : best) (step res : option R) : outcome solution lag_err :=
    match b_res b with
    | Some r => if rleb r (1 / 1000000) then Ok {| s_pos := b_pos b; s_iter := b_iter b; s_step := b_step b; s_res := r |}
                else Err (DidNotConverge (max_iterations c) step res)
    | None => Err (DidNotConverge (max_iterations c) step res)
    end.
  (** The loop (solver.rs 292-346) *)
  Fixpoint newton_loop (todo iter : nat) (c : config) (distance : R) (pos : vec) (last res : option R) (b : best) : outcome solution lag_err :=
    match todo with
    | O => finish c b last res
    | S k =>
        let r := norm (F pos) in
        let b := better b pos r iter last in
        if rleb r (res_tol c) then Ok {| s_pos := pos; s_iter := iter; s_step := last; s_res := r |}
        else match newton_step c distance pos with
             | None => Err SingularJacobian
             | Some acc =>
                 let pos' := vplus pos acc in
                 let step := norm acc in
                 if rleb step (step_tol c) then Ok {| s_pos := pos'; s_iter := S iter; s_step := Some step; s_res := r |}
                 else newton_loop k (S iter) c distance pos' (Some step) (Some r) b
             end
    end.
  Definition newton (c : config) (distance : R) (pos : vec) : outcome solution lag_err :=
    newton_loop (max_iterations c) 0 c distance pos None None {| b_pos := pos; b_res := None; b_iter := 0; b_step := None |}.
End Newton.
(** [solve_with_sampler] (solver.rs 271-370) *)
Definition solve (gs ge gm : R) (sun earth moon : R -> outcome vec eph_err) (p : point) (jd : R) (c : config) (start : option vec) : outcome solution lag_err :=
  f <- frame_new gs ge gm sun earth moon jd ;;
  newton (residual gs ge gm f) c (f_distance f) (match start with Some v => v | None => seed gs ge f p end).

(** * Fitted records *)
(** [SUN_EARTH_LAGRANGE_METADATA] (mod.rs 115-116) *)
Definition valid_from : R := 2415020 + 1 / 2.
Definition valid_to : R := 2488070 + 1 / 2.
(** One record: middle, half length and the three coefficient blocks.  The
    code keeps the records in one flat array cut into pieces of [2 + 3 ncoeff]
    numbers ([chunks_exact], mod.rs 195); the model keeps them apart, so the
    tests on the length of the array (mod.rs 180-190) are the test for an
    empty list and for [ncoeff = 0]. *)
Record lrec := { r_mid : R; r_radius : R; r_x : list R; r_y : list R; r_z : list R }.
(** [evaluate_records] (mod.rs 173-219); kilometres, the conversion to
    astronomical units is left out.  The running minimum and maximum start at
    the infinities ([None]). *)
Definition omin (o : option R) (x : R) : option R := Some (match o with None => x | Some y => Rmin y x end).
Definition omax (o : option R) (x : R) : option R := Some (match o with None => x | Some y => Rmax y x end).
Inductive fit_range := Range (jd : R) (first last : option R).
Fixpoint eval_loop (l : list lrec) (s jd : R) (first last : option R) : outcome vec fit_range :=
  match l with
  | [] => Err (Range jd (option_map (fun x => j2000 + x / day) first) (option_map (fun x => j2000 + x / day) last))
  | r :: t =>
      let a := r_mid r - r_radius r in
      let b := r_mid r + r_radius r in
      if rleb a s && rleb s b then
        let tau := (s - r_mid r) / r_radius r in Ok (evaluate (r_x r) tau, evaluate (r_y r) tau, evaluate (r_z r) tau)
      else eval_loop t s jd (omin first a) (omax last b)
  end.
Definition evaluate_records (l : list lrec) (ncoeff : nat) (jd : R) : outcome vec fit_range :=
  if match l with [] => true | _ => false end || (ncoeff =? 0)%nat then Err (Range jd (Some valid_from) (Some valid_to))
  else eval_loop l ((jd - j2000) * day) jd None None.

Inductive fit_err := InvalidConfig | InvalidEpoch | Solver (e : lag_err) | ToleranceNotMet (max_error : option R).
Record fit_config := { c_from : R; c_to : R; c_block : R; c_step : R; c_tol : R }.
Section Fit.
  (** The solver at a date (fit.rs 228-234, 276-277): a position in km or an error *)
  Variable truth : R -> outcome vec lag_err.
  (** The external [cheby::nodes] and [cheby::fit_coeffs] *)
  Variable nodes : nat -> list R.
  Variable fit_coeffs : list R -> list R.
  Definition solver {A} (x : outcome A lag_err) : outcome A fit_err := match x with Ok a => Ok a | Err e => Err (Solver e) | Panic => Panic end.
  (** [seconds_since_j2000] and [jd_from_seconds] (fit.rs 317-324) *)
  Definition secs (jd : R) : R := (jd - j2000) * day.
  Definition jd_of (s : R) : R := j2000 + s / day.
  (** The samples of one block (fit.rs 222-238) *)
  Fixpoint samples (ns : list R) (mid radius : R) : outcome (list vec) fit_err :=
    match ns with
    | [] => Ok []
    | n :: t => p <- solver (truth (jd_of (mid + radius * n))) ;; l <- samples t mid radius ;; Ok (p :: l)
    end.
  (** The blocks (fit.rs 214-248); [fuel] bounds the number of turns *)
  Fixpoint fit_blocks (fuel order : nat) (start to_s block : R) : option (outcome (list lrec) fit_err) :=
    match fuel with
    | O => if rltb start to_s then None else Some (Ok [])
    | S k =>
        if rltb start to_s then
          let stop := Rmin (start + block) to_s in
          let mid := 1 / 2 * (start + stop) in
          let radius := 1 / 2 * (stop - start) in
          match samples (nodes order) mid radius with
          | Err e => Some (Err e)
          | Panic => Some Panic
          | Ok l =>
              let r := {| r_mid := mid; r_radius := radius; r_x := fit_coeffs (map (fun p => at3 p 0) l);
                          r_y := fit_coeffs (map (fun p => at3 p 1) l); r_z := fit_coeffs (map (fun p => at3 p 2) l) |} in
              match fit_blocks k order stop to_s block with
              | Some (Ok t) => Some (Ok (r :: t))
              | o => o
              end
          end
        else Some (Ok [])
    end.
  (** [validate_fit] (fit.rs 259-296): the largest error and the sum of the squares in metres *)
  Fixpoint validate (fuel : nat) (l : list lrec) (ncoeff : nat) (s stop step worst sum_sq : R) (count : nat) : option (outcome (R * R) fit_err) :=
    match fuel with
    | O => if rleb s (stop + 1 / 1000000000) then None else Some (Ok (worst, match count with O => 0 | _ => sqrt (sum_sq / INR count) end))
    | S k =>
        if rleb s (stop + 1 / 1000000000) then
          match solver (truth (jd_of s)) with
          | Err e => Some (Err e)
          | Panic => Some Panic
          | Ok p =>
              match evaluate_records l ncoeff (jd_of s) with
              | Ok q => let e := norm (vminus p q) * 1000 in validate k l ncoeff (s + step) stop step (Rmax worst e) (sum_sq + e * e) (S count)
              | Err _ => Some (Err InvalidConfig)
              | Panic => Some Panic
              end
          end
        else Some (Ok (worst, match count with O => 0 | _ => sqrt (sum_sq / INR count) end))
    end.
  (** [validate_config] (fit.rs 298-315) *)
  Definition valid_config (c : fit_config) : bool := rltb (secs (c_from c)) (secs (c_to c)) && rltb 0 (c_block c) && rltb 0 (c_step c).
  (** Turns that are enough (see [Lag_Proofs]) *)
  Definition turns (len piece : R) : nat := S (Z.to_nat (up (len / piece))).
  Record fitted := { t_ncoeff : nat; t_records : list lrec; t_max : R; t_rms : R }.
  (** [fit_with_order] (fit.rs 202-257); [None] would be a loop that does not end *)
  Definition fit_with_order (c : fit_config) (order : nat) : option (outcome fitted fit_err) :=
    if valid_config c then
      let a := secs (c_from c) in
      let b := secs (c_to c) in
      match fit_blocks (turns (b - a) (c_block c)) order a b (c_block c) with
      | Some (Ok l) =>
          match validate (turns (b - a + 1 / 1000000000) (c_step c)) l order a b (c_step c) 0 0 0 with
          | Some (Ok (m, rms)) => Some (Ok {| t_ncoeff := order; t_records := l; t_max := m; t_rms := rms |})
          | Some (Err e) => Some (Err e)
          | Some Panic => Some Panic
          | None => None
          end
      | Some (Err e) => Some (Err e)
      | Some Panic => Some Panic
      | None => None
      end
    else Some (Err InvalidConfig).
End Fit.
(** [fit_sun_earth_lagrange] (fit.rs 151-176), over the results of the orders *)
Fixpoint fit_orders (run : nat -> outcome fitted fit_err) (tol : R) (orders : list nat) (best : option fitted) : outcome fitted fit_err :=
  match orders with
  | [] => Err (ToleranceNotMet (option_map t_max best))
  | n :: t => match run n with
              | Ok f => if rleb (t_max f) tol then Ok f else fit_orders run tol t (Some f)
              | Err e => Err e
              | Panic => Panic
              end
  end.
Definition fit_lagrange (run : nat -> outcome fitted fit_err) (tol : R) : outcome fitted fit_err := fit_orders run tol [16; 24; 32; 40; 48]%nat None.
(** [fallback_or_solve] (mod.rs 238-248): the archive, and outside it the solver *)
Definition fallback_or_solve (archive : outcome vec fit_range) (solved : outcome solution lag_err) : outcome vec lag_err :=
  match archive with
  | Ok p => Ok p
  | Err _ => match solved with Ok s => Ok (s_pos s) | _ => Panic end
  | Panic => Panic
  end.
