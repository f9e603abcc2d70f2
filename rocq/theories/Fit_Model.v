(** Iterated least squares and propagated arcs (src/pod/estimation/nonlinear.rs, src/pod/propagation), in exact
    rational arithmetic. Options and the initial vector may be NaN or infinite; results of the assembler and of the
    solver are finite. *)
From Coq Require Import List NArith ZArith QArith Qabs Qminmax Qround Bool Lia Lqa.
From Verif Require Import Base Text DecFloat Fnum Lin.
Import ListNotations.
Local Open Scope Q_scope.

Definition qlt (a b : Q) : bool := negb (Qle_bool b a).
(** wls.rs:200-218 *)
Record solution := Solution { w_update : list Q; w_chi2 : Q; w_obs : N; w_params : nat }.
Definition reduced (s : solution) : Q := w_chi2 s / inject_Z (Z.max (Z.of_N (w_obs s) - Z.of_nat (w_params s)) 1).
(** The normal equations an assembler returns: their parameter count and what solving them gives (wls.rs:153-195; the
    Cholesky factorisation is external, so the result is arbitrary). *)
Record equations (E : Type) := Equations { q_params : nat; q_solve : outcome solution E }.
Arguments Equations {E}. Arguments q_params {E}. Arguments q_solve {E}.
Inductive gn_err (E : Type) := NoIterations | BadTolRel (v : fnum) | BadTolChi2 (v : fnum) | BadInitial (v : fnum) | WrongCount (got want : nat) | Assembler (e : E) | Solver (e : E) | DidNotConverge (n : nat).
Arguments NoIterations {E}. Arguments BadTolRel {E}. Arguments BadTolChi2 {E}. Arguments BadInitial {E}. Arguments WrongCount {E}. Arguments Assembler {E}. Arguments Solver {E}. Arguments DidNotConverge {E}.
Record report := Report { p_parameters : list Q; p_last : solution; p_iterations : nat }.
Definition finite (a : fnum) : bool := match a with Fin _ => true | _ => false end.
Definition value (a : fnum) : Q := match a with Fin q => q | _ => 0 end.

(** nonlinear.rs:139-147: the largest relative change and the new parameters; an update longer than the parameter
    vector would panic on the index *)
Fixpoint apply_update (ps us : list Q) (max_rel : Q) : option (list Q * Q) :=
  match us, ps with
  | [], _ => Some (ps, max_rel)
  | _ :: _, [] => None
  | d :: us, p :: ps =>
    let scale := Qmax (Qabs p) 1 in
    let rel := Qabs d / scale in
    let max_rel := if qlt max_rel rel then rel else max_rel in
    match apply_update ps us max_rel with Some (ps', m) => Some ((p + d) :: ps', m) | None => None end
  end.
(** nonlinear.rs:149-153; [None] stands for infinity *)
Definition chi2_change (last : option Q) (chi2 : Q) : option Q :=
  match last with
  | Some l => if qlt 0 l then Some (Qabs (chi2 - l) / l) else None
  | None => None
  end.
Section Gauss_Newton.
  Context {E : Type}.
  (** the caller's closure may keep state, so what it returns may depend on the call *)
  Variable assemble : nat -> list Q -> outcome (equations E) E.
  Variables (max_iter : nat) (tol_rel tol_chi2 : fnum).
  (** nonlinear.rs:129-164; [rest] iterations are left after [it] of them *)
  Fixpoint iterate (rest it : nat) (params : list Q) (last : option Q) : outcome report (gn_err E) :=
    match rest with
    | O => Err (DidNotConverge max_iter)
    | S rest =>
      match assemble it params with
      | Err e => Err (Assembler e)
      | Panic => Panic
      | Ok ne =>
        if negb (q_params ne =? length params)%nat then Err (WrongCount (q_params ne) (length params)) else
        match q_solve ne with
        | Err e => Err (Solver e)
        | Panic => Panic
        | Ok result =>
          match apply_update params (w_update result) 0 with
          | None => Panic
          | Some (params, max_rel) =>
            let chi2 := reduced result in
            if flt (Fin max_rel) tol_rel && match chi2_change last chi2 with Some c => flt (Fin c) tol_chi2 | None => false end
            then Ok (Report params result (it + 1))
            else iterate rest (S it) params (Some chi2)
          end
        end
      end
    end.
  (** nonlinear.rs:93-165 *)
  Definition gauss_newton (initial : list fnum) : outcome report (gn_err E) :=
    if (max_iter =? 0)%nat then Err NoIterations
    else if negb (finite tol_rel) || flt tol_rel (Fin 0) then Err (BadTolRel tol_rel)
    else if negb (finite tol_chi2) || flt tol_chi2 (Fin 0) then Err (BadTolChi2 tol_chi2)
    else match find (fun v => negb (finite v)) initial with
         | Some v => Err (BadInitial v)
         | None => iterate max_iter 0 (map value initial) None
         end.
End Gauss_Newton.

(** variational.rs:270-293: one step of the external crate gives the next state and the matrix of the step *)
Section Arc.
  Context {A E : Type}.
  Variable propagate_stm : A -> outcome (A * mat) E.
  Fixpoint arc_steps (n : nat) (state : A) (phi : mat) : outcome (list (A * mat)) E :=
    match n with
    | O => Ok []
    | S n => match propagate_stm state with
             | Ok (s, step) => let phi := mulm 6 step phi in
                               match arc_steps n s phi with Ok l => Ok ((s, phi) :: l) | x => x end
             | Err e => Err e
             | Panic => Panic
             end
    end.
  Definition propagate_arc (n : nat) (initial : A) : outcome (list (A * mat)) E := arc_steps n initial id_mat.
  (** variational.rs:211-218 *)
  Definition final_state (l : list (A * mat)) : option A := option_map fst (last (map Some l) None).
  Definition final_stm (l : list (A * mat)) : option mat := option_map snd (last (map Some l) None).
End Arc.

(** integrators.rs:101-125: the number of sub-steps and their length handed to the external integrator; [None] is the
    error. Not modelled: counts beyond 2^64 and a [dt] that is not finite. *)
Inductive rk4_plan := Unchanged | Substeps (n : Z) (h : Q).
Definition rk4_steps (step : fnum) (dt : Q) : option rk4_plan :=
  if Qeq_bool dt 0 then Some Unchanged else
  match step with
  | Fin s => let s := Qabs s in
             if Qle_bool s 0 then None else
             let n := Z.max (Qceiling (Qabs dt / s)) 1 in Some (Substeps n (dt / inject_Z n))
  | Inf _ => Some (Substeps 1 (dt / 1))
  | NaN => None
  end.

(** variational.rs:124-157; [flow p] is the end state of the branch with parameter [p], six numbers *)
Definition central_diff {E} (flow : Q -> outcome vec E) (p : Q) (eps : fnum) : outcome vec (option E) :=
  match eps with
  | Fin e =>
    if Qle_bool e 0 then Err None else
    match flow (p + e) with
    | Ok yp => match flow (p - e) with
               | Ok ym => Ok (fun i => (yp i - ym i) * (1 / (2 * e)))
               | Err x => Err (Some x)
               | Panic => Panic
               end
    | Err x => Err (Some x)
    | Panic => Panic
    end
  | _ => Err None
  end.
(** the largest magnitude of six numbers, from zero *)
Definition largest (x : vec) : Q := fold_left (fun m i => Qmax m (Qabs (x i))) (seq 0 6) 0.
(** variational.rs:53-61 *)
Definition max_relative_difference (a b : vec) : Q :=
  let scale := largest b in
  let scale := if qlt 0 scale then scale else 1 in
  fold_left (fun m i => Qmax m (Qabs (a i - b i) / scale)) (seq 0 6) 0.
(** validation.rs:74-110: the nominal and the perturbed end state and the matrix are external *)
Definition tiny : Q := 1 # 1000000000000000000000000000000.
Definition stm_predict_error (flow : vec -> vec) (phi : mat) (y dy : vec) : Q :=
  let n := flow y in
  let p := flow (fun i => y i + dy i) in
  let actual := fun i => p i - n i in
  let predicted := mulv 6 phi dy in
  let scale := Qmax (largest actual) tiny in
  fold_left (fun m i => let r := Qabs (actual i - predicted i) / scale in if qlt m r then r else m) (seq 0 6) 0.
(** adapter.rs:93-109 *)
Definition propagate_spacecraft {O P E} (integrate : O -> outcome O E) (state : O * P) : outcome (O * P) E :=
  match integrate (fst state) with Ok o => Ok (o, snd state) | Err e => Err e | Panic => Panic end.
