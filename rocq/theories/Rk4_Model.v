(** The fixed-step adapter and the propagator front end
    (src/astro/dynamics/propagation/propagator.rs). *)
From Coq Require Import QArith Qabs Bool List.
From Verif Require Import Base DecFloat Fnum.
Import ListNotations.

(** [PrincipiaError::InvalidStepRequest] with its two reasons, and whatever
    [rk4_step] of the principia crate reports. *)
Inductive step_error (E : Type) := TryNotFinite | BadStep | StepFailed (e : E).
Arguments TryNotFinite {E}. Arguments BadStep {E}. Arguments StepFailed {E}.

Section Adapter.
  Context {State E : Type}.
  (** [rk4_step(model, state, h, ctx)] of the principia crate. *)
  Variable rk4_step : State -> Q -> outcome State E.

  (** [f64::signum] of a finite value; zero counts as positive. *)
  Definition signum (x : Q) : Q := if Qle_bool 0 x then 1 else (-1).

  (** [FixedRk4Adapter::step] (propagator.rs 72-97); [step] is the adapter's
      field. Sums and products are exact. *)
  Definition step (stp h_try : fnum) (s : State) : outcome (State * Q * Q * nat) (step_error E) :=
    match h_try with
    | Fin ht =>
        match stp with
        | Fin st =>
            let max_h := Qabs st in
            if Qeq_bool max_h 0 then Err BadStep
            else
              let h := if negb (Qle_bool max_h (Qabs ht)) then ht else signum ht * max_h in
              match rk4_step s h with
              | Ok n => Ok (n, h, h, O)
              | Err e => Err (StepFailed e)
              | Panic => Panic
              end
        | _ => Err BadStep
        end
    | _ => Err TryNotFinite
    end.

  (** A run of the adapter under some driver: the driver's requests in order,
      and the steps really taken (with the suggestion handed back each time). *)
  Fixpoint run (stp : fnum) (reqs : list fnum) (s : State) : outcome (State * list Q) (step_error E) :=
    match reqs with
    | [] => Ok (s, [])
    | r :: rest =>
        match step stp r s with
        | Ok (n, h, _, _) =>
            match run stp rest n with Ok (z, hs) => Ok (z, h :: hs) | Err e => Err e | Panic => Panic end
        | Err e => Err e
        | Panic => Panic
        end
    end.
End Adapter.

(** The configuration handed to principia's driver: span, first step, step
    limit, tolerances, optional output interval
    ([PropagationConfig], propagator.rs 200-203 and 225-233). *)
Record run_cfg (T Tol : Type) := RunCfg {
  r_start : T; r_end : T; r_first : Q; r_max : nat; r_tol : Tol; r_every : option Q }.
Arguments RunCfg {T Tol}. Arguments r_start {T Tol}. Arguments r_end {T Tol}. Arguments r_first {T Tol}.
Arguments r_max {T Tol}. Arguments r_tol {T Tol}. Arguments r_every {T Tol}.

(** [PropagatorConfig] (propagator.rs 110-117). *)
Record prop_cfg (Tol : Type) := PropCfg { p_tol : Tol; p_max : nat; p_event_dt : option Q }.
Arguments PropCfg {Tol}. Arguments p_tol {Tol}. Arguments p_max {Tol}. Arguments p_event_dt {Tol}.

Section Front.
  Context {State Tol Err0 : Type}.
  (** The epoch of a state, in seconds. *)
  Variable epoch : State -> Q.
  (** principia's [propagate]: the samples of the run or its error. *)
  Variable drive : State -> run_cfg Q Tol -> outcome (list State) Err0.

  (** [Propagator::propagate] (propagator.rs 192-211); the [expect] on an empty
      sample list is a panic. *)
  Definition propagate (c : prop_cfg Tol) (s : State) (dt : Q) : outcome State Err0 :=
    let cfg := RunCfg (epoch s) (epoch s + dt) 30 (p_max c) (p_tol c) None in
    match drive s cfg with
    | Ok samples => match rev samples with last :: _ => Ok last | [] => Panic end
    | Err e => Err e
    | Panic => Panic
    end.

  (** [Propagator::propagate_with_events] (propagator.rs 214-235): the whole
      result of the driver. *)
  Definition propagate_with_events (c : prop_cfg Tol) (s : State) (dt : Q) : outcome (list State) Err0 :=
    drive s (RunCfg (epoch s) (epoch s + dt) 30 (p_max c) (p_tol c) (p_event_dt c)).
End Front.
