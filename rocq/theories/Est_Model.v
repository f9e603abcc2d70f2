(** Weighted least squares and the orbit filter (src/pod/estimation/wls.rs, sequential.rs).

    Inputs are floating-point values with infinities and NaN; sums and products of finite values
    are exact (rounding and overflow are not modelled). The factorisation used by [solve] is in an
    external crate and is not modelled: what is proved is about the system handed to it. The
    covariance container is in an external crate; it is taken as the plain matrix. *)
From Coq Require Import List NArith ZArith QArith Bool PeanoNat.
From Verif Require Import Base DecFloat Qb Fnum Lin.
Import ListNotations.
Local Open Scope Q_scope.

(** ** Floating-point operations *)
Definition is_finite (a : fnum) : bool := match a with Fin _ => true | _ => false end.
Definition qneg (q : Q) : bool := qltb q 0.
Definition fmul (a b : fnum) : fnum :=
  match a, b with
  | NaN, _ | _, NaN => NaN
  | Fin p, Fin q => Fin (p * q)
  | Fin p, Inf s | Inf s, Fin p => if Qeq_bool p 0 then NaN else Inf (xorb s (qneg p))
  | Inf s, Inf s' => Inf (xorb s s')
  end.
Definition fadd (a b : fnum) : fnum :=
  match a, b with
  | NaN, _ | _, NaN => NaN
  | Fin p, Fin q => Fin (p + q)
  | Fin _, Inf s | Inf s, Fin _ => Inf s
  | Inf s, Inf s' => if Bool.eqb s s' then Inf s else NaN
  end.

(** ** wls.rs *)
(** wls.rs:40-56, the texts left out *)
Inductive wls_err := SigmaBad | ResidualBad | InvalidIndex (index n : nat) | PartialBad (index : nat).
(** wls.rs:67-77. The matrices are total functions; an access outside [n] is a panic. *)
Record normal := Normal { n_matrix : nat -> nat -> fnum; n_b : nat -> fnum; n_chi2 : fnum; n_obs : N }.
(** wls.rs:81-89 *)
Definition new_normal : normal := Normal (fun _ _ => Fin 0) (fun _ => Fin 0) (Fin 0) 0.
Definition partial : Type := nat * fnum.

Section Wls.
Variable n : nat.
Definition add_at (m : nat -> nat -> fnum) (i j : nat) (v : fnum) : nat -> nat -> fnum :=
  fun a b => if (a =? i)%nat && (b =? j)%nat then fadd (m a b) v else m a b.
Definition add_b (b : nat -> fnum) (i : nat) (v : fnum) : nat -> fnum := fun a => if (a =? i)%nat then fadd (b a) v else b a.
(** wls.rs:140-145: [None] is the index panic *)
Fixpoint inner (w : fnum) (i : nat) (hi : fnum) (ps : list partial) (m : nat -> nat -> fnum) : option (nat -> nat -> fnum) :=
  match ps with
  | [] => Some m
  | (j, hj) :: t =>
      if (j <? i)%nat then inner w i hi t m
      else if (n <=? j)%nat then None
      else inner w i hi t (add_at m i j (fmul (fmul w hi) hj))
  end.
(** wls.rs:126-146; the state is returned with the outcome *)
Fixpoint outer (w r : fnum) (all ps : list partial) (s : normal) : normal * outcome unit wls_err :=
  match ps with
  | [] => (s, Ok tt)
  | (i, hi) :: t =>
      if (n <=? i)%nat then (s, Err (InvalidIndex i n))
      else if negb (is_finite hi) then (s, Err (PartialBad i))
      else
        let b' := add_b (n_b s) i (fmul (fmul w hi) r) in
        match inner w i hi all (n_matrix s) with
        | None => (s, Panic)
        | Some m' => outer w r all t (Normal m' b' (n_chi2 s) (n_obs s))
        end
  end.
(** [1.0 / (sigma * sigma)] for a finite positive [sigma] *)
Definition weight (sigma : fnum) : fnum := match sigma with Fin q => Fin (/ (q * q)) | _ => NaN end.
(** wls.rs:109-150 [add_row] *)
Definition add_row (ps : list partial) (residual sigma : fnum) (s : normal) : normal * outcome unit wls_err :=
  if negb (is_finite sigma) || fle sigma (Fin 0) then (s, Err SigmaBad)
  else if negb (is_finite residual) then (s, Err ResidualBad)
  else
    let w := weight sigma in
    match outer w residual ps ps s with
    | (s', Ok _) => (Normal (n_matrix s') (n_b s') (fadd (n_chi2 s') (fmul (fmul w residual) residual)) (n_obs s' + 1)%N, Ok tt)
    | e => e
    end.
(** wls.rs:155-161: the matrix handed to the factorisation *)
Definition symmetrised (m : nat -> nat -> fnum) : nat -> nat -> fnum := fun i j => if (i <=? j)%nat then m i j else m j i.
(** wls.rs:215-218; [saturating_sub] *)
Definition reduced_chi2 (chi2 : Q) (obs : N) : Q := chi2 / inject_Z (Z.max (Z.of_N obs - Z.of_nat n) 1).
End Wls.

(** ** sequential.rs *)
(** sequential.rs:38-48 *)
Inductive ekf_err := Singular (s : Q) | BadNoise | BadInnovation | BadRow (i : nat).
(** sequential.rs:51-59 *)
Record innovation_record := Innov { i_innovation : Q; i_variance : Q; i_nis : Q }.
(** sequential.rs:73-76: mean (position then velocity; the epoch is untouched) and covariance *)
Record ekf := Ekf { e_mean : vec; e_cov : mat }.
Section Filter.
(** the dimension; 6 in the code *)
Variable n : nat.
(** sequential.rs:118-139 *)
Definition predict (f : ekf) (mean : vec) (phi : mat) (q : option mat) : ekf :=
  let p := mulm n (mulm n phi (e_cov f)) (tr phi) in
  Ekf mean (match q with Some q => fun i j => p i j + q i j | None => p end).
Definition value (a : fnum) : Q := match a with Fin q => q | _ => 0 end.
(** sequential.rs:165-171 *)
Fixpoint bad_row (h : nat -> fnum) (i k : nat) : option nat :=
  match k with O => None | S k' => if is_finite (h i) then bad_row h (S i) k' else Some i end.
(** sequential.rs:215-221: the two loops replace both entries of each pair by their mean *)
Definition sym_mean (p : mat) : mat := fun i j => if (i =? j)%nat then p i j else (1 # 2) * (p (Nat.min i j) (Nat.max i j) + p (Nat.max i j) (Nat.min i j)).
(** sequential.rs:149-231 *)
Definition update_scalar (f : ekf) (hf : nat -> fnum) (innovation r : fnum) : ekf * outcome innovation_record ekf_err :=
  if negb (is_finite r) || flt r (Fin 0) then (f, Err BadNoise)
  else if negb (is_finite innovation) then (f, Err BadInnovation)
  else match bad_row hf 0 n with
  | Some i => (f, Err (BadRow i))
  | None =>
      let h := fun i => value (hf i) in
      let r := value r in
      let nu := value innovation in
      let p := e_cov f in
      let ph := mulv n p h in
      let s := r + dot n h ph in
      if negb (qltb 0 s) then (f, Err (Singular s))
      else
        let k := fun i => ph i / s in
        let mean := fun i => e_mean f i + k i * nu in
        let ikh := fun i j => id_mat i j - k i * h j in
        let p' := mulm n (mulm n ikh p) (tr ikh) in
        let p'' := fun i j => p' i j + r * (k i * k j) in
        (Ekf mean (sym_mean p''), Ok (Innov nu s (nu * nu / s)))
  end.
End Filter.
