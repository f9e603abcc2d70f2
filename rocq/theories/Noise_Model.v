(** Process noise of the orbit filters (src/pod/process/noise.rs).

    Numbers are real numbers with the two infinities and NaN beside them
    ([rnum]); the arithmetic done after the finiteness checks is exact real
    arithmetic, so the rounding and the overflow of f64 are not modelled.
    Matrices are functions of two indices; a write outside the n x n square is
    a panic, as the index of [Vec<Vec<f64>>] would be. *)
From Coq Require Import List PeanoNat Reals Bool.
From Verif Require Import Base.
Import ListNotations.
Local Open Scope R_scope.

(** An f64 without rounding: a real, an infinity (true: negative) or NaN. *)
Inductive rnum := RF (r : R) | RInf (neg : bool) | RNaN.
(** The comparison [x < 0.0]; false for NaN. *)
Definition below0 (x : rnum) : bool := match x with RF r => if Rlt_dec r 0 then true else false | RInf neg => neg | RNaN => false end.
(** The comparison [x <= 0.0]; false for NaN. *)
Definition atmost0 (x : rnum) : bool := match x with RF r => if Rle_dec r 0 then true else false | RInf neg => neg | RNaN => false end.
(** [f64::is_finite]. *)
Definition finite (x : rnum) : bool := match x with RF _ => true | _ => false end.
(** The real inside a finite number (only read after [finite]). *)
Definition rv (x : rnum) : R := match x with RF r => r | _ => 0 end.

(** The texts of [PodDynamicsError::InvalidProcessNoise] (noise.rs 76-78,
    82-84, 148-150, 161-163, 185-187). *)
Inductive noise_err := BadSigma | BadTau | BadDt | BadPsd | BadEmpirical.
Definition res A := outcome A noise_err.

(** [GaussMarkovParams] (noise.rs 59-64). *)
Record gauss_markov := { g_sigma : rnum; g_tau : rnum }.

(** [WhiteAccelPsd::isotropic] (noise.rs 51-54), for a finite sigma. *)
Definition isotropic (sigma : R) : rnum * rnum * rnum := let q := RF (sigma * sigma) in (q, q, q).

(** [GaussMarkovParams::variance_after] (noise.rs 74-88), for a finite time
    step; the step itself is not checked there. *)
Definition variance_after (g : gauss_markov) (dt : R) : res R :=
  if below0 (g_sigma g) || negb (finite (g_sigma g)) then Err BadSigma
  else if atmost0 (g_tau g) || negb (finite (g_tau g)) then Err BadTau
  else Ok (rv (g_sigma g) * rv (g_sigma g) * (1 - exp (-2 * dt / rv (g_tau g)))).

(** [ProcessNoiseModel] (noise.rs 110-120). *)
Record noise := {
  n_psd : rnum * rnum * rnum;
  n_drag : option gauss_markov;
  n_srp : option gauss_markov;
  n_emp : option (rnum * rnum * rnum)
}.

(** Component of a three-array. *)
Definition pick (v : rnum * rnum * rnum) (i : nat) : rnum := let '(a, b, c) := v in match i with O => a | S O => b | _ => c end.
(** [usize::from(x.is_some())]. *)
Definition one_if {A} (x : option A) : nat := match x with Some _ => 1 | None => 0 end.
(** [ProcessNoiseModel::dim] (noise.rs 124-128). *)
Definition dim (m : noise) : nat := (6 + one_if (n_drag m) + one_if (n_srp m) + match n_emp m with Some _ => 3 | None => 0 end)%nat.

Definition mat := nat -> nat -> R.
(** [vec![vec![0.0; n]; n]] (noise.rs 153, 224). *)
Definition zeros : mat := fun _ _ => 0.
(** The matrix with one entry replaced. *)
Definition set_at (m : mat) (i j : nat) (v : R) : mat := fun a b => if (Nat.eqb a i && Nat.eqb b j)%bool then v else m a b.
(** The write [q[i][j] = v], which panics outside the square. *)
Definition put (n : nat) (i j : nat) (v : R) (m : mat) : res mat := if (Nat.ltb i n && Nat.ltb j n)%bool then Ok (set_at m i j v) else Panic.

Local Open Scope outcome_scope.
(** One turn of the loop over the axes (noise.rs 158-170). *)
Definition axis (n : nat) (m : noise) (dt : R) (i : nat) (q : mat) : res mat :=
  let qi := pick (n_psd m) i in
  if below0 qi || negb (finite qi) then Err BadPsd else
  let qi := rv qi in
  let dt2 := dt * dt in let dt3 := dt2 * dt in
  q <- put n i i (qi * dt3 / 3) q ;;
  q <- put n (3 + i) (3 + i) (qi * dt) q ;;
  let cross := qi * dt2 / 2 in
  q <- put n i (3 + i) cross q ;;
  put n (3 + i) i cross q.

(** The drag and solar-pressure terms (noise.rs 173-180): the index moves on
    only when the term is present. *)
Definition scale_term (n : nat) (g : option gauss_markov) (dt : R) (st : nat * mat) : res (nat * mat) :=
  let (idx, q) := st in
  match g with
  | None => Ok (idx, q)
  | Some g => v <- variance_after g dt ;; q <- put n idx idx v q ;; Ok (S idx, q)
  end.

(** One turn of the loop over the empirical axes (noise.rs 182-190). *)
Definition emp_axis (n : nat) (e : rnum * rnum * rnum) (dt : R) (idx k : nat) (q : mat) : res mat :=
  let s := pick e k in
  if below0 s || negb (finite s) then Err BadEmpirical
  else put n (idx + k) (idx + k) (rv s * rv s * dt) q.

(** [ProcessNoiseModel::q_matrix] (noise.rs 145-193); the result is the
    dimension and the matrix. *)
Definition q_matrix (m : noise) (dt : rnum) : res (nat * mat) :=
  if below0 dt || negb (finite dt) then Err BadDt else
  let dt := rv dt in
  let n := dim m in
  q <- axis n m dt 0 zeros ;;
  q <- axis n m dt 1 q ;;
  q <- axis n m dt 2 q ;;
  st <- scale_term n (n_drag m) dt (6%nat, q) ;;
  st <- scale_term n (n_srp m) dt st ;;
  let (idx, q) := st in
  match n_emp m with
  | None => Ok (n, q)
  | Some e =>
    q <- emp_axis n e dt idx 0 q ;;
    q <- emp_axis n e dt idx 1 q ;;
    q <- emp_axis n e dt idx 2 q ;;
    Ok (n, q)
  end.
Local Close Scope outcome_scope.

(** [.sum()] over the first [k] places. *)
Fixpoint sumn (k : nat) (f : nat -> R) : R := match k with O => 0 | S p => sumn p f + f p end.

(** The rest of a pivot's column when the pivot is zero (noise.rs 236-247);
    [None] is [return false]. *)
Fixpoint column0 (a l : mat) (i : nat) (js : list nat) : option mat :=
  match js with
  | [] => Some l
  | j :: rest =>
    let s2 := a j i - sumn i (fun t => l j t * l i t) in
    if Rlt_dec (/ 10 ^ 12) (Rabs s2) then None else column0 a (set_at l j i 0) i rest
  end.
(** The rest of a pivot's column otherwise (noise.rs 249-257). *)
Fixpoint column (a l : mat) (i : nat) (lii : R) (js : list nat) : mat :=
  match js with
  | [] => l
  | j :: rest => column a (set_at l j i ((a j i - sumn i (fun t => l j t * l i t)) / lii)) i lii rest
  end.
(** One pivot (noise.rs 227-258). *)
Definition pivot (n : nat) (a : mat) (i : nat) (l : mat) : option mat :=
  let s := a i i - sumn i (fun t => l i t * l i t) in
  if Rlt_dec s (- / 10 ^ 18) then None else
  let lii := sqrt (Rmax s 0) in
  let l := set_at l i i lii in
  if Req_EM_T lii 0 then column0 a l i (seq (S i) (n - S i)) else Some (column a l i lii (seq (S i) (n - S i))).
(** The loop over the pivots (noise.rs 226-259). *)
Fixpoint pivots (n : nat) (a l : mat) (is : list nat) : option mat :=
  match is with
  | [] => Some l
  | i :: rest => match pivot n a i l with None => None | Some l => pivots n a l rest end
  end.
(** [matrix_is_psd] (noise.rs 222-261) for an n x n matrix. *)
Definition matrix_is_psd (n : nat) (a : mat) : bool := match pivots n a zeros (seq 0 n) with Some _ => true | None => false end.
(** [ProcessNoiseModel::is_psd] (noise.rs 214-217). *)
Definition is_psd (m : noise) (dt : rnum) : res bool := obind (q_matrix m dt) (fun nq => let (n, q) := nq in Ok (matrix_is_psd n q)).

(** [PiecewiseSegment] (noise.rs 286-293). *)
Record segment := { s_duration : R; s_pos : R; s_vel : R }.
(** [ProcessNoise] (noise.rs 333-358). *)
Inductive process_noise := PNone | PWhite (pos vel : R) | PPiecewise (l : list segment).
(** [ProcessNoise::is_active] (noise.rs 370-372). *)
Definition is_active (p : process_noise) : bool := match p with PNone => false | _ => true end.
(** The search loop of [sigma_at] (noise.rs 414-420). *)
Fixpoint search (cumulative elapsed : R) (l : list segment) : option segment :=
  match l with
  | [] => None
  | s :: rest =>
    let c := cumulative + s_duration s in
    if Rlt_dec elapsed c then Some s else search c elapsed rest
  end.
(** [ProcessNoise::sigma_at] (noise.rs 403-426); durations and times are
    finite. *)
Definition sigma_at (p : process_noise) (elapsed : R) : R * R :=
  match p with
  | PNone => (0, 0)
  | PWhite a b => (a, b)
  | PPiecewise [] => (0, 0)
  | PPiecewise ((h :: _) as l) =>
    match search 0 elapsed l with
    | Some s => (s_pos s, s_vel s)
    | None => let s := last l h in (s_pos s, s_vel s)
    end
  end.
