(** Run configuration: force models by name, covariance checks, run manifests, residual tables (src/pod). Parameter
    values are a type [V]: nothing here computes with them. *)
From Coq Require Import String List Bool QArith Reals Arith.
From Verif Require Import Base Sort Mat3 Geom_Model.
Import ListNotations.

(** * Force models *)
Inductive shadow := NoShadow | Cylindrical | Conical.
Inductive harmonic := OncePerRev | TwicePerRev.
Section Forces.
Context {V : Type}.
(** src/pod/force/registry.rs:52-97 *)
Inductive fparams :=
| PNone
| PGeopotential (degree order : nat)
| PDrag (cd area_to_mass : V)
| PSrp (cr area_to_mass : V) (s : shadow)
| PConstant (radial transverse normal : V)
| PPeriodic (h : harmonic) (epoch_ref period : V) (coeffs : V * V * V * V * V * V)
| PCustom (text : string).
Record spec := Spec { s_name : string; s_params : fparams }.
(** what a factory builds: the force model with its settings; constants of the Earth are left out *)
Inductive fmodel :=
| TwoBody | J2
| Geopotential (degree order : nat)
| ThirdBody (sun moon : bool)
| Drag (cd area_to_mass : V)
| Cannonball (s : shadow) (cr area_to_mass : V)
| Relativity
| Constant (radial transverse normal : V)
| Periodic (h : harmonic) (epoch_ref period : V) (coeffs : V * V * V * V * V * V).
Inductive ferr := UnknownModel (name : string) | InvalidParameters (name : string).
Definition factory : Type := fparams -> outcome fmodel ferr.

(** registry.rs:252-420, one factory after the other *)
Definition two_body_factory : factory := fun _ => Ok TwoBody.
Definition j2_factory : factory := fun _ => Ok J2.
Definition geopotential_factory : factory := fun p => match p with PGeopotential d o => Ok (Geopotential d o) | _ => Err (InvalidParameters "geopotential") end.
Definition third_sun_factory : factory := fun _ => Ok (ThirdBody true false).
Definition third_moon_factory : factory := fun _ => Ok (ThirdBody false true).
Definition third_both_factory : factory := fun _ => Ok (ThirdBody true true).
Definition drag_factory : factory := fun p => match p with PDrag cd am => Ok (Drag cd am) | _ => Err (InvalidParameters "drag") end.
Definition srp_factory : factory := fun p => match p with PSrp cr am s => Ok (Cannonball s cr am) | _ => Err (InvalidParameters "srp_cannonball") end.
Definition relativity_factory : factory := fun _ => Ok Relativity.
Definition constant_factory : factory := fun p => match p with PConstant r t n => Ok (Constant r t n) | _ => Err (InvalidParameters "empirical_constant") end.
Definition harmonic_eqb (a b : harmonic) : bool := match a, b with OncePerRev, OncePerRev | TwicePerRev, TwicePerRev => true | _, _ => false end.
(** registry.rs:421-443 *)
Definition build_periodic (expected : harmonic) (label : string) : factory := fun p =>
  match p with
  | PPeriodic h e per c => if harmonic_eqb h expected then Ok (Periodic h e per c) else Err (InvalidParameters label)
  | _ => Err (InvalidParameters label)
  end.

(** registry.rs:139-199; the BTreeMap is a list in the byte order of its keys *)
Definition registry : Type := list (string * factory).
Fixpoint register (name : string) (f : factory) (r : registry) : registry :=
  match r with
  | [] => [(name, f)]
  | (k, g) :: r' =>
    match String.compare name k with
    | Eq => (name, f) :: r'
    | Lt => (name, f) :: (k, g) :: r'
    | Gt => (k, g) :: register name f r'
    end
  end.
Fixpoint lookup (name : string) (r : registry) : option factory :=
  match r with [] => None | (k, f) :: r' => if String.eqb name k then Some f else lookup name r' end.
Definition is_registered (name : string) (r : registry) : bool := match lookup name r with Some _ => true | None => false end.
Definition names (r : registry) : list string := map fst r.
(** registry.rs:161-177 *)
Definition builtin_list : list (string * factory) :=
  [("two_body", two_body_factory); ("j2", j2_factory); ("geopotential", geopotential_factory); ("third_body_sun", third_sun_factory);
   ("third_body_moon", third_moon_factory); ("third_body_sun_moon", third_both_factory); ("drag", drag_factory); ("srp_cannonball", srp_factory);
   ("relativity", relativity_factory); ("empirical_constant", constant_factory); ("empirical_1cpr", build_periodic OncePerRev "empirical_1cpr");
   ("empirical_2cpr", build_periodic TwicePerRev "empirical_2cpr")]%string.
Definition with_builtins : registry := fold_left (fun r nf => register (fst nf) (snd nf) r) builtin_list [].
(** registry.rs:203-234 *)
Definition build_one (r : registry) (s : spec) : outcome fmodel ferr :=
  match lookup (s_name s) r with Some f => f (s_params s) | None => Err (UnknownModel (s_name s)) end.
Fixpoint build_onto (r : registry) (out : list fmodel) (l : list spec) : outcome (list fmodel) ferr :=
  match l with
  | [] => Ok out
  | s :: l' => match build_one r s with Ok m => build_onto r (out ++ [m]) l' | Err e => Err e | Panic => Panic end
  end.
Definition build (r : registry) (l : list spec) : outcome (list fmodel) ferr := build_onto r [] l.

(** src/pod/force/config.rs:36-85 *)
Record config := Config {
  c_two_body : bool; c_j2 : bool; c_harmonics : option (nat * nat); c_sun : bool; c_moon : bool;
  c_drag : option (V * V); c_srp : option (V * V * shadow); c_relativity : bool;
  c_constant : option (V * V * V); c_1cpr : option (V * V * (V * V * V * V * V * V)); c_2cpr : option (V * V * (V * V * V * V * V * V)) }.
Definition default_config : config := Config true true None false false None None false None None None.
(** config.rs:101-179 *)
Definition to_specs (c : config) : list spec :=
  (if c_two_body c then [Spec "two_body" PNone] else []) ++
  (if c_j2 c then [Spec "j2" PNone] else []) ++
  (match c_harmonics c with Some (d, o) => [Spec "geopotential" (PGeopotential d o)] | None => [] end) ++
  (if c_sun c then [Spec "third_body_sun" PNone] else []) ++
  (if c_moon c then [Spec "third_body_moon" PNone] else []) ++
  (match c_drag c with Some (cd, am) => [Spec "drag" (PDrag cd am)] | None => [] end) ++
  (match c_srp c with Some (cr, am, sh) => [Spec "srp_cannonball" (PSrp cr am sh)] | None => [] end) ++
  (if c_relativity c then [Spec "relativity" PNone] else []) ++
  (match c_constant c with Some (r, t, n) => [Spec "empirical_constant" (PConstant r t n)] | None => [] end) ++
  (match c_1cpr c with Some (e, p, k) => [Spec "empirical_1cpr" (PPeriodic OncePerRev e p k)] | None => [] end) ++
  (match c_2cpr c with Some (e, p, k) => [Spec "empirical_2cpr" (PPeriodic TwicePerRev e p k)] | None => [] end).
(** the composite of the external crate adds its members up *)
Definition total (accel : fmodel -> vec) (l : list fmodel) : vec := fold_left (fun a m => vplus a (accel m)) l (0, 0, 0)%R.
End Forces.
Arguments fparams : clear implicits.
Arguments spec : clear implicits.
Arguments fmodel : clear implicits.
Arguments factory : clear implicits.
Arguments registry : clear implicits.
Arguments config : clear implicits.

(** * Covariance checks *)
Section Covariance.
Local Open Scope Q_scope.
(** src/pod/problem/covariance.rs:32-109; an entry is None when it is not a number; infinities are left out *)
Inductive cov_err := Dimension (expected actual : nat) | NotSymmetric (i j : nat) | NotPsdDiagonal (i : nat).
Definition entry (data : list (option Q)) (k : nat) : option Q := nth k data None.
Definition validate_dim (n : nat) (data : list (option Q)) : outcome unit cov_err :=
  if (length data =? n * n)%nat then Ok tt else Err (Dimension n (length data)).
Definition far (a b : option Q) (tol : Q) : bool :=
  match a, b with Some x, Some y => negb (Qle_bool (Qabs.Qabs (x - y)) tol) | _, _ => false end.
(** the first pair that fails, in the order of the two loops *)
Definition pairs (n : nat) : list (nat * nat) := flat_map (fun i => map (fun j => (i, j)) (seq (i + 1) (n - (i + 1)))) (seq 0 n).
Definition validate_symmetric (n : nat) (data : list (option Q)) (tol : Q) : outcome unit cov_err :=
  match validate_dim n data with
  | Ok _ => match find (fun ij => far (entry data (fst ij * n + snd ij)) (entry data (snd ij * n + fst ij)) tol) (pairs n) with
            | Some (i, j) => Err (NotSymmetric i j)
            | None => Ok tt
            end
  | Err e => Err e
  | Panic => Panic
  end.
Definition negative (a : option Q) : bool := match a with Some x => negb (Qle_bool 0 x) | None => false end.
Definition validate_diagonal_nonneg (n : nat) (data : list (option Q)) : outcome unit cov_err :=
  match validate_dim n data with
  | Ok _ => match find (fun i => negative (entry data (i * n + i))) (seq 0 n) with Some i => Err (NotPsdDiagonal i) | None => Ok tt end
  | Err e => Err e
  | Panic => Panic
  end.
End Covariance.

(** * Manifests *)
(** src/pod/run/dataset.rs:20-30, src/pod/run/manifest.rs:33-58; [K] is the type of (kind, path) pairs with its order *)
Section Manifest.
Context {K : Type} (leb : K -> K -> bool).
Record dataset := Dataset { d_key : K; d_bytes : nat; d_sha : string }.
Record manifest := Manifest { m_run : string; m_tool : string; m_config : string; m_inputs : list dataset; m_outputs : list dataset; m_started : string; m_finished : string }.
Definition sort_datasets (l : list dataset) : list dataset := isort (fun a b => leb (d_key a) (d_key b)) l.
Definition canonicalize (m : manifest) : manifest :=
  Manifest (m_run m) (m_tool m) (m_config m) (sort_datasets (m_inputs m)) (sort_datasets (m_outputs m)) (m_started m) (m_finished m).
End Manifest.

(** * Residual tables *)
(** src/pod/product/residuals_csv.rs:50-132; numbers are printed by [show9] and [show6] (the {:.9} and {:.6} of the standard
    library); a line is the list of its characters *)
Section Csv.
Local Open Scope string_scope.
Record residual := Residual { r_epoch : Q; r_type : string; r_satellite : string; r_residual : Q; r_sigma : Q; r_rejected : bool }.
Definition header : string := "epoch_jd_tt,obs_type,satellite,residual_m,sigma_m,rejected".
Definition newline : string := String (Ascii.ascii_of_nat 10) EmptyString.
Definition record_line (show9 show6 : Q -> string) (r : residual) : string :=
  show9 (r_epoch r) ++ "," ++ r_type r ++ "," ++ r_satellite r ++ "," ++ show6 (r_residual r) ++ "," ++ show6 (r_sigma r) ++ "," ++ (if r_rejected r then "true" else "false").
Definition table (show9 show6 : Q -> string) (l : list residual) : string :=
  header ++ newline ++ fold_right (fun r t => record_line show9 show6 r ++ newline ++ t) "" l.
End Csv.
