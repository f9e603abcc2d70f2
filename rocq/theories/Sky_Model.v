(** Sky grids (src/coordinates/sampling.rs), covariance checks (src/pod/problem/covariance.rs) and
    product names (src/pod/product/naming.rs).

    Angles are exact rationals in degrees. The cosine and the factor of degrees to radians are
    parameters: nothing below depends on their values. Counts are not bounded by [usize]. *)
From Coq Require Import Ascii String List NArith ZArith QArith Qround Bool.
From Verif Require Import Base Text DecFloat Qb Fnum.
Import ListNotations.
Local Open Scope Q_scope.

(** [f64::round] of a number that is not negative, then [as usize] *)
Definition round_up (q : Q) : nat := Z.to_nat (Qfloor (q + (1 # 2))).

(** sampling.rs:147-155 *)
Record sky_grid := Grid { alt_min : Q; alt_max : Q; alt_step : Q; az_step : Q; equal_solid_angle : bool }.
(** sampling.rs:163-203 *)
Definition with_steps (a z : Q) : sky_grid := Grid 0 90 a z false.
Definition equal_area (a z : Q) : sky_grid := Grid 0 90 a z true.
Definition with_alt_range (g : sky_grid) (lo hi : Q) : sky_grid := Grid lo hi (alt_step g) (az_step g) (equal_solid_angle g).
(** sampling.rs:211-216 *)
Definition n_alt (g : sky_grid) : nat :=
  if qleb (alt_max g) (alt_min g) || qleb (alt_step g) 0 then 0%nat else round_up ((alt_max g - alt_min g) / alt_step g).
(** sampling.rs:218-223 *)
Definition n_az_uniform (g : sky_grid) : nat := if qleb (az_step g) 0 then 0%nat else round_up (360 / az_step g).

Section Cells.
Variables (cosd : Q -> Q) (rad two_pi : Q).
Definition clamp (q : Q) : Q := if qltb q 0 then 0 else q.
(** sampling.rs:225-233 *)
Definition n_az_equal_area (g : sky_grid) (alt : Q) : nat :=
  let cos_alt := clamp (cosd alt) in
  let h := az_step g * rad in
  if qleb h 0 then 1%nat else Nat.max (round_up (two_pi * cos_alt / h)) 1.
(** the centre of row [i]: sampling.rs:241, 281 *)
Definition alt_centre (g : sky_grid) (i : nat) : Q := alt_min g + (inject_Z (Z.of_nat i) + (1 # 2)) * alt_step g.
(** sampling.rs:236-248 *)
Definition len (g : sky_grid) : nat :=
  if equal_solid_angle g
  then list_sum (map (fun i => n_az_equal_area g (alt_centre g i)) (seq 0 (n_alt g)))
  else (n_alt g * n_az_uniform g)%nat.
(** sampling.rs:100-110 *)
Record cell := Cell { c_alt : Q; c_az : Q; c_solid : Q }.
(** sampling.rs:280-316: one row *)
Definition row (g : sky_grid) (i : nat) : list cell :=
  let alt := alt_centre g i in
  let cos_alt := cosd alt in
  let n_az := if equal_solid_angle g then
                let h := az_step g * rad in
                Nat.max (if qltb 0 h then round_up (two_pi * clamp cos_alt / h) else 1%nat) 1
              else n_az_uniform g in
  let step := if equal_solid_angle g then 360 / inject_Z (Z.of_nat n_az) else az_step g in
  let solid := cos_alt * (alt_step g * rad) * (step * rad) in
  map (fun j => Cell alt ((inject_Z (Z.of_nat j) + (1 # 2)) * step) solid) (seq 0 n_az).
(** sampling.rs:271-317 *)
Definition iter_cells (g : sky_grid) : list cell := flat_map (row g) (seq 0 (n_alt g)).
End Cells.

(** ** Covariances: covariance.rs. *)
(** covariance.rs:40-58 *)
Inductive cov_error := Dimension (expected actual : nat) | NotSymmetric (i j : nat) | NotPsdDiagonal (i : nat).
(** [a - b] on floating-point values and [abs] *)
Definition fsub (a b : fnum) : fnum :=
  match a, b with
  | NaN, _ | _, NaN => NaN
  | Fin p, Fin q => Fin (p - q)
  | Fin _, Inf s => Inf (negb s)
  | Inf s, Fin _ => Inf s
  | Inf s, Inf s' => if Bool.eqb s s' then NaN else Inf s
  end.
Definition fabs (a : fnum) : fnum := match a with Fin q => Fin (if qltb q 0 then - q else q) | Inf _ => Inf false | NaN => NaN end.
Section Cov.
Variables (n : nat) (data : list fnum).
(** covariance.rs:67-77 *)
Definition validate_dim : outcome unit cov_error := if (length data =? n * n)%nat then Ok tt else Err (Dimension n (length data)).
Definition entry (i j : nat) : fnum := nth (i * n + j) data NaN.
(** covariance.rs:84-93; the first pair found, by rows *)
Fixpoint first_bad {A} (bad : A -> bool) (l : list A) : option A := match l with [] => None | x :: t => if bad x then Some x else first_bad bad t end.
Definition pairs : list (nat * nat) := flat_map (fun i => map (fun j => (i, j)) (seq (S i) (n - S i))) (seq 0 n).
(** covariance.rs:80-96 *)
Definition validate_symmetric (tol : fnum) : outcome unit cov_error :=
  match validate_dim with
  | Ok _ => match first_bad (fun '(i, j) => flt tol (fabs (fsub (entry i j) (entry j i)))) pairs with
            | Some (i, j) => Err (NotSymmetric i j)
            | None => Ok tt
            end
  | e => e
  end.
(** covariance.rs:99-109 *)
Definition validate_diagonal_nonneg : outcome unit cov_error :=
  match validate_dim with
  | Ok _ => match first_bad (fun i => flt (entry i i) (Fin 0)) (seq 0 n) with
            | Some i => Err (NotPsdDiagonal i)
            | None => Ok tt
            end
  | e => e
  end.
End Cov.

(** ** Product names: naming.rs. A date is its year and day of year, or its distance in days from
    1980-01-06: the calendar is in an external crate. *)
(** naming.rs:76-81, 115-121 *)
Inductive file_type := PositionOnly | PositionVelocity.
Definition lfn_file_type_tag (t : file_type) : str := match t with PositionOnly => lit "ORB" | PositionVelocity => lit "OBV" end.
Inductive sp3_version := VA | VC | VD.
Definition lfn_version_char (v : sp3_version) : str := match v with VA => lit "a" | VC => lit "c" | VD => lit "d" end.
(** naming.rs:143-151 *)
Definition sample_rate_to_lfn (s : N) : str :=
  if (s <? 60)%N then pad0 2 s ++ lit "S"
  else if (s <? 3600)%N then pad0 2 (s / 60) ++ lit "M"
  else pad0 2 (s / 3600) ++ lit "H".
(** [{z:0w}] of a signed integer: the width counts the sign *)
Definition pad0z (w : nat) (z : Z) : str := if (z <? 0)%Z then lit "-" ++ pad0 (w - 1) (Z.abs_N z) else pad0 w (Z.abs_N z).
(** naming.rs:177-193 *)
Definition sp3_filename (satellite : str) (year : Z) (doy : N) (t : file_type) (rate : N) (v : sp3_version) : str :=
  satellite ++ lfn_version_char v ++ lit "OPSFIN_" ++ pad0z 4 year ++ pad0 3 doy ++ lit "0000_01D_" ++ sample_rate_to_lfn rate ++ lit "_" ++ lfn_file_type_tag t ++ lit ".SP3".
(** naming.rs:213-219 *)
Definition sp3_short_filename (ac : str) (days : Z) : str := ac ++ pad0z 4 (Z.quot days 7) ++ pad0z 1 (Z.rem days 7) ++ lit ".sp3".
(** naming.rs:252-268 *)
Definition igs_lfn (ac : str) (version : str) (campaign : str) (year : Z) (doy hour minute : N) (span sample ftype ext : str) : str :=
  ac ++ version ++ campaign ++ lit "_" ++ pad0z 4 year ++ pad0 3 doy ++ pad0 2 hour ++ pad0 2 minute ++ lit "_" ++ span ++ lit "_" ++ sample ++ lit "_" ++ ftype ++ lit "." ++ ext.
