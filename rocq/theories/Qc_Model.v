(** Quality control of an orbit run (src/pod/qc), over the reals: f64 rounding, NaN and infinities are not modelled
    (the start values +oo and -oo of the smallest and largest value are the first value here, which changes nothing
    for a list with a value in it). *)
From Coq Require Import Ascii String List Reals Bool Lra.
From Verif Require Import Base Mat3 Ang Geom_Model.
Import ListNotations.
Local Open Scope R_scope.

(** residuals.rs:35-48 *)
Record stats := Stats { st_n : nat; st_mean : R; st_std : R; st_rms : R; st_min : R; st_max : R }.
(** residuals.rs:34, derived [Default] *)
Definition no_stats : stats := Stats 0 0 0 0 0 0.
(** [Iterator::sum] *)
Definition total (l : list R) : R := fold_left Rplus l 0.
(** residuals.rs:63-73: the loop's five accumulators, the mean being fixed *)
Definition stat_step (mean : R) (a : R * R * R * R) (v : R) : R * R * R * R :=
  let '(var, sq, mn, mx) := a in
  let d := v - mean in
  (var + d * d, sq + v * v, if rltb v mn then v else mn, if rltb mx v then v else mx).
(** residuals.rs:52-88 *)
Definition from_slice (l : list R) : stats :=
  match l with
  | [] => no_stats
  | v0 :: _ =>
    let n := List.length l in
    let mean := total l / INR n in
    let '(var, sq, mn, mx) := fold_left (stat_step mean) l (0, 0, v0, v0) in
    Stats n mean (if Nat.ltb 1 n then sqrt (var / (INR n - 1)) else 0) (sqrt (sq / INR n)) mn mx
  end.

(** [BTreeMap<String, Vec<f64>>]: keys in ascending byte order; residuals.rs:109 *)
Fixpoint push (k : string) (v : R) (m : list (string * list R)) : list (string * list R) :=
  match m with
  | [] => [(k, [v])]
  | (k', l) :: t => match String.compare k k' with
                    | Lt => (k, [v]) :: m
                    | Eq => (k', l ++ [v]) :: t
                    | Gt => (k', l) :: push k v t
                    end
  end.
Record grouped := Grouped { g_groups : list (string * stats); g_overall : stats }.
(** residuals.rs:102-120 *)
Definition from_pairs (items : list (string * R)) : grouped :=
  let '(buckets, all) := fold_left (fun '(b, a) '(g, v) => (push g v b, a ++ [v])) items ([], []) in
  Grouped (map (fun '(k, l) => (k, from_slice l)) buckets) (from_slice all).

(** slr_validation.rs:53-64 *)
Definition slr_report (pairs : list (R * R)) : list (R * R) * stats :=
  (map (fun '(t, r) => (t, r)) pairs, from_slice (map snd pairs)).

(** an orbit state: epoch, position (km) and velocity (km/s) in GCRS *)
Record orbit := Orbit { o_epoch : R; o_pos : vec; o_vel : vec }.
(** orbit_compare.rs:36-46 *)
Record rtn_difference := Rd { d_epoch : R; d_r : R; d_t : R; d_n : R }.
(** The local frame of the external crate is a parameter: [frame r] has the radial, along-track and cross-track
    axes as rows, or is [None] when the state has none; orbit_compare.rs:75-88 *)
Section Compare.
  Variable frame : orbit -> option mat.
  Definition one_difference (e r : orbit) : outcome rtn_difference unit :=
    match frame r with
    | None => Panic
    | Some m => let '(x, y, z) := apply m (vminus (o_pos e) (o_pos r)) in
                Ok (Rd (o_epoch e) (x * 1000) (y * 1000) (z * 1000))
    end.
  (** orbit_compare.rs:72-91 *)
  Fixpoint rtn_diff (es rs : list orbit) : outcome (list rtn_difference) unit :=
    match es, rs with
    | e :: es, r :: rs => match one_difference e r with
                          | Ok d => match rtn_diff es rs with Ok ds => Ok (d :: ds) | x => x end
                          | Err x => Err x
                          | Panic => Panic
                          end
    | _, _ => Ok []
    end.
End Compare.
(** orbit_compare.rs:57-68 *)
Record rtn_sum := Rs { s_n : nat; s_3d : R; s_r : R; s_t : R; s_x : R }.
(** orbit_compare.rs:94-124 *)
Definition rtn_summary (ds : list rtn_difference) : rtn_sum :=
  match ds with
  | [] => Rs 0 0 0 0 0
  | _ => let n := List.length ds in
         let '(sr, st, sn) := fold_left (fun '(a, b, c) d => (a + d_r d * d_r d, b + d_t d * d_t d, c + d_n d * d_n d)) ds (0, 0, 0) in
         let r := sqrt (sr / INR n) in let t := sqrt (st / INR n) in let x := sqrt (sn / INR n) in
         Rs n (sqrt (r * r + t * t + x * x)) r t x
  end.
(** The frame of the external crate as src/astro/dynamics/forces/empirical.rs:48-98 builds the same triad; used only
    in the concrete cases. *)
Definition rtn_frame (s : orbit) : option mat :=
  let r := norm (o_pos s) in
  if reqb r 0 then None else
  let n := cross (o_pos s) (o_vel s) in
  let nn := norm n in
  if reqb nn 0 then None else
  let '(a, b, c) := scale (/ r) (o_pos s) in
  let '(d, e, f) := scale (/ nn) n in
  let '(p, q, w) := cross (d, e, f) (a, b, c) in
  Some (M a b c p q w d e f).
