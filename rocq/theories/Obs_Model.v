(** Orbit-determination observations over the reals (src/pod/observation/{corrections,gnss_obs,slr_obs,batch,
    obs_trait,provider_bundle}.rs). Distances in kilometres or metres as in the source; f64 rounding, NaN and
    the names of satellites and stations are not modelled. *)
From Coq Require Import Reals ZArith List Bool Lra.
From Verif Require Import Mat3 Geom_Model.
Import ListNotations.
Local Open Scope R_scope.

(** corrections.rs:294-298, slr_obs.rs:55-58, gnss_obs.rs:54 *)
Definition c_m_s : R := 299792458.
Definition gm_m3 : R := 398600441800000.
Definition two_gm_c2 : R := 2 * gm_m3 / (c_m_s * c_m_s).

(** * Corrections *)
(** corrections.rs:234-262 and 385-418: the part of an offset in kilometres along the line of sight, taken from a range in metres *)
Definition along (off : vec) (range : R) (rx sat : vec) : R :=
  let los := vminus sat rx in
  let mag := norm los in
  if reqb mag 0 then range else
  let '(ox, oy, oz) := off in let '(lx, ly, lz) := los in
  range - (ox * (lx / mag) + oy * (ly / mag) + oz * (lz / mag)) * 1000.
(** corrections.rs:300-332 *)
Definition shapiro (range : R) (rx sat : vec) : R :=
  let sum := norm rx * 1000 + norm sat * 1000 in
  let den := sum - range in
  if rltb 0 den then range + two_gm_c2 * ln ((sum + range) / den) else range.
Inductive correction := Pco (off : vec) | Shapiro | Tide (disp : vec).
Definition correct (c : correction) (range : R) (rx sat : vec) : R :=
  match c with Pco o => along o range rx sat | Shapiro => shapiro range rx sat | Tide d => along d range rx sat end.
(** corrections.rs:157-168 *)
Definition registry_apply (cs : list correction) (range : R) (rx sat : vec) : R := fold_left (fun r c => correct c r rx sat) cs range.

(** * GNSS *)
(** gnss_obs.rs:73-88 *)
Record klob := Klob { k_a0 : R; k_a1 : R; k_a2 : R; k_a3 : R; k_b0 : R; k_b1 : R; k_b2 : R; k_b3 : R;
  k_lat : R; k_lon : R; k_el : R; k_az : R; k_utc : R }.
Definition rfloor (x : R) : R := IZR (Int_part x).
(** gnss_obs.rs:157-164 *)
Definition saastamoinen (e : R) : R :=
  let s := Rmax (sin e) (7 / 100) in
  2277 / 1000000 * (101325 / 100) / s + 2277 / 1000000 * (1255 / (28815 / 100) + 5 / 100) * (11691 / 1000) / s.
(** gnss_obs.rs:169-223, in its steps *)
Definition k_psi (p : klob) : R := 137 / 10000 / (k_el p + 11 / 100) - 22 / 1000.
Definition k_phi (p : klob) : R := clamp (- (416 / 1000)) (416 / 1000) (k_lat p + k_psi p * cos (k_az p * PI)).
Definition k_lambda (p : klob) : R :=
  if rltb (1 / 10 ^ 9) (Rabs (cos (k_phi p * PI))) then k_lon p + k_psi p * sin (k_az p * PI) / cos (k_phi p * PI) else k_lon p.
Definition k_mag (p : klob) : R := k_phi p + 64 / 1000 * cos ((k_lambda p - 1617 / 1000) * PI).
Definition k_local (p : klob) : R := let t := 43200 * k_lambda p + k_utc p in t - rfloor (t / 86400) * 86400.
Definition cubic (a b c d x : R) : R := a + b * x + c * x * x + d * x * x * x.
Definition k_period (p : klob) : R := Rmax (cubic (k_b0 p) (k_b1 p) (k_b2 p) (k_b3 p) (k_mag p)) 72000.
Definition k_amp (p : klob) : R := Rmax (cubic (k_a0 p) (k_a1 p) (k_a2 p) (k_a3 p) (k_mag p)) 0.
Definition k_obliquity (p : klob) : R := 1 + 16 * (53 / 100 - k_el p) ^ 3.
Definition klobuchar (p : klob) : R :=
  let x := 2 * PI * (k_local p - 50400) / k_period p in
  let v := if rltb (Rabs x) (PI / 2) then 5 / 10 ^ 9 + k_amp p * cos x else 5 / 10 ^ 9 in
  k_obliquity p * v * c_m_s.
(** forces/mod.rs:28; gnss_obs.rs:228-234 *)
Definition omega_earth : R := 7292115146706979 / 10 ^ 20.
Definition c_km_s : R := c_m_s / 1000.
Definition sagnac_km (sat rx : vec) : R := let '(xs, ys, _) := sat in let '(xr, yr, _) := rx in omega_earth * (xs * yr - ys * xr) / c_km_s.
(** gnss_obs.rs:237-242; [c] is the number qtty's [C] holds in its own unit *)
Definition relativistic_m (c : R) (pos vel : vec) : R := -2 * dot3 pos vel * 1000 / c.
(** gnss_obs.rs:245-259, the range *)
Definition geometric_m (rx sat : vec) : R := norm (vminus rx sat) * 1000.
Inductive trop_model := TropNone | TropSaas (e : R).
Inductive iono_model := IonoFree | IonoNone | IonoKlob (p : klob).
Definition trop_of (t : trop_model) : R := match t with TropNone => 0 | TropSaas e => saastamoinen e end.
(** gnss_obs.rs:352-366, 479-492 *)
Definition f_l1 : R := 1575420000.
Definition iono_of (i : iono_model) (f : R) : R :=
  match i with
  | IonoFree | IonoNone => 0
  | IonoKlob p => let l1 := klobuchar p in if rltb 0 f && rltb 1000000 (Rabs (f - f_l1)) then l1 * (f_l1 / f) ^ 2 else l1
  end.
(** gnss_obs.rs:303-323, 434-458; the clocks of 368-371 in metres *)
Record gnss := Gnss { g_measured : R; g_sat : vec; g_vel : vec; g_trop : trop_model; g_iono : iono_model; g_freq : R }.
Record clocks := Clocks { cl_receiver : R; cl_satellite : R }.
(** gnss_obs.rs:333-375 *)
Definition pseudorange_residual (c : R) (o : gnss) (rx : vec) (k : clocks) : R :=
  g_measured o - (geometric_m rx (g_sat o) + cl_receiver k - cl_satellite k + trop_of (g_trop o) + iono_of (g_iono o) (g_freq o)
    + sagnac_km (g_sat o) rx * 1000 + relativistic_m c (g_sat o) (g_vel o)).
(** gnss_obs.rs:499-512 *)
Definition wavelength (f : R) : R := if rltb 0 f then c_m_s / f else 1903 / 10000.
Definition phase_residual (c : R) (o : gnss) (n : Z) (rx : vec) (k : clocks) : R * R :=
  let m := g_measured o - (geometric_m rx (g_sat o) + cl_receiver k - cl_satellite k + trop_of (g_trop o) - iono_of (g_iono o) (g_freq o)
    + sagnac_km (g_sat o) rx * 1000 + relativistic_m c (g_sat o) (g_vel o) + IZR n * wavelength (g_freq o)) in
  (m, m / wavelength (g_freq o)).

(** * Laser ranging *)
(** slr_obs.rs:66-86; three degrees in radians *)
Definition mm_factor (l : R) : R := 9650 / 10000 + 164 / 10000 / (l * l) + 228 / 1000000 / l ^ 4.
Definition three_deg : R := 3 * (PI / 180).
Definition marini_murray (e l : R) : R :=
  let e := Rmax e three_deg in
  mm_factor l * (2277 / 1000000 * (101325 / 100)) / (sin e + 14 / 10000 / (tan e + 45 / 1000)).
(** slr_obs.rs:98-107 *)
Definition shapiro_slr (r_rx r_sat rho : R) : R :=
  let numer := r_rx * 1000 + r_sat * 1000 + rho * 1000 in
  let denom := r_rx * 1000 + r_sat * 1000 - rho * 1000 in
  if rltb 1 denom then 2 * two_gm_c2 * ln (numer / denom) else 0.
(** slr_obs.rs:161-182 *)
Record slr := Slr { s_measured : R; s_station : vec; s_sat : vec; s_vel : vec; s_elev : R; s_wave : R }.
(** slr_obs.rs:187-234; the state and the providers are arguments that are not used *)
Definition refined (o : slr) : vec := vminus (s_sat o) (scale (norm (vminus (s_station o) (s_sat o)) / (c_m_s / 1000)) (s_vel o)).
Definition slr_modelled (o : slr) : R :=
  let rho := norm (vminus (s_station o) (refined o)) in
  2 * (rho * 1000) + 2 * marini_murray (s_elev o) (s_wave o) + shapiro_slr (norm (s_station o)) (norm (refined o)) rho.
Definition slr_residual (o : slr) (state : vec * vec) (k : clocks) : R := s_measured o - slr_modelled o.

(** * Batches *)
(** obs_trait.rs:96-110, 197-235; an observation erased to its epoch and its residual at a state *)
Inductive residual := Scalar (m : R) | Phase (m cycles : R).
Inductive obs_error := LightTimeNotConverged | OtherError.
Record observation {S} := Observation { o_epoch : R; o_residual : S -> residual + obs_error }.
Arguments observation S : clear implicits.
(** batch.rs:144-147 *)
Definition epochs_match (a b : R) : bool := rltb (Rabs (a - b)) (58 / 10 ^ 13).
(** batch.rs:109-118, 122-133 *)
Definition residuals_at_epoch {S} (batch : list (observation S)) (epoch : R) : list (residual + obs_error) :=
  map (fun _ => inr LightTimeNotConverged) (filter (fun o => epochs_match (o_epoch o) epoch) batch).
Definition residuals_with {S} (batch : list (observation S)) (epoch : R) (state : S) : list (residual + obs_error) :=
  map (fun o => o_residual o state) (filter (fun o => epochs_match (o_epoch o) epoch) batch).
