(** The nutation models (src/astro/nutation/mod.rs, nut00a.rs), over the reals.
    The three coefficient tables live in another crate and are parameters; the
    multipliers of the arguments, stored there as floats, are integers. *)
From Coq Require Import Reals List ZArith.
From Verif Require Import Base Mat3 Ang Geom_Model Moon_Model Earth_Model.
Import ListNotations.
Local Open Scope R_scope.

(** a luni-solar row (mod.rs:291-305, nut00a.rs:239-245): [row[0..5]] and [row[5..11]] *)
Record ls_row := LS { ls_n : list Z; ls_ps : R; ls_pst : R; ls_pc : R; ls_ec : R; ls_ect : R; ls_es : R }.
(** a planetary row (nut00a.rs:269-287): [row[0..13]] and [row[13..17]] *)
Record pl_row := PL { pl_n : list Z; pl_ps : Z; pl_pc : Z; pl_es : Z; pl_ec : Z }.
(** mod.rs:79-98 *)
Record angles := { dpsi : R; deps : R; eps_a : R }.
Definition true_obliquity (a : angles) : R := eps_a a + deps a.

(** mod.rs:216-256, the polynomials in arc seconds *)
Definition p_l (t : R) : R := 485868.249036 + 1717915923.2178 * t + 31.8792 * t ^ 2 + 0.051635 * t ^ 3 - 0.00024470 * t ^ 4.
Definition p_lp (t : R) : R := 1287104.793048 + 129596581.0481 * t - 0.5532 * t ^ 2 + 0.000136 * t ^ 3 - 0.00001149 * t ^ 4.
Definition p_f (t : R) : R := 335779.526232 + 1739527262.8478 * t - 12.7512 * t ^ 2 - 0.001037 * t ^ 3 + 0.000000417 * t ^ 4.
Definition p_d (t : R) : R := 1072260.703692 + 1602961601.2090 * t - 6.3706 * t ^ 2 + 0.006593 * t ^ 3 - 0.00003169 * t ^ 4.
Definition p_om (t : R) : R := 450160.398036 - 6962890.5431 * t + 7.4722 * t ^ 2 + 0.007702 * t ^ 3 - 0.00005939 * t ^ 4.
(** mod.rs:216-256 *)
Definition delaunay (t : R) : list R := map (fun p => rem_e p 1296000 * PI / 648000) [p_l t; p_lp t; p_f t; p_d t; p_om t].
(** one turn of the loop of mod.rs:291-305 *)
Definition ls_step (t : R) (arg : ls_row -> R) (a : R * R) (row : ls_row) : R * R :=
  (fst a + ((ls_ps row + ls_pst row * t) * sin (arg row) + ls_pc row * cos (arg row)),
   snd a + ((ls_ec row + ls_ect row * t) * cos (arg row) + ls_es row * sin (arg row))).
(** mod.rs:281-325 *)
Definition nut00b (ls : list ls_row) (jd : R) : angles :=
  let t := centuries jd in
  let fa := delaunay t in
  let s := fold_left (ls_step t (fun row => term_angle (ls_n row) fa)) ls (0, 0) in
  let unit := PI / (180 * 3600 * 10000000) in
  {| dpsi := (fst s + - 1350) * unit; deps := (snd s + 3880) * unit; eps_a := mean_obliquity jd |}.

(** nut00a.rs:114-148, the two polynomials that differ from the above *)
Definition p_lp_mhb (t : R) : R := 1287104.79305 + 129596581.0481 * t - 0.5532 * t ^ 2 + 0.000136 * t ^ 3 - 0.00001149 * t ^ 4.
Definition p_d_mhb (t : R) : R := 1072260.70369 + 1602961601.2090 * t - 6.3706 * t ^ 2 + 0.006593 * t ^ 3 - 0.00003169 * t ^ 4.
(** nut00a.rs:103-158 *)
Definition ls_args (t : R) : list R := map (fun p => rem_t p 1296000 * (PI / (180 * 3600))) [p_l t; p_lp_mhb t; p_f t; p_d_mhb t; p_om t].
(** nut00a.rs:48-94, 165-193 in radians before the remainder, in the order of the columns (270-282); the last is the
    general precession, which is not reduced *)
Definition pl_lines (t : R) : list R :=
  [2.35555598 + 8328.6914269554 * t; 1.627905234 + 8433.466158131 * t; 5.198466741 + 7771.3771468121 * t; 2.18243920 - 33.757045 * t;
   4.402608842 + 2608.7903141574 * t; 3.176146697 + 1021.3285546211 * t; 1.753470314 + 628.3075849991 * t; 6.203480913 + 334.0612426700 * t;
   0.599546497 + 52.9690962641 * t; 0.874016757 + 21.3299104960 * t; 5.481293872 + 7.4781598567 * t; 5.321159000 + 3.8127774000 * t].
Definition fa_pa (t : R) : R := (0.024381750 + 0.00000538691 * t) * t.
Definition pl_args (t : R) : list R := map (fun x => rem_t x (2 * PI)) (pl_lines t) ++ [fa_pa t].
Definition pl_step (arg : pl_row -> R) (a : R * R) (row : pl_row) : R * R :=
  (fst a + (IZR (pl_ps row) * sin (arg row) + IZR (pl_pc row) * cos (arg row)), snd a + (IZR (pl_es row) * sin (arg row) + IZR (pl_ec row) * cos (arg row))).
Definition u2r : R := PI / (180 * 3600) / 10000000.
(** nut00a.rs:225-293: both tables backwards, every argument reduced once more *)
Definition nut00a_raw (ls : list ls_row) (pl : list pl_row) (jd : R) : R * R :=
  let t := centuries jd in
  let a := fold_left (ls_step t (fun row => rem_t (term_angle (ls_n row) (ls_args t)) (2 * PI))) (rev ls) (0, 0) in
  let b := fold_left (pl_step (fun row => rem_t (term_angle (pl_n row) (pl_args t)) (2 * PI))) (rev pl) (0, 0) in
  (fst a * u2r + fst b * u2r, snd a * u2r + snd b * u2r).
(** nut00a.rs:325-332 *)
Definition nut00a (ls : list ls_row) (pl : list pl_row) (jd : R) : angles :=
  let r := nut00a_raw ls pl jd in {| dpsi := fst r; deps := snd r; eps_a := mean_obliquity jd |}.
(** nut00a.rs:306-320 *)
Definition nut06a (ls : list ls_row) (pl : list pl_row) (jd : R) : angles :=
  let t := centuries jd in
  let fj2 := - 0.0000027774 * t in
  let r := nut00a_raw ls pl jd in
  {| dpsi := fst r + fst r * (0.0000004697 + fj2); deps := snd r + snd r * fj2; eps_a := mean_obliquity jd |}.
(** mod.rs:154-177 *)
Inductive model := Iau2000A | Iau2000B | Iau2006 | Iau2006A.
Definition nutation (lsb lsa : list ls_row) (pl : list pl_row) (m : model) (jd : R) : angles :=
  match m with
  | Iau2000A => nut00a lsa pl jd
  | Iau2000B => nut00b lsb jd
  | Iau2006 => {| dpsi := 0; deps := 0; eps_a := mean_obliquity jd |}
  | Iau2006A => nut06a lsa pl jd
  end.
(** mod.rs:341-346 *)
Definition nutation_rotation (a : angles) : mat := mul (mul (rx (eps_a a + deps a)) (rz (dpsi a))) (rx (- eps_a a)).
