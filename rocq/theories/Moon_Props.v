(** C90 - C92: the Moon's altitude from cached positions and nutation. *)
From Coq Require Import List PeanoNat ZArith Lia Bool Reals Lra Psatz.
From Verif Require Import Base Mat3 Ang Horiz_Model Horiz_Proofs Horiz_Props Geom_Model Geom_Proofs Jpl_Model Jpl_Proofs Lag_Model Lag_Proofs Cheb Moon_Model Moon_Proofs.
Import ListNotations.
Local Open Scope R_scope.

(** * C90: positions *)
(** Every date gets a position, for every window, also an empty or reversed one. *)
Theorem C90_total truth start stop mjd : exists v, get_position truth (pos_new truth start stop) mjd = Ok v.
Proof. destruct (position_cases truth start stop mjd) as [(_ & E)|[(_ & E)|(k & _ & _ & E)]]; eauto. Qed.
(** Far from the window the full ephemeris answers. *)
Theorem C90_direct truth start stop mjd : start - 1 <= stop + 1 -> mjd < start - 1 \/ stop + 5 <= mjd -> get_position truth (pos_new truth start stop) mjd = Ok (truth mjd).
Proof.
  intros W [H|H]; [now apply get_before|]. apply get_after. pose proof (segments_tight start stop W) as T. rewrite Rmax_left in T by lra. lra.
Qed.
(** the date of sample [j] in the 4-day segment [k] counted from a day before the window *)
Definition sample_date (start : R) (k j : nat) : R := start - 1 + 4 * INR k + 2 + 2 * cos (PI * (INR j + 1 / 2) / 9).
(** In the window (and a day around it) the answer comes from the nine samples of the date's segment alone. *)
Theorem C90_cached truth truth' start stop mjd k : start - 1 <= mjd < stop + 1 -> start - 1 + 4 * INR k <= mjd < start + 3 + 4 * INR k ->
  (forall j, (j < 9)%nat -> truth (sample_date start k j) = truth' (sample_date start k j)) ->
  get_position truth (pos_new truth start stop) mjd = get_position truth' (pos_new truth' start stop) mjd.
Proof.
  intros W I H. pose proof (segments_cover start stop) as C. assert (K : (k < segments start stop)%nat) by (apply INR_lt; lra).
  rewrite !(get_inside _ start stop k) by (exact K || lra). f_equal. unfold segment_value.
  assert (E : forall coord : vec -> R, map (fun x => coord (truth (start - 1 + INR k * 4 + 2 + 2 * x))) (nodes 9) = map (fun x => coord (truth' (start - 1 + INR k * 4 + 2 + 2 * x))) (nodes 9)).
  { intros coord. apply map_ext_in. intros x Hx. unfold nodes in Hx. apply in_map_iff in Hx as (j & <- & J). apply in_seq in J. specialize (H j ltac:(lia)). unfold sample_date in H.
    replace (start - 1 + INR k * 4 + 2 + 2 * node 9 j) with (start - 1 + 4 * INR k + 2 + 2 * cos (PI * (INR j + 1 / 2) / 9)); [now rewrite H|]. unfold node, node_angle. replace (INR 9) with 9 by (cbn; ring). ring. }
  now rewrite !E.
Qed.
(** At its sample dates the cache gives the ephemeris itself. *)
Theorem C90_nodes truth start stop k j : (j < 9)%nat -> get_position truth (pos_new truth start stop) (sample_date start k j) = Ok (truth (sample_date start k j)).
Proof.
  intros J. assert (E : sample_date start k j = start - 1 + INR k * 4 + 2 + 2 * node 9 j) by (unfold sample_date, node, node_angle; replace (INR 9) with 9 by (cbn; ring); ring).
  rewrite E. set (mjd := start - 1 + INR k * 4 + 2 + 2 * node 9 j). pose proof (node_angle_range 9 j J) as Rg.
  assert (N1 : -1 < node 9 j < 1). { unfold node. pose proof PI_RGT_0. split; [rewrite <- cos_PI|rewrite <- cos_0]; apply cos_decreasing_1; lra. }
  destruct (position_cases truth start stop mjd) as [(_ & ->)|[(_ & ->)|(m & _ & I & ->)]]; [reflexivity|reflexivity|].
  assert (m = k). { destruct (lt_eq_lt_dec m k) as [[L|L]|L]; [|exact L|]; exfalso; apply le_INR in L; rewrite S_INR in L; unfold mjd in I; lra. } subst m.
  unfold segment_value. replace ((mjd - (start - 1 + INR k * 4 + 2)) / 2) with (node 9 j) by (unfold mjd; field).
  assert (F : forall coord : vec -> R, evaluate (fit_coeffs (map (fun x => coord (truth (start - 1 + INR k * 4 + 2 + 2 * x))) (nodes 9))) (node 9 j) = coord (truth mjd)).
  { intros coord. set (v := map _ _). assert (L : length v = 9%nat) by (unfold v; now rewrite map_length, nodes_length). rewrite <- L at 1. rewrite fit_interpolates by lia.
    unfold v. set (g := fun x => coord (truth (start - 1 + INR k * 4 + 2 + 2 * x))). rewrite (nth_indep _ 0 (g 0)) by (rewrite map_length, nodes_length; exact J). rewrite (map_nth g), nodes_nth by exact J. reflexivity. }
  rewrite !F. destruct (truth mjd) as ((x, y), z). reflexivity.
Qed.
(** Where polynomials of degree at most eight follow the motion to within eps over a segment, the cache follows it to within 18 eps. *)
Theorem C90_error truth start stop k gx gy gz eps mjd : start - 1 + 4 * INR k <= mjd < start + 3 + 4 * INR k -> poly 9 gx -> poly 9 gy -> poly 9 gz ->
  (forall t, start - 1 + 4 * INR k <= t <= start + 3 + 4 * INR k -> let '(x, y, z) := truth t in Rabs (x - gx t) <= eps /\ Rabs (y - gy t) <= eps /\ Rabs (z - gz t) <= eps) ->
  exists x y z, get_position truth (pos_new truth start stop) mjd = Ok (x, y, z) /\
    let '(x', y', z') := truth mjd in Rabs (x - x') <= 18 * eps /\ Rabs (y - y') <= 18 * eps /\ Rabs (z - z') <= 18 * eps.
Proof.
  intros I Px Py Pz H.
  assert (E0 : 0 <= eps). { specialize (H mjd ltac:(lra)). destruct (truth mjd) as ((a, b), c). destruct H as (H & _). pose proof (Rabs_pos (a - gx mjd)). lra. }
  assert (D : exists x y z, Ok (E:=unit) (truth mjd) = Ok (x, y, z) /\ let '(x', y', z') := truth mjd in Rabs (x - x') <= 18 * eps /\ Rabs (y - y') <= 18 * eps /\ Rabs (z - z') <= 18 * eps).
  { destruct (truth mjd) as ((a, b), c). exists a, b, c. split; [reflexivity|]. rewrite !Rminus_diag_eq, Rabs_R0 by reflexivity. lra. }
  destruct (position_cases truth start stop mjd) as [(_ & ->)|[(_ & ->)|(m & _ & J & ->)]]; [exact D|exact D|]. clear D.
  assert (m = k). { destruct (lt_eq_lt_dec m k) as [[L|L]|L]; [|exact L|]; exfalso; apply le_INR in L; rewrite S_INR in L; lra. } subst m.
  unfold segment_value. set (mid := start - 1 + INR k * 4 + 2) in *. eexists _, _, _. split; [reflexivity|].
  pose proof (coordinate_near (fun t => coord_x (truth t)) gx mid eps mjd Px) as Hx. pose proof (coordinate_near (fun t => coord_y (truth t)) gy mid eps mjd Py) as Hy. pose proof (coordinate_near (fun t => coord_z (truth t)) gz mid eps mjd Pz) as Hz.
  assert (M : mid - 2 <= mjd <= mid + 2) by (unfold mid; lra).
  assert (T : forall t, mid - 2 <= t <= mid + 2 -> Rabs (coord_x (truth t) - gx t) <= eps /\ Rabs (coord_y (truth t) - gy t) <= eps /\ Rabs (coord_z (truth t) - gz t) <= eps).
  { intros t Ht. specialize (H t ltac:(unfold mid in Ht; lra)). destruct (truth t) as ((a, b), c). exact H. }
  specialize (Hx (fun t Ht => proj1 (T t Ht)) M). specialize (Hy (fun t Ht => proj1 (proj2 (T t Ht))) M). specialize (Hz (fun t Ht => proj2 (proj2 (T t Ht))) M).
  cbv beta in Hx, Hy, Hz. destruct (truth mjd) as ((a, b), c). auto.
Qed.
(** A motion of degree at most eight is reproduced exactly. *)
Theorem C90_exact gx gy gz start stop mjd : poly 9 gx -> poly 9 gy -> poly 9 gz -> let truth := fun t => (gx t, gy t, gz t) in
  get_position truth (pos_new truth start stop) mjd = Ok (truth mjd).
Proof.
  intros Px Py Pz truth. destruct (Rlt_le_dec mjd (start - 1)) as [B|B]; [now apply get_before|].
  pose proof (as_usize_floor ((mjd - (start - 1)) / 4) ltac:(lra)) as F. set (k := as_usize _) in *.
  destruct (C90_error truth start stop k gx gy gz 0 mjd ltac:(lra) Px Py Pz) as (x & y & z & E & A & C & D).
  - intros t _. unfold truth. rewrite !Rminus_diag_eq, Rabs_R0 by reflexivity. lra.
  - rewrite E. unfold truth in *. assert (Z : forall u v, Rabs (u - v) <= 18 * 0 -> u = v). { intros u v Q. rewrite Rmult_0_r in Q. destruct (Req_dec (u - v) 0) as [|N]; [lra|]. apply Rabs_pos_lt in N. lra. }
    rewrite (Z _ _ A), (Z _ _ C), (Z _ _ D). reflexivity.
Qed.
Example C90_case : 60000 - 1 <= 60010 + 1 /\ 60000 - 1 + 4 * INR 2 <= 60008 < 60000 + 3 + 4 * INR 2 /\ poly 9 (fun t => t * (t * 1)) /\
  get_position (fun t => (t * (t * 1), 0, 1)) (pos_new (fun t => (t * (t * 1), 0, 1)) 60000 60010) 60008 = Ok (60008 * (60008 * 1), 0, 1).
Proof.
  assert (P1 : forall c, poly 9 (fun _ => c)) by (intros c; exists [c]; split; [cbn; lia|intros; cbn; ring]).
  assert (P : poly 9 (fun t => t * (t * 1))) by (apply poly_more with 3%nat; [lia|]; apply poly_x, poly_x; exists [1]; split; [cbn; lia|intros; cbn; ring]).
  cbn [INR]. split; [lra|]. split; [lra|]. split; [exact P|]. now apply (C90_exact (fun t => t * (t * 1)) (fun _ => 0) (fun _ => 1)).
Qed.
Print Assumptions C90_total. Print Assumptions C90_direct. Print Assumptions C90_cached. Print Assumptions C90_nodes. Print Assumptions C90_error. Print Assumptions C90_exact.

(** * C91: nutation *)
Theorem C91_total series start stop mjd : exists v, get_nutation series (nut_new series start stop) mjd = Ok v.
Proof. destruct (nutation_cases series start stop mjd) as [(_ & E)|(k & _ & E)]; eauto. Qed.
(** Outside the window and its margins the full series answers. *)
Theorem C91_direct series start stop mjd : start - 1 <= stop + 1 -> mjd < start - 1 \/ stop + 1 + 2 / 24 <= mjd -> get_nutation series (nut_new series start stop) mjd = Ok (series mjd).
Proof.
  intros W [H|H]; apply nut_outside; [now left|right]. unfold entries. rewrite Nat.add_sub.
  pose proof (ceil_close ((stop + 1 - (start - 1)) / nut_step) ltac:(unfold nut_step; lra)) as C. set (n := Z.to_nat _) in *. clearbody n. unfold nut_step in *. lra.
Qed.
(** the dates at which the series is tabulated: every two hours from a day before the window *)
Definition grid_date (start : R) (k : nat) : R := start - 1 + INR k * (2 / 24).
(** At the tabulated dates the cache gives the series itself. *)
Theorem C91_grid series start stop k : get_nutation series (nut_new series start stop) (grid_date start k) = Ok (series (grid_date start k)).
Proof.
  destruct (nutation_cases series start stop (grid_date start k)) as [(_ & E)|(m & I & ->)]; [exact E|]. unfold grid_date, nut_step in *.
  assert (m = k). { destruct (lt_eq_lt_dec m k) as [[L|L]|L]; [|exact L|]; exfalso; apply le_INR in L; rewrite S_INR in L; lra. } subst m. cbv zeta. unfold between_grid, nut_step.
  replace ((start - 1 + INR k * (2 / 24) - (start - 1 + INR k * (2 / 24))) / (2 / 24)) with 0 by (unfold Rdiv; ring).
  destruct (series (start - 1 + INR k * (2 / 24))) as ((a, b), c). cbn [coord_x coord_y coord_z]. rewrite !Rmult_0_l, !Rplus_0_r. reflexivity.
Qed.
(** In the window the answer comes from the two neighbouring table entries alone, on the straight line between them. *)
Theorem C91_line series start stop mjd k t : start - 1 <= mjd < stop + 1 -> 0 <= t < 1 -> mjd = grid_date start k + t * (2 / 24) ->
  let '(a, b, c) := series (grid_date start k) in let '(a', b', c') := series (grid_date start (S k)) in
  get_nutation series (nut_new series start stop) mjd = Ok ((1 - t) * a + t * a', (1 - t) * b + t * b', (1 - t) * c + t * c').
Proof.
  intros W T E. unfold grid_date in *. pose proof (entries_cover start stop) as C.
  assert (K : (k < entries start stop - 1)%nat). { apply INR_lt. unfold nut_step in C. lra. }
  rewrite (nut_inside series start stop k mjd); [|lia|unfold nut_step; lra]. cbv zeta. unfold between_grid, nut_step. rewrite S_INR.
  replace (start - 1 + (INR k + 1) * (2 / 24)) with (start - 1 + INR k * (2 / 24) + 2 / 24) by ring. replace ((mjd - (start - 1 + INR k * (2 / 24))) / (2 / 24)) with t by (rewrite E; field).
  destruct (series (start - 1 + INR k * (2 / 24))) as ((a, b), c), (series (start - 1 + INR k * (2 / 24) + 2 / 24)) as ((a', b'), c'). cbn [coord_x coord_y coord_z].
  do 2 f_equal; [f_equal|]; ring.
Qed.
(** If the slopes of the three angles change by at most M within any two hours, the cache is within M/48 of the series. *)
Theorem C91_smooth f1 f2 f3 d1 d2 d3 M start stop mjd : let series := fun t => (f1 t, f2 t, f3 t) in
  (forall s, derivable_pt_lim f1 s (d1 s) /\ derivable_pt_lim f2 s (d2 s) /\ derivable_pt_lim f3 s (d3 s)) ->
  (forall s u, Rabs (s - u) <= 2 / 24 -> Rabs (d1 s - d1 u) <= M /\ Rabs (d2 s - d2 u) <= M /\ Rabs (d3 s - d3 u) <= M) ->
  exists x y z, get_nutation series (nut_new series start stop) mjd = Ok (x, y, z) /\ Rabs (x - f1 mjd) <= M / 48 /\ Rabs (y - f2 mjd) <= M / 48 /\ Rabs (z - f3 mjd) <= M / 48.
Proof.
  intros series D H. assert (M0 : 0 <= M). { destruct (H 0 0) as (A & _); [rewrite Rminus_diag_eq, Rabs_R0 by reflexivity; lra|]. pose proof (Rabs_pos (d1 0 - d1 0)). lra. }
  destruct (nutation_cases series start stop mjd) as [(_ & ->)|(k & I & ->)].
  - exists (f1 mjd), (f2 mjd), (f3 mjd). split; [reflexivity|]. rewrite !Rminus_diag_eq, Rabs_R0 by reflexivity. lra.
  - cbv zeta. set (a := start - 1 + INR k * nut_step) in *. set (t := (mjd - a) / nut_step). assert (S0 : 0 < nut_step) by (unfold nut_step; lra).
    assert (T : 0 <= t <= 1) by (unfold t, nut_step in *; lra). assert (E : a + t * nut_step = mjd) by (unfold t; field; lra). unfold series. cbn [coord_x coord_y coord_z].
    eexists _, _, _. split; [reflexivity|]. rewrite <- E. replace (M / 48) with (M * nut_step / 4) by (unfold nut_step; field).
    assert (Cl : forall s u, a <= s <= a + nut_step -> a <= u <= a + nut_step -> Rabs (s - u) <= 2 / 24) by (intros s u X Y; unfold nut_step in *; apply Rabs_le; lra).
    repeat split; eapply lerp_smooth; try exact T; try (intros s _; apply D); intros s u X Y; now apply H, Cl.
Qed.
Example C91_case : (forall s, derivable_pt_lim (fun t => t * t) s (s + s)) /\ (forall s u, Rabs (s - u) <= 2 / 24 -> Rabs ((s + s) - (u + u)) <= 1 / 6) /\ 60000 - 1 <= 60000 < 60001 + 1 /\ 60000 = grid_date 60000 12 + 0 * (2 / 24).
Proof.
  split; [|split; [|split]].
  - intros s. replace (s + s) with (1 * s + s * 1) by ring. apply (derivable_pt_lim_mult (fun t => t) (fun t => t)); apply derivable_pt_lim_id.
  - intros s u H. replace (s + s - (u + u)) with (2 * (s - u)) by ring. rewrite Rabs_mult, Rabs_pos_eq by lra. lra.
  - lra.
  - unfold grid_date. cbn [INR]. field.
Qed.
Print Assumptions C91_total. Print Assumptions C91_direct. Print Assumptions C91_grid. Print Assumptions C91_line. Print Assumptions C91_smooth.

(** * C92: the altitude *)
Section C92.
  Variable truth series : R -> vec.
  Variable itrs prec : R -> mat.
  Variable gast : R -> R -> R -> R.
  Variable obliquity : R.
  Variable start stop : R.
  Variable site : vec.
  Variable lat lon : R.
  Let cached (mjd : R) := altitude_rad truth series itrs prec gast obliquity (context_new truth series start stop site lat lon) mjd.
  (** the Moon as seen from the site, in J2000 equatorial coordinates *)
  Let seen (mjd : R) (p : vec) : vec := Geom_Model.vminus (apply (rx obliquity) p) (apply (itrs mjd) site).
  Let zenith (mjd : R) (n : vec) : vec := let '(dpsi, _, eps0) := n in up (gast mjd dpsi eps0 + lon) lat.

  Lemma to_equatorial_rx p : to_equatorial obliquity p = apply (rx obliquity) p.
  Proof. destruct p as ((x, y), z). cbn. rewrite cos_neg, sin_neg. f_equal; [f_equal|]; ring. Qed.
  Lemma altitude_of_sine mjd p n : orthonormal (prec mjd) -> seen mjd p <> (0, 0, 0) ->
    let alt := altitude_of itrs prec gast obliquity mjd site lat lon p n in
    - (PI / 2) <= alt <= PI / 2 /\ norm (seen mjd p) * sin alt = dot3 (apply (nutation_matrix n) (apply (prec mjd) (seen mjd p))) (zenith mjd n).
  Proof.
    intros Op Ne. cbv zeta. unfold altitude_of. rewrite to_equatorial_rx. fold (seen mjd p). set (w := apply (nutation_matrix n) (apply (prec mjd) (seen mjd p))).
    assert (D : dot3 w w = dot3 (seen mjd p) (seen mjd p)) by (unfold w; now rewrite !orthonormal_dot by (auto using nutation_orthonormal)).
    assert (Nw : norm w = norm (seen mjd p)) by (unfold norm; now rewrite D).
    assert (Nz : w <> (0, 0, 0)). { intros E. apply Ne. apply dot_zero. rewrite <- D, E. cbn. ring. }
    pose proof (sin_altitude w (gast mjd (coord_x n) (coord_z n) + lon) lat Nz) as A. rewrite Nw in A. clearbody w. destruct w as ((x, y), z). cbv zeta in A. destruct A as (A & B).
    split; [apply asin_bound|]. rewrite sin_asin by exact B. rewrite A. destruct n as ((dpsi, deps), eps0). reflexivity.
  Qed.
  (** For every date a value comes out, between minus and plus a right angle: the elevation above the horizon of the date's
      zenith of the cached position seen from the site, turned by precession and the cached nutation. *)
  Theorem C92_vertical mjd : orthonormal (prec mjd) -> exists p n alt, get_position truth (pos_new truth start stop) mjd = Ok p /\ get_nutation series (nut_new series start stop) mjd = Ok n /\ cached mjd = Ok alt /\
    (seen mjd p <> (0, 0, 0) -> - (PI / 2) <= alt <= PI / 2 /\ norm (seen mjd p) * sin alt = dot3 (apply (nutation_matrix n) (apply (prec mjd) (seen mjd p))) (zenith mjd n)).
  Proof.
    intros Op. destruct (C90_total truth start stop mjd) as (p & Ep). destruct (C91_total series start stop mjd) as (n & En).
    eexists p, n, _. split; [exact Ep|]. split; [exact En|]. split; [unfold cached, altitude_rad, context_new; cbn [x_pos x_nut x_site x_lat x_lon]; rewrite Ep, En; reflexivity|].
    intros Ne. now apply altitude_of_sine.
  Qed.
  (** With the values of the ephemeris and the series, it is the altitude of the uncached chain. *)
  Theorem C92_direct mjd : orthonormal (prec mjd) -> seen mjd (truth mjd) <> (0, 0, 0) ->
    get_position truth (pos_new truth start stop) mjd = Ok (truth mjd) -> get_nutation series (nut_new series start stop) mjd = Ok (series mjd) ->
    let '(dpsi, _, eps0) := series mjd in
    let '(ra, dec, r) := apparent_topocentric (prec mjd) (nutation_matrix (series mjd)) (apply (itrs mjd) site) (apply (rx obliquity) (truth mjd)) in
    let '(alt, _, _) := equatorial_to_horizontal (gast mjd dpsi eps0) lon lat ra dec r in cached mjd = Ok alt.
  Proof.
    intros Op Ne Ep En. unfold cached, altitude_rad, context_new. cbn [x_pos x_nut x_site x_lat x_lon]. rewrite Ep, En. cbn [obind].
    pose proof (altitude_of_sine mjd (truth mjd) (series mjd) Op Ne) as (Ra & Sa). set (alt0 := altitude_of _ _ _ _ _ _ _ _ _ _) in *. clearbody alt0. unfold zenith in Sa.
    pose proof (C77_topocentric (prec mjd) (nutation_matrix (series mjd)) (apply (itrs mjd) site) (apply (rx obliquity) (truth mjd)) Op (nutation_orthonormal _) Ne) as Tp.
    rewrite apply_mul in Tp. fold (seen mjd (truth mjd)) in Tp. change (Horiz_Model.vminus (apply (rx obliquity) (truth mjd)) (apply (itrs mjd) site)) with (seen mjd (truth mjd)) in Tp.
    destruct (series mjd) as ((dpsi, deps), eps0). destruct (apparent_topocentric _ _ _ _) as ((ra, dec), r). destruct Tp as (Rp & R2 & Ev).
    pose proof (C77_horizontal (gast mjd dpsi eps0) lon lat ra dec r) as Hh. destruct (equatorial_to_horizontal _ _ _ _ _ _) as ((alt, az), d). cbv zeta in Hh. fold (unit_of ra dec) in Hh. destruct Hh as (_ & _ & Sz & Hr & _).
    f_equal. rewrite <- Ev in Sa. assert (Nr : norm (seen mjd (truth mjd)) = r). { unfold norm. rewrite <- R2. apply sqrt_square. lra. } rewrite Nr in Sa.
    destruct (unit_of ra dec) as ((x, y), z) eqn:U.
    assert (E : sin alt0 = sin alt). { apply Rmult_eq_reg_l with r; [|lra]. rewrite Sa, Sz. unfold up. cbn. ring. }
    rewrite <- (asin_sin alt0), <- (asin_sin alt) by lra. now rewrite E.
  Qed.
  (** Outside the window and its margins that is so without conditions on the caches. *)
  Theorem C92_outside mjd : start - 1 <= stop + 1 -> mjd < start - 1 \/ stop + 5 <= mjd -> orthonormal (prec mjd) -> seen mjd (truth mjd) <> (0, 0, 0) ->
    let '(dpsi, _, eps0) := series mjd in
    let '(ra, dec, r) := apparent_topocentric (prec mjd) (nutation_matrix (series mjd)) (apply (itrs mjd) site) (apply (rx obliquity) (truth mjd)) in
    let '(alt, _, _) := equatorial_to_horizontal (gast mjd dpsi eps0) lon lat ra dec r in cached mjd = Ok alt.
  Proof. intros W O Op Ne. apply C92_direct; auto; [now apply C90_direct|apply C91_direct; [exact W|]]. destruct O; [now left|right; lra]. Qed.
  (** A cached position off by delta moves the sine of the altitude by at most 2 delta over the distance. *)
  Theorem C92_stable mjd p n delta : orthonormal (prec mjd) -> seen mjd p <> (0, 0, 0) -> seen mjd (truth mjd) <> (0, 0, 0) -> norm (Geom_Model.vminus p (truth mjd)) <= delta ->
    Rabs (sin (altitude_of itrs prec gast obliquity mjd site lat lon p n) - sin (altitude_of itrs prec gast obliquity mjd site lat lon (truth mjd) n)) <= 2 * delta / norm (seen mjd (truth mjd)).
  Proof.
    intros Op Np Nt Hd. destruct (altitude_of_sine mjd p n Op Np) as (_ & Ap). destruct (altitude_of_sine mjd (truth mjd) n Op Nt) as (_ & At).
    set (a := sin (altitude_of _ _ _ _ _ _ _ _ p n)) in *. set (b := sin (altitude_of _ _ _ _ _ _ _ _ (truth mjd) n)) in *.
    set (u := seen mjd p) in *. set (w := seen mjd (truth mjd)) in *. set (z := zenith mjd n) in *. assert (Zu : norm z = 1).
    { unfold z, zenith. destruct n as ((d1, d2), d3). unfold norm. rewrite <- sqrt_1. f_equal. apply (unit_unit (gast mjd d1 d3 + lon) lat). }
    assert (Pa : -1 <= a <= 1) by apply SIN_bound. pose proof (norm_pos w Nt) as Pw. pose proof (norm_nonneg u) as Pu.
    assert (Df : norm (Geom_Model.vminus u w) <= delta).
    { replace (Geom_Model.vminus u w) with (apply (rx obliquity) (Geom_Model.vminus p (truth mjd))).
      - unfold norm in *. now rewrite orthonormal_dot by apply rx_orthonormal.
      - unfold u, w, seen. destruct p as ((p1, p2), p3), (truth mjd) as ((t1, t2), t3), (apply (itrs mjd) site) as ((s1, s2), s3). cbn. f_equal; [f_equal|]; ring. }
    assert (L1 : Rabs (norm u * a - norm w * b) <= delta).
    { rewrite Ap, At. replace (dot3 (apply (nutation_matrix n) (apply (prec mjd) u)) z - dot3 (apply (nutation_matrix n) (apply (prec mjd) w)) z) with (dot3 (apply (nutation_matrix n) (apply (prec mjd) (Geom_Model.vminus u w))) z).
      - eapply Rle_trans; [apply cauchy|]. rewrite Zu, Rmult_1_r. unfold norm in *. now rewrite !orthonormal_dot by (auto using nutation_orthonormal).
      - clear. destruct u as ((a1, a2), a3), w as ((b1, b2), b3), z as ((c1, c2), c3), (prec mjd), (nutation_matrix n). cbn. ring. }
    assert (L2 : Rabs (norm u - norm w) <= delta).
    { assert (Tr : forall x y, norm x <= norm y + norm (Geom_Model.vminus x y)).
      { intros x y. pose proof (norm_nonneg x). pose proof (norm_nonneg y). pose proof (norm_nonneg (Geom_Model.vminus x y)). apply Rsqr_incr_0_var; [|lra]. unfold Rsqr. rewrite norm_sq.
        pose proof (cauchy y (Geom_Model.vminus x y)) as Cy. pose proof (RRle_abs (dot3 y (Geom_Model.vminus x y))) as Ab. pose proof (norm_sq y) as N1. pose proof (norm_sq (Geom_Model.vminus x y)) as N2.
        assert (E : dot3 x x = dot3 y y + 2 * dot3 y (Geom_Model.vminus x y) + dot3 (Geom_Model.vminus x y) (Geom_Model.vminus x y)) by (destruct x as ((x1, x2), x3), y as ((y1, y2), y3); cbn; ring). rewrite E. lra. }
      assert (Sy : norm (Geom_Model.vminus w u) = norm (Geom_Model.vminus u w)) by (unfold norm; f_equal; destruct u as ((u1, u2), u3), w as ((w1, w2), w3); cbn; ring).
      pose proof (Tr u w). pose proof (Tr w u). apply Rabs_le. lra. }
    apply Rmult_le_reg_l with (norm w); [exact Pw|]. replace (norm w * (2 * delta / norm w)) with (2 * delta) by (field; lra).
    rewrite <- (Rabs_pos_eq (norm w)) at 1 by lra. rewrite <- Rabs_mult. replace (norm w * (a - b)) with ((norm u * a - norm w * b) - (norm u - norm w) * a) by ring.
    eapply Rle_trans; [apply Rabs_triang|]. rewrite Rabs_Ropp, Rabs_mult. assert (Aa : Rabs a <= 1) by (apply Rabs_le; lra). pose proof (Rabs_pos (norm u - norm w)) as P1. pose proof (Rabs_pos a) as P2.
    assert (Rabs (norm u - norm w) * Rabs a <= delta * 1) by (apply Rmult_le_compat; assumption). lra.
  Qed.
End C92.
(** The Moon overhead on the x axis. *)
Example C92_case : orthonormal identity /\ Geom_Model.vminus (apply (rx 0) (400000, 0, 0)) (apply identity (6378, 0, 0)) <> (0, 0, 0) /\
  sin (altitude_of (fun _ => identity) (fun _ => identity) (fun _ _ _ => 0) 0 60000 (6378, 0, 0) 0 0 (400000, 0, 0) (0, 0, 0)) = 1.
Proof.
  assert (Oi : orthonormal identity) by (unfold orthonormal; apply mat_eq; cbn; ring). split; [exact Oi|].
  assert (V : Geom_Model.vminus (apply (rx 0) (400000, 0, 0)) (apply identity (6378, 0, 0)) = (393622, 0, 0)). { cbn. f_equal; [f_equal|]; ring. }
  rewrite V. split; [intros E; injection E; lra|].
  destruct (altitude_of_sine (fun _ => identity) (fun _ => identity) (fun _ _ _ => 0) 0 (6378, 0, 0) 0 0 60000 (400000, 0, 0) (0, 0, 0)) as (_ & A); [exact Oi|rewrite V; intros E; injection E; lra|].
  rewrite V in A. assert (Nm : norm (393622, 0, 0) = 393622). { unfold norm. cbn [dot3]. replace (393622 * 393622 + 0 * 0 + 0 * 0) with (393622 * 393622) by ring. apply sqrt_square. lra. }
  rewrite Nm in A. apply Rmult_eq_reg_l with 393622; [|lra]. rewrite A. clear. cbn. rewrite !Rplus_0_r, !Ropp_0, !cos_0, !sin_0. ring.
Qed.
Print Assumptions C92_vertical. Print Assumptions C92_direct. Print Assumptions C92_outside. Print Assumptions C92_stable.
(** nutation adds [dpsi] to the longitude along the mean ecliptic and then tilts it by [deps] more *)
Definition from_ecliptic (eps lon lat : R) : vec :=
  (cos lat * cos lon, cos lat * sin lon * cos eps - sin lat * sin eps, cos lat * sin lon * sin eps + sin lat * cos eps).
Theorem C92_nutation dpsi deps eps0 lon lat : apply (nutation_matrix (dpsi, deps, eps0)) (from_ecliptic eps0 lon lat) = from_ecliptic (eps0 + deps) (lon + dpsi) lat.
Proof.
  unfold nutation_matrix. rewrite !apply_mul. assert (P : sin eps0 * sin eps0 + cos eps0 * cos eps0 = 1) by (pose proof (sin2_cos2 eps0); unfold Rsqr in *; lra).
  replace (apply (rx (- eps0)) (from_ecliptic eps0 lon lat)) with (cos lat * cos lon, cos lat * sin lon, sin lat).
  2: { unfold from_ecliptic, rx. cbn. rewrite !Ropp_involutive. f_equal; [f_equal|].
       - ring.
       - transitivity (cos lat * sin lon * (sin eps0 * sin eps0 + cos eps0 * cos eps0)); [rewrite P|]; ring.
       - transitivity (sin lat * (sin eps0 * sin eps0 + cos eps0 * cos eps0)); [rewrite P|]; ring. }
  unfold from_ecliptic, rx, rz. cbn. rewrite !sin_neg, !cos_neg, (cos_plus lon), (sin_plus lon). f_equal; [f_equal|]; ring.
Qed.
Print Assumptions C92_nutation.
