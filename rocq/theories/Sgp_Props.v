(** C142: what a propagator built from two-line elements returns. *)
From Coq Require Import ZArith Reals Bool Lia Lra.
From Verif Require Import Base Mat3 Ang Geom_Model Geom_Proofs Sgp_Model Sgp_Proofs.
From Verif Require Conic_Model.
Local Open Scope R_scope.
Notation rad := Conic_Model.rad.

(** the elements as an analyst reads them: radians, and the mean motion in rad/s a number of days after the epoch *)
Definition motion_at (t : tle) (days : R) : R :=
  (t_motion t + t_dot t * days + t_ddot t * (days * days) / 2 - t_bstar t / 100000 * Rabs days) * (2 * PI) / 86400.
Definition good_tle (t : tle) : Prop := (1950 <= t_year t)%Z /\ 0 <= t_ecc t < 1 /\ 0 < t_motion t.

Lemma motion_ok t m p d : from_tle_with_model t m = Ok p -> mean_motion_rad_s (p_elements p) d = motion_at t d.
Proof.
  unfold from_tle_with_model, tle_to_elements. destruct (_ <? _)%Z; [discriminate|]. destruct (negb _); [discriminate|]. destruct (rleb _ _); [discriminate|].
  destruct (validate _ _); try discriminate. intros H. injection H as <-. unfold mean_motion_rad_s, motion_at. cbn. f_equal. f_equal. lra.
Qed.
Lemma accepted t m p : from_tle_with_model t m = Ok p ->
  good_tle t /\ p = Propagator (constants_of m) (Elements (t_epoch t) (rad (t_inc t)) (rad (t_raan t)) (t_ecc t) (rad (t_argp t)) (rad (t_anomaly t)) (t_motion t) (t_dot t) (t_ddot t) (t_bstar t)) m (t_epoch t).
Proof.
  unfold from_tle_with_model, tle_to_elements. destruct (Z.ltb_spec (t_year t) 1950) as [|Y]; [discriminate|].
  destruct (rleb_r 0 (t_ecc t)) as [A|A], (rltb_r (t_ecc t) 1) as [B|B]; cbn [andb negb]; try discriminate.
  destruct (rleb_r (t_motion t) 0) as [N|N]; [discriminate|]. destruct (validate _ _); try discriminate. intros H. injection H as <-.
  split; [|reflexivity]. split; [lia|]. split; lra.
Qed.
Lemma moving_at_epoch t : 0 < t_motion t -> 0 < motion_at t 0.
Proof.
  intros H. unfold motion_at. rewrite Rabs_R0. pose proof PI_RGT_0. apply Rdiv_lt_0_compat; [|lra]. apply Rmult_lt_0_compat; lra.
Qed.

(** a propagator is built exactly from elements with an epoch from 1950 on, an elliptic eccentricity and a positive
    mean motion, and carries their epoch *)
Theorem C142_accepts t m : (exists p, from_tle_with_model t m = Ok p) <-> good_tle t.
Proof.
  split; [intros (p & H); now apply accepted in H|]. intros (Y & E & N).
  assert (M : forall e, mean_motion_rad_s (Elements (t_epoch t) (rad (t_inc t)) (rad (t_raan t)) (t_ecc t) (rad (t_argp t)) (rad (t_anomaly t)) (t_motion t) (t_dot t) (t_ddot t) e) 0 = t_motion t * (2 * PI) / 86400).
  { intros e. unfold mean_motion_rad_s. cbn [e_motion e_dot e_ddot e_bstar]. rewrite Rabs_R0. f_equal. f_equal. lra. }
  assert (P : 0 < t_motion t * (2 * PI) / 86400). { pose proof PI_RGT_0. apply Rdiv_lt_0_compat; [|lra]. apply Rmult_lt_0_compat; lra. }
  unfold from_tle_with_model, tle_to_elements. destruct (Z.ltb_spec (t_year t) 1950); [lia|].
  destruct (rleb_r 0 (t_ecc t)) as [A|A], (rltb_r (t_ecc t) 1) as [B|B]; try (exfalso; lra). cbn [andb negb].
  destruct (rleb_r (t_motion t) 0); [exfalso; lra|]. unfold validate. rewrite M. destruct (rleb_r (t_motion t * (2 * PI) / 86400) 0); [exfalso; lra|].
  destruct (axis_law (k_mu (constants_of m)) _ (mu_pos m) P) as (AP & _). cbn [e_ecc].
  destruct (rleb_r (semi_major_axis (k_mu (constants_of m)) (t_motion t * (2 * PI) / 86400) * (1 - t_ecc t)) 0) as [L|L]; [exfalso; nra|]. eexists. reflexivity.
Qed.
Theorem C142_epoch t m p : from_tle_with_model t m = Ok p -> p_epoch p = t_epoch t /\ p_model p = m.
Proof. intros H. apply accepted in H as (_ & ->). now split. Qed.

Lemma state_ok t m p minutes when r v : from_tle_with_model t m = Ok p -> propagate_minutes p minutes = Ok (when, (r, v)) ->
  let n := motion_at t (minutes / 1440) in
  let k := constants_of m in
  let a := semi_major_axis (k_mu k) n in
  let e := t_ecc t in
  let c := cos (rad (t_inc t)) in
  let f := k_j2 k * (k_radius k / (a * (1 - e * e))) * (k_radius k / (a * (1 - e * e))) in
  let o := rad (t_raan t) + -1.5 * f * n * c * (minutes * 60) in
  let w := rad (t_argp t) + 0.75 * f * n * (5 * c * c - 1) * (minutes * 60) in
  let d := minutes / 1440 in
  let anomaly := rem_e (rad (t_anomaly t) + 2 * PI * (t_motion t * d + 0.5 * t_dot t * d * d + t_ddot t * d * d * d / 6)
                        + 0.75 * f * n * sqrt (1 - e * e) * (3 * c * c - 1) * (minutes * 60)) (2 * PI) in
  0 < n /\ when = t_epoch t + minutes / 1440 /\ exists x, solve_kepler anomaly e = Ok x /\
  r = rotate (a * (cos x - e), a * sqrt (1 - e * e) * sin x) o (rad (t_inc t)) w /\
  v = rotate (- a * sin x * (n / (1 - e * cos x)), a * sqrt (1 - e * e) * cos x * (n / (1 - e * cos x))) o (rad (t_inc t)) w.
Proof.
  intros F H n k a e c f o w d anomaly. pose proof (motion_ok t m p (minutes / 1440) F) as M. apply accepted in F as (_ & ->).
  unfold propagate_minutes, propagate_internal in H. cbn [p_elements p_constants p_epoch] in H, M. unfold propagate_native in H. rewrite M in H.
  cbn [e_ecc e_inc e_raan e_argp e_anomaly e_motion e_dot e_ddot] in H.
  destruct (rleb_r (motion_at t (minutes / 1440)) 0) as [|N]; [discriminate|]. destruct (rleb _ _) in H; [discriminate|].
  fold k n d in H. fold a e c in H. fold f in H. fold anomaly in H. destruct (solve_kepler anomaly e) as [x|?|] eqn:S; [|discriminate|discriminate].
  fold o w in H. split; [fold n in N; lra|]. injection H as H1 H2 H3. split; [auto|]. exists x. repeat split; auto.
Qed.

(** the state is a point of the Kepler ellipse whose semi-major axis obeys the third law for the drifted mean motion:
    its energy, angular momentum and eccentricity vector are those of the drifted elements, and its distance lies
    between perigee and apogee *)
Theorem C142_orbit t m p minutes when r v : from_tle_with_model t m = Ok p -> propagate_minutes p minutes = Ok (when, (r, v)) ->
  let n := motion_at t (minutes / 1440) in
  let k := constants_of m in
  let e := t_ecc t in
  let i := rad (t_inc t) in
  when = t_epoch t + minutes / 1440 /\ 0 < n /\
  exists a, 0 < a /\ a ^ 3 * n ^ 2 = k_mu k /\
  let rate := 3 / 4 * k_j2 k * (k_radius k / (a * (1 - e ^ 2))) ^ 2 * n in
  let node := rad (t_raan t) - 2 * rate * cos i * (60 * minutes) in
  let perigee := rad (t_argp t) + rate * (5 * (cos i) ^ 2 - 1) * (60 * minutes) in
  dot3 v v / 2 - k_mu k / norm r = - (k_mu k / (2 * a)) /\
  cross r v = scale (sqrt (k_mu k * a * (1 - e ^ 2))) (sin node * sin i, - cos node * sin i, cos i) /\
  vminus (scale (1 / k_mu k) (cross v (cross r v))) (scale (1 / norm r) r)
    = scale e (cos node * cos perigee - sin node * sin perigee * cos i, sin node * cos perigee + cos node * sin perigee * cos i, sin perigee * sin i) /\
  a * (1 - e) <= norm r <= a * (1 + e).
Proof.
  intros F H n k e i. destruct (state_ok _ _ _ _ _ _ _ F H) as (N & W & x & _ & R & V). fold n k e i in N, R, V.
  split; [exact W|]. split; [exact N|]. set (a := semi_major_axis (k_mu k) n) in *. exists a.
  destruct (axis_law (k_mu k) n (mu_pos m) N) as (A & K). fold a in A, K.
  apply accepted in F as ((_ & (E0 & E1) & _) & _). fold e in E0, E1.
  split; [exact A|]. split; [rewrite <- K; ring|]. cbv zeta.
  set (o := rad (t_raan t) - _). set (w := rad (t_argp t) + _).
  match type of R with r = rotate _ ?o' _ ?w' => replace o' with o in R, V; [replace w' with w in R, V|] end.
  2:{ unfold w. cbn. replace (a * (1 - e * (e * 1))) with (a * (1 - e * e)) by ring. lra. }
  2:{ unfold o. cbn. replace (a * (1 - e * (e * 1))) with (a * (1 - e * e)) by ring. lra. }
  replace (1 - e ^ 2) with (1 - e * e) by ring. rewrite R, V.
  split; [apply (energy (k_mu k) a n e x o i w A K E0 E1)|].
  split; [apply (momentum (k_mu k) a n e x o i w A N K E0 E1)|].
  split; [apply (ecc_vector (k_mu k) a n e x o i w A N K E0 E1)|].
  rewrite (pos_norm a e x o i w A E0 E1). pose proof (d_pos e x E0 E1) as (D & _). nra.
Qed.
(** where on the ellipse: the eccentric anomaly read off the returned state satisfies Kepler's equation, to better
    than 1e-26 rad, for a mean anomaly that has advanced by the printed polynomial and the secular drift *)
Theorem C142_phase t m p minutes when r v : from_tle_with_model t m = Ok p -> propagate_minutes p minutes = Ok (when, (r, v)) ->
  let n := motion_at t (minutes / 1440) in
  let k := constants_of m in
  let e := t_ecc t in
  let d := minutes / 1440 in
  exists a x turns, 0 < a /\ a ^ 3 * n ^ 2 = k_mu k /\ norm r = a * (1 - e * cos x) /\ dot3 r v = e * sqrt (k_mu k * a) * sin x /\
  let drift := 3 / 4 * k_j2 k * (k_radius k / (a * (1 - e ^ 2))) ^ 2 * n * sqrt (1 - e ^ 2) * (3 * cos (rad (t_inc t)) ^ 2 - 1) in
  Rabs (x - e * sin x + 2 * PI * IZR turns
        - (rad (t_anomaly t) + 2 * PI * (t_motion t * d + t_dot t * d ^ 2 / 2 + t_ddot t * d ^ 3 / 6) + drift * (60 * minutes))) <= 1e-26.
Proof.
  intros F H n k e d. destruct (state_ok _ _ _ _ _ _ _ F H) as (N & W & x & S & R & V). fold n k e d in N, R, V, S.
  set (a := semi_major_axis (k_mu k) n) in *. destruct (axis_law (k_mu k) n (mu_pos m) N) as (A & K). fold a in A, K.
  apply accepted in F as ((_ & (E0 & E1) & _) & _). fold e in E0, E1.
  apply kepler_sound in S; [|lra]. unfold rem_e in S. set (y := _ + _ + _) in S. exists a, x, (Int_part (y / (2 * PI))).
  split; [exact A|]. split; [rewrite <- K; ring|]. rewrite R, V.
  split; [apply (pos_norm a e x _ _ _ A E0 E1)|]. split.
  - rewrite (pos_vel a n e x _ _ _ E0 E1). replace (sqrt (k_mu k * a)) with (a * a * n); [ring|]. symmetry. apply sqrt_lem_1.
    + pose proof (mu_pos m). apply Rmult_le_pos; [unfold k|]; lra.
    + apply Rmult_le_pos; [apply Rmult_le_pos|]; lra.
    + rewrite <- K. ring.
  - cbv zeta. replace (1 - e ^ 2) with (1 - e * e) by ring.
    match goal with |- Rabs ?z <= _ => match type of S with Rabs ?u <= _ => replace z with u; [exact S|] end end.
    unfold y. cbn [pow]. lra.
Qed.
Lemma sign_mul z c : 0 < z -> (0 < z * c <-> 0 < c) /\ (z * c < 0 <-> c < 0).
Proof. intros Z. repeat split; intros H; nra. Qed.
(** the secular drift: a prograde node moves west as time passes, a retrograde one east, a polar one not at all; the
    perigee stands still at the critical inclination *)
Theorem C142_drift t m p minutes when r v : from_tle_with_model t m = Ok p -> propagate_minutes p minutes = Ok (when, (r, v)) ->
  let i := rad (t_inc t) in
  exists node perigee g h, 0 < g /\ cross r v = scale g (sin node * sin i, - cos node * sin i, cos i) /\
  vminus (scale (1 / h) (cross v (cross r v))) (scale (1 / norm r) r)
    = scale (t_ecc t) (cos node * cos perigee - sin node * sin perigee * cos i, sin node * cos perigee + cos node * sin perigee * cos i, sin perigee * sin i) /\
  (0 < minutes -> (0 < cos i <-> node < rad (t_raan t)) /\ (cos i < 0 <-> rad (t_raan t) < node) /\ (1 < 5 * cos i ^ 2 <-> rad (t_argp t) < perigee)) /\
  (5 * cos i ^ 2 = 1 -> perigee = rad (t_argp t)).
Proof.
  intros F H i. destruct (C142_orbit _ _ _ _ _ _ _ F H) as (_ & N & a & A & K & _ & C & E & _). fold i in C, E.
  set (n := motion_at t (minutes / 1440)) in *. set (k := constants_of m) in *.
  set (rate := 3 / 4 * k_j2 k * (k_radius k / (a * (1 - t_ecc t ^ 2))) ^ 2 * n) in *.
  apply accepted in F as ((_ & (E0 & E1) & _) & _).
  assert (Q : 0 < 1 - t_ecc t ^ 2) by nra.
  assert (RP : 0 < rate).
  { unfold rate. assert (J : 0 < k_j2 k) by (unfold k; destruct m; cbn; lra). assert (RR : 0 < k_radius k) by (unfold k; destruct m; cbn; lra).
    apply Rmult_lt_0_compat; [|exact N]. apply Rmult_lt_0_compat; [lra|]. apply pow_lt. apply Rdiv_lt_0_compat; [exact RR|]. apply Rmult_lt_0_compat; lra. }
  exists (rad (t_raan t) - 2 * rate * cos i * (60 * minutes)), (rad (t_argp t) + rate * (5 * (cos i) ^ 2 - 1) * (60 * minutes)), (sqrt (k_mu k * a * (1 - t_ecc t ^ 2))), (k_mu k).
  split. { apply sqrt_lt_R0. pose proof (mu_pos m). apply Rmult_lt_0_compat; [apply Rmult_lt_0_compat; [exact (mu_pos m)|exact A]|exact Q]. }
  split; [exact C|]. split; [exact E|]. clearbody rate. split.
  - intros MP. set (z := rate * (60 * minutes)). assert (Z : 0 < z) by (unfold z; apply Rmult_lt_0_compat; lra).
    replace (2 * rate * cos i * (60 * minutes)) with (2 * (z * cos i)) by (unfold z; ring).
    replace (rate * (5 * cos i ^ 2 - 1) * (60 * minutes)) with (z * (5 * cos i ^ 2 - 1)) by (unfold z; ring).
    clearbody z. destruct (sign_mul z (cos i) Z) as (U1 & U2). destruct (sign_mul z (5 * cos i ^ 2 - 1) Z) as (U3 & _).
    split; [|split].
    + rewrite <- U1. split; intros; lra.
    + rewrite <- U2. split; intros; lra.
    + split; intros G; [assert (0 < 5 * cos i ^ 2 - 1) as G' by lra; apply U3 in G'; lra|]. assert (0 < z * (5 * cos i ^ 2 - 1)) as G' by lra. apply U3 in G'. lra.
  - intros ->. ring.
Qed.
(** asking for an instant and asking for the minutes since the epoch are the same *)
Theorem C142_at p minutes : propagate_at p (p_epoch p + minutes / 1440) = propagate_minutes p minutes.
Proof. unfold propagate_at, propagate_minutes. f_equal. field. Qed.
(** an answer is refused exactly when the drifted mean motion has run out, or Kepler's equation is not solved; up to
    an eccentricity of 1/3 it is always solved *)
Theorem C142_answers t m p minutes : from_tle_with_model t m = Ok p ->
  (motion_at t (minutes / 1440) <= 0 -> propagate_minutes p minutes = Err MotionLost) /\
  (0 < motion_at t (minutes / 1440) -> (exists s, propagate_minutes p minutes = Ok s) \/ propagate_minutes p minutes = Err NoKepler) /\
  (0 < motion_at t (minutes / 1440) -> t_ecc t <= 1 / 3 -> exists s, propagate_minutes p minutes = Ok s).
Proof.
  intros F. pose proof (motion_ok t m p (minutes / 1440) F) as M. apply accepted in F as ((_ & E & _) & ->).
  unfold propagate_minutes, propagate_internal. cbn [p_elements p_constants p_epoch] in *. unfold propagate_native. rewrite M.
  cbn [e_ecc e_inc e_raan e_argp e_anomaly e_motion e_dot e_ddot].
  destruct (rleb_r (motion_at t (minutes / 1440)) 0) as [L|L]; [split; [reflexivity|split; intros; exfalso; lra]|].
  destruct (axis_law (k_mu (constants_of m)) (motion_at t (minutes / 1440)) (mu_pos m) (Rnot_le_lt _ _ L)) as (A & _).
  destruct (rleb_r (semi_major_axis (k_mu (constants_of m)) (motion_at t (minutes / 1440)) * (1 - t_ecc t * t_ecc t)) 0) as [P|P]; [exfalso; assert (0 < 1 - t_ecc t * t_ecc t) by nra; nra|].
  split; [intros; exfalso; lra|]. split; intros _; [|intros Q].
  - unfold solve_kepler. destruct (newton _ _ _ _); [left|right; reflexivity]. eexists. reflexivity.
  - match goal with |- context [solve_kepler ?z ?e] => destruct (kepler_total z e) as (y & ->); [lra|] end. eexists. reflexivity.
Qed.
(** the two WGS-72 options give the same states *)
Theorem C142_wgs72 t p q minutes : from_tle_with_model t Wgs72 = Ok p -> from_tle_with_model t Wgs72Iau = Ok q ->
  propagate_minutes p minutes = propagate_minutes q minutes /\ from_tle t = Ok p.
Proof. intros P Q. split; [apply accepted in P as (_ & ->), Q as (_ & ->); reflexivity|exact P]. Qed.
(** drag the wrong way: with a positive drag term and a steady printed mean motion the orbit has more energy than at
    the epoch both after and before it, so the satellite rises as time passes *)
Theorem C142_drag_refuted t m p minutes w r v w0 r0 v0 : from_tle_with_model t m = Ok p -> t_dot t = 0 -> t_ddot t = 0 -> 0 < t_bstar t -> minutes <> 0 ->
  propagate_minutes p 0 = Ok (w0, (r0, v0)) -> propagate_minutes p minutes = Ok (w, (r, v)) ->
  dot3 v0 v0 / 2 - k_mu (constants_of m) / norm r0 < dot3 v v / 2 - k_mu (constants_of m) / norm r.
Proof.
  intros F D0 D1 B M H0 H. destruct (C142_orbit _ _ _ _ _ _ _ F H0) as (_ & N0 & a0 & A0 & K0 & E0 & _).
  destruct (C142_orbit _ _ _ _ _ _ _ F H) as (_ & N & a & A & K & E & _). rewrite E0, E.
  assert (L : motion_at t (minutes / 1440) < motion_at t (0 / 1440)).
  { unfold motion_at. rewrite D0, D1. replace (0 / 1440) with 0 by field. rewrite Rabs_R0.
    assert (0 < Rabs (minutes / 1440)) by (apply Rabs_pos_lt; lra). pose proof PI_RGT_0.
    assert (0 < t_bstar t * Rabs (minutes / 1440)) by (apply Rmult_lt_0_compat; lra).
    apply Rmult_lt_compat_r; [lra|]. apply Rmult_lt_compat_r; lra. }
  set (n := motion_at t (minutes / 1440)) in *. set (n0 := motion_at t (0 / 1440)) in *. set (mu := k_mu (constants_of m)) in *.
  assert (MU : 0 < mu) by apply mu_pos.
  assert (LA : a0 < a).
  { destruct (Rlt_or_le a0 a) as [|G]; [assumption|exfalso]. assert (C : a ^ 3 <= a0 ^ 3) by (apply pow_incr; lra).
    assert (C2 : n ^ 2 < n0 ^ 2) by (cbn; nra). assert (0 < a ^ 3) by (apply pow_lt; lra). assert (0 < n ^ 2) by (apply pow_lt; lra). nra. }
  apply Ropp_lt_contravar. apply Rmult_lt_compat_l; [lra|]. apply Rinv_lt_contravar; [|lra]. apply Rmult_lt_0_compat; lra.
Qed.
Lemma newton_zero f : newton (S f) 0 0 0 = Some 0.
Proof.
  cbn [newton]. rewrite sin_0, cos_0. destruct (rltb_r (Rabs (1 - 0 * 1)) 1e-14) as [U|_]; [rewrite Rabs_right in U; lra|].
  replace ((0 - 0 * 0 - 0) / (1 - 0 * 1)) with 0 by field. destruct (rltb_r (Rabs 0) 1e-13) as [_|U]; [|exfalso; apply U; rewrite Rabs_R0; lra].
  f_equal. ring.
Qed.
Lemma kepler_zero x : solve_kepler 0 0 = Ok x -> x = 0.
Proof.
  unfold solve_kepler. destruct (rltb_r 0 0.8) as [_|L]; [|exfalso; lra]. rewrite (newton_zero 31). congruence.
Qed.
Opaque solve_kepler.
(** a circular equatorial satellite at the epoch: one revolution a day, at the node *)
Example C142_case : let t := Tle 0 2024 0 0 0 0 0 1 0 0 0 in
  good_tle t /\ exists p a, from_tle_with_model t Wgs84 = Ok p /\ 0 < a /\ propagate_minutes p 0 = Ok (0, ((a, 0, 0), (0, a * (2 * PI / 86400), 0))).
Proof.
  cbv zeta. assert (G : good_tle (Tle 0 2024 0 0 0 0 0 1 0 0 0)) by (split; [cbn; lia|cbn; lra]). split; [exact G|].
  destruct (proj2 (C142_accepts _ Wgs84) G) as (p & P). exists p.
  destruct (C142_answers _ _ _ 0 P) as (_ & _ & Z). destruct Z as ((w & r & v) & Z).
  - replace (0 / 1440) with 0 by field. apply moving_at_epoch. cbn. lra.
  - cbn. lra.
  - destruct (state_ok _ _ _ _ _ _ _ P Z) as (N & W & x & S & R & V). cbn [t_motion t_dot t_ddot t_bstar t_ecc t_inc t_raan t_argp t_anomaly t_epoch] in *.
    set (n := motion_at _ _) in *. exists (semi_major_axis (k_mu (constants_of Wgs84)) n). split; [exact P|].
    destruct (axis_law _ n (mu_pos Wgs84) N) as (A & _). split; [exact A|]. rewrite Z.
    assert (X : x = 0).
    { match type of S with solve_kepler ?z _ = _ => replace z with 0 in S end.
      - now apply kepler_zero.
      - symmetry. apply (rem_e_unique _ _ _ 0); [pose proof PI_RGT_0; lra|pose proof PI_RGT_0; lra|]. unfold Conic_Model.rad. unfold Rdiv. ring. }
    assert (NV : n = 2 * PI / 86400). { unfold n, motion_at. cbn. replace (0 / 1440) with 0 by field. rewrite Rabs_R0. lra. }
    rewrite R, V, W, X, sin_0, cos_0. unfold rotate, Conic_Model.rad.
    replace (0 * PI / 180) with 0 by field. rewrite cos_0, sin_0. replace (1 - 0 * 0) with 1 by ring. rewrite sqrt_1.
    rewrite (Rmult_0_l 60), ?Rmult_0_r, ?Rplus_0_r, ?Rplus_0_l, ?sin_0, ?cos_0, ?Rmult_0_r, ?Rplus_0_r, ?sin_0, ?cos_0. rewrite <- NV.
    f_equal. f_equal; [field|]. f_equal; apply vec_eq; field.
Qed.
Print Assumptions C142_accepts.
Print Assumptions C142_epoch.
Print Assumptions C142_orbit.
Print Assumptions C142_phase.
Print Assumptions C142_drift.
Print Assumptions C142_at.
Print Assumptions C142_answers.
Print Assumptions C142_wgs72.
Print Assumptions C142_drag_refuted.
Print Assumptions C142_case.
