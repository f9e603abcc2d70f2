(** C173 the built-in solar system, C174 the series each body reads. *)
From Coq Require Import Reals Lra Lia Psatz List String Arith.
From Verif Require Import Base Ang Conic_Model Conic_Proofs Conic_Props Body_Model Series_Model Series_Props Solar_Model.
Import ListNotations.
Local Open Scope R_scope.

(** * C173 *)
Definition au_in_km : R := 149597870700 / 1000.
Definition sane (mass radius : R) (o : orbit) (albedo : option R) : Prop :=
  0 < mass /\ 0 < radius /\ 0 < o_a o /\ 0 <= o_e o < 1 /\ match albedo with Some a => 0 <= a <= 1 | None => False end.
Ltac lit := unfold sane, mercury, venus, earth, mars, jupiter, saturn, uranus, neptune, pluto, ceres, haumea, makemake, eris, moon, io, europa, ganymede, callisto, titan, triton, with_albedo, new_const, au_in_km in *;
  cbn [p_mass p_radius p_orbit p_albedo s_mass s_radius s_orbit s_albedo o_a o_e] in *; lra.
Ltac each H := cbn [In planets dwarf_planets major_moons app] in H; repeat (destruct H as [<-|H]; [|]); [..|destruct H].
(** every entry has a positive mass, size and orbit, an elliptic eccentricity and an albedo between nought and one *)
Theorem C173_sane : (forall p, In p (planets ++ dwarf_planets) -> sane (p_mass p) (p_radius p) (p_orbit p) (p_albedo p)) /\
  (forall s, In s major_moons -> sane (s_mass s) (s_radius s) (s_orbit s) (s_albedo s)) /\ NoDup (map s_name major_moons).
Proof.
  split; [intros p H; each H; lit|]. split; [intros p H; each H; lit|].
  cbn. repeat constructor; cbn [In]; intros H; repeat (destruct H as [H|H]; [discriminate|]); exact H.
Qed.
(** any solver of Kepler's equation, for every eccentricity of an ellipse *)
Definition kepler_solver (solve : R -> R -> R) : Prop := forall e, 0 <= e < 1 -> solves solve e.
Lemma between solve o t : kepler_solver solve -> 0 < o_a o -> 0 <= o_e o < 1 -> o_a o * (1 - o_e o) <= norm (kepler_position solve o t) <= o_a o * (1 + o_e o).
Proof. intros S A E. exact (proj2 (proj2 (C69_shape _ _ _ _ _ _ _ _ _ A E (C69_kepler solve o E (S _ E)) t))). Qed.
(** the list of planets is in order of distance: at whatever two instants, a planet is nearer the Sun than every later one *)
Theorem C173_order solve i j p q t u : kepler_solver solve -> (i < j)%nat -> nth_error planets i = Some p -> nth_error planets j = Some q ->
  norm (kepler_position solve (p_orbit p) t) < norm (kepler_position solve (p_orbit q) u).
Proof.
  intros S L P Q.
  assert (K : forall r, In r planets -> forall v, o_a (p_orbit r) * (1 - o_e (p_orbit r)) <= norm (kepler_position solve (p_orbit r) v) <= o_a (p_orbit r) * (1 + o_e (p_orbit r))).
  { intros r I v. destruct (proj1 C173_sane r (in_or_app _ _ _ (or_introl I))) as (_ & _ & A & E & _). now apply between. }
  pose proof (proj2 (K p (nth_error_In _ _ P) t)) as B. pose proof (proj1 (K q (nth_error_In _ _ Q) u)) as C. clear K.
  enough (o_a (p_orbit p) * (1 + o_e (p_orbit p)) < o_a (p_orbit q) * (1 - o_e (p_orbit q))) by lra. clear B C.
  do 8 (destruct i as [|i]; [injection P as <-; do 8 (destruct j as [|j]; [try lia; injection Q as <-; lit|]); destruct j; discriminate Q|]). destruct i; discriminate P.
Qed.
(** Pluto, which is not in that list, comes nearer than Neptune ever does *)
Theorem C173_pluto solve : kepler_solver solve -> exists t, forall u, norm (kepler_position solve (p_orbit pluto) t) < norm (kepler_position solve (p_orbit neptune) u).
Proof.
  intros S. assert (E : 0 <= o_e (p_orbit pluto) < 1) by lit. set (n := 2 * PI / period_days (o_a (p_orbit pluto))).
  assert (N : n <> 0). { unfold n. pose proof PI_RGT_0. assert (0 < o_a (p_orbit pluto)) by lit. assert (0 < period_days (o_a (p_orbit pluto))) by (unfold period_days; apply Rmult_lt_0_compat; [apply Rmult_lt_0_compat; [|apply sqrt_lt_R0]; assumption|lra]).
    apply Rgt_not_eq. apply Rdiv_lt_0_compat; lra. }
  exists (o_epoch (p_orbit pluto) - rad (o_m0 (p_orbit pluto)) / n). intros u.
  pose proof (C69_apsides _ _ _ _ _ _ _ _ _ (o_epoch (p_orbit pluto) - rad (o_m0 (p_orbit pluto)) / n) 0 E (C69_kepler solve (p_orbit pluto) E (S _ E))) as (A & _).
  rewrite A by (fold n; field; exact N). unfold norm at 1. rewrite place_dot. replace (_ * _ + 0 * 0) with ((o_a (p_orbit pluto) * (1 - o_e (p_orbit pluto)))²) by (unfold Rsqr; ring).
  rewrite sqrt_Rsqr by lit. apply Rlt_le_trans with (o_a (p_orbit neptune) * (1 - o_e (p_orbit neptune))); [lit|]. apply between; [exact S|lit|lit].
Qed.
(** the moons with the planet they go round *)
Definition system : list (satellite * planet orbit) := [(moon, earth); (io, jupiter); (europa, jupiter); (ganymede, jupiter); (callisto, jupiter); (titan, saturn); (triton, neptune)].
(** every moon but one stays clear of its planet at all times, its own radius included *)
Theorem C173_clear solve s p t : kepler_solver solve -> In (s, p) system -> s_name s <> "Moon"%string -> p_radius p + s_radius s < norm (kepler_position solve (s_orbit s) t) * au_in_km.
Proof.
  intros K I N. assert (B : o_a (s_orbit s) * (1 - o_e (s_orbit s)) <= norm (kepler_position solve (s_orbit s) t)).
  { apply between; [exact K|..]; cbn [In system] in I; repeat (destruct I as [[= <- <-]|I]; [lit|]); destruct I. }
  enough (p_radius p + s_radius s < o_a (s_orbit s) * (1 - o_e (s_orbit s)) * au_in_km) by (assert (0 < au_in_km) by lit; nra).
  clear B. cbn [In system] in I. destruct I as [[= <- <-]|I]; [now elim N|]. repeat (destruct I as [[= <- <-]|I]; [lit|]). destruct I.
Qed.
(** the Moon is that one: its long axis is a thousand times too small for the documented 0.00257, and at every instant it is
    inside the Earth *)
Theorem C173_moon_refuted solve : kepler_solver solve -> In (moon, earth) system /\
  (forall t, norm (kepler_position solve (s_orbit moon) t) * au_in_km < p_radius earth) /\ Rabs (1000 * o_a (s_orbit moon) - 0.00257) < 0.00001.
Proof.
  intros K. split; [now left|]. split.
  - intros t. assert (B : norm (kepler_position solve (s_orbit moon) t) <= o_a (s_orbit moon) * (1 + o_e (s_orbit moon))) by (apply between; [exact K|lit|lit]).
    apply Rle_lt_trans with (o_a (s_orbit moon) * (1 + o_e (s_orbit moon)) * au_in_km); [apply Rmult_le_compat_r; [lit|exact B]|lit].
  - apply Rabs_def1; lit.
Qed.
(** the Sun is documented at right ascension 18h 44m 48s and declination -23 degrees; that is 281.2 degrees; no size of the hour angle gives both,
    and the usual one gives the right ascension and a direction north of the equator *)
Theorem C173_sun_refuted : (forall k, ~ (sun_ra k = 281.2 /\ sun_dec k = -23)) /\
  sun_ra 15 = 281.2 /\ 0 < snd (direction (sun_dec 15) (sun_ra 15)) /\ snd (direction (-23) 281.2) < 0.
Proof.
  unfold sun_ra, sun_dec, from_hms. split; [intros k (A & B); lra|]. split; [lra|]. unfold direction. cbn [snd]. unfold rad. pose proof PI_RGT_0 as P. split.
  - replace (15 * (-23 + 0 / 60 + 0 / 3600) * PI / 180) with (PI / 12 + 2 * PI * IZR (-1)) by (change (IZR (-1)) with (-1); field). rewrite sin_turns. apply sin_gt_0; lra.
  - replace (-23 * PI / 180) with (- (23 * PI / 180)) by field. rewrite sin_neg. assert (0 < sin (23 * PI / 180)) by (apply sin_gt_0; lra). lra.
Qed.
(** the two Lagrange points are at the right distances from the Sun, but on opposite sides of it: they are not a hundredth
    of a unit before and behind the Earth on one line *)
Theorem C173_lagrange_refuted : norm sun_earth_l1 = 0.99 /\ norm sun_earth_l2 = 1.01 /\ norm (add sun_earth_l1 (scale (-1) sun_earth_l2)) = 2 /\
  ~ exists d, norm d = 1 /\ sun_earth_l1 = scale (1 - 0.01) d /\ sun_earth_l2 = scale (1 + 0.01) d.
Proof.
  assert (A : sun_earth_l1 = (99 / 100, 0, 0)). { unfold sun_earth_l1, spherical, direction, rad. replace (0 * PI / 180) with 0 by field. rewrite sin_0, cos_0. f_equal; [f_equal|]; ring. }
  assert (B : sun_earth_l2 = (- (101 / 100), 0, 0)). { unfold sun_earth_l2, spherical, direction, rad. replace (0 * PI / 180) with 0 by field. replace (180 * PI / 180) with PI by field. rewrite sin_0, cos_0, sin_PI, cos_PI. f_equal; [f_equal|]; ring. }
  rewrite A, B. assert (N : forall x y, 0 <= y -> x * x = y * y -> norm (x, 0, 0) = y).
  { intros x y Y E. unfold norm, dot, vx, vy, vz. cbn [fst snd]. replace (x * x + 0 * 0 + 0 * 0) with (y²) by (unfold Rsqr; lra). now apply sqrt_Rsqr. }
  split; [apply N; lra|]. split; [apply N; lra|]. split.
  - replace (add _ _) with (2, 0, 0); [apply N; lra|]. unfold add, scale, vx, vy, vz. cbn [fst snd]. f_equal; [f_equal|]; lra.
  - intros (((x, y), z) & _ & E & F). unfold scale, vx, vy, vz in E, F. cbn [fst snd] in E, F. injection E as E _ _. injection F as F _ _. lra.
Qed.
(** the prime meridians: Venus and Uranus turn backwards, the seven others forwards, at all times *)
Theorem C173_spin t u : t < u -> Forall (fun p => meridian p t < meridian p u) [mercury_rotation; mars_rotation; moon_rotation; jupiter_rotation; saturn_rotation; neptune_rotation; pluto_rotation] /\
  Forall (fun p => meridian p u < meridian p t) [venus_rotation; uranus_rotation].
Proof.
  intros H. unfold meridian. split; repeat constructor; unfold mercury_rotation, mars_rotation, moon_rotation, jupiter_rotation, saturn_rotation, neptune_rotation, pluto_rotation, venus_rotation, uranus_rotation; cbn [w0 w1]; nra.
Qed.
(** a solver exists, so none of this is vacuous *)
Example C173_case : kepler_solver a_solver /\ nth_error planets 2 = Some earth /\ nth_error planets 3 = Some mars /\ In (io, jupiter) system /\ s_name io <> "Moon"%string.
Proof. split; [intros e E; exact (proj1 (C69_solvable e E))|]. repeat split; [right; now left|discriminate]. Qed.

(** * C174 *)
(** the tables that bear the planet's name *)
Definition own (b : body) : option named :=
  match b with BMercury => Some NMercury | BVenus => Some NVenus | BEarth => Some NEarth | BMars => Some NMars | BJupiter => Some NJupiter | BSaturn => Some NSaturn | BUranus => Some NUranus | BNeptune => Some NNeptune | BMoon => None end.
(** the published data stop at the fifth power, or the fourth and the third for the outer two *)
Definition published (st : store) : Prop := forall s b a k, (6 <= k)%nat \/ ((b = NUranus \/ b = NNeptune) /\ (5 <= k \/ a = Z /\ 4 <= k)%nat) -> st s b a k = [].
(** the whole series of a name, all powers up to any number that takes them all in *)
Definition whole (st : store) (s : solution) (b : named) (n : nat) (jd : R) : vec3 := position jd (upto st s b X n, upto st s b Y n, upto st s b Z n).
Lemma upto_more st s b a n m t : (n <= m)%nat -> (forall k, (n <= k)%nat -> st s b a k = []) -> coord_value (upto st s b a m) t = coord_value (upto st s b a n) t.
Proof.
  intros L E. induction L as [|m L IH]; [reflexivity|]. unfold upto. rewrite seq_S, map_app. cbn [map Nat.add]. rewrite (E m L). rewrite (proj1 (C128_empty_power _ t)). exact IH.
Qed.
(** each planet's functions evaluate every term of that planet's own series of that solution, and no other *)
Theorem C174_own st b nm jd n : published st -> own b = Some nm -> (6 <= n)%nat ->
  vsop87a st b jd = whole st SolA nm n jd /\ vsop87e st b jd = Some (whole st SolE nm n jd) /\ trait_a st b jd = Some (vsop87a st b jd) /\ trait_e st b jd = vsop87e st b jd.
Proof.
  intros P O N. unfold whole, vsop87a, vsop87e.
  assert (K : forall s, position jd (six st s nm) = position jd (upto st s nm X n, upto st s nm Y n, upto st s nm Z n)).
  { intros s. unfold position, six. cbv zeta. f_equal; [f_equal|]; symmetry; apply upto_more; auto; intros k L; apply P; now left. }
  assert (K' : nm = NUranus \/ nm = NNeptune -> forall s, position jd (five st s nm) = position jd (upto st s nm X n, upto st s nm Y n, upto st s nm Z n)).
  { intros U s. unfold position, five. cbv zeta. f_equal; [f_equal|]; symmetry; apply upto_more; try lia; intros k L; apply P; right; split; auto. }
  destruct b; try discriminate O; injection O as <-; cbn [tables_a tables_e option_map trait_a trait_e]; (split; [|split; [|split; reflexivity]]); rewrite ?K, ?K' by auto; reflexivity.
Qed.
(** the three functions agree: the velocity is the derivative of the position, and the single pass gives both *)
Theorem C174_velocity st b jd : vsop87a_pos_vel st b jd = (vsop87a st b jd, vsop87a_vel st b jd) /\
  vsop87e_pos_vel st b jd = match vsop87e st b jd, vsop87e_vel st b jd with Some p, Some v => Some (p, v) | _, _ => None end /\
  let '(u, v, w) := vsop87a_vel st b jd in
  derivable_pt_lim (fun d => fst (fst (vsop87a st b d))) jd u /\ derivable_pt_lim (fun d => snd (fst (vsop87a st b d))) jd v /\ derivable_pt_lim (fun d => snd (vsop87a st b d)) jd w.
Proof.
  split; [apply C128_both|]. split; [unfold vsop87e_pos_vel, vsop87e, vsop87e_vel; destruct (tables_e st b); [cbn; now rewrite C128_both|reflexivity]|].
  unfold vsop87a_vel, vsop87a. destruct (tables_a st b) as ((x, y), z). exact (C128_velocity jd x y z).
Qed.
(** the ephemeris built on them: the Earth's velocity is the derivative of its barycentric place *)
Theorem C174_backend st jd : Some (earth_barycentric st jd) = vsop87e st BEarth jd /\ Some (earth_barycentric_velocity st jd) = vsop87e_vel st BEarth jd /\ earth_heliocentric st jd = vsop87a st BEarth jd /\
  (published st -> forall n, (6 <= n)%nat -> sun_barycentric st jd = whole st SolE NSun n jd) /\
  let '(u, v, w) := earth_barycentric_velocity st jd in
  derivable_pt_lim (fun d => fst (fst (earth_barycentric st d))) jd u /\ derivable_pt_lim (fun d => snd (fst (earth_barycentric st d))) jd v /\ derivable_pt_lim (fun d => snd (earth_barycentric st d)) jd w.
Proof.
  split; [reflexivity|]. split; [reflexivity|]. split; [reflexivity|]. split.
  - intros P n N. unfold sun_barycentric, sun_vsop87e, whole, position, six. cbv zeta. f_equal; [f_equal|]; symmetry; apply upto_more; auto; intros k L; apply P; now left.
  - exact (C128_velocity jd _ _ _).
Qed.
(** the Moon's function reads the tables of the Earth-Moon barycentre: when those give the weighted mean of the Earth and the
    Moon, the answer is the Moon's place only if that is also the Earth's *)
Theorem C174_moon_refuted st jd me mm e m : 0 < me -> 0 < mm -> whole st SolA NEmb 6 jd = scale (/ (me + mm)) (add (scale me e) (scale mm m)) ->
  (vsop87a st BMoon jd = m <-> e = m).
Proof.
  intros A B H. change (vsop87a st BMoon jd) with (whole st SolA NEmb 6 jd). rewrite H. destruct e as ((ex, ey), ez), m as ((mx, my), mz). unfold scale, add, vx, vy, vz. cbn [fst snd].
  assert (K : forall a b, / (me + mm) * (me * a + mm * b) = b <-> a = b).
  { intros a b. split; intros E.
    - apply (f_equal (Rmult (me + mm))) in E. rewrite <- Rmult_assoc, Rinv_r, Rmult_1_l in E by lra. nra.
    - subst. field. lra. }
  split; intros E; injection E as E1 E2 E3.
  - apply (proj1 (K _ _)) in E1. apply (proj1 (K _ _)) in E2. apply (proj1 (K _ _)) in E3. now subst.
  - subst. f_equal; [f_equal|]; now apply (proj2 (K _ _)).
Qed.
Definition one_term : store := fun s b a k => match s, b, a, k with SolA, NEmb, X, O => [Term 1 0 0] | _, _, _, _ => [] end.
Example C174_case : published one_term /\ own BUranus = Some NUranus /\ vsop87a one_term BMoon 2451545 = (1, 0, 0) /\
  whole one_term SolA NEmb 6 2451545 = scale (/ (81 + 1)) (add (scale 81 (1 - 1 / 82, 0, 0)) (scale 1 (1 + 81 / 82, 0, 0))).
Proof.
  assert (V : whole one_term SolA NEmb 6 2451545 = (1, 0, 0)).
  { assert (S0 : forall t, serie_val [] t = 0) by reflexivity.
    assert (S1 : forall t, serie_val [Term 1 0 0] t = 1) by (intros t; change (0 + 1 * cos (0 * t + 0) = 1); rewrite Rmult_0_l, !Rplus_0_l, cos_0; ring).
    unfold whole, position, coord_value, upto. cbv zeta. cbn [seq map one_term value_loop]. rewrite !S0, S1. f_equal; [f_equal|]; ring. }
  split; [|split; [reflexivity|split; [exact V|]]].
  - intros s b a k H. destruct s, b, a, k as [|k]; try reflexivity. destruct H as [H|([H|H] & _)]; [lia|discriminate H|discriminate H].
  - rewrite V. unfold scale, add, vx, vy, vz. cbn [fst snd]. f_equal; [f_equal|]; field.
Qed.
Print Assumptions C173_sane.
Print Assumptions C173_order.
Print Assumptions C173_pluto.
Print Assumptions C173_clear.
Print Assumptions C173_moon_refuted.
Print Assumptions C173_sun_refuted.
Print Assumptions C173_lagrange_refuted.
Print Assumptions C173_spin.
Print Assumptions C174_own.
Print Assumptions C174_velocity.
Print Assumptions C174_backend.
Print Assumptions C174_moon_refuted.
