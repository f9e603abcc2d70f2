(** C169 builders, C170 body-fixed frames, C171 small gravity fields and planet
    identifiers, C172 thrust arcs. *)
From Coq Require Import Reals Lra Lia Psatz ZArith List String Ascii Bool Arith Permutation.
From Verif Require Import Base Mat3 Ang Geom_Model Moon_Model Earth_Model Earth_Proofs Conic_Model Body_Model.
Import ListNotations.
Local Open Scope list_scope.

(** * C169 *)
(** the value given by the last call a selector recognises *)
Definition last_given {C A} (f : C -> option A) (cs : list C) : option A :=
  match flat_map (fun c => match f c with Some x => [x] | None => [] end) (rev cs) with [] => None | x :: _ => Some x end.
Lemma last_snoc {C A} (f : C -> option A) cs c : last_given f (cs ++ [c]) = match f c with Some x => Some x | None => last_given f cs end.
Proof. unfold last_given. rewrite rev_app_distr. cbn. destruct (f c); reflexivity. Qed.
Lemma last_some {C A} (f : C -> option A) cs x : last_given f cs = Some x <-> exists a c b, cs = a ++ c :: b /\ f c = Some x /\ Forall (fun d => f d = None) b.
Proof.
  induction cs as [|c cs IH] using rev_ind.
  - split; [discriminate|]. intros (a & c & b & H & _). now destruct a.
  - rewrite last_snoc. destruct (f c) as [y|] eqn:F.
    + split.
      * intros [= ->]. exists cs, c, []. auto.
      * intros (a & d & b & H & D & B). destruct b as [|e b] using rev_ind.
        -- apply app_inj_tail in H as (_ & ->). congruence.
        -- rewrite app_comm_cons, app_assoc in H. apply app_inj_tail in H as (_ & <-). apply Forall_app in B as (_ & B). inversion B. congruence.
    + rewrite IH. split; intros (a & d & b & H & D & B).
      * exists a, d, (b ++ [c]). subst. rewrite <- app_assoc. repeat split; [assumption|]. apply Forall_app. auto.
      * destruct b as [|e b _] using rev_ind.
        -- apply app_inj_tail in H as (_ & ->). congruence.
        -- rewrite app_comm_cons, app_assoc in H. apply app_inj_tail in H as (-> & ->). apply Forall_app in B as (B & _). exists a, d, b. auto.
Qed.
Definition mass_of {O} (c : planet_call O) := match c with CMass x => Some x | _ => None end.
Definition radius_of {O} (c : planet_call O) := match c with CRadius x => Some x | _ => None end.
Definition orbit_of {O} (c : planet_call O) := match c with COrbit x => Some x | _ => None end.
Definition albedo_of {O} (c : planet_call O) := match c with CAlbedo x => Some x | _ => None end.
(** a chain of calls leaves in each field the last value given for it *)
Lemma chain_fields {O} (cs : list (planet_call O)) : planet_chain cs = PB (last_given mass_of cs) (last_given radius_of cs) (last_given orbit_of cs) (last_given albedo_of cs).
Proof. induction cs as [|c cs IH] using rev_ind; [reflexivity|]. unfold planet_chain in *. rewrite fold_left_app, IH, !last_snoc. destruct c; reflexivity. Qed.
(** the planet has the last mass, radius, orbit and albedo given; the first of the three that was never given is the error *)
Theorem C169_planet {O} (cs : list (planet_call O)) :
  (forall p, try_build (planet_chain cs) = Ok p <->
     last_given mass_of cs = Some (p_mass p) /\ last_given radius_of cs = Some (p_radius p) /\ last_given orbit_of cs = Some (p_orbit p) /\ last_given albedo_of cs = p_albedo p) /\
  (try_build (planet_chain cs) = Err MissingMass <-> last_given mass_of cs = None) /\
  (try_build (planet_chain cs) = Err MissingRadius <-> last_given mass_of cs <> None /\ last_given radius_of cs = None) /\
  (try_build (planet_chain cs) = Err MissingOrbit <-> last_given mass_of cs <> None /\ last_given radius_of cs <> None /\ last_given orbit_of cs = None) /\
  try_build (planet_chain cs) <> Panic.
Proof.
  rewrite chain_fields. unfold try_build. cbn. destruct (last_given mass_of cs) as [m|], (last_given radius_of cs) as [r|], (last_given orbit_of cs) as [o|], (last_given albedo_of cs) as [a|];
    (split; [intros (pm, pr, po, pa); cbn; split; [intros [= ]; subst; auto|intros (?&?&?&?); congruence]|]); repeat split; intros; try discriminate; try congruence; firstorder congruence.
Qed.
(** [build] and [build_unchecked] panic exactly when [try_build] fails *)
Theorem C169_panics {O} (cs : list (planet_call O)) :
  (build (planet_chain cs) = Panic <-> exists e, try_build (planet_chain cs) = Err e) /\
  (build_unchecked (planet_chain cs) = Panic <-> exists e, try_build (planet_chain cs) = Err e) /\
  (forall p, build (planet_chain cs) = Ok p <-> try_build (planet_chain cs) = Ok p).
Proof.
  destruct (planet_chain cs) as [[m|] [r|] [o|] a]; unfold build, build_unchecked, try_build; cbn; repeat split; intros; try discriminate; try congruence; eauto; destruct H; discriminate.
Qed.
(** but [build_unchecked] loses the albedo: it agrees with [build] just when none was given *)
Theorem C169_unchecked {O} (cs : list (planet_call O)) p : try_build (planet_chain cs) = Ok p ->
  build_unchecked (planet_chain cs) = Ok (Planet (p_mass p) (p_radius p) (p_orbit p) None) /\
  (build_unchecked (planet_chain cs) = build (planet_chain cs) <-> last_given albedo_of cs = None).
Proof.
  rewrite chain_fields. unfold build_unchecked, build, try_build. cbn. destruct (last_given mass_of cs), (last_given radius_of cs), (last_given orbit_of cs); try discriminate.
  intros [= <-]. cbn. split; [reflexivity|]. destruct (last_given albedo_of cs); split; congruence.
Qed.
Theorem C169_unchecked_refuted : exists cs : list (planet_call Datatypes.unit), exists p q,
  build (planet_chain cs) = Ok p /\ build_unchecked (planet_chain cs) = Ok q /\ p_albedo p = Some (1 / 2)%R /\ p_albedo q = None.
Proof. exists [CMass 1; CRadius 2; COrbit tt; CAlbedo (1 / 2)]%R, (Planet 1 2 tt (Some (1 / 2)))%R, (Planet 1 2 tt None)%R. repeat split. Qed.
Definition aname {O} (c : asteroid_call O) := match c with AName x => Some x | _ => None end.
Definition adesignation {O} (c : asteroid_call O) := match c with ADesignation x => Some x | _ => None end.
Definition acomposition {O} (c : asteroid_call O) := match c with AComposition x => Some x | _ => None end.
Definition aclass {O} (c : asteroid_call O) := match c with AClass x => Some x | _ => None end.
Definition aorbit {O} (c : asteroid_call O) := match c with AOrbit x => Some x | _ => None end.
Definition aalbedo {O} (c : asteroid_call O) := match c with AAlbedo x => Some x | _ => None end.
Lemma asteroid_fields {O} (cs : list (asteroid_call O)) : asteroid_chain cs =
  AB (last_given aname cs) (last_given adesignation cs) (last_given acomposition cs) (last_given aclass cs) (last_given aorbit cs) (last_given aalbedo cs).
Proof. induction cs as [|c cs IH] using rev_ind; [reflexivity|]. unfold asteroid_chain in *. rewrite fold_left_app, IH, !last_snoc. destruct c; reflexivity. Qed.
Definition default {A} (x : option A) (d v : A) : Prop := x = Some v \/ x = None /\ v = d.
(** an asteroid needs a name, a designation and an orbit; composition and class have defaults *)
Theorem C169_asteroid {O} (cs : list (asteroid_call O)) :
  (asteroid_build (asteroid_chain cs) = Panic <-> last_given aname cs = None \/ last_given adesignation cs = None \/ last_given aorbit cs = None) /\
  (forall x, asteroid_build (asteroid_chain cs) = Ok x <-> last_given aname cs = Some (a_name x) /\ last_given adesignation cs = Some (a_designation x) /\
     default (last_given acomposition cs) "Unknown"%string (a_composition x) /\ default (last_given aclass cs) MainBelt (a_class x) /\
     last_given aorbit cs = Some (a_orbit x) /\ last_given aalbedo cs = a_albedo x).
Proof.
  rewrite asteroid_fields. unfold asteroid_build, default. cbn. split.
  - destruct (last_given aname cs), (last_given adesignation cs), (last_given aorbit cs); split; intros H; try discriminate; auto; destruct H as [H|[H|H]]; discriminate.
  - intros [n d k l o a]. cbn. destruct (last_given aname cs), (last_given adesignation cs), (last_given aorbit cs); try (split; [discriminate|intros (A & B & _ & _ & C & _); congruence]).
    split.
    + intros [= -> -> <- <- -> <-]. destruct (last_given acomposition cs), (last_given aclass cs); cbn; auto 10.
    + intros ([= ->] & [= ->] & K & L & [= ->] & <-). f_equal. f_equal; [destruct K as [->|(-> & ->)]|destruct L as [->|(-> & ->)]]; reflexivity.
Qed.
Definition kname {O} (c : comet_call O) := match c with KName x => Some x | _ => None end.
Definition ktail {O} (c : comet_call O) := match c with KTail x => Some x | _ => None end.
Definition korbit {O} (c : comet_call O) := match c with KOrbit x => Some x | _ => None end.
Definition kreference {O} (c : comet_call O) := match c with KReference x => Some x | _ => None end.
Lemma comet_fields {O} (cs : list (comet_call O)) : comet_chain cs = KB (last_given kname cs) (last_given ktail cs) (last_given korbit cs) (last_given kreference cs).
Proof. induction cs as [|c cs IH] using rev_ind; [reflexivity|]. unfold comet_chain in *. rewrite fold_left_app, IH, !last_snoc. destruct c; reflexivity. Qed.
(** a comet needs a name, a tail and an orbit; its elements are heliocentric unless said otherwise *)
Theorem C169_comet {O} (cs : list (comet_call O)) :
  (comet_build (comet_chain cs) = Panic <-> last_given kname cs = None \/ last_given ktail cs = None \/ last_given korbit cs = None) /\
  (forall x, comet_build (comet_chain cs) = Ok x <-> last_given kname cs = Some (c_name x) /\ last_given ktail cs = Some (c_tail x) /\
     last_given korbit cs = Some (c_orbit x) /\ default (last_given kreference cs) Heliocentric (c_reference x)).
Proof.
  rewrite comet_fields. unfold comet_build, default. cbn. split.
  - destruct (last_given kname cs), (last_given ktail cs), (last_given korbit cs); split; intros H; try discriminate; auto; destruct H as [H|[H|H]]; discriminate.
  - intros [n t o f]. cbn. destruct (last_given kname cs), (last_given ktail cs), (last_given korbit cs); try (split; [discriminate|intros (A & B & C & _); congruence]).
    split.
    + intros [= -> -> -> <-]. destruct (last_given kreference cs); cbn; auto 10.
    + intros ([= ->] & [= ->] & [= ->] & K). f_equal. f_equal. destruct K as [->|(-> & ->)]; reflexivity.
Qed.
Local Open Scope R_scope.
(** Kepler's third law, and the one factor between the comet's years and the orbit's seconds *)
Theorem C169_period a : 0 <= a -> comet_period_years a ^ 2 = a ^ 3 /\ orbit_period a = comet_period_years a * (365.256898326 * 86400) /\
  (forall b, a < b -> comet_period_years a < comet_period_years b).
Proof.
  intros H. unfold comet_period_years, orbit_period, period_days. split; [|split].
  - replace ((a * sqrt a) ^ 2) with (a ^ 2 * (sqrt a * sqrt a)) by ring. rewrite sqrt_sqrt by exact H. ring.
  - lra.
  - intros b B. pose proof (sqrt_lt_1 a b H ltac:(lra) B) as S1. pose proof (sqrt_pos a). nra.
Qed.
Example C169_case : last_given mass_of [CMass 1; CMass 2; COrbit tt] = Some 2 /\ try_build (planet_chain [CMass 1; COrbit tt]) = Err MissingRadius /\
  comet_build (comet_chain [KOrbit tt; KTail 1; KName "x"%string]) = Ok (Comet "x"%string 1 tt Heliocentric) /\ comet_period_years 4 = 8.
Proof.
  repeat split. unfold comet_period_years. replace 4 with (2 * 2) at 2 by ring. rewrite sqrt_square by lra. ring.
Qed.
Print Assumptions C169_planet.
Print Assumptions C169_panics.
Print Assumptions C169_unchecked.
Print Assumptions C169_unchecked_refuted.
Print Assumptions C169_asteroid.
Print Assumptions C169_comet.
Print Assumptions C169_period.
Print Assumptions C169_case.

(** * C170 *)
(** at J2000 the angles are the tabulated ones; the pole moves by its rate per Julian century and the meridian per day *)
Theorem C170_rates p jd x : (pole_ra p 2451545 = alpha0 p /\ pole_ra p (jd + x * 36525) = pole_ra p jd + x * alpha1 p) /\
  (pole_dec p 2451545 = delta0 p /\ pole_dec p (jd + x * 36525) = pole_dec p jd + x * delta1 p) /\
  (meridian p 2451545 = w0 p /\ meridian p (jd + x) = meridian p jd + x * w1 p).
Proof. unfold pole_ra, pole_dec, meridian. repeat split; field. Qed.
Lemma fixed_proper k p jd : proper (body_fixed_to_icrs k p jd).
Proof. destruct k as (s, []); unfold body_fixed_to_icrs, from_euler_zxz; repeat apply proper_mul; first [apply rz_proper|apply rx_proper]. Qed.
Lemma apply_id v : apply identity v = v.
Proof. destruct v as ((x, y), z). cbn. f_equal; [f_equal|]; ring. Qed.
(** there and back is the identity in both directions, also for another inertial frame, whatever the convention;
    and going through ICRS by hand agrees with the direct route *)
Theorem C170_round_trip k p jd m v : proper m ->
  apply (icrs_to_body_fixed k p jd) (apply (body_fixed_to_icrs k p jd) v) = v /\ apply (body_fixed_to_icrs k p jd) (apply (icrs_to_body_fixed k p jd) v) = v /\
  apply (fixed_to_inertial m k p jd) (apply (inertial_to_fixed m k p jd) v) = v /\ apply (inertial_to_fixed m k p jd) (apply (fixed_to_inertial m k p jd) v) = v /\
  apply (inertial_to_fixed m k p jd) v = apply (icrs_to_body_fixed k p jd) (apply m v) /\
  apply m (apply (fixed_to_inertial m k p jd) v) = apply (body_fixed_to_icrs k p jd) v.
Proof.
  intros M. pose proof (fixed_proper k p jd) as F. assert (G : proper (inertial_to_fixed m k p jd)) by (apply proper_mul; [apply proper_transpose, F|exact M]).
  assert (T : transpose (transpose (body_fixed_to_icrs k p jd)) = body_fixed_to_icrs k p jd) by (destruct (body_fixed_to_icrs k p jd); reflexivity).
  rewrite <- !apply_mul. unfold icrs_to_body_fixed, fixed_to_inertial. rewrite (proper_l _ F), (proper_r _ F), (proper_l _ G), (proper_r _ G), !apply_id. repeat split.
  unfold inertial_to_fixed, icrs_to_body_fixed. rewrite transpose_mul, T, mul_assoc, (proper_r _ M), mul_1_l. reflexivity.
Qed.
(** lengths and angles are kept *)
Theorem C170_lengths k p jd u v : dot3 (apply (body_fixed_to_icrs k p jd) u) (apply (body_fixed_to_icrs k p jd) v) = dot3 u v.
Proof. apply orthonormal_dot, fixed_proper. Qed.
Lemma rad90 : rad 90 = PI / 2. Proof. unfold rad. field. Qed.
(** the IAU pole in ICRS *)
Definition iau_pole (p : iau) (jd : R) : vec :=
  (cos (rad (pole_dec p jd)) * cos (rad (pole_ra p jd)), cos (rad (pole_dec p jd)) * sin (rad (pole_ra p jd)), sin (rad (pole_dec p jd))).
(** where each convention sends the body's pole *)
Lemma pole_image k p jd : let a := rad (pole_ra p jd) in let d := rad (pole_dec p jd) in let w := rad (meridian p jd) in
  apply (body_fixed_to_icrs k p jd) (0, 0, 1) =
  match k with
  | (Active, Outward) => (cos d * cos a, - (cos d * sin a), sin d)
  | (Active, Inward) => (cos d * sin w, cos d * cos w, sin d)
  | (Passive, Outward) => (cos d * cos a, cos d * sin a, sin d)
  | (Passive, Inward) => (cos d * sin w, - (cos d * cos w), sin d)
  end.
Proof.
  intros a d w. unfold body_fixed_to_icrs. fold a d w. clearbody a d w. rewrite rad90.
  assert (C1 : sin (PI / 2 - d) = cos d) by apply sin_shift. assert (C2 : cos (PI / 2 - d) = sin d) by apply cos_shift.
  assert (C3 : cos (a + PI / 2) = - sin a) by (rewrite cos_plus, cos_PI2, sin_PI2; ring). assert (C4 : sin (a + PI / 2) = cos a) by (rewrite sin_plus, cos_PI2, sin_PI2; ring).
  destruct k as ([], []); unfold from_euler_zxz, sensed; rewrite ?Ropp_involutive, !apply_mul, !rz_form, rx_form; unfold apply; cbn; rewrite ?sin_neg, ?cos_neg, ?C1, ?C2, ?C3, ?C4; f_equal; [f_equal| |f_equal| |f_equal| |f_equal|]; ring.
Qed.
(** whatever the convention the declination comes out right *)
Theorem C170_declination k p jd : snd (apply (body_fixed_to_icrs k p jd) (0, 0, 1)) = snd (iau_pole p jd).
Proof. rewrite pole_image. destruct k as ([], []); reflexivity. Qed.
(** the body's pole is sent to the IAU pole for every body and date under exactly one convention:
    passive elementary rotations, first angle applied first *)
Theorem C170_pole k : (forall p jd, apply (body_fixed_to_icrs k p jd) (0, 0, 1) = iau_pole p jd) <-> k = (Passive, Outward).
Proof.
  split; [|intros -> p jd; apply (pole_image (Passive, Outward))].
  intros H. specialize (H {| alpha0 := 90; alpha1 := 0; delta0 := 0; delta1 := 0; w0 := 90; w1 := 0 |} 2451545). rewrite pole_image in H. unfold iau_pole in H.
  replace (rad (pole_ra _ _)) with (PI / 2) in H by (unfold pole_ra, rad; cbn [alpha0 alpha1]; field).
  replace (rad (pole_dec _ _)) with 0 in H by (unfold pole_dec, rad; cbn [delta0 delta1]; field).
  replace (rad (meridian _ _)) with (PI / 2) in H by (unfold meridian, rad; cbn [w0 w1]; field).
  rewrite cos_0, sin_PI2, cos_PI2 in H. destruct k as ([], []); [exfalso; injection H; lra|exfalso; injection H; lra|reflexivity|exfalso; injection H; lra].
Qed.
(** and under it the rotation is the IAU definition: the meridian turned by W, tilted by the colatitude of the pole, then
    turned to the node at a right angle past the pole; so the point on the prime meridian is W past the node *)
Theorem C170_meridian p jd : let k := (Passive, Outward) in let q := PI / 2 in
  let node := (- sin (rad (pole_ra p jd)), cos (rad (pole_ra p jd)), 0) in
  body_fixed_to_icrs k p jd = mul (rz (rad (pole_ra p jd) + q)) (mul (rx (q - rad (pole_dec p jd))) (rz (rad (meridian p jd)))) /\
  dot3 (apply (body_fixed_to_icrs k p jd) (1, 0, 0)) node = cos (rad (meridian p jd)) /\
  dot3 (apply (body_fixed_to_icrs k p jd) (0, 1, 0)) node = - sin (rad (meridian p jd)).
Proof.
  intros k q node. subst k q node. unfold body_fixed_to_icrs, from_euler_zxz, sensed. rewrite rad90, !Ropp_involutive. split; [reflexivity|].
  set (a := rad (pole_ra p jd)). set (d := rad (pole_dec p jd)). set (w := rad (meridian p jd)). clearbody a d w.
  assert (C3 : cos (a + PI / 2) = - sin a) by (rewrite cos_plus, cos_PI2, sin_PI2; ring). assert (C4 : sin (a + PI / 2) = cos a) by (rewrite sin_plus, cos_PI2, sin_PI2; ring).
  pose proof (sin2_cos2 a) as Q. unfold Rsqr in Q. rewrite !apply_mul, !rz_form, rx_form. unfold apply, dot3; cbn. rewrite C3, C4. split.
  - transitivity (cos w * (sin a * sin a + cos a * cos a)); [ring|rewrite Q; ring].
  - transitivity (- sin w * (sin a * sin a + cos a * cos a)); [ring|rewrite Q; ring].
Qed.
Example C170_case : iau_pole {| alpha0 := 0; alpha1 := 36525; delta0 := 90; delta1 := 0; w0 := 0; w1 := 1 |} 2451635 = (0, 0, 1).
Proof.
  unfold iau_pole, pole_dec, pole_ra. cbn [alpha0 alpha1 delta0 delta1]. replace (rad (90 + 0 * ((2451635 - 2451545) / 36525))) with (PI / 2) by (unfold rad; field). rewrite cos_PI2, sin_PI2. f_equal; f_equal; ring.
Qed.
Print Assumptions C170_rates.
Print Assumptions C170_round_trip.
Print Assumptions C170_lengths.
Print Assumptions C170_declination.
Print Assumptions C170_pole.
Print Assumptions C170_meridian.
Print Assumptions C170_case.

(** * C171 *)
Definition listed (t : list entry) (n m : nat) (c s : R) : Prop := exists a b, t = a ++ (n, m, c, s) :: b /\ Forall (fun e => let '(n', m', _, _) := e in (n', m') <> (n, m)) a.
Lemma scan_listed t n m c s : listed t n m c s -> scan t n m = (c, s).
Proof.
  intros (a & b & -> & H). induction a as [|(((n', m'), c'), s') a IH]; cbn [scan List.app].
  - now rewrite !Nat.eqb_refl.
  - inversion H as [|? ? H1 H2]; subst. destruct (Nat.eqb_spec n' n) as [->|]; destruct (Nat.eqb_spec m' m) as [->|]; try (cbn [andb]; now apply IH). congruence.
Qed.
Lemma scan_absent t n m : (forall c s, ~ listed t n m c s) -> scan t n m = (0, 0).
Proof.
  induction t as [|(((n', m'), c'), s') t IH]; [reflexivity|]. intros H. cbn [scan]. destruct (Nat.eqb_spec n' n) as [->|N]; [destruct (Nat.eqb_spec m' m) as [->|N]|].
  - exfalso. apply (H c' s'). exists [], t. auto.
  - cbn [andb]. apply IH. intros c s (a & b & -> & F). apply (H c s). exists ((n, m', c', s') :: a), b. split; [reflexivity|]. constructor; [congruence|exact F].
  - cbn [andb]. apply IH. intros c s (a & b & -> & F). apply (H c s). exists ((n', m', c', s') :: a), b. split; [reflexivity|]. constructor; [congruence|exact F].
Qed.
(** within degree four the first table entry counts, whatever else is outside or absent is zero, and the monopole is one *)
Theorem C171_table t n m : (n <= 4 -> m <= n -> n <> 0 -> forall c s, listed t n m c s -> low_c t n m = c /\ low_s t n m = s)%nat /\
  ((4 < n \/ n < m)%nat -> low_c t n m = 0 /\ low_s t n m = 0) /\
  (n <> 0%nat -> (forall c s, ~ listed t n m c s) -> low_c t n m = 0 /\ low_s t n m = 0) /\
  low_c t 0 0 = 1 /\ low_s t 0 0 = 0.
Proof.
  unfold low_c, low_s, low_lookup. repeat split; intros.
  1,2: rewrite (proj2 (Nat.ltb_ge 4 n)), (proj2 (Nat.ltb_ge n m)) by lia; cbn [orb]; rewrite (proj2 (Nat.eqb_neq n 0)) by lia; cbn [andb]; rewrite (scan_listed _ _ _ _ _ H2); reflexivity.
  1,2: replace ((4 <? n) || (n <? m))%nat%bool with true by (symmetry; apply orb_true_iff; rewrite !Nat.ltb_lt; lia); reflexivity.
  1,2: destruct ((4 <? n) || (n <? m))%nat%bool; [reflexivity|]; rewrite (proj2 (Nat.eqb_neq n 0)) by lia; cbn [andb]; rewrite scan_absent by assumption; reflexivity.
Qed.
(** the two-body field is the monopole at every degree and order that exists, but answers one for orders that do not *)
Theorem C171_two_body n m : (m <= n)%nat -> two_body_c n m = low_c [] n m /\ two_body_s n m = low_s [] n m.
Proof.
  intros H. unfold two_body_c, two_body_s, low_c, low_s, low_lookup. cbn [scan]. destruct n as [|n]; [replace m with 0%nat by lia; split; reflexivity|]. cbn [Nat.eqb andb]. destruct ((4 <? S n) || (S n <? m))%nat%bool; split; reflexivity.
Qed.
Theorem C171_two_body_refuted : two_body_c 0 1 = 1 /\ (forall t, low_c t 0 1 = 0).
Proof. split; reflexivity. Qed.
(** planet centres are the 99th body of their system and no two points share an identifier *)
Theorem C171_ids p q a b : center_id p = (100 * barycenter_id p + 99)%Z /\ (naif_id p a = naif_id q b <-> p = q /\ a = b).
Proof. split; [destruct p; reflexivity|]. split; [|intros (-> & ->); reflexivity]. destruct p, q, a, b; cbn; intros H; try discriminate H; auto. Qed.
Example C171_case : low_c [(2%nat, 0%nat, 3, 4); (2%nat, 0%nat, 5, 6)] 2 0 = 3 /\ low_s [(2%nat, 0%nat, 3, 4)] 2 1 = 0 /\ naif_id Mars Center = 499%Z.
Proof. repeat split. Qed.
Print Assumptions C171_table.
Print Assumptions C171_two_body.
Print Assumptions C171_two_body_refuted.
Print Assumptions C171_ids.
Print Assumptions C171_case.

(** * C172 *)
Local Open Scope string_scope.
Local Open Scope list_scope.
Lemma append_inj_l a x y : (a ++ x = a ++ y)%string -> x = y.
Proof. induction a as [|c a IH]; cbn; [auto|]. intros [= H]. auto. Qed.
Lemma append_inj_r x y b : (x ++ b = y ++ b)%string -> x = y.
Proof.
  assert (L : forall s t, String.length (s ++ t) = (String.length s + String.length t)%nat) by (induction s; cbn; intros; [reflexivity|now rewrite IHs]).
  revert y. induction x as [|c x IH]; intros [|d y] H; cbn in H.
  - reflexivity.
  - apply (f_equal String.length) in H. cbn in H. rewrite L in H. lia.
  - apply (f_equal String.length) in H. cbn in H. rewrite L in H. lia.
  - injection H as -> H. f_equal. now apply IH.
Qed.
Definition names (a : thrust_arc) : list string := map pr_name (thrust_parameters a).
(** how many parameters, with which starting values *)
Theorem C172_parameters a p : In p (thrust_parameters a) <->
  (ta_scale a = true /\ p = {| pr_name := "thrust_scale[" ++ ta_id a ++ "]"; pr_initial := 1; pr_sigma := Some 0.1%R |} \/
  ta_delta_v a = true /\ exists x, In x ["X"; "Y"; "Z"] /\ p = {| pr_name := "delta_v_" ++ x ++ "[" ++ ta_id a ++ "]"; pr_initial := 0; pr_sigma := Some 0.01%R |})%string.
Proof.
  unfold thrust_parameters. rewrite in_app_iff. destruct (ta_scale a), (ta_delta_v a); split.
  - intros [[<-|[]]|H]; [left; auto|]. right. split; [reflexivity|]. apply in_map_iff in H as (x & <- & H). exists x. auto.
  - intros [(_ & ->)|(_ & x & H & ->)]; [left; left; reflexivity|]. right. apply in_map_iff. exists x. auto.
  - intros [[<-|[]]|[]]. left; auto.
  - intros [(_ & ->)|(E & _)]; [left; left; reflexivity|discriminate].
  - intros [[]|H]. right. split; [reflexivity|]. apply in_map_iff in H as (x & <- & H). exists x. auto.
  - intros [(E & _)|(_ & x & H & ->)]; [discriminate|]. right. apply in_map_iff. exists x. auto.
  - intros [[]|[]].
  - intros [(E & _)|(E & _)]; discriminate.
Qed.
Lemma names_of a s : In s (names a) -> exists k, (s = k ++ "[" ++ ta_id a ++ "]")%string /\ In k ["thrust_scale"; "delta_v_X"; "delta_v_Y"; "delta_v_Z"].
Proof.
  unfold names. rewrite in_map_iff. intros (p & <- & H). apply C172_parameters in H as [(_ & ->)|(_ & x & X & ->)]; cbn [pr_name].
  - exists "thrust_scale". split; [reflexivity|cbn; auto].
  - cbn in X. destruct X as [<-|[<-|[<-|[]]]]; [exists "delta_v_X"|exists "delta_v_Y"|exists "delta_v_Z"]; (split; [reflexivity|cbn; auto]).
Qed.
Lemma names_apart a b s : In s (names a) -> In s (names b) -> ta_id a = ta_id b.
Proof.
  intros A B. apply names_of in A as (k & -> & K). apply names_of in B as (l & E & L). cbn in K, L.
  destruct K as [<-|[<-|[<-|[<-|[]]]]], L as [<-|[<-|[<-|[<-|[]]]]]; cbn [append] in E; try discriminate E; repeat (injection E as E); now apply (append_inj_r _ _ "]").
Qed.
Lemma names_nodup a : NoDup (names a).
Proof.
  unfold names, thrust_parameters. destruct (ta_scale a), (ta_delta_v a); cbn; repeat constructor; cbn; intuition discriminate.
Qed.
(** arcs with different identifiers never share a parameter, so the whole vector is free of repetitions *)
Theorem C172_distinct arcs : NoDup (map ta_id arcs) -> NoDup (flat_map names arcs).
Proof.
  induction arcs as [|a arcs IH]; cbn; intros H; [constructor|]. inversion H as [|? ? N D]; subst.
  assert (F : forall s, In s (names a) -> ~ In s (flat_map names arcs)).
  { intros s A B. apply in_flat_map in B as (b & B & C). apply N. apply in_map_iff. exists b. split; [|exact B]. symmetry. now apply (names_apart a b s). }
  specialize (IH D). clear -IH F. pose proof (names_nodup a) as A. revert A F. generalize (names a) as l. induction l as [|x l IHl]; cbn; intros A F; [exact IH|]. inversion A; subst. constructor.
  - rewrite in_app_iff. intros [X|X]; [contradiction|]. now apply (F x); auto.
  - apply IHl; [assumption|]. intros s S1. apply F. auto.
Qed.
(** and that is needed: two arcs under one identifier that both estimate the scale, or both the impulse, do collide *)
Theorem C172_same_id a b : ta_id a = ta_id b -> ta_scale a && ta_scale b || ta_delta_v a && ta_delta_v b = true -> ~ NoDup (flat_map names [a; b]).
Proof.
  intros I H N. cbn [flat_map] in N. rewrite app_nil_r in N.
  assert (C : exists s, In s (names a) /\ In s (names b)).
  { unfold names, thrust_parameters. rewrite I. apply orb_true_iff in H as [H|H]; apply andb_true_iff in H as (-> & ->).
    - eexists; split; apply in_map; apply in_or_app; left; left; reflexivity.
    - eexists; split; apply in_map; apply in_or_app; right; left; reflexivity. }
  destruct C as (s & A & B). revert A N. generalize (names a) as l. induction l as [|x l IH]; cbn [In List.app]; intros A N; [exact A|]. inversion N; subst. destruct A as [->|A]; [|now apply IH]. match goal with H : ~ _ |- _ => apply H end. apply in_or_app. auto.
Qed.
Local Open Scope R_scope.
(** an arc is valid exactly when its duration is not negative, and reversing it changes the sign of the duration *)
Theorem C172_arc a : (arc_valid a <-> 0 <= arc_duration a) /\ arc_duration {| arc_id := arc_id a; arc_start := arc_stop a; arc_stop := arc_start a; arc_step := arc_step a |} = - arc_duration a.
Proof. unfold arc_valid, arc_duration. cbn. split; [split; intros; lra|ring]. Qed.
Example C172_case : names {| ta_id := "m1"; ta_start := 0; ta_stop := 10; ta_scale := true; ta_delta_v := true |} = ["thrust_scale[m1]"; "delta_v_X[m1]"; "delta_v_Y[m1]"; "delta_v_Z[m1]"]%string.
Proof. reflexivity. Qed.
Print Assumptions C172_parameters.
Print Assumptions C172_distinct.
Print Assumptions C172_same_id.
Print Assumptions C172_arc.
Print Assumptions C172_case.
