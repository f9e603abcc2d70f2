(** Properties C99-C104: third bodies, radiation pressure and shadow, drag and density, relativity and empirical
    accelerations, the thrust ledger, the geopotential wrapper. *)
From Coq Require Import List Reals Lra Bool Lia.
From Verif Require Import Base Mat3 Ang Geom_Model Geom_Proofs Geom_Lens Force_Model Force_Proofs.
From Verif Require Earth_Model Earth_Proofs Earth_Props Moon_Model.
Import ListNotations.
Local Open Scope R_scope.

(** * C99 Third bodies *)
(** the attraction of the body at [rb] on the satellite minus its attraction on the Earth *)
Theorem C99_formula rs rb mu : rb <> (0, 0, 0) -> rs <> rb ->
  battin rs rb mu = vminus (scale (mu / norm (vminus rb rs) ^ 3) (vminus rb rs)) (scale (mu / norm rb ^ 3) rb).
Proof. apply battin_eq. Qed.
(** no singularity: a satellite at the body, or a body at the Earth's centre, feels nothing *)
Theorem C99_no_singularity mu : (forall rb, battin rb rb mu = (0, 0, 0)) /\ (forall rs, battin rs (0, 0, 0) mu = (0, 0, 0)).
Proof.
  split; [intros rb; apply battin_coincident|]. intros ((x, y), z). unfold battin. cbn [dot3]. replace (0 * 0 + 0 * 0 + 0 * 0) with 0 by ring. rewrite sqrt_0.
  destruct (reqb_r 0 0); [reflexivity|contradiction].
Qed.
Lemma scale_zero v : scale 0 v = (0, 0, 0). Proof. destruct v as ((a, b), c). cbn. apply vec_eq; ring. Qed.
(** at the Earth's centre the perturbation vanishes *)
Theorem C99_centre rb mu : battin (0, 0, 0) rb mu = (0, 0, 0).
Proof.
  destruct (Req_dec (dot3 rb rb) 0) as [Z|N].
  - apply dot_zero in Z. subst. apply battin_coincident.
  - assert (B : rb <> (0, 0, 0)) by (intros ->; apply N; cbn; ring). rewrite battin_eq by (try assumption; congruence).
    replace (vminus rb (0, 0, 0)) with rb. 2: { destruct rb as ((x, y), z). cbn. apply vec_eq; ring. } apply vminus_self.
Qed.
Lemma apply_minus m u v : apply m (vminus u v) = vminus (apply m u) (apply m v).
Proof. destruct u as ((a, b), c), v as ((x, y), z). cbn. apply vec_eq; ring. Qed.
Lemma apply_scale m k v : apply m (scale k v) = scale k (apply m v).
Proof. destruct v as ((x, y), z). cbn. apply vec_eq; ring. Qed.
Lemma apply_plus m u v : apply m (vplus u v) = vplus (apply m u) (apply m v).
Proof. destruct u as ((a, b), c), v as ((x, y), z). cbn. apply vec_eq; ring. Qed.
Lemma apply_zero m : apply m (0, 0, 0) = (0, 0, 0). Proof. cbn. apply vec_eq; ring. Qed.
Lemma norm_apply m v : orthonormal m -> norm (apply m v) = norm v.
Proof. intros O. unfold norm. now rewrite orthonormal_dot. Qed.
Lemma apply_inj m u v : orthonormal m -> apply m u = apply m v -> u = v.
Proof.
  intros O E. apply vminus_zero. apply dot_zero. rewrite <- (orthonormal_dot m) by exact O. rewrite apply_minus, E, vminus_self. cbn. ring.
Qed.
(** rotating the satellite and the body rotates the acceleration *)
Theorem C99_rotation m rs rb mu : orthonormal m -> battin (apply m rs) (apply m rb) mu = apply m (battin rs rb mu).
Proof.
  intros O. destruct (Req_dec (dot3 rb rb) 0) as [Z|N].
  - apply dot_zero in Z. subst. rewrite apply_zero. rewrite !(proj2 (C99_no_singularity mu)). now rewrite apply_zero.
  - assert (B : rb <> (0, 0, 0)) by (intros ->; apply N; cbn; ring).
    destruct (Req_dec (dot3 (vminus rb rs) (vminus rb rs)) 0) as [Z|D].
    + apply dot_zero, vminus_zero in Z. subst. now rewrite !battin_coincident, apply_zero.
    + assert (S' : rs <> rb) by (intros ->; apply D; rewrite vminus_self; cbn; ring).
      assert (B' : apply m rb <> (0, 0, 0)). { intros E. apply B. apply (apply_inj m _ _ O). now rewrite E, apply_zero. }
      assert (S2 : apply m rs <> apply m rb) by (intros E; apply S'; now apply (apply_inj m _ _ O)).
      rewrite !battin_eq by assumption. rewrite apply_minus, !apply_scale, !apply_minus. rewrite <- (apply_minus m rb rs), !norm_apply by exact O. reflexivity.
Qed.
(** the answer is the sum over the bodies in order, and the first body without a position decides the error *)
Theorem C99_sum E (eph : outcome unit E) rs bodies (ps : list (vec * R)) : bodies <> [] -> eph = Ok tt -> map (fun p => (Ok (fst p), snd p)) ps = bodies ->
  third_body eph rs bodies = Ok (fold_left vplus (map (fun p => battin rs (fst p) (snd p)) ps) (0, 0, 0)).
Proof.
  intros N -> <-. assert (G : forall t, third_body_sum (E := E) rs t (map (fun p => (Ok (fst p), snd p)) ps) = Ok (fold_left vplus (map (fun p => battin rs (fst p) (snd p)) ps) t)).
  { induction ps as [|(p, m) ps IH]; intros t; [reflexivity|]. cbn [map third_body_sum fst snd fold_left]. destruct ps; [reflexivity|]. apply IH. discriminate. }
  unfold third_body. destruct (map _ ps) eqn:Q; [contradiction|]. apply G.
Qed.
Theorem C99_first_error E (eph : outcome unit E) rs good e mu rest : eph = Ok tt -> (forall b, In b good -> exists p, fst b = Ok p) ->
  third_body eph rs (good ++ (Err e, mu) :: rest) = Err e.
Proof.
  intros -> G. assert (K : forall t, third_body_sum rs t (good ++ (Err e, mu) :: rest) = Err e).
  { induction good as [|(b, m) good IH]; intros t; [reflexivity|]. destruct (G (b, m) (or_introl eq_refl)) as (p & P). cbn in P. subst. cbn. apply IH. intros c C. apply G. now right. }
  unfold third_body. destruct (good ++ _) eqn:Q; [destruct good; discriminate|]. apply K.
Qed.
(** no bodies: no ephemeris is needed; otherwise a missing one is the error *)
Theorem C99_needs_ephemeris E rs (e : E) : third_body (Err e) rs [] = Ok (0, 0, 0) /\ forall b rest, third_body (Err e) rs (b :: rest) = Err e.
Proof. split; reflexivity. Qed.
(** the Sun's and the Moon's vectors are turned to the mean equator of J2000, not to the GCRS axes they are labelled with *)
Theorem C99_axes dpsi deps eop_at ut1 jd : Earth_Model.rotation dpsi deps eop_at ut1 jd Earth_Model.EclJ2000 Earth_Model.EqJ2000 = Some body_rotation.
Proof.
  unfold body_rotation, Earth_Model.mean_equatorial_to_ecliptic_of_date, Earth_Model.mean_obliquity. destruct Earth_Props.fw_j2000 as (_ & _ & _ & ->).
  change (Some Earth_Model.ecl_to_eq = Some (transpose (Moon_Model.rx (- Earth_Model.arcsec 84381.406)))). unfold Earth_Model.ecl_to_eq, Earth_Model.j2000_obliquity.
  f_equal. unfold Moon_Model.rx, r1, transpose. cbn. rewrite Ropp_involutive, ?sin_neg, ?cos_neg. f_equal; ring.
Qed.
Theorem C99_frame_refuted dpsi deps eop_at ut1 jd : Earth_Model.rotation dpsi deps eop_at ut1 jd Earth_Model.EclJ2000 Earth_Model.GCRS <> Some body_rotation.
Proof.
  pose proof (C99_axes dpsi deps eop_at ut1 jd) as Ax.
  change (Some Earth_Model.ecl_to_eq = Some body_rotation) in Ax. apply Earth_Props.some_eq in Ax.
  change (Some (transpose (mul Earth_Model.eq_to_ecl Earth_Model.bias)) <> Some body_rotation). intros H. apply Earth_Props.some_eq in H.
  rewrite <- Ax, transpose_mul in H. assert (T : transpose Earth_Model.eq_to_ecl = Earth_Model.ecl_to_eq).
  { unfold Earth_Model.eq_to_ecl, Earth_Model.ecl_to_eq, Moon_Model.rx, r1, transpose. cbn. rewrite ?Ropp_involutive, ?sin_neg, ?cos_neg. f_equal; ring. }
  rewrite T in H. assert (O : orthonormal Earth_Model.ecl_to_eq) by (apply r1_orthonormal).
  assert (I : transpose Earth_Model.bias = identity).
  { rewrite <- (mul_1_r (transpose Earth_Model.bias)), <- (orthonormal_r _ O), mul_assoc, H. reflexivity. }
  assert (J : Earth_Model.bias = identity) by (rewrite <- (transpose_transpose Earth_Model.bias), I; mat).
  pose proof Earth_Props.j2000_pole as P. unfold Earth_Model.cip_xy in P. cbv zeta in P.
  assert (E : Earth_Model.precession_nutation Earth_Model.j2000 0 0 = Earth_Model.bias). { unfold Earth_Model.precession_nutation, Earth_Model.bias, Earth_Model.precession. cbv zeta. now rewrite !Rplus_0_r. }
  rewrite E, J in P. cbn in P. destruct P as ([P|P] & _); now apply P.
Qed.
(** a satellite 7000 km out on the line to the Moon, and one on the far side: both are pulled away from the Earth *)
Example C99_case : let moon := (384400, 0, 0) in exists near far, battin (7000, 0, 0) moon 4902.8 = (near, 0, 0) /\ battin (-7000, 0, 0) moon 4902.8 = (far, 0, 0) /\ far < 0 < near.
Proof.
  cbv zeta. rewrite !battin_eq by (intros E; injection E; lra). cbn [vminus scale].
  replace (norm (384400 - 7000, 0 - 0, 0 - 0)) with 377400. 2: { symmetry. unfold norm. cbn. replace (_ + _) with (377400 * 377400) by ring. apply sqrt_square; lra. }
  replace (norm (384400 - -7000, 0 - 0, 0 - 0)) with 391400. 2: { symmetry. unfold norm. cbn. replace (_ + _) with (391400 * 391400) by ring. apply sqrt_square; lra. }
  replace (norm (384400, 0, 0)) with 384400. 2: { symmetry. unfold norm. cbn. replace (_ + _) with (384400 * 384400) by ring. apply sqrt_square; lra. }
  do 2 eexists. repeat split; [apply vec_eq; try reflexivity; ring|apply vec_eq; try reflexivity; ring| |]; lra.
Qed.

(** * C100 Shadow and radiation pressure *)
Theorem C100_factor_range sat sun : (forall shadow, In shadow [no_eclipse; cylindrical_eclipse; conical_eclipse] -> 0 <= shadow sat sun <= 1).
Proof.
  intros shadow [<-|[<-|[<-|[]]]].
  - unfold no_eclipse. lra.
  - unfold cylindrical_eclipse, cylindrical. cbv zeta. repeat match goal with |- context [if ?b then _ else _] => destruct b end; lra.
  - unfold conical_eclipse, conical. cbv zeta. destruct (reqb_r (norm sat) 0) as [Z|N]; [lra|]. destruct (reqb_r (norm (vminus sun sat)) 0) as [Z|M]; [lra|].
    pose proof (norm_nonneg sat). pose proof (norm_nonneg (vminus sun sat)). apply disc_range.
    + apply asin_pos, Rmin_pos. unfold r_sun_km. apply Rdiv_lt_0_compat; lra.
    + apply asin_pos, Rmin_pos. unfold r_earth. apply Rdiv_lt_0_compat; lra.
    + apply acos_bound.
Qed.
(** the cylinder: dark exactly behind the Earth and closer than its radius to the Sun line *)
Theorem C100_cylinder sat sun re : sun <> (0, 0, 0) -> 0 < re ->
  cylindrical sat sun re = (if Rlt_dec (dot3 sat sun) 0 then if Rlt_dec (norm (cross sat sun)) (re * norm sun) then 0 else 1 else 1).
Proof.
  intros S' R. pose proof (norm_pos sun S') as M. unfold cylindrical. cbv zeta. destruct (reqb_r (norm sun) 0) as [Z|_]; [lra|].
  set (m := norm sun) in *. assert (D : dot3 sat (scale (/ m) sun) = / m * dot3 sat sun) by (rewrite dot_comm, dot_scale, dot_comm; reflexivity). rewrite D.
  assert (I : 0 < / m) by now apply Rinv_0_lt_compat.
  destruct (rleb_r 0 (/ m * dot3 sat sun)) as [L|L]; destruct (Rlt_dec (dot3 sat sun) 0) as [K|K]; try nra.
  set (perp := vminus sat _). assert (Q : dot3 perp perp * (m * m) = dot3 (cross sat sun) (cross sat sun)).
  { pose proof (norm_sq sun) as Sq. fold m in Sq. unfold perp. destruct sat as ((a, b), c), sun as ((x, y), z). cbn in Sq |- *.
    transitivity (m * m * (a * a + b * b + c * c) - (a * x + b * y + c * z) * (a * x + b * y + c * z) * (2 - / (m * m) * (m * m))).
    - transitivity (m * m * (a * a + b * b + c * c) - 2 * (a * x + b * y + c * z) * (a * x + b * y + c * z) + (a * x + b * y + c * z) * (a * x + b * y + c * z) * ((x * x + y * y + z * z) / (m * m))); [field; lra|]. rewrite <- Sq. field. lra.
    - rewrite Rinv_l by nra. rewrite Sq. ring. }
  pose proof (norm_sq (cross sat sun)) as Nc. rewrite <- Q in Nc. pose proof (norm_nonneg (cross sat sun)) as Np. pose proof (dot_nonneg perp) as Pp.
  set (n := norm (cross sat sun)) in *. set (d := dot3 perp perp) in *. clearbody n d. assert (Pm : 0 < m * m) by nra.
  destruct (rltb_r d (re * re)) as [X|X], (Rlt_dec n (re * m)) as [Y|Y]; try reflexivity; exfalso.
  - assert (re * m <= n) by lra. assert (re * m * (re * m) <= n * n) by (apply Rmult_le_compat; nra). assert (d * (m * m) < re * re * (m * m)) by (apply Rmult_lt_compat_r; assumption). lra.
  - assert (n * n < re * m * (re * m)) by (apply Rmult_le_0_lt_compat; assumption). assert (re * re * (m * m) <= d * (m * m)) by (apply Rmult_le_compat_r; lra). lra.
Qed.
(** the part of the Sun's disc (angular radius a_s) left by the Earth's (a_e) at separation th *)
Definition uncovered (a_s a_e th : R) : R :=
  if Rle_dec (a_s + a_e) th then 1
  else if Rle_dec th (a_e - a_s) then 0
  else if Rle_dec th (a_s - a_e) then 1 - (a_e / a_s) ^ 2
  else 1 - lens a_s a_e th / (PI * (a_s * a_s)).
Lemma disc_uncovered a_s a_e th : 0 < a_s -> 0 < a_e -> 0 <= th -> disc_factor a_s a_e th = uncovered a_s a_e th.
Proof.
  intros S' E T. unfold disc_factor, uncovered. destruct (rleb_r (a_s + a_e) th), (Rle_dec (a_s + a_e) th); try lra.
  destruct (rleb_r a_s a_e), (rleb_r th (a_e - a_s)), (Rle_dec th (a_e - a_s)); cbn [andb]; try lra;
    destruct (rltb_r a_e a_s), (rleb_r th (a_s - a_e)), (Rle_dec th (a_s - a_e)); cbn [andb]; try lra.
  all: assert (Tp : 0 < th) by lra; assert (Ra : Rabs (a_s - a_e) < th) by (apply Rabs_def1; lra);
    pose proof (lens_bounds a_s a_e th S' E Ra ltac:(lra)) as L; rewrite (partial_lens _ _ _ S' E Tp), Rmult_assoc; apply clamp_id;
    pose proof PI_RGT_0; assert (Q : 0 < PI * (a_s * a_s)) by (apply Rmult_lt_0_compat; nra);
    assert (0 < lens a_s a_e th / (PI * (a_s * a_s)) < 1); [|lra];
    (split; [now apply Rdiv_lt_0_compat|]; apply (Rmult_lt_reg_r (PI * (a_s * a_s))); [exact Q|]; unfold Rdiv; rewrite Rmult_assoc, Rinv_l by lra; lra).
Qed.
Theorem C100_cone sat sun re rs a_e a_s th : 0 < re <= norm sat -> 0 < rs <= norm (vminus sun sat) ->
  0 < a_e <= PI / 2 -> sin a_e = re / norm sat -> 0 < a_s <= PI / 2 -> sin a_s = rs / norm (vminus sun sat) ->
  0 <= th <= PI -> dot3 (scale (-1) sat) (vminus sun sat) = norm sat * norm (vminus sun sat) * cos th ->
  conical sat sun re rs = uncovered a_s a_e th.
Proof.
  intros Re Rs E SE S' SS T CT. unfold conical. cbv zeta. destruct (reqb_r (norm sat) 0) as [Z|N]; [lra|]. destruct (reqb_r (norm (vminus sun sat)) 0) as [Z|M]; [lra|].
  rewrite <- SE, <- SS. pose proof (SIN_bound a_e). pose proof (SIN_bound a_s). rewrite !Rmin_left by lra. rewrite !asin_sin by lra.
  replace (- dot3 sat (vminus sun sat) / _) with (cos th). 2: { rewrite dot_scale in CT. apply (Rmult_eq_reg_l (norm sat * norm (vminus sun sat))); [|nra]. rewrite <- CT. field. split; lra. }
  rewrite clamp_id by apply COS_bound. rewrite acos_cos by lra. apply disc_uncovered; lra.
Qed.
(** the farther the discs are apart, the more of the Sun is left, strictly so while they partly overlap *)
Theorem C100_brighter a_s a_e th th' : 0 < a_s -> 0 < a_e -> 0 <= th -> th <= th' -> uncovered a_s a_e th <= uncovered a_s a_e th'.
Proof.
  intros S' E T L. assert (D : forall t, 0 <= t -> 0 <= uncovered a_s a_e t <= 1) by (intros t H; rewrite <- disc_uncovered by assumption; now apply disc_range).
  destruct (Req_dec th th') as [<-|Ne]; [lra|]. pose proof (D th T). pose proof (D th' ltac:(lra)). unfold uncovered in *.
  destruct (Rle_dec (a_s + a_e) th), (Rle_dec (a_s + a_e) th'); try lra.
  destruct (Rle_dec th (a_e - a_s)), (Rle_dec th' (a_e - a_s)); try lra.
  pose proof PI_RGT_0 as PP. assert (Q : 0 < PI * (a_s * a_s)) by (apply Rmult_lt_0_compat; nra).
  destruct (Rle_dec th (a_s - a_e)), (Rle_dec th' (a_s - a_e)); try lra.
  - assert (B : lens a_s a_e th' < PI * (a_e * a_e)) by (rewrite lens_sym; apply lens_bounds; [assumption|assumption|apply Rabs_def1; lra|lra]).
    assert (lens a_s a_e th' / (PI * (a_s * a_s)) <= (a_e / a_s) ^ 2); [|lra].
    apply (Rmult_le_reg_r (PI * (a_s * a_s))); [exact Q|]. unfold Rdiv at 1. rewrite Rmult_assoc, Rinv_l, Rmult_1_r by lra.
    replace ((a_e / a_s) ^ 2 * (PI * (a_s * a_s))) with (PI * (a_e * a_e)) by (field; lra). lra.
  - assert (B : lens a_s a_e th' < lens a_s a_e th) by (apply lens_decreasing; [assumption|assumption|apply Rabs_def1; lra|lra|lra]).
    assert (lens a_s a_e th' / (PI * (a_s * a_s)) <= lens a_s a_e th / (PI * (a_s * a_s))); [|lra].
    unfold Rdiv. apply Rmult_le_compat_r; [left; now apply Rinv_0_lt_compat|lra].
Qed.
Theorem C100_penumbra a_s a_e th th' : 0 < a_s -> 0 < a_e -> Rabs (a_s - a_e) < th -> th < th' -> th' < a_s + a_e ->
  0 < uncovered a_s a_e th < uncovered a_s a_e th' /\ uncovered a_s a_e th' < 1.
Proof.
  intros S' E A L B. pose proof PI_RGT_0 as PP. assert (Q : 0 < PI * (a_s * a_s)) by (apply Rmult_lt_0_compat; nra).
  assert (K : a_e - a_s < th /\ a_s - a_e < th) by (unfold Rabs in A; destruct (Rcase_abs (a_s - a_e)); lra).
  pose proof (lens_bounds a_s a_e th S' E A ltac:(lra)) as L1. pose proof (lens_bounds a_s a_e th' S' E ltac:(lra) B) as L2. pose proof (lens_decreasing a_s a_e th th' S' E A L B) as L3.
  unfold uncovered. destruct (Rle_dec (a_s + a_e) th), (Rle_dec th (a_e - a_s)), (Rle_dec th (a_s - a_e)), (Rle_dec (a_s + a_e) th'), (Rle_dec th' (a_e - a_s)), (Rle_dec th' (a_s - a_e)); try lra.
  assert (I : 0 < / (PI * (a_s * a_s))) by now apply Rinv_0_lt_compat. unfold Rdiv.
  assert (lens a_s a_e th * / (PI * (a_s * a_s)) < 1). { apply (Rmult_lt_reg_r (PI * (a_s * a_s))); [exact Q|]. rewrite Rmult_assoc, Rinv_l by lra. lra. }
  assert (lens a_s a_e th' * / (PI * (a_s * a_s)) < lens a_s a_e th * / (PI * (a_s * a_s))) by (apply Rmult_lt_compat_r; lra).
  assert (0 < lens a_s a_e th' * / (PI * (a_s * a_s))) by (apply Rmult_lt_0_compat; lra). lra.
Qed.
(** no jump at the three contacts: the overlap formula agrees with its neighbours there *)
Lemma acos_m1 : acos (-1) = PI. Proof. replace (-1) with (- (1)) by ring; rewrite acos_opp, acos_1. ring. Qed.
Theorem C100_contacts a_s a_e : 0 < a_s -> 0 < a_e ->
  partial_factor a_s a_e (a_s + a_e) = 1 /\ (a_s < a_e -> partial_factor a_s a_e (a_e - a_s) = 0) /\ (a_e < a_s -> partial_factor a_s a_e (a_s - a_e) = 1 - (a_e / a_s) ^ 2).
Proof.
  intros S' E. pose proof PI_RGT_0 as PP. unfold partial_factor. cbv zeta. split; [|split].
  - replace ((((a_s + a_e) * (a_s + a_e) + a_s * a_s - a_e * a_e) / (2 * (a_s + a_e))) / a_s) with 1 by (field; lra).
    replace ((((a_s + a_e) * (a_s + a_e) + a_e * a_e - a_s * a_s) / (2 * (a_s + a_e))) / a_e) with 1 by (field; lra).
    rewrite !(clamp_id (-1) 1) by lra. rewrite acos_1. replace (_ * (a_s + a_e - (a_s + a_e)) * _ * _) with 0 by ring. rewrite Rmax_left by lra. rewrite sqrt_0.
    replace ((a_s * a_s * 0 + a_e * a_e * 0 - 0 / 2) / (PI * a_s * a_s)) with 0 by (field; lra). rewrite clamp_id; lra.
  - intros L. replace ((((a_e - a_s) * (a_e - a_s) + a_s * a_s - a_e * a_e) / (2 * (a_e - a_s))) / a_s) with (-1) by (field; lra).
    replace ((((a_e - a_s) * (a_e - a_s) + a_e * a_e - a_s * a_s) / (2 * (a_e - a_s))) / a_e) with 1 by (field; lra).
    rewrite !(clamp_id (-1) 1) by lra. rewrite acos_1, acos_m1. replace (_ * _ * (a_e - a_s + a_s - a_e) * _) with 0 by ring. rewrite Rmax_left by lra. rewrite sqrt_0.
    replace ((a_s * a_s * PI + a_e * a_e * 0 - 0 / 2) / (PI * a_s * a_s)) with 1 by (field; lra). rewrite clamp_id; lra.
  - intros L. replace ((((a_s - a_e) * (a_s - a_e) + a_s * a_s - a_e * a_e) / (2 * (a_s - a_e))) / a_s) with 1 by (field; lra).
    replace ((((a_s - a_e) * (a_s - a_e) + a_e * a_e - a_s * a_s) / (2 * (a_s - a_e))) / a_e) with (-1) by (field; lra).
    rewrite !(clamp_id (-1) 1) by lra. rewrite acos_1, acos_m1. replace (_ * _ * _ * (a_s - a_e - a_s + a_e)) with 0 by ring. rewrite Rmax_left by lra. rewrite sqrt_0.
    replace ((a_s * a_s * 0 + a_e * a_e * PI - 0 / 2) / (PI * a_s * a_s)) with ((a_e / a_s) ^ 2) by (field; lra). apply clamp_id.
    assert (0 < a_e / a_s < 1). { split; [now apply Rdiv_lt_0_compat|]. apply (Rmult_lt_reg_r a_s); [assumption|]. unfold Rdiv. rewrite Rmult_assoc, Rinv_l by lra. lra. }
    split; nra.
Qed.
(** the pressure pushes away from the Sun and falls off with the square of the distance *)
Theorem C100_pressure cr am shadow sat sun : sat <> sun -> let d := norm (vminus sat sun) in
  srp cr am shadow sat sun = scale (shadow sat sun * cr * p0 * (au / d) ^ 2 * am / 1000 * / d) (vminus sat sun) /\
  (0 <= shadow sat sun -> 0 <= cr -> 0 <= am -> norm (srp cr am shadow sat sun) = shadow sat sun * cr * p0 * (au / d) ^ 2 * am / 1000).
Proof.
  intros N d. assert (D : 0 < d). { apply norm_pos. intros E. apply N. now apply vminus_zero. }
  assert (Q : srp cr am shadow sat sun = scale (shadow sat sun * cr * p0 * (au / d) ^ 2 * am / 1000 * / d) (vminus sat sun)).
  { unfold srp. cbv zeta. fold d. destruct (reqb_r d 0); [lra|]. destruct (vminus sat sun) as ((x, y), z). cbn [scale]. apply vec_eq; field; lra. }
  split; [exact Q|]. intros P C A. rewrite Q. set (k := shadow sat sun * cr * p0 * (au / d) ^ 2 * am / 1000).
  assert (K : 0 <= k). { unfold k. assert (0 <= p0) by (unfold p0; lra). assert (0 <= (au / d) ^ 2) by apply pow2_ge_0. set (q := (au / d) ^ 2) in *. clearbody q. set (p := p0) in *. clearbody p. unfold Rdiv. repeat apply Rmult_le_pos; try assumption; lra. }
  clearbody k. assert (H : norm (scale (k * / d) (vminus sat sun)) = k * / d * d).
  { unfold norm. replace (dot3 _ _) with ((k * / d) * (k * / d) * (d * d)). 2: { unfold d. rewrite norm_sq. destruct (vminus sat sun) as ((x, y), z). cbn. ring. }
    replace (k * / d * (k * / d) * (d * d)) with (k * / d * d * (k * / d * d)) by ring. apply sqrt_square. assert (0 < / d) by now apply Rinv_0_lt_compat. repeat apply Rmult_le_pos; lra. }
  rewrite H. field. lra.
Qed.
Theorem C100_dark cr am shadow sat sun : shadow sat sun = 0 -> srp cr am shadow sat sun = (0, 0, 0).
Proof. intros Z. unfold srp. cbv zeta. destruct (reqb (norm (vminus sat sun)) 0); [reflexivity|]. rewrite Z. destruct (vminus sat sun) as ((x, y), z). apply vec_eq; unfold Rdiv; ring. Qed.
(** behind the Earth on the Sun line it is dark; in front of it, light *)
Example C100_case : cylindrical_eclipse (-7000, 0, 0) (au, 0, 0) = 0 /\ cylindrical_eclipse (7000, 0, 0) (au, 0, 0) = 1 /\ cylindrical_eclipse (-7000, 6400, 0) (au, 0, 0) = 1 /\
  Rabs (0.005 - 1) < 0.998 /\ 0.998 < 1.001 /\ 1.001 < 0.005 + 1.
Proof.
  assert (N : norm (au, 0, 0) = au). { unfold norm, au. cbn. replace (_ + _) with (149597870.7 * 149597870.7) by ring. apply sqrt_square; lra. }
  assert (S' : (au, 0, 0) <> (0, 0, 0)) by (intros E; injection E; unfold au; lra).
  unfold cylindrical_eclipse. rewrite !C100_cylinder by (try assumption; unfold r_earth; lra). rewrite N.
  split; [|split; [|split; [|repeat split; [|lra|lra]; apply Rabs_def1; lra]]].
  - destruct (Rlt_dec _ 0) as [_|K]; [|exfalso; apply K; cbn; unfold au; lra]. destruct (Rlt_dec (norm _) _) as [_|K]; [reflexivity|exfalso; apply K].
    cbn. replace (norm _) with 0. 2: { unfold norm. cbn. replace (_ + _) with 0 by ring. symmetry. apply sqrt_0. } unfold r_earth, au. lra.
  - destruct (Rlt_dec _ 0) as [K|_]; [|reflexivity]. cbn in K. unfold au in K. lra.
  - destruct (Rlt_dec _ 0) as [_|K]; [|exfalso; apply K; cbn; unfold au; lra]. destruct (Rlt_dec (norm _) _) as [K|_]; [exfalso|reflexivity].
    cbn in K. replace (norm _) with (6400 * au) in K. 2: { symmetry. unfold norm. cbn. replace (_ + _) with ((6400 * au) * (6400 * au)) by ring. apply sqrt_square. unfold au. lra. }
    unfold r_earth, au in K. lra.
Qed.

(** * C101 Drag and density *)
(** with the spin axis along z, the drag is along minus the velocity relative to the turning air, and takes energy from it *)
Theorem C101_drag cd am oz density pos vel acc : drag cd am (0, 0, oz) density pos vel = Ok acc -> let rel := vminus vel (cross (0, 0, oz) pos) in
  exists rho, density (geodetic_altitude r_earth wgs84_f pos) = Ok rho /\ acc = scale (- (1 / 2 * cd * am * rho * (1000 * norm rel))) rel /\
    (0 <= cd -> 0 <= am -> 0 <= rho -> dot3 acc rel <= 0).
Proof.
  intros H rel. unfold drag in H. cbv zeta in H. destruct (rltb _ 0); [discriminate|]. destruct (density _) as [rho| |] eqn:D; try discriminate.
  exists rho. split; [reflexivity|]. destruct pos as ((rx, ry), rz), vel as ((ux, uy), uz).
  assert (Nr : norm rel = sqrt ((ux - - oz * ry) * (ux - - oz * ry) + (uy - oz * rx) * (uy - oz * rx) + uz * uz)). { unfold norm, rel. f_equal. cbn. ring. }
  rewrite <- Nr in H. pose proof (norm_nonneg rel) as Np. pose proof (dot_nonneg rel) as Dp. set (n := norm rel) in *. clearbody n.
  assert (A : acc = scale (- (1 / 2 * cd * am * rho * (1000 * n))) rel). { apply (f_equal (fun o => match o with Ok v => v | _ => acc end)) in H. rewrite <- H. unfold rel. cbn. apply vec_eq; lra. }
  split; [exact A|]. intros C M Q. rewrite A, dot_scale. assert (0 <= 1 / 2 * cd * am * rho * (1000 * n)) by (repeat apply Rmult_le_pos; lra). nra.
Qed.
Theorem C101_corotating cd am oz density pos acc : drag cd am (0, 0, oz) density pos (cross (0, 0, oz) pos) = Ok acc -> acc = (0, 0, 0).
Proof. intros H. destruct (C101_drag _ _ _ _ _ _ _ H) as (rho & _ & -> & _). rewrite vminus_self. cbn. apply vec_eq; ring. Qed.
Theorem C101_error cd am omega density pos vel : let h := geodetic_altitude r_earth wgs84_f pos in
  (h < 0 -> drag cd am omega density pos vel = Err (AltitudeBelowSurface h)) /\
  (0 <= h -> forall e, density h = Err e -> drag cd am omega density pos vel = Err e) /\
  (0 <= h -> forall rho, density h = Ok rho -> exists acc, drag cd am omega density pos vel = Ok acc).
Proof.
  cbv zeta. unfold drag. cbv zeta. destruct (rltb_r (geodetic_altitude r_earth wgs84_f pos) 0); repeat split; try lra; try reflexivity.
  - intros _ e ->. reflexivity.
  - intros _ rho ->. destruct pos as ((a, b), c), omega as ((d, e), f), vel as ((g, h), i). eexists. reflexivity.
Qed.
(** the x and y components of the public field are never read, so air turning about any other axis still drags *)
Theorem C101_omega_ignored cd am ox oy oz density pos vel : drag cd am (ox, oy, oz) density pos vel = drag cd am (0, 0, oz) density pos vel.
Proof. destruct pos as ((a, b), c), vel as ((g, h), i). reflexivity. Qed.
Lemma wgs84_range : 0 <= wgs84_f < 1. Proof. unfold wgs84_f. lra. Qed.
Lemma equator_altitude x lon : r_earth <= x -> geodetic_altitude r_earth wgs84_f (x * cos lon, x * sin lon, 0) = x - r_earth.
Proof.
  intros H. pose proof wgs84_range as F. assert (E0 : east_radius r_earth wgs84_f 0 = r_earth).
  { unfold east_radius, w. rewrite sin_0. replace (1 - _ * 0 * 0) with 1 by ring. rewrite sqrt_1. field. }
  pose proof (height_exact r_earth wgs84_f lon 0 (x - r_earth)) as Q. unfold geodetic_point, axis_distance, above_equator in Q. rewrite E0, sin_0, cos_0 in Q.
  replace (r_earth + (x - r_earth)) with x in Q by ring. rewrite Rmult_1_r, Rmult_0_r in Q. pose proof PI_RGT_0. apply Q; [unfold r_earth; lra|exact F|lra| |auto].
  assert (0 < r_earth) by (unfold r_earth; lra). assert (0 < 1 - (2 * wgs84_f - wgs84_f * wgs84_f)) by nra. assert (0 < r_earth * (1 - (2 * wgs84_f - wgs84_f * wgs84_f))) by now apply Rmult_lt_0_compat. lra.
Qed.
Theorem C101_omega_refuted : exists cd am omega rho pos acc, 0 < cd /\ 0 < am /\ 0 < rho /\ drag cd am omega (constant_density rho) pos (cross omega pos) = Ok acc /\ acc <> (0, 0, 0).
Proof.
  exists 2, 1, (1, 0, 0), 1, (0, 7000, 0). 
  assert (G : geodetic_altitude r_earth wgs84_f (0, 7000, 0) = 7000 - r_earth).
  { rewrite <- (equator_altitude 7000 (PI / 2)) by (unfold r_earth; lra). rewrite cos_PI2, sin_PI2, Rmult_0_r, Rmult_1_r. reflexivity. }
  unfold drag. cbv zeta. rewrite G. destruct (rltb_r (7000 - r_earth) 0) as [L|_]; [unfold r_earth in L; lra|].
  cbn [constant_density cross]. eexists. repeat split; [lra|lra|lra|]. intros E. apply (f_equal snd) in E. cbn [snd] in E.
  replace (sqrt _) with 7000 in E; [lra|]. symmetry. replace (_ + _) with (7000 * 7000) by ring. apply sqrt_square. lra.
Qed.
(** exponential model: positive, falling, the reference value at the reference height, 1/e per scale height *)
Theorem C101_exponential rho0 h0 hs h : 0 < rho0 -> 0 < hs -> 0 <= h -> exists rho, exponential rho0 h0 hs h = Ok rho /\ 0 < rho /\
  (h = h0 -> rho = rho0) /\ exponential rho0 h0 hs (h + hs) = Ok (rho / exp 1) /\
  (forall h', h < h' -> exists rho', exponential rho0 h0 hs h' = Ok rho' /\ rho' < rho).
Proof.
  intros R S' H. unfold exponential. destruct (rltb_r h 0); [lra|]. exists (rho0 * exp (- (h - h0) / hs)). repeat split.
  - apply Rmult_lt_0_compat; [exact R|apply exp_pos].
  - intros ->. replace (- (h0 - h0) / hs) with 0 by (field; lra). rewrite exp_0. ring.
  - destruct (rltb_r (h + hs) 0); [lra|]. f_equal. replace (- (h + hs - h0) / hs) with (- (h - h0) / hs + - (1)) by (field; lra). rewrite exp_plus, exp_Ropp. pose proof (exp_pos 1). field. lra.
  - intros h' L. destruct (rltb_r h' 0); [lra|]. eexists. split; [reflexivity|]. apply Rmult_lt_compat_l; [exact R|]. apply exp_increasing.
    apply (Rmult_lt_reg_r hs); [exact S'|]. unfold Rdiv. rewrite !Rmult_assoc, Rinv_l by lra. lra.
Qed.
Theorem C101_below rho0 h0 hs table h : h < 0 -> exponential rho0 h0 hs h = Err (AltitudeBelowSurface h) /\ nrlmsise table h = Err (AltitudeBelowSurface h).
Proof. intros H. unfold exponential, nrlmsise. destruct (rltb_r h 0); [auto|lra]. Qed.
(** the constant model does not: it answers at any height *)
Theorem C101_constant_refuted rho h : constant_density rho h = Ok rho.
Proof. reflexivity. Qed.
(** table model, for any table of at least two rows with rising heights and falling positive densities *)
Theorem C101_table table : falling table -> (2 <= length table)%nat ->
  (forall h r, In (h, r) table -> interpolate table h = r) /\ (forall h, 0 < interpolate table h) /\ (forall h h', h <= h' -> interpolate table h' <= interpolate table h).
Proof. intros F L. repeat split; intros; [now apply interpolate_node|now apply interpolate_pos|now apply interpolate_anti]. Qed.
(** between two rows the logarithm of the density is linear in the height *)
Theorem C101_log_linear pre h1 r1 h2 r2 post t : falling (pre ++ (h1, r1) :: (h2, r2) :: post) -> 0 <= t <= 1 ->
  ln (interpolate (pre ++ (h1, r1) :: (h2, r2) :: post) (h1 + t * (h2 - h1))) = (1 - t) * ln r1 + t * ln r2.
Proof.
  intros F T. pose proof (falling_tail _ _ _ F) as F1. destruct (falling_inv _ _ _ _ _ F1) as (Hh & Hr & F2). pose proof (falling_pos _ _ _ F2) as P2.
  set (h := h1 + t * (h2 - h1)). assert (Hb : h1 <= h <= h2) by (unfold h; nra).
  assert (L2 : (2 <= length (pre ++ (h1, r1) :: (h2, r2) :: post))%nat) by (rewrite app_length; cbn; lia).
  assert (B : forall q x y, q = bracket (h1, r1) (h2, r2) h -> x = y -> ln q = (1 - t) * ln r1 + t * ln r2 + (x - y)).
  { intros q x y -> ->. unfold bracket. rewrite ln_exp. unfold h. replace ((h1 + t * (h2 - h1) - h1) / (h2 - h1)) with t by (field; lra). ring. }
  enough (Q : interpolate (pre ++ (h1, r1) :: (h2, r2) :: post) h = bracket (h1, r1) (h2, r2) h) by (rewrite (B _ 0 0 Q eq_refl); ring).
  destruct (Req_dec h h1) as [E1|N1].
  { rewrite E1. rewrite bracket_left by lra. apply interpolate_node; [exact F|exact L2|]. apply in_or_app. right. now left. }
  destruct (Req_dec h h2) as [E2|N2].
  { rewrite E2. rewrite bracket_right by lra. apply interpolate_node; [exact F|exact L2|]. apply in_or_app. right. right. now left. }
  assert (Sc : forall p a, falling (p ++ (h1, r1) :: (h2, r2) :: post) -> a = p ++ (h1, r1) :: (h2, r2) :: post -> scan a h = bracket (h1, r1) (h2, r2) h).
  { induction p as [|(k, v) p IH]; intros a Fp ->.
    - cbn [app]. rewrite scan_cons. destruct (rleb_r h1 h); [|lra]. destruct (rleb_r h h2); [|lra]. reflexivity.
    - change (((k, v) :: p) ++ (h1, r1) :: (h2, r2) :: post) with ((k, v) :: (p ++ (h1, r1) :: (h2, r2) :: post)) in *.
      destruct (p ++ (h1, r1) :: (h2, r2) :: post) as [|(k2, v2) rest] eqn:Q; [destruct p; discriminate|]. destruct (falling_inv _ _ _ _ _ Fp) as (A & _ & C).
      rewrite scan_cons. assert (K : k2 <= h1). { apply (falling_least rest k2 v2 h1 r1 C). rewrite <- Q. apply in_or_app. right. now left. }
      destruct (rleb_r k h), (rleb_r h k2); cbn [andb]; try lra; apply IH; auto. }
  unfold interpolate. destruct (pre ++ (h1, r1) :: (h2, r2) :: post) as [|(k0, v0) rest] eqn:Q; [destruct pre; discriminate|].
  destruct (rev ((k0, v0) :: rest)) as [|(hn, rn) [|(hm, rm) more]] eqn:Rv.
  - apply (f_equal (@length _)) in Rv. rewrite rev_length in Rv. cbn in *; lia.
  - apply (f_equal (@length _)) in Rv. rewrite rev_length in Rv. cbn in *; lia.
  - assert (K0 : k0 <= h1). { apply (falling_least rest k0 v0 h1 r1 F). rewrite <- Q. apply in_or_app. right. now left. }
    destruct (rleb_r h k0); [lra|]. assert (Kn : h2 <= hn).
    { assert (In (hn, rn) ((h2, r2) :: post)). { assert (Z : rev ((k0, v0) :: rest) = (hn, rn) :: (hm, rm) :: more) by exact Rv. rewrite <- Q in Z. rewrite rev_app_distr in Z. cbn [rev] in Z.
        destruct (rev post) as [|e l] eqn:Pq.
        - cbn in Z. injection Z as <- <- _. left; reflexivity.
        - cbn in Z. injection Z as -> _. right. rewrite <- (rev_involutive post), Pq. apply in_rev. rewrite rev_involutive. now left. }
      apply (falling_least post h2 r2 hn rn F2 H). }
    destruct (rleb_r hn h); [lra|]. apply (Sc pre); [rewrite Q; exact F|now rewrite Q].
Qed.
(** geodetic height: the true reduced latitude is a fixed point of the iteration, and any fixed point is the truth *)
Theorem C101_height_fixed a f phi h : 0 < a -> 0 <= f < 1 -> - PI / 2 <= phi <= PI / 2 -> 0 < north_radius a f phi + h ->
  let beta := atan2 ((1 - f) * sin phi) (cos phi) in
  bowring_step a f (axis_distance a f phi h) (above_equator a f phi h) beta = beta /\ bowring_phi a f (axis_distance a f phi h) (above_equator a f phi h) beta = phi.
Proof. intros A F B K beta. destruct (bowring_exact a f A F phi h B K) as (P & Q). split; assumption. Qed.
Theorem C101_height_only a f p z beta : 0 < a -> 0 <= f < 1 -> bowring_step a f p z beta = beta -> let phi := bowring_phi a f p z beta in - PI / 2 <= phi <= PI / 2 ->
  (p - (2 * f - f * f) * a * cos beta ^ 3 <> 0 \/ z + (a * a - a * (1 - f) * (a * (1 - f))) / (a * (1 - f) * (a * (1 - f))) * (a * (1 - f)) * sin beta ^ 3 <> 0) ->
  exists h, p = axis_distance a f phi h /\ z = above_equator a f phi h.
Proof. intros A F S' phi B N. now apply (bowring_converged a f A F). Qed.
(** hence the height is exact on the ellipsoid, over the equator and over the poles *)
Theorem C101_height_exact a f lon phi h : 0 < a -> 0 <= f < 1 -> - PI / 2 <= phi <= PI / 2 -> 0 < east_radius a f phi * (1 - (2 * f - f * f)) + h ->
  h = 0 \/ phi = 0 \/ cos phi = 0 -> geodetic_altitude a f (geodetic_point a f lon phi h) = h.
Proof. apply height_exact. Qed.
Example C101_case : falling [(100, 5); (200, 3); (400, 1)] /\ interpolate [(100, 5); (200, 3); (400, 1)] 200 = 3 /\
  (exists acc, drag 2 1 (0, 0, 1) (constant_density 1) (7000, 0, 0) (0, 0, 8) = Ok acc) /\ geodetic_altitude r_earth wgs84_f (7000, 0, 0) = 7000 - r_earth.
Proof.
  assert (F : falling [(100, 5); (200, 3); (400, 1)]) by (repeat constructor; lra).
  assert (G : geodetic_altitude r_earth wgs84_f (7000, 0, 0) = 7000 - r_earth).
  { rewrite <- (equator_altitude 7000 0) by (unfold r_earth; lra). rewrite cos_0, sin_0, Rmult_0_r, Rmult_1_r. reflexivity. }
  repeat split; [exact F| | |exact G].
  - apply interpolate_node; [exact F|cbn; lia|cbn; auto].
  - apply (proj2 (proj2 (C101_error 2 1 (0, 0, 1) (constant_density 1) (7000, 0, 0) (0, 0, 8))) ltac:(rewrite G; unfold r_earth; lra) 1 eq_refl).
Qed.

(** * C102 Relativity and empirical accelerations *)
Theorem C102_relativity_error gm c pos vel : (norm pos < 100 -> relativity gm c pos vel = Err DegenerateGeometry) /\ (100 <= norm pos -> exists acc, relativity gm c pos vel = Ok acc).
Proof.
  unfold relativity, norm, degenerate_radius. destruct pos as ((x, y), z), vel as ((a, b), d). cbn [dot3]. cbv zeta.
  destruct (rltb_r (sqrt (x * x + y * y + z * z)) 100); split; try lra; try reflexivity. intros _. eexists. reflexivity.
Qed.
(** the Schwarzschild term of the IERS conventions with beta = gamma = 1 *)
Theorem C102_schwarzschild gm c pos vel acc : c <> 0 -> relativity gm c pos vel = Ok acc ->
  acc = scale (gm / (c ^ 2 * norm pos ^ 3)) (vplus (scale (4 * gm / norm pos - dot3 vel vel) pos) (scale (4 * dot3 pos vel) vel)).
Proof.
  intros C H. assert (Sq := norm_sq pos). unfold relativity in H. destruct pos as ((x, y), z), vel as ((a, b), d). cbn [dot3] in *. cbv zeta in H.
  set (n := norm (x, y, z)) in *. change (sqrt (x * x + y * y + z * z)) with n in H. rewrite <- Sq in H. destruct (rltb_r n degenerate_radius) as [L|L]; [discriminate|].
  unfold degenerate_radius in L. apply (f_equal (fun o => match o with Ok v => v | _ => acc end)) in H. rewrite <- H. cbn [scale vplus].
  clearbody n. replace (n ^ 3) with (n * n * n) by ring. apply vec_eq; ring.
Qed.
(** it stays in the orbit plane, does not see the sense of motion, and on a circular orbit points outwards *)
Theorem C102_plane gm c pos vel acc : c <> 0 -> relativity gm c pos vel = Ok acc -> dot3 acc (cross pos vel) = 0.
Proof. intros C H. rewrite (C102_schwarzschild _ _ _ _ _ C H). destruct pos as ((x, y), z), vel as ((a, b), d). cbn. ring. Qed.
Theorem C102_reversal gm c pos vel : relativity gm c pos (scale (-1) vel) = relativity gm c pos vel.
Proof.
  unfold relativity. destruct pos as ((x, y), z), vel as ((a, b), d). cbn [scale]. cbv zeta.
  destruct (rltb _ _); [reflexivity|]. f_equal. replace (-1 * a * (-1 * a) + -1 * b * (-1 * b) + -1 * d * (-1 * d)) with (a * a + b * b + d * d) by ring. apply vec_eq; ring.
Qed.
Theorem C102_circular gm c pos vel acc : c <> 0 -> relativity gm c pos vel = Ok acc -> dot3 pos vel = 0 -> dot3 vel vel = gm / norm pos ->
  acc = scale (3 * gm ^ 2 / (c ^ 2 * norm pos ^ 4)) pos.
Proof.
  intros C H O V. assert (P : norm pos <> 0). { intros Z. destruct (C102_relativity_error gm c pos vel) as (E & _). rewrite E in H by lra. discriminate. }
  rewrite (C102_schwarzschild _ _ _ _ _ C H), O, V. set (n := norm pos) in *. clearbody n. destruct pos as ((x, y), z), vel as ((a, b), d). cbn. apply vec_eq; field; auto.
Qed.
(** empirical acceleration: an error exactly when position and velocity span no plane *)
Lemma cross_norm_zero pos vel : cross pos vel = (0, 0, 0) <-> norm (cross pos vel) = 0.
Proof. split; [intros ->; unfold norm; cbn; replace (_ + _) with 0 by ring; apply sqrt_0|apply norm_zero]. Qed.
Theorem C102_empirical_error ar at_ an pos vel : (cross pos vel = (0, 0, 0) -> empirical ar at_ an pos vel = Err DegenerateGeometry) /\
  (cross pos vel <> (0, 0, 0) -> exists acc, empirical ar at_ an pos vel = Ok acc).
Proof.
  unfold empirical. cbv zeta. split; intros H.
  - destruct (reqb (norm pos) 0); [reflexivity|]. apply cross_norm_zero in H. rewrite H. destruct (reqb_r 0 0); [reflexivity|contradiction].
  - destruct (reqb_r (norm pos) 0) as [Z|N]. { exfalso. apply H. apply norm_zero in Z. subst. destruct vel as ((a, b), d). cbn. apply vec_eq; ring. }
    destruct (reqb_r (norm (cross pos vel)) 0) as [Z|M]; [exfalso; apply H; now apply norm_zero|]. eexists. reflexivity.
Qed.
(** its three parts lie along the radius, along the in-plane direction of motion and along the orbit normal *)
Theorem C102_components ar at_ an pos vel acc : empirical ar at_ an pos vel = Ok acc ->
  let n := cross pos vel in let t := cross n pos in
  dot3 acc pos = ar * norm pos /\ dot3 acc n = an * norm n /\ dot3 acc t = at_ * norm t /\ 0 < dot3 t vel /\ dot3 acc acc = ar * ar + at_ * at_ + an * an.
Proof.
  intros H n t. unfold empirical in H. cbv zeta in H. fold n in H. destruct (reqb_r (norm pos) 0) as [Z|P]; [discriminate|]. destruct (reqb_r (norm n) 0) as [Z|N]; [discriminate|].
  apply (f_equal (fun o => match o with Ok v => v | _ => acc end)) in H.
  pose proof (norm_nonneg pos). pose proof (norm_nonneg n). pose proof (norm_sq pos) as Sp. pose proof (norm_sq n) as Sn.
  assert (O : dot3 n pos = 0) by (unfold n; destruct pos as ((x, y), z), vel as ((a, b), d); cbn; ring).
  assert (Nt : norm t = norm n * norm pos).
  { unfold norm at 1. replace (dot3 t t) with (norm n * norm pos * (norm n * norm pos)); [apply sqrt_square; nra|].
    transitivity (dot3 n n * dot3 pos pos - dot3 n pos * dot3 n pos); [rewrite O, <- Sp, <- Sn; ring|]. unfold t. clear. destruct n as ((x, y), z), pos as ((a, b), d). cbn. ring. }
  rewrite Nt. assert (Tv : dot3 t vel = dot3 n n) by (unfold t, n; destruct pos as ((x, y), z), vel as ((a, b), d); cbn; ring).
  rewrite Tv, <- Sn. set (p := norm pos) in *. set (m := norm n) in *. 
  assert (E : acc = vplus (vplus (scale (ar / p) pos) (scale (at_ / (m * p)) t)) (scale (an / m) n)).
  { rewrite <- H. unfold t. clear -P N. clearbody p m n. destruct n as ((x, y), z), pos as ((a, b), d). cbn. apply vec_eq; field; auto. }
  assert (Tp : dot3 t pos = 0) by (unfold t; clear; destruct n as ((x, y), z), pos as ((a, b), d); cbn; ring).
  assert (Tn : dot3 t n = 0) by (unfold t; clear; destruct n as ((x, y), z), pos as ((a, b), d); cbn; ring).
  assert (Tt : dot3 t t = m * m * (p * p)). { transitivity (dot3 n n * dot3 pos pos - dot3 n pos * dot3 n pos); [unfold t; clear; destruct n as ((x, y), z), pos as ((a, b), d); cbn; ring|rewrite O, <- Sp, <- Sn; ring]. }
  assert (On : dot3 pos n = 0) by (rewrite dot_comm; exact O).
  assert (Dp : dot3 acc pos = ar * p) by (rewrite E, !dot_plus, !dot_scale, Tp, O, <- Sp; field; auto).
  assert (Dn : dot3 acc n = an * m) by (rewrite E, !dot_plus, !dot_scale, Tn, On, <- Sn; field; auto).
  assert (Dt : dot3 acc t = at_ * (m * p)) by (rewrite E, !dot_plus, !dot_scale, (dot_comm pos t), (dot_comm n t), Tp, Tn, Tt; field; auto).
  repeat split; [exact Dp|exact Dn|exact Dt|nra|].
  rewrite E at 1. rewrite !dot_plus, !dot_scale, (dot_comm pos acc), (dot_comm t acc), (dot_comm n acc), Dp, Dn, Dt. field. auto.
Qed.
(** periodic terms: back after a period, reversed after half of one (once per revolution), constant without one *)
Lemma phase_shift h e0 period epoch k : 0 < period -> phase h e0 period (epoch + k * (period / 86400)) = phase h e0 period epoch + multiplier h * (2 * PI * k).
Proof. intros P. unfold phase. cbv zeta. destruct (rleb_r period 0); [lra|]. field. lra. Qed.
Theorem C102_period h e0 period rc rs tc ts nc ns epoch pos vel (k : Z) : 0 < period ->
  empirical_periodic h e0 period rc rs tc ts nc ns (epoch + IZR k * (period / 86400)) pos vel = empirical_periodic h e0 period rc rs tc ts nc ns epoch pos vel.
Proof.
  intros P. unfold empirical_periodic. cbv zeta. rewrite phase_shift by exact P. set (th := phase h e0 period epoch).
  assert (C : cos (th + multiplier h * (2 * PI * IZR k)) = cos th /\ sin (th + multiplier h * (2 * PI * IZR k)) = sin th).
  { destruct h; cbn [multiplier].
    - replace (th + 1 * (2 * PI * IZR k)) with (th + 2 * PI * IZR k) by ring. split; [apply cos_turns|apply sin_turns].
    - replace (th + 2 * (2 * PI * IZR k)) with (th + 2 * PI * IZR (2 * k)) by (rewrite mult_IZR; ring). split; [apply cos_turns|apply sin_turns]. }
  destruct C as (-> & ->). reflexivity.
Qed.
Theorem C102_half_period h e0 period rc rs tc ts nc ns epoch pos vel acc : 0 < period -> empirical_periodic h e0 period rc rs tc ts nc ns epoch pos vel = Ok acc ->
  empirical_periodic h e0 period rc rs tc ts nc ns (epoch + 1 / 2 * (period / 86400)) pos vel = Ok (match h with OncePerRev => scale (-1) acc | TwicePerRev => acc end).
Proof.
  intros P H. unfold empirical_periodic in *. cbv zeta in *. rewrite phase_shift by exact P. set (th := phase h e0 period epoch) in *. destruct h; cbn [multiplier].
  - replace (th + 1 * (2 * PI * (1 / 2))) with (th + PI) by field. rewrite neg_cos, neg_sin. unfold empirical in *. cbv zeta in *.
    destruct (reqb (norm pos) 0); [discriminate|]. destruct (reqb (norm (cross pos vel)) 0); [discriminate|].
    apply (f_equal (fun o => match o with Ok v => v | _ => acc end)) in H. rewrite <- H. f_equal.
    generalize (cross (scale (/ norm (cross pos vel)) (cross pos vel)) (scale (/ norm pos) pos)). generalize (scale (/ norm (cross pos vel)) (cross pos vel)). generalize (scale (/ norm pos) pos).
    intros ((a, b), c) ((d, e), f) ((g, i), j). cbn. apply vec_eq; ring.
  - replace (th + 2 * (2 * PI * (1 / 2))) with (th + 2 * PI * IZR 1) by field. now rewrite cos_turns, sin_turns.
Qed.
(** between two constant accelerations: that of the cosine terms at the reference epoch, that of the sine terms a quarter turn later *)
Theorem C102_profile h e0 period rc rs tc ts nc ns epoch pos vel ac as_ : 0 < period -> empirical rc tc nc pos vel = Ok ac -> empirical rs ts ns pos vel = Ok as_ ->
  let turns := (match h with OncePerRev => 1 | TwicePerRev => 2 end) * ((epoch - e0) * 86400 / period) in
  empirical_periodic h e0 period rc rs tc ts nc ns epoch pos vel = Ok (vplus (scale (cos (2 * PI * turns)) ac) (scale (sin (2 * PI * turns)) as_)).
Proof.
  intros P A B turns. unfold empirical_periodic. cbv zeta. replace (phase h e0 period epoch) with (2 * PI * turns).
  2: { unfold phase, turns. cbv zeta. destruct (rleb_r period 0); [lra|]. destruct h; cbn [multiplier]; field; lra. }
  generalize (cos (2 * PI * turns)) (sin (2 * PI * turns)). intros c s. unfold empirical in *. cbv zeta in *.
  destruct (reqb (norm pos) 0); [discriminate|]. destruct (reqb (norm (cross pos vel)) 0); [discriminate|].
  apply (f_equal (fun o => match o with Ok v => v | _ => ac end)) in A. apply (f_equal (fun o => match o with Ok v => v | _ => as_ end)) in B. rewrite <- A, <- B. f_equal.
  generalize (cross (scale (/ norm (cross pos vel)) (cross pos vel)) (scale (/ norm pos) pos)). generalize (scale (/ norm (cross pos vel)) (cross pos vel)). generalize (scale (/ norm pos) pos).
  intros ((a, b), z) ((d, e), f) ((g, i), j). cbn. apply vec_eq; ring.
Qed.
Theorem C102_no_period h e0 period rc rs tc ts nc ns epoch pos vel : period <= 0 -> empirical_periodic h e0 period rc rs tc ts nc ns epoch pos vel = empirical rc tc nc pos vel.
Proof. intros P. unfold empirical_periodic, phase. cbv zeta. destruct (rleb_r period 0); [|lra]. rewrite cos_0, sin_0. f_equal; ring. Qed.
Example C102_case : (exists acc, relativity 398600 299792 (7000, 0, 0) (0, 7, 0) = Ok acc) /\ (exists acc, empirical 1 2 3 (7000, 0, 0) (0, 7, 0) = Ok acc) /\
  relativity 398600 299792 (50, 0, 0) (0, 7, 0) = Err DegenerateGeometry /\ empirical 1 2 3 (7000, 0, 0) (7, 0, 0) = Err DegenerateGeometry.
Proof.
  assert (N : forall x, 0 <= x -> norm (x, 0, 0) = x). { intros x H. unfold norm. cbn. replace (_ + _) with (x * x) by ring. now apply sqrt_square. }
  repeat split.
  - apply C102_relativity_error. rewrite N; lra.
  - apply C102_empirical_error. cbn. intros E. injection E. lra.
  - apply C102_relativity_error. rewrite N; lra.
  - apply C102_empirical_error. cbn. apply vec_eq; ring.
Qed.

(** * C103 Thrust ledger *)
(** each record starts from the mass the one before it left *)
Fixpoint chained (m : R) (rs : list record) (last : R) : Prop :=
  match rs with [] => m = last | r :: rest => wet_before r = m /\ chained (m - used r) rest last end.
Definition total (f : record -> R) (rs : list record) : R := fold_right (fun r s => f r + s) 0 rs.
Lemma total_app f a b : total f (a ++ b) = total f a + total f b.
Proof. induction a as [|r a IH]; unfold total in *; cbn [app fold_right]; [ring|]. rewrite IH. ring. Qed.
Lemma chained_app m rs k r : chained m rs k -> wet_before r = k -> chained m (rs ++ [r]) (k - used r).
Proof. revert m. induction rs as [|q rs IH]; cbn; intros m C W; [subst; auto|]. destruct C. split; [assumption|]. now apply IH. Qed.
Lemma append_cases l a : (exists e, append l a = (l, Err e)) \/
  (exists r, append l a = (Log (mass l - used r) (total_dv l + delta_v r) (total_used l + used r) (records l ++ [r]), Ok r) /\
     wet_before r = mass l /\ duration r = stop a - start a /\ used r = thrust a / (isp a * g0) * (stop a - start a) /\ delta_v r = isp a * g0 * ln (mass l / (mass l - used r)) /\
     0 < isp a /\ start a < stop a /\ 0 < mass l - used r).
Proof.
  unfold append, duration_seconds, mass_flow_rate. cbv zeta. destruct (rleb_r (stop a - start a) 0); [left; eexists; reflexivity|]. destruct (rleb_r (isp a) 0); [left; eexists; reflexivity|].
  destruct (rleb_r (mass l - thrust a / (isp a * g0) * (stop a - start a)) 0); [left; eexists; reflexivity|]. right.
  exists (Record_ (mass l) (thrust a / (isp a * g0) * (stop a - start a)) (isp a * g0 * ln (mass l / (mass l - thrust a / (isp a * g0) * (stop a - start a)))) (stop a - start a)).
  split; [reflexivity|]. cbn. repeat split; lra.
Qed.
(** the whole ledger, after any sequence of arcs, refused ones included *)
Theorem C103_ledger m0 l arcs : try_new m0 = Ok l -> let l' := append_all l arcs in
  0 < mass l' /\ mass l' + total_used l' = m0 /\ total_used l' = total used (records l') /\ total_dv l' = total delta_v (records l') /\ chained m0 (records l') (mass l').
Proof.
  intros T. unfold try_new in T. destruct (rleb_r m0 0); [discriminate|]. apply (f_equal (fun o => match o with Ok v => v | _ => l end)) in T. subst l. cbv zeta.
  assert (G : forall arcs l, 0 < mass l -> mass l + total_used l = m0 -> total_used l = total used (records l) -> total_dv l = total delta_v (records l) -> chained m0 (records l) (mass l) ->
    let l' := append_all l arcs in 0 < mass l' /\ mass l' + total_used l' = m0 /\ total_used l' = total used (records l') /\ total_dv l' = total delta_v (records l') /\ chained m0 (records l') (mass l')).
  { clear. induction arcs as [|a arcs IH]; intros l A B C D E; [cbn; auto|]. cbn [append_all]. destruct (append_cases l a) as [(e & Q) | (r & Q & W & _ & _ & _ & _ & _ & P)]; rewrite Q; cbn [fst]; [now apply IH|].
    apply IH; cbn [mass total_used total_dv records]; [lra|lra| | |].
    - rewrite total_app, C. cbn. ring.
    - rewrite total_app, D. cbn. ring.
    - now apply chained_app. }
  apply G; cbn; auto; lra.
Qed.
(** an arc is refused, leaving the ledger as it was, exactly for a non-positive duration or impulse or too little mass *)
Theorem C103_refused l a : (exists e, snd (append l a) = Err e) <-> stop a <= start a \/ isp a <= 0 \/ mass l <= thrust a / (isp a * g0) * (stop a - start a).
Proof.
  unfold append, duration_seconds, mass_flow_rate. cbv zeta. destruct (rleb_r (stop a - start a) 0); [split; [intros _; left; lra|intros _; eexists; reflexivity]|]. destruct (rleb_r (isp a) 0); [split; [auto|intros _; eexists; reflexivity]|].
  destruct (rleb_r (mass l - thrust a / (isp a * g0) * (stop a - start a)) 0); split; intros H.
  - right. right. lra.
  - eexists; reflexivity.
  - destruct H as (e & H). discriminate.
  - exfalso. destruct H as [H|[H|H]]; lra.
Qed.
Theorem C103_refused_unchanged l a e : snd (append l a) = Err e -> fst (append l a) = l.
Proof. intros H. destruct (append_cases l a) as [(e' & Q)|(r & Q & _)]; rewrite Q in *; [reflexivity|discriminate]. Qed.
(** with one specific impulse the total is the rocket equation from the first to the last mass, whatever the arcs *)
Theorem C103_rocket_equation m0 l arcs i : try_new m0 = Ok l -> (forall a, In a arcs -> isp a = i) -> total_dv (append_all l arcs) = i * g0 * ln (m0 / mass (append_all l arcs)).
Proof.
  intros T A. unfold try_new in T. destruct (rleb_r m0 0) as [|M]; [discriminate|]. apply (f_equal (fun o => match o with Ok v => v | _ => l end)) in T. subst l.
  assert (G : forall arcs l, (forall a, In a arcs -> isp a = i) -> 0 < mass l -> total_dv l = i * g0 * ln (m0 / mass l) -> total_dv (append_all l arcs) = i * g0 * ln (m0 / mass (append_all l arcs))).
  { clear A arcs. induction arcs as [|a arcs IH]; intros l A P D; [exact D|]. cbn [append_all]. destruct (append_cases l a) as [(e & Q) | (r & Q & W & _ & _ & V & _ & _ & P')]; rewrite Q; cbn [fst]; [apply IH; auto; intros b B; apply A; now right|].
    apply IH; cbn [mass total_dv]; [intros b B; apply A; now right|lra|]. rewrite D, V, (A a (or_introl eq_refl)). unfold Rdiv. rewrite !ln_mult, !ln_Rinv; try lra; try (apply Rinv_0_lt_compat; lra). }
  apply G; [exact A|cbn; lra|]. cbn. unfold Rdiv. rewrite Rinv_r by lra. rewrite ln_1. ring.
Qed.
(** cutting an accepted arc in two changes no total *)
Theorem C103_split l s m e f i d r : 0 < mass l -> s < m < e -> snd (append l (Arc s e f i d)) = Ok r ->
  let one := append_all l [Arc s e f i d] in let two := append_all l [Arc s m f i d; Arc m e f i d] in
  mass two = mass one /\ total_used two = total_used one /\ total_dv two = total_dv one.
Proof.
  intros P B H. cbv zeta. cbn [append_all]. destruct (append_cases l (Arc s e f i d)) as [(x & Q) | (r' & Q & W & _ & U & V & I & _ & P')]; rewrite Q in *; [discriminate|]. cbn [fst snd thrust isp start stop] in *. clear H Q r.
  set (q := f / (i * g0)) in *. assert (G : 0 < i * g0) by (unfold g0; lra).
  assert (P1 : 0 < mass l - q * (m - s)). { rewrite U in P'. destruct (Rle_dec 0 q); nra. }
  destruct (append_cases l (Arc s m f i d)) as [(x & Q) | (r1 & Q & W1 & _ & U1 & V1 & _ & _ & _)].
  { exfalso. assert (N : exists e0, snd (append l (Arc s m f i d)) = Err e0) by (rewrite Q; eexists; reflexivity). apply C103_refused in N. cbn in N. fold q in N. destruct N as [N|[N|N]]; lra. }
  rewrite Q. cbn [fst thrust isp start stop] in *. fold q in U1. set (l1 := Log _ _ _ _).
  assert (M1 : mass l1 = mass l - q * (m - s)) by (unfold l1; cbn; lra).
  destruct (append_cases l1 (Arc m e f i d)) as [(x & Q2) | (r2 & Q2 & W2 & _ & U2 & V2 & _ & _ & P2)].
  { exfalso. assert (N : exists e0, snd (append l1 (Arc m e f i d)) = Err e0) by (rewrite Q2; eexists; reflexivity). apply C103_refused in N. cbn [stop start isp thrust] in N. fold q in N. rewrite M1 in N. rewrite U in P'. destruct N as [N|[N|N]]; nra. }
  rewrite Q2. cbn [fst mass total_used total_dv thrust isp start stop] in *. fold q in U2. rewrite M1 in V2, P2 |- *. unfold l1. cbn [total_used total_dv mass]. repeat split.
  - rewrite U, U2. ring.
  - rewrite U, U2, U1. ring.
  - rewrite V, V1, V2, U, U1, U2. replace (mass l - q * (m - s) - q * (e - m)) with (mass l - q * (e - s)) by ring. rewrite U in P'. unfold Rdiv. rewrite !ln_mult, !ln_Rinv; try lra; try (apply Rinv_0_lt_compat; lra).
Qed.
(** the logged velocity change is what the thrust acceleration integrates to as the mass flows out *)
Theorem C103_integral f i m0 t : 0 < i -> 0 < m0 -> 0 < m0 - f / (i * g0) * t ->
  derivable_pt_lim (fun t => i * g0 * ln (m0 / (m0 - f / (i * g0) * t))) t (f / (m0 - f / (i * g0) * t)).
Proof.
  intros I M P. assert (G : 0 < i * g0) by (unfold g0; lra). set (q := f / (i * g0)) in *.
  assert (D0 : derivable_pt_lim (fun t => m0 - q * t) t (- q)).
  { replace (- q) with (0 - (0 * t + q * 1)) by ring. apply (derivable_pt_lim_minus (fun _ => m0) (fun t => q * t)); [apply derivable_pt_lim_const|]. apply (derivable_pt_lim_mult (fun _ => q) (fun t => t)); [apply derivable_pt_lim_const|apply derivable_pt_lim_id]. }
  assert (D1 : derivable_pt_lim (fun t => ln (m0 - q * t)) t (/ (m0 - q * t) * - q)).
  { apply (derivable_pt_lim_comp (fun t => m0 - q * t) ln); [exact D0|]. now apply derivable_pt_lim_ln. }
  assert (D2 : derivable_pt_lim (fun t => i * g0 * (ln m0 - ln (m0 - q * t))) t (f / (m0 - q * t))).
  { assert (Fq : i * g0 * q = f) by (unfold q; field; repeat split; unfold g0 in *; lra).
    replace (f / (m0 - q * t)) with (0 * (ln m0 - ln (m0 - q * t)) + i * g0 * (0 - / (m0 - q * t) * - q)) by (transitivity (i * g0 * q * / (m0 - q * t)); [ring|rewrite Fq; reflexivity]).
    apply (derivable_pt_lim_mult (fun _ => i * g0) (fun t => ln m0 - ln (m0 - q * t))); [apply derivable_pt_lim_const|].
    apply (derivable_pt_lim_minus (fun _ => ln m0) (fun t => ln (m0 - q * t))); [apply derivable_pt_lim_const|exact D1]. }
  intros eps E. destruct (D2 eps E) as (d & Hd). assert (C : continuity_pt (fun t => m0 - q * t) t) by (apply derivable_continuous_pt; exists (- q); exact D0).
  destruct (C (m0 - q * t) P) as (d' & Dp & C').
  assert (Mp : 0 < Rmin d d') by (apply Rmin_glb_lt; [apply cond_pos|exact Dp]). exists (mkposreal _ Mp). cbn. intros h Hz Hh.
  assert (Pos : 0 < m0 - q * (t + h)).
  { specialize (C' (t + h)). cbn in C'. unfold R_dist, D_x, no_cond in C'. replace (t + h - t) with h in C' by ring. pose proof (Rmin_r d d'). assert (Z : Rabs (m0 - q * (t + h) - (m0 - q * t)) < m0 - q * t) by (apply C'; repeat split; [intros X; apply Hz; lra|lra]). apply Rabs_def2 in Z. lra. }
  pose proof (Rmin_l d d'). specialize (Hd h Hz ltac:(lra)). assert (L : forall x, 0 < x -> ln (m0 / x) = ln m0 - ln x). { intros x X. unfold Rdiv. rewrite ln_mult, ln_Rinv; try lra. now apply Rinv_0_lt_compat. }
  rewrite !L by assumption. exact Hd.
Qed.
(** arcs: unit direction, active from start up to but not at stop, acceleration thrust / mass along the direction *)
Theorem C103_arc s e f i d a : with_normalised_direction s e f i d = Ok a ->
  norm (direction a) = 1 /\ (exists k, 0 < k /\ direction a = scale k d) /\ s < e /\ 0 < i /\
  forall m t, 0 < m -> (s <= t < e -> thrust_acceleration a m t = Ok (scale (f / m) (direction a))) /\ (~ s <= t < e -> thrust_acceleration a m t = Ok (0, 0, 0)).
Proof.
  unfold with_normalised_direction. destruct (rleb_r i 0); [discriminate|]. destruct (rltb_r s e); cbn [negb]; [|discriminate]. destruct (rltb_r 0 (norm d)) as [N|]; cbn [negb]; [|discriminate]. cbv zeta.
  intros H. apply (f_equal (fun o => match o with Ok v => v | _ => a end)) in H. subst a. cbn [direction]. repeat split.
  - unfold norm at 1. rewrite unit_dir; [apply sqrt_1|]. intros ->. unfold norm in N. cbn in N. replace (0 * 0 + 0 * 0 + 0 * 0) with 0 in N by ring. rewrite sqrt_0 in N. lra.
  - exists (/ norm d). split; [now apply Rinv_0_lt_compat|reflexivity].
  - assumption.
  - lra.
  - intros T. unfold thrust_acceleration, is_active. cbn. destruct (rleb_r m 0); [lra|]. destruct (rleb_r s t); [|lra]. destruct (rltb_r t e); [|lra]. reflexivity.
  - intros T. unfold thrust_acceleration, is_active. cbn. destruct (rleb_r m 0); [lra|]. destruct (rleb_r s t), (rltb_r t e); cbn; try reflexivity. exfalso. apply T. lra.
Qed.
(** nothing rejects a negative thrust: it is accepted, and the ledger then gains mass and loses velocity change *)
Theorem C103_negative_thrust s e f i d l : s < e -> f < 0 -> 0 < i -> d <> (0, 0, 0) -> 0 < mass l ->
  exists a, with_normalised_direction s e f i d = Ok a /\ mass l < mass (fst (append l a)) /\ total_used (fst (append l a)) < total_used l /\ total_dv (fst (append l a)) < total_dv l.
Proof.
  intros S' F I D M. unfold with_normalised_direction. destruct (rleb_r i 0); [lra|]. destruct (rltb_r s e) as [_|]; [|lra]. cbn [negb]. cbv zeta. destruct (rltb_r 0 (norm d)) as [_|N]; [|exfalso; apply N; now apply norm_pos]. cbn [negb].
  eexists. split; [reflexivity|]. set (a := Arc _ _ _ _ _). assert (G : 0 < i * g0) by (unfold g0; lra).
  assert (U : f / (i * g0) * (e - s) < 0). { assert (0 < / (i * g0)) by now apply Rinv_0_lt_compat. assert (0 < - f * / (i * g0)) by (apply Rmult_lt_0_compat; lra). unfold Rdiv. nra. }
  destruct (append_cases l a) as [(x & Q) | (r & Q & W & _ & V & Dv & _ & _ & P)].
  - exfalso. assert (N : exists e0, snd (append l a) = Err e0) by (rewrite Q; eexists; reflexivity). apply C103_refused in N. cbn in N. destruct N as [N|[N|N]]; lra.
  - rewrite Q. cbn in V, Dv |- *. assert (K : used r < 0) by lra. repeat split; try lra. rewrite Dv. assert (L : ln (mass l / (mass l - used r)) < 0).
    { rewrite <- ln_1. apply ln_increasing; [now apply Rdiv_lt_0_compat|]. apply (Rmult_lt_reg_r (mass l - used r)); [lra|]. unfold Rdiv. rewrite Rmult_assoc, Rinv_l by lra. lra. }
    nra.
Qed.
Example C103_case : exists l a r, try_new 100 = Ok l /\ with_normalised_direction 0 600 0.5 1500 (1, 0, 0) = Ok a /\ snd (append l a) = Ok r /\ 0 < used r < 1.
Proof.
  unfold try_new. destruct (rleb_r 100 0); [lra|]. unfold with_normalised_direction. destruct (rleb_r 1500 0); [lra|]. destruct (rltb_r 0 600) as [_|]; [|lra]. cbn [negb]. cbv zeta.
  destruct (rltb_r 0 (norm (1, 0, 0))) as [_|N]; [|exfalso; apply N; apply norm_pos; intros E; injection E; lra]. cbn [negb]. do 2 eexists. 
  set (l := Log _ _ _ _). set (a := Arc _ _ _ _ _). destruct (append_cases l a) as [(x & Q) | (r & Q & _ & _ & V & _)].
  - exfalso. assert (N : exists e0, snd (append l a) = Err e0) by (rewrite Q; eexists; reflexivity). apply C103_refused in N. cbn in N. unfold g0 in N. destruct N as [N|[N|N]]; lra.
  - exists r. rewrite Q. cbn in V. unfold g0 in V. repeat split; lra.
Qed.

(** * C104 Geopotential *)
Lemma zrot era v : apply (r3 (- era)) v = let '(x, y, z) := v in (cos era * x - sin era * y, sin era * x + cos era * y, z).
Proof. destruct v as ((x, y), z). cbn. rewrite sin_neg, cos_neg. apply vec_eq; ring. Qed.
(** with tesseral terms, the field is the Earth-fixed one turned by the Earth rotation angle *)
Theorem C104_turned E order era (kernel : vec -> outcome vec E) pos : (0 < order)%nat ->
  geopotential order era kernel pos = match kernel (apply (r3 era) pos) with Ok a => Ok (apply (r3 (- era)) a) | Err e => Err e | Panic => Panic end.
Proof.
  intros O. destruct order; [lia|]. unfold geopotential. destruct pos as ((x, y), z). cbv zeta.
  replace (apply (r3 era) (x, y, z)) with (cos era * x + sin era * y, - sin era * x + cos era * y, z) by (cbn; apply vec_eq; ring).
  destruct (kernel _) as [((a, b), c)| |]; [|reflexivity|reflexivity]. now rewrite zrot.
Qed.
(** the acceleration has the length the Earth-fixed field has at the turned point, and the same radial part *)
Theorem C104_length E order era (kernel : vec -> outcome vec E) pos a b : (0 < order)%nat -> kernel (apply (r3 era) pos) = Ok b -> geopotential order era kernel pos = Ok a ->
  norm a = norm b /\ dot3 a pos = dot3 b (apply (r3 era) pos).
Proof.
  intros O K H. rewrite C104_turned, K in H by exact O. apply (f_equal (fun o => match o with Ok v => v | _ => a end)) in H. subst a.
  destruct (r3_orthonormal (- era)) as (R & _). split; [now apply norm_apply|].
  rewrite <- (orthonormal_dot (r3 (- era)) b) by exact R. f_equal. rewrite <- apply_mul.
  replace (mul (r3 (- era)) (r3 era)) with identity. { destruct pos as ((x, y), z). cbn. apply vec_eq; ring. }
  unfold r3, mul, identity. cbn. rewrite sin_neg, cos_neg. pose proof (sc era). f_equal; lra.
Qed.
(** for a field symmetric about the axis both branches agree: zonal terms need no Earth rotation angle *)
Theorem C104_zonal E order era (kernel : vec -> outcome vec E) pos :
  (forall t v, kernel (apply (r3 t) v) = match kernel v with Ok a => Ok (apply (r3 t) a) | Err e => Err e | Panic => Panic end) ->
  geopotential order era kernel pos = geopotential 0 0 kernel pos.
Proof.
  intros K. destruct order; [reflexivity|]. rewrite C104_turned by lia. rewrite K. cbn [geopotential]. destruct (kernel pos) as [a| |]; [|reflexivity|reflexivity].
  f_equal. rewrite <- apply_mul. replace (mul (r3 (- era)) (r3 era)) with identity. { destruct a as ((x, y), z). cbn. apply vec_eq; ring. }
  unfold r3, mul, identity. cbn. rewrite sin_neg, cos_neg. pose proof (sc era). f_equal; lra.
Qed.
(** a whole turn of the Earth brings the same field back *)
Theorem C104_turns E order era (kernel : vec -> outcome vec E) pos (k : Z) : geopotential order (era + 2 * PI * IZR k) kernel pos = geopotential order era kernel pos.
Proof. unfold geopotential. destruct order; [reflexivity|]. cbv zeta. now rewrite sin_turns, cos_turns. Qed.
Example C104_case : let kernel := fun v : vec => Ok (scale (-1) v) : outcome vec unit in
  geopotential 2 (PI / 2) kernel (7000, 0, 0) = Ok (-7000, 0, 0) /\
  geopotential 2 (PI / 2) (fun v : vec => let '(x, y, z) := v in Ok (y, 0, 0) : outcome vec unit) (7000, 0, 0) = Ok (0, -7000, 0).
Proof. cbv zeta. unfold geopotential. cbv zeta. rewrite sin_PI2, cos_PI2. split; cbn; f_equal; apply vec_eq; ring. Qed.

Print Assumptions C99_formula. Print Assumptions C99_no_singularity. Print Assumptions C99_centre. Print Assumptions C99_rotation. Print Assumptions C99_sum. Print 
Assumptions C99_first_error. Print Assumptions C99_needs_ephemeris. Print Assumptions C99_axes. Print Assumptions C99_frame_refuted. Print Assumptions C100_factor_range. 
Print Assumptions C100_cylinder. Print Assumptions C100_cone. Print Assumptions C100_brighter. Print Assumptions C100_penumbra. Print Assumptions C100_contacts. Print 
Assumptions C100_pressure. Print Assumptions C100_dark. Print Assumptions C101_drag. Print Assumptions C101_corotating. Print Assumptions C101_error. Print Assumptions 
C101_omega_ignored. Print Assumptions C101_omega_refuted. Print Assumptions C101_exponential. Print Assumptions C101_below. Print Assumptions C101_constant_refuted. 
Print Assumptions C101_table. Print Assumptions C101_log_linear. Print Assumptions C101_height_fixed. Print Assumptions C101_height_only. Print Assumptions 
C101_height_exact. Print Assumptions C102_relativity_error. Print Assumptions C102_schwarzschild. Print Assumptions C102_plane. Print Assumptions C102_reversal. Print 
Assumptions C102_circular. Print Assumptions C102_empirical_error. Print Assumptions C102_components. Print Assumptions C102_period. Print Assumptions C102_half_period. Print Assumptions C102_profile.
Print Assumptions C102_no_period. Print Assumptions C103_ledger. Print Assumptions C103_refused. Print Assumptions C103_refused_unchanged. Print Assumptions 
C103_rocket_equation. Print Assumptions C103_split. Print Assumptions C103_integral. Print Assumptions C103_arc. Print Assumptions C103_negative_thrust. Print 
Assumptions C104_turned. Print Assumptions C104_length. Print Assumptions C104_zonal. Print Assumptions C104_turns.
