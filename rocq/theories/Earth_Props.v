(** Properties C93-C98: Earth rotation, sidereal time, frame rotations, Earth-fixed chains, sites, ecliptic of date. *)
From Coq Require Import List ZArith Bool Reals Lra Lia.
From Verif Require Import Base Mat3 Ang Geom_Model Geom_Proofs Moon_Model Earth_Model Earth_Proofs.
Import ListNotations.
Local Open Scope R_scope.

(** * C93: the Earth rotation angle *)
Theorem C93_range d1 d2 : 0 <= era_parts d1 d2 < 2 * PI.
Proof. apply era_range. Qed.
(** The published line, up to whole turns *)
Theorem C93_formula d1 d2 : exists k : Z,
  era_parts d1 d2 = 2 * PI * (0.7790572732640 + 1.00273781191135448 * (d1 + d2 - 2451545)) + 2 * PI * IZR k.
Proof.
  destruct (era_same d1 d2) as (k & H). exists k. rewrite H. unfold era0, eras, j2000.
  replace (1 + 0.00273781191135448) with 1.00273781191135448 by lra. reflexivity.
Qed.
(** How the date is split does not matter. *)
Theorem C93_split d1 d2 e1 e2 : d1 + d2 = e1 + e2 -> era_parts d1 d2 = era_parts e1 e2.
Proof. intros H. rewrite !era_parts_eq, H. reflexivity. Qed.
Theorem C93_single jd d1 d2 : d1 + d2 = jd -> era jd = era_parts d1 d2.
Proof. intros H. apply C93_split. rewrite H. ring. Qed.
(** The angle comes back after the sidereal rotation and not before. *)
Theorem C93_period jd : era (jd + 1 / 1.00273781191135448) = era jd.
Proof.
  apply same_unique; try apply era_range. apply same_trans with (era jd + rate * (1 / 1.00273781191135448)); [apply era_step|].
  exists 1%Z. unfold rate, eras. replace (1 + 0.00273781191135448) with 1.00273781191135448 by lra.
  assert (1.00273781191135448 * (1 / 1.00273781191135448) = 1) as E by lra.
  rewrite (Rmult_assoc (2 * PI)), E. ring.
Qed.
Theorem C93_least jd de : 0 < de -> era (jd + de) = era jd -> 1 / 1.00273781191135448 <= de.
Proof.
  intros D H. pose proof PI_RGT_0 as P. destruct (era_step jd de) as (k & E). rewrite H in E.
  assert (K : rate * de = 2 * PI * IZR (- k)) by (rewrite opp_IZR; lra).
  assert (K' : (1 + eras) * de = IZR (- k)).
  { unfold rate in K. apply (Rmult_eq_reg_l (2 * PI)); lra. }
  unfold eras in K'. assert (Q : 0 < IZR (- k)) by (rewrite <- K'; lra). apply lt_0_IZR in Q.
  assert (1 <= IZR (- k)) by (apply (IZR_le 1); lia). lra.
Qed.
Example C93_case : era 2451545 = 2 * PI * 0.7790572732640.
Proof.
  unfold era. rewrite era_parts_eq, rem_e_small; [unfold era0, j2000; ring|lra|]. unfold era0, eras, j2000. lra.
Qed.

(** * C94: sidereal time *)
Theorem C94_mean ut1 tt : 0 <= gmst ut1 tt < 2 * PI /\ exists k : Z,
  gmst ut1 tt = era ut1 + gmst_poly ((tt - 2451545) / 36525) * (PI / 648000) + 2 * PI * IZR k.
Proof. pose proof PI_RGT_0. split; [apply rem_e_range; lra|]. apply same_rem. Qed.
Theorem C94_apparent ut1 tt dpsi eps : 0 <= gast ut1 tt dpsi eps < 2 * PI /\ exists k : Z,
  gast ut1 tt dpsi eps = gmst ut1 tt + (dpsi * cos eps + complementary tt) + 2 * PI * IZR k.
Proof. pose proof PI_RGT_0. split; [apply rem_e_range; lra|]. apply same_rem. Qed.
(** Both advance by the rotation of the Earth when only UT1 moves. *)
Theorem C94_advance ut1 tt de dpsi eps : (exists k : Z, gmst (ut1 + de) tt = gmst ut1 tt + 2 * PI * 1.00273781191135448 * de + 2 * PI * IZR k) /\
  exists k : Z, gast (ut1 + de) tt dpsi eps = gast ut1 tt dpsi eps + 2 * PI * 1.00273781191135448 * de + 2 * PI * IZR k.
Proof.
  assert (G : same_angle (gmst (ut1 + de) tt) (gmst ut1 tt + rate * de)).
  { eapply same_trans; [apply same_rem|]. apply same_trans with (era ut1 + arcsec (gmst_poly (centuries tt)) + rate * de).
    - replace (era ut1 + arcsec (gmst_poly (centuries tt)) + rate * de) with (era ut1 + rate * de + arcsec (gmst_poly (centuries tt))) by ring.
      apply same_add; [apply era_step|apply same_refl].
    - apply same_add; [apply same_sym, same_rem|apply same_refl]. }
  assert (RT : 2 * PI * 1.00273781191135448 = rate) by (unfold rate, eras; lra). rewrite RT.
  split; [exact G|]. eapply same_trans; [apply same_rem|].
  apply same_trans with (gmst ut1 tt + equation_of_equinoxes tt dpsi eps + rate * de).
  - replace (gmst ut1 tt + equation_of_equinoxes tt dpsi eps + rate * de) with (gmst ut1 tt + rate * de + equation_of_equinoxes tt dpsi eps) by ring.
    apply same_add; [exact G|apply same_refl].
  - apply same_add; [apply same_sym, same_rem|apply same_refl].
Qed.
(** The published arguments, in radians and not reduced *)
Definition published_args (t : R) : list R := [
  (485868.249036 + t * (1717915923.2178 + t * (31.8792 + t * (0.051635 - 0.00024470 * t)))) * (PI / 648000);
  (1287104.793048 + t * (129596581.0481 + t * (-0.5532 + t * (0.000136 - 0.00001149 * t)))) * (PI / 648000);
  (335779.526232 + t * (1739527262.8478 + t * (-12.7512 + t * (-0.001037 + 0.00000417 * t)))) * (PI / 648000);
  (1072260.703692 + t * (1602961601.2090 + t * (-6.3706 + t * (0.006593 - 0.00003169 * t)))) * (PI / 648000);
  (450160.398036 + t * (-6962890.5431 + t * (7.4722 + t * (0.007702 - 0.00005939 * t)))) * (PI / 648000);
  3.176146697 + 1021.3285546211 * t;
  1.753470314 + 628.3075849991 * t;
  0.024381750 * t + 0.00000538691 * t * t].
(** One term of the series: coefficients in arcseconds, the integer multipliers of the arguments *)
Definition series_term (args : list R) (e : list Z * Z * Z) : R :=
  let '(n, s, c) := e in
  let th := fold_right Rplus 0 (map (fun p => IZR (fst p) * snd p) (combine n args)) in
  IZR s / 10 ^ 8 * sin th + IZR c / 10 ^ 8 * cos th.
(** Reducing the arguments loses nothing: the value is the plain sum of the series. *)
Theorem C94_series tt : let t := (tt - 2451545) / 36525 in
  complementary tt = (fold_right Rplus 0 (map (series_term (published_args t)) eect_t0) +
                      t * fold_right Rplus 0 (map (series_term (published_args t)) eect_t1)) * (PI / 648000).
Proof.
  cbv zeta. unfold complementary. cbv zeta. change ((tt - 2451545) / 36525) with (centuries tt). set (t := centuries tt). unfold arcsec. f_equal.
  assert (A : Forall2 same_angle (eect_args t) (published_args t)).
  { assert (B : forall p, same_angle (arcsec_argument p) (p * (PI / 648000))).
    { intros p. unfold arcsec_argument, rem_t, arcsec. exists (- trunc (p / 1296000))%Z. rewrite opp_IZR. field. }
    assert (D : forall p, same_angle (rem_t p (2 * PI)) p).
    { intros p. unfold rem_t. exists (- trunc (p / (2 * PI)))%Z. rewrite opp_IZR. ring. }
    unfold eect_args, published_args. repeat (constructor; [first [apply B | apply D | exists 0%Z; ring]|]). constructor. }
  assert (F : forall e, term_value (published_args t) e = series_term (published_args t) e).
  { intros ((n, s), c). unfold term_value, series_term.
    replace (term_angle n (published_args t)) with (fold_right Rplus 0 (map (fun p => IZR (fst p) * snd p) (combine n (published_args t)))).
    - replace (10 ^ 8) with 100000000 by (cbn; lra). reflexivity.
    - generalize (published_args t). clear. induction n as [|x n IH]; intros [|a l]; cbn [combine map fold_right]; try reflexivity.
      rewrite term_angle_cons, IH. reflexivity. }
  rewrite !(terms_same _ _ _ A), !evaluate_terms_sum. unfold rsum. rewrite !(map_ext _ _ F). reflexivity.
Qed.
(** It never exceeds three milliarcseconds at the present century. *)
Theorem C94_small tt : Rabs (complementary tt) <= (0.00274675 + 0.00000087 * Rabs ((tt - 2451545) / 36525)) * (PI / 648000).
Proof.
  unfold complementary. cbv zeta. change ((tt - 2451545) / 36525) with (centuries tt). set (t := centuries tt). unfold arcsec.
  pose proof PI_RGT_0 as P. rewrite Rabs_mult, (Rabs_right (PI / 648000)) by lra. apply Rmult_le_compat_r; [lra|].
  eapply Rle_trans; [apply Rabs_triang|]. rewrite Rabs_mult.
  pose proof (terms_bound eect_t0 (eect_args t)) as A. pose proof (terms_bound eect_t1 (eect_args t)) as B.
  assert (A' : fold_right Z.add 0%Z (map weight eect_t0) = 274675%Z) by (vm_compute; reflexivity).
  assert (B' : fold_right Z.add 0%Z (map weight eect_t1) = 87%Z) by (vm_compute; reflexivity).
  rewrite A' in A. rewrite B' in B. pose proof (Rabs_pos t) as T.
  assert (C : Rabs t * Rabs (evaluate_terms eect_t1 (eect_args t)) <= Rabs t * (87 / 100000000)) by (apply Rmult_le_compat_l; assumption).
  lra.
Qed.
Example C94_case : gmst 2451545 2451545 = 2 * PI * 0.7790572732640 + 0.014506 * (PI / 648000).
Proof.
  unfold gmst, centuries. rewrite C93_case. replace ((2451545 - j2000) / 36525) with 0 by (unfold j2000; lra).
  unfold gmst_poly, arcsec. replace (0.014506 + 4612.156534 * 0 + 1.3915817 * 0 ^ 2 - 0.00000044 * 0 ^ 3 - 0.000029956 * 0 ^ 4 - 0.0000000368 * 0 ^ 5) with 0.014506 by (cbn; lra).
  pose proof PI_RGT_0. rewrite rem_e_small; [reflexivity|lra|]. split; lra.
Qed.

Lemma some_eq {A} (a b : A) : Some a = Some b -> a = b.
Proof. congruence. Qed.
(** * C95: the rotations between frames form one consistent system *)
Section FRAMES.
  Variable dpsi deps : R -> R.
  Variable eop_at : R -> eop.
  Variable ut1 : R -> eop -> R.
  Notation rotation := (rotation dpsi deps eop_at ut1).
  (** Except for the two catalogue frames, every rotation preserves lengths, angles and handedness. *)
  Theorem C95_proper jd f g m : ~ catalog f -> ~ catalog g -> rotation jd f g = Some m ->
    (forall u v, dot3 (apply m u) (apply m v) = dot3 u v) /\ det m = 1.
  Proof. intros F G H. destruct (rotation_proper _ _ _ _ _ _ _ _ F G H) as (O & D). split; [|exact D]. intros u v. now apply orthonormal_dot. Qed.
  (** The way back exists and is the inverse. *)
  Theorem C95_back jd f g m : rotation jd f g = Some m -> rotation jd g f = Some (transpose m).
  Proof. apply rotation_inverse. Qed.
  Theorem C95_round_trip jd f g m n v : ~ catalog f -> ~ catalog g -> rotation jd f g = Some m -> rotation jd g f = Some n -> apply n (apply m v) = v.
  Proof.
    intros F G H K. rewrite (C95_back _ _ _ _ H) in K. injection K as <-. rewrite <- apply_mul.
    rewrite (proper_l _ (rotation_proper _ _ _ _ _ _ _ _ F G H)). apply apply_identity.
  Qed.
  Theorem C95_same jd f : rotation jd f f = Some identity.
  Proof. apply rotation_self. Qed.
  (** Any two routes agree, as long as no celestial pole offset is in force. *)
  Theorem C95_compose jd f g h a b c : dx (eop_at jd) = 0 -> dy (eop_at jd) = 0 -> ~ catalog g -> (f = h -> ~ catalog f) ->
    rotation jd f g = Some a -> rotation jd g h = Some b -> rotation jd f h = Some c -> c = mul b a.
  Proof. intros X Y. apply rotation_compose. now split. Qed.
  (** Every frame can be reached from ICRS. *)
  Theorem C95_all jd f : exists m, rotation jd ICRS f = Some m.
  Proof. destruct f; eexists; reflexivity. Qed.
  (** With celestial pole offsets, the true equator reached from the J2000 frames is not the one reached from ICRS. *)
  Theorem C95_offsets_refuted jd a b c f : f = EqJ2000 \/ f = EME2000 \/ f = MeanOfDate ->
    dx (eop_at jd) <> 0 \/ dy (eop_at jd) <> 0 ->
    1 / 10 ^ 15 < Rabs (sin (mean_obliquity jd)) -> Rabs (dx (eop_at jd)) < 2 * PI * Rabs (sin (mean_obliquity jd)) -> Rabs (dy (eop_at jd)) < 2 * PI ->
    rotation jd f ICRS = Some a -> rotation jd ICRS TrueOfDate = Some b -> rotation jd f TrueOfDate = Some c -> c <> mul b a.
  Proof.
    intros F D S' X Y A B C E. subst c. set (e := eop_at jd) in *.
    assert (Sne : sin (mean_obliquity jd) <> 0). { intros Z. rewrite Z, Rabs_R0 in S'. assert (0 < 1 / 10 ^ 15) by (apply Rdiv_lt_0_compat; [lra|apply pow_lt; lra]). lra. }
    assert (K : icrs_to_true dpsi deps eop_at jd = precession_nutation jd (dpsi jd + dx e / sin (mean_obliquity jd)) (deps jd + dy e)).
    { unfold icrs_to_true, corrected. fold e. destruct (rltb_r (1 / 10 ^ 15) (Rabs (sin (mean_obliquity jd)))) as [_|N]; [|contradiction].
      destruct (Req_EM_T (dx e) 0) as [Z|_]; [|reflexivity]. destruct (Req_EM_T (dy e) 0) as [Z'|_]; [|reflexivity]. tauto. }
    assert (J : precession_nutation jd (dpsi jd) (deps jd) = precession_nutation jd (dpsi jd + dx e / sin (mean_obliquity jd)) (deps jd + dy e)).
    { change (Some (icrs_to_true dpsi deps eop_at jd) = Some b) in B. apply some_eq in B. rewrite K in B. subst b.
      destruct F as [-> | [-> | ->]].
      1, 2: change (Some (transpose bias) = Some a) in A; change (Some (j2000_to_true dpsi deps jd) = Some (mul (precession_nutation jd (dpsi jd + dx e / sin (mean_obliquity jd)) (deps jd + dy e)) a)) in C.
      3: change (Some (transpose (precession jd)) = Some a) in A; change (Some (mean_to_true dpsi deps jd) = Some (mul (precession_nutation jd (dpsi jd + dx e / sin (mean_obliquity jd)) (deps jd + dy e)) a)) in C.
      all: apply some_eq in A; subst a; apply some_eq in C.
      - unfold j2000_to_true in C. apply (f_equal (fun m => mul m bias)) in C. rewrite <- !mul_assoc, (proper_l _ bias_proper), !mul_1_r in C. exact C.
      - unfold j2000_to_true in C. apply (f_equal (fun m => mul m bias)) in C. rewrite <- !mul_assoc, (proper_l _ bias_proper), !mul_1_r in C. exact C.
      - apply (f_equal (fun m => mul m (precession jd))) in C. rewrite <- !mul_assoc, (proper_l _ (precession_proper jd)), mul_1_r, mean_to_true_eq in C. exact C. }
    apply pn_injective in J.
    - destruct J as (J1 & J2). assert (Z : dx e / sin (mean_obliquity jd) = 0) by lra. assert (Z' : dy e = 0) by lra.
      assert (dx e = 0). { apply (Rmult_eq_reg_r (/ sin (mean_obliquity jd))); [|now apply Rinv_neq_0_compat]. unfold Rdiv in Z. lra. }
      tauto.
    - replace (dpsi jd - (dpsi jd + dx e / sin (mean_obliquity jd))) with (- (dx e / sin (mean_obliquity jd))) by ring.
      rewrite Rabs_Ropp. unfold Rdiv. rewrite Rabs_mult, Rabs_inv. pose proof (Rabs_pos_lt _ Sne) as Q.
      apply (Rmult_lt_reg_r (Rabs (sin (mean_obliquity jd)))); [exact Q|]. rewrite Rmult_assoc, Rinv_l, Rmult_1_r by lra. exact X.
    - replace (deps jd - (deps jd + dy e)) with (- dy e) by ring. now rewrite Rabs_Ropp.
  Qed.
End FRAMES.
Definition close (eps : R) (a b : mat) : Prop :=
  Rabs (a11 a - a11 b) <= eps /\ Rabs (a12 a - a12 b) <= eps /\ Rabs (a13 a - a13 b) <= eps /\
  Rabs (a21 a - a21 b) <= eps /\ Rabs (a22 a - a22 b) <= eps /\ Rabs (a23 a - a23 b) <= eps /\
  Rabs (a31 a - a31 b) <= eps /\ Rabs (a32 a - a32 b) <= eps /\ Rabs (a33 a - a33 b) <= eps.
(** The FK4 table is orthonormal to sixteen digits. *)
Theorem C95_fk4 : close (1 / 10 ^ 15) (mul (transpose fk4_to_fk5) fk4_to_fk5) identity.
Proof. unfold close. repeat split; apply Rabs_le; cbn; split; lra. Qed.
(** The Galactic table is not: a unit vector comes out too long by more than 1e-10, and going to ICRS and back
    moves it. One entry is not the published one. *)
Theorem C95_galactic_refuted dpsi deps eop_at ut1 jd m n :
  rotation dpsi deps eop_at ut1 jd Galactic ICRS = Some m -> rotation dpsi deps eop_at ut1 jd ICRS Galactic = Some n ->
  1 + 1.2 / 10 ^ 10 < dot3 (apply m (0, 0, 1)) (apply m (0, 0, 1)) /\
  1 / 10 ^ 11 < Rabs (comp 2 (apply n (apply m (0, 0, 1))) - 1).
Proof.
  intros A B. cbn in A, B. injection A as <-. injection B as <-. split; [cbn; lra|]. rewrite Rabs_right; cbn; lra.
Qed.
Definition with_a23 (x : R) (m : mat) : mat := M (a11 m) (a12 m) (a13 m) (a21 m) (a22 m) x (a31 m) (a32 m) (a33 m).
Theorem C95_galactic_entry : let m := with_a23 0.7469822444972189 galactic_to_icrs in close (1 / 10 ^ 15) (mul (transpose m) m) identity.
Proof. cbv zeta. unfold close. repeat split; apply Rabs_le; cbn; split; lra. Qed.
(** It is close to a rotation at the level of 1.3e-10. *)
Theorem C95_galactic_close : close (1.3 / 10 ^ 10) (mul (transpose galactic_to_icrs) galactic_to_icrs) identity.
Proof. unfold close. repeat split; apply Rabs_le; cbn; split; lra. Qed.

(** * C96: the Earth-fixed chain *)
Definition axis_turn (A : mat) (th : R) : mat := mul A (mul (rz th) (transpose A)).
Lemma row3_apply m : proper m -> apply m (a31 m, a32 m, a33 m) = (0, 0, 1).
Proof.
  intros P. pose proof (proper_r m P) as O. pose proof (f_equal a13 O) as O1. pose proof (f_equal a23 O) as O2. pose proof (f_equal a33 O) as O3.
  destruct m. cbn in *. repeat f_equal; lra.
Qed.
Section FIXED.
  Variable dpsi deps : R -> R.
  Variable eop_at : R -> eop.
  Variable site_eop : R -> option eop.
  (** The pole the chain is built on, as a unit vector of ICRS *)
  Definition pole (jd : R) (e : eop) : vec :=
    let '(dp, de) := corrected dpsi deps jd e in
    let '(x, y) := cip_xy jd dp de in (x, y, a33 (precession_nutation jd dp de)).
  (** The true equator's z axis is that pole. *)
  Theorem C96_true_pole ut1 jd m : rotation dpsi deps eop_at ut1 jd ICRS TrueOfDate = Some m -> apply m (pole jd (eop_at jd)) = (0, 0, 1).
  Proof.
    intros H. change (Some (icrs_to_true dpsi deps eop_at jd) = Some m) in H. apply some_eq in H. subst m. unfold icrs_to_true, pole.
    destruct (corrected dpsi deps jd (eop_at jd)) as (dp, de). unfold cip_xy. cbv zeta.
    apply row3_apply, precession_nutation_proper.
  Qed.
  (** The intermediate frame's is not: the pole ends up at twice its distance from the axis. *)
  Theorem C96_cirs_pole_refuted ut1 jd m : rotation dpsi deps eop_at ut1 jd GCRS CIRS = Some m ->
    let '(x, y, z) := pole jd (eop_at jd) in 0 <= z ->
    comp 2 (apply m (x, y, z)) = 1 - 2 * (x * x + y * y) /\ apply m (- x, - y, z) = (0, 0, 1) /\ (apply m (x, y, z) = (0, 0, 1) -> x = 0 /\ y = 0).
  Proof.
    intros H. change (Some (cirs_of dpsi deps jd (eop_at jd)) = Some m) in H. apply some_eq in H. subst m. unfold cirs_of, pole.
    destruct (corrected dpsi deps jd (eop_at jd)) as (dp, de). pose proof (cip_in_disc jd dp de) as D.
    pose proof (pole_of_orthonormal _ (precession_nutation_proper jd dp de)) as U. unfold cip_xy in *. cbv zeta in *.
    set (x := a31 (precession_nutation jd dp de)) in *. set (y := a32 (precession_nutation jd dp de)) in *. set (z := a33 (precession_nutation jd dp de)) in *.
    clearbody x y z. intros Z. generalize (cio_s jd x y). intros s. destruct (cirs_angles x y D) as (A & B & C & E).
    assert (Cz : cos (atan2 (sqrt (x * x + y * y)) (sqrt (Rmax (1 - (x * x + y * y)) 0))) = z).
    { rewrite C. replace (1 - (x * x + y * y)) with (Rsqr z) by (unfold Rsqr; lra). now apply sqrt_Rsqr. }
    assert (T : comp 2 (apply (gcrs_to_cirs x y s) (x, y, z)) = 1 - 2 * (x * x + y * y)).
    { unfold gcrs_to_cirs. cbn. rewrite Cz.
      match goal with |- - ?sd * ?ce * x + - ?sd * ?se * y + _ = _ => replace (- sd * ce * x) with (- (sd * ce) * x) by ring; replace (- sd * se * y) with (- (sd * se) * y) by ring end.
      rewrite A, B. lra. }
    split; [exact T|]. split.
    - assert (R1 : a31 (gcrs_to_cirs x y s) = - x) by (unfold gcrs_to_cirs; cbn; lra).
      assert (R2 : a32 (gcrs_to_cirs x y s) = - y) by (unfold gcrs_to_cirs; cbn; lra).
      assert (R3 : a33 (gcrs_to_cirs x y s) = z) by (unfold gcrs_to_cirs; cbn; exact Cz).
      rewrite <- R1, <- R2, <- R3. apply row3_apply, gcrs_to_cirs_proper.
    - intros Q. apply (f_equal (comp 2)) in Q. rewrite T in Q. cbn in Q. split; nra.
  Qed.
  (** Earth-fixed frames turn eastward about an axis in the northern half as UT1 advances. *)
  Theorem C96_frames_spin jd f : f = ITRF \/ f = ECEF -> exists A, proper A /\ 0 <= a33 A /\
    forall ut1 ut1' de m m', ut1' jd (eop_at jd) = ut1 jd (eop_at jd) + de ->
      rotation dpsi deps eop_at ut1 jd f ICRS = Some m -> rotation dpsi deps eop_at ut1' jd f ICRS = Some m' ->
      m' = mul (axis_turn A (rate * de)) m.
  Proof.
    intros F. exists (transpose (cirs_of dpsi deps jd (eop_at jd))). split; [apply proper_transpose, cirs_of_proper|]. split.
    { cbn [a33 transpose]. unfold cirs_of. destruct (corrected dpsi deps jd (eop_at jd)) as (dp, de). pose proof (cip_in_disc jd dp de) as D.
      destruct (cip_xy jd dp de) as (x, y). destruct (cirs_angles x y D) as (_ & _ & C & _). unfold gcrs_to_cirs. cbn. rewrite C. apply sqrt_pos. }
    intros ut1 ut1' de m m' U A B.
    assert (E : forall u, Some (transpose (icrs_to_itrf dpsi deps eop_at u jd)) = rotation dpsi deps eop_at u jd f ICRS) by (intros u; destruct F as [-> | ->]; reflexivity).
    rewrite <- E in A, B. apply some_eq in A. apply some_eq in B. subst m m'. unfold icrs_to_itrf, icrs_to_tirs, tirs_of, icrs_to_cirs.
    rewrite !transpose_mul, !rz_transpose, !Ropp_involutive, U. rewrite (rz_same _ _ (era_step _ _)). rewrite <- !mul_assoc.
    unfold axis_turn. rewrite (chain_turn (transpose (cirs_of dpsi deps jd (eop_at jd)))); [reflexivity|apply proper_transpose, cirs_of_proper].
  Qed.
  Definition site_orientation (jd : R) : eop := match site_eop jd with Some e => e | None => no_eop end.
  (** Sites turn the other way: westward about an axis in the northern half. *)
  Theorem C96_sites_spin_refuted jd : exists A, proper A /\ 0 <= a33 (mul (transpose bias) A) /\
    (forall ut1 ut1' de, ut1' jd (site_orientation jd) = ut1 jd (site_orientation jd) + de ->
      itrs_to_j2000 dpsi deps ut1' site_eop jd = mul (axis_turn A (- (rate * de))) (itrs_to_j2000 dpsi deps ut1 site_eop jd)) /\
    (forall B ut1, proper B ->
      (forall ut1' de, ut1' jd (site_orientation jd) = ut1 jd (site_orientation jd) + de ->
        itrs_to_j2000 dpsi deps ut1' site_eop jd = mul (axis_turn B (rate * de)) (itrs_to_j2000 dpsi deps ut1 site_eop jd)) ->
      dot3 (apply A (0, 0, 1)) (apply B (0, 0, 1)) = -1).
  Proof.
    set (A := mul bias (cirs_of dpsi deps jd (site_orientation jd))).
    assert (PA : proper A) by (apply proper_mul; [apply bias_proper|apply cirs_of_proper]).
    assert (W : forall ut1 ut1' de, ut1' jd (site_orientation jd) = ut1 jd (site_orientation jd) + de ->
      itrs_to_j2000 dpsi deps ut1' site_eop jd = mul (axis_turn A (- (rate * de))) (itrs_to_j2000 dpsi deps ut1 site_eop jd)).
    { intros ut1 ut1' de U. unfold itrs_to_j2000. fold (site_orientation jd). cbv zeta. rewrite U, (rz_same _ _ (same_opp _ _ (era_step _ _))).
      rewrite Ropp_plus_distr. rewrite <- (mul_assoc (cirs_of dpsi deps jd (site_orientation jd))), (mul_assoc bias). fold A. rewrite (chain_turn A) by exact PA.
      unfold axis_turn, A. now rewrite <- !mul_assoc. }
    exists A. split; [exact PA|]. split; [|split; [exact W|]].
    - unfold A. rewrite mul_assoc, (proper_l _ bias_proper), mul_1_l. unfold cirs_of. destruct (corrected dpsi deps jd (site_orientation jd)) as (dp, de).
      pose proof (cip_in_disc jd dp de) as D. destruct (cip_xy jd dp de) as (x, y). destruct (cirs_angles x y D) as (_ & _ & C & _). unfold gcrs_to_cirs. cbn. rewrite C. apply sqrt_pos.
    - intros B ut1 PB H. rewrite <- (opposite_turns B A PB PA).
      + destruct (apply A (0, 0, 1)) as ((a, b), c), (apply B (0, 0, 1)) as ((a', b'), c'). cbn. ring.
      + intros th. set (de := th / rate). assert (RN : rate <> 0). { unfold rate, eras. pose proof PI_RGT_0. nra. }
        assert (Eth : th = rate * de) by (unfold de; field; exact RN).
        set (ut1' := fun (_ : R) (_ : eop) => ut1 jd (site_orientation jd) + de).
        pose proof (H ut1' de eq_refl) as H1. rewrite (W ut1 ut1' de eq_refl) in H1.
        assert (PI' : proper (itrs_to_j2000 dpsi deps ut1 site_eop jd)).
        { unfold itrs_to_j2000. apply proper_mul; [apply bias_proper|]. apply proper_mul; [apply proper_mul; [apply cirs_of_proper|apply rz_proper]|apply proper_transpose, polar_proper]. }
        apply (f_equal (fun m => mul m (transpose (itrs_to_j2000 dpsi deps ut1 site_eop jd)))) in H1.
        rewrite <- !mul_assoc, (proper_r _ PI'), !mul_1_r in H1. unfold axis_turn in H1. rewrite Eth. symmetry. exact H1.
  Qed.
  (** So the site of a fixed station and the frame rotation of its coordinates disagree. *)
  Theorem C96_routes_refuted ut1 jd : site_eop jd = Some (eop_at jd) ->
    (let '(dp, de) := corrected dpsi deps jd (eop_at jd) in let '(x, y) := cip_xy jd dp de in (x <> 0 \/ y <> 0) /\ -1 < cos (cio_s jd x y)) ->
    rotation dpsi deps eop_at ut1 jd ITRF EqJ2000 <> Some (itrs_to_j2000 dpsi deps ut1 site_eop jd).
  Proof.
    intros SE NZ H. change (Some (transpose (mul (icrs_to_itrf dpsi deps eop_at ut1 jd) (transpose bias))) = Some (itrs_to_j2000 dpsi deps ut1 site_eop jd)) in H.
    apply some_eq in H. unfold icrs_to_itrf, icrs_to_tirs, tirs_of, icrs_to_cirs, itrs_to_j2000 in H. rewrite SE in H. cbv zeta in H.
    rewrite !transpose_mul, transpose_transpose, rz_transpose, Ropp_involutive in H. set (th := era (ut1 jd (eop_at jd))) in *.
    set (W := itrf_of jd (eop_at jd)) in *. assert (PW : proper W) by apply polar_proper. set (q := cirs_of dpsi deps jd (eop_at jd)) in *.
    assert (PQ : proper q) by apply cirs_of_proper.
    assert (K : mul (transpose q) (rz th) = mul q (rz (- th))).
    { apply (f_equal (fun m => mul (transpose bias) (mul m W))) in H. rewrite <- !mul_assoc, (proper_l W PW), !mul_1_r in H.
      now rewrite !(mul_assoc (transpose bias) bias), (proper_l _ bias_proper), !mul_1_l in H. }
    assert (Q : mul q q = rz (th + th)).
    { apply (f_equal (fun m => mul q (mul m (rz th)))) in K. rewrite <- !mul_assoc, !rz_add in K.
      replace (- th + th) with 0 in K by ring. rewrite rz_0, mul_1_r in K. rewrite cancel_l in K by exact PQ. now symmetry. }
    unfold q, cirs_of in Q. destruct (corrected dpsi deps jd (eop_at jd)) as (dp, de). pose proof (cip_in_disc jd dp de) as D.
    destruct (cip_xy jd dp de) as (x, y). destruct NZ as (NZ & CS). destruct (square_axis _ _ _ _ D CS Q). tauto.
  Qed.
End FIXED.
(** The polar motion factors are in the reverse of the published order (R1(-yp) R2(-xp) R3(s') of SOFA's pom00). *)
Definition published_polar_motion (x y s : R) : mat := mul (r1 (- y)) (mul (ry x) (r3 s)).
Lemma r3_form_0 : r3 0 = identity. Proof. apply mat_eq; cbn; rewrite ?cos_0, ?sin_0; ring. Qed.
Lemma r1_form_0 : r1 0 = identity. Proof. apply mat_eq; cbn; rewrite ?cos_0, ?sin_0; ring. Qed.
Lemma ry_0 : ry 0 = identity. Proof. apply mat_eq; cbn; rewrite ?cos_0, ?sin_0; ring. Qed.
Theorem C96_polar_first_order x y s : x = 0 \/ y = 0 -> s = 0 -> polar_motion x y s = published_polar_motion x y s.
Proof.
  intros H ->. unfold polar_motion, published_polar_motion, rz, rx. rewrite !Ropp_0, r3_form_0, mul_1_l, mul_1_r.
  destruct H as [-> | ->]; [now rewrite ry_0, mul_1_l, mul_1_r|now rewrite Ropp_0, r1_form_0, mul_1_l, mul_1_r].
Qed.
Theorem C96_polar_refuted x y : sin x <> 0 -> sin y <> 0 -> polar_motion x y 0 <> published_polar_motion x y 0.
Proof.
  intros X Y H. apply (f_equal a12) in H. unfold polar_motion, published_polar_motion, rz, rx, ry in H. cbn in H.
  rewrite !Ropp_0, !cos_0, !sin_0, ?cos_neg, ?sin_neg in H. ring_simplify in H. 
  apply Rmult_integral in H. tauto.
Qed.

(** A reachable case: at the epoch J2000.0, without nutation or offsets, the pole is off the axis by the frame bias. *)
Lemma fw_j2000 : fw_gamma (centuries j2000) = arcsec (-0.052928) /\ fw_phi (centuries j2000) = arcsec 84381.412819 /\
  fw_psi (centuries j2000) = arcsec (-0.041775) /\ fw_eps (centuries j2000) = arcsec 84381.406.
Proof. replace (centuries j2000) with 0 by (unfold centuries; field). unfold fw_gamma, fw_phi, fw_psi, fw_eps, arcsec. repeat split; lra. Qed.
Lemma half_product a b : a * a + b * b <= 1 -> Rabs (a * b) <= 1 / 2.
Proof. intros H. apply Rabs_le. pose proof (Rle_0_sqr (a + b)). pose proof (Rle_0_sqr (a - b)). unfold Rsqr in *. split; lra. Qed.
Lemma j2000_pole : let '(x, y) := cip_xy j2000 0 0 in (x <> 0 \/ y <> 0) /\ -1 < cos (cio_s j2000 x y) /\ 0 <= a33 (precession_nutation j2000 0 0).
Proof.
  pose proof (cip_in_disc j2000 0 0) as D. unfold cip_xy in *. cbv zeta in *.
  pose proof PI_RGT_0 as P. pose proof PI_4 as P4.
  destruct fw_j2000 as (G & F & S' & E). unfold precession_nutation in *. cbv zeta in *. rewrite G, F, S', E, !Rplus_0_r in *.
  set (g := arcsec (-0.052928)) in *. set (f := arcsec 84381.412819) in *. set (p := arcsec (-0.041775)) in *. set (e := arcsec 84381.406) in *.
  set (m := fw_matrix g f p e) in *.
  assert (Ef : 0 < f < PI / 2) by (unfold f, arcsec; lra). assert (Ee : 0 < e < PI / 2) by (unfold e, arcsec; lra).
  assert (Ep : - PI / 2 < p < 0) by (unfold p, arcsec; lra).
  assert (Sf : 0 < sin f) by (apply sin_gt_0; lra). assert (Cf : 0 < cos f) by (apply cos_gt_0; lra).
  assert (Se : 0 < sin e) by (apply sin_gt_0; lra). assert (Ce : 0 < cos e) by (apply cos_gt_0; lra).
  assert (Sp : sin p < 0) by (apply sin_lt_0_var; lra). assert (Cp : 0 < cos p) by (apply cos_gt_0; lra).
  assert (Q : a31 m * a31 m + a32 m * a32 m = (sin e * sin p) * (sin e * sin p) + (sin e * cos p * cos f - cos e * sin f) * (sin e * cos p * cos f - cos e * sin f)).
  { unfold m, fw_matrix. rewrite !rx_form, !rz_form, ?cos_neg, ?sin_neg. cbn. pose proof (sin2_cos2 g) as T. unfold Rsqr in T.
    transitivity ((sin e * sin p * (sin e * sin p) + (sin e * cos p * cos f - cos e * sin f) * (sin e * cos p * cos f - cos e * sin f)) * (sin g * sin g + cos g * cos g)); [ring|rewrite T; ring]. }
  repeat split.
  - destruct (Req_dec (a31 m) 0) as [Z|Z]; [|now left]. destruct (Req_dec (a32 m) 0) as [Z'|Z']; [|now right]. exfalso.
    rewrite Z, Z' in Q. assert (N : 0 < sin e * - sin p) by (apply Rmult_lt_0_compat; lra).
    set (u := sin e * sin p) in *. assert (u < 0) by (unfold u; lra). set (v := sin e * cos p * cos f - cos e * sin f) in *. clearbody u v. nra.
  - pose proof (half_product _ _ D) as H.
    assert (B : - (PI / 2) < cio_s j2000 (a31 m) (a32 m) < PI / 2).
    { unfold cio_s. cbv zeta. replace (centuries j2000) with 0 by (unfold centuries; field). unfold arcsec.
      pose proof PI2_1. unfold Rabs in H. destruct (Rcase_abs (a31 m * a32 m)); split; lra. }
    pose proof (cos_gt_0 _ (proj1 B) (proj2 B)). lra.
  - unfold m, fw_matrix. rewrite !rx_form, !rz_form, ?cos_neg, ?sin_neg. cbn.
    assert (0 < sin e * cos p * sin f) by (apply Rmult_lt_0_compat; [now apply Rmult_lt_0_compat|assumption]). assert (0 < cos e * cos f) by now apply Rmult_lt_0_compat.
    lra.
Qed.
Example C96_case : let z := fun _ : R => 0 in let e := fun _ : R => no_eop in let u := fun (jd : R) (_ : eop) => jd in
  rotation z z e u j2000 ITRF EqJ2000 <> Some (itrs_to_j2000 z z u (fun j => Some (e j)) j2000) /\
  (forall m, rotation z z e u j2000 GCRS CIRS = Some m -> apply m (pole z z j2000 no_eop) <> (0, 0, 1)) /\
  polar_motion (PI / 4) (PI / 4) 0 <> published_polar_motion (PI / 4) (PI / 4) 0.
Proof.
  cbv zeta. pose proof j2000_pole as J.
  assert (C : corrected (fun _ => 0) (fun _ => 0) j2000 no_eop = (0, 0)).
  { unfold corrected. cbn [dx dy no_eop]. destruct (Req_EM_T 0 0); [|contradiction]. reflexivity. }
  split; [|split].
  - apply C96_routes_refuted; [reflexivity|]. rewrite C. destruct (cip_xy j2000 0 0) as (x, y). tauto.
  - intros m H Q. pose proof (C96_cirs_pole_refuted _ _ _ _ _ _ H) as K. unfold pole in *. rewrite C in *. cbv beta in *.
    destruct (cip_xy j2000 0 0) as (x, y). destruct J as (J1 & _ & J2). destruct (K J2) as (_ & _ & K3). destruct (K3 Q). tauto.
  - assert (0 < sin (PI / 4)) by (pose proof PI_RGT_0; apply sin_gt_0; lra). apply C96_polar_refuted; lra.
Qed.
Example C95_case : let z := fun _ : R => 0 in let e := fun _ : R => {| dut1 := 0; xp := 0; yp := 0; dx := 1 / 1000; dy := 0 |} in let u := fun (jd : R) (_ : eop) => jd in
  (forall a b c, rotation z z e u j2000 EqJ2000 ICRS = Some a -> rotation z z e u j2000 ICRS TrueOfDate = Some b -> rotation z z e u j2000 EqJ2000 TrueOfDate = Some c -> c <> mul b a) /\
  rotation z z e u j2000 EclJ2000 ITRF <> None /\ rotation z z e u j2000 ITRF EclJ2000 <> None /\ rotation z z e u j2000 CIRS TrueOfDate <> None.
Proof.
  cbv zeta. split; [|repeat split; discriminate].
  intros a b c. assert (O : mean_obliquity j2000 = arcsec 84381.406) by apply fw_j2000. pose proof PI_RGT_0 as P. pose proof PI_4 as P4. pose proof PI2_1 as P1.
  assert (E : 0.2 < arcsec 84381.406 <= 1). { unfold arcsec. lra. }
  assert (Sn : 0.1 < sin (arcsec 84381.406)).
  { apply Rlt_le_trans with (sin (PI / 8)).
    - assert (S0 : 0 < sin (PI / 8)) by (apply sin_gt_0; lra). pose proof (cos_2a_sin (PI / 8)) as K. replace (2 * (PI / 8)) with (PI / 4) in K by lra. rewrite cos_PI4 in K.
      assert (Q : 1 / sqrt 2 < 0.8). { assert (1.4 < sqrt 2). { replace 1.4 with (sqrt (1.4 * 1.4)) by (apply sqrt_square; lra). apply sqrt_lt_1; lra. }
        apply (Rmult_lt_reg_r (sqrt 2)); [lra|]. unfold Rdiv. rewrite Rmult_assoc, Rinv_l by lra. lra. }
      apply Rnot_le_lt. intros N. assert (sin (PI / 8) * sin (PI / 8) <= 0.1 * 0.1) by (apply Rmult_le_compat; lra). lra.
    - unfold arcsec. apply sin_incr_1; lra. }
  apply C95_offsets_refuted; cbn [dx dy]; try rewrite O; try (rewrite (Rabs_right (sin _)) by lra).
  - tauto.
  - left. lra.
  - lra.
  - rewrite Rabs_right by lra. nra.
  - rewrite Rabs_R0. lra.
Qed.

(** * C97: sites *)
Section SITES.
  Variable dpsi deps : R -> R.
  Variable ut1 : R -> eop -> R.
  Variable site_eop : R -> option eop.
  Notation itrs := (itrs_to_j2000 dpsi deps ut1 site_eop).
  Lemma itrs_proper jd : proper (itrs jd).
  Proof. unfold itrs_to_j2000. cbv zeta. apply proper_mul; [apply bias_proper|]. apply proper_mul; [apply proper_mul; [apply cirs_of_proper|apply rz_proper]|apply proper_transpose, polar_proper]. Qed.
  (** Changing between the geocentre and a site is exact both ways, in every output frame. *)
  Theorem C97_round_trip jd g site pos :
    to_geocentric dpsi deps ut1 site_eop jd g site (to_topocentric dpsi deps ut1 site_eop jd g site pos) = pos /\
    to_topocentric dpsi deps ut1 site_eop jd g site (to_geocentric dpsi deps ut1 site_eop jd g site pos) = pos.
  Proof.
    unfold to_geocentric, to_topocentric. destruct pos as ((x, y), z), (site_in dpsi deps ut1 site_eop jd g site) as ((a, b), c).
    split; repeat f_equal; ring.
  Qed.
  (** The site itself is the topocentric origin; the geocentre is at the site's distance. *)
  Theorem C97_origin jd g site : proper g ->
    to_topocentric dpsi deps ut1 site_eop jd g site (site_in dpsi deps ut1 site_eop jd g site) = (0, 0, 0) /\
    (let v := to_topocentric dpsi deps ut1 site_eop jd g site (0, 0, 0) in dot3 v v = dot3 site site).
  Proof.
    intros (G & _). destruct (itrs_proper jd) as (I & _). assert (E : dot3 (site_in dpsi deps ut1 site_eop jd g site) (site_in dpsi deps ut1 site_eop jd g site) = dot3 site site).
    { unfold site_in. now rewrite (orthonormal_dot g), (orthonormal_dot (itrs jd)). }
    unfold to_topocentric. destruct (site_in dpsi deps ut1 site_eop jd g site) as ((a, b), c). split; [repeat f_equal; ring|].
    rewrite <- E. cbn. ring.
  Qed.
  (** Two sites keep their distance at every instant. *)
  Theorem C97_rigid jd g s1 s2 : proper g ->
    dot3 (site_in dpsi deps ut1 site_eop jd g s1) (site_in dpsi deps ut1 site_eop jd g s2) = dot3 s1 s2.
  Proof. intros (G & _). destruct (itrs_proper jd) as (I & _). unfold site_in. now rewrite (orthonormal_dot g), (orthonormal_dot (itrs jd)). Qed.
  (** The diurnal speed is the rotation rate times the distance from the axis; the velocity is perpendicular to the
      site's radius and to the rotation axis. *)
  Theorem C97_speed jd x y z : let v := diurnal_velocity dpsi deps ut1 site_eop jd (x, y, z) in
    dot3 v v = omega * omega * (x * x + y * y) /\ dot3 v (apply (itrs jd) (x, y, z)) = 0 /\ dot3 v (apply (itrs jd) (0, 0, 1)) = 0.
  Proof.
    cbv zeta. unfold diurnal_velocity. destruct (itrs_proper jd) as (I & _). rewrite !(orthonormal_dot (itrs jd)) by exact I. cbn. repeat split; ring.
  Qed.
End SITES.
(** But it points backwards: the site's position, as UT1 advances, moves against the reported velocity. *)
Theorem C97_velocity_refuted dpsi deps site_eop jd site i t :
  xp (site_orientation site_eop jd) = 0 -> yp (site_orientation site_eop jd) = 0 ->
  derivable_pt_lim (fun u => comp i (apply (itrs_to_j2000 dpsi deps (fun _ _ => u) site_eop jd) site)) t
    (- (rate / omega) * comp i (diurnal_velocity dpsi deps (fun _ _ => t) site_eop jd site)).
Proof.
  intros X Y. destruct site as ((x, y), z).
  set (e := site_orientation site_eop jd) in *. set (K := mul bias (cirs_of dpsi deps jd e)).
  set (sp := tio_sp jd).
  assert (F : forall u, itrs_to_j2000 dpsi deps (fun _ _ => u) site_eop jd = mul (mul K (rz (- era u))) (rz sp)).
  { intros u. unfold itrs_to_j2000. fold (site_orientation site_eop jd). fold e. cbv zeta. unfold itrf_of, polar_motion. rewrite X, Y, ry_0, rx_0, !mul_1_r, rz_transpose, Ropp_involutive.
    unfold K. now rewrite <- !mul_assoc. }
  apply (derivable_pt_lim_ext' (fun u => comp i (apply (mul K (rz (- era u))) (apply (rz sp) (x, y, z))))).
  { intros u. rewrite F. f_equal. symmetry. apply apply_mul. }
  unfold diurnal_velocity. rewrite F.
  pose proof (carried_derivative K (apply (rz sp) (x, y, z)) i t) as D.
  match goal with |- derivable_pt_lim _ _ ?l => match type of D with derivable_pt_lim _ _ ?l' => replace l with l' end end; [exact D|].
  rewrite (apply_mul (mul K (rz (- era t)))). generalize (mul K (rz (- era t))). intros N. rewrite rz_form. destruct N. unfold omega. destruct i as [|[|i]]; cbn; field_simplify_eq; lra.
Qed.
Example C97_case dpsi deps ut1 jd : let v := diurnal_velocity dpsi deps ut1 (fun _ => None) jd (1, 0, 0) in
  (exists i, comp i v <> 0) /\ 0 < rate / omega /\ xp (site_orientation (fun _ => None) jd) = 0 /\ yp (site_orientation (fun _ => None) jd) = 0.
Proof.
  cbv zeta. pose proof (C97_speed dpsi deps ut1 (fun _ => None) jd 1 0 0) as (H & _). split; [|split; [|split; reflexivity]].
  - destruct (diurnal_velocity dpsi deps ut1 (fun _ => None) jd (1, 0, 0)) as ((a, b), c).
    destruct (Req_dec a 0) as [A|A]; [|now exists 0%nat]. destruct (Req_dec b 0) as [B|B]; [|now exists 1%nat]. destruct (Req_dec c 0) as [C|C]; [|now exists 2%nat].
    subst. cbn in H. unfold omega in H. lra.
  - apply Rdiv_lt_0_compat; unfold rate, omega, eras; pose proof PI_RGT_0; lra.
Qed.

(** * C98: directions referred to the ecliptic of date *)
Definition lat_lon (v : vec) (lat lon : R) : Prop := v = (cos lat * cos lon, cos lat * sin lon, sin lat).
(** From and back: unit directions survive exactly, between the mean equator of date, ICRS and the ecliptic of date. *)
Theorem C98_round_trip jd d : dot3 d d = 1 ->
  ecliptic_of_date_to_mean jd (mean_to_ecliptic_of_date jd d) = d /\ mean_to_ecliptic_of_date jd (ecliptic_of_date_to_mean jd d) = d /\
  ecliptic_of_date_to_icrs jd (icrs_to_ecliptic_of_date jd d) = d /\ icrs_to_ecliptic_of_date jd (ecliptic_of_date_to_icrs jd d) = d.
Proof.
  intros U. change (unit d) in U. unfold ecliptic_of_date_to_mean, mean_to_ecliptic_of_date, ecliptic_of_date_to_icrs, icrs_to_ecliptic_of_date.
  assert (P1 : proper (mean_equatorial_to_ecliptic_of_date jd)) by apply rx_proper.
  assert (P2 : proper (gcrs_to_ecliptic_of_date jd)) by (apply proper_mul; [apply rx_proper|apply precession_proper]).
  pose proof (proper_transpose _ P1) as T1. pose proof (proper_transpose _ P2) as T2.
  repeat split; (rewrite redirect_apply; [|assumption|rewrite redirect_apply by assumption; now apply apply_unit]); rewrite redirect_apply by assumption;
    rewrite <- apply_mul; rewrite ?(proper_l _ P1), ?(proper_r _ P1), ?(proper_l _ P2), ?(proper_r _ P2); apply apply_identity.
Qed.
(** Both ways of reaching the ecliptic agree: from ICRS directly, or by way of the mean equator of date. *)
Theorem C98_routes dpsi deps eop_at ut1 jd d m : dot3 d d = 1 -> rotation dpsi deps eop_at ut1 jd ICRS MeanOfDate = Some m ->
  icrs_to_ecliptic_of_date jd d = mean_to_ecliptic_of_date jd (apply m d).
Proof.
  intros U H. change (unit d) in U. change (Some (precession jd) = Some m) in H. apply some_eq in H. subst m.
  unfold icrs_to_ecliptic_of_date, mean_to_ecliptic_of_date, gcrs_to_ecliptic_of_date, mean_equatorial_to_ecliptic_of_date.
  rewrite !redirect_apply; [apply apply_mul|apply rx_proper|apply apply_unit; [apply precession_proper|exact U]|apply proper_mul; [apply rx_proper|apply precession_proper]|exact U].
Qed.
(** Angles between directions are kept, and the ecliptic's pole is the mean equator's tilted by the mean obliquity;
    the equinox is common to both. *)
Theorem C98_angles jd u v : dot3 u u = 1 -> dot3 v v = 1 ->
  dot3 (mean_to_ecliptic_of_date jd u) (mean_to_ecliptic_of_date jd v) = dot3 u v /\
  dot3 (icrs_to_ecliptic_of_date jd u) (icrs_to_ecliptic_of_date jd v) = dot3 u v.
Proof.
  intros U V. unfold mean_to_ecliptic_of_date, icrs_to_ecliptic_of_date.
  assert (P1 : proper (mean_equatorial_to_ecliptic_of_date jd)) by apply rx_proper.
  assert (P2 : proper (gcrs_to_ecliptic_of_date jd)) by (apply proper_mul; [apply rx_proper|apply precession_proper]).
  rewrite !redirect_apply by assumption. split; apply orthonormal_dot; [apply P1|apply P2].
Qed.
Lemma vec_eq (a b c a' b' c' : R) : a = a' -> b = b' -> c = c' -> (a, b, c) = (a', b', c').
Proof. now intros -> -> ->. Qed.
Lemma ecliptic_of (e : R) v : unit v -> redirect (rx (- e)) v = let '(x, y, z) := v in (x, cos e * y + sin e * z, - sin e * y + cos e * z).
Proof.
  intros U. rewrite redirect_apply by (first [apply rx_proper|exact U]). rewrite rx_form, cos_neg, sin_neg. destruct v as ((x, y), z). cbn. apply vec_eq; ring.
Qed.
Theorem C98_frame jd : mean_to_ecliptic_of_date jd (1, 0, 0) = (1, 0, 0) /\
  mean_to_ecliptic_of_date jd (0, - sin (mean_obliquity jd), cos (mean_obliquity jd)) = (0, 0, 1) /\
  (forall l, mean_to_ecliptic_of_date jd (cos l, sin l * cos (mean_obliquity jd), sin l * sin (mean_obliquity jd)) = (cos l, sin l, 0)).
Proof.
  unfold mean_to_ecliptic_of_date, mean_equatorial_to_ecliptic_of_date. generalize (mean_obliquity jd). intros e.
  pose proof (sin2_cos2 e) as T. unfold Rsqr in T. split; [|split].
  - rewrite ecliptic_of by (unfold unit; cbn; ring). apply vec_eq; ring.
  - rewrite ecliptic_of by (unfold unit; cbn; lra). apply vec_eq; lra.
  - intros l. pose proof (sin2_cos2 l) as Tl. unfold Rsqr in Tl. rewrite ecliptic_of.
    + apply vec_eq; [ring| |ring]. transitivity (sin l * (sin e * sin e + cos e * cos e)); [ring|rewrite T; ring].
    + unfold unit. cbn. transitivity (cos l * cos l + sin l * sin l * (sin e * sin e + cos e * cos e)); [ring|rewrite T; lra].
Qed.
(** The reported longitude is in one turn and the latitude in the half turn, and they are the direction's angles. *)
Theorem C98_reported v : dot3 v v = 1 -> let '(lat, lon) := angles_of v in - (PI / 2) <= lat <= PI / 2 /\ 0 <= lon < 2 * PI /\ lat_lon v lat lon.
Proof.
  intros U. pose proof (angles_unit v U) as A. destruct v as ((x, y), z). unfold angles_of in *. cbv zeta in *.
  repeat split.
  - apply asin_bound.
  - apply asin_bound.
  - apply rem_e_range. pose proof PI_RGT_0. lra.
  - apply rem_e_range. pose proof PI_RGT_0. lra.
  - unfold lat_lon. symmetry. exact A.
Qed.
(** Nutated variants: the true ecliptic matrices agree whichever way they are composed. *)
Theorem C98_true jd dp de : mul (mean_equatorial_to_true_ecliptic jd dp de) (precession jd) = gcrs_to_true_ecliptic jd dp de /\
  (forall v, apply (mean_equatorial_to_true_ecliptic jd dp de) v = apply (rz dp) (apply (rx (- mean_obliquity jd)) v)).
Proof.
  assert (R : mean_equatorial_to_true_ecliptic jd dp de = mul (rz dp) (rx (- mean_obliquity jd))).
  { unfold mean_equatorial_to_true_ecliptic. cbv zeta. rewrite mul_assoc, rx_add. replace (- (mean_obliquity jd + de) + (mean_obliquity jd + de)) with 0 by ring. now rewrite rx_0, mul_1_l. }
  split; [|intros v; now rewrite R, apply_mul].
  unfold gcrs_to_true_ecliptic. pose proof (mean_to_true_eq (fun _ => dp) (fun _ => de) jd) as E. cbv beta in E. rewrite <- E. rewrite mul_assoc. f_equal.
Qed.
Example C98_case jd : let d := (3/5, 0, 4/5) in dot3 d d = 1 /\
  ecliptic_of_date_to_icrs jd (icrs_to_ecliptic_of_date jd d) = d /\ (let '(lat, lon) := angles_of d in lat = asin (4/5) /\ lon = 0).
Proof.
  cbv zeta. split; [cbn; lra|]. split; [exact (proj1 (proj2 (proj2 (C98_round_trip jd (3/5, 0, 4/5) ltac:(cbn; lra)))))|]. unfold angles_of. split.
  - f_equal. unfold clamp1. rewrite Rmin_left, Rmax_right; lra.
  - replace (atan2 0 (3/5)) with 0. { pose proof PI_RGT_0. apply rem_e_small; lra. }
    unfold atan2. destruct (Rlt_dec 0 (3/5)); [|lra]. replace (0 / (3/5)) with 0 by lra. now rewrite atan_0.
Qed.
Print Assumptions C93_range. Print Assumptions C93_formula. Print Assumptions C93_split. Print Assumptions C93_single. Print Assumptions C93_period. Print Assumptions C93_least. 
Print Assumptions C94_mean. Print Assumptions C94_apparent. Print Assumptions C94_advance. Print Assumptions C94_series. Print Assumptions C94_small. Print Assumptions C95_proper. 
Print Assumptions C95_back. Print Assumptions C95_round_trip. Print Assumptions C95_same. Print Assumptions C95_compose. Print Assumptions C95_all. Print Assumptions 
C95_offsets_refuted. Print Assumptions C95_fk4. Print Assumptions C95_galactic_refuted. Print Assumptions C95_galactic_entry. Print Assumptions C95_galactic_close. Print 
Assumptions C96_true_pole. Print Assumptions C96_cirs_pole_refuted. Print Assumptions C96_frames_spin. Print Assumptions C96_sites_spin_refuted. Print Assumptions 
C96_routes_refuted. Print Assumptions C96_polar_first_order. Print Assumptions C96_polar_refuted. Print Assumptions C97_round_trip. Print Assumptions C97_origin. Print Assumptions 
C97_rigid. Print Assumptions C97_speed. Print Assumptions C97_velocity_refuted. Print Assumptions C98_round_trip. Print Assumptions C98_routes. Print Assumptions C98_angles. Print 
Assumptions C98_frame. Print Assumptions C98_reported. Print Assumptions C98_true. 
