(** Rotation of the Earth and the rotations between reference frames, over the reals
    (src/astro/{era,sidereal,precession,cio,polar_motion,frame_bias,earth_rotation_provider}.rs,
    src/coordinates/transform/{frames/bias,providers,centers/position/to_topocentric}.rs,
    src/coordinates/observation/observer_state.rs; f64 rounding is not modelled). *)
From Coq Require Import List ZArith Bool Reals.
From Verif Require Import Base Mat3 Ang Geom_Model Moon_Model.
Import ListNotations.
Local Open Scope R_scope.

(** affn's [Rotation3::ry], active like [rx] and [rz] (src/astro/frame_bias.rs:22-23) *)
Definition ry (a : R) : mat := M (cos a) 0 (sin a) 0 1 0 (- sin a) 0 (cos a).

(** era.rs:50-52 *)
Definition j2000 : R := 2451545.
Definition era0 : R := 0.7790572732640.
Definition eras : R := 0.00273781191135448.
(** era.rs:54-58; [rem_t x y] is x - y * trunc (x / y) *)
Definition fmod_c (x y : R) : R := rem_t x y.
(** era.rs:80-87 *)
Definition era_parts (d1 d2 : R) : R :=
  let '(d1, d2) := if rltb d1 d2 then (d1, d2) else (d2, d1) in
  let t := d1 + (d2 - j2000) in
  let f := fmod_c d1 1 + fmod_c d2 1 in
  rem_e (f + era0 + eras * t) 1 * (2 * PI).
(** era.rs:75-77 *)
Definition era (jd : R) : R := era_parts j2000 (jd - j2000).

(** qtty's arcsecond to radian *)
Definition arcsec (a : R) : R := a * (PI / 648000).
Definition centuries (jd : R) : R := (jd - j2000) / 36525.

(** sidereal.rs:86-91 *)
Definition gmst_poly (t : R) : R :=
  0.014506 + 4612.156534 * t + 1.3915817 * t ^ 2 - 0.00000044 * t ^ 3 - 0.000029956 * t ^ 4 - 0.0000000368 * t ^ 5.
(** sidereal.rs:82-95 *)
Definition gmst (ut1 tt : R) : R := rem_e (era ut1 + arcsec (gmst_poly (centuries tt))) (2 * PI).

(** era.rs:136-310: multipliers of the eight arguments, then the sine and cosine coefficients, here in units of
    1e-8 arcseconds *)
Definition term : Type := list Z * Z * Z.
Definition eect_t0 : list term := [
    ([0; 0; 0; 0; 1; 0; 0; 0], 264096, (-39))%Z;
    ([0; 0; 0; 0; 2; 0; 0; 0], 6352, (-2))%Z;
    ([0; 0; 2; -2; 3; 0; 0; 0], 1175, 1)%Z;
    ([0; 0; 2; -2; 1; 0; 0; 0], 1121, 1)%Z;
    ([0; 0; 2; -2; 2; 0; 0; 0], (-455), 0)%Z;
    ([0; 0; 2; 0; 3; 0; 0; 0], 202, 0)%Z;
    ([0; 0; 2; 0; 1; 0; 0; 0], 198, 0)%Z;
    ([0; 0; 0; 0; 3; 0; 0; 0], (-172), 0)%Z;
    ([0; 1; 0; 0; 1; 0; 0; 0], (-141), (-1))%Z;
    ([0; 1; 0; 0; -1; 0; 0; 0], (-126), (-1))%Z;
    ([1; 0; 0; 0; -1; 0; 0; 0], (-63), 0)%Z;
    ([1; 0; 0; 0; 1; 0; 0; 0], (-63), 0)%Z;
    ([0; 1; 2; -2; 3; 0; 0; 0], 46, 0)%Z;
    ([0; 1; 2; -2; 1; 0; 0; 0], 45, 0)%Z;
    ([0; 0; 4; -4; 4; 0; 0; 0], 36, 0)%Z;
    ([0; 0; 1; -1; 1; -8; 12; 0], (-24), (-12))%Z;
    ([0; 0; 2; 0; 0; 0; 0; 0], 32, 0)%Z;
    ([0; 0; 2; 0; 2; 0; 0; 0], 28, 0)%Z;
    ([1; 0; 2; 0; 3; 0; 0; 0], 27, 0)%Z;
    ([1; 0; 2; 0; 1; 0; 0; 0], 26, 0)%Z;
    ([0; 0; 2; -2; 0; 0; 0; 0], (-21), 0)%Z;
    ([0; 1; -2; 2; -3; 0; 0; 0], 19, 0)%Z;
    ([0; 1; -2; 2; -1; 0; 0; 0], 18, 0)%Z;
    ([0; 0; 0; 0; 0; 8; -13; -1], (-10), 5)%Z;
    ([0; 0; 0; 2; 0; 0; 0; 0], 15, 0)%Z;
    ([2; 0; -2; 0; -1; 0; 0; 0], (-14), 0)%Z;
    ([1; 0; 0; -2; 1; 0; 0; 0], 14, 0)%Z;
    ([0; 1; 2; -2; 2; 0; 0; 0], (-14), 0)%Z;
    ([1; 0; 0; -2; -1; 0; 0; 0], 14, 0)%Z;
    ([0; 0; 4; -2; 4; 0; 0; 0], 13, 0)%Z;
    ([0; 0; 2; -2; 4; 0; 0; 0], (-11), 0)%Z;
    ([1; 0; -2; 0; -3; 0; 0; 0], 11, 0)%Z;
    ([1; 0; -2; 0; -1; 0; 0; 0], 11, 0)%Z].
Definition eect_t1 : list term := [([0; 0; 0; 0; 1; 0; 0; 0], (-87), 0)%Z].
(** era.rs:312-323 *)
Definition arcsec_argument (p : R) : R := arcsec (rem_t p 1296000).
(** era.rs:319-359, 381-390 *)
Definition eect_args (t : R) : list R := [
    arcsec_argument (485868.249036 + t * (1717915923.2178 + t * (31.8792 + t * (0.051635 - 0.00024470 * t))));
    arcsec_argument (1287104.793048 + t * (129596581.0481 + t * (-0.5532 + t * (0.000136 - 0.00001149 * t))));
    arcsec_argument (335779.526232 + t * (1739527262.8478 + t * (-12.7512 + t * (-0.001037 + 0.00000417 * t))));
    arcsec_argument (1072260.703692 + t * (1602961601.2090 + t * (-6.3706 + t * (0.006593 - 0.00003169 * t))));
    arcsec_argument (450160.398036 + t * (-6962890.5431 + t * (7.4722 + t * (0.007702 - 0.00005939 * t))));
    rem_t (3.176146697 + 1021.3285546211 * t) (2 * PI);
    rem_t (1.753470314 + 628.3075849991 * t) (2 * PI);
    (0.024381750 + 0.00000538691 * t) * t].
(** era.rs:361-371. The inner sum runs over the shorter list. *)
Definition term_angle (nfa : list Z) (args : list R) : R := fold_left (fun a p => a + IZR (fst p) * snd p) (combine nfa args) 0.
Definition evaluate_terms (terms : list term) (args : list R) : R :=
  fold_left (fun sum (e : term) => let '(nfa, s, c) := e in
      sum + IZR s / 100000000 * sin (term_angle nfa args) + IZR c / 100000000 * cos (term_angle nfa args)) (rev terms) 0.
(** era.rs:378-395 *)
Definition complementary (tt : R) : R :=
  let t := centuries tt in
  arcsec (evaluate_terms eect_t0 (eect_args t) + t * evaluate_terms eect_t1 (eect_args t)).
(** era.rs:401-407 *)
Definition equation_of_equinoxes (tt dpsi obliquity : R) : R := dpsi * cos obliquity + complementary tt.
(** sidereal.rs:117-126 *)
Definition gast (ut1 tt dpsi obliquity : R) : R := rem_e (gmst ut1 tt + equation_of_equinoxes tt dpsi obliquity) (2 * PI).

(** precession.rs:69-105: gamma, phi, psi, epsilon *)
Definition fw_gamma (t : R) : R := arcsec (-0.052928 + 10.556378 * t + 0.4932044 * t ^ 2 - 0.00031238 * t ^ 3 - 0.000002788 * t ^ 4 + 0.0000000260 * t ^ 5).
Definition fw_phi (t : R) : R := arcsec (84381.412819 - 46.811016 * t + 0.0511268 * t ^ 2 + 0.00053289 * t ^ 3 - 0.000000440 * t ^ 4 - 0.0000000176 * t ^ 5).
Definition fw_psi (t : R) : R := arcsec (-0.041775 + 5038.481484 * t + 1.5584175 * t ^ 2 - 0.00018522 * t ^ 3 - 0.000026452 * t ^ 4 - 0.0000000148 * t ^ 5).
(** precession.rs:94-96, 120-132 *)
Definition fw_eps (t : R) : R := arcsec (84381.406 - 46.836769 * t - 0.0001831 * t ^ 2 + 0.00200340 * t ^ 3 - 0.000000576 * t ^ 4 - 0.0000000434 * t ^ 5).
Definition mean_obliquity (jd : R) : R := fw_eps (centuries jd).
(** precession.rs:166-169; affn's fused constructor is the product of the four rotations *)
Definition fw_matrix (gam phi psi eps : R) : mat := mul (rx eps) (mul (rz psi) (mul (rx (- phi)) (rz (- gam)))).
(** precession.rs:181-184 *)
Definition precession (jd : R) : mat :=
  let t := centuries jd in fw_matrix (fw_gamma t) (fw_phi t) (fw_psi t) (fw_eps t).
(** precession.rs:200-203 *)
Definition precession_nutation (jd dpsi deps : R) : mat :=
  let t := centuries jd in fw_matrix (fw_gamma t) (fw_phi t) (fw_psi t + dpsi) (fw_eps t + deps).
(** precession.rs:220-224 *)
Definition gcrs_to_ecliptic_of_date (jd : R) : mat := mul (rx (- mean_obliquity jd)) (precession jd).
(** precession.rs:272-275 *)
Definition mean_equatorial_to_ecliptic_of_date (jd : R) : mat := rx (- mean_obliquity jd).
(** precession.rs:240-245, 289-297, given the nutation angles *)
Definition gcrs_to_true_ecliptic (jd dpsi deps : R) : mat := mul (rx (- (mean_obliquity jd + deps))) (precession_nutation jd dpsi deps).
Definition mean_equatorial_to_true_ecliptic (jd dpsi deps : R) : mat :=
  let eps := mean_obliquity jd in
  mul (rx (- (eps + deps))) (mul (rx (eps + deps)) (mul (rz dpsi) (rx (- eps)))).

(** frames/bias.rs:51-107 *)
Definition bias : mat := precession j2000.
Definition j2000_obliquity : R := arcsec 84381.406.
Definition eq_to_ecl : mat := rx (- j2000_obliquity).
Definition ecl_to_eq : mat := rx j2000_obliquity.
Definition icrs_to_ecliptic : mat := mul eq_to_ecl bias.

(** cio.rs:68-76 *)
Definition cip_xy (jd dpsi deps : R) : R * R := let m := precession_nutation jd dpsi deps in (a31 m, a32 m).
(** cio.rs:96-105 *)
Definition cio_s (jd x y : R) : R :=
  let t := centuries jd in
  - (1 / 2) * x * y + arcsec ((94 + 3808.65 * t - 122.68 * t ^ 2 - 72574.11 * t ^ 3) / 1000000).
(** cio.rs:130-168, entry by entry *)
Definition gcrs_to_cirs (x y s : R) : mat :=
  let r2 := x * x + y * y in
  let e := atan2 y x in
  let d := atan2 (sqrt r2) (sqrt (Rmax (1 - r2) 0)) in
  let es := e + s in
  M (cos es * cos d * cos e + sin es * sin e) (cos es * cos d * sin e - sin es * cos e) (cos es * sin d)
    (sin es * cos d * cos e - cos es * sin e) (sin es * cos d * sin e + cos es * cos e) (sin es * sin d)
    (- sin d * cos e) (- sin d * sin e) (cos d).
(** polar_motion.rs:54-57 *)
Definition tio_sp (jd : R) : R := arcsec (-47 * centuries jd / 1000000).
(** polar_motion.rs:72-74 *)
Definition polar_motion (xp yp sp : R) : mat := mul (rz (- sp)) (mul (ry xp) (rx yp)).

(** Earth orientation values (src/astro/eop.rs:58-71), angles already in radians; [dut1] in seconds *)
Record eop := { dut1 : R; xp : R; yp : R; dx : R; dy : R }.
Definition no_eop : eop := {| dut1 := 0; xp := 0; yp := 0; dx := 0; dy := 0 |}.

(** frames_catalog.rs:16-32, 57-73 *)
Definition galactic_to_icrs : mat :=
  M (-0.0548755604162154) (-0.8734370902348851) (-0.4838350155487132)
    0.4941094278755837 (-0.4448296299600112) 0.7469822445802866
    (-0.8676661490190047) (-0.1980763734312015) 0.4559837761750669.
Definition fk4_to_fk5 : mat :=
  M 0.9999256794956877 (-0.0111814832204662) (-0.0048590038153592)
    0.0111814832391717 0.9999374848933135 (-0.0000271625947142)
    0.0048590037723143 (-0.0000271702937440) 0.9999881946023742.

Inductive frame := ICRS | ICRF | GCRS | EME2000 | EqJ2000 | EclJ2000 | MeanOfDate | TrueOfDate | TEME | Galactic | FK4 | CIRS | TIRS | ITRF | ECEF.

Section CHAIN.
  (** The nutation series of the chosen model (src/astro/nutation/mod.rs:152-177); every model reports the mean
      obliquity of date (nutation/mod.rs:166-172, 318; nut00a.rs:318, 331). *)
  Variable dpsi deps : R -> R.
  (** The context's Earth orientation by TT date ([AstroContext::eop_at_tt], context.rs:185-192), and the
      conversion TT to UT1 of the external time crate with those values (earth_rotation.rs:158-174) *)
  Variable eop_at : R -> eop.
  Variable ut1 : R -> eop -> R.

  (** earth_rotation_provider.rs:54-76; the same lines in frames_inertial.rs:244-258 *)
  Definition corrected (jd : R) (e : eop) : R * R :=
    if Req_EM_T (dx e) 0 then
      if Req_EM_T (dy e) 0 then (dpsi jd, deps jd)
      else (if rltb (1 / 10 ^ 15) (Rabs (sin (mean_obliquity jd))) then dpsi jd + dx e / sin (mean_obliquity jd) else dpsi jd, deps jd + dy e)
    else (if rltb (1 / 10 ^ 15) (Rabs (sin (mean_obliquity jd))) then dpsi jd + dx e / sin (mean_obliquity jd) else dpsi jd, deps jd + dy e).

  (** providers/mod.rs:220-228 *)
  Definition cirs_of (jd : R) (e : eop) : mat :=
    let '(dp, de) := corrected jd e in
    let '(x, y) := cip_xy jd dp de in
    gcrs_to_cirs x y (cio_s jd x y).
  (** providers/mod.rs:235-242 *)
  Definition tirs_of (jd : R) (e : eop) : mat := rz (- era (ut1 jd e)).
  (** providers/mod.rs:249-255; polar_motion.rs:80-87 *)
  Definition itrf_of (jd : R) (e : eop) : mat := polar_motion (xp e) (yp e) (tio_sp jd).

  (** frames_inertial.rs:141-195 *)
  Definition j2000_to_mean (jd : R) : mat := mul (precession jd) (transpose bias).
  Definition mean_to_true (jd : R) : mat := mul (rx (mean_obliquity jd + deps jd)) (mul (rz (dpsi jd)) (rx (- mean_obliquity jd))).
  Definition j2000_to_true (jd : R) : mat := mul (precession_nutation jd (dpsi jd) (deps jd)) (transpose bias).
  (** frames_inertial.rs:238-262 *)
  Definition icrs_to_true (jd : R) : mat := let '(dp, de) := corrected jd (eop_at jd) in precession_nutation jd dp de.
  (** frames_teme.rs:21-50 *)
  Definition teme_to_true (jd : R) : mat := rz (dpsi jd * cos (mean_obliquity jd)).
  Definition teme_to_icrs (jd : R) : mat := mul (transpose (icrs_to_true jd)) (teme_to_true jd).
  (** frames_catalog.rs:75-83 *)
  Definition fk4_to_icrs : mat := mul (transpose bias) fk4_to_fk5.
  (** frames_earth.rs:105-173 *)
  Definition icrs_to_cirs (jd : R) : mat := cirs_of jd (eop_at jd).
  Definition icrs_to_tirs (jd : R) : mat := mul (tirs_of jd (eop_at jd)) (icrs_to_cirs jd).
  Definition icrs_to_itrf (jd : R) : mat := mul (itrf_of jd (eop_at jd)) (icrs_to_tirs jd).

  (** Rotations into ICRS that other impls use: EquatorialMeanJ2000 (frames_inertial.rs:80-88), EclipticMeanJ2000
      (60-68), EME2000 (110-119), ICRF (274-282), GCRS (303-311), MeanOfDate (220-228), TrueOfDate (264-272), TEME
      (frames_teme.rs:42-50), Galactic and FK4 (frames_catalog.rs) *)
  Definition into_icrs (jd : R) (f : frame) : option mat :=
    match f with
    | ICRS | ICRF | GCRS => Some identity
    | EqJ2000 | EME2000 => Some (transpose bias)
    | EclJ2000 => Some (transpose icrs_to_ecliptic)
    | MeanOfDate => Some (transpose (precession jd))
    | TrueOfDate => Some (transpose (icrs_to_true jd))
    | TEME => Some (teme_to_icrs jd)
    | Galactic => Some galactic_to_icrs
    | FK4 => Some fk4_to_icrs
    | CIRS | TIRS | ITRF | ECEF => None
    end.
  (** out of ICRS into the Earth-fixed frames (frames_earth.rs:105-173) *)
  Definition icrs_into (jd : R) (f : frame) : option mat :=
    match f with
    | CIRS => Some (icrs_to_cirs jd) | TIRS => Some (icrs_to_tirs jd)
    | ITRF | ECEF => Some (icrs_to_itrf jd)
    | EqJ2000 => Some bias | EclJ2000 => Some icrs_to_ecliptic
    | _ => None
    end.
  (** [compose_rotation] through ICRS (providers/mod.rs:148-159, 285-295) *)
  Definition via_icrs (jd : R) (f g : frame) : option mat :=
    match into_icrs jd f, icrs_into jd g with Some l, Some r => Some (mul r l) | _, _ => None end.

  (** The direct rotations; every other pair is the inverse of one of these or has no impl *)
  Definition forward (jd : R) (f g : frame) : option mat :=
    match f, g with
    (* frames_inertial.rs:49-58, 70-78 *)
    | ICRS, EclJ2000 => Some icrs_to_ecliptic
    | ICRS, EqJ2000 => Some bias
    (* 90-98 *)
    | EME2000, EqJ2000 => Some identity
    (* 110-119: EME2000 as EquatorialMeanJ2000, and the impls of the latter; ICRF and GCRS are 294-301, 323-329 reversed *)
    | EME2000, ICRS | EME2000, ICRF | EME2000, GCRS => Some (transpose bias)
    | EME2000, EclJ2000 => Some eq_to_ecl
    | EME2000, MeanOfDate => Some (j2000_to_mean jd)
    | EME2000, TrueOfDate => Some (j2000_to_true jd)
    (* 121-195, 210-262 *)
    | EqJ2000, EclJ2000 => Some eq_to_ecl
    | EclJ2000, EqJ2000 => Some ecl_to_eq
    | EqJ2000, MeanOfDate => Some (j2000_to_mean jd)
    | MeanOfDate, TrueOfDate => Some (mean_to_true jd)
    | EqJ2000, TrueOfDate => Some (j2000_to_true jd)
    | ICRS, MeanOfDate => Some (precession jd)
    | ICRS, TrueOfDate => Some (icrs_to_true jd)
    (* 274-329 *)
    | ICRF, ICRS | GCRS, ICRS => Some identity
    | ICRF, EqJ2000 | GCRS, EqJ2000 => Some bias
    | ICRF, EclJ2000 | GCRS, EclJ2000 => Some icrs_to_ecliptic
    | ICRF, MeanOfDate => Some (precession jd)
    | ICRF, TrueOfDate | GCRS, TrueOfDate => Some (icrs_to_true jd)
    (* frames_teme.rs *)
    | TEME, TrueOfDate => Some (teme_to_true jd)
    | TEME, ICRS => Some (teme_to_icrs jd)
    (* frames_catalog.rs *)
    | Galactic, ICRS => Some galactic_to_icrs
    | Galactic, EqJ2000 | Galactic, EclJ2000 => via_icrs jd f g
    | FK4, ICRS => Some fk4_to_icrs
    | FK4, EqJ2000 => Some fk4_to_fk5
    (* frames_earth.rs:25-103 *)
    | GCRS, CIRS => Some (icrs_to_cirs jd)
    | CIRS, TIRS => Some (tirs_of jd (eop_at jd))
    | TIRS, ITRF => Some (itrf_of jd (eop_at jd))
    | ITRF, ECEF => Some identity
    (* frames_earth.rs:105-173 *)
    | ICRS, CIRS => Some (icrs_to_cirs jd)
    | ICRS, TIRS => Some (icrs_to_tirs jd)
    | ICRS, ITRF | ICRS, ECEF => Some (icrs_to_itrf jd)
    (* frames_earth.rs:185-226 *)
    | (EclJ2000 | EqJ2000 | EME2000 | MeanOfDate | TrueOfDate | ICRF | TEME | Galactic | FK4), (CIRS | TIRS | ITRF | ECEF) => via_icrs jd f g
    | GCRS, (TIRS | ITRF | ECEF) => via_icrs jd f g
    | _, _ => None
    end.
  Definition frame_eqb (f g : frame) : bool :=
    match f, g with
    | ICRS, ICRS | ICRF, ICRF | GCRS, GCRS | EME2000, EME2000 | EqJ2000, EqJ2000 | EclJ2000, EclJ2000 | MeanOfDate, MeanOfDate
    | TrueOfDate, TrueOfDate | TEME, TEME | Galactic, Galactic | FK4, FK4 | CIRS, CIRS | TIRS, TIRS | ITRF, ITRF | ECEF, ECEF => true
    | _, _ => false
    end.
  (** [frame_rotation] (providers/mod.rs:86-122, 163-171); affn's [inverse] is the transpose. None: no impl. *)
  Definition rotation (jd : R) (f g : frame) : option mat :=
    if frame_eqb f g then Some identity else
    match forward jd f g with
    | Some m => Some m
    | None => option_map transpose (forward jd g f)
    end.

  (** Sites. The topocentric chain looks the Earth orientation up on its own; [None] is an epoch without loaded
      data (earth_rotation_provider.rs:102-105). *)
  Variable site_eop : R -> option eop.
  (** earth_rotation_provider.rs:98-124 *)
  Definition itrs_to_j2000 (jd : R) : mat :=
    let e := match site_eop jd with Some e => e | None => no_eop end in
    let q := cirs_of jd e in
    let w := itrf_of jd e in
    let itrs_to_gcrs := mul (mul q (rz (- era (ut1 jd e)))) (transpose w) in
    mul bias itrs_to_gcrs.
  (** to_topocentric.rs:53-70: the site in EquatorialMeanJ2000. [to_frame] of lines 112-113 into a fixed J2000 or
      ICRS frame is the rotation [g]. *)
  Definition site_in (jd : R) (g : mat) (site : vec) : vec := apply g (apply (itrs_to_j2000 jd) site).
  (** to_topocentric.rs:96-120, 195-212 *)
  Definition to_topocentric (jd : R) (g : mat) (site pos : vec) : vec :=
    let '(x, y, z) := pos in let '(a, b, c) := site_in jd g site in (x - a, y - b, z - c).
  Definition to_geocentric (jd : R) (g : mat) (site pos : vec) : vec :=
    let '(x, y, z) := pos in let '(a, b, c) := site_in jd g site in (x + a, y + b, z + c).
  (** observer_state.rs:140-164: the diurnal part, in metres per second; [omega] is 7.292115e-5 per second *)
  Definition omega : R := 0.00007292115.
  Definition diurnal_velocity (jd : R) (site : vec) : vec :=
    let '(x, y, z) := site in apply (itrs_to_j2000 jd) (- y * omega, x * omega, 0).
End CHAIN.

(** frame_bias.rs:68-80 *)
Definition frame_bias_gcrs_to_eme2000 : mat := mul (rx (arcsec (-0.0068192))) (mul (ry (- arcsec (-0.0166170))) (rz (- arcsec (-0.0146)))).

(** ecliptic_of_date.rs:86-140 and 209-260: to spherical angles, rotate, back through spherical angles. Degrees and
    radians are the same real angle; affn's spherical to_cartesian is the unit vector of the angles, and its
    to_spherical of a unit vector are the angles of lines 102-103. *)
Definition unit_of (lat lon : R) : vec := (cos lat * cos lon, cos lat * sin lon, sin lat).
Definition clamp1 (x : R) : R := Rmax (-1) (Rmin x 1).
Definition angles_of (v : vec) : R * R := let '(x, y, z) := v in (asin (clamp1 z), rem_e (atan2 y x) (2 * PI)).
Definition redirect (m : mat) (d : vec) : vec :=
  let '(lat, lon) := angles_of d in
  let '(lat', lon') := angles_of (apply m (unit_of lat lon)) in unit_of lat' lon'.
Definition mean_to_ecliptic_of_date (jd : R) (d : vec) : vec := redirect (mean_equatorial_to_ecliptic_of_date jd) d.
Definition icrs_to_ecliptic_of_date (jd : R) (d : vec) : vec := redirect (gcrs_to_ecliptic_of_date jd) d.
Definition ecliptic_of_date_to_mean (jd : R) (d : vec) : vec := redirect (transpose (mean_equatorial_to_ecliptic_of_date jd)) d.
Definition ecliptic_of_date_to_icrs (jd : R) (d : vec) : vec := redirect (transpose (gcrs_to_ecliptic_of_date jd)) d.
