(** Facts about the rotation of the Earth and the frame rotations. *)
From Coq Require Import List ZArith Bool Reals Lra Lia.
From Verif Require Import Base Mat3 Ang Geom_Model Geom_Proofs Moon_Model Earth_Model.
Import ListNotations.
Local Open Scope R_scope.

(** * Elementary rotations *)
Definition proper (m : mat) : Prop := orthonormal m /\ det m = 1.
Lemma proper_mul a b : proper a -> proper b -> proper (mul a b).
Proof. intros (A & Da) (B & Db). split; [now apply orthonormal_mul|]. rewrite det_mul, Da, Db. ring. Qed.
Lemma proper_transpose a : proper a -> proper (transpose a).
Proof. intros (A & Da). split; [now apply orthonormal_transpose|]. now rewrite det_transpose. Qed.
Lemma proper_identity : proper identity.
Proof. split; [apply orthonormal_identity|]. unfold det; cbn. ring. Qed.
Lemma rx_proper a : proper (rx a). Proof. apply r1_orthonormal. Qed.
Lemma rz_proper a : proper (rz a). Proof. apply r3_orthonormal. Qed.
Lemma ry_proper a : proper (ry a).
Proof.
  pose proof (sin2_cos2 a) as H. unfold Rsqr in H. split.
  - apply mat_eq; cbn; try ring; lra.
  - unfold det, ry; cbn. lra.
Qed.
Lemma proper_r m : proper m -> mul m (transpose m) = identity. Proof. intros (H & _). now apply orthonormal_r. Qed.
Lemma proper_l m : proper m -> mul (transpose m) m = identity. Proof. intros (H & _). exact H. Qed.
Lemma rx_form a : rx a = M 1 0 0 0 (cos a) (- sin a) 0 (sin a) (cos a).
Proof. unfold rx, r1. rewrite cos_neg, sin_neg. apply mat_eq; cbn; ring. Qed.
Lemma rz_form a : rz a = M (cos a) (- sin a) 0 (sin a) (cos a) 0 0 0 1.
Proof. unfold rz, r3. rewrite cos_neg, sin_neg. apply mat_eq; cbn; ring. Qed.
Lemma rx_add a b : mul (rx a) (rx b) = rx (a + b).
Proof. rewrite !rx_form, cos_plus, sin_plus. mat. Qed.
Lemma rz_add a b : mul (rz a) (rz b) = rz (a + b).
Proof. rewrite !rz_form, cos_plus, sin_plus. mat. Qed.
Lemma rx_0 : rx 0 = identity. Proof. rewrite rx_form, cos_0, sin_0. apply mat_eq; cbn; ring. Qed.
Lemma rz_0 : rz 0 = identity. Proof. rewrite rz_form, cos_0, sin_0. apply mat_eq; cbn; ring. Qed.
Lemma rx_transpose a : transpose (rx a) = rx (- a).
Proof. rewrite !rx_form, cos_neg, sin_neg. apply mat_eq; cbn; ring. Qed.
Lemma rz_transpose a : transpose (rz a) = rz (- a).
Proof. rewrite !rz_form, cos_neg, sin_neg. apply mat_eq; cbn; ring. Qed.

Lemma fw_proper a b c d : proper (fw_matrix a b c d).
Proof. unfold fw_matrix. repeat apply proper_mul; first [apply rx_proper | apply rz_proper]. Qed.
Lemma precession_proper jd : proper (precession jd). Proof. apply fw_proper. Qed.
Lemma precession_nutation_proper jd p e : proper (precession_nutation jd p e). Proof. apply fw_proper. Qed.
Lemma bias_proper : proper bias. Proof. apply precession_proper. Qed.
Lemma polar_proper a b c : proper (polar_motion a b c).
Proof. unfold polar_motion. apply proper_mul; [apply rz_proper|]. apply proper_mul; [apply ry_proper|apply rx_proper]. Qed.
Lemma gcrs_to_cirs_form x y s : gcrs_to_cirs x y s =
  let e := atan2 y x in let d := atan2 (sqrt (x * x + y * y)) (sqrt (Rmax (1 - (x * x + y * y)) 0)) in
  mul (rz (e + s)) (mul (ry d) (rz (- e))).
Proof. cbv zeta. unfold gcrs_to_cirs. rewrite !rz_form. rewrite cos_neg, sin_neg. apply mat_eq; cbn; ring. Qed.
Lemma gcrs_to_cirs_proper x y s : proper (gcrs_to_cirs x y s).
Proof. rewrite gcrs_to_cirs_form. cbv zeta. apply proper_mul; [apply rz_proper|]. apply proper_mul; [apply ry_proper|apply rz_proper]. Qed.

(** * The Earth rotation angle *)
Lemma rem_t_1 x : exists k, rem_t x 1 = x - IZR k.
Proof. unfold rem_t. exists (trunc (x / 1)). lra. Qed.
Lemma rem_e_congr x y k : rem_e (x + IZR k) 1 = rem_e y 1 -> exists j, x = y + IZR j.
Proof.
  unfold rem_e. intros H. exists (Int_part ((x + IZR k) / 1) - Int_part (y / 1) - k)%Z. rewrite !minus_IZR. lra.
Qed.
Lemma era_parts_eq d1 d2 : era_parts d1 d2 = rem_e (era0 + (1 + eras) * (d1 + d2 - j2000)) 1 * (2 * PI).
Proof.
  unfold era_parts.
  assert (G : forall a b, a + b = d1 + d2 -> rem_e (fmod_c a 1 + fmod_c b 1 + era0 + eras * (a + (b - j2000))) 1 =
     rem_e (era0 + (1 + eras) * (d1 + d2 - j2000)) 1).
  { intros a b H. unfold fmod_c. destruct (rem_t_1 a) as (k & ->), (rem_t_1 b) as (j & ->).
    rewrite <- (rem_e_shift (era0 + (1 + eras) * (d1 + d2 - j2000)) 1 (2451545 - k - j)%Z) by lra. f_equal.
    rewrite !minus_IZR. unfold j2000. replace (d1 + d2) with (a + b). ring. }
  destruct (rltb d1 d2); rewrite G; auto; ring.
Qed.

(** Angles that differ by whole turns *)
Definition same_angle (a b : R) : Prop := exists k : Z, a = b + 2 * PI * IZR k.
Lemma same_refl a : same_angle a a. Proof. exists 0%Z. ring. Qed.
Lemma same_sym a b : same_angle a b -> same_angle b a.
Proof. intros (k & ->). exists (- k)%Z. rewrite opp_IZR. ring. Qed.
Lemma same_trans a b c : same_angle a b -> same_angle b c -> same_angle a c.
Proof. intros (k & ->) (j & ->). exists (j + k)%Z. rewrite plus_IZR. ring. Qed.
Lemma same_add a b c d : same_angle a b -> same_angle c d -> same_angle (a + c) (b + d).
Proof. intros (k & ->) (j & ->). exists (k + j)%Z. rewrite plus_IZR. ring. Qed.
Lemma same_rem a : same_angle (rem_e a (2 * PI)) a.
Proof. exists (- Int_part (a / (2 * PI)))%Z. unfold rem_e. rewrite opp_IZR. ring. Qed.
Lemma same_cos a b : same_angle a b -> cos a = cos b. Proof. intros (k & ->). apply cos_turns. Qed.
Lemma same_sin a b : same_angle a b -> sin a = sin b. Proof. intros (k & ->). apply sin_turns. Qed.
Lemma same_unique a b : 0 <= a < 2 * PI -> 0 <= b < 2 * PI -> same_angle a b -> a = b.
Proof. intros A B (k & H). pose proof PI_RGT_0. rewrite <- (rem_e_unique a (2 * PI) b k), rem_e_small; auto; lra. Qed.

Lemma era_range d1 d2 : 0 <= era_parts d1 d2 < 2 * PI.
Proof.
  rewrite era_parts_eq. pose proof PI_RGT_0. destruct (rem_e_range (era0 + (1 + eras) * (d1 + d2 - j2000)) 1) as (A & B); [lra|].
  split; [apply Rmult_le_pos; lra|]. rewrite <- (Rmult_1_l (2 * PI)) at 2. apply Rmult_lt_compat_r; lra.
Qed.
Lemma era_same d1 d2 : same_angle (era_parts d1 d2) (2 * PI * (era0 + (1 + eras) * (d1 + d2 - j2000))).
Proof.
  rewrite era_parts_eq. exists (- Int_part ((era0 + (1 + eras) * (d1 + d2 - j2000)) / 1))%Z. unfold rem_e. rewrite opp_IZR. ring.
Qed.

(** * Complementary terms *)
Lemma term_angle_acc nfa args acc :
  fold_left (fun a p => a + IZR (fst p) * snd p) (combine nfa args) acc = acc + term_angle nfa args.
Proof.
  unfold term_angle. revert args acc. induction nfa as [|n nfa IH]; intros [|a args] acc; cbn [combine fold_left]; try ring.
  rewrite IH, (IH args (0 + _)). cbn [fst snd]. ring.
Qed.
Lemma term_angle_cons n nfa a args : term_angle (n :: nfa) (a :: args) = IZR n * a + term_angle nfa args.
Proof. unfold term_angle at 1. cbn [combine fold_left fst snd]. rewrite term_angle_acc. ring. Qed.
Lemma term_angle_same nfa : forall args args', Forall2 same_angle args args' -> same_angle (term_angle nfa args) (term_angle nfa args').
Proof.
  induction nfa as [|n nfa IH]; intros args args' H.
  - apply same_refl.
  - destruct H as [|a a' args args' (k & ->) H]; [apply same_refl|]. rewrite !term_angle_cons. apply same_add; [|now apply IH].
    exists (n * k)%Z. rewrite mult_IZR. ring.
Qed.
Definition rsum (l : list R) : R := fold_right Rplus 0 l.
Definition term_value (args : list R) (e : term) : R :=
  let '(nfa, s, c) := e in IZR s / 100000000 * sin (term_angle nfa args) + IZR c / 100000000 * cos (term_angle nfa args).
Lemma evaluate_terms_sum terms args : evaluate_terms terms args = rsum (map (term_value args) terms).
Proof.
  unfold evaluate_terms.
  rewrite <- fold_left_rev_right, rev_involutive.
  induction terms as [|((nfa, s), c) terms IH]; cbn [fold_right map rsum term_value]; [reflexivity|].
  unfold rsum in IH |- *. rewrite IH. cbn [fold_right]. ring.
Qed.
Lemma terms_same terms args args' : Forall2 same_angle args args' -> evaluate_terms terms args = evaluate_terms terms args'.
Proof.
  intros H. rewrite !evaluate_terms_sum. f_equal. apply map_ext. intros ((nfa, s), c). cbn [term_value].
  rewrite (same_cos _ _ (term_angle_same nfa _ _ H)), (same_sin _ _ (term_angle_same nfa _ _ H)). reflexivity.
Qed.
Definition weight (e : term) : Z := let '(_, s, c) := e in (Z.abs s + Z.abs c)%Z.
Lemma terms_bound terms args : Rabs (evaluate_terms terms args) <= IZR (fold_right Z.add 0%Z (map weight terms)) / 100000000.
Proof.
  rewrite evaluate_terms_sum. induction terms as [|((nfa, s), c) terms IH]; cbn [map rsum fold_right weight].
  - rewrite Rabs_R0. lra.
  - unfold rsum in IH. rewrite plus_IZR, plus_IZR, !abs_IZR. eapply Rle_trans; [apply Rabs_triang|].
    rewrite Rdiv_plus_distr. apply Rplus_le_compat; [|exact IH]. cbn [term_value]. eapply Rle_trans; [apply Rabs_triang|].
    rewrite !Rabs_mult, !Rdiv_plus_distr. unfold Rdiv. rewrite !Rabs_mult, (Rabs_right (/ 100000000)) by lra.
    set (th := term_angle nfa args). assert (A : Rabs (sin th) <= 1) by (apply Rabs_le, SIN_bound). assert (B : Rabs (cos th) <= 1) by (apply Rabs_le, COS_bound).
    apply Rplus_le_compat.
    + rewrite <- Rmult_1_r. apply Rmult_le_compat_l; [|exact A]. apply Rmult_le_pos; [apply Rabs_pos|lra].
    + rewrite <- Rmult_1_r. apply Rmult_le_compat_l; [|exact B]. apply Rmult_le_pos; [apply Rabs_pos|lra].
Qed.

(** * Frame rotations *)
Section FRAMES.
  Variable dpsi deps : R -> R.
  Variable eop_at : R -> eop.
  Variable ut1 : R -> eop -> R.
  Notation icrs_to_true := (icrs_to_true dpsi deps eop_at).
  Notation icrs_to_cirs := (icrs_to_cirs dpsi deps eop_at).
  Notation icrs_to_tirs := (icrs_to_tirs dpsi deps eop_at ut1).
  Notation icrs_to_itrf := (icrs_to_itrf dpsi deps eop_at ut1).
  Notation rotation := (rotation dpsi deps eop_at ut1).
  Notation forward := (forward dpsi deps eop_at ut1).

  Lemma icrs_to_true_proper jd : proper (icrs_to_true jd).
  Proof. unfold Earth_Model.icrs_to_true. destruct (corrected _ _ _ _). apply precession_nutation_proper. Qed.
  Lemma cirs_of_proper jd e : proper (cirs_of dpsi deps jd e).
  Proof. unfold cirs_of. destruct (corrected _ _ _ _). destruct (cip_xy _ _ _). apply gcrs_to_cirs_proper. Qed.
  Lemma icrs_to_cirs_proper jd : proper (icrs_to_cirs jd). Proof. apply cirs_of_proper. Qed.
  Lemma icrs_to_tirs_proper jd : proper (icrs_to_tirs jd).
  Proof. apply proper_mul; [apply rz_proper|apply icrs_to_cirs_proper]. Qed.
  Lemma icrs_to_itrf_proper jd : proper (icrs_to_itrf jd).
  Proof. apply proper_mul; [apply polar_proper|apply icrs_to_tirs_proper]. Qed.

  (** Each frame's axes in ICRS, when there are no celestial pole offsets *)
  Definition into (jd : R) (f : frame) : mat :=
    match f with
    | ICRS | ICRF | GCRS => identity
    | EqJ2000 | EME2000 => transpose bias
    | EclJ2000 => transpose icrs_to_ecliptic
    | MeanOfDate => transpose (precession jd)
    | TrueOfDate => transpose (precession_nutation jd (dpsi jd) (deps jd))
    | TEME => mul (transpose (precession_nutation jd (dpsi jd) (deps jd))) (teme_to_true dpsi jd)
    | Galactic => galactic_to_icrs
    | FK4 => fk4_to_icrs
    | CIRS => transpose (icrs_to_cirs jd) | TIRS => transpose (icrs_to_tirs jd)
    | ITRF | ECEF => transpose (icrs_to_itrf jd)
    end.
  Definition catalog (f : frame) : Prop := f = Galactic \/ f = FK4.
  Lemma into_proper jd f : ~ catalog f -> proper (into jd f).
  Proof.
    intros H. assert (E : proper icrs_to_ecliptic) by (apply proper_mul; [apply rx_proper|apply bias_proper]).
    destruct f; cbn [into]; try (exfalso; apply H; unfold catalog; tauto); try apply proper_identity; try apply proper_transpose; auto using bias_proper, precession_proper, precession_nutation_proper, icrs_to_cirs_proper, icrs_to_tirs_proper, icrs_to_itrf_proper.
    apply proper_mul; [apply proper_transpose, precession_nutation_proper|apply rz_proper].
  Qed.

  Lemma mean_to_true_eq jd : mul (mean_to_true dpsi deps jd) (precession jd) = precession_nutation jd (dpsi jd) (deps jd).
  Proof.
    unfold mean_to_true, precession, precession_nutation, fw_matrix, mean_obliquity. cbv zeta. set (t := centuries jd).
    rewrite <- !mul_assoc. rewrite (mul_assoc (rx (- fw_eps t)) (rx (fw_eps t))), rx_add.
    replace (- fw_eps t + fw_eps t) with 0 by ring. rewrite rx_0, mul_1_l, (mul_assoc (rz (dpsi jd)) (rz _)), rz_add.
    rewrite (Rplus_comm (dpsi jd)). reflexivity.
  Qed.
  Lemma cancel_l m a : proper m -> mul m (mul (transpose m) a) = a.
  Proof. intros H. now rewrite mul_assoc, (proper_r m H), mul_1_l. Qed.
  Lemma cancel_l' m a : proper m -> mul (transpose m) (mul m a) = a.
  Proof. intros H. now rewrite mul_assoc, (proper_l m H), mul_1_l. Qed.

  Definition no_offsets (jd : R) : Prop := dx (eop_at jd) = 0 /\ dy (eop_at jd) = 0.
  Lemma no_offsets_true jd : no_offsets jd -> icrs_to_true jd = precession_nutation jd (dpsi jd) (deps jd).
  Proof.
    intros (H & K). unfold Earth_Model.icrs_to_true, corrected.
    destruct (Req_EM_T (dx (eop_at jd)) 0); [|contradiction]. destruct (Req_EM_T (dy (eop_at jd)) 0); [|contradiction]. reflexivity.
  Qed.
  Ltac pieces := auto using bias_proper, precession_proper, precession_nutation_proper, icrs_to_cirs_proper, icrs_to_tirs_proper, icrs_to_itrf_proper, rx_proper, rz_proper, polar_proper.
  Lemma forward_into jd f g m : no_offsets jd -> forward jd f g = Some m -> m = mul (transpose (into jd g)) (into jd f).
  Proof.
    intros N. pose proof (no_offsets_true jd N) as T.
    assert (Q : forall a, mul (transpose eq_to_ecl) a = mul ecl_to_eq a).
    { intros a. unfold eq_to_ecl, ecl_to_eq. rewrite rx_transpose. do 2 f_equal. ring. }
    destruct f, g; cbn [Earth_Model.forward via_icrs into_icrs icrs_into]; intros E; try discriminate E;
      injection E as <-; cbn [into]; unfold teme_to_icrs, fk4_to_icrs, j2000_to_mean, j2000_to_true; try rewrite T;
      rewrite ?transpose_transpose, ?mul_1_r, ?mul_1_l, ?transpose_mul, ?transpose_transpose; auto.
    all: try (rewrite cancel_l by pieces; reflexivity).
    all: try (rewrite proper_l by pieces; reflexivity).
    all: try (rewrite proper_r by pieces; reflexivity).
    all: unfold icrs_to_ecliptic, Earth_Model.icrs_to_tirs, Earth_Model.icrs_to_itrf, teme_to_icrs; rewrite ?transpose_mul, ?transpose_transpose.
    all: rewrite <- ?mul_assoc.
    - now rewrite (proper_r bias bias_proper), mul_1_r.
    - now rewrite (proper_r bias bias_proper), mul_1_r.
    - rewrite cancel_l by pieces. unfold eq_to_ecl, ecl_to_eq. rewrite rx_transpose. f_equal. ring.
    - rewrite <- mean_to_true_eq, <- mul_assoc, (proper_r _ (precession_proper jd)), mul_1_r. reflexivity.
    - rewrite (proper_r _ (icrs_to_cirs_proper jd)), mul_1_r. reflexivity.
    - rewrite <- transpose_mul. change (mul (tirs_of ut1 jd (eop_at jd)) (icrs_to_cirs jd)) with (icrs_to_tirs jd).
      rewrite (proper_r _ (icrs_to_tirs_proper jd)), mul_1_r. reflexivity.
  Qed.
  Lemma frame_eqb_spec f g : frame_eqb f g = true <-> f = g.
  Proof. split; [destruct f, g; cbn; intros E; try discriminate E; reflexivity|intros <-; destruct f; reflexivity]. Qed.
  Lemma rotation_into jd f g m : no_offsets jd -> f <> g -> rotation jd f g = Some m -> m = mul (transpose (into jd g)) (into jd f).
  Proof.
    intros N D. unfold Earth_Model.rotation. destruct (frame_eqb f g) eqn:E; [apply frame_eqb_spec in E; contradiction|].
    destruct (forward jd f g) as [k|] eqn:F.
    - intros K. injection K as <-. exact (forward_into jd f g k N F).
    - destruct (forward jd g f) as [k|] eqn:F'; [|discriminate]. cbn [option_map]. intros K. injection K as <-.
      rewrite (forward_into jd g f k N F'), transpose_mul, transpose_transpose. reflexivity.
  Qed.
  (** No pair is given in both directions except the obliquity rotations, which are inverse. *)
  Lemma forward_once jd f g a b : forward jd f g = Some a -> forward jd g f = Some b -> b = transpose a.
  Proof.
    destruct f, g; cbn [Earth_Model.forward via_icrs into_icrs icrs_into]; intros E F; try discriminate E; try discriminate F.
    - injection E as <-. injection F as <-. unfold eq_to_ecl, ecl_to_eq. rewrite rx_transpose. f_equal. ring.
    - injection E as <-. injection F as <-. unfold eq_to_ecl, ecl_to_eq. now rewrite rx_transpose.
  Qed.
  Lemma rotation_inverse jd f g a : rotation jd f g = Some a -> rotation jd g f = Some (transpose a).
  Proof.
    unfold Earth_Model.rotation. destruct (frame_eqb f g) eqn:E.
    - apply frame_eqb_spec in E. subst g. replace (frame_eqb f f) with true by (symmetry; now apply frame_eqb_spec).
      intros K. injection K as <-. f_equal.
    - replace (frame_eqb g f) with false.
      2: { destruct (frame_eqb g f) eqn:E'; [|reflexivity]. apply frame_eqb_spec in E'. subst. rewrite (proj2 (frame_eqb_spec f f) eq_refl) in E. discriminate. }
      destruct (forward jd f g) as [k|] eqn:F.
      + intros K. injection K as <-. destruct (forward jd g f) as [k'|] eqn:F'; [|reflexivity]. f_equal. exact (forward_once jd f g k k' F F').
      + destruct (forward jd g f) as [k|] eqn:F'; [|discriminate]. cbn [option_map]. intros K. injection K as <-. now rewrite transpose_transpose.
  Qed.
  Lemma forward_proper jd f g m : ~ catalog f -> ~ catalog g -> forward jd f g = Some m -> proper m.
  Proof.
    intros Hf Hg E. assert (X : proper icrs_to_ecliptic) by (apply proper_mul; [apply rx_proper|apply bias_proper]).
    assert (Y : proper (teme_to_icrs dpsi deps eop_at jd)) by (apply proper_mul; [apply proper_transpose, icrs_to_true_proper|apply rz_proper]).
    revert E. destruct f; try (exfalso; apply Hf; unfold catalog; tauto); destruct g; try (exfalso; apply Hg; unfold catalog; tauto);
      cbn [Earth_Model.forward via_icrs into_icrs icrs_into]; intros E; try discriminate E; injection E as <-;
      unfold eq_to_ecl, ecl_to_eq, j2000_to_mean, j2000_to_true, mean_to_true, teme_to_true, tirs_of, itrf_of;
      repeat apply proper_mul; try apply proper_transpose; try apply proper_identity; pieces; try apply icrs_to_true_proper; auto; try apply ry_proper; try apply rx_proper; try apply rz_proper.
  Qed.
  Lemma rotation_proper jd f g m : ~ catalog f -> ~ catalog g -> rotation jd f g = Some m -> proper m.
  Proof.
    intros Hf Hg. unfold Earth_Model.rotation. destruct (frame_eqb f g); [intros K; injection K as <-; apply proper_identity|].
    destruct (forward jd f g) as [k|] eqn:F; [intros K; injection K as <-; eauto using forward_proper|].
    destruct (forward jd g f) as [k|] eqn:F'; [|discriminate]. cbn [option_map]. intros K. injection K as <-.
    apply proper_transpose. eauto using forward_proper.
  Qed.
  Lemma catalog_dec f : {catalog f} + {~ catalog f}.
  Proof. destruct f; solve [left; unfold catalog; tauto | right; unfold catalog; intros [K|K]; discriminate K]. Qed.
  Lemma frame_dec (f g : frame) : {f = g} + {f <> g}. Proof. decide equality. Qed.
  Lemma rotation_self jd f : rotation jd f f = Some identity.
  Proof. unfold Earth_Model.rotation. now rewrite (proj2 (frame_eqb_spec f f) eq_refl). Qed.
  Lemma rotation_compose jd f g h a b c : no_offsets jd -> ~ catalog g -> (f = h -> ~ catalog f) ->
    rotation jd f g = Some a -> rotation jd g h = Some b -> rotation jd f h = Some c -> c = mul b a.
  Proof.
    intros N G FH A B C.
    destruct (frame_dec f g) as [<-|D1].
    { rewrite rotation_self in A. injection A as <-. rewrite mul_1_r. congruence. }
    destruct (frame_dec g h) as [<-|D2].
    { rewrite rotation_self in B. injection B as <-. rewrite mul_1_l. congruence. }
    destruct (frame_dec f h) as [<-|D3].
    { rewrite rotation_self in C. injection C as <-. pose proof (rotation_inverse _ _ _ _ A) as B'. rewrite B in B'. injection B' as ->.
      symmetry. apply proper_l. eauto using rotation_proper. }
    rewrite (rotation_into _ _ _ _ N D1 A), (rotation_into _ _ _ _ N D2 B), (rotation_into _ _ _ _ N D3 C).
    rewrite <- mul_assoc, (mul_assoc (into jd g)), (proper_r _ (into_proper jd g G)), mul_1_l. reflexivity.
  Qed.
End FRAMES.

(** * The celestial pole and the two Earth-fixed chains *)
Lemma two_angles e1 p1 e2 p2 : Rabs (p1 - p2) < 2 * PI -> Rabs (e1 - e2) < 2 * PI ->
  mul (rx e1) (rz p1) = mul (rx e2) (rz p2) -> e1 = e2 /\ p1 = p2.
Proof.
  intros P E H. rewrite !rx_form, !rz_form in H. cbn in H. injection H. intros. split; apply angle_unique; auto; lra.
Qed.
Lemma pn_injective jd p1 e1 p2 e2 : Rabs (p1 - p2) < 2 * PI -> Rabs (e1 - e2) < 2 * PI ->
  precession_nutation jd p1 e1 = precession_nutation jd p2 e2 -> p1 = p2 /\ e1 = e2.
Proof.
  intros P E. unfold precession_nutation, fw_matrix. cbv zeta. set (t := centuries jd). set (k := mul (rx (- fw_phi t)) (rz (- fw_gamma t))).
  assert (K : proper k) by (apply proper_mul; [apply rx_proper|apply rz_proper]).
  intros H. apply (f_equal (fun m => mul m (transpose k))) in H. rewrite <- !mul_assoc, (proper_r k K), !mul_1_r in H.
  apply two_angles in H; [lra| |].
  - replace (fw_psi t + p1 - (fw_psi t + p2)) with (p1 - p2) by ring. exact P.
  - replace (fw_eps t + e1 - (fw_eps t + e2)) with (e1 - e2) by ring. exact E.
Qed.

Lemma cirs_angles x y : x * x + y * y <= 1 ->
  let e := atan2 y x in let d := atan2 (sqrt (x * x + y * y)) (sqrt (Rmax (1 - (x * x + y * y)) 0)) in
  sin d * cos e = x /\ sin d * sin e = y /\ cos d = sqrt (1 - (x * x + y * y)) /\ sin d = sqrt (x * x + y * y).
Proof.
  intros H. cbv zeta. set (r2 := x * x + y * y) in *. assert (P : 0 <= r2) by (unfold r2; nra).
  rewrite Rmax_left by lra.
  destruct (atan2_polar (sqrt r2) (sqrt (1 - r2))) as (C & S').
  { destruct (Req_dec r2 0) as [->|Z]; [left; rewrite Rminus_0_r, sqrt_1; lra|right; apply Rgt_not_eq, sqrt_lt_R0; lra]. }
  assert (U : sqrt ((sqrt (1 - r2))² + (sqrt r2)²) = 1).
  { rewrite !Rsqr_sqrt by lra. replace (1 - r2 + r2) with 1 by ring. apply sqrt_1. }
  rewrite U, Rmult_1_l in C, S'. rewrite C, S'. repeat split.
  - destruct (Req_dec r2 0) as [Z|Z].
    + rewrite Z, sqrt_0. unfold r2 in Z. assert (x = 0) by nra. lra.
    + destruct (atan2_polar y x) as (A & _). { destruct (Req_dec x 0); [right|left]; auto. intros ->. apply Z. unfold r2. subst. ring. }
      unfold Rsqr in A. fold r2 in A. exact A.
  - destruct (Req_dec r2 0) as [Z|Z].
    + rewrite Z, sqrt_0. unfold r2 in Z. assert (y = 0) by nra. lra.
    + destruct (atan2_polar y x) as (_ & A). { destruct (Req_dec x 0); [right|left]; auto. intros ->. apply Z. unfold r2. subst. ring. }
      unfold Rsqr in A. fold r2 in A. exact A.
Qed.

Lemma pole_of_orthonormal m : proper m -> a31 m * a31 m + a32 m * a32 m + a33 m * a33 m = 1.
Proof. intros H. pose proof (f_equal a33 (proper_r m H)) as E. cbn in E. lra. Qed.
Lemma cip_in_disc jd p e : let '(x, y) := cip_xy jd p e in x * x + y * y <= 1.
Proof.
  unfold cip_xy. cbv zeta. pose proof (pole_of_orthonormal _ (precession_nutation_proper jd p e)).
  set (m := precession_nutation jd p e) in *. nra.
Qed.
(** Two turns of the matrix about the pole axis only if the pole is the axis *)
Lemma square_axis x y s a : x * x + y * y <= 1 -> -1 < cos s -> mul (gcrs_to_cirs x y s) (gcrs_to_cirs x y s) = rz a -> x = 0 /\ y = 0.
Proof.
  intros D S' H. apply (f_equal a33) in H. rewrite rz_form in H. unfold gcrs_to_cirs in H. cbn in H.
  destruct (cirs_angles x y D) as (A & B & C & E). set (e := atan2 y x) in *.
  set (d := atan2 (sqrt (x * x + y * y)) (sqrt (Rmax (1 - (x * x + y * y)) 0))) in *.
  assert (K : - (sin d * sin d) * (cos (e + s) * cos e + sin (e + s) * sin e) + cos d * cos d = 1) by lra.
  rewrite <- cos_minus in K. replace (e + s - e) with s in K by ring.
  pose proof (sin2_cos2 d) as T. unfold Rsqr in T.
  assert (Z : sin d * sin d * (1 + cos s) = 0) by lra.
  assert (Z' : sin d * sin d = 0) by (apply Rmult_integral in Z; destruct Z; lra).
  assert (Z2 : sin d = 0) by (apply Rmult_integral in Z'; tauto).
  rewrite Z2 in A, B. lra.
Qed.

(** * Spin and velocity *)
Lemma chain_turn (K L : mat) th de : proper K ->
  mul K (mul (rz (th + de)) L) = mul (mul K (mul (rz de) (transpose K))) (mul K (mul (rz th) L)).
Proof.
  intros H. rewrite <- !mul_assoc, (mul_assoc (transpose K) K), (proper_l K H), mul_1_l, (mul_assoc (rz de) (rz th)), rz_add.
  now rewrite Rplus_comm.
Qed.
(** A turn about one axis is not the opposite turn about an axis on the same side. *)
Lemma opposite_turns A B : proper A -> proper B ->
  (forall th, mul A (mul (rz th) (transpose A)) = mul B (mul (rz (- th)) (transpose B))) ->
  dot3 (apply A (0, 0, 1)) (apply B (0, 0, 1)) = -1.
Proof.
  intros HA HB H. specialize (H (PI / 2)).
  assert (E : mul (mul (transpose B) A) (rz (PI / 2)) = mul (rz (- (PI / 2))) (mul (transpose B) A)).
  { apply (f_equal (fun m => mul (transpose B) (mul m A))) in H.
    rewrite <- !mul_assoc, (proper_l A HA), mul_1_r in H. rewrite <- mul_assoc, H.
    now rewrite (mul_assoc (transpose B) B), (proper_l B HB), mul_1_l. }
  set (C := mul (transpose B) A) in *.
  assert (PC : proper C) by (apply proper_mul; [now apply proper_transpose|assumption]).
  rewrite !rz_form, cos_neg, sin_neg, cos_PI2, sin_PI2 in E. destruct C as [c11 c12 c13 c21 c22 c23 c31 c32 c33] eqn:EC. cbn in E.
  injection E as E1 E2 E3 E4 E5 E6 E7 E8.
  destruct PC as (O & D). unfold orthonormal in O. cbn in O. unfold det in D. cbn in D.
  injection O as O1 O2 O3 O4 O5 O6 O7 O8 O9.
  assert (Z : c13 = 0 /\ c23 = 0 /\ c31 = 0 /\ c32 = 0) by (repeat split; lra). destruct Z as (-> & -> & -> & ->).
  assert (c12 = c21) by lra. assert (c22 = - c11) by lra. subst c12 c22.
  assert (Q : c11 * c11 + c21 * c21 = 1) by lra.
  assert (c33 = -1). { replace (c11 * (- c11 * c33 - 0 * 0) - c21 * (c21 * c33 - 0 * 0) + 0 * (c21 * 0 - - c11 * 0)) with (- (c11 * c11 + c21 * c21) * c33) in D by ring. rewrite Q in D. lra. }
  transitivity (a33 C); [|now rewrite EC].
  unfold C. destruct A, B. cbn. ring.
Qed.

Definition rate : R := 2 * PI * (1 + eras).
Lemma era_cos u : cos (era u) = cos (2 * PI * era0 + rate * (u - j2000)).
Proof. unfold era. rewrite (same_cos _ _ (era_same _ _)). unfold rate. f_equal. ring. Qed.
Lemma era_sin u : sin (era u) = sin (2 * PI * era0 + rate * (u - j2000)).
Proof. unfold era. rewrite (same_sin _ _ (era_same _ _)). unfold rate. f_equal. ring. Qed.
Lemma rz_same a b : same_angle a b -> rz a = rz b.
Proof. intros H. rewrite !rz_form, (same_cos _ _ H), (same_sin _ _ H). reflexivity. Qed.
Lemma era_step u de : same_angle (era (u + de)) (era u + rate * de).
Proof.
  apply same_trans with (2 * PI * (era0 + (1 + eras) * (j2000 + (u + de - j2000) - j2000))); [apply era_same|].
  apply same_sym. apply same_trans with (2 * PI * (era0 + (1 + eras) * (j2000 + (u - j2000) - j2000)) + rate * de).
  - apply same_add; [apply era_same|apply same_refl].
  - exists 0%Z. unfold rate. ring.
Qed.
Lemma same_opp a b : same_angle a b -> same_angle (- a) (- b).
Proof. intros (k & ->). exists (- k)%Z. rewrite opp_IZR. ring. Qed.

Definition comp (i : nat) (v : vec) : R := let '(x, y, z) := v in match i with 0%nat => x | 1%nat => y | _ => z end.
Lemma wave_derivative a b c p w t : derivable_pt_lim (fun u => a * cos (p + w * (u - c)) + b * sin (p + w * (u - c))) t
  (w * (- a * sin (p + w * (t - c)) + b * cos (p + w * (t - c)))).
Proof.
  assert (L : derivable_pt_lim (fun u => p + w * (u - c)) t (0 + w * (1 - 0))).
  { apply (derivable_pt_lim_plus (fun _ => p) (fun u => w * (u - c))); [apply derivable_pt_lim_const|].
    apply (derivable_pt_lim_scal (fun u => u - c)). apply (derivable_pt_lim_minus (fun u => u) (fun _ => c)); [apply derivable_pt_lim_id|apply derivable_pt_lim_const]. }
  replace (0 + w * (1 - 0)) with w in L by ring.
  replace (w * (- a * sin (p + w * (t - c)) + b * cos (p + w * (t - c)))) with (a * (- sin (p + w * (t - c)) * w) + b * (cos (p + w * (t - c)) * w)) by ring.
  apply (derivable_pt_lim_plus (fun u => a * cos (p + w * (u - c))) (fun u => b * sin (p + w * (u - c)))).
  - apply (derivable_pt_lim_scal (fun u => cos (p + w * (u - c)))), (derivable_pt_lim_comp (fun u => p + w * (u - c)) cos); [exact L|apply derivable_pt_lim_cos].
  - apply (derivable_pt_lim_scal (fun u => sin (p + w * (u - c)))), (derivable_pt_lim_comp (fun u => p + w * (u - c)) sin); [exact L|apply derivable_pt_lim_sin].
Qed.
Lemma derivable_pt_lim_ext' f g t l : (forall u, f u = g u) -> derivable_pt_lim f t l -> derivable_pt_lim g t l.
Proof. intros E D eps H. destruct (D eps H) as (d & K). exists d. intros h A B. rewrite <- !E. now apply K. Qed.
(** The motion of a point carried by [mul K (rz (- era u))] *)
Lemma carried_derivative K (v : vec) i t : derivable_pt_lim (fun u => comp i (apply (mul K (rz (- era u))) v)) t
  (rate * comp i (apply (mul K (rz (- era t))) (let '(x, y, z) := v in (y, - x, 0)))).
Proof.
  destruct v as ((x, y), z).
  set (row := match i with 0%nat => (a11 K, a12 K, a13 K) | 1%nat => (a21 K, a22 K, a23 K) | _ => (a31 K, a32 K, a33 K) end).
  destruct row as ((k1, k2), k3) eqn:ER. unfold row in ER.
  apply (derivable_pt_lim_ext' (fun u => ((k1 * x + k2 * y) * cos (2 * PI * era0 + rate * (u - j2000)) + (k1 * y - k2 * x) * sin (2 * PI * era0 + rate * (u - j2000))) + k3 * z)).
  - intros u. rewrite <- era_cos, <- era_sin, rz_form, cos_neg, sin_neg. destruct i as [|[|i]]; injection ER as <- <- <-; cbn; ring.
  - match goal with |- derivable_pt_lim _ _ ?l => replace l with (rate * (- (k1 * x + k2 * y) * sin (2 * PI * era0 + rate * (t - j2000)) + (k1 * y - k2 * x) * cos (2 * PI * era0 + rate * (t - j2000))) + 0) end.
    + apply (derivable_pt_lim_plus (fun u => (k1 * x + k2 * y) * cos (2 * PI * era0 + rate * (u - j2000)) + (k1 * y - k2 * x) * sin (2 * PI * era0 + rate * (u - j2000))) (fun _ => k3 * z)); [apply wave_derivative|apply derivable_pt_lim_const].
    + rewrite <- era_cos, <- era_sin, rz_form, cos_neg, sin_neg. destruct i as [|[|i]]; injection ER as <- <- <-; cbn; ring.
Qed.

(** * Directions through spherical angles *)
Definition unit (v : vec) : Prop := dot3 v v = 1.
Lemma angles_unit v : unit v -> let '(lat, lon) := angles_of v in unit_of lat lon = v.
Proof.
  destruct v as ((x, y), z). unfold unit, angles_of. cbn [dot3]. intros H.
  assert (Z : -1 <= z <= 1) by (split; nra).
  assert (C : clamp1 z = z) by (unfold clamp1; rewrite Rmin_left, Rmax_right; lra). rewrite C.
  unfold unit_of. rewrite sin_asin, cos_rem_e, sin_rem_e by lra. rewrite cos_asin by lra.
  replace (1 - z²) with (x² + y²) by (unfold Rsqr; lra).
  destruct (Req_dec x 0) as [X|X], (Req_dec y 0) as [Y|Y].
  - subst. rewrite Rsqr_0, Rplus_0_l, sqrt_0. repeat f_equal; ring.
  - destruct (atan2_polar y x) as (A & B); [tauto|]. rewrite A, B. reflexivity.
  - destruct (atan2_polar y x) as (A & B); [tauto|]. rewrite A, B. reflexivity.
  - destruct (atan2_polar y x) as (A & B); [tauto|]. rewrite A, B. reflexivity.
Qed.
Lemma apply_unit m v : proper m -> unit v -> unit (apply m v).
Proof. intros (H & _) U. unfold unit. now rewrite (orthonormal_dot m v v H). Qed.
Lemma redirect_apply m v : proper m -> unit v -> redirect m v = apply m v.
Proof.
  intros P U. unfold redirect. pose proof (angles_unit v U) as A. destruct (angles_of v) as (lat, lon). rewrite A.
  pose proof (angles_unit _ (apply_unit m v P U)) as B. destruct (angles_of (apply m v)) as (lat', lon'). exact B.
Qed.
Lemma apply_identity v : apply identity v = v.
Proof. destruct v as ((x, y), z). cbn. repeat f_equal; ring. Qed.
