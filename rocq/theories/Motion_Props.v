(** C183: the motion of stars. *)
From Coq Require Import Reals Bool Lra Psatz.
From Verif Require Import Base Ang Motion_Model Motion_Proofs.
Local Open Scope R_scope.

(** a star moves on a straight line at constant speed: radially at the catalogue's radial velocity, sideways at the proper motions times the distance *)
Theorem C183_straight km_s p m jd epoch q : propagate_space_motion km_s p m jd epoch = Ok q ->
  exists v, vec q = add (scale (1 / mas (parallax m)) (outward p)) (scale ((jd - epoch) / (36525 / 100)) v) /\
  dot v (outward p) = radial m * km_s /\ dot v (eastward p) = mas (mu_a m) * (1 / mas (parallax m)) /\ dot v (northward p) = mas (mu_d m) * (1 / mas (parallax m)).
Proof.
  intros H. exists (velocity km_s p m). destruct (velocity_parts km_s p m) as (A & B & C). rewrite A, B, C.
  split; [|repeat split; unfold Rdiv; ring].
  destruct (Rle_dec (Rabs (cos (rad (p_dec p)))) cos_dec_epsilon) as [X|X]; [unfold propagate_space_motion in H; destruct (Rle_dec (Rabs _) _); [discriminate H|contradiction]|].
  destruct (Rle_dec (mas (parallax m)) 0) as [Y|Y]; [unfold propagate_space_motion in H; destruct (Rle_dec (Rabs _) _); [discriminate H|]; cbn zeta in H; destruct (Rle_dec (mas _) 0); [discriminate H|contradiction]|].
  pose proof (propagate_line km_s p m jd epoch ltac:(lra) ltac:(lra)) as L.
  change (add (scale (1 / mas (parallax m)) (outward p)) (scale ((jd - epoch) / (36525 / 100)) (velocity km_s p m))) with (place km_s p m (years jd epoch)).
  destruct (place km_s p m (years jd epoch)) as ((x, y), z). rewrite L in H.
  destruct (Rle_dec _ 0) as [Z|Z]; [discriminate H|]. injection H as <-. apply spherical_back. lra.
Qed.

(** exactly when it is refused *)
Theorem C183_errors km_s p m jd epoch : let t := (jd - epoch) / (36525 / 100) in
  propagate_space_motion km_s p m jd epoch <> Panic /\
  (forall e, propagate_space_motion km_s p m jd epoch = Err e -> e = PoleUndefined (p_dec p)) /\
  (propagate_space_motion km_s p m jd epoch = Err (PoleUndefined (p_dec p)) <->
   Rabs (cos (rad (p_dec p))) <= / 1000000000000 \/ parallax m <= 0 \/
   (1 / mas (parallax m) + t * (radial m * km_s) = 0 /\ mu_a m = 0 /\ mu_d m = 0)).
Proof.
  cbn zeta. assert (PP : forall x, mas x <= 0 <-> x <= 0).
  { intros x. unfold mas. pose proof PI_RGT_0 as P. split; intros H.
    - destruct (Rle_dec x 0) as [L|L]; [exact L|exfalso]. assert (0 < x / 3600000 * (PI / 180)) by (apply Rmult_lt_0_compat; lra). lra.
    - assert (0 <= - x / 3600000 * (PI / 180)) by (apply Rmult_le_pos; lra). lra. }
  split; [|split].
  - unfold propagate_space_motion. cbn zeta. repeat (destruct (Rle_dec _ _); [discriminate|]). discriminate.
  - intros e. unfold propagate_space_motion. cbn zeta. repeat (destruct (Rle_dec _ _); [now intros [= <-]|]). discriminate.
  - fold cos_dec_epsilon. destruct (Rle_dec (Rabs (cos (rad (p_dec p)))) cos_dec_epsilon) as [X|X].
    { split; [now left|intros _]. unfold propagate_space_motion. destruct (Rle_dec (Rabs _) _); [reflexivity|contradiction]. }
    destruct (Rle_dec (mas (parallax m)) 0) as [Y|Y].
    { split; [intros _; right; left; now apply PP|intros _]. unfold propagate_space_motion. destruct (Rle_dec (Rabs _) _); [reflexivity|]. cbn zeta. destruct (Rle_dec (mas _) 0); [reflexivity|contradiction]. }
    pose proof (propagate_line km_s p m jd epoch ltac:(lra) ltac:(lra)) as L. pose proof (place_norm km_s p m (years jd epoch)) as N. cbn zeta in N.
    destruct (place km_s p m (years jd epoch)) as ((x, y), z). unfold norm2, dot in N. rewrite L. fold (years jd epoch). set (t := years jd epoch) in *.
    assert (K : 0 < 1 / mas (parallax m)) by (apply Rdiv_lt_0_compat; lra).
    set (k := 1 / mas (parallax m)) in *. set (w := radial m * km_s) in *.
    assert (MZ : forall u, mas u = 0 <-> u = 0) by (intros u; unfold mas; pose proof PI_RGT_0 as P0; split; intros H; [assert (H1 : u * (PI / 180 / 3600000) = 0) by lra; destruct (Rmult_integral _ _ H1) as [Q|Q]; lra|rewrite H; lra]).
    split; [intros E|intros [E|[E|(E & F & G)]]].
    + destruct (Rle_dec (sqrt _) 0) as [Z|Z]; [|discriminate E]. right. right.
      assert (S : x * x + y * y + z * z = 0).
      { apply sqrt_eq_0; [nra|]. pose proof (sqrt_pos (x * x + y * y + z * z)). lra. }
      rewrite S in N. set (U := mas (mu_a m)) in *. set (V := mas (mu_d m)) in *.
      pose proof (pow2_ge_0 (k + t * w)) as B1. pose proof (Rmult_le_pos _ _ (pow2_ge_0 (t * k)) (Rplus_le_le_0_compat _ _ (pow2_ge_0 U) (pow2_ge_0 V))) as B2.
      assert (A1 : (k + t * w) ^ 2 = 0) by lra. assert (A2 : (t * k) ^ 2 * (U ^ 2 + V ^ 2) = 0) by lra.
      assert (SQ0 : forall u, u ^ 2 = 0 -> u = 0) by (intros u H; destruct (Req_dec u 0) as [Q|Q]; [exact Q|exfalso; exact (pow_nonzero u 2 Q H)]).
      assert (A3 : k + t * w = 0) by now apply SQ0. split; [exact A3|].
      assert (T : t <> 0) by (intros T; rewrite T in A3; lra). assert (TK : t * k <> 0) by (apply Rmult_integral_contrapositive_currified; lra).
      destruct (Rmult_integral _ _ A2) as [Q|Q]; [exfalso; apply (pow_nonzero _ 2 TK Q)|]. pose proof (pow2_ge_0 U). pose proof (pow2_ge_0 V). split; apply MZ; apply SQ0; fold U V; lra.
    + contradiction.
    + apply PP in E. contradiction.
    + destruct (Rle_dec (sqrt _) 0) as [Z|Z]; [reflexivity|exfalso]. apply Z. rewrite N, E, (proj2 (MZ _) F), (proj2 (MZ _) G).
      replace (0 ^ 2 + (t * k) ^ 2 * (0 ^ 2 + 0 ^ 2)) with 0 by ring. rewrite sqrt_0. lra.
Qed.

(** the distance in closed form, and the ranges of the angles *)
Theorem C183_distance km_s p m jd epoch q : propagate_space_motion km_s p m jd epoch = Ok q ->
  let k := 1 / mas (parallax m) in let t := (jd - epoch) / (36525 / 100) in
  0 < p_dist q /\ p_dist q ^ 2 = (k + t * (radial m * km_s)) ^ 2 + (t * k) ^ 2 * (mas (mu_a m) ^ 2 + mas (mu_d m) ^ 2) /\
  0 <= p_ra q < 360 /\ -90 <= p_dec q <= 90.
Proof.
  intros H. cbn zeta.
  destruct (Rle_dec (Rabs (cos (rad (p_dec p)))) cos_dec_epsilon) as [X|X]; [unfold propagate_space_motion in H; destruct (Rle_dec (Rabs _) _); [discriminate H|contradiction]|].
  destruct (Rle_dec (mas (parallax m)) 0) as [Y|Y]; [unfold propagate_space_motion in H; destruct (Rle_dec (Rabs _) _); [discriminate H|]; cbn zeta in H; destruct (Rle_dec (mas _) 0); [discriminate H|contradiction]|].
  pose proof (propagate_line km_s p m jd epoch ltac:(lra) ltac:(lra)) as L. pose proof (place_norm km_s p m (years jd epoch)) as N. cbn zeta in N.
  destruct (place km_s p m (years jd epoch)) as ((x, y), z). unfold norm2, dot in N. rewrite L in H. fold (years jd epoch).
  destruct (Rle_dec _ 0) as [Z|Z]; [discriminate H|]. injection H as <-. cbn [p_ra p_dec p_dist].
  pose proof PI_RGT_0 as P. split; [lra|]. split; [|split].
  - rewrite <- N. rewrite <- Rsqr_pow2. apply Rsqr_sqrt. nra.
  - destruct (rem_e_range (atan2 y x) (2 * PI) ltac:(lra)) as (A & B). unfold deg. assert (Q : 0 < 180 / PI) by (apply Rdiv_lt_0_compat; lra).
    split; [apply Rmult_le_pos; lra|]. replace 360 with (2 * PI * (180 / PI)) by (field; lra). now apply Rmult_lt_compat_r.
  - destruct (asin_bound (z / sqrt (x * x + y * y + z * z))) as (A & B). unfold deg. assert (Q : 0 < 180 / PI) by (apply Rdiv_lt_0_compat; lra).
    split; [replace (-90) with (- (PI / 2) * (180 / PI)) by (field; lra)|replace 90 with (PI / 2 * (180 / PI)) by (field; lra)]; apply Rmult_le_compat_r; lra.
Qed.

(** at its own epoch a star is where the catalogue puts it, at one over the parallax *)
Theorem C183_epoch km_s p m jd : / 1000000000000 < Rabs (cos (rad (p_dec p))) -> 0 < parallax m -> -90 <= p_dec p <= 90 -> 0 <= p_ra p < 360 ->
  propagate_space_motion km_s p m jd jd = Ok (Pos (p_ra p) (p_dec p) (1 / mas (parallax m))).
Proof.
  intros C P D A. fold cos_dec_epsilon in C. pose proof PI_RGT_0 as P0. pose proof eps_pos as E0.
  assert (MP : 0 < mas (parallax m)) by (unfold mas; apply Rmult_lt_0_compat; lra).
  pose proof (propagate_line km_s p m jd jd C MP) as L.
  assert (E : place km_s p m (years jd jd) = scale (1 / mas (parallax m)) (outward p)).
  { unfold place, years. replace ((jd - jd) / (36525 / 100)) with 0 by lra. destruct (velocity km_s p m) as ((a, b), c).
    unfold outward, scale, add. f_equal; [f_equal|]; ring. }
  rewrite E in L. assert (K : 0 < 1 / mas (parallax m)) by (apply Rdiv_lt_0_compat; lra). set (k := 1 / mas (parallax m)) in *.
  unfold outward, scale in L. set (d := rad (p_dec p)) in *. set (a := rad (p_ra p)) in *.
  assert (S : sqrt (k * (cos d * cos a) * (k * (cos d * cos a)) + k * (cos d * sin a) * (k * (cos d * sin a)) + k * sin d * (k * sin d)) = k).
  { rewrite <- (sqrt_square k) by lra. f_equal. rewrite (sqrt_square k) by lra. pose proof (sq_sin a) as H1. pose proof (sq_sin d) as H2. ring [H1 H2]. }
  rewrite S in L. destruct (Rle_dec k 0) as [Z|_]; [lra|]. rewrite L. f_equal.
  assert (DR : - (PI / 2) <= d <= PI / 2) by (unfold d, rad; split; nra).
  assert (CD : 0 < cos d).
  { destruct (Rle_lt_or_eq_dec 0 (cos d)) as [Q|Q]; [apply cos_ge_0; lra|exact Q|]. rewrite <- Q, Rabs_R0 in C. lra. }
  assert (Ed : asin (k * sin d / k) = d) by (replace (k * sin d / k) with (sin d) by (field; lra); apply asin_sin; lra).
  assert (Ea : rem_e (atan2 (k * (cos d * sin a)) (k * (cos d * cos a))) (2 * PI) = a).
  { set (X := k * (cos d * cos a)). set (Y := k * (cos d * sin a)).
    assert (KC : 0 < k * cos d) by now apply Rmult_lt_0_compat.
    assert (NZ : X <> 0 \/ Y <> 0).
    { destruct (Req_dec X 0) as [Q|Q]; [|now left]. right. intros Q'. unfold X, Y in *. rewrite <- Rmult_assoc in Q, Q'.
      destruct (Rmult_integral _ _ Q) as [F|F]; [lra|]. destruct (Rmult_integral _ _ Q') as [G|G]; [lra|]. pose proof (sq_sin a) as H. rewrite F, G in H. lra. }
    destruct (atan2_polar Y X NZ) as (F & G).
    assert (SQ : sqrt (X² + Y²) = k * cos d).
    { rewrite <- (sqrt_square (k * cos d)) by lra. f_equal. unfold X, Y, Rsqr. pose proof (sq_sin a) as H1. ring [H1]. }
    rewrite SQ in F, G.
    assert (F' : k * cos d * cos (atan2 Y X) = k * cos d * cos a) by (rewrite F; unfold X; ring).
    assert (G' : k * cos d * sin (atan2 Y X) = k * cos d * sin a) by (rewrite G; unfold Y; ring).
    apply Rmult_eq_reg_l in F'; [|lra]. apply Rmult_eq_reg_l in G'; [|lra].
    destruct (rem_e_range (atan2 (k * (cos d * sin a)) (k * (cos d * cos a))) (2 * PI) ltac:(lra)) as (R1 & R2).
    apply angle_unique; [|rewrite cos_rem_e; exact F'|rewrite sin_rem_e; exact G'].
    assert (AR : 0 <= a < 2 * PI) by (unfold a, rad; split; [apply Rmult_le_pos; lra|nra]). fold X Y in R1, R2. apply Rabs_def1; lra. }
  rewrite Ed, Ea. unfold d, a. now rewrite !deg_rad.
Qed.

(** the two conventions for the motion in right ascension give the same place *)
Definition with_motion (s : star) (m : proper_motion) : star := Star (s_ra s) (s_dec s) (s_ly s) (Some m) (s_parallax s) (s_radial s).
Theorem C183_conventions km_s au_ly s jd rate dd : / 1000000000000 < Rabs (cos (rad (s_dec s))) ->
  star_position_at km_s au_ly (with_motion s (PM rate dd MuAlpha)) jd =
  star_position_at km_s au_ly (with_motion s (PM (rate * cos (rad (s_dec s))) dd MuAlphaStar)) jd.
Proof.
  intros C. fold cos_dec_epsilon in C. pose proof eps_pos as E0. assert (C0 : cos (rad (s_dec s)) <> 0) by (intros Z; rewrite Z, Rabs_R0 in C; lra).
  unfold star_position_at, with_motion. cbn [s_parallax s_radial s_motion s_ra s_dec s_ly pm_conv pm_ra pm_dec].
  assert (L : set_proper_motion_since_j2000 (Pos (s_ra s) (s_dec s) (s_ly s * au_ly)) (PM rate dd MuAlpha) jd =
    set_proper_motion_since_j2000 (Pos (s_ra s) (s_dec s) (s_ly s * au_ly)) (PM (rate * cos (rad (s_dec s))) dd MuAlphaStar) jd).
  { unfold set_proper_motion_since_j2000, set_proper_motion_since_epoch. cbn [pm_conv pm_ra pm_dec p_dec p_ra p_dist to_mu_alpha].
    destruct (Rle_dec _ _) as [X|_]; [lra|]. cbn [obind]. now replace (rate * cos (rad (s_dec s)) / cos (rad (s_dec s))) with rate by (field; exact C0). }
  destruct (s_parallax s) as [plx|]; [|exact L]. destruct (s_radial s) as [rv|]; [|exact L].
  now replace (rate * 3600000 * cos (rad (s_dec s))) with (rate * cos (rad (s_dec s)) * 3600000) by ring.
Qed.

(** without parallax or radial velocity both angles change in proportion to the Julian years since J2000; without proper motion nothing changes *)
Theorem C183_linear km_s au_ly s jd m : s_motion s = Some m -> has_full_space_motion s = false ->
  let t := (jd - 2451545) / (36525 / 100) in
  match pm_conv m with
  | MuAlpha => star_position_at km_s au_ly s jd = Ok (Pos (s_ra s + pm_ra m * t) (s_dec s + pm_dec m * t) (s_ly s * au_ly))
  | MuAlphaStar =>
      (Rabs (cos (rad (s_dec s))) <= / 1000000000000 -> star_position_at km_s au_ly s jd = Err (PoleUndefined (s_dec s))) /\
      (/ 1000000000000 < Rabs (cos (rad (s_dec s))) -> exists a, star_position_at km_s au_ly s jd = Ok (Pos (s_ra s + a * t) (s_dec s + pm_dec m * t) (s_ly s * au_ly)) /\
        a * cos (rad (s_dec s)) = pm_ra m)
  end.
Proof.
  intros M F. cbn zeta.
  assert (E : star_position_at km_s au_ly s jd = set_proper_motion_since_j2000 (Pos (s_ra s) (s_dec s) (s_ly s * au_ly)) m jd).
  { unfold star_position_at, has_full_space_motion in *. rewrite M in *. destruct (s_parallax s); [|reflexivity]. destruct (s_radial s); [discriminate F|reflexivity]. }
  rewrite E. unfold set_proper_motion_since_j2000, set_proper_motion_since_epoch, J2000. cbn [p_dec p_ra p_dist]. destruct (pm_conv m); cbn [to_mu_alpha]; [reflexivity|].
  fold cos_dec_epsilon. pose proof eps_pos as E0. destruct (Rle_dec _ _) as [X|X]; split; intros H; [reflexivity|lra|lra|].
  cbn [obind]. eexists. split; [reflexivity|]. field. intros Z. rewrite Z, Rabs_R0 in H. lra.
Qed.
Theorem C183_still km_s au_ly s jd : s_motion s = None -> star_position_at km_s au_ly s jd = Ok (Pos (s_ra s) (s_dec s) (s_ly s * au_ly)).
Proof. intros M. unfold star_position_at. rewrite M. destruct (s_parallax s); [destruct (s_radial s)|]; reflexivity. Qed.

(** a star with everything known moves as its proper motion, parallax and radial velocity say; its catalogue distance does not count *)
Theorem C183_full km_s au_ly s jd m plx rv q : s_motion s = Some m -> s_parallax s = Some plx -> s_radial s = Some rv ->
  star_position_at km_s au_ly s jd = Ok q ->
  let p := Pos (s_ra s) (s_dec s) 1 in
  exists v, vec q = add (scale (1 / mas plx) (outward p)) (scale ((jd - 2451545) / (36525 / 100)) v) /\ dot v (outward p) = rv * km_s /\
    dot v (eastward p) = rad (match pm_conv m with MuAlpha => pm_ra m * cos (rad (s_dec s)) | MuAlphaStar => pm_ra m end) * (1 / mas plx) /\
    dot v (northward p) = rad (pm_dec m) * (1 / mas plx).
Proof.
  intros M P V. unfold star_position_at. rewrite M, P, V. unfold propagate_since_j2000, J2000. intros H. apply C183_straight in H. cbn [mu_a mu_d parallax radial] in H.
  destruct H as (v & A & B & C & D). exists v. split; [exact A|]. split; [exact B|].
  split; [etransitivity; [exact C|]|etransitivity; [exact D|]]; f_equal; unfold mas, rad; [destruct (pm_conv m)|]; field.
Qed.

(** knowing more about a star can take its place away: at the pole with the plain rate, or with a parallax that is not positive *)
Theorem C183_more_known_refuted km_s au_ly ra ly rate dd plx rv jd :
  (forall d, exists q, star_position_at km_s au_ly (Star ra d ly (Some (PM rate dd MuAlpha)) None (Some rv)) jd = Ok q) /\
  star_position_at km_s au_ly (Star ra 90 ly (Some (PM rate dd MuAlpha)) (Some plx) (Some rv)) jd = Err (PoleUndefined 90) /\
  (plx <= 0 -> forall d, star_position_at km_s au_ly (Star ra d ly (Some (PM rate dd MuAlpha)) (Some plx) (Some rv)) jd = Err (PoleUndefined d)).
Proof.
  split; [|split].
  - intros d. eexists. reflexivity.
  - unfold star_position_at. cbn [s_parallax s_radial s_motion s_ra s_dec s_ly pm_conv pm_ra pm_dec]. unfold propagate_since_j2000.
    apply C183_errors. left. cbn [p_dec]. unfold rad. replace (90 * (PI / 180)) with (PI / 2) by field. rewrite cos_PI2, Rabs_R0. lra.
  - intros H d. unfold star_position_at. cbn [s_parallax s_radial s_motion s_ra s_dec s_ly pm_conv pm_ra pm_dec]. unfold propagate_since_j2000.
    apply (C183_errors km_s (Pos ra d (ly * au_ly))). right. left. exact H.
Qed.

(** a star on the equator, one second of arc away in parallax, moving straight away for one year *)
Example C183_case : exists q, propagate_space_motion (1 / 5) (Pos 0 0 1) (Space 0 1000 1000 5) (2451545 + 36525 / 100) 2451545 = Ok q /\
  p_dist q ^ 2 = (1 / mas 1000 + 1) ^ 2 + 1 /\ 0 <= p_ra q < 360.
Proof.
  pose proof PI_RGT_0 as P.
  destruct (propagate_space_motion (1 / 5) (Pos 0 0 1) (Space 0 1000 1000 5) (2451545 + 36525 / 100) 2451545) as [q|e|] eqn:E.
  - exists q. split; [reflexivity|]. destruct (C183_distance _ _ _ _ _ _ E) as (_ & D & A & _). split; [|exact A]. rewrite D. cbn [mu_a mu_d parallax radial].
    assert (M0 : mas 0 = 0) by (unfold mas; lra). rewrite M0. assert (M1 : mas 1000 <> 0) by (unfold mas; lra). field. exact M1.
  - exfalso. destruct (C183_errors (1 / 5) (Pos 0 0 1) (Space 0 1000 1000 5) (2451545 + 36525 / 100) 2451545) as (_ & F & G).
    rewrite (F _ E) in E. apply G in E. cbn [p_dec mu_a mu_d parallax radial] in E. destruct E as [E|[E|(_ & _ & E)]]; [|lra|lra].
    unfold rad in E. rewrite Rmult_0_l, cos_0, Rabs_R1 in E. lra.
  - exfalso. now apply (proj1 (C183_errors (1 / 5) (Pos 0 0 1) (Space 0 1000 1000 5) (2451545 + 36525 / 100) 2451545)).
Qed.
Print Assumptions C183_straight.
Print Assumptions C183_errors.
Print Assumptions C183_distance.
Print Assumptions C183_epoch.
Print Assumptions C183_conventions.
Print Assumptions C183_linear.
Print Assumptions C183_still.
Print Assumptions C183_full.
Print Assumptions C183_more_known_refuted.
