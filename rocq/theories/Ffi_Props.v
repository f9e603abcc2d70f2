(** What the C interface promises for names, frames, the horizon and centres. *)
From Coq Require Import ZArith Ascii String List Reals Bool Lia Lra.
From Verif Require Import Base Ang Mat3 Geom_Model Conic_Model Ffi_Model Ffi_Proofs.
Import ListNotations.
Local Open Scope R_scope.

(** ** C130: codes and names of the C enumerations *)
(** The rows are one code and one set of names per variant, names in lower case. *)
Definition sound {A} (eqb : A -> A -> bool) (t : list (row A)) : Prop :=
  (forall a b, eqb a b = true <-> a = b) /\ (forall a, In a (map r_variant t)) /\ NoDup (map r_variant t) /\ NoDup (map r_code t)
  /\ NoDup (concat (map r_names t)) /\ Forall (fun r => r_names r <> [] /\ Forall (fun s => lower s = s) (r_names r)) t.
Ltac nodup := repeat constructor; cbn [In map concat]; intros H; repeat (destruct H as [H|H]; [discriminate H|]); exact H.
Ltac sound_table :=
  unfold sound; split; [intros [] []; cbn; split; congruence|]; split; [intros []; cbn; tauto|];
  split; [nodup|]; split; [nodup|]; split; [cbn; nodup|]; repeat constructor; discriminate.
Lemma frames_sound : sound frame_eqb frames. Proof. sound_table. Qed.
Lemma ccenters_sound : sound ccenter_eqb ccenters. Proof. sound_table. Qed.
Lemma eomodels_sound : sound eomodel_eqb eomodels. Proof. sound_table. Qed.
Lemma twilights_sound : sound twilight_eqb twilights. Proof. sound_table. Qed.

(** The code of a variant, as C sees it. *)
Definition frame_code (f : frame) : Z :=
  match f with
  | ICRS => 1 | EclipticMeanJ2000 => 2 | EquatorialMeanJ2000 => 3 | EquatorialMeanOfDate => 4 | EquatorialTrueOfDate => 5 | Horizontal => 6 | ECEF => 7
  | Galactic => 8 | GCRS => 9 | EclipticOfDate => 10 | EclipticTrueOfDate => 11 | CIRS => 12 | TIRS => 13 | ITRF => 14 | ICRF => 15
  end.
Theorem C130_frame_codes raw f : from_raw frames raw = Some f <-> raw = frame_code f.
Proof.
  rewrite from_raw_in by apply frames_sound. split.
  - intros (r & I & V & C). subst. cbn [In frames] in I. repeat (destruct I as [I|I]; [subst; reflexivity|]). easy.
  - intros ->. destruct f; cbn [frame_code frames];
      [exists (nth 0 frames (Row ICRS 0 [])) | exists (nth 1 frames (Row ICRS 0 [])) | exists (nth 2 frames (Row ICRS 0 [])) | exists (nth 3 frames (Row ICRS 0 []))
      | exists (nth 4 frames (Row ICRS 0 [])) | exists (nth 5 frames (Row ICRS 0 [])) | exists (nth 6 frames (Row ICRS 0 [])) | exists (nth 7 frames (Row ICRS 0 []))
      | exists (nth 8 frames (Row ICRS 0 [])) | exists (nth 9 frames (Row ICRS 0 [])) | exists (nth 10 frames (Row ICRS 0 [])) | exists (nth 11 frames (Row ICRS 0 []))
      | exists (nth 12 frames (Row ICRS 0 [])) | exists (nth 13 frames (Row ICRS 0 [])) | exists (nth 14 frames (Row ICRS 0 []))];
      (split; [cbn; tauto|split; reflexivity]).
Qed.
Print Assumptions C130_frame_codes.
Definition center_code (c : ccenter) : Z := match c with Barycentric => 1 | Heliocentric => 2 | Geocentric => 3 | Topocentric => 4 | Bodycentric => 5 end.
Definition body_code (b : cbody) : Z :=
  match b with BSun => 0 | BMoon => 1 | BMercury => 2 | BVenus => 3 | BMars => 4 | BJupiter => 5 | BSaturn => 6 | BUranus => 7 | BNeptune => 8 end.
Definition unit_code (u : lunit) : Z := match u with UAu => 0 | UKm => 1 | ULightYear => 2 | UParsec => 3 | UMeter => 4 end.
Ltac codes := intros v; cbn [from_raw r_code r_variant];
  repeat (match goal with |- context [if Z.eqb ?a ?b then _ else _] => destruct (Z.eqb_spec a b) end);
  destruct v; cbn [center_code body_code unit_code]; split; intros E; try discriminate E; try lia; try reflexivity.
Theorem C130_other_codes raw : (forall c, from_raw ccenters raw = Some c <-> raw = center_code c) /\ (forall b, from_raw cbodies raw = Some b <-> raw = body_code b)
  /\ (forall u, from_raw lunits raw = Some u <-> raw = unit_code u).
Proof. unfold ccenters, cbodies, lunits. split; [|split]; codes. Qed.
Print Assumptions C130_other_codes.
(** The canonical name reads back as its variant, in any mixture of cases. *)
Lemma name_back {A} (eqb : A -> A -> bool) t (s : string) v : sound eqb t -> lower s = lower (as_str eqb t v) -> parse_name t s = Some v.
Proof.
  intros (E & C & _ & _ & N & F) L. unfold parse_name. apply parse_lower_in; [exact N|].
  destruct (as_str_row eqb E t C v) as (r & I & V & W). exists r. split; [exact I|]. split; [exact V|].
  rewrite L, W. rewrite Forall_forall in F. destruct (F r I) as (F1 & F2). destruct (r_names r) as [|n l]; [easy|]. cbn [hd].
  inversion F2 as [|? ? F3]; subst. rewrite F3. now left.
Qed.
Theorem C130_names_back s : (forall f, lower s = lower (as_str frame_eqb frames f) -> parse_name frames s = Some f)
  /\ (forall c, lower s = lower (as_str ccenter_eqb ccenters c) -> parse_name ccenters s = Some c)
  /\ (forall m, lower s = lower (as_str eomodel_eqb eomodels m) -> parse_name eomodels s = Some m)
  /\ (forall p, lower s = lower (as_str twilight_eqb twilights p) -> parse_name twilights s = Some p).
Proof.
  split; [|split; [|split]]; intros v L;
    [apply (name_back frame_eqb)|apply (name_back ccenter_eqb)|apply (name_back eomodel_eqb)|apply (name_back twilight_eqb)];
    (exact L || apply frames_sound || apply ccenters_sound || apply eomodels_sound || apply twilights_sound).
Qed.
Print Assumptions C130_names_back.
(** A name reads as a variant exactly when that variant lists it: no name
    serves two variants, and case does not matter. *)
Theorem C130_names s :
  (forall f, parse_name frames s = Some f <-> exists r, In r frames /\ r_variant r = f /\ In (lower s) (r_names r))
  /\ (forall c, parse_name ccenters s = Some c <-> exists r, In r ccenters /\ r_variant r = c /\ In (lower s) (r_names r))
  /\ (forall s', lower s = lower s' -> parse_name frames s = parse_name frames s' /\ parse_name ccenters s = parse_name ccenters s').
Proof.
  split; [|split].
  - intros f. apply parse_lower_in. apply frames_sound.
  - intros c. apply parse_lower_in. apply ccenters_sound.
  - intros s' L. unfold parse_name. now rewrite L.
Qed.
Print Assumptions C130_names.
Example C130_case : parse_name frames "AltAz" = Some Horizontal /\ from_raw frames 6 = Some Horizontal /\ as_str frame_eqb frames Horizontal = "horizontal"%string
  /\ from_raw frames 0 = None /\ parse_name ccenters "SSB" = Some Barycentric /\ parse_name frames "altitude" = None.
Proof. repeat split; reflexivity. Qed.

(** ** C131: frame transforms through C *)
(** Status and effect: null pointers first, then the two frames, then the date;
    nothing is written unless the status is Ok. *)
Definition judged {A} (null : bool) (ok_src ok_dst : bool) (jd : option R) (r : reply A) : Prop :=
  (fst r = SNullPointer <-> null = true)
  /\ (fst r = SInvalidFrame <-> null = false /\ (ok_src = false \/ ok_dst = false))
  /\ (fst r = SInvalidArgument <-> null = false /\ ok_src = true /\ ok_dst = true /\ jd = None)
  /\ (fst r = SOk <-> null = false /\ ok_src = true /\ ok_dst = true /\ jd <> None)
  /\ (snd r <> None <-> fst r = SOk).
Theorem C131_status m ms p a v src dst jd pos ctx null :
  judged null (known src) (known dst) jd (spherical_transform m p a src dst jd null)
  /\ judged null (known src) (known dst) jd (cartesian_dir_transform m v src dst jd null)
  /\ judged null (known_pos (cp_frame pos)) (known_pos dst) jd (cartesian_pos_transform m pos dst jd null)
  /\ judged (null || match ctx with None => true | _ => false end) (known src) (known dst) jd (spherical_transform_ctx ms p a src dst jd ctx null).
Proof.
  unfold judged, spherical_transform_ctx, spherical_transform, cartesian_dir_transform, cartesian_pos_transform.
  destruct null, jd as [t|], (known src), (known dst), (known_pos (cp_frame pos)), (known_pos dst), ctx; cbn [negb orb];
    try destruct (to_frame_sph m (p, a) src dst t); try destruct (to_frame_sph (ms e) (p, a) src dst t); cbn [fst snd];
    intuition (try discriminate; try congruence).
Qed.
Print Assumptions C131_status.
(** The answer is the rotated direction, labelled with the destination, in the usual ranges. *)
Theorem C131_spherical m p a src dst t : turning m -> known src = true -> known dst = true ->
  exists d, spherical_transform m p a src dst (Some t) false = (SOk, Some d) /\ sd_frame d = dst
    /\ cart_of (sd_polar d) (sd_azimuth d) = apply (m dst t) (apply (transpose (m src t)) (cart_of p a))
    /\ -90 <= sd_polar d <= 90 /\ 0 <= sd_azimuth d < 360.
Proof.
  intros T S D. unfold spherical_transform. rewrite S, D. cbn [negb]. pose proof (to_frame_sph_cart m p a src dst t T) as H.
  destruct (to_frame_sph m (p, a) src dst t) as [p' a']. exists (Sdir p' a' dst). split; [reflexivity|]. cbn. tauto.
Qed.
Print Assumptions C131_spherical.
(** There and back is the same point of the sky. *)
Theorem C131_round_trip m p a src dst t d e : turning m ->
  spherical_transform m p a src dst (Some t) false = (SOk, Some d) ->
  spherical_transform m (sd_polar d) (sd_azimuth d) (sd_frame d) src (Some t) false = (SOk, Some e) ->
  cart_of (sd_polar e) (sd_azimuth e) = cart_of p a /\ sd_frame e = src.
Proof.
  intros T D E.
  assert (S : known src = true) by (unfold spherical_transform in D; destruct (known src); [reflexivity|discriminate]).
  assert (K : known dst = true) by (unfold spherical_transform in D; rewrite S in D; destruct (known dst); [reflexivity|discriminate]).
  destruct (C131_spherical m p a src dst t T S K) as (d' & D' & F & C & _). assert (d' = d) by congruence. subst d'.
  rewrite F in E. destruct (C131_spherical m (sd_polar d) (sd_azimuth d) dst src t T K S) as (e' & E' & G & H & _). assert (e' = e) by congruence. subst e'.
  split; [|exact G]. rewrite H, C. rewrite turn_back by exact T. now apply turn_forth.
Qed.
Print Assumptions C131_round_trip.
(** Going through a third frame changes nothing. *)
Theorem C131_compose m p a f g h t d e e' : turning m ->
  spherical_transform m p a f g (Some t) false = (SOk, Some d) ->
  spherical_transform m (sd_polar d) (sd_azimuth d) g h (Some t) false = (SOk, Some e) ->
  spherical_transform m p a f h (Some t) false = (SOk, Some e') ->
  cart_of (sd_polar e) (sd_azimuth e) = cart_of (sd_polar e') (sd_azimuth e').
Proof.
  intros T D E E2.
  assert (KF : known f = true) by (unfold spherical_transform in D; destruct (known f); [reflexivity|discriminate]).
  assert (KG : known g = true) by (unfold spherical_transform in D; rewrite KF in D; destruct (known g); [reflexivity|discriminate]).
  assert (KH : known h = true) by (unfold spherical_transform in E; rewrite KG in E; destruct (known h); [reflexivity|discriminate]).
  destruct (C131_spherical m p a f g t T KF KG) as (x & X & _ & CX & _). assert (x = d) by congruence. subst x.
  destruct (C131_spherical m (sd_polar d) (sd_azimuth d) g h t T KG KH) as (y & Y & _ & CY & _). assert (y = e) by congruence. subst y.
  destruct (C131_spherical m p a f h t T KF KH) as (z & Z & _ & CZ & _). assert (z = e') by congruence. subst z.
  rewrite CY, CX, CZ. now rewrite turn_back.
Qed.
Print Assumptions C131_compose.
(** Positions keep centre, unit and length, and come back exactly; the
    direction call rotates in the same way. *)
Theorem C131_positions m pos dst t : turning m -> known_pos (cp_frame pos) = true -> known_pos dst = true ->
  exists q, cartesian_pos_transform m pos dst (Some t) false = (SOk, Some q)
    /\ cp_frame q = dst /\ cp_center q = cp_center pos /\ cp_unit q = cp_unit pos
    /\ cp_v q = apply (m dst t) (apply (transpose (m (cp_frame pos) t)) (cp_v pos))
    /\ dot3 (cp_v q) (cp_v q) = dot3 (cp_v pos) (cp_v pos)
    /\ cartesian_pos_transform m q (cp_frame pos) (Some t) false = (SOk, Some pos).
Proof.
  intros T S D. destruct pos as [v f c u]. cbn [cp_v cp_frame cp_center cp_unit] in *. unfold cartesian_pos_transform. cbn [cp_v cp_frame cp_center cp_unit].
  rewrite S, D. cbn [negb]. unfold into_icrs, from_icrs.
  assert (I : forall g w, (match g with ICRS => w | _ => apply (m g t) w end) = apply (m g t) w).
  { intros g w. destruct g; try reflexivity. destruct T as (_ & I). now rewrite I, apply_1. }
  rewrite I. eexists. split; [reflexivity|]. cbn [cp_v cp_frame cp_center cp_unit]. rewrite D. cbn [negb].
  split; [reflexivity|]. split; [reflexivity|]. split; [reflexivity|]. split; [reflexivity|].
  split; [apply (between_unit m f dst t v T)|]. rewrite I, turn_back by exact T. now rewrite turn_forth.
Qed.
Print Assumptions C131_positions.
Theorem C131_agree m p a src dst t d c : turning m ->
  spherical_transform m p a src dst (Some t) false = (SOk, Some d) -> cartesian_dir_transform m (cart_of p a) src dst (Some t) false = (SOk, Some c) ->
  cp_v c = cart_of (sd_polar d) (sd_azimuth d) /\ cp_frame c = sd_frame d.
Proof.
  intros T D C. unfold cartesian_dir_transform in C.
  assert (S : known src = true) by (unfold spherical_transform in D; destruct (known src); [reflexivity|discriminate]).
  assert (K : known dst = true) by (unfold spherical_transform in D; rewrite S in D; destruct (known dst); [reflexivity|discriminate]).
  rewrite S, K in C. cbn [negb] in C. injection C as <-.
  destruct (C131_spherical m p a src dst t T S K) as (d' & D' & F & X & _). assert (d' = d) by congruence. subst d'. rewrite X, F. cbn [cp_v cp_frame].
  split; [|reflexivity]. unfold into_icrs, from_icrs. destruct dst; try reflexivity. destruct T as (_ & I). now rewrite I, apply_1.
Qed.
Print Assumptions C131_agree.
(** A rotation provider: the ecliptic tilts about the first axis, the equator of date turns with time. *)
Definition sample_rotations : rotations := fun f t =>
  match f with EclipticMeanJ2000 => r1 (rad 23) | EquatorialMeanOfDate => r3 t | EquatorialTrueOfDate => mul (r1 (1 / 1000)) (r3 t) | _ => identity end.
Lemma sample_turning : turning sample_rotations.
Proof.
  split; [|reflexivity]. intros f t. destruct f; cbn; try apply orthonormal_identity; try apply r1_orthonormal; try apply r3_orthonormal.
  apply orthonormal_mul; [apply r1_orthonormal|apply r3_orthonormal].
Qed.
Example C131_case : turning sample_rotations /\ known EclipticMeanJ2000 = true /\ known EquatorialTrueOfDate = true
  /\ fst (spherical_transform sample_rotations 10 20 Galactic ICRS None false) = SInvalidFrame
  /\ fst (spherical_transform sample_rotations 10 20 ICRS ICRS None false) = SInvalidArgument
  /\ sample_rotations EclipticMeanJ2000 0 <> identity.
Proof.
  split; [exact sample_turning|]. split; [reflexivity|]. split; [reflexivity|]. split; [reflexivity|]. split; [reflexivity|].
  intros E. apply (f_equal a23) in E. cbn in E. assert (0 < sin (rad 23)); [|lra]. apply sin_gt_0; unfold rad; pose proof PI_RGT_0; lra.
Qed.

(** ** C132: horizontal directions through C *)
(** The direction itself is right: its components are those along north, east
    and the zenith of the site at the local sidereal time. *)
Theorem C132_direction theta site v : dot3 v v = 1 ->
  let lst := theta + rad (g_lon site) in let lat := rad (g_lat site) in
  horizontal_dir theta site v = (dot3 (- sin lat * cos lst, - sin lat * sin lst, cos lat) v, dot3 (- sin lst, cos lst, 0) v,
                                 dot3 (cos lat * cos lst, cos lat * sin lst, sin lat) v).
Proof. intros U lst lat. exact (horizontal_axes theta site v U). Qed.
Print Assumptions C132_direction.
(** Altitude and azimuth of a direction, stated by its height above the plane and its bearing. *)
Definition altitude_of (alt : R) (h : vec) : Prop := -90 <= alt <= 90 /\ sin (rad alt) = snd h.
Definition azimuth_of (az : R) (h : vec) : Prop := 0 <= az < 360 /\ cos (asin (snd h)) * cos (rad az) = fst (fst h) /\ cos (asin (snd h)) * sin (rad az) = snd (fst h).
(** The horizontal direction that a call is about. *)
Definition horizon_vector (m : rotations) (theta : R) (site : geodetic) (p a : R) (src : frame) (t : R) : vec :=
  horizontal_dir theta site (apply (m EquatorialTrueOfDate t) (apply (transpose (m src t)) (cart_of p a))).
Lemma horizon_pair m theta site p a src t : turning m ->
  let '(alt, az) := to_horizontal_sph m theta site (p, a) src t in
  altitude_of alt (horizon_vector m theta site p a src t) /\ azimuth_of az (horizon_vector m theta site p a src t).
Proof.
  intros T. unfold to_horizontal_sph. pose proof (to_frame_sph_cart m p a src EquatorialTrueOfDate t T) as H.
  destruct (to_frame_sph m (p, a) src EquatorialTrueOfDate t) as [p' a']. destruct H as (H & _).
  assert (E : horizontal_dir theta site (cart_of p' a') = horizon_vector m theta site p a src t) by (unfold horizon_vector; now rewrite H).
  rewrite E. pose proof (horizontal_unit theta site (cart_of p' a')) as U. rewrite E in U.
  set (h := horizon_vector m theta site p a src t) in *. clearbody h. clear - U.
  pose proof (cart_sph h U) as C. pose proof (sph_range h) as AB.
  destruct h as [[x y] z]. unfold altitude_of, azimuth_of. cbn [fst snd] in *. cbn [sph_of] in *. destruct AB as (A & B). unfold dot3 in U.
  assert (Z : -1 <= z <= 1) by nra.
  split; [split; [exact A|rewrite rad_deg; now apply sin_asin]|]. split; [exact B|].
  cbn [fst snd] in C. unfold cart_of in C. rewrite rad_deg in C.
  split; [now apply (f_equal (fun v : vec => fst (fst v))) in C|now apply (f_equal (fun v : vec => snd (fst v))) in C].
Qed.
(** What the C calls deliver: the two numbers are right and in each other's
    place. [polar_deg] holds the azimuth and [azimuth_deg] the altitude. *)
Theorem C132_exchanged m ms gast ut1_of p a src t u site mo : turning m -> turning (ms mo) -> known src = true ->
  (exists d, dir_to_horizontal m gast ut1_of p a src (Some t) site false = (SOk, Some d) /\ sd_frame d = Horizontal
     /\ azimuth_of (sd_polar d) (horizon_vector m (gast (ut1_of t) t) site p a src t) /\ altitude_of (sd_azimuth d) (horizon_vector m (gast (ut1_of t) t) site p a src t))
  /\ (exists d, dir_to_horizontal_precise m gast p a src (Some t) (Some u) site false = (SOk, Some d) /\ sd_frame d = Horizontal
     /\ azimuth_of (sd_polar d) (horizon_vector m (gast u t) site p a src t) /\ altitude_of (sd_azimuth d) (horizon_vector m (gast u t) site p a src t))
  /\ (exists d, dir_to_horizontal_ctx ms gast p a src (Some t) (Some u) site (Some mo) false = (SOk, Some d) /\ sd_frame d = Horizontal
     /\ azimuth_of (sd_polar d) (horizon_vector (ms mo) (gast u t) site p a src t) /\ altitude_of (sd_azimuth d) (horizon_vector (ms mo) (gast u t) site p a src t)).
Proof.
  intros T T2 K. unfold dir_to_horizontal_ctx, dir_to_horizontal_precise, dir_to_horizontal. rewrite K. cbn [negb].
  pose proof (horizon_pair m (gast (ut1_of t) t) site p a src t T) as H1. destruct (to_horizontal_sph m (gast (ut1_of t) t) site (p, a) src t) as [x y].
  pose proof (horizon_pair m (gast u t) site p a src t T) as H2. destruct (to_horizontal_sph m (gast u t) site (p, a) src t) as [x2 y2].
  pose proof (horizon_pair (ms mo) (gast u t) site p a src t T2) as H3. destruct (to_horizontal_sph (ms mo) (gast u t) site (p, a) src t) as [x3 y3].
  split; [|split]; eexists; (split; [reflexivity|]); (split; [reflexivity|]); cbn [sd_polar sd_azimuth]; tauto.
Qed.
Print Assumptions C132_exchanged.
(** So the documented reading, [polar_deg] is the altitude, fails: a star due
    east on the horizon is reported with a polar angle of 90 degrees. *)
Lemma east_star : horizon_vector (fun _ _ => identity) 0 (Geodetic 0 0 0) 0 90 EquatorialTrueOfDate 0 = (0, 1, 0).
Proof.
  unfold horizon_vector. change (transpose ((fun (_ : frame) (_ : R) => identity) EquatorialTrueOfDate 0)) with identity. rewrite !apply_1.
  rewrite (C132_direction 0 (Geodetic 0 0 0)) by apply cart_unit. cbn [g_lon g_lat]. unfold cart_of, dot3.
  replace (rad 0) with 0 by (unfold rad; lra). replace (rad 90) with (PI / 2) by (unfold rad; lra). rewrite Rplus_0_l, cos_0, sin_0, cos_PI2, sin_PI2.
  f_equal; [f_equal|]; ring.
Qed.
Theorem C132_altitude_refuted : exists m gast site p a d, turning m /\ dir_to_horizontal m gast (fun t => t) p a EquatorialTrueOfDate (Some 0) site false = (SOk, Some d)
  /\ altitude_of 0 (horizon_vector m 0 site p a EquatorialTrueOfDate 0) /\ sd_polar d = 90 /\ ~ altitude_of (sd_polar d) (horizon_vector m 0 site p a EquatorialTrueOfDate 0).
Proof.
  set (m := fun (_ : frame) (_ : R) => identity). exists m, (fun _ _ => 0), (Geodetic 0 0 0), 0, 90.
  assert (T : turning m) by (split; [intros; apply orthonormal_identity|reflexivity]).
  destruct (C132_exchanged m (fun _ => m) (fun _ _ => 0) (fun t => t) 0 90 EquatorialTrueOfDate 0 0 (Geodetic 0 0 0) Iau2006 T T eq_refl) as ((d & D & _ & Z & A) & _).
  cbv beta in Z, A. pose proof (east_star : horizon_vector m 0 (Geodetic 0 0 0) 0 90 EquatorialTrueOfDate 0 = (0, 1, 0)) as ES.
  exists d. rewrite ES in *. split; [exact T|]. split; [exact D|].
  assert (P : sd_polar d = 90).
  { destruct Z as ((Z1 & Z2) & Z3 & Z4). cbn [fst snd] in *. rewrite asin_0, cos_0, Rmult_1_l in Z3, Z4. pose proof PI_RGT_0 as PP.
    assert (B : 0 <= rad (sd_polar d) < 2 * PI). { unfold rad. split; [apply Rmult_le_pos; [apply Rmult_le_pos; lra|lra]|]. nra. }
    assert (E : rad (sd_polar d) = PI / 2).
    { destruct (Rtotal_order (rad (sd_polar d)) (PI / 2)) as [L|[L|L]]; [|exact L|].
      - assert (0 < cos (rad (sd_polar d))) by (apply cos_gt_0; lra). lra.
      - destruct (Rlt_le_dec (rad (sd_polar d)) (3 * (PI / 2))) as [M|M].
        + assert (cos (rad (sd_polar d)) < 0) by (apply cos_lt_0; lra). lra.
        + assert (sin (rad (sd_polar d)) < 0) by (apply sin_lt_0; lra). lra. }
    rewrite <- (deg_rad (sd_polar d)), E. unfold deg. field. lra. }
  split; [|split; [exact P|]].
  - split; [lra|]. cbn [snd]. unfold rad. rewrite Rmult_0_l. unfold Rdiv. rewrite Rmult_0_l. apply sin_0.
  - rewrite P. intros (_ & H). cbn [snd] in H. replace (rad 90) with (PI / 2) in H by (unfold rad; lra). rewrite sin_PI2 in H. lra.
Qed.
Print Assumptions C132_altitude_refuted.
(** The statuses follow the same order as the frame transforms. *)
Theorem C132_status m ms gast ut1_of p a src jd u site ctx null :
  judged null (known src) true jd (dir_to_horizontal m gast ut1_of p a src jd site null)
  /\ judged null (known src) true (match jd, u with Some t, Some _ => Some t | _, _ => None end) (dir_to_horizontal_precise m gast p a src jd u site null)
  /\ judged (null || match ctx with None => true | _ => false end) (known src) true (match jd, u with Some t, Some _ => Some t | _, _ => None end)
       (dir_to_horizontal_ctx ms gast p a src jd u site ctx null).
Proof.
  unfold judged, dir_to_horizontal_ctx, dir_to_horizontal_precise, dir_to_horizontal.
  destruct null, jd as [t|], u as [w|], (known src), ctx as [mo|]; cbn [negb orb];
    try destruct (to_horizontal_sph m (gast (ut1_of t) t) site (p, a) src t); try destruct (to_horizontal_sph m (gast w t) site (p, a) src t);
    try destruct (to_horizontal_sph (ms mo) (gast w t) site (p, a) src t); cbn [fst snd];
    intuition (try discriminate; try congruence).
Qed.
Print Assumptions C132_status.
Example C132_case : horizon_vector (fun _ _ => identity) 0 (Geodetic 0 0 0) 0 90 EquatorialTrueOfDate 0 = (0, 1, 0) /\ altitude_of 0 (0, 1, 0) /\ azimuth_of 90 (0, 1, 0).
Proof.
  split; [exact east_star|]. unfold altitude_of, azimuth_of. cbn [fst snd]. replace (rad 0) with 0 by (unfold rad; lra). replace (rad 90) with (PI / 2) by (unfold rad; lra).
  rewrite asin_0, cos_0, sin_0, cos_PI2, sin_PI2. lra.
Qed.

(** ** C133: centres and orbits through C *)
(** Where the origin of a centre lies from the barycentre. *)
Definition origin (o : offsets) (t : R) (c : ccenter) : vec :=
  match c with Heliocentric => of_sun o t | Geocentric => vplus (of_sun o t) (of_earth o t) | _ => (0, 0, 0) end.
Definition movable (c : ccenter) : Prop := c = Barycentric \/ c = Heliocentric \/ c = Geocentric.
Ltac vec := repeat match goal with v : vec |- _ => destruct v as [[? ?] ?] | |- context [of_sun ?o ?t] => destruct (of_sun o t) as [[? ?] ?] | |- context [of_earth ?o ?t] => destruct (of_earth o t) as [[? ?] ?] end;
  cbn [vplus vminus]; apply (f_equal2 pair); [apply (f_equal2 pair)|]; ring.
Theorem C133_shift o p dst t : movable (cp_center p) -> movable dst ->
  exists q, transform_center o p dst (Some t) false = (SOk, Some q) /\ cp_center q = dst /\ cp_frame q = cp_frame p /\ cp_unit q = cp_unit p
    /\ vplus (cp_v q) (origin o t dst) = vplus (cp_v p) (origin o t (cp_center p)).
Proof.
  destruct p as [v f c u]. cbn [cp_v cp_frame cp_center cp_unit]. unfold transform_center. cbn [cp_v cp_frame cp_center cp_unit].
  intros [-> | [-> | ->]] [-> | [-> | ->]]; cbn [shift_code shift_center Nat.eqb]; (eexists; split; [reflexivity|]); cbn [cp_v cp_frame cp_center cp_unit];
    (split; [reflexivity|]); (split; [reflexivity|]); (split; [reflexivity|]); cbn [origin]; vec.
Qed.
Print Assumptions C133_shift.
(** Coming back restores the position, and a third centre on the way changes nothing. *)
Lemma vplus_cancel u v w : vplus u w = vplus v w -> u = v.
Proof.
  destruct u as [[a b] c], v as [[x y] z], w as [[i j] k]. cbn [vplus]. intros H.
  assert (a + i = x + i) by now apply (f_equal (fun q : vec => fst (fst q))) in H.
  assert (b + j = y + j) by now apply (f_equal (fun q : vec => snd (fst q))) in H.
  assert (c + k = z + k) by now apply (f_equal (fun q : vec => snd q)) in H.
  f_equal; [f_equal|]; lra.
Qed.
Lemma movable_center o p dst t q : transform_center o p dst (Some t) false = (SOk, Some q) -> movable (cp_center p) /\ movable dst.
Proof.
  unfold transform_center, movable. destruct (cp_center p); cbn [shift_code]; try discriminate; destruct dst; cbn [shift_code]; try discriminate; tauto.
Qed.
Theorem C133_through o p c1 c2 t q r : transform_center o p c1 (Some t) false = (SOk, Some q) -> transform_center o q c2 (Some t) false = (SOk, Some r) ->
  transform_center o p c2 (Some t) false = (SOk, Some r).
Proof.
  intros Q S. destruct (movable_center _ _ _ _ _ Q) as (M1 & M2). destruct (movable_center _ _ _ _ _ S) as (M3 & M4).
  destruct (C133_shift o p c1 t M1 M2) as (q' & Q' & QC & QF & QU & QV). assert (q' = q) by congruence. subst q'.
  destruct (C133_shift o q c2 t M3 M4) as (r' & R' & RC & RF & RU & RV). assert (r' = r) by congruence. subst r'.
  destruct (C133_shift o p c2 t M1 M4) as (x & X & XC & XF & XU & XV). rewrite X. do 2 f_equal.
  rewrite QC, QV, <- XV in RV. apply vplus_cancel in RV. destruct x, r; cbn in *; congruence.
Qed.
Print Assumptions C133_through.
Theorem C133_back o p c t q : transform_center o p c (Some t) false = (SOk, Some q) -> transform_center o q (cp_center p) (Some t) false = (SOk, Some p).
Proof.
  intros Q. destruct (movable_center _ _ _ _ _ Q) as (M1 & M2).
  destruct (C133_shift o p c t M1 M2) as (q' & Q' & QC & QF & QU & QV). assert (q' = q) by congruence. subst q'.
  assert (M3 : movable (cp_center q)) by now rewrite QC.
  destruct (C133_shift o q (cp_center p) t M3 M1) as (r & X & RC & RF & RU & RV). rewrite X. do 2 f_equal.
  rewrite QC, QV in RV. apply vplus_cancel in RV. destruct p, r; cbn in *; congruence.
Qed.
Print Assumptions C133_back.
(** Statuses. A shift to the same centre never looks at the date. *)
Theorem C133_status o p dst jd null : let r := transform_center o p dst jd null in
  (fst r = SNullPointer <-> null = true) /\ (fst r = SInvalidCenter <-> null = false /\ ~ (movable (cp_center p) /\ movable dst))
  /\ (fst r = SInvalidArgument <-> null = false /\ movable (cp_center p) /\ movable dst /\ cp_center p <> dst /\ jd = None)
  /\ (fst r = SOk <-> null = false /\ movable (cp_center p) /\ movable dst /\ (cp_center p = dst \/ jd <> None)) /\ (snd r <> None <-> fst r = SOk).
Proof.
  cbv zeta. unfold transform_center, movable. destruct p as [v f c u]. cbn [cp_center cp_v cp_frame cp_unit].
  destruct null, c, dst, jd as [t|]; cbn [shift_code shift_center Nat.eqb fst snd];
    repeat match goal with |- _ /\ _ => split end; split; intros H;
    repeat match goal with
    | H : _ /\ _ |- _ => destruct H
    | |- _ /\ _ => split
    end; try easy; try tauto; try congruence;
    repeat match goal with H : _ \/ _ |- _ => destruct H end; try easy; try congruence; try tauto;
    try (intros (X & Y); repeat match goal with H : _ \/ _ |- _ => destruct H end; discriminate);
    try (right; discriminate); try (left; reflexivity); exfalso; auto 10 using or_introl, or_intror.
Qed.
Print Assumptions C133_status.
(** The shift is added as it stands, whatever unit and frame the position
    names. A position given in kilometres is therefore moved by astronomical
    units of kilometres: the same point expressed in another unit, or turned
    into another frame, does not shift to the same point. *)
Definition km_per_au : R := 1495978707 / 10.
Theorem C133_unit_refuted : exists o p q, cp_unit p = UAu /\ transform_center o p Geocentric (Some 0) false = (SOk, Some q)
  /\ transform_center o (Cpos (scale km_per_au (cp_v p)) (cp_frame p) (cp_center p) UKm) Geocentric (Some 0) false
     <> (SOk, Some (Cpos (scale km_per_au (cp_v q)) (cp_frame q) (cp_center q) UKm)).
Proof.
  exists (Offsets (fun _ => (0, 0, 0)) (fun _ => (1, 0, 0))), (Cpos (0, 0, 0) EclipticMeanJ2000 Heliocentric UAu), (Cpos (0 - 1, 0 - 0, 0 - 0) EclipticMeanJ2000 Geocentric UAu).
  split; [reflexivity|]. split; [reflexivity|]. cbn. intros E.
  assert (X : Some (km_per_au * 0 - 1) = Some (km_per_au * (0 - 1))).
  { apply (f_equal (fun r : reply cpos => match snd r with Some c => Some (fst (fst (cp_v c))) | None => None end)) in E. exact E. }
  assert (X2 : km_per_au * 0 - 1 = km_per_au * (0 - 1)) by congruence. unfold km_per_au in X2. lra.
Qed.
Print Assumptions C133_unit_refuted.
Theorem C133_frame_refuted : exists m o p q r, turning m /\ transform_center o p Geocentric (Some 0) false = (SOk, Some q)
  /\ cartesian_pos_transform m q EquatorialMeanJ2000 (Some 0) false = (SOk, Some r)
  /\ forall q', cartesian_pos_transform m p EquatorialMeanJ2000 (Some 0) false = (SOk, Some q') -> transform_center o q' Geocentric (Some 0) false <> (SOk, Some r).
Proof.
  set (m := fun (f : frame) (_ : R) => match f with EclipticMeanJ2000 => r3 (PI / 2) | _ => identity end).
  assert (T : turning m). { split; [|reflexivity]. intros f t. destruct f; cbn; try apply orthonormal_identity. apply r3_orthonormal. }
  exists m, (Offsets (fun _ => (0, 0, 0)) (fun _ => (1, 0, 0))), (Cpos (0, 0, 0) EclipticMeanJ2000 Heliocentric UAu), (Cpos (0 - 1, 0 - 0, 0 - 0) EclipticMeanJ2000 Geocentric UAu).
  eexists. split; [exact T|]. split; [reflexivity|]. split; [reflexivity|]. intros q' Q. cbn [cartesian_pos_transform known_pos known negb cp_frame cp_v cp_center cp_unit] in Q.
  injection Q as <-. intros E.
  apply (f_equal (fun r : reply cpos => match snd r with Some c => fst (fst (cp_v c)) | None => 0 end)) in E. revert E.
  cbn [fst snd transform_center shift_code shift_center Nat.eqb cp_v cp_center cp_frame cp_unit of_earth of_sun vminus].
  unfold into_icrs, from_icrs, m, apply, transpose, r3, identity. cbn. rewrite cos_PI2, sin_PI2. lra.
Qed.
Print Assumptions C133_frame_refuted.
(** To a body and back is the shift to the geocentre, for any of the three
    centres and any orbit, positions in AU. *)
Lemma shift_body o b own code t : (own = 0 \/ own = 1 \/ own = 2)%nat ->
  exists b1 b2, shift_center o b code own (Some t) = inr b1 /\ shift_center o b code 2 (Some t) = inr b2
    /\ vplus b1 (origin o t (match own with 0%nat => Barycentric | 1%nat => Heliocentric | _ => Geocentric end)) = vplus b2 (origin o t Geocentric).
Proof.
  intros H. unfold shift_center.
  assert (K : (code = 0 \/ code = 1 \/ code = 2 \/ exists n, code = S (S (S n)))%nat).
  { destruct code as [|[|[|n]]]; [tauto|tauto|tauto|]. right. right. right. now exists n. }
  destruct H as [-> | [-> | ->]]; destruct K as [-> | [-> | [-> | (n & ->)]]]; cbn [Nat.eqb];
    (eexists; eexists; split; [reflexivity|]; split; [reflexivity|]); cbn [origin]; vec.
Qed.
Theorem C133_body_round_trip solve o p orb code t q r : cp_unit p = UAu ->
  to_bodycentric_c solve o p orb code (Some t) false = (SOk, Some q) -> from_bodycentric_c solve o q orb code (Some t) false = (SOk, Some r) ->
  cp_center q = Bodycentric /\ transform_center o p Geocentric (Some t) false = (SOk, Some r).
Proof.
  intros U Q S. unfold to_bodycentric_c in Q. unfold from_bodycentric_c in S.
  destruct (shift_code (cp_center p)) as [own|] eqn:C; [|discriminate].
  destruct (try_to_rust orb) as [k|]; [|discriminate]. set (b := kepler_position solve k t) in *. clearbody b.
  assert (Hown : (own = 0 \/ own = 1 \/ own = 2)%nat) by (destruct (cp_center p); cbn in C; inversion C; subst; tauto).
  destruct (shift_body o b own code t Hown) as (b1 & b2 & B1 & B2 & B).
  rewrite B1 in Q. rewrite B2 in S. injection Q as <-. injection S as <-. cbn [cp_center cp_v cp_frame cp_unit]. split; [reflexivity|].
  assert (M : movable (cp_center p)) by (unfold movable; destruct (cp_center p); cbn in C; inversion C; tauto).
  destruct (C133_shift o p Geocentric t M (or_intror (or_intror eq_refl))) as (x & X & XC & XF & XU & XV). rewrite X. do 2 f_equal.
  assert (O : origin o t (match own with 0%nat => Barycentric | 1%nat => Heliocentric | _ => Geocentric end) = origin o t (cp_center p)).
  { destruct (cp_center p); cbn in C; inversion C; subst; reflexivity. }
  rewrite O in B. clear O. destruct x as [xv xf xc xu]. cbn [cp_center cp_v cp_frame cp_unit] in *. subst xf xc xu. rewrite U.
  assert (V : xv = vplus (vminus (cp_v p) b1) b2).
  { destruct (origin o t Geocentric) as [[g1 g2] g3], (origin o t (cp_center p)) as [[h1 h2] h3], (cp_v p) as [[p1 p2] p3], b1 as [[e1 e2] e3], b2 as [[f1 f2] f3], xv as [[x1 x2] x3].
    cbn [vplus vminus] in *.
    assert (A1 := f_equal (fun v : vec => fst (fst v)) B). assert (A2 := f_equal (fun v : vec => snd (fst v)) B). assert (A3 := f_equal (fun v : vec => snd v) B).
    assert (Y1 := f_equal (fun v : vec => fst (fst v)) XV). assert (Y2 := f_equal (fun v : vec => snd (fst v)) XV). assert (Y3 := f_equal (fun v : vec => snd v) XV).
    cbn [fst snd] in *. f_equal; [f_equal|]; lra. }
  now rewrite V.
Qed.
Print Assumptions C133_body_round_trip.
(** With another unit the way back relabels the numbers as AU. *)
Theorem C133_label_refuted solve : exists o p orb q r, cp_unit p = UKm /\ to_bodycentric_c solve o p orb 1 (Some 0) false = (SOk, Some q)
  /\ from_bodycentric_c solve o q orb 1 (Some 0) false = (SOk, Some r) /\ cp_unit q = UKm /\ cp_unit r = UAu.
Proof.
  exists (Offsets (fun _ => (0, 0, 0)) (fun _ => (1, 0, 0))), (Cpos (0, 0, 0) EclipticMeanJ2000 Geocentric UKm), (Corbit (Build_orbit 1 0 0 0 0 0 0) (Some 0)).
  eexists. eexists. split; [reflexivity|]. split; [reflexivity|]. split; [reflexivity|]. split; reflexivity.
Qed.
Print Assumptions C133_label_refuted.
(** An unknown centre of the orbit: one call refuses it, the other takes it as heliocentric. *)
Theorem C133_unknown_center solve o p orb n jd null : let code := S (S (S n)) in
  (null = false -> kepler_position_ex solve orb code jd null = (SInvalidCenter, None))
  /\ to_bodycentric_c solve o p orb code jd null = to_bodycentric_c solve o p orb 1 jd null.
Proof.
  cbv zeta. split; [now intros ->|]. unfold to_bodycentric_c. destruct null; [reflexivity|].
  destruct (cp_center p); cbn [shift_code]; try reflexivity; destruct (try_to_rust orb); try reflexivity; destruct jd; reflexivity.
Qed.
Print Assumptions C133_unknown_center.
(** An orbit about the Sun or the barycentre moves as the orbit code says; an
    orbit about the Earth moves with the Sun's pull, not the Earth's. *)
Theorem C133_kepler solve orb code jd : (code < 3)%nat ->
  kepler_position_ex solve orb code jd false =
    match co_epoch orb, jd with
    | Some e, Some t => (SOk, Some (Cpos (kepler_position solve (Build_orbit (o_a (co_elements orb)) (o_e (co_elements orb)) (o_inc (co_elements orb)) (o_node (co_elements orb))
        (o_argp (co_elements orb)) (o_m0 (co_elements orb)) e) t) EclipticMeanJ2000 (nth code [Barycentric; Heliocentric; Geocentric] Topocentric) UAu))
    | _, _ => (SInvalidArgument, None)
    end.
Proof. intros H. unfold kepler_position_ex, try_to_rust. destruct code as [|[|[|]]]; [| | |lia]; cbn [orbit_center nth]; destruct (co_epoch orb), jd; reflexivity. Qed.
Print Assumptions C133_kepler.
Definition gm_earth : R := 3986004418 / 10000.
Lemma rem_small x y : 0 <= x < y -> rem_t x y = x.
Proof.
  intros (A & B). unfold rem_t, trunc. assert (Q : 0 <= x / y) by (apply Rmult_le_pos; [lra|apply Rlt_le, Rinv_0_lt_compat; lra]).
  destruct (Rle_dec 0 (x / y)) as [_|N]; [|easy].
  assert (Q1 : x / y < 1). { apply (Rmult_lt_reg_r y); [lra|]. replace (x / y * y) with x by (field; lra). lra. }
  assert (E : Int_part (x / y) = 0%Z).
  { symmetry. unfold Int_part. assert (U : (1)%Z = up (x / y)) by (apply tech_up; cbn; lra). rewrite <- U. reflexivity. }
  rewrite E. lra.
Qed.
Theorem C133_gravity_refuted solve : (forall m, solve m 0 = m) ->
  exists orb k t q, try_to_rust orb = Some k /\ kepler_position_ex solve orb 2 (Some t) false = (SOk, Some q) /\ cp_center q = Geocentric
    /\ cp_v q <> orbit_position_with_mu solve k t gm_earth.
Proof.
  intros SV. set (k := Build_orbit 1 0 0 0 0 0 0). set (t := period_days 1 / 2). exists (Corbit k (Some 0)), k, t, (Cpos (kepler_position solve k t) EclipticMeanJ2000 Geocentric UAu).
  split; [reflexivity|]. split; [reflexivity|]. split; [reflexivity|]. cbn [cp_v]. intros E. pose proof PI_RGT_0 as PP.
  assert (PD : period_days 1 = 365256898326 / 10 ^ 9) by (unfold period_days; rewrite sqrt_1; lra).
  assert (R0 : rad 0 = 0) by (unfold rad; lra).
  apply (f_equal (fun v : vec3 => fst (fst v))) in E. revert E.
  unfold kepler_position, prepared_position, prepare, orbit_position_with_mu, position_at_rate, k. cbn [p_m0 p_n p_orbit p_trig o_epoch o_e o_a o_inc o_node o_argp o_m0].
  rewrite R0. replace (0 + 2 * PI / period_days 1 * (t - 0)) with PI by (unfold t; field; rewrite PD; lra).
  rewrite (rem_small PI) by lra. rewrite !SV. unfold elliptic. cbn [rotate_precomputed rotate trig_of t_sin_i t_cos_i t_sin_w t_cos_w t_sin_n t_cos_n fst snd].
  rewrite R0, sin_0, cos_0. replace (1 + 0) with 1 by ring. replace (1 - 0) with 1 by ring. rewrite sqrt_1.
  unfold atan_tan. replace (PI * / 2) with (PI / 2) by reflexivity. rewrite cos_PI2. destruct (Req_EM_T 0 0) as [_|N]; [|easy].
  replace (2 * (PI / 2)) with PI by field. rewrite cos_PI, sin_PI.
  set (n := sqrt (mu_to_au3_d2 gm_earth / (1 * 1 * 1))).
  assert (NB : 0 <= n < 1 / 1000).
  { unfold n. split; [apply sqrt_pos|]. rewrite <- (sqrt_square (1 / 1000)) by lra. apply sqrt_lt_1_alt. unfold mu_to_au3_d2, gm_earth. split; lra. }
  assert (MB : 0 <= n * (t - 0) < 1). { assert (0 <= t - 0 < 200) by (unfold t; rewrite PD; lra). nra. }
  assert (P3 : 3 < PI) by (pose proof PI_4; pose proof PI2_3_2; lra).
  replace (0 + n * (t - 0)) with (n * (t - 0)) by ring. rewrite (rem_small (n * (t - 0))) by lra.
  set (h := n * (t - 0) * / 2). assert (HB : 0 <= h < 1 / 2) by (unfold h; lra).
  assert (HC : 0 < cos h) by (apply cos_gt_0; lra). destruct (Req_EM_T (cos h) 0) as [Z|_]; [lra|].
  replace (1 * tan h / 1) with (tan h) by field. rewrite Ratan.atan_tan by lra.
  assert (C2 : 0 < cos (2 * h)) by (apply cos_gt_0; lra).
  replace (0 + 2 * h) with (2 * h) by ring. intros E. ring_simplify in E. nra.
Qed.
Print Assumptions C133_gravity_refuted.
Example C133_case : movable Barycentric /\ movable Geocentric /\
  transform_center (Offsets (fun _ => (1, 0, 0)) (fun _ => (0, 1, 0))) (Cpos (5, 5, 5) EclipticMeanJ2000 Barycentric UAu) Geocentric (Some 0) false
  = (SOk, Some (Cpos (5 - 1 - 0, 5 - 0 - 1, 5 - 0 - 0) EclipticMeanJ2000 Geocentric UAu)).
Proof. split; [now left|]. split; [right; now right|]. reflexivity. Qed.
