(** C77: horizontal coordinates. *)
From Coq Require Import Reals Lra.
From Verif Require Import Mat3 Ang Horiz_Model Horiz_Proofs.
Local Open Scope R_scope.

(** A body of given right ascension and declination is seen where its direction points in the local
    north-east-up axes turned to the sidereal time; the distance is unchanged. *)
Theorem C77_horizontal gast lon lat ra dec distance : let '(alt, az, d) := equatorial_to_horizontal gast lon lat ra dec distance in
  let theta := gast + lon in let u := (cos dec * cos ra, cos dec * sin ra, sin dec) in
  cos alt * cos az = dot3 u (- sin lat * cos theta, - sin lat * sin theta, cos lat) /\
  cos alt * sin az = dot3 u (- sin theta, cos theta, 0) /\
  sin alt = dot3 u (cos lat * cos theta, cos lat * sin theta, sin lat) /\
  - (PI / 2) <= alt <= PI / 2 /\ 0 <= az < 2 * PI /\ d = distance.
Proof.
  unfold equatorial_to_horizontal. cbn zeta. destruct (sin_ha gast lon ra) as (S & C).
  destruct (horizontal_ok (gast + lon) lat dec (hour_angle gast lon ra) ra _ C S eq_refl) as (A & B & D). split; [exact A|]. split; [exact B|]. split; [exact D|].
  split; [apply asin_bound|]. split; [apply rem_e_range; pose proof PI_RGT_0; lra|reflexivity].
Qed.
(** These facts pin the answer: away from the zenith and the nadir there is only one such pair. *)
Theorem C77_unique theta lat alt az alt' az' u : - (PI / 2) <= alt <= PI / 2 -> - (PI / 2) <= alt' <= PI / 2 -> 0 <= az < 2 * PI -> 0 <= az' < 2 * PI -> alt <> PI / 2 -> alt <> - (PI / 2) ->
  seen_at theta lat alt az u -> seen_at theta lat alt' az' u -> alt = alt' /\ az = az'.
Proof. apply seen_unique. Qed.
(** A star is seen where the rotated catalogue direction points; the altitude search and the azimuth
    search use the same two angles. *)
Theorem C77_star p npb gast lon lat ra dec : orthonormal npb -> let '(alt, az) := star_horizontal p npb gast lon lat ra dec in
  seen_at (gast + lon) lat alt az (match p with Geometric => unit_of ra dec | Apparent => apply npb (unit_of ra dec) end) /\
  - (PI / 2) <= alt <= PI / 2 /\ 0 <= az < 2 * PI /\ fixed_star_altitude p npb gast lon lat ra dec = alt /\ fixed_star_azimuth p npb gast lon lat ra dec = az.
Proof.
  intros O. unfold fixed_star_azimuth, fixed_star_altitude, star_horizontal. fold (true_of_date p npb ra dec). assert (U : dot3 (true_of_date p npb ra dec) (true_of_date p npb ra dec) = 1) by (unfold true_of_date; destruct p; [|rewrite orthonormal_dot by exact O]; apply unit_unit).
  destruct (true_of_date p npb ra dec) as ((x, y), z). cbn [dot3] in U. destruct (of_vector x y z U) as (V & Z). destruct (sin_ha gast lon (atan2 y x)) as (S & C).
  split; [rewrite <- V; now apply (horizontal_ok _ _ _ _ (atan2 y x))|]. split; [apply asin_bound|]. split; [apply rem_e_range; pose proof PI_RGT_0; lra|]. split; [now rewrite <- Z|reflexivity].
Qed.
(** So the angle between two bodies is the one their horizontal coordinates show. *)
Theorem C77_angle theta lat alt az u alt' az' u' : seen_at theta lat alt az u -> seen_at theta lat alt' az' u' ->
  sin alt * sin alt' + cos alt * cos alt' * cos (az - az') = dot3 u u'.
Proof. intros (P & Q & S) (P' & Q' & S'). rewrite <- (axes_dot theta lat u u'), <- P, <- Q, <- S, <- P', <- Q', <- S', cos_minus. ring. Qed.
(** Over a sidereal day a body north or south is highest on the meridian and lowest half a turn away. *)
Theorem C77_culmination ha dec lat : - (PI / 2) <= dec <= PI / 2 -> - (PI / 2) <= lat <= PI / 2 -> altitude PI dec lat <= altitude ha dec lat <= altitude 0 dec lat.
Proof.
  intros D L. pose proof (sc dec) as Sd. pose proof (sc lat) as Sl. assert (0 <= cos dec) by (apply cos_ge_0; lra). assert (0 <= cos lat) by (apply cos_ge_0; lra). unfold altitude. pose proof (COS_bound ha) as (Lo & Hi). rewrite cos_0, cos_PI.
  assert (K : 0 <= cos dec * cos lat) by (now apply Rmult_le_pos). set (q := cos dec * cos lat) in *.
  assert (B : -1 <= sin dec * sin lat + q * -1 /\ sin dec * sin lat + q * 1 <= 1). { unfold q. replace (sin dec * sin lat + cos dec * cos lat * -1) with (- cos (dec + lat)) by (rewrite cos_plus; ring). replace (sin dec * sin lat + cos dec * cos lat * 1) with (cos (dec - lat)) by (rewrite cos_minus; ring). pose proof (COS_bound (dec + lat)). pose proof (COS_bound (dec - lat)). lra. }
  assert (Inc : forall a b, -1 <= a -> a <= b -> b <= 1 -> asin a <= asin b). { intros a b A Ab Bb. destruct (Rle_lt_or_eq_dec _ _ Ab) as [Lt| ->]; [|lra]. left. apply Rnot_le_lt. intros Le. assert (sin (asin b) <= sin (asin a)) by (apply sin_incr_1; pose proof (asin_bound a); pose proof (asin_bound b); lra). rewrite !sin_asin in H1 by lra. lra. }
  split; apply Inc; nra.
Qed.
(** On the eastern half of the sky (hour angle beyond half a turn) the azimuth is on the eastern side. *)
Theorem C77_east ha dec lat : 0 < cos dec -> (sin ha < 0 <-> 0 < cos (altitude ha dec lat) * sin (azimuth ha dec lat)).
Proof.
  intros D. destruct (horizontal_ok 0 lat dec ha (- ha) (unit_of (- ha) dec)) as (_ & E & _); [f_equal; ring|f_equal; ring|reflexivity|]. rewrite E. cbn. rewrite sin_0, cos_0, sin_neg. split; intros H; nra.
Qed.
(** The body's position seen from the site is the difference of positions, rotated; with its distance. *)
Theorem C77_topocentric prec nut site geo : orthonormal prec -> orthonormal nut -> vminus geo site <> (0, 0, 0) ->
  let '(ra, dec, r) := apparent_topocentric prec nut site geo in
  0 < r /\ r * r = dot3 (vminus geo site) (vminus geo site) /\ (let '(x, y, z) := unit_of ra dec in (r * x, r * y, r * z)) = apply (mul nut prec) (vminus geo site).
Proof.
  intros O1 O2 Ne. unfold apparent_topocentric. rewrite apply_mul. set (w := vminus geo site) in *. assert (D : dot3 (apply nut (apply prec w)) (apply nut (apply prec w)) = dot3 w w) by (now rewrite !orthonormal_dot).
  destruct (apply nut (apply prec w)) as ((x, y), z). cbn [dot3] in D. assert (W : 0 < dot3 w w). { destruct w as ((a, b), c). cbn. destruct (Req_dec a 0) as [A|A]; [destruct (Req_dec b 0) as [B|B]; [destruct (Req_dec c 0) as [C|C]|]|]; [exfalso; apply Ne; now subst|nra|nra|nra]. }
  set (r := sqrt (x * x + y * y + z * z)). assert (R0 : 0 < r) by (apply sqrt_lt_R0; lra). assert (R2 : r * r = x * x + y * y + z * z) by (apply sqrt_sqrt; lra). split; [exact R0|]. split; [lra|].
  assert (U : x / r * (x / r) + y / r * (y / r) + z / r * (z / r) = 1) by (replace (x / r * (x / r) + y / r * (y / r) + z / r * (z / r)) with ((x * x + y * y + z * z) / (r * r)) by (field; lra); rewrite <- R2; field; lra).
  destruct (of_vector (x / r) (y / r) (z / r) U) as (V & _).
  assert (At : atan2 y x = atan2 (y / r) (x / r)). { unfold atan2. assert (I : 0 < / r) by (now apply Rinv_0_lt_compat).
    assert (Sx : forall q, (0 < q <-> 0 < q / r) /\ (q < 0 <-> q / r < 0) /\ (0 <= q <-> 0 <= q / r)) by (intros q; assert (q = q / r * r) by (field; lra); set (k := q / r) in *; clearbody k; subst q; repeat split; intros; nra).
    assert (Q : x <> 0 -> y / r / (x / r) = y / x) by (intros; field; lra). destruct (Sx x) as (X1 & X2 & X3), (Sx y) as (Y1 & Y2 & Y3).
    destruct (Rlt_dec 0 x), (Rlt_dec 0 (x / r)); try tauto; [rewrite Q by lra; reflexivity|]. destruct (Rlt_dec x 0), (Rlt_dec (x / r) 0); try tauto. { rewrite Q by lra. destruct (Rle_dec 0 y), (Rle_dec 0 (y / r)); tauto. }
    destruct (Rlt_dec 0 y), (Rlt_dec 0 (y / r)); try tauto. destruct (Rlt_dec y 0), (Rlt_dec (y / r) 0); tauto. }
  rewrite At, V. f_equal; [f_equal|]; field; lra.
Qed.
Example C77_case : orthonormal (r3 1) /\ seen_at 0 0 (PI / 2) 0 (1, 0, 0) /\ seen_at 0 0 0 (PI / 2) (0, 1, 0) /\ vminus (1, 2, 3) (0, 0, 1) <> (0, 0, 0) /\ 0 < cos 0.
Proof.
  split; [apply r3_orthonormal|]. unfold seen_at. cbn. rewrite !sin_0, !cos_0, !sin_PI2, !cos_PI2. repeat split; try lra. intros H. injection H as H1 H2 H3. lra.
Qed.
Print Assumptions C77_horizontal.
Print Assumptions C77_star.
Print Assumptions C77_topocentric.
