(** C175: changing the azimuth convention never changes where one points. *)
From Coq Require Import Reals Lra Lia.
From Verif Require Import Ang Bearing_Model.
Local Open Scope R_scope.

(** The horizon seen from above: a unit step is (north, east). The origin of a
    convention is one of the four steps; an azimuth turns it to the right
    (clockwise) or to the left by that many degrees. *)
Definition toward (o : origin) : R * R :=
  match o with North => (1, 0) | East => (0, 1) | South => (-1, 0) | West => (0, -1) end.
Definition turn_right (v : R * R) (deg : R) : R * R :=
  let t := deg * PI / 180 in
  (fst v * cos t - snd v * sin t, fst v * sin t + snd v * cos t).
Definition heading (c : convention) (az : R) : R * R :=
  turn_right (toward (c_origin c)) (match c_sense c with Clockwise => az | CounterClockwise => - az end).

Definition sg (s : sense) : R := match s with Clockwise => 1 | CounterClockwise => -1 end.

Lemma normalize_def x : exists k, normalize x = x + 360 * IZR k.
Proof. unfold normalize, rem_e. exists (- Int_part (x / 360))%Z. rewrite opp_IZR. ring. Qed.

Lemma conv_eq_true a b : conv_eq a b = true <-> a = b.
Proof.
  destruct a as [[] []], b as [[] []]; cbn; split; intros H; try discriminate H; try reflexivity.
Qed.

Lemma convert_def a f t : exists k,
  convert_azimuth a f t =
  sg (c_sense t) * (sg (c_sense f) * a + origin_offset_cw (c_origin f) - origin_offset_cw (c_origin t)) + 360 * IZR k.
Proof.
  unfold convert_azimuth. destruct (conv_eq f t) eqn:E.
  - apply conv_eq_true in E. subst. destruct (normalize_def a) as (k & H). exists k. rewrite H. destruct (c_sense t); unfold sg; ring.
  - destruct (c_sense f), (c_sense t); cbn zeta;
      match goal with |- context [normalize ?x] => destruct (normalize_def x) as (k & H) end; exists k; rewrite H; unfold sg; ring.
Qed.

Lemma convert_range a f t : 0 <= convert_azimuth a f t < 360.
Proof. unfold convert_azimuth. destruct (conv_eq f t); apply rem_e_range; lra. Qed.

Lemma same_mod x y k : 0 <= x < 360 -> 0 <= y < 360 -> x = y + 360 * IZR k -> x = y.
Proof.
  intros X Y E. rewrite <- (rem_e_small x 360) by lra. rewrite E, rem_e_shift by lra. apply rem_e_small; lra.
Qed.

Lemma turn_mod v d k : turn_right v (d + 360 * IZR k) = turn_right v d.
Proof.
  unfold turn_right. replace ((d + 360 * IZR k) * PI / 180) with (d * PI / 180 + 2 * PI * IZR k) by field.
  rewrite ?sin_turns, ?cos_turns. reflexivity.
Qed.

Lemma turn_add v a b : turn_right v (a + b) = turn_right (turn_right v a) b.
Proof.
  unfold turn_right; cbn [fst snd]. replace ((a + b) * PI / 180) with (a * PI / 180 + b * PI / 180) by field.
  rewrite sin_plus, cos_plus. f_equal; ring.
Qed.

Lemma toward_offset o : toward o = turn_right (1, 0) (origin_offset_cw o).
Proof.
  unfold turn_right; destruct o; cbn [toward origin_offset_cw fst snd].
  - replace (0 * PI / 180) with 0 by field. rewrite sin_0, cos_0. f_equal; ring.
  - replace (180 * PI / 180) with PI by field. rewrite sin_PI, cos_PI. f_equal; ring.
  - replace (90 * PI / 180) with (PI / 2) by field. rewrite sin_PI2, cos_PI2. f_equal; ring.
  - replace (270 * PI / 180) with (3 * (PI / 2)) by field. rewrite sin_3PI2, cos_3PI2. f_equal; ring.
Qed.

Lemma heading_def c a : heading c a = turn_right (1, 0) (origin_offset_cw (c_origin c) + sg (c_sense c) * a).
Proof.
  unfold heading. rewrite toward_offset, <- turn_add. f_equal. destruct (c_sense c); unfold sg; ring.
Qed.

(** The converted azimuth, read in the target convention, points where the
    original one, read in the source convention, pointed. *)
Theorem C175_points : forall az from to, heading to (convert_azimuth az from to) = heading from az.
Proof.
  intros. rewrite !heading_def. destruct (convert_def az from to) as (k & ->).
  destruct (c_sense to).
  - replace (origin_offset_cw (c_origin to) + sg Clockwise * (sg Clockwise * (sg (c_sense from) * az + origin_offset_cw (c_origin from) - origin_offset_cw (c_origin to)) + 360 * IZR k))
      with (origin_offset_cw (c_origin from) + sg (c_sense from) * az + 360 * IZR k) by (destruct (c_sense from); unfold sg; ring).
    apply turn_mod.
  - replace (origin_offset_cw (c_origin to) + sg CounterClockwise * (sg CounterClockwise * (sg (c_sense from) * az + origin_offset_cw (c_origin from) - origin_offset_cw (c_origin to)) + 360 * IZR k))
      with (origin_offset_cw (c_origin from) + sg (c_sense from) * az + 360 * IZR (- k)) by (rewrite opp_IZR; destruct (c_sense from); unfold sg; ring).
    apply turn_mod.
Qed.

(** The result is the one azimuth in [0, 360) that points there. *)
Lemma heading_inj c a b : 0 <= a < 360 -> 0 <= b < 360 -> heading c a = heading c b -> a = b.
Proof.
  intros A B H. rewrite !heading_def in H. set (o := origin_offset_cw (c_origin c)) in *. clearbody o.
  assert (X : turn_right (1, 0) (sg (c_sense c) * a) = turn_right (1, 0) (sg (c_sense c) * b)).
  { replace (sg (c_sense c) * a) with ((o + sg (c_sense c) * a) + - o) by ring.
    replace (sg (c_sense c) * b) with ((o + sg (c_sense c) * b) + - o) by ring.
    rewrite turn_add, H, <- turn_add. reflexivity. }
  clear H. unfold turn_right in X; cbn [fst snd] in X. rewrite !Rmult_1_l, !Rmult_0_l, Rminus_0_r, Rplus_0_r, Rminus_0_r, Rplus_0_r in X.
  injection X as C0 S0.
  assert (D : cos (a * PI / 180 - b * PI / 180) = 1).
  { destruct (c_sense c); unfold sg in *.
    - replace (1 * a * PI / 180) with (a * PI / 180) in * by field. replace (1 * b * PI / 180) with (b * PI / 180) in * by field.
      rewrite cos_minus, C0, S0. pose proof (sin2_cos2 (b * PI / 180)) as P. unfold Rsqr in P. lra.
    - replace (-1 * a * PI / 180) with (- (a * PI / 180)) in * by field. replace (-1 * b * PI / 180) with (- (b * PI / 180)) in * by field.
      rewrite !cos_neg in C0. rewrite !sin_neg in S0. assert (S1 : sin (a * PI / 180) = sin (b * PI / 180)) by lra.
      rewrite cos_minus, C0, S1. pose proof (sin2_cos2 (b * PI / 180)) as P. unfold Rsqr in P. lra. }
  set (u := a * PI / 180 - b * PI / 180) in *.
  assert (U : - (2 * PI) < u < 2 * PI). { unfold u. pose proof PI_RGT_0. split; nra. }
  assert (H2 : sin (u / 2) = 0).
  { replace u with (2 * (u / 2)) in D by field. rewrite cos_2a_sin in D. nra. }
  assert (u = 0).
  { destruct (Rtotal_order u 0) as [L|[E|G]]; [|exact E|].
    - pose proof (sin_gt_0 (- (u / 2))). rewrite sin_neg in H. lra.
    - pose proof (sin_gt_0 (u / 2)). lra. }
  unfold u in H. pose proof PI_RGT_0. nra.
Qed.

Theorem C175_unique : forall az from to x,
  0 <= x < 360 -> heading to x = heading from az -> x = convert_azimuth az from to.
Proof.
  intros az from to x X H. apply (heading_inj to); [exact X|apply convert_range|]. now rewrite H, C175_points.
Qed.

Theorem C175_range : forall az from to, 0 <= convert_azimuth az from to < 360.
Proof. exact convert_range. Qed.

(** Conversions compose, undo each other and fix a normalised azimuth. *)
Theorem C175_compose : forall az a b c,
  convert_azimuth (convert_azimuth az a b) b c = convert_azimuth az a c.
Proof. intros. apply C175_unique; [apply convert_range|]. now rewrite !C175_points. Qed.

Theorem C175_round_trip : forall az a b, 0 <= az < 360 ->
  convert_azimuth (convert_azimuth az a b) b a = az.
Proof. intros. symmetry. apply C175_unique; [exact H|]. now rewrite C175_points. Qed.

(** Adding whole turns to the input changes nothing. *)
Theorem C175_turns : forall az a b k, convert_azimuth (az + 360 * IZR k) a b = convert_azimuth az a b.
Proof.
  intros. apply C175_unique; [apply convert_range|]. rewrite C175_points, !heading_def.
  destruct (c_sense a).
  - replace (origin_offset_cw (c_origin a) + sg Clockwise * (az + 360 * IZR k)) with (origin_offset_cw (c_origin a) + sg Clockwise * az + 360 * IZR k) by (unfold sg; ring).
    apply turn_mod.
  - replace (origin_offset_cw (c_origin a) + sg CounterClockwise * (az + 360 * IZR k)) with (origin_offset_cw (c_origin a) + sg CounterClockwise * az + 360 * IZR (- k)) by (rewrite opp_IZR; unfold sg; ring).
    apply turn_mod.
Qed.

(** The two shorthands are the conversions they name, in either direction and
    for either sense (origin swap) or for any origin (sense swap). *)
Theorem C175_flips : forall az s o,
  flip_north_south az = convert_azimuth az (Conv North s) (Conv South s) /\
  flip_north_south az = convert_azimuth az (Conv South s) (Conv North s) /\
  flip_sense az = convert_azimuth az (Conv o Clockwise) (Conv o CounterClockwise) /\
  flip_sense az = convert_azimuth az (Conv o CounterClockwise) (Conv o Clockwise).
Proof.
  intros az s o.
  assert (Q : forall x y k, y = x + 360 * IZR k -> normalize y = normalize x).
  { intros x y k ->. unfold normalize. apply rem_e_shift. lra. }
  repeat split; unfold flip_north_south, flip_sense, convert_azimuth; destruct s, o;
    cbn [conv_eq c_origin c_sense origin_eq sense_eq andb origin_offset_cw]; cbn zeta;
    try (apply (Q _ _ 0%Z); cbn [IZR]; lra);
    try (apply (Q _ _ 1%Z); lra); try (apply (Q _ _ (-1)%Z); lra).
Qed.

(** The flips are involutions on normalised azimuths. *)
Theorem C175_flip_twice : forall az, 0 <= az < 360 ->
  flip_north_south (flip_north_south az) = az /\ flip_sense (flip_sense az) = az.
Proof.
  intros az H. destruct (C175_flips az Clockwise North) as (A & _ & C & _).
  split.
  - rewrite A. destruct (C175_flips (convert_azimuth az (Conv North Clockwise) (Conv South Clockwise)) Clockwise North) as (_ & B & _ & _).
    rewrite B. now apply C175_round_trip.
  - rewrite C. destruct (C175_flips (convert_azimuth az (Conv North Clockwise) (Conv North CounterClockwise)) Clockwise North) as (_ & _ & _ & B).
    rewrite B. now apply C175_round_trip.
Qed.

(** Positions keep site, altitude and distance; native conversion is the
    conversion with the library's north-clockwise convention, and the two
    directions undo each other. *)
Theorem C175_positions : forall (S : Type) (p : hpos S) from to,
  h_site (convert_position p from to) = h_site p /\
  h_alt (convert_position p from to) = h_alt p /\
  h_dist (convert_position p from to) = h_dist p /\
  heading to (h_az (convert_position p from to)) = heading from (h_az p) /\
  position_from_native (position_to_native p from) to = convert_position p from to /\
  (0 <= h_az p < 360 -> convert_position (convert_position p from to) to from = p) /\
  (0 <= h_az p < 360 -> position_to_native (position_from_native p to) to = p).
Proof.
  intros S p from to. repeat split; try apply C175_points.
  - unfold position_from_native, position_to_native, convert_position; cbn [h_site h_alt h_az h_dist]. now rewrite C175_compose.
  - intros H. unfold convert_position; cbn [h_site h_alt h_az h_dist]. rewrite C175_round_trip by exact H. now destruct p.
  - intros H. unfold position_from_native, position_to_native; cbn [h_site h_alt h_az h_dist]. rewrite C175_round_trip by exact H. now destruct p.
Qed.

(** Due east (90 degrees north-clockwise) is 270 south-clockwise, 270
    north-counter-clockwise and 0 east-counter-clockwise; west is 180 in the
    latter. The native convention is the compass. *)
Example C175_case :
  convert_azimuth 90 NORTH_CLOCKWISE SOUTH_CLOCKWISE = 270 /\
  convert_azimuth 90 NORTH_CLOCKWISE NORTH_COUNTERCLOCKWISE = 270 /\
  convert_azimuth 90 NORTH_CLOCKWISE EAST_COUNTERCLOCKWISE = 0 /\
  convert_azimuth 270 NORTH_CLOCKWISE EAST_COUNTERCLOCKWISE = 180 /\
  heading NORTH_CLOCKWISE 90 = (0, 1).
Proof.
  repeat split; try (unfold convert_azimuth, normalize; cbn [conv_eq NORTH_CLOCKWISE SOUTH_CLOCKWISE NORTH_COUNTERCLOCKWISE EAST_COUNTERCLOCKWISE c_origin c_sense origin_eq sense_eq andb origin_offset_cw]; cbn zeta).
  - apply (rem_e_unique _ _ _ (-1)); lra.
  - apply (rem_e_unique _ _ _ (-1)); lra.
  - apply (rem_e_unique _ _ _ 0); cbn [IZR]; lra.
  - apply (rem_e_unique _ _ _ (-1)); lra.
  - unfold heading, turn_right; cbn [NORTH_CLOCKWISE c_origin c_sense toward fst snd].
    replace (90 * PI / 180) with (PI / 2) by field. rewrite sin_PI2, cos_PI2. f_equal; ring.
Qed.

Print Assumptions C175_points.
Print Assumptions C175_unique.
Print Assumptions C175_range.
Print Assumptions C175_compose.
Print Assumptions C175_round_trip.
Print Assumptions C175_turns.
Print Assumptions C175_flips.
Print Assumptions C175_flip_twice.
Print Assumptions C175_positions.
