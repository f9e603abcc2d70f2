(** C83 - C86: the runtime JPL ephemeris. *)
From Coq Require Import List PeanoNat ZArith Lia Bool Reals Lra Psatz.
From Verif Require Import Base Noise_Model Mat3 Ang Geom_Model Geom_Proofs Jpl_Model Jpl_Proofs.
Import ListNotations.
Local Open Scope R_scope.

(** The sum of f 0, ..., f (n-1). *)
Definition total (n : nat) (f : nat -> R) : R := fold_right Rplus 0 (map f (seq 0 n)).
(** Chebyshev series over block [b] of record [k]: T_j (cos theta) = cos (j theta). *)
Definition series (d : desc) (k b : nat) (theta : R) : R := total (d_ncoeff d) (fun j => word d k (2 + b * d_ncoeff d + j) * cos (INR j * theta)).
(** Each record names the middle and the half length of its own interval. *)
Definition regular (d : desc) (i len : R) : Prop :=
  forall k, (k < d_n d)%nat -> word d k 0 = i + len * (INR k + 1 / 2) /\ word d k 1 = len / 2.

Lemma series_block d i len k b theta : wellformed d i len -> (k < d_n d)%nat -> (b < blocks_of d)%nat -> evaluate (block d k b) (cos theta) = series d k b theta.
Proof.
  intros (_ & _ & _ & _ & D & Sz) K B. rewrite evaluate_cos, (cosines_ext _ _ _ 0). unfold series, total. f_equal.
  assert (Lb : length (block d k b) = d_ncoeff d). { unfold block. apply slice_length. assert (k * d_rsize d + d_rsize d <= d_n d * d_rsize d)%nat by nia. assert (b * d_ncoeff d + d_ncoeff d <= blocks_of d * d_ncoeff d)%nat by nia. lia. }
  rewrite Lb. apply map_ext_in. intros j J. apply in_seq in J. cbn [Nat.add]. f_equal. unfold block. rewrite nth_slice by lia. unfold word. f_equal. lia.
Qed.
Lemma angle_of d i len k t : wellformed d i len -> regular d i len -> (k < d_n d)%nat -> edge i len k <= t <= edge i len (S k) ->
  exists theta, tau d k t = cos theta /\ t = i + len * (INR k + 1 / 2) + len / 2 * cos theta.
Proof.
  intros (_ & _ & L & _) G K H. destruct (G k K) as [M H2]. unfold edge in H. rewrite S_INR in H.
  assert (T : t = i + len * (INR k + 1 / 2) + len / 2 * tau d k t) by (unfold tau; rewrite M, H2; field; lra).
  assert (-1 <= tau d k t <= 1) by (set (x := tau d k t) in *; clearbody x; nra).
  exists (acos (tau d k t)). rewrite cos_acos by assumption. now split.
Qed.

(** C83: inside the coverage a position comes from the record whose interval
    holds the epoch (the last one at the end), as the Chebyshev series of that
    record. *)
Theorem C83_position d i len t : wellformed d i len -> regular d i len -> i <= t <= i + len * INR (d_n d) ->
  exists k theta, (k < d_n d)%nat /\ i + len * INR k <= t <= i + len * INR (S k) /\ (t < i + len * INR (S k) \/ t = i + len * INR (d_n d)) /\
    t = i + len * (INR k + 1 / 2) + len / 2 * cos theta /\
    d_position d (RF t) = Ok (series d k 0 theta, series d k 1 theta, series d k 2 theta).
Proof.
  intros W G H. pose proof W as (_ & _ & L & N & _). destruct (locate_inside i len (d_n d) t N L H) as (k & E & K & A & B).
  destruct (angle_of d i len k t W G K A) as (theta & T & S). exists k, theta. repeat split; try assumption; try apply A.
  rewrite (position_ok d i len k t W E K). unfold place. rewrite T.
  rewrite !(series_block d i len k) by (assumption || (unfold blocks_of; destruct (_ =? _)%Z; lia)). reflexivity.
Qed.
(** Segments of type 3 store the velocity, in km/s. *)
Theorem C83_stored_velocity d i len t : d_type d = 3%Z -> wellformed d i len -> regular d i len -> i <= t <= i + len * INR (d_n d) ->
  exists k theta, (k < d_n d)%nat /\ i + len * INR k <= t <= i + len * INR (S k) /\
    t = i + len * (INR k + 1 / 2) + len / 2 * cos theta /\
    d_velocity d (RF t) = Ok (86400 * series d k 3 theta, 86400 * series d k 4 theta, 86400 * series d k 5 theta).
Proof.
  intros T3 W G H. pose proof W as (_ & _ & L & N & _). destruct (locate_inside i len (d_n d) t N L H) as (k & E & K & A & _).
  destruct (angle_of d i len k t W G K A) as (theta & T & S). exists k, theta. repeat split; try assumption; try apply A.
  rewrite (velocity_ok d i len k t W E K). rewrite T3. cbn [Z.eqb Pos.eqb]. unfold rate3. rewrite T.
  rewrite !(series_block d i len k) by (assumption || (unfold blocks_of; rewrite T3; cbn; lia)). unfold day. f_equal. f_equal; [f_equal|]; ring.
Qed.
(** For the other types the velocity is the slope of the position, per day. *)
Theorem C83_slope d i len k t : d_type d <> 3%Z -> wellformed d i len -> (k < d_n d)%nat -> word d k 1 <> 0 ->
  i + len * INR k < t < i + len * INR (S k) ->
  exists px py pz vx vy vz,
    (forall s, i + len * INR k < s < i + len * INR (S k) -> d_position d (RF s) = Ok (px s, py s, pz s)) /\
    d_velocity d (RF t) = Ok (vx, vy, vz) /\
    derivable_pt_lim px t (vx / 86400) /\ derivable_pt_lim py t (vy / 86400) /\ derivable_pt_lim pz t (vz / 86400).
Proof.
  intros T3 W K Z H. pose proof W as (_ & _ & L & N & _).
  assert (Loc : forall s, i + len * INR k < s < i + len * INR (S k) -> locate_et (RF i) (RF len) (d_n d) (RF s) = Ok (k, s)).
  { intros s Hs. assert (In : i <= s <= edge i len (d_n d)).
    { unfold edge. pose proof (pos_INR k). assert (INR (S k) <= INR (d_n d)) by (apply le_INR; lia). nra. }
    destruct (locate_inside i len (d_n d) s N L In) as (j & E & J & (A & B) & C). unfold edge in *. rewrite S_INR in *.
    assert (INR j < INR k + 1) by nra. assert (INR k < INR j + 1) by nra.
    assert (j = k); [|now subst]. rewrite <- !S_INR in *. assert (j < S k)%nat by (apply INR_lt; lra). assert (k < S j)%nat by (apply INR_lt; lra). lia. }
  exists (fun s => evaluate (block d k 0) ((s - word d k 0) / word d k 1)), (fun s => evaluate (block d k 1) ((s - word d k 0) / word d k 1)), (fun s => evaluate (block d k 2) ((s - word d k 0) / word d k 1)).
  exists (evaluate_derivative (block d k 0) (tau d k t) * (86400 / word d k 1)), (evaluate_derivative (block d k 1) (tau d k t) * (86400 / word d k 1)), (evaluate_derivative (block d k 2) (tau d k t) * (86400 / word d k 1)).
  split; [intros s Hs; now rewrite (position_ok d i len k s W (Loc s Hs) K)|].
  split; [rewrite (velocity_ok d i len k t W (Loc t H) K); rewrite (proj2 (Z.eqb_neq _ _) T3); reflexivity|].
  repeat split; (eapply lim_eq; [apply evaluate_slope_tau; exact Z|]); unfold tau; field; exact Z.
Qed.
(** The combined call gives the position and the velocity of the separate ones. *)
Theorem C83_state d et p v : d_state d et = Ok (p, v) <-> d_position d et = Ok p /\ d_velocity d et = Ok v.
Proof.
  rewrite state_pair. destruct (d_position d et) as [p'|e|]; cbn [obind]; [|split; [discriminate|intros [? ?]; discriminate]..].
  destruct (d_velocity d et) as [v'|e|]; cbn [obind]; [|split; [discriminate|intros [? ?]; discriminate]..].
  split; [intros [= -> ->]; now split|intros [[= ->] [= ->]]; reflexivity].
Qed.
(** Outside the coverage the epoch is refused with the dates of the segment. *)
Theorem C83_outside d i len t : wellformed d i len -> ~ (i <= t <= i + len * INR (d_n d)) ->
  let e := OutOfRange (RF (2451545 + t / 86400)) (RF (2451545 + i / 86400)) (RF (2451545 + (i + len * INR (d_n d)) / 86400)) in
  d_position d (RF t) = Err e /\ d_velocity d (RF t) = Err e.
Proof.
  intros (Ei & El & L & N & _) H. unfold d_position, d_velocity, try_locate_et. rewrite Ei, El, (locate_outside i len (d_n d) t N L H). split; reflexivity.
Qed.
(** An infinite or undefined epoch is never answered. *)
Theorem C83_not_finite d et : finite et = false -> is_ok (d_position d et) = false /\ is_ok (d_velocity d et) = false.
Proof.
  intros F. unfold d_position, d_velocity, try_locate_et, locate_et. destruct et as [t| |]; [discriminate|..];
  (destruct (d_init d), (d_intlen d); [destruct (_ || _)|..]; split; reflexivity).
Qed.
(** A segment without records, or with a length that is not a positive number,
    is reported as invalid at every epoch, and only such a segment is. *)
Theorem C83_invalid d et a b n : d_position d et = Err (InvalidSegment a b n) <->
  (a = d_init d /\ b = d_intlen d /\ n = d_n d /\ (d_n d = 0%nat \/ finite (d_init d) = false \/ (forall l, d_intlen d = RF l -> l <= 0))).
Proof.
  assert (Po : forall r nc ta e, eval_position r nc ta <> Err e).
  { intros r nc ta e. unfold eval_position, xyz_coeffs. pose proof (fun e => blocks_no_err r 2 nc e) as B. destruct (blocks r 2 nc) as [[[? ?] ?]|e'|]; cbn [obind]; [discriminate|now destruct (B e')|discriminate]. }
  assert (Rt : forall r t e, record_tau r t <> Err e).
  { intros r t e. unfold record_tau, index. destruct (nth_error r 0); [|discriminate]. destruct (nth_error r 1); discriminate. }
  split.
  - unfold d_position, try_locate_et. destruct (locate_et _ _ _ _) as [[k t]|e|] eqn:E; cbn [obind].
    + pose proof (slice_no_err (d_data d) (k * d_rsize d) (d_rsize d)) as Sl. unfold record. destruct (slice _ _ _) as [r|e|]; cbn [obind]; [|intros [= ->]; now destruct (Sl (InvalidSegment a b n))|discriminate].
      destruct (record_tau r t) as [[ta ra]|e|] eqn:Et; cbn [obind]; [|now apply Rt in Et|discriminate]. intros P. now apply Po in P.
    + intros [= ->]. apply locate_err in E. destruct E as [(? & ? & ? & X & _)|([= -> -> ->] & P)]; [discriminate|]. repeat split.
      destruct (d_n d) as [|m]; [now left|]. destruct (d_init d) as [i| |]; [|right; now left..]. right. right. intros l El. apply (P i l); auto. lia.
    + discriminate.
  - intros (-> & -> & -> & P). unfold d_position, try_locate_et, locate_et. destruct (d_init d) as [i| |]; [|reflexivity..].
    destruct (d_intlen d) as [l| |]; [|reflexivity..].
    replace ((d_n d =? 0)%nat || rleb l 0) with true; [reflexivity|]. symmetry. apply orb_true_iff. destruct P as [P|[P|P]]; [left; now apply Nat.eqb_eq|discriminate|right; apply rleb_t; auto].
Qed.

(** Two records of two hours' length, two coefficients a coordinate. *)
Definition sample_data : list R := [3600; 3600; 10; 1; 20; 2; 30; 3; 10800; 3600; 11; 1; 22; 2; 33; 3].
Definition sample : desc := {| d_type := 2; d_init := RF 0; d_intlen := RF 7200; d_ncoeff := 2; d_rsize := 8; d_n := 2; d_data := sample_data |}.
Example C83_case : wellformed sample 0 7200 /\ regular sample 0 7200 /\ 0 <= 10800 <= 0 + 7200 * INR (d_n sample) /\ d_type sample <> 3%Z /\
  word sample 1 1 <> 0 /\ 0 + 7200 * INR 1 < 10800 < 0 + 7200 * INR 2.
Proof.
  unfold wellformed, regular, word, blocks_of. cbn. repeat split; try lra; try lia; try discriminate.
  all: destruct k as [|[|k]]; cbn; try lia; lra.
Qed.
Example C83_case_stored : let d := {| d_type := 3; d_init := RF 0; d_intlen := RF 7200; d_ncoeff := 1; d_rsize := 8; d_n := 1; d_data := [3600; 3600; 10; 20; 30; 1; 2; 3] |} in
  d_type d = 3%Z /\ wellformed d 0 7200 /\ regular d 0 7200.
Proof. unfold wellformed, regular, word, blocks_of. cbn. repeat split; try lra; try lia; destruct k; cbn; try lia; lra. Qed.

(** C84: a position comes from the last segment of the file that covers the
    epoch; segments after it are passed over only because they do not. *)
Theorem C84_chosen s et p : k_position s et = Ok p <->
  exists pre x post, s = pre ++ x :: post /\ covers_et x et = true /\ d_position (s_desc x) et = Ok p /\
    Forall (fun y => covers_et y et = false \/ exists a b c, d_position (s_desc y) et = Err (OutOfRange a b c)) post.
Proof.
  assert (Sk : forall y, skipped y et <-> (covers_et y et = false \/ exists a b c, d_position (s_desc y) et = Err (OutOfRange a b c))).
  { intros y. unfold skipped. split; (intros [C|(a & b & c & E)]; [now left|right; exists a, b, c]).
    - unfold d_position. now rewrite E.
    - unfold d_position in E. destruct (try_locate_et (s_desc y) et) as [[[r ta] ra]|e|]; cbn [obind] in E; [|congruence|discriminate].
      unfold eval_position, xyz_coeffs in E. pose proof (blocks_no_err r 2 (d_ncoeff (s_desc y))) as B. destruct (blocks r 2 _) as [[[? ?] ?]|e|]; cbn [obind] in E; [discriminate|now destruct (B e)|discriminate]. }
  unfold k_position, select_et. split.
  - destruct (select_loop (rev s) et None) as [d|e|] eqn:E; cbn [obind]; [|discriminate..]. intros P.
    destruct (select_split _ _ _ _ E) as (pre & x & post & R & F & C & _ & ->). exists (rev post), x, (rev pre).
    split; [rewrite <- (rev_involutive s), R, rev_app_distr; cbn; now rewrite <- app_assoc|]. split; [exact C|]. split; [exact P|].
    apply Forall_rev. eapply Forall_impl; [|exact F]. intros y. apply Sk.
  - intros (pre & x & post & -> & C & P & F). erewrite (select_pick _ (rev post) x (rev pre)).
    + exact P.
    + rewrite rev_app_distr. cbn. now rewrite <- app_assoc.
    + apply Forall_rev. eapply Forall_impl; [|exact F]. intros y. apply Sk.
    + exact C.
    + unfold d_position in P. destruct (try_locate_et (s_desc x) et); [reflexivity|discriminate..].
Qed.
(** The velocity comes from the same segment as the position. *)
Theorem C84_same_segment s et v : k_velocity s et = Ok v -> exists d, In d (map s_desc s) /\ d_velocity d et = Ok v /\
  (forall p, k_position s et = Ok p <-> d_position d et = Ok p).
Proof.
  unfold k_velocity, k_position. destruct (select_et s et) as [d|e|] eqn:E; cbn [obind]; [|discriminate..]. intros V. exists d. split; [|now split].
  destruct (select_split _ _ _ _ E) as (pre & x & post & R & _ & _ & _ & ->). apply in_map. apply in_rev. rewrite R. apply in_app_iff. right. now left.
Qed.
(** When no segment covers the epoch the answer is a range error that quotes
    the dates of the last segment. *)
Theorem C84_uncovered s x et : Forall (fun y => covers_et y et = false) (s ++ [x]) ->
  k_position (s ++ [x]) et = Err (OutOfRange (to_jd et) (to_jd (s_start x)) (to_jd (s_end x))).
Proof.
  intros F. apply Forall_app in F. destruct F as [F Fx]. inversion Fx as [|? ? C _]; subst. unfold k_position, select_et. rewrite rev_app_distr. cbn [rev app select_loop]. rewrite C. cbn [negb keep].
  destruct (select_app_skipped (rev s) [] et (Some (out_of_range_et x et))) as (o & E & _ & _ & P).
  - apply Forall_rev. eapply Forall_impl; [|exact F]. intros y Y. now left.
  - rewrite app_nil_r in E. rewrite E. cbn [select_loop]. now rewrite (P _ eq_refl).
Qed.
(** Only segments of the requested target and centre are used, in file order. *)
Theorem C84_pairs l t c : for_pair l t c = flat_map (fun x => if andb (x_target x =? t)%Z (x_center x =? c)%Z then [{| s_start := x_start x; s_end := x_end x; s_desc := x_data x |}] else []) l.
Proof. induction l as [|x l IH]; [reflexivity|]. cbn [flat_map]. rewrite <- IH. unfold for_pair. cbn [filter]. destruct (_ && _); reflexivity. Qed.
(** A body without segments has no position at any time. *)
Theorem C84_absent l t c et : (forall x, In x l -> ~ (x_target x = t /\ x_center x = c)) -> k_position (for_pair l t c) et = Err (InvalidSegment RNaN RNaN 0).
Proof.
  intros H. assert (E : for_pair l t c = []).
  { induction l as [|x l IH]; [reflexivity|]. rewrite C84_pairs. cbn [flat_map]. rewrite <- C84_pairs, IH by (intros y Y; apply H; now right).
    destruct (_ && _) eqn:B; [|reflexivity]. apply andb_true_iff in B. rewrite !Z.eqb_eq in B. now destruct (H x (or_introl eq_refl)). }
  now rewrite E.
Qed.
(** A stack made from one well-formed segment answers on its whole coverage. *)
Theorem C84_single d i len t : wellformed d i len -> i <= t <= i + len * INR (d_n d) -> k_position (from_spk_segment d) (RF t) = d_position d (RF t).
Proof.
  intros W H. pose proof W as (Ei & El & L & N & _). unfold from_spk_segment, coverage_from_spk. rewrite Ei, El. unfold k_position, select_et. cbn [rev app select_loop].
  assert (C : covers_et {| s_start := RF i; s_end := RF (i + len * INR (d_n d)); s_desc := d |} (RF t) = true).
  { unfold covers_et. cbn. apply andb_true_iff. rewrite !rleb_t. lra. }
  rewrite C. cbn [negb s_desc]. destruct (locate_inside i len (d_n d) t N L H) as (k & E & K & _). rewrite (locate_ok d i len k t W E K). reflexivity.
Qed.
(** But an invalid segment that claims the epoch hides a good one before it. *)
Theorem C84_blocked_refuted : exists good bad et p, k_position [good] et = Ok p /\ (forall q, k_position [good; bad] et <> Ok q) /\
  d_position (s_desc good) et = Ok p /\ covers_et good et = true.
Proof.
  assert (W : wellformed sample 0 7200) by apply C83_case. assert (H : 0 <= 10800 <= 0 + 7200 * INR (d_n sample)) by apply C83_case.
  destruct (C83_position sample 0 7200 10800 W (proj1 (proj2 C83_case)) H) as (k & theta & _ & _ & _ & _ & P).
  exists {| s_start := RF 0; s_end := RF (0 + 7200 * INR 2); s_desc := sample |},
    {| s_start := RF 0; s_end := RF (0 + 7200 * INR 2); s_desc := {| d_type := 2; d_init := RF 0; d_intlen := RF 0; d_ncoeff := 2; d_rsize := 8; d_n := 2; d_data := sample_data |} |}, (RF 10800).
  assert (C : forall d, covers_et {| s_start := RF 0; s_end := RF (0 + 7200 * INR 2); s_desc := d |} (RF 10800) = true).
  { intros d. unfold covers_et. cbn. apply andb_true_iff. rewrite !rleb_t. lra. }
  eexists. split; [|split; [|split; [exact P|apply C]]].
  - etransitivity; [apply (C84_single sample 0 7200 10800 W H)|exact P].
  - intros q E. apply (f_equal is_ok) in E. revert E. unfold k_position, select_et. cbn [rev app select_loop]. rewrite C. cbn [negb s_desc].
    unfold try_locate_et at 1. cbn [d_init d_intlen d_n]. unfold locate_et. replace (rleb 0 0) with true by (symmetry; apply rleb_t; lra). rewrite orb_true_r. cbn [obind]. discriminate.
Qed.
Example C84_case : Forall (fun y => covers_et y (RF 20000) = false) [{| s_start := RF 0; s_end := RF 14400; s_desc := sample |}].
Proof. repeat constructor. unfold covers_et. cbn. apply andb_false_iff. right. unfold rleb. destruct (Rle_dec _ _); [lra|reflexivity]. Qed.

(** C85: the bodies fit together. *)
Section C85.
  Variables (emrat au : R) (ecl : mat).
  Hypothesis Hm : 0 < emrat.
  Hypothesis Ha : 0 < au.
  Let rot v := apply ecl v.

  Lemma vec_eq (a b c x y z : R) : a = x -> b = y -> c = z -> (a, b, c) = (x, y, z).
  Proof. now intros -> -> ->. Qed.
  Ltac ring3 := unfold rot, out_au, vsub, vadd, vscale, apply, moon_geo, frac_earth, earth_offset; apply vec_eq; field; lra.

  (** Without Earth segments, the Earth and the Moon balance about the
      Earth-Moon barycentre in the ratio of their masses. *)
  Theorem C85_barycentre e jd earth moon b : e_earth e = None -> earth_barycentric emrat au ecl e jd = Ok earth -> moon_geocentric emrat ecl e jd = Ok moon ->
    k_position (e_emb e) (RF (tt_to_et jd)) = Ok b ->
    vadd (vscale emrat (vscale au earth)) (vadd (vscale au earth) moon) = vscale (emrat + 1) (rot b).
  Proof.
    unfold earth_barycentric, moon_geocentric. intros -> E M B. rewrite B in E. cbn [obind] in E.
    destruct (k_position (e_moon e) (RF (tt_to_et jd))) as [[[mx my] mz]|?|]; cbn [obind] in *; [|discriminate..]. injection E as <-. injection M as <-.
    destruct b as [[bx by'] bz]. ring3.
  Qed.
  (** With or without them, Earth plus geocentric Moon is the Moon's place in
      the file (barycentre plus Moon segment). *)
  Theorem C85_moon e jd earth moon b m : earth_barycentric emrat au ecl e jd = Ok earth -> moon_geocentric emrat ecl e jd = Ok moon ->
    k_position (e_emb e) (RF (tt_to_et jd)) = Ok b -> k_position (e_moon e) (RF (tt_to_et jd)) = Ok m ->
    vadd (vscale au earth) moon = rot (vadd b m).
  Proof.
    unfold earth_barycentric, moon_geocentric. intros E M B Mm. destruct (e_earth e) as [es|]; rewrite B in E; rewrite Mm in M; cbn [obind] in *.
    - destruct (k_position es (RF (tt_to_et jd))) as [[[ox oy] oz]|?|]; cbn [obind] in *; [|discriminate..]. injection E as <-. injection M as <-.
      destruct b as [[bx by'] bz], m as [[mx my] mz]. ring3.
    - rewrite Mm in E. cbn [obind] in E. injection E as <-. injection M as <-. destruct b as [[bx by'] bz], m as [[mx my] mz]. ring3.
  Qed.
  (** With Earth segments, the Earth is where they put it. *)
  Theorem C85_direct e es jd earth b o : e_earth e = Some es -> earth_barycentric emrat au ecl e jd = Ok earth ->
    k_position (e_emb e) (RF (tt_to_et jd)) = Ok b -> k_position es (RF (tt_to_et jd)) = Ok o -> vscale au earth = rot (vadd b o).
  Proof.
    unfold earth_barycentric. intros -> E B O. rewrite B, O in E. cbn [obind] in E. injection E as <-.
    destruct b as [[bx by'] bz], o as [[ox oy] oz]. ring3.
  Qed.
  (** The heliocentric Earth is the difference of the barycentric Earth and
      the barycentric Sun, and is available exactly when both are. *)
  Theorem C85_heliocentric e jd h : earth_heliocentric emrat au ecl e jd = Ok h <->
    exists earth sun, earth_barycentric emrat au ecl e jd = Ok earth /\ sun_barycentric au ecl e jd = Ok sun /\ h = vsub earth sun.
  Proof.
    unfold earth_heliocentric, earth_barycentric, sun_barycentric. set (et := RF (tt_to_et jd)).
    destruct (e_earth e) as [es|]; (destruct (k_position (e_emb e) et) as [[[bx by'] bz]|?|]; cbn [obind]; [|split; [discriminate|intros (? & ? & ? & _); discriminate]..]).
    - destruct (k_position es et) as [[[ox oy] oz]|?|]; cbn [obind]; [|split; [discriminate|intros (? & ? & ? & _); discriminate]..].
      destruct (k_position (e_sun e) et) as [[[sx sy] sz]|?|]; cbn [obind]; [|split; [discriminate|intros (? & ? & _ & ? & _); discriminate]..].
      assert (Q : out_au au ecl (vsub (vadd (bx, by', bz) (ox, oy, oz)) (sx, sy, sz)) = vsub (out_au au ecl (vadd (bx, by', bz) (ox, oy, oz))) (out_au au ecl (sx, sy, sz))) by ring3.
      split; [intros [= <-]; eexists _, _; repeat split; exact Q|intros (? & ? & E1 & E2 & ->); apply (f_equal (fun o => match o with Ok v => v | _ => (0, 0, 0) end)) in E1; apply (f_equal (fun o => match o with Ok v => v | _ => (0, 0, 0) end)) in E2; cbv beta iota in E1, E2; rewrite <- E1, <- E2, <- Q; reflexivity].
    - destruct (k_position (e_moon e) et) as [[[ox oy] oz]|?|]; cbn [obind]; [|split; [discriminate|intros (? & ? & ? & _); discriminate]..].
      destruct (k_position (e_sun e) et) as [[[sx sy] sz]|?|]; cbn [obind]; [|split; [discriminate|intros (? & ? & _ & ? & _); discriminate]..].
      assert (Q : out_au au ecl (vsub (vsub (bx, by', bz) (vscale (earth_offset emrat) (ox, oy, oz))) (sx, sy, sz)) = vsub (out_au au ecl (vsub (bx, by', bz) (vscale (earth_offset emrat) (ox, oy, oz)))) (out_au au ecl (sx, sy, sz))) by ring3.
      split; [intros [= <-]; eexists _, _; repeat split; exact Q|intros (? & ? & E1 & E2 & ->); apply (f_equal (fun o => match o with Ok v => v | _ => (0, 0, 0) end)) in E1; apply (f_equal (fun o => match o with Ok v => v | _ => (0, 0, 0) end)) in E2; cbv beta iota in E1, E2; rewrite <- E1, <- E2, <- Q; reflexivity].
  Qed.
  (** Velocities combine like positions. *)
  Theorem C85_velocity e jd v b m : e_earth e = None -> earth_velocity emrat au ecl e jd = Ok v ->
    k_velocity (e_emb e) (RF (tt_to_et jd)) = Ok b -> k_velocity (e_moon e) (RF (tt_to_et jd)) = Ok m ->
    vadd (vscale emrat (vscale au v)) (rot m) = vscale emrat (rot b).
  Proof.
    unfold earth_velocity. intros -> E B M. rewrite B, M in E. cbn [obind] in E. injection E as <-.
    destruct b as [[bx by'] bz], m as [[mx my] mz]. ring3.
  Qed.
  Theorem C85_velocity_direct e es jd v b o : e_earth e = Some es -> earth_velocity emrat au ecl e jd = Ok v ->
    k_velocity (e_emb e) (RF (tt_to_et jd)) = Ok b -> k_velocity es (RF (tt_to_et jd)) = Ok o -> vscale au v = rot (vadd b o).
  Proof.
    unfold earth_velocity. intros -> E B O. rewrite B, O in E. cbn [obind] in E. injection E as <-.
    destruct b as [[bx by'] bz], o as [[ox oy] oz]. ring3.
  Qed.
End C85.
(** Distances do not depend on the output frame: the geocentric distance of
    the Moon is that of the file's vectors. *)
Theorem C85_distance emrat ecl e jd moon m : 0 < emrat -> orthonormal ecl -> e_earth e = None -> moon_geocentric emrat ecl e jd = Ok moon ->
  k_position (e_moon e) (RF (tt_to_et jd)) = Ok m -> dot3 moon moon = (1 + 1 / emrat) * (1 + 1 / emrat) * dot3 m m.
Proof.
  intros P O N. unfold moon_geocentric. rewrite N. intros E M. rewrite M in E. cbn [obind] in E. injection E as <-.
  rewrite orthonormal_dot by exact O. destruct m as [[x y] z]. unfold dot3, vscale, moon_geo, frac_earth. field. lra.
Qed.
(** The file decides which way is used: Earth segments, when there are any. *)
Theorem C85_from_file l : let e := from_indexed l in
  e_sun e = for_pair l 10 0 /\ e_emb e = for_pair l 3 0 /\ e_moon e = for_pair l 301 3 /\
  match e_earth e with Some s => s = for_pair l 399 3 /\ s <> [] | None => for_pair l 399 3 = [] end.
Proof. cbn. repeat split. destruct (for_pair l 399 3); [reflexivity|]. split; [reflexivity|discriminate]. Qed.
(** Earth segments with a gap make the Earth unavailable, although the Moon
    and barycentre segments alone would place it. *)
Theorem C85_gap_refuted : exists e jd p, (forall q, earth_barycentric 81 1 identity e jd <> Ok q) /\
  earth_barycentric 81 1 identity {| e_sun := e_sun e; e_emb := e_emb e; e_moon := e_moon e; e_earth := None |} jd = Ok p.
Proof.
  assert (W : wellformed sample 0 7200) by apply C83_case.
  set (jd := j2000 + 1 / 24).
  assert (T : 3590 <= tt_to_et jd <= 3610).
  { unfold tt_to_et. assert (Ett : (jd - j2000) * day = 3600) by (unfold jd, j2000, day; lra). rewrite Ett.
    assert (N : Rabs (et_loop 5 3600 3600 - 3600) <= naif_k) by (apply loop_near; unfold Rabs, naif_k; destruct (Rcase_abs _); lra).
    apply abs_le in N. unfold naif_k in N. lra. }
  assert (H : 0 <= tt_to_et jd <= 0 + 7200 * INR (d_n sample)) by (change (d_n sample) with 2%nat; cbn [INR]; lra).
  destruct (C83_position sample 0 7200 (tt_to_et jd) W (proj1 (proj2 C83_case)) H) as (k & theta & _ & _ & _ & _ & P).
  rewrite <- (C84_single sample 0 7200 _ W H) in P.
  exists {| e_sun := from_spk_segment sample; e_emb := from_spk_segment sample; e_moon := from_spk_segment sample; e_earth := Some [{| s_start := RF 0; s_end := RF 60; s_desc := sample |}] |}, jd.
  eexists. split.
  - intros q E. apply (f_equal is_ok) in E. revert E. unfold earth_barycentric. cbn [e_earth e_emb]. rewrite P. cbn [obind].
    pose proof (C84_uncovered [] {| s_start := RF 0; s_end := RF 60; s_desc := sample |} (RF (tt_to_et jd))) as U. cbn [app] in U. rewrite U; [discriminate|].
    repeat constructor. unfold covers_et. cbn [s_start s_end finite rle]. apply andb_false_iff. right. unfold rleb. destruct (Rle_dec _ _); [lra|reflexivity].
  - unfold earth_barycentric. cbn [e_earth e_emb e_moon]. rewrite P. cbn [obind]. reflexivity.
Qed.
Example C85_case : exists jd earth moon b m, let e := {| e_sun := from_spk_segment sample; e_emb := from_spk_segment sample; e_moon := from_spk_segment sample; e_earth := None |} in
  e_earth e = None /\ earth_barycentric 81 149597870 identity e jd = Ok earth /\ moon_geocentric 81 identity e jd = Ok moon /\
  k_position (e_emb e) (RF (tt_to_et jd)) = Ok b /\ k_position (e_moon e) (RF (tt_to_et jd)) = Ok m /\ orthonormal identity.
Proof.
  assert (W : wellformed sample 0 7200) by apply C83_case.
  set (jd := j2000 + 1 / 24).
  assert (T : 3590 <= tt_to_et jd <= 3610).
  { unfold tt_to_et. assert (Ett : (jd - j2000) * day = 3600) by (unfold jd, j2000, day; lra). rewrite Ett.
    assert (N : Rabs (et_loop 5 3600 3600 - 3600) <= naif_k) by (apply loop_near; unfold Rabs, naif_k; destruct (Rcase_abs _); lra).
    apply abs_le in N. unfold naif_k in N. lra. }
  assert (H : 0 <= tt_to_et jd <= 0 + 7200 * INR (d_n sample)) by (change (d_n sample) with 2%nat; cbn [INR]; lra).
  destruct (C83_position sample 0 7200 (tt_to_et jd) W (proj1 (proj2 C83_case)) H) as (k & theta & _ & _ & _ & _ & P).
  rewrite <- (C84_single sample 0 7200 _ W H) in P.
  exists jd. unfold earth_barycentric, moon_geocentric. cbn [e_earth e_emb e_moon]. rewrite P. cbn [obind]. do 4 eexists. repeat split. unfold orthonormal. apply mat_eq; cbn; ring.
Qed.

(** C86: the ephemeris time is the solution of NAIF's equation, which has
    exactly one, to far below the resolution of f64. *)
Theorem C86_solution jd : let tt := (jd - 2451545) * 86400 in
  exists et, et = tt + 1657 / 1000000 * sin (let m := 6239996 / 1000000 + 199096871 / 1000000000000000 * et in m + 1671 / 100000 * sin m) /\
    (forall x, x = tt + 1657 / 1000000 * sin (let m := 6239996 / 1000000 + 199096871 / 1000000000000000 * x in m + 1671 / 100000 * sin m) -> x = et) /\
    Rabs (tt_to_et jd - et) <= 1 / 1000000000000000000000.
Proof.
  intros tt. destruct (solution_exists tt) as (et & E). exists et. split; [exact E|]. split; [intros x X; exact (solution_unique tt x et X E)|].
  unfold tt_to_et. fold tt. change ((jd - j2000) * day) with tt. eapply Rle_trans; [apply (loop_error 5 tt tt et E)|].
  apply Rmax_lub; [|lra]. pose proof q_small as Q. pose proof (step_near tt et) as N. rewrite <- E, Rabs_minus_sym in N.
  assert (P : q ^ 5 <= (4 / 10000000000) ^ 5) by (apply pow_incr; lra). pose proof (Rabs_pos (tt - et)). unfold naif_k in N.
  assert (q ^ 5 * Rabs (tt - et) <= (4 / 10000000000) ^ 5 * (1657 / 1000000)) by (apply Rmult_le_compat; try lra; apply pow_le; lra). lra.
Qed.
(** It is never further than 1.657 ms from terrestrial time. *)
Theorem C86_near jd : Rabs (tt_to_et jd - (jd - 2451545) * 86400) <= 1657 / 1000000.
Proof. unfold tt_to_et. apply loop_near. rewrite Rminus_eq_0, Rabs_R0. unfold naif_k. lra. Qed.
(** Later dates have later ephemeris times (for dates a picosecond apart). *)
Theorem C86_monotone jd1 jd2 : 1 / 1000000000000 <= (jd2 - jd1) * 86400 -> tt_to_et jd1 < tt_to_et jd2.
Proof.
  intros H. destruct (C86_solution jd1) as (e1 & E1 & _ & B1). destruct (C86_solution jd2) as (e2 & E2 & _ & B2).
  set (t1 := (jd1 - 2451545) * 86400) in *. set (t2 := (jd2 - 2451545) * 86400) in *. assert (D : 1 / 1000000000000 <= t2 - t1) by (unfold t1, t2; lra). clearbody t1 t2.
  pose proof (step_contract 0 e2 e1) as C. change (e1 = et_step t1 e1) in E1. change (e2 = et_step t2 e2) in E2.
  assert (S1 : e1 = t1 + et_step 0 e1) by (rewrite E1 at 1; unfold et_step; ring). assert (S2 : e2 = t2 + et_step 0 e2) by (rewrite E2 at 1; unfold et_step; ring).
  apply abs_le in C. apply abs_le in B1. apply abs_le in B2. pose proof q_small.
  assert (G : e2 - e1 >= (t2 - t1) / 2).
  { destruct (Rle_or_lt 0 (e2 - e1)) as [P|P].
    - rewrite (Rabs_right (e2 - e1)) in C by lra. assert (q * (e2 - e1) <= e2 - e1) by nra. lra.
    - rewrite (Rabs_left (e2 - e1)) in C by lra. assert (q * - (e2 - e1) <= / 2 * - (e2 - e1)) by nra. lra. }
  lra.
Qed.
Example C86_case : 1 / 1000000000000 <= (2451546 - 2451545) * 86400. Proof. lra. Qed.

Print Assumptions C83_slope.
Print Assumptions C84_chosen.
Print Assumptions C85_heliocentric.
Print Assumptions C86_solution.
