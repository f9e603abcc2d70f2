(** C179: correction policies as sets of stages. C180: what the providers of altitude and azimuth do with them. *)
From Coq Require Import List NArith ZArith QArith Bool Reals Lra Lia.
From Verif Require Import Qb Ang Mat3 Horiz_Model Horiz_Proofs Horiz_Props Cross_Model Sweep_Model Azim_Model Prov_Model.
Import ListNotations.

(** A stage is in a policy when its bit is set. *)
Definition has (p : N) (i : N) : Prop := N.testbit p i = true.

Lemma contains_bits a b : contains a b = true <-> forall i, has b i -> has a i.
Proof.
  unfold contains, has. rewrite N.eqb_eq. split.
  - intros H i B. rewrite <- H, N.land_spec in B. now apply andb_prop in B.
  - intros H. apply N.bits_inj. intros i. rewrite N.land_spec. specialize (H i). destruct (N.testbit b i); [rewrite H by reflexivity|]; now rewrite ?andb_false_r.
Qed.
(** [contains] is inclusion of the sets of stages, so policies are ordered by it. *)
Theorem C179_contains a b : contains a b = true <-> (forall i, has b i -> has a i).
Proof. apply contains_bits. Qed.
Theorem C179_equal a b : contains a b = true -> contains b a = true -> a = b.
Proof. unfold contains. rewrite !N.eqb_eq. intros H K. rewrite N.land_comm in K. congruence. Qed.
(** A union has the stages of both and no other; asking a policy for it asks for both. *)
Theorem C179_union a b c : (forall i, has (union a b) i <-> has a i \/ has b i) /\ contains c (union a b) = contains c a && contains c b.
Proof.
  assert (U : forall i, has (union a b) i <-> has a i \/ has b i) by (intros i; unfold has, union; rewrite N.lor_spec; apply orb_true_iff).
  split; [exact U|]. apply eq_true_iff_eq. rewrite andb_true_iff, !contains_bits. split; [intros H; split; intros i B; apply H, U; tauto|intros (H & K) i B; apply U in B; destruct B; auto].
Qed.
(** The four stages of the documented order are single and different, and together they are the apparent
    policy: it asks for exactly those, and the geometric one for none. *)
Theorem C179_stages : (forall i, has PROPER_MOTION i <-> i = 0%N) /\ (forall i, has LIGHT_TIME i <-> i = 1%N) /\ (forall i, has ABERRATION i <-> i = 2%N) /\ (forall i, has LIGHT_DEFLECTION i <-> i = 3%N) /\
  (forall i, has APPARENT i <-> exists s, In s correction_order /\ has s i) /\ (forall i, ~ has GEOMETRIC i) /\
  map N.log2 correction_order = [0; 1; 2; 3]%N.
Proof.
  assert (B : forall k i, has (N.shiftl 1 k) i <-> i = k). { intros k i. unfold has. rewrite N.shiftl_1_l, N.pow2_bits_eqb, N.eqb_eq. split; congruence. }
  split; [apply B|]. split; [apply B|]. split; [apply B|]. split; [apply B|]. split.
  - intros i. unfold APPARENT. pose proof (fun a b => proj1 (C179_union a b 0%N) i) as U. unfold union in U. rewrite !U. cbn [correction_order In]. split.
    + intros [[[H|H]|H]|H]; eexists; (split; [|exact H]); tauto.
    + intros (s & [<-|[<-|[<-|[<-|[]]]]] & H); tauto.
  - split; [|reflexivity]. intros i H. unfold has, GEOMETRIC in H. now rewrite N.bits_0 in H.
Qed.
(** A policy made of documented stages is known by which of the four it contains. *)
Theorem C179_known p q : contains APPARENT p = true -> contains APPARENT q = true -> (forall s, In s correction_order -> contains p s = contains q s) -> p = q.
Proof.
  intros P Q H. apply N.bits_inj. intros i. destruct C179_stages as (S0 & S1 & S2 & S3 & A & _).
  assert (In1 : forall r s k, (forall j, has s j <-> j = k) -> (contains r s = true <-> has r k)). { intros r s k K. rewrite contains_bits. split; [intros X; apply X, K; reflexivity|intros X j J; apply K in J; now subst]. }
  assert (E : forall s k, In s correction_order -> (forall j, has s j <-> j = k) -> N.testbit p k = N.testbit q k). { intros s k I K. pose proof (In1 p s k K) as X. pose proof (In1 q s k K) as Y. rewrite (H s I) in X. apply eq_true_iff_eq. unfold has in X, Y. tauto. }
  rewrite contains_bits in P, Q.
  assert (Four : has APPARENT i -> N.testbit p i = N.testbit q i).
  { intros J. apply A in J. destruct J as (s & I & J). apply (E s i I). intros j. cbn [correction_order In] in I. destruct I as [<-|[<-|[<-|[<-|[]]]]]; [rewrite S0 in J |- *|rewrite S1 in J |- *|rewrite S2 in J |- *|rewrite S3 in J |- *]; subst i; tauto. }
  destruct (N.testbit p i) eqn:Bp; [now apply Four, P|]. destruct (N.testbit q i) eqn:Bq; [now apply Four, Q|reflexivity].
Qed.
(** After any run of records the request is what it was, and a stage shows as applied exactly when a record had it. *)
Theorem C179_record p l : let c := fold_left record l (from_request p) in
  requested c = p /\ light_time_iters c = 0%N /\ forall i, has (applied c) i <-> exists s, In s l /\ has s i.
Proof.
  cbv zeta. assert (G : forall l c, requested (fold_left record l c) = requested c /\ light_time_iters (fold_left record l c) = light_time_iters c /\ forall i, has (applied (fold_left record l c)) i <-> has (applied c) i \/ exists s, In s l /\ has s i).
  { clear. induction l as [|s l IH]; intros c; cbn [fold_left In]; [repeat split; [tauto|intros [H|(s & [] & _)]; exact H]|]. destruct (IH (record c s)) as (A & B & D). split; [exact A|]. split; [exact B|]. intros i. rewrite D. cbn [record applied].
    rewrite (proj1 (C179_union (applied c) s 0%N) i). split; [intros [[H|H]|(x & I & H)]; [now left|right; exists s; tauto|right; exists x; tauto]|intros [H|(x & [->|I] & H)]; [tauto|tauto|right; exists x; tauto]]. }
  destruct (G l (from_request p)) as (A & B & D). split; [exact A|]. split; [exact B|]. intros i. rewrite D. split; [intros [H|H]; [exfalso; now apply (proj1 (proj2 (proj2 (proj2 (proj2 (proj2 C179_stages))))) i)|exact H]|tauto].
Qed.
(** Nothing holds a record to the request: what was applied can go beyond what was asked. *)
Theorem C179_beyond_refuted : exists p s, contains (requested (record (from_request p) s)) (applied (record (from_request p) s)) = false.
Proof. now exists GEOMETRIC, ABERRATION. Qed.
(** The stars know two policies only: whatever is asked for, except nothing at all, is answered as the apparent policy. *)
Theorem C179_all_or_nothing s p ra dec t : p <> GEOMETRIC -> altitude_at_with_policy s (Direction ra dec) p t = altitude_at_with_policy s (Direction ra dec) APPARENT t /\
  azimuth_at_with_policy s (Direction ra dec) p t = azimuth_at_with_policy s (Direction ra dec) APPARENT t.
Proof. intros N. cbn [altitude_at_with_policy azimuth_at_with_policy]. unfold dir_altitude, dir_azimuth, policy_of. apply N.eqb_neq in N. now rewrite N. Qed.
Example C179_case : contains APPARENT (union ABERRATION LIGHT_TIME) = true /\ contains ABERRATION (union ABERRATION LIGHT_TIME) = false /\ union ABERRATION LIGHT_TIME = 6%N /\
  applied (fold_left record [ABERRATION; LIGHT_TIME] (from_request APPARENT)) = 6%N.
Proof. repeat split. Qed.

Local Open Scope R_scope.
(** Asking without a policy is asking for the apparent place, for every body and both angles. *)
Theorem C180_default s b t : altitude_at s b t = altitude_at_with_policy s b APPARENT t /\ azimuth_at s b t = azimuth_at_with_policy s b APPARENT t.
Proof. now destruct b. Qed.
(** The apparent place of a star or a direction is where its catalogue direction, turned by the matrix of the
    date, stands over the horizon; the geometric place of a direction is where the catalogue direction itself does. *)
Theorem C180_place s b ra dec t : orthonormal (s_npb s t) -> b = Star ra dec \/ b = Direction ra dec ->
  let u := (cos dec * cos ra, cos dec * sin ra, sin dec) in
  seen_at (s_gast s t + s_lon s) (s_lat s) (altitude_at s b t) (azimuth_at s b t) (apply (s_npb s t) u) /\
  seen_at (s_gast s t + s_lon s) (s_lat s) (altitude_at_with_policy s (Direction ra dec) GEOMETRIC t) (azimuth_at_with_policy s (Direction ra dec) GEOMETRIC t) u /\
  0 <= azimuth_at s b t < 2 * PI /\ - (PI / 2) <= altitude_at s b t <= PI / 2.
Proof.
  intros O B u. pose proof (C77_star Apparent (s_npb s t) (s_gast s t) (s_lon s) (s_lat s) ra dec O) as A. pose proof (C77_star Geometric (s_npb s t) (s_gast s t) (s_lon s) (s_lat s) ra dec O) as G.
  destruct (star_horizontal Apparent (s_npb s t) (s_gast s t) (s_lon s) (s_lat s) ra dec) as (alt, az). destruct (star_horizontal Geometric (s_npb s t) (s_gast s t) (s_lon s) (s_lat s) ra dec) as (alt', az').
  destruct A as (S1 & L1 & Z1 & E1 & F1). destruct G as (S2 & L2 & Z2 & E2 & F2).
  assert (Alt : altitude_at s b t = alt) by (destruct B; subst b; exact E1). assert (Az : azimuth_at s b t = az) by (destruct B; subst b; exact F1). rewrite Alt, Az.
  split; [exact S1|]. split; [|tauto]. change (altitude_at_with_policy s (Direction ra dec) GEOMETRIC t) with (fixed_star_altitude Geometric (s_npb s t) (s_gast s t) (s_lon s) (s_lat s) ra dec). change (azimuth_at_with_policy s (Direction ra dec) GEOMETRIC t) with (fixed_star_azimuth Geometric (s_npb s t) (s_gast s t) (s_lon s) (s_lat s) ra dec). rewrite E2, F2. exact S2.
Qed.
(** A star's altitude is its direction's under every policy. *)
Theorem C180_star_altitude s ra dec p t : altitude_at_with_policy s (Star ra dec) p t = altitude_at_with_policy s (Direction ra dec) p t.
Proof. reflexivity. Qed.
(** The Sun, the Moon and the planets answer every policy alike. *)
Theorem C180_bodies s b p t : (forall ra dec, b <> Star ra dec /\ b <> Direction ra dec) -> altitude_at_with_policy s b p t = altitude_at s b t /\ azimuth_at_with_policy s b p t = azimuth_at s b t.
Proof. intros H. destruct b as [| |k|ra dec|ra dec]; [now split..| |]; destruct (H ra dec) as (A & B); congruence. Qed.

(** A quarter turn of the date seen from the pole. *)
Definition quarter : mat := M 0 (-1) 0 1 0 0 0 0 1.
Definition turned : sky := Sky (fun _ => (0, 0)) (fun _ => (0, 0)) (fun _ _ => (0, 0)) (fun _ => quarter) (fun _ => 0) 0 (PI / 2).
Lemma quarter_ok : orthonormal quarter.
Proof. unfold orthonormal, quarter, mul, transpose, identity. cbn. f_equal; lra. Qed.
Lemma at_pole az az' alt alt' : seen_at 0 (PI / 2) alt az (1, 0, 0) -> seen_at 0 (PI / 2) alt' az' (0, 1, 0) -> - (PI / 2) <= alt <= PI / 2 -> - (PI / 2) <= alt' <= PI / 2 ->
  cos az = -1 /\ sin az = 0 /\ cos az' = 0 /\ sin az' = 1.
Proof.
  unfold seen_at, north, east, up, dot3. cbn beta iota zeta. rewrite !sin_0, !cos_0, !sin_PI2, !cos_PI2. intros (A & B & C) (A' & B' & C') L L'.
  assert (S0 : sin alt = 0) by lra. assert (S0' : sin alt' = 0) by lra. assert (K : forall x, - (PI / 2) <= x <= PI / 2 -> sin x = 0 -> cos x = 1).
  { intros x X Z. assert (0 <= cos x) by (apply cos_ge_0; lra). pose proof (sin2_cos2 x) as P. unfold Rsqr in P. rewrite Z in P. nra. }
  rewrite (K alt L S0) in *. rewrite (K alt' L' S0') in *. lra.
Qed.
Lemma dir_at_pole t : cos (dir_azimuth turned GEOMETRIC 0 0 t) = -1 /\ sin (dir_azimuth turned GEOMETRIC 0 0 t) = 0 /\ cos (dir_azimuth turned APPARENT 0 0 t) = 0 /\ sin (dir_azimuth turned APPARENT 0 0 t) = 1.
Proof.
  pose proof (C77_star Apparent quarter 0 0 (PI / 2) 0 0 quarter_ok) as A. pose proof (C77_star Geometric quarter 0 0 (PI / 2) 0 0 quarter_ok) as G.
  destruct (star_horizontal Apparent quarter 0 0 (PI / 2) 0 0) as (alt, az). destruct (star_horizontal Geometric quarter 0 0 (PI / 2) 0 0) as (alt', az').
  destruct A as (S1 & L1 & _ & _ & F1). destruct G as (S2 & L2 & _ & _ & F2). change (dir_azimuth turned GEOMETRIC 0 0 t) with (fixed_star_azimuth Geometric quarter 0 0 (PI / 2) 0 0). change (dir_azimuth turned APPARENT 0 0 t) with (fixed_star_azimuth Apparent quarter 0 0 (PI / 2) 0 0). rewrite F1, F2.
  replace (0 + 0) with 0 in S1, S2 by lra. apply (at_pole az' az alt' alt); [|clear S2|exact L2|exact L1].
  - replace (1, 0, 0) with (unit_of 0 0); [exact S2|]. unfold unit_of. rewrite cos_0, sin_0. repeat f_equal; lra.
  - replace (0, 1, 0) with (apply quarter (unit_of 0 0)); [exact S1|]. unfold unit_of, apply, quarter. cbn. rewrite cos_0, sin_0. repeat f_equal; lra.
Qed.
(** A star's azimuth is not its direction's: asked for the geometric place, a star gives the apparent one, while
    its altitude and its direction follow the policy. *)
Theorem C180_star_azimuth_refuted : exists s ra dec t, orthonormal (s_npb s t) /\
  azimuth_at_with_policy s (Star ra dec) GEOMETRIC t <> azimuth_at_with_policy s (Direction ra dec) GEOMETRIC t.
Proof.
  exists turned, 0, 0, 0%Q. split; [exact quarter_ok|]. cbn [azimuth_at_with_policy azimuth_at]. destruct (dir_at_pole 0%Q) as (A & B & C & D). intros E. rewrite E in C. lra.
Qed.
(** For every policy a star's azimuth is the apparent one. *)
Theorem C180_star_azimuth s ra dec p t : azimuth_at_with_policy s (Star ra dec) p t = azimuth_at_with_policy s (Direction ra dec) APPARENT t.
Proof. reflexivity. Qed.
(** The periods of a star in an arc are its direction's, for every policy, window and arc. *)
Theorem C180_periods num complement s ra dec p window min max :
  periods_of num complement s (Star ra dec) p window min max = periods_of num complement s (Direction ra dec) p window min max.
Proof. reflexivity. Qed.
(** Every other body's periods are searched on the azimuth it reports under the same policy; an empty or backward
    window has none. *)
Theorem C180_search num complement s b p window min max : (forall ra dec, b <> Star ra dec) ->
  periods_of num complement s b p window min max = azimuth_periods num complement (fun t => azimuth_at_with_policy s b p t) (azimuth_hint b) window min max.
Proof. intros H. destruct b as [| |k|ra dec|ra dec]; try reflexivity. now destruct (H ra dec). Qed.
Theorem C180_empty num complement s b p window min max : (snd window <= fst window)%Q -> periods_of num complement s b p window min max = Some [].
Proof. intros H. unfold periods_of, azimuth_periods. assert (E : qleb (snd window - fst window) 0 = true) by (apply qleb_true; apply (Qplus_le_l _ _ (fst window)); ring_simplify; exact H). now rewrite E. Qed.

Definition sgn_num (x : R) : Q := if Rlt_dec 0 x then 1%Q else (-1)%Q.
(** So the periods a star reports under a policy are not those of the azimuth it reports under that policy: here the
    whole window is inside the arc although the star's own azimuth never is. *)
Theorem C180_star_periods_refuted : exists s ra dec complement window min max, 0 <= min < max /\ max < 2 * PI /\
  periods_of sgn_num complement s (Star ra dec) GEOMETRIC window min max = Some [window] /\
  forall t, ~ (min <= azimuth_at_with_policy s (Star ra dec) GEOMETRIC t <= max).
Proof.
  exists turned, 0, 0, (fun _ l => l), (0%Q, 1 # 1000)%Q, (PI - 1), (PI + 1). pose proof PI2_3_2 as P3. unfold PI2 in *. assert (P4 : PI <= 4) by apply PI_4. split; [lra|]. split; [lra|].
  assert (Az : forall t, azimuth_at_with_policy turned (Direction 0 0) GEOMETRIC t = PI).
  { intros t. destruct (dir_at_pole t) as (A & B & _). cbn [azimuth_at_with_policy]. assert (Rg : 0 <= dir_azimuth turned GEOMETRIC 0 0 t < 2 * PI). { unfold dir_azimuth, fixed_star_azimuth, star_horizontal. destruct (true_of_date _ _ _ _) as ((x, y), z). cbn [snd]. apply rem_e_range. lra. }
    apply angle_unique; [|now rewrite cos_PI|now rewrite sin_PI]. apply Rabs_def1; lra. }
  assert (Sig : forall t, arc_signal sgn_num (azimuth_at_with_policy turned (Direction 0 0) GEOMETRIC) ((PI - 1 + (PI + 1)) * (1 / 2)) (cos ((PI + 1 - (PI - 1)) * (1 / 2))) t = 1%Q).
  { intros t. unfold arc_signal. rewrite Az. replace (PI - (PI - 1 + (PI + 1)) * (1 / 2)) with 0 by lra. replace ((PI + 1 - (PI - 1)) * (1 / 2)) with 1 by lra. rewrite cos_0. unfold sgn_num. destruct (Rlt_dec 0 (1 - cos 1)) as [L|L]; [reflexivity|]. exfalso. apply L.
    assert (cos 1 < cos 0) by (apply cos_decreasing_1; lra). rewrite cos_0 in H. lra. }
  split.
  - unfold periods_of, azimuth_periods. assert (E : qleb (snd (0%Q, 1 # 1000)%Q - fst (0%Q, 1 # 1000)%Q) 0 = false) by reflexivity. rewrite E. unfold azimuth_range_periods. destruct (Rle_dec (PI - 1) (PI + 1)) as [_|N]; [|lra].
    set (f := arc_signal _ _ _ _) in *. clearbody f. cbn [azimuth_hint azimuth_step]. unfold above_threshold_periods, find_crossings.
    replace (passes_for (0%Q, (1 # 1000)%Q) azimuth_scan_step) with 1%nat by reflexivity. cbn [fst snd scan]. replace (next_time (1 # 1000) azimuth_scan_step 0) with (1 # 1000)%Q by reflexivity.
    replace (qltb 0 (1 # 1000)) with true by reflexivity. replace (qltb (1 # 1000) (1 # 1000)) with false by reflexivity. unfold plain_hit. rewrite !Sig. reflexivity.
  - intros t. cbn [azimuth_at_with_policy azimuth_at]. destruct (dir_at_pole t) as (_ & _ & C & D). intros (L & U).
    assert (E : dir_azimuth turned APPARENT 0 0 t = PI / 2) by (apply angle_unique; [apply Rabs_def1; lra|now rewrite cos_PI2|now rewrite sin_PI2]). lra.
Qed.
(** Crossings of a bearing are searched on the apparent azimuth for every body, a star like its direction. *)
Theorem C180_crossings num s b window bearing : crossings_of num s b window bearing = azimuth_crossings num (fun t => azimuth_at s b t) (azimuth_hint b) window bearing.
Proof. now destruct b. Qed.
(** What is outside an arc is the complement of what is inside, for every body. *)
Theorem C180_outside num complement s b window min max l : outside_of num complement s b window min max = Some l <->
  exists l', inside_of num complement s b window min max = Some l' /\ l = complement window l'.
Proof. unfold outside_of. destruct (inside_of num complement s b window min max) as [l'|]; split; [intros [= <-]; now exists l'|intros (l0 & [= <-] & ->); reflexivity|discriminate|intros (l0 & E & _); discriminate]. Qed.
Example C180_case : exists s, orthonormal (s_npb s 0%Q) /\ azimuth_at_with_policy s (Direction 0 0) GEOMETRIC 0%Q <> azimuth_at_with_policy s (Direction 0 0) APPARENT 0%Q /\ altitude_hint Moon = Some (1 # 12)%Q.
Proof. exists turned. split; [exact quarter_ok|]. split; [|reflexivity]. cbn [azimuth_at_with_policy]. destruct (dir_at_pole 0%Q) as (A & _ & C & _). intros E. rewrite E in A. lra. Qed.
Print Assumptions C179_known.
Print Assumptions C179_record.
Print Assumptions C180_place.
Print Assumptions C180_star_periods_refuted.
