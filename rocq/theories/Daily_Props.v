(** C73, C74: the Sun's crossings, day by day. *)
From Coq Require Import List ZArith QArith Qabs Qminmax Qround Bool Lia Reals Lra Lqa Sorting.Sorted.
From Verif Require Import Qb Root_Model Root_Spec Cross_Model Cross_Spec Cross_Proofs Sweep_Model Sweep_Spec Sweep_Proofs Ang Daily_Model Daily_Spec Daily_Proofs Daily_Sky.
Import ListNotations.
Local Open Scope Q_scope.

(** ** C73 *)
Section C73.
Context {A : Type}.
Variables (o : config) (predictor : bool) (signal fast : Q -> Q) (fit : Q -> interval -> option fitted)
  (solve : interval -> option A) (transit : A -> Q) (aim_at : A -> Q -> aim).
Notation crossings := (solar_crossings o predictor signal fast fit solve transit aim_at).
(** However wrong the daily prediction and the fast altitude are, a reported crossing lies in the
    window and is a crossing of the precise altitude, up to the tolerances. *)
Theorem C73_sound p thr c : resolves p (time_tolerance o) -> In c (crossings p thr) ->
  rooted (time_tolerance o) (Qmax (max_residual o) poly_zero_tol) (fun t => signal t - thr) p (ct c) /\ (cdir c = 1%Z \/ cdir c = (-1)%Z).
Proof. exact (solar_sound o predictor signal fast fit solve transit aim_at p thr c). Qed.
Theorem C73_order p thr : StronglySorted (fun a b => ct a + dedupe_eps <= ct b) (crossings p thr).
Proof. apply solar_order. Qed.
(** Asking for several thresholds at once gives what asking for each gives. *)
Theorem C73_batch p thrs : solar_crossings_for_thresholds o predictor signal fast fit solve transit aim_at p thrs = map (crossings p) thrs.
Proof. apply solar_batch. Qed.
(** Every time of the window falls in one of the days, which are whole days, and in the part of the
    window that is searched for that day. *)
Theorem C73_cover p t : fst p < snd p -> inside p t -> exists d k, In d (days p) /\ d = (inject_Z k, inject_Z (k + 1)) /\ fst d <= t < snd d /\ inside (influence d p) t.
Proof.
  intros W I. destruct (days_cover p t W I) as (d & D & T & _ & F). exists d. pose proof D as D'. apply days_in in D' as (_ & k & -> & _). exists k. auto.
Qed.
(** On each day: either all that the search of the day's part of the window finds is reported; or
    the Sun stays on one side of the threshold by the day's prediction, and the precise altitude
    confirms it by ten tolerances at the ends and in the middle; or each of the two predicted
    crossings within four hours of the window was refined, and is reported if it is in the window. *)
Theorem C73_day p thr day : fst p < snd p -> force_scan o = false -> predictor = true -> In day (days p) ->
  let w := influence day p in
  let reported c := exists c', In c' (crossings p thr) /\ (c = c' \/ Qabs (ct c - ct c') < dedupe_eps) in
  let tol := Qmax (max_residual o) poly_zero_tol * 10 in
  (forall c, In c (fallback o signal fit w thr) -> reported c) \/
  exists a, solve day = Some a /\ f_eps <= Qabs (denom (aim_at a thr)) /\ let c := cos_h0 (aim_at a thr) in
    (1 + graze_eps < c /\ (snd w <= fst w \/ forall t, In t [fst w; mid_day w; snd w] -> signal t < thr - tol)) \/
    (c < - (1) - graze_eps /\ (snd w <= fst w \/ forall t, In t [fst w; mid_day w; snd w] -> thr + tol < signal t)) \/
    (- (1) + graze_eps <= c <= 1 - graze_eps /\
     forall t d slope, (t = Qred (transit a - half_arc (aim_at a thr)) /\ d = 1%Z /\ slope = base_slope (aim_at a thr)) \/ (t = Qred (transit a + half_arc (aim_at a thr)) /\ d = (-1)%Z /\ slope = - base_slope (aim_at a thr)) ->
       fst p - last_radius <= t <= snd p + last_radius -> exists x, refine_candidate o signal fast w t thr slope = Some x /\ (inside p x -> reported (Cr x d))).
Proof.
  intros W F Pr I w reported tol. destruct (solar_day o predictor signal fast fit solve transit aim_at p thr day W F Pr I) as [H|(a & S & D & H)]; [now left|]. right. exists a. split; [assumption|]. split; [assumption|].
  destruct H as [H|[H|(C & H)]]; [now left|now right; left|]. right; right. split; [assumption|]. intros t d slope T. apply H. unfold candidates.
  destruct T as [(-> & -> & ->)|(-> & -> & ->)]; [now left|right; now left].
Qed.
(** A window searched for a day, when the Sun's state of the day is unknown or the prediction fails,
    is searched as in C71: no sign change between the ends of a piece goes unreported. *)
Theorem C73_search w thr : resolves w (time_tolerance o) -> fst w < snd w -> canon (fst w) -> canon (snd w) -> force_scan o = false -> 0 < segment_length o -> let g := fun t => signal t - thr in
  exists l, grid (snd w) (segment_length o) (fst w) l /\ forall s, In s l -> sign_change (g (fst s)) (g (snd s)) ->
    exhausted g (Qmax (time_tolerance o) epsilon) (Qmax (max_residual o) poly_zero_tol) s \/ exists c t, In c (fallback o signal fit w thr) /\ inside s t /\ Qabs (t - ct c) < dedupe_eps.
Proof.
  intros R W C1 C2 F Sl g. unfold fallback, chebyshev. destruct (qltb_r (fst w) (snd w)); [|lra]. destruct (find_ends o (fit thr) w diurnal_step signal thr) as ([cs above] & E); [now left|]. rewrite E.
  exact (find_notices o (fit thr) w diurnal_step signal thr cs above R W C1 C2 F E).
Qed.
(** The periods above the threshold begin and end at events or at the ends of the window. *)
Theorem C73_edges p thr : resolves p (time_tolerance o) -> fst p < snd p ->
  let events := solar_events o predictor signal fast fit solve transit aim_at p thr in let periods := solar_above o predictor signal fast fit solve transit aim_at p thr in
  (forall q, In q periods -> (In (fst q, Rising) events \/ (fst q = fst p /\ thr < signal (fst p))) /\ (In (snd q, Setting) events \/ snd q = snd p)) /\
  (forall t, In (t, Rising) events -> t < snd p -> exists q, In q periods /\ fst q = t).
Proof.
  intros R W events periods. subst events periods. unfold solar_events, solar_above. set (cs := crossings p thr).
  assert (S : forall c, In c cs -> inside p (ct c) /\ (cdir c = 1%Z \/ cdir c = (-1)%Z)) by (intros c I; destruct (C73_sound p thr c R I) as ((H & _) & D); auto).
  assert (U : ups cs) by (apply Forall_forall; intros c I; now apply S).
  assert (T : timely p cs).
  { split; [|apply Forall_forall; intros c I; now apply S]. pose proof (C73_order p thr) as E. fold cs in E. clear - E. induction E as [|a l H IH F]; constructor; auto. eapply Forall_impl; [|exact F]. intros b L. cbn beta in L. assert (0 < dedupe_eps) by reflexivity. lra. }
  clearbody cs. assert (Ev : forall t w, In (t, w) (crossing_events cs) <-> exists c, In c cs /\ t = ct c /\ cdir c = match w with Rising => 1%Z | Setting => (-1)%Z end).
  { intros t w. unfold crossing_events. rewrite in_map_iff. split.
    - intros (c & Eq & I). exists c. destruct (S c I) as (_ & [D|D]); rewrite D in *; cbn in Eq; injection Eq as <- <-; auto.
    - intros (c & I & -> & D). exists c. split; [|assumption]. rewrite D. destruct w; reflexivity. }
  destruct (periods_edges p cs (qltb thr (signal (fst p))) U T W) as (H1 & H2). split.
  - intros q I. destruct (H1 q I) as (B & C). rewrite !Ev. split.
    + destruct B as [(B1 & B2)|(c & Ic & Dc & Ec)]; [right; split; [assumption|]; now apply qltb_true|left; exists c; auto].
    + destruct C as [C|(c & Ic & Dc & Ec)]; [now right|left; exists c; auto].
  - intros t It L. apply Ev in It as (c & Ic & -> & Dc). now apply (H2 c).
Qed.
(** The range of altitudes is the periods above its lower end without those above its upper end. *)
Theorem C73_ranges complement intersect p lo hi : fst p < snd p ->
  solar_ranges o predictor signal fast fit solve transit aim_at complement intersect p lo hi =
  intersect (solar_above o predictor signal fast fit solve transit aim_at p lo) (complement p (solar_above o predictor signal fast fit solve transit aim_at p hi)).
Proof.
  intros W. unfold solar_ranges. destruct (qleb_r (snd p) (fst p)); [lra|]. rewrite C73_batch. reflexivity.
Qed.
End C73.
(** On a window of no length, the Sun being up makes a period of no length, though every other search
    there returns nothing. *)
Theorem C73_empty_refuted : solar_above (public_config default_tol) true (fun _ => 1) (fun _ => 1) (fun _ _ => None) (fun _ => None) (fun _ : unit => 0) (fun _ _ => Aim 0 0 0 0) (5, 5) 0 = [(5, 5)] /\
  generic_above_threshold default_tol None (fun _ => None) (5, 5) (fun _ => 1) 0 = Some [] /\
  solar_ranges (public_config default_tol) true (fun _ => 1) (fun _ => 1) (fun _ _ => None) (fun _ => None) (fun _ : unit => 0) (fun _ _ => Aim 0 0 0 0) (fun _ _ => [(5, 5)]) (fun l _ => l) (5, 5) 0 2 = [].
Proof. repeat split; vm_compute; reflexivity. Qed.
(** A body that is up for the middle half of each day; the predictor knows it or has it slightly
    wrong, or knows nothing. *)
Definition noon_tent (t : Q) : Q := (1 # 4) - Qabs (t - inject_Z (Qfloor t) - (1 # 2)).
Definition known (error : Q) (day : interval) : option Q := Some (fst day + (1 # 2) + error).
Definition quarter (_ : Q) (_ : Q) : aim := Aim 1 0 (1 # 4) 1.
Example C73_case : resolves (0, 2) default_tol /\
  (let r := [Cr (1 # 4) 1; Cr (3 # 4) (-1); Cr (5 # 4) 1; Cr (7 # 4) (-1)] in
   solar_crossings (public_config default_tol) true noon_tent noon_tent (fun _ _ => None) (known 0) (fun t => t) quarter (0, 2) 0 = r /\
   solar_crossings (public_config default_tol) true noon_tent noon_tent (fun _ _ => None) (known (1 # 100)) (fun t => t) quarter (0, 2) 0 = r /\
   let found := solar_crossings (public_config default_tol) true noon_tent noon_tent (fun _ _ => None) (fun _ => None) (fun t => t) quarter (0, 2) 0 in
   length found = 4%nat /\ forallb (fun '(a, b) => qltb (Qabs (ct a - ct b)) default_tol && Z.eqb (cdir a) (cdir b)) (combine found r) = true) /\
  solar_above (public_config default_tol) true noon_tent noon_tent (fun _ _ => None) (known 0) (fun t => t) quarter (0, 2) 0 = [(1 # 4, 3 # 4); (5 # 4, 7 # 4)].
Proof. split; [vm_compute; discriminate|]. repeat split; vm_compute; reflexivity. Qed.

(** The direction is the predictor's, not the altitude's: with the transit half a day off, the times
    are the same and the directions are all wrong. *)
Theorem C73_direction_refuted : solar_crossings (public_config default_tol) true noon_tent noon_tent (fun _ _ => None) (known (1 # 2)) (fun t => t) quarter (0, 2) 0 =
  [Cr (1 # 4) (-1); Cr (3 # 4) 1; Cr (5 # 4) (-1); Cr (7 # 4) 1].
Proof. vm_compute. reflexivity. Qed.

(** ** C74 *)
Local Open Scope R_scope.
(** Of a Sun of fixed declination: with |cos H| above one it is never (or always) above the
    threshold; otherwise it crosses it at transit minus and plus the half arc, up and down with the
    slope handed to Newton's method, and within half a day of the transit it is above exactly
    between the two. *)
Theorem C74_candidates sin_lat cos_lat sin_dec cos_dec thr transit : 0 < cos_lat * cos_dec ->
  let c := r_cos_h0 thr sin_lat cos_lat sin_dec cos_dec in let a := r_half_arc c in let b := r_base_slope cos_lat cos_dec (acos c) in
  let h := fun t => sin_lat * sin_dec + cos_lat * cos_dec * cos (2 * PI * (t - transit)) in
  (1 < c -> forall t, h t < thr) /\ (c < -1 -> forall t, thr < h t) /\
  (-1 <= c <= 1 -> h (transit - a) = thr /\ h (transit + a) = thr /\ derivable_pt_lim h (transit - a) b /\ derivable_pt_lim h (transit + a) (- b) /\ 0 <= a <= 1 / 2 /\ (-1 < c < 1 -> 0 < b) /\
     forall t, Rabs (t - transit) <= 1 / 2 -> (thr < h t <-> Rabs (t - transit) < a) /\ (h t < thr <-> a < Rabs (t - transit))).
Proof.
  intros U c a b h. split; [intros C t; now apply always_below|]. split; [intros C t; now apply always_above|]. intros C.
  pose proof (at_candidate sin_lat cos_lat sin_dec cos_dec thr transit U C) as At. pose proof (slope_at sin_lat cos_lat sin_dec cos_dec thr transit) as Sl.
  split; [specialize (At (-1) ltac:(now right)); replace (transit - a) with (transit + -1 * a) by ring; exact At|]. split; [specialize (At 1 ltac:(now left)); rewrite Rmult_1_l in At; exact At|].
  split; [specialize (Sl (-1) ltac:(now right)); replace (transit - a) with (transit + -1 * a) by ring; replace b with (- -1 * b) by ring; exact Sl|].
  split; [specialize (Sl 1 ltac:(now left)); rewrite Rmult_1_l in Sl; replace (- b) with (- (1) * b) by ring; exact Sl|].
  split; [now apply arc_range|]. split; [now apply slope_positive|]. intros t. now apply lit.
Qed.
(** The transit of a day lies in it, and the hour angle, carried from the middle of the day at one
    turn a day, is a whole number of turns there. *)
Theorem C74_transit start gmst lon ra : let t := approx_transit start (start + 1) gmst lon ra in
  start <= t <= start + 1 /\ exists k : Z, gmst + lon - ra + 2 * PI * (t - (start + 1 / 2)) = 2 * PI * IZR k.
Proof. apply transit_ok. Qed.
(** The fast altitude is exactly the product of the vertical at the unreduced sidereal time with the
    Sun's direction at its ecliptic longitude, turned by the obliquity; it stays within [-1, 1]. *)
Theorem C74_fast n lat lon : let l := sun_longitude n in let e := sun_obliquity n in let theta := 4.894961 + 6.300388 * n + lon in
  sin_altitude_fast n lat lon = cos lat * cos theta * cos l + cos lat * sin theta * (cos e * sin l) + sin lat * (sin e * sin l).
Proof. apply fast_geometry. Qed.
Theorem C74_fast_bound n lat lon : -1 <= sin_altitude_fast n lat lon <= 1.
Proof.
  pose proof (C74_fast n lat lon) as E. cbn zeta in E. rewrite E. set (th := _ + lon). set (l := sun_longitude n). set (e := sun_obliquity n).
  pose proof (sin2_cos2 lat) as A. pose proof (sin2_cos2 th) as B. pose proof (sin2_cos2 l) as C. pose proof (sin2_cos2 e) as D. unfold Rsqr in *.
  set (u1 := cos lat * cos th). set (u2 := cos lat * sin th). set (u3 := sin lat). set (v1 := cos l). set (v2 := cos e * sin l). set (v3 := sin e * sin l).
  assert (U : u1 * u1 + u2 * u2 + u3 * u3 = 1). { unfold u1, u2, u3. transitivity (cos lat * cos lat * (sin th * sin th + cos th * cos th) + sin lat * sin lat); [ring|]. rewrite B. Lra.lra. }
  assert (V : v1 * v1 + v2 * v2 + v3 * v3 = 1). { unfold v1, v2, v3. transitivity (sin l * sin l * (sin e * sin e + cos e * cos e) + cos l * cos l); [ring|]. rewrite D. Lra.lra. }
  clearbody u1 u2 u3 v1 v2 v3. pose proof (Rle_0_sqr (u1 - v1)). pose proof (Rle_0_sqr (u2 - v2)). pose proof (Rle_0_sqr (u3 - v3)). pose proof (Rle_0_sqr (u1 + v1)). pose proof (Rle_0_sqr (u2 + v2)). pose proof (Rle_0_sqr (u3 + v3)). unfold Rsqr in *.
  split; Lra.lra.
Qed.
Example C74_case : 0 < 1 * 1 /\ -1 <= r_cos_h0 0 0 1 0 1 <= 1 /\ r_half_arc (r_cos_h0 0 0 1 0 1) = 1 / 4 /\ approx_transit 10 11 PI 0 0 = 10.
Proof.
  pose proof PI_RGT_0 as P. split; [Lra.lra|]. replace (r_cos_h0 0 0 1 0 1) with 0 by (unfold r_cos_h0; field). split; [Lra.lra|]. split; [unfold r_half_arc; rewrite acos_0; field; Lra.lra|].
  unfold approx_transit. rewrite (rem_e_small (PI + 0)) by Lra.lra. rewrite rem_e_small by Lra.lra. assert (E : (10 + 11) / 2 + - (PI + 0 - 0) / (2 * PI) = 10) by (field; Lra.lra). rewrite E.
  destruct (Rlt_dec 10 10); [Lra.lra|]. destruct (Rlt_dec 11 10); Lra.lra.
Qed.
Print Assumptions C73_sound.
Print Assumptions C73_day.
Print Assumptions C73_edges.
Print Assumptions C74_candidates.
Print Assumptions C74_fast.
