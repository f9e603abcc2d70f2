(** C07, C08, C49: compact position reporting. *)
From Coq Require Import ZArith QArith Qround Qabs Qreals Reals Lqa Lra Lia.
From Verif Require Import Base Cpr_Model Cpr_Spec Cpr_Nl Cpr_Proofs.
Local Open Scope Q_scope.

(** The zone count the code uses, on rational latitudes. *)
Definition NL (q : Q) : Z := nl (Q2R q).

Lemma NL_proper : forall a b, a == b -> NL a = NL b.
Proof. intros a b E. unfold NL. now rewrite (Qeq_eqR _ _ E). Qed.
Lemma NL_range q : (1 <= NL q <= 59)%Z.
Proof. apply nl_range. Qed.
Lemma NL_pole q : 87 <= Qabs q -> NL q = 1%Z.
Proof.
  intros H. apply nl_pole. apply Qle_Rle in H.
  assert (E : Q2R (Qabs q) = Rabs (Q2R q)).
  { apply Qabs_case; intros G; apply Qle_Rle in G; rewrite RMicromega.Q2R_0 in G.
    - symmetry. apply Rabs_pos_eq. exact G.
    - rewrite Q2R_opp. symmetry. now apply Rabs_left1. }
  rewrite E in H. assert (Q2R 87 = 87%R) by (unfold Q2R; cbn; lra). now rewrite H0 in H.
Qed.

(** ** C07 *)
Theorem C07_local_recovers odd lat lon rlat rlon k :
  -90 <= lat <= 90 ->
  Qabs (lat - rlat) <= Dlat odd / 2 - Dlat odd / 262144 ->
  (let n := NL (quantised lat (Dlat odd)) in
   Qabs (lon + 360 * inject_Z k - rlon) <= Dlon n odd / 2 - Dlon n odd / 262144) ->
  let '(c_lat, c_lon) := encode NL odd lat lon in
  let '(lat', lon') := decode_locally NL c_lat c_lon odd rlat rlon in
  let n := NL (quantised lat (Dlat odd)) in
  lat' == quantised lat (Dlat odd) /\ Qabs (lat' - lat) <= Dlat odd / 262144 /\
  exists k', Qabs (lon' - (lon + 360 * inject_Z k')) <= Dlon n odd / 262144.
Proof. exact (local_decode NL NL_proper odd lat lon rlat rlon k). Qed.

(** The hypotheses are met by every reference within 2.9 degrees of the aircraft in each
    coordinate, whatever the latitude. *)
Example C07_domain odd lat lon rlat rlon :
  -90 <= lat <= 90 -> Qabs (lat - rlat) <= 29 # 10 -> Qabs (lon - rlon) <= 29 # 10 ->
  Qabs (lat - rlat) <= Dlat odd / 2 - Dlat odd / 262144 /\
  Qabs (lon + 360 * inject_Z 0 - rlon) <=
    Dlon (NL (quantised lat (Dlat odd))) odd / 2 - Dlon (NL (quantised lat (Dlat odd))) odd / 262144.
Proof.
  intros _ H1 H2. split.
  - eapply Qle_trans; [exact H1|]. destruct odd; discriminate.
  - set (n := NL _). pose proof (NL_range (quantised lat (Dlat odd))) as R. fold n in R.
    assert (E : lon + 360 * inject_Z 0 - rlon == lon - rlon) by (change (inject_Z 0) with 0; ring).
    rewrite E. eapply Qle_trans; [exact H2|].
    assert (Hz : (1 <= lon_zones n odd <= 59)%Z) by (unfold lon_zones; destruct odd; lia).
    assert (HD : Dlon n odd * inject_Z (lon_zones n odd) == 360) by apply zones_inv.
    pose proof (Dlon_pos n odd) as Hp.
    assert (B : inject_Z (lon_zones n odd) <= 59) by (change 59 with (inject_Z 59); rewrite <- Zle_Qle; lia).
    assert (360 <= Dlon n odd * 59).
    { rewrite <- HD. apply Qmult_le_l; auto. }
    set (d := Dlon n odd) in *. assert (E2 : d / 2 - d / 262144 == d * (131071 # 262144)) by field.
    rewrite E2. Lqa.lra.
Qed.

(** The decoder may return a longitude below -180: the wrap is one-sided. *)
Theorem C07_longitude_range_refuted :
  exists lat lon rlat rlon,
    -90 <= lat <= 90 /\ -180 <= lon < 180 /\ -180 <= rlon < 180 /\
    Qabs (lat - rlat) <= 1 /\ Qabs (lon - 360 - rlon) <= 3 /\
    let '(c_lat, c_lon) := encode NL false lat lon in
    snd (decode_locally NL c_lat c_lon false rlat rlon) < -180.
Proof.
  exists 89, 179, 89, (-179). repeat (split; [vm_compute; intuition discriminate|]).
  unfold encode, decode_locally. cbn [fst snd].
  rewrite (NL_pole (quantised 89 (Dlat false))) by (vm_compute; discriminate).
  match goal with |- context [NL ?x] => rewrite (NL_pole x) by (vm_compute; discriminate) end.
  vm_compute. reflexivity.
Qed.

(** ** C08 *)
Theorem C08_global_recovers lat lon (odd_latest : bool) :
  -90 <= lat <= 90 ->
  let re := quantised lat (Dlat false) in
  let ro := quantised lat (Dlat true) in
  let r := if odd_latest then ro else re in
  let '(la0, lo0) := encode NL false lat lon in
  let '(la1, lo1) := encode NL true lat lon in
  (NL re <> NL ro -> decode_globally NL la0 lo0 la1 lo1 odd_latest = Err tt) /\
  (NL re = NL ro -> (odd_latest = true -> (2 <= NL ro)%Z) ->
   exists lat' lon', decode_globally NL la0 lo0 la1 lo1 odd_latest = Ok (lat', Some lon') /\
     lat' == r /\ Qabs (lat' - lat) <= Dlat odd_latest / 262144 /\ -180 <= lon' < 180 /\
     exists k, Qabs (lon' - (lon + 360 * inject_Z k)) <= Dlon (NL r) odd_latest / 262144).
Proof. exact (global_decode NL NL_proper lat lon odd_latest NL_range). Qed.

Lemma NL_two q : Qabs q <= 60 -> (2 <= NL q)%Z.
Proof.
  intros H. unfold NL. 
  assert (A : (Rabs (Q2R q) <= 60)%R).
  { apply Qabs_Qle_condition in H. destruct H as [A B]. apply Qle_Rle in A, B.
    assert (Q2R (-(60)) = (-60)%R) by (unfold Q2R; cbn; lra).
    assert (Q2R 60 = 60%R) by (unfold Q2R; cbn; lra). rewrite H, H0 in *.
    now apply Rabs_le. }
  transitivity (nl 60); [|apply nl_antitone; rewrite (Rabs_pos_eq 60) by lra; exact A].
  apply nl_transition; [rewrite Rabs_pos_eq; lra|lia|].
  assert (E1 : rad 60 = (PI / 3)%R) by (unfold rad; field).
  rewrite E1, cos_PI3. replace (2 * PI / 2)%R with PI by field. rewrite cos_PI.
  assert (N1 : (numer <= 1 / 2)%R).
  { unfold numer. pose proof PI_RGT_0.
    assert (cos (PI / 3) <= cos (PI / (2 * 15)))%R by (apply cos_decr_1; lra).
    rewrite cos_PI3 in H1. lra. }
  lra.
Qed.

(** At the equator both frames agree on the zone count and the hypotheses hold. *)
Example C08_equator lon (odd_latest : bool) :
  NL (quantised 0 (Dlat false)) = NL (quantised 0 (Dlat true)) /\
  (2 <= NL (quantised 0 (Dlat true)))%Z /\
  exists lat' lon',
   decode_globally NL (fst (encode NL false 0 lon)) (snd (encode NL false 0 lon))
     (fst (encode NL true 0 lon)) (snd (encode NL true 0 lon)) odd_latest = Ok (lat', Some lon').
Proof.
  assert (E : NL (quantised 0 (Dlat false)) = NL (quantised 0 (Dlat true)))
    by (apply NL_proper; reflexivity).
  assert (T : (2 <= NL (quantised 0 (Dlat true)))%Z)
    by (apply NL_two; vm_compute; discriminate).
  split; [exact E|]. split; [exact T|].
  pose proof (C08_global_recovers 0 lon odd_latest) as G. cbv zeta in G.
  destruct (encode NL false 0 lon) as [a b], (encode NL true 0 lon) as [c d].
  destruct G as [_ G]; [split; discriminate|].
  destruct (G E (fun _ => T)) as (lat' & lon' & H & _). now exists lat', lon'.
Qed.

(** Near the poles with the odd frame last the code divides by zero zones: every such pair
    is accepted with a NaN longitude. *)
Theorem C08_polar_nan_refuted lat lon : 88 <= Qabs lat <= 90 ->
  let '(la0, lo0) := encode NL false lat lon in
  let '(la1, lo1) := encode NL true lat lon in
  exists lat', decode_globally NL la0 lo0 la1 lo1 true = Ok (lat', None).
Proof.
  intros [H1 H2]. apply Qabs_Qle_condition in H2.
  destruct (global_lats lat H2) as [Ee Eo]. unfold encode, decode_globally. cbv zeta in *.
  match type of Ee with ?x == _ => set (lat_e := x) in * end.
  match type of Eo with ?x == _ => set (lat_o := x) in * end.
  assert (P : forall o, NL (quantised lat (Dlat o)) = 1%Z).
  { intros o. apply NL_pole.
    destruct (quantised_error lat (Dlat o) (Dlat_pos o)) as [A B].
    assert (C : Dlat o / 262144 <= 1) by (destruct o; discriminate).
    revert H1. apply (Qabs_case lat); intros S1 H1; apply (Qabs_case (quantised lat (Dlat o))); intros S2; Lqa.lra. }
  rewrite (NL_proper _ _ Ee), (NL_proper _ _ Eo), !P. cbn. eauto.
Qed.
Example C08_polar_case : 88 <= Qabs (-(89)) <= 90.
Proof. vm_compute. split; discriminate. Qed.

(** Unrelated frames may be accepted with an impossible latitude. *)
Theorem C08_latitude_range_refuted :
  exists la0 lo0 la1 lo1 lat' lon',
    (0 <= la0 < 131072)%Z /\ (0 <= lo0 < 131072)%Z /\ (0 <= la1 < 131072)%Z /\ (0 <= lo1 < 131072)%Z /\
    decode_globally NL la0 lo0 la1 lo1 false = Ok (lat', Some lon') /\ 90 < lat'.
Proof.
  exists 78643%Z, 0%Z, 11796%Z, 0%Z. do 2 eexists. do 4 (split; [lia|]).
  unfold decode_globally. cbv zeta.
  repeat match goal with |- context [NL ?x] => rewrite (NL_pole x) by (vm_compute; discriminate) end.
  split; [reflexivity|vm_compute; reflexivity].
Qed.

(** ** C49 *)
Theorem C49_range lat : (1 <= nl lat <= 59)%Z.
Proof. exact (nl_range lat). Qed.
Theorem C49_antitone a b : (Rabs a <= Rabs b)%R -> (nl b <= nl a)%Z.
Proof. exact (nl_antitone a b). Qed.
Theorem C49_north_south a : nl (- a) = nl a.
Proof. exact (nl_even a). Qed.
Theorem C49_domain lat : (Rabs lat < 87)%R ->
  (-1 < 1 - (1 - cos (PI / 30)) / (cos (lat * (PI / 180)) * cos (lat * (PI / 180))) < 1)%R.
Proof.
  intros H. pose proof (arg_domain lat H) as A. unfold arg, rad, numer in A.
  replace (2 * 15)%R with 30%R in A by ring. exact A.
Qed.
(** The DO-260B transition latitudes. *)
Theorem C49_transition lat (n : Z) : (Rabs lat < 87)%R -> (2 <= n <= 59)%Z ->
  ((n <= nl lat)%Z <->
   ((1 - cos (PI / 30)) / (1 - cos (2 * PI / IZR n)) <= (cos (lat * (PI / 180))) ^ 2)%R).
Proof.
  intros H1 H2. pose proof (nl_transition lat n H1 H2) as T. unfold numer, rad in T.
  replace (2 * 15)%R with 30%R in T by ring.
  replace (cos (lat * (PI / 180)) ^ 2)%R with (cos (lat * (PI / 180)) * cos (lat * (PI / 180)))%R by ring.
  exact T.
Qed.
Theorem C49_poles lat : (87 <= Rabs lat)%R -> nl lat = 1%Z.
Proof. exact (nl_pole lat). Qed.
Example C49_equator : nl 0 = 59%Z /\ nl 88 = 1%Z.
Proof. split; [exact nl_equator|]. apply nl_pole. rewrite Rabs_pos_eq; lra. Qed.

Print Assumptions C07_local_recovers.
Print Assumptions C07_longitude_range_refuted.
Print Assumptions C08_global_recovers.
Print Assumptions C08_polar_nan_refuted.
Print Assumptions C08_latitude_range_refuted.
Print Assumptions C49_range.
Print Assumptions C49_antitone.
Print Assumptions C49_north_south.
Print Assumptions C49_domain.
Print Assumptions C49_transition.
Print Assumptions C49_poles.
