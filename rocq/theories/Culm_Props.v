(** C185: culminations. *)
From Coq Require Import List ZArith QArith Qabs Bool Lia Lqa Sorted Permutation.
From Verif Require Import Qb Sort Cross_Model Cross_Spec Cross_Proofs Ext_Model Ext_Spec Ext_Proofs Ext_Props Seed_Proofs Culm_Model.
Import ListNotations.
Local Open Scope Q_scope.

Section Target.
Context {policy : Type} (apparent : policy) (altitude : policy -> Q -> Q) (degrees : Q) (hint : option Q).
Let alt := altitude apparent.
Let step := match hint with Some s => s | None => 1 # 72 end.

Lemma culminations_raw fuel w tol cs : culminations apparent altitude degrees hint fuel w tol = Some cs ->
  exists raw, find_extrema_tol fuel w step alt tol = Some raw /\ cs = map (event_of degrees) raw.
Proof.
  unfold culminations, generic_culminations_with_policy. cbn zeta. fold alt. change (match hint with Some s => s | None => extrema_scan_step end) with step.
  destruct (find_extrema_tol _ _ _ _ _) as [raw|]; [|discriminate]. intros [= <-]. exists raw. split; reflexivity.
Qed.
Lemma raw_inside fuel w tol raw e : find_extrema_tol fuel w step alt tol = Some raw -> In e raw -> fst w <= et e <= snd w /\ ev e = alt (et e).
Proof.
  intros E I. destruct (Qlt_le_dec 0 step) as [S|S]; [|rewrite extrema_empty in E by (left; lra); injection E as <-; destruct I].
  destruct (Qlt_le_dec (fst w) (snd w)) as [W|W]; [|rewrite extrema_empty in E by (right; lra); injection E as <-; destruct I].
  destruct (extrema_ok _ _ _ _ _ _ W S E) as (gr & xs & G & F & P & _). apply (Permutation_in _ P) in I.
  pose proof (fun w' => turns_window alt _ _ _ _ w' G) as Tw. clear - F I Tw. induction F as [|w' x ws xs' Sx F IH]; [destruct I|]. destruct I as [->|I].
  - destruct Sx as (_ & V & (A & B) & _). destruct (Tw w' (or_introl eq_refl)). split; [lra|exact V].
  - apply IH; [exact I|]. intros w'' I'. apply Tw. now right.
Qed.
(** every event is inside the window and gives the apparent altitude at its own time in degrees; events come in order of time *)
Theorem C185_events fuel w tol cs : culminations apparent altitude degrees hint fuel w tol = Some cs ->
  Forall (fun c => fst w <= c_mjd c <= snd w /\ c_altitude c = altitude apparent (c_mjd c) * degrees) cs /\ StronglySorted (fun a b => c_mjd a <= c_mjd b) cs.
Proof.
  intros H. apply culminations_raw in H as (raw & E & ->). split.
  - apply Forall_forall. intros c I. apply in_map_iff in I as (e & <- & I). destruct (raw_inside _ _ _ _ _ E I) as (A & V). cbn [event_of c_mjd c_altitude]. rewrite V. split; [exact A|reflexivity].
  - assert (S : StronglySorted (fun a b => et a <= et b) raw).
    { unfold find_extrema_tol in E. destruct (_ || _); [injection E as <-; constructor|]. cbn zeta in E. destruct (extrema_loop _ _ _ _ _ _ _ _ _); [|discriminate]. injection E as <-. apply sorted_by. }
    clear E. induction S as [|x t S IH F]; constructor; [exact IH|]. rewrite Forall_forall in *. intros c I. apply in_map_iff in I as (e & <- & I). now apply F.
Qed.
Definition is_max (c : culmination) : bool := match c_kind c with CMax => true | CMin => false end.
Definition is_min (c : culmination) : bool := match c_kind c with CMax => false | CMin => true end.
Lemma count_perm {A} (h : A -> bool) l l' : Permutation l l' -> length (filter h l) = length (filter h l').
Proof. induction 1; cbn [filter]; [reflexivity|destruct (h x); cbn [length]; congruence|destruct (h x), (h y); reflexivity|congruence]. Qed.
Definition n_max (l : list (interval * kind)) : nat := length (filter (fun w => match snd w with Maximum => true | Minimum => false end) l).
Definition n_min (l : list (interval * kind)) : nat := length (filter (fun w => match snd w with Maximum => false | Minimum => true end) l).
Lemma n_max_cons w l : n_max (w :: l) = ((match snd w with Maximum => 1 | Minimum => 0 end) + n_max l)%nat.
Proof. unfold n_max. cbn [filter]. destruct (snd w); reflexivity. Qed.
Lemma n_min_cons w l : n_min (w :: l) = ((match snd w with Maximum => 0 | Minimum => 1 end) + n_min l)%nat.
Proof. unfold n_min. cbn [filter]. destruct (snd w); reflexivity. Qed.
Lemma turns_count f s l : let mx := n_max (turns f (s :: l)) in
  let mn := n_min (turns f (s :: l)) in
  if rising f s then (mn <= mx <= S mn)%nat else (mx <= mn <= S mx)%nat.
Proof.
  cbn zeta. revert s. induction l as [|s2 l IH]; intros s; [cbn; destruct (rising f s); lia|].
  change (turns f (s :: s2 :: l)) with ((if Bool.eqb (rising f s) (rising f s2) then [] else [((fst s, snd s2), if rising f s then Maximum else Minimum)]) ++ turns f (s2 :: l)).
  specialize (IH s2). revert IH. generalize (turns f (s2 :: l)). intros T IH. destruct (rising f s), (rising f s2); cbn [Bool.eqb app]; rewrite ?n_max_cons, ?n_min_cons; cbn [snd]; lia.
Qed.
(** there are as many maxima as minima, to within one *)
Theorem C185_balance fuel w tol cs : culminations apparent altitude degrees hint fuel w tol = Some cs ->
  (length (filter is_max cs) <= S (length (filter is_min cs)))%nat /\ (length (filter is_min cs) <= S (length (filter is_max cs)))%nat.
Proof.
  intros H. apply culminations_raw in H as (raw & E & ->).
  destruct (Qlt_le_dec 0 step) as [S|S]; [|rewrite extrema_empty in E by (left; lra); injection E as <-; cbn; lia].
  destruct (Qlt_le_dec (fst w) (snd w)) as [W|W]; [|rewrite extrema_empty in E by (right; lra); injection E as <-; cbn; lia].
  destruct (extrema_ok _ _ _ _ _ _ W S E) as (gr & xs & G & F & P & _).
  rewrite !(count_perm _ _ _ (Permutation_map (event_of degrees) P)).
  assert (Q1 : length (filter is_max (map (event_of degrees) xs)) = n_max (turns alt gr) /\
    length (filter is_min (map (event_of degrees) xs)) = n_min (turns alt gr)).
  { clear - F. induction F as [|w' x ws xs' Sx F IH]; [split; reflexivity|]. destruct Sx as (K & _). destruct IH as (I1 & I2). cbn [map filter]. unfold is_max at 1, is_min at 1. cbn [event_of c_kind]. rewrite K, n_max_cons, n_min_cons.
    destruct (snd w'); cbn [length]; lia. }
  destruct Q1 as (-> & ->). destruct gr as [|s l]; [cbn; lia|]. pose proof (turns_count alt s l) as T. cbn zeta in T. destruct (rising alt s); lia.
Qed.
Definition k_of (k : kind) : culmination_kind := match k with Maximum => CMax | Minimum => CMin end.
(** a target that climbs to one transit and then falls, a step away from the ends, has exactly that culmination, timed to half the tolerance; the same for one low point *)
Theorem C185_transit fuel w tol cs k z : fst w < snd w -> 0 < step -> 2 * step <= inject_Z (10 ^ 13) * tol -> extreme k (altitude apparent) w z -> fst w + step <= z -> z + step <= snd w ->
  culminations apparent altitude degrees hint fuel w tol = Some cs ->
  exists c, cs = [c] /\ c_kind c = k_of k /\ Qabs (c_mjd c - z) <= tol / 2 /\ c_altitude c = altitude apparent (c_mjd c) * degrees.
Proof.
  intros W S T X L R H. apply culminations_raw in H as (raw & E & ->). destruct (C38_single _ _ _ _ _ _ k z W S T X L R E) as (e & -> & K & V & _ & D).
  exists (event_of degrees e). split; [reflexivity|]. cbn [event_of c_kind c_mjd c_altitude]. rewrite K, V. split; [now destruct k|]. split; [exact D|reflexivity].
Qed.
(** a target that only climbs, or never climbs, has none *)
Theorem C185_monotone fuel w tol cs : (forall s t, fst w <= s -> s < t -> t <= snd w -> altitude apparent s < altitude apparent t) \/
  (forall s t, fst w <= s -> s <= t -> t <= snd w -> altitude apparent t <= altitude apparent s) ->
  culminations apparent altitude degrees hint fuel w tol = Some cs -> cs = [].
Proof.
  intros M H. apply culminations_raw in H as (raw & E & ->).
  destruct (Qlt_le_dec 0 step) as [S|S]; [|rewrite extrema_empty in E by (left; lra); now injection E as <-].
  destruct (Qlt_le_dec (fst w) (snd w)) as [W|W]; [|rewrite extrema_empty in E by (right; lra); now injection E as <-].
  destruct (extrema_ok _ _ _ _ _ _ W S E) as (gr & xs & G & F & P & _).
  assert (N : exists d, forall s, In s gr -> rising alt s = d).
  { assert (IG : forall s, In s gr -> fst w <= fst s /\ fst s < snd s /\ snd s <= snd w).
    { clear - G S. assert (L0 : fst w <= fst w) by lra. revert G L0. generalize (fst w) at 1 3 as t. intros t G. induction G as [|t b l T B Cb G IH]; intros L0 s I; [destruct I|]. destruct I as [<-|I]; cbn [fst snd].
      - destruct Cb as [Cb|(Cb & _)]; [lra|subst b; lra].
      - apply IH; [lra|exact I]. }
    destruct M as [M|M]; [exists true|exists false]; intros s I; destruct (IG s I) as (A & B & D); unfold rising, alt.
    - apply qltb_true. now apply M.
    - apply qltb_false. apply M; lra. }
  destruct N as (d & N). assert (T : turns alt gr = []).
  { clear - N. induction gr as [|s l IH]; [reflexivity|]. destruct l as [|s2 l]; [reflexivity|].
    change (turns alt (s :: s2 :: l)) with ((if Bool.eqb (rising alt s) (rising alt s2) then [] else [((fst s, snd s2), if rising alt s then Maximum else Minimum)]) ++ turns alt (s2 :: l)).
    rewrite (N s (or_introl eq_refl)), (N s2 (or_intror (or_introl eq_refl))), Bool.eqb_reflx. apply IH. intros x I. apply N. now right. }
  rewrite T in F. inversion F; subst. apply Permutation_sym, Permutation_nil in P. now subst raw.
Qed.
Theorem C185_ends w tol k : snd w - fst w <= inject_Z (Z.of_nat k) * step -> exists cs, culminations apparent altitude degrees hint (S k) w tol = Some cs.
Proof.
  intros L. destruct (C38_ends k w step alt tol L) as (r & E). exists (map (event_of degrees) r).
  unfold culminations, generic_culminations_with_policy. cbn zeta. fold alt. change (match hint with Some s => s | None => extrema_scan_step end) with step. now rewrite E.
Qed.
End Target.

(** a day with one transit at noon: the apparent altitude falls on both sides of 0.5 *)
Definition noon (apparent : bool) (t : Q) : Q := if apparent then 1 - (t - (1 # 2)) * (t - (1 # 2)) else 0.
Lemma noon_peak : extreme Maximum (noon true) (0, 1) (1 # 2).
Proof. cbn [extreme]. unfold peak, valley, Cross_Spec.inside, noon. cbn [fst snd]. split; [lra|]. split; intros x y A B C; nra. Qed.
Lemma noon_any fuel cs : culminations true noon 57 None fuel (0, 1) (1 # 1000) = Some cs -> exists c, cs = [c] /\ c_kind c = CMax /\ Qabs (c_mjd c - (1 # 2)) <= 1 # 2000.
Proof.
  intros E. destruct (C185_transit true noon 57 None fuel (0, 1) (1 # 1000) cs Maximum (1 # 2)) as (c & A & B & D & _); [reflexivity|reflexivity|discriminate|exact noon_peak|discriminate|discriminate|exact E|].
  exists c. split; [exact A|]. split; [exact B|]. assert (H : (1 # 1000) / 2 <= 1 # 2000) by discriminate. lra.
Qed.
Example C185_case : exists c cs, culminations true noon 57 None 101 (0, 1) (1 # 1000) = Some cs /\ cs = [c] /\ c_kind c = CMax /\ Qabs (c_mjd c - (1 # 2)) <= 1 # 2000.
Proof.
  destruct (C185_ends true noon 57 None (0, 1) (1 # 1000) 100) as (cs & E); [discriminate|]. destruct (noon_any _ _ E) as (c & A & B & D). exists c, cs. split; [exact E|]. split; [exact A|]. split; [exact B|exact D].
Qed.
Print Assumptions C185_events.
Print Assumptions C185_balance.
Print Assumptions C185_transit.
Print Assumptions C185_monotone.
Print Assumptions C185_ends.
