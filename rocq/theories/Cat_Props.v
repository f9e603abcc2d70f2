(** C156 - C157: cone searches of star catalogues and proper motion. *)
From Coq Require Import Reals List Bool Lra Lia Psatz Arith.
From Verif Require Import Base Ang Cat_Model.
Import ListNotations.
Local Open Scope R_scope.

(** the direction of a right ascension and declination, and the angle between two directions *)
Definition direction (ra dec : R) : R * R * R := (cos dec * cos ra, cos dec * sin ra, sin dec).
Definition dot (u v : R * R * R) : R := let '(a, b, c) := u in let '(x, y, z) := v in a * x + b * y + c * z.
Definition separation (ra dec ra' dec' : R) : R := acos (dot (direction ra dec) (direction ra' dec')).

(** half the chord, squared *)
Definition hav (ra dec ra' dec' : R) : R := Rsqr (sin ((dec - dec') / 2)) + cos dec * cos dec' * Rsqr (sin ((ra - ra') / 2)).
Lemma cos_half x : cos x = 1 - 2 * Rsqr (sin (x / 2)).
Proof. replace x with (2 * (x / 2)) at 1 by field. rewrite cos_2a_sin. unfold Rsqr. ring. Qed.
Lemma dot_hav a d a' d' : dot (direction a d) (direction a' d') = 1 - 2 * hav a d a' d'.
Proof.
  unfold dot, direction, hav. 
  assert (A : cos (a - a') = 1 - 2 * Rsqr (sin ((a - a') / 2))) by apply cos_half.
  assert (D : cos (d - d') = 1 - 2 * Rsqr (sin ((d - d') / 2))) by apply cos_half.
  rewrite cos_minus in A, D. set (p := Rsqr (sin ((a - a') / 2))) in *. set (q := Rsqr (sin ((d - d') / 2))) in *.
  replace (cos d * cos a * (cos d' * cos a') + cos d * sin a * (cos d' * sin a') + sin d * sin d') with (cos d * cos d' * (cos a * cos a' + sin a * sin a') + sin d * sin d') by ring.
  rewrite A. replace (sin d * sin d') with (1 - 2 * q - cos d * cos d') by lra. ring.
Qed.
Lemma dot_range a d a' d' : -1 <= dot (direction a d) (direction a' d') <= 1.
Proof.
  assert (U : forall a d, dot (direction a d) (direction a d) = 1).
  { intros x y. rewrite dot_hav. unfold hav. replace ((x - x) / 2) with 0 by field. replace ((y - y) / 2) with 0 by field. rewrite sin_0, Rsqr_0. ring. }
  pose proof (U a d) as P. pose proof (U a' d') as Q. revert P Q. destruct (direction a d) as ((x, y), z), (direction a' d') as ((x', y'), z'). unfold dot. intros P Q.
  pose proof (Rle_0_sqr (x - x')) as S1. pose proof (Rle_0_sqr (y - y')) as S2. pose proof (Rle_0_sqr (z - z')) as S3.
  pose proof (Rle_0_sqr (x + x')) as T1. pose proof (Rle_0_sqr (y + y')) as T2. pose proof (Rle_0_sqr (z + z')) as T3. unfold Rsqr in *. lra.
Qed.
Lemma hav_range a d a' d' : 0 <= hav a d a' d' <= 1.
Proof. pose proof (dot_range a d a' d') as H. rewrite dot_hav in H. lra. Qed.
Lemma separation_range a d a' d' : 0 <= separation a d a' d' <= PI.
Proof. apply acos_bound. Qed.
Lemma cos_separation a d a' d' : cos (separation a d a' d') = 1 - 2 * hav a d a' d'.
Proof. unfold separation. rewrite cos_acos by apply dot_range. apply dot_hav. Qed.
Lemma half_separation a d a' d' : Rsqr (sin (separation a d a' d' / 2)) = hav a d a' d'.
Proof. pose proof (cos_half (separation a d a' d')) as H. rewrite cos_separation in H. lra. Qed.
Lemma sin_half_nonneg x : 0 <= x <= PI -> 0 <= sin (x / 2).
Proof. intros H. pose proof PI_RGT_0. apply sin_ge_0; lra. Qed.
Lemma half_separation_sqrt a d a' d' : separation a d a' d' = 2 * asin (sqrt (hav a d a' d')).
Proof.
  pose proof (separation_range a d a' d') as B. pose proof PI_RGT_0. rewrite <- half_separation, sqrt_Rsqr by now apply sin_half_nonneg. rewrite asin_sin; lra.
Qed.

(** what the code takes for that *)
Definition code_hav (ra dec ra' dec' : R) : R := (sin (dec - dec') / 2) ^ 2 + cos dec * cos dec' * sin ((ra - ra') / 2) * sin ((ra - ra') / 2).
Lemma code_hav_eq a d a' d' : code_hav a d a' d' = hav a d a' d' - Rsqr (Rsqr (sin ((d - d') / 2))).
Proof.
  unfold code_hav, hav. replace (sin (d - d')) with (sin (2 * ((d - d') / 2))) by (f_equal; field). rewrite sin_2a.
  pose proof (sin2_cos2 ((d - d') / 2)) as T. unfold Rsqr in *. set (s := sin ((d - d') / 2)) in *. set (c := cos ((d - d') / 2)) in *.
  replace (2 * s * c / 2) with (s * c) by field. replace ((s * c) ^ 2) with (s * s * (c * c)) by ring. replace (c * c) with (1 - s * s) by lra. ring.
Qed.
Definition on_sphere (dec : R) : Prop := - (PI / 2) <= dec <= PI / 2.
Lemma cos_on d : on_sphere d -> 0 <= cos d. Proof. intros H. apply cos_ge_0; apply H. Qed.
Lemma hav_part a d a' d' : on_sphere d -> on_sphere d' -> Rsqr (sin ((d - d') / 2)) <= hav a d a' d'.
Proof. intros D D'. unfold hav. pose proof (Rmult_le_pos _ _ (Rmult_le_pos _ _ (cos_on _ D) (cos_on _ D')) (Rle_0_sqr (sin ((a - a') / 2)))). lra. Qed.
Lemma code_hav_lo a d a' d' : on_sphere d -> on_sphere d' -> hav a d a' d' * (1 - hav a d a' d') <= code_hav a d a' d' <= hav a d a' d'.
Proof.
  intros D D'. rewrite code_hav_eq. pose proof (hav_part a d a' d' D D') as P. pose proof (hav_range a d a' d') as (L & U). pose proof (Rle_0_sqr (sin ((d - d') / 2))) as S0.
  set (h := hav a d a' d') in *. set (q := Rsqr (sin ((d - d') / 2))) in *. assert (q * q <= h * h) by (apply Rmult_le_compat; assumption). unfold Rsqr in *. pose proof (Rle_0_sqr q). unfold Rsqr in *. lra.
Qed.
Lemma code_hav_range a d a' d' : on_sphere d -> on_sphere d' -> 0 <= code_hav a d a' d' <= 1.
Proof.
  intros D D'. pose proof (code_hav_lo a d a' d' D D') as (L & U). pose proof (hav_range a d a' d') as (L' & U'). split; [|lra].
  eapply Rle_trans; [|exact L]. apply Rmult_le_pos; lra.
Qed.
Lemma cone_distance_eq a d a' d' : on_sphere d -> on_sphere d' -> cone_distance a d a' d' = 2 * asin (sqrt (code_hav a d a' d')).
Proof.
  intros D D'. unfold cone_distance. cbv zeta. change ((sin (d - d') / 2) ^ 2 + cos d * cos d' * sin ((a - a') / 2) * sin ((a - a') / 2)) with (code_hav a d a' d').
  pose proof (code_hav_range a d a' d' D D') as (L & U). destruct (Rlt_dec _ 0); [lra|]. rewrite Rmin_left; [reflexivity|]. rewrite <- sqrt_1. now apply sqrt_le_1_alt.
Qed.
Lemma asin_le x y : -1 <= x -> x <= y -> y <= 1 -> asin x <= asin y.
Proof.
  intros X [L|<-] Y; [|apply Rle_refl]. apply Rlt_le. pose proof (asin_bound x). pose proof (asin_bound y). apply sin_increasing_0; try lra. rewrite !sin_asin by lra. exact L.
Qed.
Lemma cone_below a d a' d' : on_sphere d -> on_sphere d' -> 0 <= cone_distance a d a' d' <= separation a d a' d'.
Proof.
  intros D D'. rewrite cone_distance_eq, half_separation_sqrt by assumption. pose proof (code_hav_lo a d a' d' D D') as (_ & U). pose proof (code_hav_range a d a' d' D D') as (L & _). pose proof (hav_range a d a' d') as (_ & H1).
  assert (0 <= sqrt (code_hav a d a' d')) by apply sqrt_pos. assert (sqrt (code_hav a d a' d') <= sqrt (hav a d a' d')) by now apply sqrt_le_1_alt.
  assert (sqrt (hav a d a' d') <= 1) by (rewrite <- sqrt_1; now apply sqrt_le_1_alt).
  split; [|apply Rmult_le_compat_l; [lra|apply asin_le; lra]]. rewrite <- asin_0. assert (asin 0 <= asin (sqrt (code_hav a d a' d'))) by (apply asin_le; lra). rewrite asin_0 in *. lra.
Qed.

(** * C156 Cone searches *)
(** the search misses nothing: a record of the catalogue that passes the filter and lies within the radius of the centre
    is returned *)
Theorem C156_finds rs ra dec radius f r : on_sphere dec -> In r rs -> on_sphere (c_dec r) -> passes_filter r f = true ->
  separation (c_ra r) (c_dec r) ra dec <= radius -> In r (cone_search rs ra dec radius f).
Proof.
  intros D I D' P S. apply filter_In. split; [exact I|]. rewrite P, andb_true_r. unfold inside_cone. destruct (Rle_dec _ _) as [|N]; [reflexivity|]. exfalso. apply N.
  eapply Rle_trans; [|exact S]. now apply cone_below.
Qed.
(** but it may return records outside: a star at the south pole is found in a cone of no size about the north pole, and no
    two points of a meridian are taken to be more than sixty degrees apart *)
Theorem C156_inside_refuted : exists r ra dec, on_sphere (c_dec r) /\ on_sphere dec /\ cone_search [r] ra dec 0 (CFilter None None) = [r] /\ separation (c_ra r) (c_dec r) ra dec = PI.
Proof.
  pose proof PI_RGT_0 as PP. exists (CRecord 1 0 (- (PI / 2)) 2016 None None None true), 0, (PI / 2). cbn [c_dec c_ra]. assert (O1 : on_sphere (- (PI / 2))) by (unfold on_sphere; lra). assert (O2 : on_sphere (PI / 2)) by (unfold on_sphere; lra).
  split; [exact O1|]. split; [exact O2|]. split.
  - unfold cone_search. cbn [filter c_ra c_dec]. unfold inside_cone. rewrite cone_distance_eq by assumption. unfold code_hav.
    replace (- (PI / 2) - PI / 2) with (- PI) by field. rewrite sin_neg, sin_PI, cos_PI2. replace ((- 0 / 2) ^ 2 + cos (- (PI / 2)) * 0 * sin ((0 - 0) / 2) * sin ((0 - 0) / 2)) with 0 by field. rewrite sqrt_0, asin_0.
    destruct (Rle_dec (2 * 0) 0) as [|N]; [reflexivity|]. exfalso. apply N. lra.
  - unfold separation, direction, dot. rewrite cos_neg, sin_neg, cos_PI2, sin_PI2. replace (0 * cos 0 * (0 * cos 0) + 0 * sin 0 * (0 * sin 0) + - (1) * 1) with (- (1)) by ring. rewrite acos_opp, acos_1. lra.
Qed.
Theorem C156_meridian_refuted rs ra dec f r : on_sphere dec -> In r rs -> on_sphere (c_dec r) -> c_ra r = ra -> passes_filter r f = true -> In r (cone_search rs ra dec (PI / 3) f).
Proof.
  intros D I D' E P. apply filter_In. split; [exact I|]. rewrite P, andb_true_r. unfold inside_cone. destruct (Rle_dec _ _) as [|N]; [reflexivity|]. exfalso. apply N.
  rewrite cone_distance_eq by assumption. unfold code_hav. rewrite E. replace ((ra - ra) / 2) with 0 by field. rewrite sin_0, !Rmult_0_r, Rplus_0_r.
  pose proof (SIN_bound (c_dec r - dec)) as (L & U). set (s := sin (c_dec r - dec)) in *.
  assert (H : sqrt ((s / 2) ^ 2) <= 1 / 2).
  { replace (1 / 2) with (sqrt ((1 / 2) ^ 2)) by (rewrite <- Rsqr_pow2; apply sqrt_Rsqr; lra). apply sqrt_le_1_alt. cbn [pow]. nra. }
  assert (A : asin (1 / 2) = PI / 6). { rewrite <- sin_PI6. pose proof PI_RGT_0. apply asin_sin. lra. }
  pose proof (sqrt_pos ((s / 2) ^ 2)). assert (asin (sqrt ((s / 2) ^ 2)) <= asin (1 / 2)) by (apply asin_le; lra). lra.
Qed.
(** how far outside: the sine of the separation of anything returned is at most twice the sine of half the radius, so it
    is either a little further than the radius or nearly opposite the centre; on the parallel of the centre the test is exact *)
Theorem C156_returned rs ra dec radius f r : on_sphere dec -> In r (cone_search rs ra dec radius f) -> on_sphere (c_dec r) -> radius <= PI ->
  In r rs /\ passes_filter r f = true /\ sin (separation (c_ra r) (c_dec r) ra dec) <= 2 * sin (radius / 2).
Proof.
  intros D I D' RP. apply filter_In in I as (I & B). apply andb_prop in B as (B & P). split; [exact I|]. split; [exact P|].
  unfold inside_cone in B. destruct (Rle_dec _ _) as [C|]; [clear B|discriminate]. pose proof (cone_below (c_ra r) (c_dec r) ra dec D' D) as (Z & _). revert Z C. rewrite cone_distance_eq by assumption.
  set (a := c_ra r). set (d := c_dec r) in *. pose proof (code_hav_lo a d ra dec D' D) as (L & _). pose proof (code_hav_range a d ra dec D' D) as (K & K1). intros Z C.
  assert (Q : sqrt (code_hav a d ra dec) <= sin (radius / 2)).
  { assert (S1 : sqrt (code_hav a d ra dec) <= 1) by (rewrite <- sqrt_1; now apply sqrt_le_1_alt). pose proof (sqrt_pos (code_hav a d ra dec)). rewrite <- (sin_asin (sqrt (code_hav a d ra dec))) by lra. pose proof (asin_bound (sqrt (code_hav a d ra dec))). apply sin_incr_1; lra. }
  pose proof (separation_range a d ra dec) as SR. pose proof (sin_half_nonneg _ SR) as S0. pose proof (half_separation a d ra dec) as HS. set (x := separation a d ra dec) in *.
  replace (sin x) with (2 * (sin (x / 2) * cos (x / 2))) by (rewrite <- Rmult_assoc, <- sin_2a; f_equal; field). apply Rmult_le_compat_l; [lra|].
  eapply Rle_trans; [|exact Q]. assert (C0 : 0 <= cos (x / 2)) by (apply cos_ge_0; lra).
  rewrite <- (sqrt_Rsqr (sin (x / 2) * cos (x / 2))) by now apply Rmult_le_pos. apply sqrt_le_1_alt. rewrite Rsqr_mult. pose proof (sin2_cos2 (x / 2)) as T. replace (Rsqr (cos (x / 2))) with (1 - hav a d ra dec) by lra. rewrite HS. exact L.
Qed.
Theorem C156_parallel rs ra radius f r : on_sphere (c_dec r) -> In r (cone_search rs ra (c_dec r) radius f) <-> In r rs /\ passes_filter r f = true /\ separation (c_ra r) (c_dec r) ra (c_dec r) <= radius.
Proof.
  intros D. assert (E : cone_distance (c_ra r) (c_dec r) ra (c_dec r) = separation (c_ra r) (c_dec r) ra (c_dec r)).
  { rewrite cone_distance_eq, half_separation_sqrt, code_hav_eq by assumption. replace ((c_dec r - c_dec r) / 2) with 0 by field. now rewrite sin_0, !Rsqr_0, Rminus_0_r. }
  unfold cone_search. rewrite filter_In, andb_true_iff. unfold inside_cone. rewrite E. destruct (Rle_dec _ _); split; intros (A & B); repeat split; try tauto; try (destruct B as (B & C); try discriminate; tauto).
Qed.
(** the filter: no fainter than the limit if one is given, and of the given quality *)
Theorem C156_filter r f : passes_filter r f = true <->
  (forall m, f_max_g f = Some m -> exists g, c_gmag r = Some g /\ g <= m) /\ (forall q, f_quality f = Some q -> c_quality r = q).
Proof.
  unfold passes_filter. rewrite andb_true_iff. destruct (f_max_g f) as [m|], (f_quality f) as [q|], (c_gmag r) as [g|]; try (destruct (Rlt_dec m g)); split; intros (A & B); try discriminate; split; try reflexivity;
    try (intros ? [= <-]); try discriminate; try (now apply eqb_prop); try (exists g; split; [reflexivity|lra]); try (apply eqb_true_iff; now apply B); try (destruct (A _ eq_refl) as (? & [= <-] & ?); lra); try (destruct (A _ eq_refl) as (? & [=] & _)).
Qed.
(** records come back in catalogue order, and searching the catalogue in pieces, of any size, and joining the answers is
    searching it whole; no piece is longer than asked *)
Theorem C156_order rs rs' ra dec radius f : cone_search (rs ++ rs') ra dec radius f = cone_search rs ra dec radius f ++ cone_search rs' ra dec radius f.
Proof. apply filter_app. Qed.
Lemma chunks_concat {A} n (l : list A) fuel : (0 < n)%nat -> (length l <= fuel)%nat -> concat (chunks_fuel fuel n l) = l.
Proof.
  intros N. revert l. induction fuel as [|k IH]; intros l L; [destruct l; [reflexivity|cbn in L; lia]|]. destruct l as [|a l]; [reflexivity|]. cbn [chunks_fuel concat]. rewrite IH; [apply firstn_skipn|]. rewrite skipn_length. cbn [length] in *. lia.
Qed.
Lemma filter_length_le {A} (g : A -> bool) l : (length (filter g l) <= length l)%nat.
Proof. induction l as [|a l IH]; [reflexivity|]. cbn. destruct (g a); cbn; lia. Qed.
Theorem C156_chunked rs ra dec radius f n : concat (cone_search_chunked rs ra dec radius f n) = cone_search rs ra dec radius f /\
  length (cone_search_chunked rs ra dec radius f n) = length (chunks (Nat.max n 1) rs) /\ Forall (fun c => (length c <= Nat.max n 1)%nat) (cone_search_chunked rs ra dec radius f n).
Proof.
  unfold cone_search_chunked. split; [|split; [apply map_length|]].
  - rewrite <- (chunks_concat (Nat.max n 1) rs (length rs)) at 2 by lia. fold (chunks (Nat.max n 1) rs). generalize (chunks (Nat.max n 1) rs) as cs. induction cs as [|c cs IH]; [reflexivity|]. cbn [map concat]. now rewrite IH, C156_order.
  - apply Forall_forall. intros c C. apply in_map_iff in C as (b & <- & B). eapply Nat.le_trans; [apply filter_length_le|]. unfold chunks in B. revert B. generalize (length rs) as k. intros k. revert rs. induction k as [|k IH]; intros rs B; [contradiction|].
    destruct rs as [|a rs]; [contradiction|]. cbn [chunks_fuel] in B. destruct B as [<-|B]; [rewrite firstn_length; lia|]. eapply IH. exact B.
Qed.

(** a record searched for at its own epoch, or one without a proper motion, is found exactly as in the plain search *)
Lemma sin_half_turn x k : Rsqr (sin ((x + 2 * PI * IZR k) / 2)) = Rsqr (sin (x / 2)).
Proof.
  pose proof (cos_half (x + 2 * PI * IZR k)) as A. rewrite cos_turns, (cos_half x) in A. lra.
Qed.
Lemma cone_turn a d a' d' : cone_distance (rem_e a (2 * PI)) d a' d' = cone_distance a d a' d'.
Proof.
  unfold cone_distance. cbv zeta.
  assert (E : sin ((rem_e a (2 * PI) - a') / 2) * sin ((rem_e a (2 * PI) - a') / 2) = sin ((a - a') / 2) * sin ((a - a') / 2)).
  { unfold rem_e. replace (a - 2 * PI * IZR (Int_part (a / (2 * PI))) - a') with (a - a' + 2 * PI * IZR (- Int_part (a / (2 * PI)))) by (rewrite opp_IZR; ring).
    pose proof (sin_half_turn (a - a') (- Int_part (a / (2 * PI)))) as T. unfold Rsqr in T. exact T. }
  replace (cos d * cos d' * sin ((rem_e a (2 * PI) - a') / 2) * sin ((rem_e a (2 * PI) - a') / 2)) with (cos d * cos d' * (sin ((rem_e a (2 * PI) - a') / 2) * sin ((rem_e a (2 * PI) - a') / 2))) by ring.
  rewrite E. replace (cos d * cos d' * (sin ((a - a') / 2) * sin ((a - a') / 2))) with (cos d * cos d' * sin ((a - a') / 2) * sin ((a - a') / 2)) by ring. reflexivity.
Qed.
Theorem C156_epoch rs ra dec radius t f : Forall (fun r => on_sphere (c_dec r) /\ (c_epoch r = t \/ c_pmra r = None \/ c_pmdec r = None)) rs ->
  cone_search_at_epoch rs ra dec radius t f = cone_search rs ra dec radius f.
Proof.
  intros H. unfold cone_search_at_epoch, cone_search. apply filter_ext_in. intros r I. rewrite Forall_forall in H. destruct (H r I) as (D & C). unfold propagate_to.
  destruct (c_pmra r) as [ma|] eqn:EA, (c_pmdec r) as [md|] eqn:ED; try reflexivity. destruct C as [C|[|]]; try discriminate. rewrite C, Rminus_diag_eq by reflexivity. cbv zeta. rewrite !Rmult_0_r, Rplus_0_r.
  replace (if Rlt_dec (/ 1000000000000) (Rabs (cos (c_dec r))) then 0 / cos (c_dec r) else 0) with 0 by (destruct (Rlt_dec _ _); unfold Rdiv; ring). rewrite Rplus_0_r. destruct D as (D1 & D2).
  destruct (Rlt_dec (PI / 2) (c_dec r)); [lra|]. destruct (Rlt_dec (c_dec r) (- (PI / 2))); [lra|]. unfold inside_cone. now rewrite cone_turn.
Qed.
Example C156_case : exists r, In r (cone_search [r] (PI / 4) 0 (PI / 2) (CFilter (Some 12) (Some true))) /\ ~ In r (cone_search [r] (PI / 4) 0 (PI / 2) (CFilter (Some 10) (Some true))) /\ ~ In r (cone_search [r] PI 0 (PI / 4) (CFilter None None)).
Proof.
  pose proof PI_RGT_0 as PP. exists (CRecord 7 0 0 2016 None None (Some 11) true). assert (O : on_sphere 0) by (unfold on_sphere; lra).
  assert (SEP : forall x, 0 <= x <= PI -> separation 0 0 x 0 = x).
  { intros x X. unfold separation, direction, dot. rewrite cos_0, sin_0. replace (1 * 1 * (1 * cos x) + 1 * 0 * (1 * sin x) + 0 * 0) with (cos x) by ring. now apply acos_cos. }
  split; [|split].
  - apply C156_finds; auto; [now left| |cbn; rewrite SEP; lra]. apply C156_filter. cbn. split; [intros m [= <-]; exists 11; split; [reflexivity|lra]|intros q [= <-]; reflexivity].
  - intros H. apply filter_In in H as (_ & H). apply andb_prop in H as (_ & H). apply C156_filter in H as (H & _). destruct (H 10 eq_refl) as (g & [= <-] & G). lra.
  - intros H. apply (C156_parallel [CRecord 7 0 0 2016 None None (Some 11) true] PI (PI / 4) (CFilter None None) (CRecord 7 0 0 2016 None None (Some 11) true)) in H; [|exact O]. cbn [c_ra c_dec] in H. rewrite SEP in H; lra.
Qed.

(** * C157 Proper motion *)
(** the place moved to is a place on the sphere, with its right ascension reduced, unless a move of more than half a turn is asked for *)
Theorem C157_range r t ma md ra dec : c_pmra r = Some ma -> c_pmdec r = Some md -> on_sphere (c_dec r) -> Rabs (md * (PI / 180 / 3600000) * (t - c_epoch r)) <= PI ->
  propagate_to r t = (ra, dec) -> 0 <= ra < 2 * PI /\ on_sphere dec.
Proof.
  intros A D O L E. unfold propagate_to in E. rewrite A, D in E. fold mas_to_rad in L. cbv zeta in E. assert (TP : 0 < 2 * PI) by (pose proof PI_RGT_0; lra).
  assert (L2 : - PI <= md * mas_to_rad * (t - c_epoch r) <= PI) by (unfold Rabs in L; destruct (Rcase_abs _) in L; lra).
  set (m := md * mas_to_rad * (t - c_epoch r)) in *. unfold on_sphere in *.
  destruct (Rlt_dec (PI / 2) (c_dec r + m)); [|destruct (Rlt_dec (c_dec r + m) (- (PI / 2)))]; injection E as <- <-; (split; [apply rem_e_range; exact TP|lra]).
Qed.
(** folding over a pole does not change the direction: it is that of the record moved straight along its declination and
    right ascension, the latter by the motion on the sky divided by the cosine of the declination *)
Theorem C157_direction r t ma md ra dec : c_pmra r = Some ma -> c_pmdec r = Some md -> / 1000000000000 < Rabs (cos (c_dec r)) -> propagate_to r t = (ra, dec) ->
  direction ra dec = direction (c_ra r + ma * (PI / 180 / 3600000) * (t - c_epoch r) / cos (c_dec r)) (c_dec r + md * (PI / 180 / 3600000) * (t - c_epoch r)).
Proof.
  intros A D O E. unfold propagate_to in E. rewrite A, D in E. fold mas_to_rad. cbv zeta in E. destruct (Rlt_dec (/ 1000000000000) _) as [_|]; [|contradiction].
  set (x := c_ra r + ma * mas_to_rad * (t - c_epoch r) / cos (c_dec r)) in *. set (y := c_dec r + md * mas_to_rad * (t - c_epoch r)) in *.
  assert (F : forall w, cos (rem_e (rem_e x (2 * PI) + PI) (2 * PI)) = w -> w = - cos x) by (intros w <-; rewrite cos_rem_e, neg_cos, cos_rem_e; reflexivity).
  assert (G : forall w, sin (rem_e (rem_e x (2 * PI) + PI) (2 * PI)) = w -> w = - sin x) by (intros w <-; rewrite sin_rem_e, neg_sin, sin_rem_e; reflexivity).
  unfold direction.
  destruct (Rlt_dec (PI / 2) y); [|destruct (Rlt_dec y (- (PI / 2)))]; injection E as <- <-.
  - rewrite (F _ eq_refl), (G _ eq_refl), sin_PI_x. replace (cos (PI - y)) with (- cos y) by (rewrite cos_minus, cos_PI, sin_PI; ring). f_equal; f_equal; ring.
  - rewrite (F _ eq_refl), (G _ eq_refl). replace (cos (- PI - y)) with (- cos y) by (rewrite cos_minus, cos_neg, sin_neg, cos_PI, sin_PI; ring). replace (sin (- PI - y)) with (sin y) by (rewrite sin_minus, cos_neg, sin_neg, cos_PI, sin_PI; ring). f_equal; f_equal; ring.
  - now rewrite cos_rem_e, sin_rem_e.
Qed.
(** at the catalogue epoch the direction is the catalogue's; without both components nothing moves *)
Theorem C157_still r t : (c_pmra r = None \/ c_pmdec r = None -> propagate_to r t = (c_ra r, c_dec r)) /\
  (on_sphere (c_dec r) -> propagate_to r (c_epoch r) = (c_ra r, c_dec r) \/ propagate_to r (c_epoch r) = (rem_e (c_ra r) (2 * PI), c_dec r)).
Proof.
  unfold propagate_to. split.
  - intros [E|E]; rewrite E; [reflexivity|]. now destruct (c_pmra r).
  - intros (D1 & D2). destruct (c_pmra r) as [ma|], (c_pmdec r) as [md|]; auto. right. cbv zeta. rewrite Rminus_diag_eq by reflexivity. rewrite !Rmult_0_r, Rplus_0_r.
    replace (if Rlt_dec (/ 1000000000000) (Rabs (cos (c_dec r))) then 0 / cos (c_dec r) else 0) with 0 by (destruct (Rlt_dec _ _); unfold Rdiv; ring). rewrite Rplus_0_r.
    destruct (Rlt_dec (PI / 2) (c_dec r)); [lra|]. now destruct (Rlt_dec (c_dec r) (- (PI / 2))); [lra|].
Qed.
(** at a pole the motion in right ascension is dropped *)
Theorem C157_pole r t ma md : c_pmra r = Some ma -> c_pmdec r = Some md -> c_dec r = PI / 2 -> 0 <= md * (PI / 180 / 3600000) * (t - c_epoch r) ->
  direction (fst (propagate_to r t)) (snd (propagate_to r t)) = direction (c_ra r) (PI / 2 + md * (PI / 180 / 3600000) * (t - c_epoch r)) /\
  forall ma', propagate_to (CRecord (c_id r) (c_ra r) (c_dec r) (c_epoch r) (Some ma') (Some md) (c_gmag r) (c_quality r)) t = propagate_to r t.
Proof.
  intros A D P M. unfold propagate_to. cbn [c_pmra c_pmdec c_dec c_ra c_epoch]. rewrite A, D, P, cos_PI2. cbv zeta. rewrite Rabs_R0. fold mas_to_rad in *.
  destruct (Rlt_dec (/ 1000000000000) 0) as [Z|_]; [exfalso; lra|]. split; [|reflexivity]. rewrite Rplus_0_r. set (m := md * mas_to_rad * (t - c_epoch r)) in *. pose proof PI_RGT_0.
  destruct (Rlt_dec (PI / 2) (PI / 2 + m)); [|destruct (Rlt_dec (PI / 2 + m) (- (PI / 2))); [lra|]]; cbn [fst snd]; unfold direction.
  - rewrite cos_rem_e, sin_rem_e, neg_cos, neg_sin, cos_rem_e, sin_rem_e, sin_PI_x. replace (cos (PI - (PI / 2 + m))) with (- cos (PI / 2 + m)) by (rewrite (cos_minus PI), cos_PI, sin_PI; ring). f_equal; f_equal; ring.
  - now rewrite cos_rem_e, sin_rem_e.
Qed.
(** the motion is not undone by going back, even away from the poles: the cosine is taken at the start of each leg *)
Theorem C157_back_refuted : exists r t ma md, c_pmra r = Some ma /\ c_pmdec r = Some md /\ on_sphere (c_dec r) /\
  let (ra, dec) := propagate_to r t in on_sphere dec /\ fst (propagate_to (CRecord (c_id r) ra dec t (Some ma) (Some md) (c_gmag r) (c_quality r)) (c_epoch r)) <> c_ra r.
Proof.
  pose proof PI_RGT_0 as PP. assert (NZ : mas_to_rad <> 0) by (unfold mas_to_rad; intros E; assert (0 < PI / 180 / 3600000) by (repeat apply Rmult_lt_0_compat; try lra; apply Rinv_0_lt_compat; lra); lra).
  exists (CRecord 1 0 0 0 (Some (/ mas_to_rad)) (Some (PI / 3 / mas_to_rad)) None true), 1, (/ mas_to_rad), (PI / 3 / mas_to_rad). cbn [c_pmra c_pmdec c_dec c_ra c_epoch c_id c_gmag c_quality].
  split; [reflexivity|]. split; [reflexivity|]. split; [unfold on_sphere; lra|].
  assert (H1 : 1 < 2 * PI) by (pose proof PI2_3_2; unfold PI2 in *; lra).
  assert (E : propagate_to (CRecord 1 0 0 0 (Some (/ mas_to_rad)) (Some (PI / 3 / mas_to_rad)) None true) 1 = (1, PI / 3)).
  { unfold propagate_to. cbn [c_pmra c_pmdec c_dec c_ra c_epoch]. cbv zeta. rewrite cos_0, Rabs_R1. destruct (Rlt_dec (/ 1000000000000) 1) as [_|N]; [|exfalso; lra].
    replace (0 + / mas_to_rad * mas_to_rad * (1 - 0) / 1) with 1 by (field; exact NZ). replace (0 + PI / 3 / mas_to_rad * mas_to_rad * (1 - 0)) with (PI / 3) by (field; exact NZ).
    destruct (Rlt_dec (PI / 2) (PI / 3)); [lra|]. destruct (Rlt_dec (PI / 3) (- (PI / 2))); [lra|]. f_equal. apply rem_e_small; lra. }
  rewrite E. split; [unfold on_sphere; lra|].
  unfold propagate_to. cbn [c_pmra c_pmdec c_dec c_ra c_epoch]. cbv zeta. rewrite cos_PI3. rewrite (Rabs_right (1 / 2)) by lra. destruct (Rlt_dec (/ 1000000000000) (1 / 2)) as [_|N]; [|exfalso; lra].
  replace (1 + / mas_to_rad * mas_to_rad * (0 - 1) / (1 / 2)) with (-1) by (field; exact NZ). replace (PI / 3 + PI / 3 / mas_to_rad * mas_to_rad * (0 - 1)) with 0 by (field; exact NZ).
  destruct (Rlt_dec (PI / 2) 0); [lra|]. destruct (Rlt_dec 0 (- (PI / 2))); [lra|]. cbn [fst].
  rewrite (rem_e_unique (-1) (2 * PI) (2 * PI - 1) (-1)); try lra. 
Qed.
Example C157_case : propagate_to (CRecord 1 (PI / 2) (PI / 3) 2000 (Some 0) (Some (PI / 3 / mas_to_rad)) None true) 2001 = (3 * PI / 2, PI / 3).
Proof.
  pose proof PI_RGT_0 as PP. assert (NZ : mas_to_rad <> 0) by (unfold mas_to_rad; intros E; assert (0 < PI / 180 / 3600000) by (repeat apply Rmult_lt_0_compat; try lra; apply Rinv_0_lt_compat; lra); lra).
  unfold propagate_to. cbn [c_pmra c_pmdec c_dec c_ra c_epoch]. cbv zeta. rewrite cos_PI3, (Rabs_right (1 / 2)) by lra. destruct (Rlt_dec (/ 1000000000000) (1 / 2)) as [_|N]; [|exfalso; lra].
  replace (PI / 3 + PI / 3 / mas_to_rad * mas_to_rad * (2001 - 2000)) with (2 * PI / 3) by (field; exact NZ). replace (PI / 2 + 0 * mas_to_rad * (2001 - 2000) / (1 / 2)) with (PI / 2) by field.
  destruct (Rlt_dec (PI / 2) (2 * PI / 3)) as [_|N]; [|exfalso; lra]. rewrite (rem_e_small (PI / 2)) by lra. rewrite rem_e_small by lra. f_equal; field.
Qed.
Print Assumptions C156_finds.
Print Assumptions C156_returned.
Print Assumptions C156_chunked.
Print Assumptions C157_direction.
Print Assumptions C157_range.
