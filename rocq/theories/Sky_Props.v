(** C44, C45, C46: product names, sky grids, covariance checks. *)
From Coq Require Import Ascii String List NArith ZArith QArith Qabs Qround Bool Lqa Lia Sorting.Sorted.
From Coq Require Import ZifyBool ZifyNat ZifyN.
From Verif Require Import Base Text DecFloat Qb Fnum Sky_Model Sky_Proofs.
Import ListNotations.
Local Open Scope Q_scope.

(** ** C44 *)
Theorem C44_token_length s : length (sample_rate_to_lfn s) = 3%nat <-> (s < 360000)%N.
Proof. exact (token_length s). Qed.
(** A token denotes the rate cut down to whole units, so exactly the rate when it is whole. *)
Theorem C44_token_value s : token_seconds (sample_rate_to_lfn s) = Some (s - s mod unit_of s)%N.
Proof. exact (token_value s). Qed.
Theorem C44_token_exact s : token_seconds (sample_rate_to_lfn s) = Some s <-> (s mod unit_of s = 0)%N.
Proof. rewrite token_value. assert (U : (unit_of s <> 0)%N) by (unfold unit_of; destruct (s <? 60)%N, (s <? 3600)%N; discriminate). pose proof (N.mod_le s _ U). split; [intros E; injection E as E; lia|intros ->; f_equal; lia]. Qed.
Theorem C44_lossy_refuted : ~ (forall a b, (a < 360000)%N -> (b < 360000)%N -> sample_rate_to_lfn a = sample_rate_to_lfn b -> a = b).
Proof. intros H. specialize (H 60%N 90%N eq_refl eq_refl eq_refl). discriminate. Qed.
Theorem C44_short_injective ac a b : (0 <= a)%Z -> (0 <= b)%Z -> sp3_short_filename ac a = sp3_short_filename ac b -> a = b.
Proof. exact (short_injective ac a b). Qed.
Theorem C44_short_length ac days : (0 <= days < 70000)%Z -> length (sp3_short_filename ac days) = (length ac + 9)%nat.
Proof. exact (short_length ac days). Qed.
(** Dates before the GPS epoch are not refused: the day before it yields a name with a sign inside. *)
Theorem C44_before_epoch_refuted : ~ (forall ac days, (-7 <= days < 70000)%Z -> length (sp3_short_filename ac days) = (length ac + 9)%nat).
Proof. intros H. specialize (H [] (-1)%Z ltac:(lia)). vm_compute in H. discriminate. Qed.
Theorem C44_long_injective sat y y' d d' t t' r r' v v' :
  (0 <= y < 10000)%Z -> (0 <= y' < 10000)%Z -> (d < 1000)%N -> (d' < 1000)%N -> (r < 360000)%N -> (r' < 360000)%N -> (r mod unit_of r = 0)%N -> (r' mod unit_of r' = 0)%N ->
  sp3_filename sat y d t r v = sp3_filename sat y' d' t' r' v' -> y = y' /\ d = d' /\ t = t' /\ r = r' /\ v = v'.
Proof. exact (long_injective sat y y' d d' t t' r r' v v'). Qed.
(** The fields of an IGS long name stand in their places and can be read back. *)
Theorem C44_igs_fields ac ver camp y d h m span sample ft ext : (0 <= y < 10000)%Z -> (d < 1000)%N -> (h < 100)%N -> (m < 100)%N ->
  exists date, igs_lfn ac ver camp y d h m span sample ft ext = ac ++ ver ++ camp ++ lit "_" ++ date ++ lit "_" ++ span ++ lit "_" ++ sample ++ lit "_" ++ ft ++ lit "." ++ ext /\
    length date = 11%nat /\ Z.of_N (dval (firstn 4 date)) = y /\ dval (firstn 3 (skipn 4 date)) = d /\ dval (firstn 2 (skipn 7 date)) = h /\ dval (skipn 9 date) = m.
Proof.
  intros Hy Hd Hh Hm. exists (pad0z 4 y ++ pad0 3 d ++ pad0 2 h ++ pad0 2 m). split; [unfold igs_lfn; now rewrite <- !app_assoc|].
  assert (L : forall w n, (1 <= w)%nat -> (n < 10 ^ N.of_nat w)%N -> length (pad0 w n) = w) by (intros w n W N; rewrite pad0_length; pose proof (ndig_le n w ltac:(lia) ltac:(lia)); lia).
  unfold pad0z. destruct (Z.ltb_spec y 0); [lia|]. pose proof (L 4%nat (Z.abs_N y) ltac:(lia) ltac:(lia)) as L1. pose proof (L 3%nat d ltac:(lia) ltac:(lia)) as L2. pose proof (L 2%nat h ltac:(lia) ltac:(lia)) as L3. pose proof (L 2%nat m ltac:(lia) ltac:(lia)) as L4.
  assert (F : forall (a b : str) k, length a = k -> firstn k (a ++ b) = a /\ skipn k (a ++ b) = b) by (intros a b k <-; split; [rewrite firstn_app, firstn_all, Nat.sub_diag; cbn; apply app_nil_r|rewrite skipn_app, skipn_all, Nat.sub_diag; reflexivity]).
  split; [rewrite !app_length; lia|]. rewrite (proj1 (F _ _ 4%nat L1)), (proj2 (F _ _ 4%nat L1)), (proj1 (F _ _ 3%nat L2)).
  rewrite (app_assoc (pad0 4 _)). rewrite (proj2 (F (pad0 4 (Z.abs_N y) ++ pad0 3 d) _ 7%nat ltac:(rewrite app_length; lia))), (proj1 (F _ _ 2%nat L3)).
  rewrite app_assoc. rewrite (proj2 (F ((pad0 4 (Z.abs_N y) ++ pad0 3 d) ++ pad0 2 h) _ 9%nat ltac:(rewrite !app_length; lia))). rewrite !dval_pad0. repeat split; lia.
Qed.
Example C44_case : sample_rate_to_lfn 900 = lit "15M" /\ sp3_short_filename (lit "igs") 15000 = lit "igs21426.sp3" /\
  sp3_filename (lit "SEN") 2024 7 PositionVelocity 10 VD = lit "SENdOPSFIN_20240070000_01D_10S_OBV.SP3" /\ sp3_short_filename (lit "igs") (-1) = lit "igs0000-1.sp3".
Proof. repeat split; vm_compute; reflexivity. Qed.

(** ** C45 *)
Theorem C45_length cosd rad two_pi g : length (iter_cells cosd rad two_pi g) = len cosd rad two_pi g.
Proof. exact (grid_length cosd rad two_pi g). Qed.
Theorem C45_sorted cosd rad two_pi g : StronglySorted cell_lt (iter_cells cosd rad two_pi g).
Proof. exact (grid_sorted cosd rad two_pi g). Qed.
(** Whether or not the step divides the range. *)
Theorem C45_altitudes cosd rad two_pi g c : In c (iter_cells cosd rad two_pi g) -> alt_min g < c_alt c /\ c_alt c <= alt_max g.
Proof. exact (grid_range cosd rad two_pi g c). Qed.
Theorem C45_azimuths cosd rad two_pi g c : In c (iter_cells cosd rad two_pi g) -> 0 < c_az c /\ c_az c <= 360.
Proof. exact (grid_azimuth cosd rad two_pi g c). Qed.
Theorem C45_rows g k : (0 < k)%nat -> 0 < alt_step g -> alt_max g == alt_min g + inject_Z (Z.of_nat k) * alt_step g -> n_alt g = k.
Proof. exact (rows_exact g k). Qed.
Theorem C45_row_area cosd rad two_pi g i : equal_solid_angle g = true -> total (map c_solid (row cosd rad two_pi g i)) == cosd (alt_centre g i) * (alt_step g * rad) * (360 * rad).
Proof. exact (row_total cosd rad two_pi g i). Qed.
Example C45_case : let g := with_alt_range (with_steps 15 90) 10 47 in
  map (fun c => (Qred (c_alt c), Qred (c_az c))) (iter_cells (fun _ => 1 # 2) (1 # 57) (44 # 7) g) = [(35 # 2, 45); (35 # 2, 135); (35 # 2, 225); (35 # 2, 315); (65 # 2, 45); (65 # 2, 135); (65 # 2, 225); (65 # 2, 315)] /\
  len (fun _ => 1 # 2) (1 # 57) (44 # 7) (equal_area 30 40) = 12%nat.
Proof. split; vm_compute; reflexivity. Qed.

(** ** C46 *)
Lemma flt_fin a b : flt (Fin a) (Fin b) = true <-> a < b.
Proof. unfold flt. cbn. destruct (Qle_bool b a) eqn:E; [apply Qle_bool_iff in E; split; [discriminate|lra]|]. split; [intros _|auto]. destruct (Qlt_le_dec a b) as [|H]; [assumption|]. apply Qle_bool_iff in H. congruence. Qed.
Definition at_ (n : nat) (d : list Q) (i j : nat) : Q := nth (i * n + j) d 0.
Lemma entry_fin n d i j : length d = (n * n)%nat -> (i < n)%nat -> (j < n)%nat -> entry n (map Fin d) i j = Fin (at_ n d i j).
Proof. intros L I J. unfold entry, at_. rewrite (nth_indep _ NaN (Fin 0)) by (rewrite map_length; nia). apply map_nth. Qed.
Lemma apart_fin n d t i j : length d = (n * n)%nat -> (i < n)%nat -> (j < n)%nat -> (apart_by n (map Fin d) (Fin t) i j <-> t < Qabs (at_ n d i j - at_ n d j i)).
Proof.
  intros L I J. unfold apart_by. rewrite !entry_fin by assumption. cbn [fsub fabs]. rewrite flt_fin. set (x := at_ n d i j - at_ n d j i). clearbody x.
  assert (A : (if qltb x 0 then - x else x) == Qabs x) by (destruct (qltb_r x 0); [rewrite Qabs_neg by lra; reflexivity|rewrite Qabs_pos by lra; reflexivity]).
  now rewrite A.
Qed.
(** Finite matrices: accepted exactly when square of the stated size and symmetric within tolerance. *)
Theorem C46_symmetric n d t : 0 <= t -> validate_symmetric n (map Fin d) (Fin t) = Ok tt <-> length d = (n * n)%nat /\ forall i j, (i < n)%nat -> (j < n)%nat -> Qabs (at_ n d i j - at_ n d j i) <= t.
Proof.
  intros T. pose proof (symmetric_spec n (map Fin d) (Fin t)) as S. rewrite map_length in S. split.
  - intros E. rewrite E in S. destruct S as [L S]. split; [assumption|]. intros i j I J.
    assert (W : forall a b, (a < n)%nat -> (b < n)%nat -> (a < b)%nat -> Qabs (at_ n d a b - at_ n d b a) <= t) by (intros a b A B AB; specialize (S a b ltac:(lia)); rewrite apart_fin in S by assumption; lra).
    destruct (lt_eq_lt_dec i j) as [[H | -> ] | H]; [auto| |rewrite Qabs_Qminus; auto]. assert (Z : at_ n d j j - at_ n d j j == 0) by ring. rewrite Z. exact T.
  - intros [L H]. destruct (validate_symmetric n (map Fin d) (Fin t)) as [[]|e|]; [reflexivity| |contradiction]. destruct e as [a b|i j|i]; [tauto| |contradiction]. destruct S as (_ & I & A & _). apply apart_fin in A; [|assumption|lia|lia]. specialize (H i j ltac:(lia) ltac:(lia)). lra.
Qed.
Theorem C46_diagonal n d : validate_diagonal_nonneg n (map Fin d) = Ok tt <-> length d = (n * n)%nat /\ forall i, (i < n)%nat -> 0 <= at_ n d i i.
Proof.
  pose proof (diagonal_spec n (map Fin d)) as S. rewrite map_length in S.
  assert (F : length d = (n * n)%nat -> forall i, (i < n)%nat -> (flt (entry n (map Fin d) i i) (Fin 0) = false <-> 0 <= at_ n d i i)) by (intros L i I; rewrite entry_fin by assumption; pose proof (flt_fin (at_ n d i i) 0) as B; destruct (flt (Fin (at_ n d i i)) (Fin 0)); [split; [discriminate|]; intros; assert (at_ n d i i < 0) by (now apply B); lra|split; [intros _|auto]; destruct (Qlt_le_dec (at_ n d i i) 0) as [H|H]; [apply B in H; discriminate|assumption]]).
  split.
  - intros E. rewrite E in S. destruct S as [L S]. split; [assumption|]. intros i I. apply F; auto.
  - intros [L H]. destruct (validate_diagonal_nonneg n (map Fin d)) as [[]|e|]; [reflexivity| |contradiction]. destruct e as [a b|i j|i]; [tauto|contradiction|]. destruct S as (_ & I & A & _). pose proof (proj2 (F L i I) (H i I)). congruence.
Qed.
(** Errors name the first offender, by rows, for any floating-point data. *)
Theorem C46_symmetric_error n data tol i j : validate_symmetric n data tol = Err (NotSymmetric i j) ->
  (i < j < n)%nat /\ apart_by n data tol i j /\ forall a b, (a < b < n)%nat -> (a < i \/ (a = i /\ b < j))%nat -> ~ apart_by n data tol a b.
Proof. intros E. pose proof (symmetric_spec n data tol) as S. rewrite E in S. destruct S as (_ & A & B & C). split; [assumption|]. split; [assumption|]. intros a b L H. apply C; [assumption|exact H]. Qed.
Theorem C46_diagonal_error n data i : validate_diagonal_nonneg n data = Err (NotPsdDiagonal i) ->
  (i < n)%nat /\ flt (entry n data i i) (Fin 0) = true /\ forall k, (k < i)%nat -> flt (entry n data k k) (Fin 0) = false.
Proof. intros E. pose proof (diagonal_spec n data) as S. rewrite E in S. tauto. Qed.
Theorem C46_dimension n data tol a b : (validate_symmetric n data tol = Err (Dimension a b) <-> length data <> (n * n)%nat /\ a = n /\ b = length data) /\ (validate_diagonal_nonneg n data = Err (Dimension a b) <-> length data <> (n * n)%nat /\ a = n /\ b = length data).
Proof.
  unfold validate_symmetric, validate_diagonal_nonneg, validate_dim. destruct (Nat.eqb_spec (length data) (n * n)) as [D|D].
  - split; split; try tauto; [destruct (first_bad _ _) as [[]|]; discriminate|destruct (first_bad _ _); discriminate].
  - split; split; (intros E; injection E as <- <-; auto) || (intros (_ & -> & ->); reflexivity).
Qed.
(** Data that are not numbers pass both checks. *)
Theorem C46_nan_refuted : ~ (forall n data tol, validate_symmetric n data (Fin tol) = Ok tt -> validate_diagonal_nonneg n data = Ok tt -> forall i j, (i < n)%nat -> (j < n)%nat -> is_nan (entry n data i j) = false).
Proof. intros H. specialize (H 1%nat [NaN] 0 eq_refl eq_refl 0%nat 0%nat ltac:(lia) ltac:(lia)). discriminate. Qed.
(** Passing both checks does not make a covariance: this one gives a negative variance to x - y. *)
Theorem C46_psd_refuted : ~ (forall a b c d, validate_symmetric 2 (map Fin [a; b; c; d]) (Fin 0) = Ok tt -> validate_diagonal_nonneg 2 (map Fin [a; b; c; d]) = Ok tt -> forall x y, 0 <= a * x * x + (b + c) * x * y + d * y * y).
Proof. intros H. specialize (H 1 2 2 1 eq_refl eq_refl 1 (-1)). vm_compute in H. now apply H. Qed.
Example C46_case : validate_symmetric 2 (map Fin [1; 1 # 2; 3 # 4; 2]) (Fin (1 # 4)) = Ok tt /\ validate_symmetric 2 (map Fin [1; 1 # 2; 3 # 4; 2]) (Fin (1 # 5)) = Err (NotSymmetric 0 1) /\ validate_diagonal_nonneg 2 (map Fin [1; 0; 0; -1]) = Err (NotPsdDiagonal 1).
Proof. repeat split; vm_compute; reflexivity. Qed.

Print Assumptions C44_token_length.
Print Assumptions C44_token_value.
Print Assumptions C44_short_injective.
Print Assumptions C44_long_injective.
Print Assumptions C45_length.
Print Assumptions C45_sorted.
Print Assumptions C45_altitudes.
Print Assumptions C45_azimuths.
Print Assumptions C45_row_area.
Print Assumptions C46_symmetric.
Print Assumptions C46_diagonal.
Print Assumptions C46_symmetric_error.
Print Assumptions C44_igs_fields.
