(** Proofs about sky grids, covariance checks and product names. *)
From Coq Require Import Ascii String List NArith ZArith QArith Qround Qfield Bool Lqa Lia Sorting.Sorted.
From Coq Require Import ZifyBool ZifyNat ZifyN.
From Verif Require Import Base Text DecFloat Qb Fnum Sky_Model Range_Proofs.
Import ListNotations.
Local Open Scope Q_scope.

Notation ofnat n := (inject_Z (Z.of_nat n)).
Lemma ofnat_le m n : (m <= n)%nat -> ofnat m <= ofnat n.
Proof. intros. rewrite <- Zle_Qle. lia. Qed.
Lemma ofnat_S n : ofnat (S n) == ofnat n + 1.
Proof. rewrite Nat2Z.inj_succ. unfold Z.succ. rewrite inject_Z_plus. reflexivity. Qed.
Lemma ofnat_nonneg n : 0 <= ofnat n.
Proof. change 0 with (inject_Z 0). rewrite <- Zle_Qle. lia. Qed.
(** Nearest count, ties up. *)
Lemma round_up_spec q : 0 <= q -> ofnat (round_up q) <= q + (1 # 2) /\ q + (1 # 2) < ofnat (round_up q) + 1.
Proof.
  intros H. unfold round_up. assert (F : (0 <= Qfloor (q + (1 # 2)))%Z). { change 0%Z with (Qfloor 0). apply Qfloor_resp_le. lra. } rewrite Z2Nat.id by assumption.
  split; [apply Qfloor_le|]. pose proof (Qlt_floor (q + (1 # 2))) as L. rewrite inject_Z_plus in L. exact L.
Qed.

(** ** Grid *)
Section Grid.
Variables (cosd : Q -> Q) (rad two_pi : Q).
Lemma flat_length {A B} (f : A -> list B) l : length (flat_map f l) = list_sum (map (fun x => length (f x)) l).
Proof. induction l as [|x l IH]; [reflexivity|]. cbn [flat_map map list_sum fold_right]. rewrite app_length, IH. reflexivity. Qed.
Theorem grid_length g : length (iter_cells cosd rad two_pi g) = len cosd rad two_pi g.
Proof.
  unfold iter_cells, len. rewrite flat_length. destruct (equal_solid_angle g) eqn:E.
  - f_equal. apply map_ext. intros i. unfold row. rewrite E, map_length, seq_length. unfold n_az_equal_area. cbv zeta. destruct (qleb_r (az_step g * rad) 0), (qltb_r 0 (az_step g * rad)); try reflexivity; lra.
  - assert (R : forall i, length (row cosd rad two_pi g i) = n_az_uniform g) by (intros i; unfold row; now rewrite E, map_length, seq_length).
    rewrite (map_ext _ (fun _ => n_az_uniform g)) by exact R. generalize 0%nat. induction (n_alt g) as [|n IH]; intros k; [reflexivity|]. cbn [seq map list_sum fold_right]. specialize (IH (S k)). unfold list_sum in IH. rewrite IH. lia.
Qed.
Theorem grid_empty g : iter_cells cosd rad two_pi g = [] <-> len cosd rad two_pi g = 0%nat.
Proof. rewrite <- grid_length. split; [intros ->; reflexivity|apply length_zero_iff_nil]. Qed.
Definition cell_lt (a b : cell) : Prop := c_alt a < c_alt b \/ (c_alt a == c_alt b /\ c_az a < c_az b).
Lemma row_alt g i c : In c (row cosd rad two_pi g i) -> c_alt c = alt_centre g i.
Proof. unfold row. cbv zeta. intros H. apply in_map_iff in H as (j & <- & _). reflexivity. Qed.
Lemma row_sorted g i : StronglySorted cell_lt (row cosd rad two_pi g i).
Proof.
  unfold row. cbv zeta. set (n := if equal_solid_angle g then Nat.max _ _ else _). set (st := if equal_solid_angle g then 360 / _ else az_step g).
  assert (P : (0 < n)%nat -> 0 < st).
  { unfold st, n. destruct (equal_solid_angle g).
    - intros _. set (m := Nat.max _ _). assert (1 <= m)%nat by (unfold m; lia). assert (1 <= ofnat m) by (change 1 with (ofnat 1); now apply ofnat_le). apply Qlt_shift_div_l; lra.
    - unfold n_az_uniform. destruct (qleb_r (az_step g) 0); lia || lra. }
  clearbody n st.
  destruct n as [|n]; [constructor|]. specialize (P ltac:(lia)). generalize 0%nat. induction (S n) as [|m IH]; intros k; [constructor|]. cbn [seq map]. constructor; [apply IH|].
  apply Forall_forall. intros c I. apply in_map_iff in I as (j & <- & Ij). apply in_seq in Ij. right. cbn. split; [reflexivity|]. assert (ofnat k + 1 <= ofnat j) by (rewrite <- ofnat_S; apply ofnat_le; lia). nra.
Qed.
Lemma centre_lt g i j : 0 < alt_step g -> (i < j)%nat -> alt_centre g i < alt_centre g j.
Proof. intros S L. unfold alt_centre. assert (ofnat i + 1 <= ofnat j) by (rewrite <- ofnat_S; apply ofnat_le; lia). nra. Qed.
Lemma n_alt_pos g : (0 < n_alt g)%nat -> 0 < alt_step g /\ alt_min g < alt_max g.
Proof. unfold n_alt. destruct (qleb_r (alt_max g) (alt_min g)); [cbn; lia|]. destruct (qleb_r (alt_step g) 0); [cbn; lia|]. intros _. lra. Qed.
Theorem grid_sorted g : StronglySorted cell_lt (iter_cells cosd rad two_pi g).
Proof.
  unfold iter_cells. destruct (n_alt g) as [|n] eqn:E; [constructor|]. destruct (n_alt_pos g ltac:(lia)) as [S _]. clear E. generalize 0%nat. induction (Datatypes.S n) as [|m IH]; intros k; [constructor|]. cbn [seq flat_map].
  apply sorted_app; [apply row_sorted|apply IH|]. intros x y Ix Iy. apply row_alt in Ix. apply in_flat_map in Iy as (j & Ij & Iy). apply row_alt in Iy. apply in_seq in Ij. left. rewrite Ix, Iy. apply centre_lt; [assumption|lia].
Qed.
(** Centres stay inside the altitude range whatever the step. *)
Theorem grid_range g c : In c (iter_cells cosd rad two_pi g) -> alt_min g < c_alt c /\ c_alt c <= alt_max g.
Proof.
  unfold iter_cells. intros I. apply in_flat_map in I as (i & Ii & I). apply in_seq in Ii. apply row_alt in I. rewrite I. destruct (n_alt_pos g ltac:(lia)) as [S W].
  unfold alt_centre. pose proof (ofnat_nonneg i). split; [nra|]. unfold n_alt in Ii. destruct (qleb_r (alt_max g) (alt_min g)); [lra|]. destruct (qleb_r (alt_step g) 0); [lra|]. cbn [orb] in Ii.
  set (q := (alt_max g - alt_min g) / alt_step g) in *. assert (Q0 : 0 <= q) by (unfold q; apply Qle_shift_div_l; lra). destruct (round_up_spec q Q0) as [R _].
  assert (ofnat i + 1 <= ofnat (round_up q)) by (rewrite <- ofnat_S; apply ofnat_le; lia). assert (E : q * alt_step g == alt_max g - alt_min g) by (unfold q; field; lra).
  assert ((ofnat i + (1 # 2)) * alt_step g <= q * alt_step g) by (apply Qmult_le_compat_r; lra). lra.
Qed.
Theorem grid_azimuth g c : In c (iter_cells cosd rad two_pi g) -> 0 < c_az c /\ c_az c <= 360.
Proof.
  unfold iter_cells. intros I. apply in_flat_map in I as (i & _ & I). unfold row in I. cbv zeta in I. apply in_map_iff in I as (j & <- & I). apply in_seq in I. cbn [c_az]. pose proof (ofnat_nonneg j). destruct (equal_solid_angle g).
  - set (m := Nat.max _ _) in *. assert (0 < ofnat m) by (apply Qlt_le_trans with (ofnat 1); [reflexivity|apply ofnat_le; lia]). assert (ofnat j + 1 <= ofnat m) by (rewrite <- ofnat_S; apply ofnat_le; lia).
    assert (E : (ofnat j + (1 # 2)) * (360 / ofnat m) == ((ofnat j + (1 # 2)) * 360) / ofnat m) by (field; lra). rewrite E. split; [apply Qlt_shift_div_l; lra|apply Qle_shift_div_r; lra].
  - unfold n_az_uniform in I. destruct (qleb_r (az_step g) 0); [lia|]. set (q := 360 / az_step g) in *. assert (Q0 : 0 <= q) by (unfold q; apply Qle_shift_div_l; lra). destruct (round_up_spec q Q0) as [R _].
    assert (ofnat j + 1 <= ofnat (round_up q)) by (rewrite <- ofnat_S; apply ofnat_le; lia). assert (E : q * az_step g == 360) by (unfold q; field; lra).
    split; [nra|]. assert ((ofnat j + (1 # 2)) * az_step g <= q * az_step g) by (apply Qmult_le_compat_r; lra). lra.
Qed.
(** Rows of equal solid angle close the circle. *)
Definition total (l : list Q) : Q := fold_right Qplus 0 l.
Lemma total_const {A} (f : A -> Q) v l : (forall x, f x == v) -> total (map f l) == ofnat (length l) * v.
Proof. intros H. induction l as [|x l IH]; [cbn; ring|]. cbn [map total fold_right length]. fold (total (map f l)). rewrite IH, ofnat_S, H. ring. Qed.
Theorem row_total g i : equal_solid_angle g = true -> total (map c_solid (row cosd rad two_pi g i)) == cosd (alt_centre g i) * (alt_step g * rad) * (360 * rad).
Proof.
  intros E. unfold row. cbv zeta. rewrite E, map_map. cbn [c_solid]. set (m := Nat.max _ _). rewrite (total_const _ (cosd (alt_centre g i) * (alt_step g * rad) * (360 / ofnat m * rad))) by reflexivity. rewrite seq_length.
  assert (0 < ofnat m) by (apply Qlt_le_trans with (ofnat 1); [reflexivity|apply ofnat_le; unfold m; lia]). field. lra.
Qed.
End Grid.
(** A step that divides the range gives exactly that many rows. *)
Theorem rows_exact g k : (0 < k)%nat -> 0 < alt_step g -> alt_max g == alt_min g + ofnat k * alt_step g -> n_alt g = k.
Proof.
  intros K S E. assert (1 <= ofnat k) by (change 1 with (ofnat 1); apply ofnat_le; lia). unfold n_alt. destruct (qleb_r (alt_max g) (alt_min g)); [nra|]. destruct (qleb_r (alt_step g) 0); [lra|]. cbn [orb].
  assert (Q : (alt_max g - alt_min g) / alt_step g == ofnat k) by (rewrite E; field; lra). unfold round_up. rewrite Q.
  assert (F : Qfloor (ofnat k + (1 # 2)) = Z.of_nat k). { pose proof (Qfloor_le (ofnat k + (1 # 2))) as A. pose proof (Qlt_floor (ofnat k + (1 # 2))) as B. set (z := Qfloor _) in *.
    assert (inject_Z z < inject_Z (Z.of_nat k + 1)) by (rewrite inject_Z_plus; change (inject_Z 1) with 1; lra). assert (inject_Z (Z.of_nat k) < inject_Z (z + 1)) by lra. rewrite <- Zlt_Qlt in *. lia. }
  rewrite F. apply Nat2Z.id.
Qed.

(** ** Covariances *)
Section Cov.
Variables (n : nat) (data : list fnum).
Lemma first_bad_none {A} (bad : A -> bool) l : first_bad bad l = None <-> forall x, In x l -> bad x = false.
Proof.
  induction l as [|x l IH]; cbn [first_bad]; [split; [intros _ ? []|reflexivity]|]. destruct (bad x) eqn:B; [split; [discriminate|intros H; rewrite (H x (or_introl eq_refl)) in B; discriminate]|].
  rewrite IH. split; [intros H y [<-|I]; auto|intros H y I; apply H; now right].
Qed.
Lemma first_bad_some {A} (bad : A -> bool) l x : first_bad bad l = Some x -> In x l /\ bad x = true.
Proof. induction l as [|y l IH]; cbn [first_bad]; [discriminate|]. destruct (bad y) eqn:B; [intros E; injection E as <-; split; [now left|assumption]|]. intros E. destruct (IH E). split; [now right|assumption]. Qed.
Lemma pairs_in i j : In (i, j) (pairs n) <-> (i < j < n)%nat.
Proof.
  unfold pairs. rewrite in_flat_map. split.
  - intros (x & Ix & I). apply in_map_iff in I as (y & E & Iy). injection E as -> ->. apply in_seq in Ix, Iy. lia.
  - intros H. exists i. split; [apply in_seq; lia|]. apply in_map_iff. exists j. split; [reflexivity|]. apply in_seq. lia.
Qed.
Lemma first_bad_first {A} (bad : A -> bool) l x : first_bad bad l = Some x -> exists l1 l2, l = l1 ++ x :: l2 /\ forall y, In y l1 -> bad y = false.
Proof.
  induction l as [|y l IH]; cbn [first_bad]; [discriminate|]. destruct (bad y) eqn:B; [intros E; injection E as <-; exists [], l; split; [reflexivity|intros ? []]|].
  intros E. destruct (IH E) as (l1 & l2 & -> & F). exists (y :: l1), l2. split; [reflexivity|]. intros z [<-|I]; auto.
Qed.
Definition earlier (p q : nat * nat) : Prop := (fst p < fst q \/ (fst p = fst q /\ snd p < snd q))%nat.
Lemma seq_sorted k m : StronglySorted lt (seq k m).
Proof. revert k. induction m as [|m IH]; intros k; constructor; [apply IH|]. apply Forall_forall. intros x I. apply in_seq in I. lia. Qed.
Lemma pairs_sorted : StronglySorted earlier (pairs n).
Proof.
  unfold pairs. generalize 0%nat at 1. generalize n at 2. intros m. induction m as [|m IH]; intros k; [constructor|]. cbn [seq flat_map]. apply sorted_app; [|apply IH|].
  - pose proof (seq_sorted (S k) (n - S k)) as S. induction S as [|a l S I F]; [constructor|]. cbn [map]. constructor; [exact I|]. apply Forall_forall. intros p J. apply in_map_iff in J as (b & <- & J). rewrite Forall_forall in F. right. cbn. auto.
  - intros x y Ix Iy. apply in_map_iff in Ix as (j & <- & _). apply in_flat_map in Iy as (i & Ii & Iy). apply in_map_iff in Iy as (j' & <- & _). apply in_seq in Ii. left. cbn. lia.
Qed.
Definition apart_by (tol : fnum) (i j : nat) : Prop := flt tol (fabs (fsub (entry n data i j) (entry n data j i))) = true.
Theorem symmetric_spec tol : match validate_symmetric n data tol with
  | Ok _ => length data = (n * n)%nat /\ forall i j, (i < j < n)%nat -> ~ apart_by tol i j
  | Err (Dimension a b) => length data <> (n * n)%nat /\ a = n /\ b = length data
  | Err (NotSymmetric i j) => length data = (n * n)%nat /\ (i < j < n)%nat /\ apart_by tol i j /\
      forall a b, (a < b < n)%nat -> earlier (a, b) (i, j) -> ~ apart_by tol a b
  | _ => False
  end.
Proof.
  unfold validate_symmetric, validate_dim. destruct (Nat.eqb_spec (length data) (n * n)) as [D|D]; [|auto]. set (bad := fun '(i, j) => _). destruct (first_bad bad (pairs n)) as [[i j]|] eqn:F.
  - pose proof F as F0. apply first_bad_some in F as [I B]. apply pairs_in in I. split; [assumption|]. split; [assumption|]. split; [exact B|].
    intros a b L Ea Ab. apply first_bad_first in F0 as (l1 & l2 & P & F). pose proof (proj2 (pairs_in a b) L) as Iab. rewrite P in Iab. apply in_app_iff in Iab as [Iab|[Iab|Iab]].
    + specialize (F _ Iab). unfold apart_by in Ab. cbn in F. congruence.
    + injection Iab as -> ->. unfold earlier in Ea. cbn in Ea. lia.
    + pose proof pairs_sorted as S. rewrite P in S. clear - S Iab Ea. induction l1 as [|y l1 IH]; inversion S; subst; [|auto]. match goal with H : Forall _ l2 |- _ => rewrite Forall_forall in H; specialize (H _ Iab) end. unfold earlier in *. cbn in *. lia.
  - split; [assumption|]. intros i j L B. rewrite first_bad_none in F. specialize (F (i, j) (proj2 (pairs_in i j) L)). unfold apart_by in B. cbn in F. congruence.
Qed.
Theorem diagonal_spec : match validate_diagonal_nonneg n data with
  | Ok _ => length data = (n * n)%nat /\ forall i, (i < n)%nat -> flt (entry n data i i) (Fin 0) = false
  | Err (Dimension a b) => length data <> (n * n)%nat /\ a = n /\ b = length data
  | Err (NotPsdDiagonal i) => length data = (n * n)%nat /\ (i < n)%nat /\ flt (entry n data i i) (Fin 0) = true /\ forall k, (k < i)%nat -> flt (entry n data k k) (Fin 0) = false
  | _ => False
  end.
Proof.
  unfold validate_diagonal_nonneg, validate_dim. destruct (Nat.eqb_spec (length data) (n * n)) as [D|D]; [|auto]. destruct (first_bad _ (seq 0 n)) as [i|] eqn:F.
  - assert (G : forall k m x, first_bad (fun i => flt (entry n data i i) (Fin 0)) (seq k m) = Some x -> (k <= x < k + m)%nat /\ flt (entry n data x x) (Fin 0) = true /\ forall y, (k <= y < x)%nat -> flt (entry n data y y) (Fin 0) = false).
    { clear. intros k m. revert k. induction m as [|m IH]; intros k x E; [discriminate|]. cbn [seq first_bad] in E. destruct (flt (entry n data k k) (Fin 0)) eqn:B; [injection E as <-; split; [lia|]; split; [assumption|]; intros; lia|].
      apply IH in E as (A1 & A2 & A3). split; [lia|]. split; [assumption|]. intros y Y. destruct (Nat.eq_dec y k) as [->|]; [assumption|]. apply A3. lia. }
    apply G in F as (A1 & A2 & A3). split; [assumption|]. split; [lia|]. split; [assumption|]. intros k K. apply A3. lia.
  - split; [assumption|]. intros i L. rewrite first_bad_none in F. apply F. apply in_seq. lia.
Qed.
End Cov.

(** ** Names *)
Local Open Scope N_scope.
(** Seconds denoted by a sample-rate token. *)
Definition token_seconds (s : str) : option N :=
  match rev s with
  | u :: d => let v := dval (rev d) in if u =? 83 then Some v else if u =? 77 then Some (60 * v) else if u =? 72 then Some (3600 * v) else None
  | [] => None
  end.
Definition unit_of (s : N) : N := if s <? 60 then 1 else if s <? 3600 then 60 else 3600.
Theorem token_value s : token_seconds (sample_rate_to_lfn s) = Some (s - s mod unit_of s).
Proof.
  unfold sample_rate_to_lfn, token_seconds, unit_of. destruct (s <? 60), (s <? 3600); rewrite rev_app_distr; cbn [lit list_ascii_of_string map rev app]; cbn [N_of_ascii N_of_digits]; rewrite rev_involutive, dval_pad0;
  (match goal with |- (if ?a =? ?b then _ else _) = _ => let v := eval vm_compute in (a =? b) in change (a =? b) with v end; cbv iota);
  try (match goal with |- (if ?a =? ?b then _ else _) = _ => let v := eval vm_compute in (a =? b) in change (a =? b) with v end; cbv iota);
  try (match goal with |- (if ?a =? ?b then _ else _) = _ => let v := eval vm_compute in (a =? b) in change (a =? b) with v end; cbv iota); f_equal; lia.
Qed.
Theorem token_length s : length (sample_rate_to_lfn s) = 3%nat <-> s < 360000.
Proof.
  unfold sample_rate_to_lfn. assert (L : forall m u, length u = 1%nat -> (length (pad0 2 m ++ u) = 3%nat <-> m < 100)).
  { intros m u Hu. rewrite app_length, pad0_length, Hu. split; intros H.
    - destruct (N.lt_ge_cases m 100) as [|G]; [assumption|]. pose proof (ndig_ge m 2 G). lia.
    - pose proof (ndig_le m 2 ltac:(lia) H). lia. }
  destruct (N.ltb_spec s 60); [rewrite L by reflexivity; lia|]. destruct (N.ltb_spec s 3600); rewrite L by reflexivity; lia.
Qed.
Lemma pad0_inj w a b : pad0 w a = pad0 w b -> a = b.
Proof. intros E. apply (f_equal dval) in E. now rewrite !dval_pad0 in E. Qed.
Theorem short_injective ac a b : (0 <= a)%Z -> (0 <= b)%Z -> sp3_short_filename ac a = sp3_short_filename ac b -> a = b.
Proof.
  intros A B E. unfold sp3_short_filename in E. apply app_inv_head in E. rewrite !app_assoc in E. apply app_inv_tail in E. unfold pad0z in E.
  pose proof (Z.quot_div_nonneg a 7 A ltac:(lia)). pose proof (Z.quot_div_nonneg b 7 B ltac:(lia)). pose proof (Z.rem_mod_nonneg a 7 A ltac:(lia)). pose proof (Z.rem_mod_nonneg b 7 B ltac:(lia)).
  destruct (Z.ltb_spec (Z.quot a 7) 0); [lia|]. destruct (Z.ltb_spec (Z.quot b 7) 0); [lia|]. destruct (Z.ltb_spec (Z.rem a 7) 0); [lia|]. destruct (Z.ltb_spec (Z.rem b 7) 0); [lia|].
  assert (P : forall m, m < 10 -> exists c, pad0 1 m = [c]). { intros m L. rewrite pad0_fit by (auto; lia). exists (48 + m mod 10). reflexivity. }
  destruct (P (Z.abs_N (Z.rem a 7)) ltac:(lia)) as (c & Pc). destruct (P (Z.abs_N (Z.rem b 7)) ltac:(lia)) as (d & Pd). rewrite Pc, Pd in E. apply app_inj_tail in E as [E1 E2]. subst d. rewrite <- Pd in Pc.
  apply pad0_inj in E1, Pc. lia.
Qed.
Theorem short_length ac days : (0 <= days < 70000)%Z -> length (sp3_short_filename ac days) = (length ac + 9)%nat.
Proof.
  intros H. unfold sp3_short_filename, pad0z. pose proof (Z.quot_div_nonneg days 7 ltac:(lia) ltac:(lia)). pose proof (Z.rem_mod_nonneg days 7 ltac:(lia) ltac:(lia)).
  destruct (Z.ltb_spec (Z.quot days 7) 0); [lia|]. destruct (Z.ltb_spec (Z.rem days 7) 0); [lia|].
  rewrite !app_length, !pad0_length. pose proof (ndig_le (Z.abs_N (Z.quot days 7)) 4 ltac:(lia) ltac:(lia)). pose proof (ndig_le (Z.abs_N (Z.rem days 7)) 1 ltac:(lia) ltac:(lia)). pose proof (ndig_spec (Z.abs_N (Z.rem days 7))). cbn [length lit list_ascii_of_string map]. lia.
Qed.
Lemma app_split {A} (a b c d : list A) : length a = length c -> a ++ b = c ++ d -> a = c /\ b = d.
Proof. revert c. induction a as [|x a IH]; intros [|y c] L E; try discriminate; [auto|]. injection E as -> E. injection L as L. destruct (IH c L E) as [-> ->]. auto. Qed.
Theorem long_injective sat y y' d d' t t' r r' v v' : (0 <= y < 10000)%Z -> (0 <= y' < 10000)%Z -> d < 1000 -> d' < 1000 -> r < 360000 -> r' < 360000 -> r mod unit_of r = 0 -> r' mod unit_of r' = 0 ->
  sp3_filename sat y d t r v = sp3_filename sat y' d' t' r' v' -> y = y' /\ d = d' /\ t = t' /\ r = r' /\ v = v'.
Proof.
  intros Y Y' D D' R R' X X' E. unfold sp3_filename, pad0z in E. destruct (Z.ltb_spec y 0); [lia|]. destruct (Z.ltb_spec y' 0); [lia|]. apply app_inv_head in E.
  apply app_split in E as [E1 E]; [|destruct v, v'; reflexivity]. apply app_inv_head in E.
  apply app_split in E as [E2 E]; [|rewrite !pad0_length; pose proof (ndig_le (Z.abs_N y) 4 ltac:(lia) ltac:(lia)); pose proof (ndig_le (Z.abs_N y') 4 ltac:(lia) ltac:(lia)); lia].
  apply app_split in E as [E3 E]; [|rewrite !pad0_length; pose proof (ndig_le d 3 ltac:(lia) ltac:(lia)); pose proof (ndig_le d' 3 ltac:(lia) ltac:(lia)); lia]. apply app_inv_head in E.
  apply app_split in E as [E4 E]; [|rewrite !(proj2 (token_length _)) by assumption; reflexivity]. apply app_inv_head in E. apply app_inv_tail in E.
  apply pad0_inj in E2, E3. apply (f_equal token_seconds) in E4. rewrite !token_value, X, X' in E4. injection E4 as E4.
  split; [lia|]. split; [assumption|]. split; [destruct t, t'; try reflexivity; discriminate|]. split; [lia|]. destruct v, v'; try reflexivity; discriminate.
Qed.
