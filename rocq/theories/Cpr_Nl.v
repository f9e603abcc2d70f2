(** The longitude-zone count of /repo/src/formats/adsb/cpr.rs:42-54 over the reals. *)
From Coq Require Import Reals Lra Lia ZArith.
Local Open Scope R_scope.

Definition rad (d : R) : R := d * (PI / 180).

(** cpr.rs:49 [1 - cos(pi / (2 NZ))], NZ = 15 *)
Definition numer : R := 1 - cos (PI / (2 * 15)).

(** cpr.rs:42-54 [nl]: [floor] is [Int_part], [clamp(1, 59)] is [max]/[min]; f64 rounding
    is not modelled. *)
Definition nl (lat : R) : Z :=
  if Rle_dec 87 (Rabs lat) then 1%Z
  else
    let c := cos (rad lat) in
    let arg := 1 - numer / (c * c) in
    Z.max 1 (Z.min 59 (Int_part (2 * PI / acos arg))).

Lemma numer_sin : numer = 2 * (sin (PI / 60) * sin (PI / 60)).
Proof.
  unfold numer. replace (PI / (2 * 15)) with (2 * (PI / 60)) by field.
  rewrite cos_2a_sin. ring.
Qed.

Lemma sin60_pos : 0 < sin (PI / 60).
Proof. apply sin_gt_0; pose proof PI_RGT_0; lra. Qed.

Lemma numer_pos : 0 < numer.
Proof. rewrite numer_sin. pose proof sin60_pos. nra. Qed.

Lemma cos_rad_abs lat : cos (rad lat) = cos (rad (Rabs lat)).
Proof.
  unfold Rabs. destruct (Rcase_abs lat); [|reflexivity].
  unfold rad. rewrite <- cos_neg. f_equal. ring.
Qed.

Lemma cos_rad_decr a b : Rabs a <= Rabs b -> Rabs b <= 90 -> cos (rad b) <= cos (rad a).
Proof.
  intros H1 H2. rewrite (cos_rad_abs a), (cos_rad_abs b).
  pose proof (Rabs_pos a). pose proof PI_RGT_0 as P. unfold rad.
  apply cos_decr_1; nra.
Qed.

(** Away from the poles the cosine exceeds [sin 3 deg]. *)
Lemma cos_rad_big lat : Rabs lat < 87 -> sin (PI / 60) < cos (rad lat).
Proof.
  intros H. rewrite cos_rad_abs, <- cos_shift. pose proof PI_RGT_0 as P. pose proof (Rabs_pos lat).
  apply cos_decreasing_1; unfold rad; nra.
Qed.

Definition arg (lat : R) : R := 1 - numer / (cos (rad lat) * cos (rad lat)).

(** The arccosine is always taken inside its domain: never NaN. *)
Lemma arg_domain lat : Rabs lat < 87 -> -1 < arg lat < 1.
Proof.
  intros H. pose proof (cos_rad_big lat H) as C. pose proof sin60_pos as S0. pose proof numer_pos as N0.
  unfold arg. set (c := cos (rad lat)) in *.
  assert (Hc : 0 < c * c) by nra. split.
  - assert (numer / (c * c) < 2); [|lra]. apply (Rmult_lt_reg_r (c * c)); auto.
    unfold Rdiv. rewrite Rmult_assoc, Rinv_l by lra. rewrite numer_sin. nra.
  - assert (0 < numer / (c * c)); [|lra]. apply Rdiv_lt_0_compat; auto.
Qed.

Lemma acos_le x y : -1 <= x -> x <= y -> y <= 1 -> acos y <= acos x.
Proof.
  intros Hx Hxy Hy. destruct (acos_bound x), (acos_bound y).
  apply cos_decr_0; try lra. rewrite !cos_acos by lra. lra.
Qed.

Lemma nl_range lat : (1 <= nl lat <= 59)%Z.
Proof. unfold nl. destruct (Rle_dec 87 (Rabs lat)); lia. Qed.

Lemma nl_pole lat : 87 <= Rabs lat -> nl lat = 1%Z.
Proof. intros H. unfold nl. destruct (Rle_dec 87 (Rabs lat)); [reflexivity|contradiction]. Qed.

Lemma Int_part_le x (z : Z) : (z <= Int_part x)%Z <-> IZR z <= x.
Proof.
  destruct (base_Int_part x) as [A B]. split; intros H.
  - apply IZR_le in H. lra.
  - assert (IZR z < IZR (Int_part x) + 1) by lra. rewrite <- plus_IZR in H0. apply lt_IZR in H0. lia.
Qed.

(** The zone count is at least [n] exactly when the latitude is at most the transition
    latitude of DO-260B: [cos^2 lat >= (1 - cos(pi/30)) / (1 - cos(2 pi / n))]. *)
Lemma nl_transition lat (n : Z) : Rabs lat < 87 -> (2 <= n <= 59)%Z ->
  ((n <= nl lat)%Z <-> numer / (1 - cos (2 * PI / IZR n)) <= cos (rad lat) * cos (rad lat)).
Proof.
  intros H Hn. unfold nl. destruct (Rle_dec 87 (Rabs lat)); [lra|]. cbv zeta.
  change (1 - numer / (cos (rad lat) * cos (rad lat))) with (arg lat).
  pose proof (arg_domain lat H) as D. pose proof (acos_bound_lt _ D) as [B1 B2].
  pose proof PI_RGT_0 as P.
  assert (Hn2 : 2 <= IZR n) by (apply IZR_le; lia).
  assert (Q : 0 < 2 * PI / IZR n <= PI).
  { split; [apply Rdiv_lt_0_compat; lra|].
    apply (Rmult_le_reg_r (IZR n)); [lra|]. unfold Rdiv. rewrite Rmult_assoc, Rinv_l by lra. nra. }
  assert (HC : 0 < 1 - cos (2 * PI / IZR n)).
  { assert (cos (2 * PI / IZR n) < cos 0) by (apply cos_decreasing_1; lra). rewrite cos_0 in H0. lra. }
  assert (Hc : 0 < cos (rad lat)) by (pose proof (cos_rad_big lat H); pose proof sin60_pos; lra).
  assert (Hcc : 0 < cos (rad lat) * cos (rad lat)) by nra.
  transitivity ((n <= Int_part (2 * PI / acos (arg lat)))%Z); [lia|].
  rewrite Int_part_le.
  transitivity (acos (arg lat) <= 2 * PI / IZR n).
  { split; intros G.
    - apply (Rmult_le_reg_r (IZR n)); [lra|]. unfold Rdiv. rewrite Rmult_assoc, Rinv_l by lra.
      apply (Rmult_le_compat_r (acos (arg lat))) in G; [|lra].
      unfold Rdiv in G. rewrite Rmult_assoc, Rinv_l in G by lra. lra.
    - apply (Rmult_le_reg_r (acos (arg lat))); [lra|]. unfold Rdiv. rewrite Rmult_assoc, Rinv_l by lra.
      apply (Rmult_le_compat_r (IZR n)) in G; [|lra].
      unfold Rdiv in G. rewrite Rmult_assoc, Rinv_l in G by lra. lra. }
  transitivity (cos (2 * PI / IZR n) <= arg lat).
  { rewrite <- (cos_acos (arg lat)) at 2 by lra. split; intros G.
    - apply cos_decr_1; lra.
    - apply cos_decr_0; lra. }
  unfold arg. set (cc := cos (rad lat) * cos (rad lat)) in *. set (k := cos (2 * PI / IZR n)) in *.
  split; intros G.
  - apply (Rmult_le_reg_r (1 - k)); [lra|]. unfold Rdiv. rewrite Rmult_assoc, Rinv_l by lra.
    assert (G2 : numer / cc <= 1 - k) by lra.
    apply (Rmult_le_compat_r cc) in G2; [|lra]. unfold Rdiv in G2. rewrite Rmult_assoc, Rinv_l in G2 by lra. lra.
  - apply (Rmult_le_compat_r (1 - k)) in G; [|lra]. unfold Rdiv in G. rewrite Rmult_assoc, Rinv_l in G by lra.
    assert (numer / cc <= 1 - k); [|lra].
    apply (Rmult_le_reg_r cc); [lra|]. unfold Rdiv. rewrite Rmult_assoc, Rinv_l by lra. lra.
Qed.

(** Never more zones further from the equator; north and south agree. *)
Lemma nl_antitone a b : Rabs a <= Rabs b -> (nl b <= nl a)%Z.
Proof.
  intros H. destruct (Rle_lt_dec 87 (Rabs b)) as [Hb|Hb].
  - rewrite (nl_pole b Hb). apply nl_range.
  - pose proof (nl_range b) as R. destruct (Z.eq_dec (nl b) 1); [pose proof (nl_range a); lia|].
    apply (nl_transition a (nl b)); [lra|lia|].
    assert (E : (nl b <= nl b)%Z) by lia. apply (nl_transition b (nl b)) in E; [|lra|lia].
    eapply Rle_trans; [exact E|].
    pose proof (cos_rad_decr a b H ltac:(lra)) as C.
    pose proof (cos_rad_big b Hb) as C2. pose proof sin60_pos. nra.
Qed.

Lemma nl_even a : nl (- a) = nl a.
Proof. apply Z.le_antisymm; apply nl_antitone; rewrite Rabs_Ropp; lra. Qed.

Lemma nl_equator : nl 0 = 59%Z.
Proof.
  apply Z.le_antisymm; [apply nl_range|].
  apply nl_transition; [rewrite Rabs_R0; lra|lia|].
  unfold rad. rewrite Rmult_0_l, cos_0. rewrite Rmult_1_l. unfold numer.
  pose proof PI_RGT_0 as P.
  assert (0 < 1 - cos (2 * PI / 59)).
  { assert (cos (2 * PI / 59) < cos 0) by (apply cos_decreasing_1; lra). rewrite cos_0 in *. lra. }
  apply (Rmult_le_reg_r (1 - cos (2 * PI / 59))); [lra|].
  unfold Rdiv at 1. rewrite Rmult_assoc, Rinv_l by lra.
  assert (cos (2 * PI / 59) <= cos (PI / (2 * 15))); [|lra].
  apply cos_decr_1; lra.
Qed.
