(** C168 the nutation models. *)
From Coq Require Import Reals Lra Lia Psatz ZArith List Permutation.
From Verif Require Import Base Mat3 Ang Geom_Model Moon_Model Earth_Model Earth_Proofs Nut_Model.
Import ListNotations.
Local Open Scope R_scope.

(** the angle of a row: its multipliers against the arguments *)
Fixpoint weighted (n : list Z) (a : list R) : R := match n, a with k :: n, x :: a => IZR k * x + weighted n a | _, _ => 0 end.
Lemma weighted_angle n : forall a, term_angle n a = weighted n a.
Proof. induction n as [|k n IH]; intros [|x a]; try reflexivity. rewrite term_angle_cons, IH. reflexivity. Qed.
(** what a luni-solar and a planetary row contribute at an angle *)
Definition ls_psi (t x : R) (row : ls_row) : R := (ls_ps row + ls_pst row * t) * sin x + ls_pc row * cos x.
Definition ls_eps (t x : R) (row : ls_row) : R := (ls_ec row + ls_ect row * t) * cos x + ls_es row * sin x.
Definition pl_psi (x : R) (row : pl_row) : R := IZR (pl_ps row) * sin x + IZR (pl_pc row) * cos x.
Definition pl_eps (x : R) (row : pl_row) : R := IZR (pl_es row) * sin x + IZR (pl_ec row) * cos x.
Definition total {A} (f : A -> R) (l : list A) : R := fold_right (fun x s => f x + s) 0 l.
Lemma fold_step {A} (f g : A -> R) step l : (forall a x, step a x = (fst a + f x, snd a + g x)) ->
  forall a : R * R, fold_left step l a = (fst a + total f l, snd a + total g l).
Proof.
  intros H. induction l as [|x l IH]; intros (p, q); cbn; [now rewrite !Rplus_0_r|]. rewrite H, IH. cbn. now rewrite !Rplus_assoc.
Qed.
Lemma total_ext {A} (f g : A -> R) l : (forall x, f x = g x) -> total f l = total g l.
Proof. intros H. induction l as [|x l IH]; [reflexivity|]. change (f x + total f l = g x + total g l). now rewrite H, IH. Qed.
Lemma total_perm {A} (f : A -> R) l l' : Permutation l l' -> total f l = total f l'.
Proof. unfold total. induction 1; cbn [fold_right]; [reflexivity|now rewrite IHPermutation|rewrite <- !Rplus_assoc; f_equal; apply Rplus_comm|congruence]. Qed.
Lemma total_bound {A} (f g : A -> R) l : (forall x, Rabs (f x) <= g x) -> Rabs (total f l) <= total g l.
Proof. intros H. induction l as [|x l IH]; [cbn; rewrite Rabs_R0; lra|]. change (Rabs (f x + total f l) <= g x + total g l). pose proof (Rabs_triang (f x) (total f l)). specialize (H x). lra. Qed.
(** the arguments of the two series, as whole angles *)
Definition lunisolar_b (t : R) : list R := map arcsec [p_l t; p_lp t; p_f t; p_d t; p_om t].
Definition lunisolar_a (t : R) : list R := map arcsec [p_l t; p_lp_mhb t; p_f t; p_d_mhb t; p_om t].
Definition planetary (t : R) : list R := pl_lines t ++ [fa_pa t].
Lemma turn_e p : same_angle (rem_e p 1296000 * PI / 648000) (arcsec p).
Proof. exists (- Int_part (p / 1296000))%Z. unfold rem_e, arcsec. rewrite opp_IZR. field. Qed.
Lemma turn_t p : same_angle (rem_t p 1296000 * (PI / (180 * 3600))) (arcsec p).
Proof. exists (- trunc (p / 1296000))%Z. unfold rem_t, arcsec. rewrite opp_IZR. field. Qed.
Lemma turn_r x : same_angle (rem_t x (2 * PI)) x.
Proof. exists (- trunc (x / (2 * PI)))%Z. unfold rem_t. rewrite opp_IZR. ring. Qed.
Lemma map_same (f g : R -> R) l : (forall x, same_angle (f x) (g x)) -> Forall2 same_angle (map f l) (map g l).
Proof. intros H. induction l; cbn; constructor; auto. Qed.
Lemma delaunay_same t : Forall2 same_angle (delaunay t) (lunisolar_b t). Proof. apply map_same, turn_e. Qed.
Lemma ls_args_same t : Forall2 same_angle (ls_args t) (lunisolar_a t). Proof. apply map_same, turn_t. Qed.
Lemma pl_args_same t : Forall2 same_angle (pl_args t) (planetary t).
Proof.
  unfold pl_args, planetary. apply Forall2_app; [|repeat constructor; apply same_refl]. rewrite <- (map_id (pl_lines t)) at 2. apply map_same, turn_r.
Qed.
(** the abridged series is the plain sum over its table of the whole, unreduced angles plus the two fixed offsets *)
Theorem C168_abridged ls jd : let t := centuries jd in let x row := weighted (ls_n row) (lunisolar_b t) in
  dpsi (nut00b ls jd) = arcsec (total (fun row => ls_psi t (x row) row) ls - 1350) / 10000000 /\
  deps (nut00b ls jd) = arcsec (total (fun row => ls_eps t (x row) row) ls + 3880) / 10000000.
Proof.
  cbn zeta. unfold nut00b. cbn [dpsi deps]. set (t := centuries jd).
  rewrite (fold_step (fun row => ls_psi t (term_angle (ls_n row) (delaunay t)) row) (fun row => ls_eps t (term_angle (ls_n row) (delaunay t)) row)) by reflexivity. cbn [fst snd].
  rewrite !(total_ext (fun row => ls_psi t (term_angle (ls_n row) (delaunay t)) row) (fun row => ls_psi t (weighted (ls_n row) (lunisolar_b t)) row)).
  - rewrite (total_ext (fun row => ls_eps t (term_angle (ls_n row) (delaunay t)) row) (fun row => ls_eps t (weighted (ls_n row) (lunisolar_b t)) row)).
    + unfold arcsec. split; field.
    + intros row. unfold ls_eps. rewrite <- weighted_angle. pose proof (term_angle_same (ls_n row) _ _ (delaunay_same t)) as H. rewrite (same_cos _ _ H), (same_sin _ _ H). reflexivity.
  - intros row. unfold ls_psi. rewrite <- weighted_angle. pose proof (term_angle_same (ls_n row) _ _ (delaunay_same t)) as H. rewrite (same_cos _ _ H), (same_sin _ _ H). reflexivity.
Qed.
(** the full series is the sum over both tables *)
Theorem C168_full ls pl jd : let t := centuries jd in
  let x row := weighted (ls_n row) (lunisolar_a t) in let y row := weighted (pl_n row) (planetary t) in
  dpsi (nut00a ls pl jd) = arcsec (total (fun row => ls_psi t (x row) row) ls + total (fun row => pl_psi (y row) row) pl) / 10000000 /\
  deps (nut00a ls pl jd) = arcsec (total (fun row => ls_eps t (x row) row) ls + total (fun row => pl_eps (y row) row) pl) / 10000000.
Proof.
  cbn zeta. unfold nut00a, nut00a_raw. cbn [dpsi deps]. set (t := centuries jd).
  set (u := fun row : ls_row => rem_t (term_angle (ls_n row) (ls_args t)) (2 * PI)). set (v := fun row : pl_row => rem_t (term_angle (pl_n row) (pl_args t)) (2 * PI)).
  rewrite (fold_step (fun row => ls_psi t (u row) row) (fun row => ls_eps t (u row) row)) by reflexivity.
  rewrite (fold_step (fun row => pl_psi (v row) row) (fun row => pl_eps (v row) row)) by reflexivity. cbn [fst snd].
  assert (U : forall row, same_angle (u row) (weighted (ls_n row) (lunisolar_a t))).
  { intros row. rewrite <- weighted_angle. eapply same_trans; [apply turn_r|]. apply term_angle_same, ls_args_same. }
  assert (V : forall row, same_angle (v row) (weighted (pl_n row) (planetary t))).
  { intros row. rewrite <- weighted_angle. eapply same_trans; [apply turn_r|]. apply term_angle_same, pl_args_same. }
  rewrite (total_ext (fun row => ls_psi t (u row) row) (fun row => ls_psi t (weighted (ls_n row) (lunisolar_a t)) row)) by (intros; unfold ls_psi; rewrite (same_cos _ _ (U x)), (same_sin _ _ (U x)); reflexivity).
  rewrite (total_ext (fun row => ls_eps t (u row) row) (fun row => ls_eps t (weighted (ls_n row) (lunisolar_a t)) row)) by (intros; unfold ls_eps; rewrite (same_cos _ _ (U x)), (same_sin _ _ (U x)); reflexivity).
  rewrite (total_ext (fun row => pl_psi (v row) row) (fun row => pl_psi (weighted (pl_n row) (planetary t)) row)) by (intros; unfold pl_psi; rewrite (same_cos _ _ (V x)), (same_sin _ _ (V x)); reflexivity).
  rewrite (total_ext (fun row => pl_eps (v row) row) (fun row => pl_eps (weighted (pl_n row) (planetary t)) row)) by (intros; unfold pl_eps; rewrite (same_cos _ _ (V x)), (same_sin _ _ (V x)); reflexivity).
  rewrite !(total_perm _ (rev ls) ls) by (symmetry; apply Permutation_rev). rewrite !(total_perm _ (rev pl) pl) by (symmetry; apply Permutation_rev).
  unfold u2r, arcsec. split; field.
Qed.
(** the order of the tables does not matter *)
Theorem C168_order lsb lsb' lsa lsa' pl pl' m jd : Permutation lsb lsb' -> Permutation lsa lsa' -> Permutation pl pl' ->
  nutation lsb lsa pl m jd = nutation lsb' lsa' pl' m jd.
Proof.
  intros A B C. assert (F : nut00a lsa pl jd = nut00a lsa' pl' jd).
  { destruct (C168_full lsa pl jd) as (X & Y), (C168_full lsa' pl' jd) as (X' & Y'). cbn zeta in *.
    rewrite (total_perm _ _ _ B), (total_perm _ _ _ C) in X. rewrite (total_perm _ _ _ B), (total_perm _ _ _ C) in Y. rewrite <- X in X'. rewrite <- Y in Y'. unfold nut00a in *. cbn [dpsi deps] in X', Y'. rewrite X', Y'. reflexivity. }
  destruct m; cbn [nutation]; [exact F| |reflexivity|].
  - destruct (C168_abridged lsb jd) as (X & Y), (C168_abridged lsb' jd) as (X' & Y'). cbn zeta in *. rewrite (total_perm _ _ _ A) in X. rewrite (total_perm _ _ _ A) in Y. rewrite <- X in X'. rewrite <- Y in Y'. unfold nut00b in *. cbn [dpsi deps] in X', Y'. rewrite X', Y'. reflexivity.
  - assert (F1 : fst (nut00a_raw lsa pl jd) = fst (nut00a_raw lsa' pl' jd)) by exact (f_equal dpsi F). assert (F2 : snd (nut00a_raw lsa pl jd) = snd (nut00a_raw lsa' pl' jd)) by exact (f_equal deps F).
    unfold nut06a. destruct (nut00a_raw lsa pl jd), (nut00a_raw lsa' pl' jd). cbn in F1, F2. now subst.
Qed.
Lemma two_terms a b x : Rabs (a * sin x + b * cos x) <= Rabs a + Rabs b.
Proof.
  eapply Rle_trans; [apply Rabs_triang|]. rewrite !Rabs_mult.
  assert (Rabs (sin x) <= 1) by (apply Rabs_le; pose proof (SIN_bound x); lra). assert (Rabs (cos x) <= 1) by (apply Rabs_le; pose proof (COS_bound x); lra).
  pose proof (Rabs_pos a). pose proof (Rabs_pos b). nra.
Qed.
(** no date gives more than the amplitudes of the table together *)
Theorem C168_bounded ls jd : let t := centuries jd in
  Rabs (dpsi (nut00b ls jd)) <= arcsec (total (fun r => Rabs (ls_ps r) + Rabs (ls_pst r) * Rabs t + Rabs (ls_pc r)) ls + 1350) / 10000000 /\
  Rabs (deps (nut00b ls jd)) <= arcsec (total (fun r => Rabs (ls_ec r) + Rabs (ls_ect r) * Rabs t + Rabs (ls_es r)) ls + 3880) / 10000000.
Proof.
  cbn zeta. destruct (C168_abridged ls jd) as (-> & ->). set (t := centuries jd).
  assert (G : forall a b, Rabs a <= b -> Rabs (arcsec a / 10000000) <= arcsec b / 10000000).
  { intros a b H. unfold arcsec. replace (a * (PI / 648000) / 10000000) with (a * (PI / 648000 / 10000000)) by field. rewrite Rabs_mult. rewrite (Rabs_pos_eq (PI / 648000 / 10000000)) by (pose proof PI_RGT_0; nra).
    replace (b * (PI / 648000) / 10000000) with (b * (PI / 648000 / 10000000)) by field. apply Rmult_le_compat_r; [pose proof PI_RGT_0; nra|exact H]. }
  split; apply G.
  - eapply Rle_trans; [apply Rabs_triang|]. rewrite Rabs_Ropp, (Rabs_pos_eq 1350) by lra. apply Rplus_le_compat_r. apply total_bound. intros r. eapply Rle_trans; [apply two_terms|]. pose proof (Rabs_triang (ls_ps r) (ls_pst r * t)) as H. rewrite Rabs_mult in H. lra.
  - eapply Rle_trans; [apply Rabs_triang|]. rewrite (Rabs_pos_eq 3880) by lra. apply Rplus_le_compat_r. apply total_bound. intros r. unfold ls_eps. rewrite Rplus_comm. eapply Rle_trans; [apply two_terms|]. pose proof (Rabs_triang (ls_ec r) (ls_ect r * t)) as H. rewrite Rabs_mult in H. lra.
Qed.
(** the four models share the obliquity; the precession-only one is the identity; the 2006 correction scales the full series *)
Theorem C168_models lsb lsa pl m jd : eps_a (nutation lsb lsa pl m jd) = mean_obliquity jd /\
  nutation_rotation (nutation lsb lsa pl Iau2006 jd) = identity /\
  dpsi (nutation lsb lsa pl Iau2006A jd) = (1.0000004697 - 0.0000027774 * centuries jd) * dpsi (nutation lsb lsa pl Iau2000A jd) /\
  deps (nutation lsb lsa pl Iau2006A jd) = (1 - 0.0000027774 * centuries jd) * deps (nutation lsb lsa pl Iau2000A jd).
Proof.
  split; [now destruct m|]. split.
  - unfold nutation_rotation. cbn [nutation dpsi deps eps_a]. rewrite Rplus_0_r, rz_0, mul_1_r, rx_add. replace (mean_obliquity jd + - mean_obliquity jd) with 0 by ring. apply rx_0.
  - cbn [nutation nut06a nut00a dpsi deps]. unfold nut06a, nut00a. cbn [dpsi deps].
    split; lra.
Qed.
(** every nutation matrix is a rotation that fixes nothing but what it must: it takes the mean equinox to longitude
    dpsi on the ecliptic of date, seen with the true obliquity *)
Theorem C168_rotation a : proper (nutation_rotation a) /\
  apply (nutation_rotation a) (1, 0, 0) = apply (rx (true_obliquity a)) (cos (dpsi a), sin (dpsi a), 0) /\
  apply (nutation_rotation a) (0, - sin (eps_a a), cos (eps_a a)) = apply (rx (true_obliquity a)) (0, 0, 1).
Proof.
  split; [|split].
  - unfold nutation_rotation. repeat apply proper_mul; [apply rx_proper|apply rz_proper|apply rx_proper].
  - unfold nutation_rotation, true_obliquity. rewrite !apply_mul. f_equal. rewrite rx_form, rz_form. unfold apply; cbn. f_equal; [f_equal|]; ring.
  - unfold nutation_rotation, true_obliquity. rewrite !apply_mul. f_equal. rewrite rx_form, rz_form, sin_neg, cos_neg. unfold apply; cbn. pose proof (sin2_cos2 (eps_a a)) as H. unfold Rsqr in H. f_equal; [f_equal|]; [ring|ring|]. lra.
Qed.
(** the leading term of the series alone, at J2000 *)
Definition lead := LS [0; 0; 0; 0; 1]%Z (-172064161) (-174666) 33386 92052331 9086 15377.
Example C168_case : dpsi (nut00b [lead] j2000) = arcsec (-172064161 * sin (arcsec 450160.398036) + 33386 * cos (arcsec 450160.398036) - 1350) / 10000000.
Proof.
  destruct (C168_abridged [lead] j2000) as (-> & _). unfold total, ls_psi, lead, weighted, lunisolar_b, map, fold_right, ls_n, ls_ps, ls_pst, ls_pc, centuries. replace ((j2000 - j2000) / 36525) with 0 by field.
  replace (0 * arcsec (p_l 0) + (0 * arcsec (p_lp 0) + (0 * arcsec (p_f 0) + (0 * arcsec (p_d 0) + (1 * arcsec (p_om 0) + 0))))) with (arcsec 450160.398036) by (replace (p_om 0) with 450160.398036 by (unfold p_om; ring); ring).
  f_equal. f_equal. ring.
Qed.
Print Assumptions C168_abridged.
Print Assumptions C168_full.
Print Assumptions C168_order.
Print Assumptions C168_bounded.
Print Assumptions C168_models.
Print Assumptions C168_rotation.
Print Assumptions C168_case.
