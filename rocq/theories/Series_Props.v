(** Theorems about the planetary series and Pluto's: C128 and C129. *)
From Coq Require Import List Reals Arith Permutation Lia Lra.
From Verif Require Import Base Series_Model.
Import ListNotations.
Local Open Scope R_scope.

Definition total (l : list R) : R := fold_right Rplus 0 l.
(** the sum of a power: [sum of A cos (B + C T)] *)
Definition inner (ts : list term) (t : R) : R := total (map (fun m => amp m * cos (pha m + frq m * t)) ts).
(** the series: [sum over k of T^k] times the sum of that power *)
Definition poisson (ss : list (list term)) (t : R) : R := total (map (fun k => t ^ k * inner (nth k ss []) t) (seq 0 (length ss))).

(** * Summing four at a time *)
Lemma nth_skip {A} (l : list A) n j d : nth (n + j) l d = nth j (skipn n l) d.
Proof. revert l. induction n as [|n IH]; intros l; [reflexivity|]. destruct l; cbn [skipn Nat.add nth]; [now destruct j|]. apply IH. Qed.
Lemma fold_four {St} (f : St -> term -> St) (g : list term -> St -> nat -> St) : (forall l i s, g l s i = f (f (f (f s (nth (i * 4) l no_term)) (nth (i * 4 + 1) l no_term)) (nth (i * 4 + 2) l no_term)) (nth (i * 4 + 3) l no_term)) ->
  forall n l s, (n * 4 <= length l)%nat -> fold_left (g l) (seq 0 n) s = fold_left f (firstn (n * 4) l) s.
Proof.
  intros G n l s H. induction n as [|n IH]; [reflexivity|]. rewrite seq_S, fold_left_app, IH by lia. cbn [Nat.add fold_left]. rewrite G.
  replace (firstn (S n * 4) l) with (firstn (n * 4) l ++ firstn 4 (skipn (n * 4) l))%list.
  2: { rewrite <- (firstn_skipn (n * 4) l) at 3. rewrite firstn_app, firstn_length_le by lia. replace (S n * 4 - n * 4)%nat with 4%nat by lia. f_equal. rewrite firstn_firstn. f_equal. lia. }
  rewrite fold_left_app. set (s0 := fold_left f (firstn (n * 4) l) s). clearbody s0. rewrite <- (Nat.add_0_r (n * 4)) at 1. rewrite !nth_skip. assert (L : (4 <= length (skipn (n * 4) l))%nat) by (rewrite skipn_length; lia).
  destruct (skipn (n * 4) l) as [|a [|b [|c [|d r]]]]; cbn [length] in L; try lia. reflexivity.
Qed.
Lemma fold_rest {St} (f : St -> term -> St) (g : list term -> St -> nat -> St) : (forall l i s, g l s i = f (f (f (f s (nth (i * 4) l no_term)) (nth (i * 4 + 1) l no_term)) (nth (i * 4 + 2) l no_term)) (nth (i * 4 + 3) l no_term)) ->
  forall l s, fold_left f (rest l) (fold_left (g l) (seq 0 (length l / 4)) s) = fold_left f l s.
Proof.
  intros G l s. pose proof (Nat.div_mod (length l) 4 ltac:(lia)) as D. rewrite (fold_four f g G) by lia. rewrite <- fold_left_app. f_equal. unfold rest.
  rewrite (firstn_all2 (skipn _ l)) by (rewrite skipn_length; lia). apply firstn_skipn.
Qed.
Lemma val_sum l t : forall s, fold_left (add_cos t) l s = s + inner l t.
Proof. unfold inner. induction l as [|m l IH]; intros s; cbn [fold_left map total fold_right]; [lra|]. rewrite IH. unfold add_cos, angle. rewrite (Rplus_comm (pha m)). fold (total (map (fun m => amp m * cos (pha m + frq m * t)) l)). lra. Qed.
Lemma serie_val_inner l t : serie_val l t = inner l t.
Proof. unfold serie_val. rewrite (fold_rest (add_cos t) (fun l => four_cos l t)); [rewrite val_sum; lra|]. intros. unfold four_cos. now rewrite Nat.add_0_r. Qed.
Definition inner_der (ts : list term) (t : R) : R := total (map (fun m => - (amp m * frq m * sin (pha m + frq m * t))) ts).
Lemma both_sum l t : forall p, fold_left (add_both t) l p = (fst p + inner l t, snd p + inner_der l t).
Proof.
  unfold inner, inner_der. induction l as [|m l IH]; intros (u, v); cbn [fold_left map total fold_right fst snd]; [f_equal; lra|]. rewrite IH. unfold add_both, angle. cbn [fst snd].
  rewrite (Rplus_comm (pha m)). unfold total. f_equal; lra.
Qed.
Lemma serie_both_inner l t : serie_both l t = (inner l t, inner_der l t).
Proof.
  unfold serie_both. rewrite (fold_rest (add_both t) (fun l => four_both l t)); [rewrite both_sum; cbn [fst snd]; f_equal; lra|]. intros. unfold four_both, add_both. rewrite Nat.add_0_r. reflexivity.
Qed.
(** * The powers *)
Definition part (k : nat) (ss : list (list term)) (t : R) : R := total (map (fun i => t ^ (k + i) * inner (nth i ss []) t) (seq 0 (length ss))).
Lemma total_seq (f : nat -> R) n : total (map f (seq 0 (S n))) = f 0%nat + total (map (fun i => f (S i)) (seq 0 n)).
Proof. cbn [seq map total fold_right]. f_equal. unfold total. f_equal. rewrite <- seq_shift, map_map. reflexivity. Qed.
Lemma part_cons k s ss t : part k (s :: ss) t = t ^ k * inner s t + part (S k) ss t.
Proof. unfold part. cbn [length]. rewrite total_seq. rewrite Nat.add_0_r. cbn [nth]. f_equal. f_equal. apply map_ext. intros i. now rewrite Nat.add_succ_comm. Qed.
Lemma value_part ss t : forall k v, value_loop ss t (t ^ k) v = v + part k ss t.
Proof. induction ss as [|s ss IH]; intros k v; cbn [value_loop]; [unfold part; cbn; lra|]. rewrite part_cons, serie_val_inner. replace (t ^ k * t) with (t ^ S k) by (cbn [pow]; lra). rewrite IH. lra. Qed.
Fixpoint der (k : nat) (ss : list (list term)) (t : R) : R :=
  match ss with [] => 0 | s :: r => INR k * t ^ pred k * inner s t + t ^ k * inner_der s t + der (S k) r t end.
Lemma deriv_part ss t : forall k d, deriv_loop ss k t (t ^ k) (INR k * t ^ pred k) d = d + der k ss t.
Proof.
  induction ss as [|s ss IH]; intros k d; cbn [deriv_loop der]; [lra|]. rewrite serie_both_inner. cbn [fst snd].
  replace (t ^ k * t) with (t ^ S k) by (cbn [pow]; lra). replace ((INR k + 1) * t ^ k) with (INR (S k) * t ^ pred (S k)) by (rewrite S_INR; reflexivity). rewrite IH. lra.
Qed.
Lemma both_part ss t : forall k v d, both_loop ss k t (t ^ k) (INR k * t ^ pred k) v d = (v + part k ss t, d + der k ss t).
Proof.
  induction ss as [|s ss IH]; intros k v d; cbn [both_loop der]; [unfold part; cbn; f_equal; lra|]. rewrite serie_both_inner, part_cons. cbn [fst snd].
  replace (t ^ k * t) with (t ^ S k) by (cbn [pow]; lra). replace ((INR k + 1) * t ^ k) with (INR (S k) * t ^ pred (S k)) by (rewrite S_INR; reflexivity). rewrite IH. f_equal; lra.
Qed.
Lemma coord_value_part ss t : coord_value ss t = part 0 ss t. Proof. unfold coord_value. change 1 with (t ^ 0). rewrite value_part. lra. Qed.
Lemma coord_deriv_part ss t : coord_deriv ss t = der 0 ss t * dt_dt.
Proof. unfold coord_deriv. replace (deriv_loop ss 0 t 1 0 0) with (deriv_loop ss 0 t (t ^ 0) (INR 0 * t ^ pred 0) 0) by (cbn [pow INR]; f_equal; lra). rewrite deriv_part. f_equal. lra. Qed.
(** * Derivatives *)
Lemma total_derive {A} (f : A -> R -> R) (g : A -> R) l t : (forall a, derivable_pt_lim (f a) t (g a)) -> derivable_pt_lim (fun t => total (map (fun a => f a t) l)) t (total (map g l)).
Proof. intros H. induction l as [|a l IH]; cbn [map total fold_right]; [apply derivable_pt_lim_const|]. apply (derivable_pt_lim_plus (f a) (fun t => total (map (fun a => f a t) l))); [apply H|exact IH]. Qed.
Lemma inner_derive l t : derivable_pt_lim (inner l) t (inner_der l t).
Proof.
  unfold inner, inner_der. apply (total_derive (fun m t => amp m * cos (pha m + frq m * t)) (fun m => - (amp m * frq m * sin (pha m + frq m * t)))). intros m.
  replace (- (amp m * frq m * sin (pha m + frq m * t))) with (amp m * (- sin (pha m + frq m * t) * (0 + frq m * 1))) by lra.
  apply (derivable_pt_lim_scal (fun t => cos (pha m + frq m * t))). apply (derivable_pt_lim_comp (fun t => pha m + frq m * t) cos).
  - apply (derivable_pt_lim_plus (fun _ => pha m) (fun t => frq m * t)); [apply derivable_pt_lim_const|]. apply (derivable_pt_lim_scal id). apply derivable_pt_lim_id.
  - apply derivable_pt_lim_cos.
Qed.
Lemma derive_ext (f g : R -> R) x l : (forall t, f t = g t) -> derivable_pt_lim f x l -> derivable_pt_lim g x l.
Proof. intros E D eps P. destruct (D eps P) as (delta & H). exists delta. intros h N B. rewrite <- !E. now apply H. Qed.
Lemma part_derive ss t : forall k, derivable_pt_lim (part k ss) t (der k ss t).
Proof.
  induction ss as [|s ss IH]; intros k; cbn [der].
  - apply (derive_ext (fun _ => 0)); [reflexivity|apply derivable_pt_lim_const].
  - apply (derive_ext (fun t => t ^ k * inner s t + part (S k) ss t)); [intros u; now rewrite part_cons|].
    apply (derivable_pt_lim_plus (fun t => t ^ k * inner s t)); [|apply IH].
    apply (derivable_pt_lim_mult (fun t => t ^ k) (inner s)); [apply derivable_pt_lim_pow|apply inner_derive].
Qed.
Lemma day_derive ss jd : derivable_pt_lim (fun jd => coord_value ss (millennia jd)) jd (coord_deriv ss (millennia jd)).
Proof.
  rewrite coord_deriv_part. apply (derive_ext (fun jd => part 0 ss (millennia jd))); [intros; now rewrite coord_value_part|].
  apply (derivable_pt_lim_comp millennia (part 0 ss)); [|apply part_derive].
  apply (derive_ext (fun jd => dt_dt * (jd - 2451545))); [intros; unfold millennia, dt_dt; lra|]. assert (D : derivable_pt_lim (fun jd => dt_dt * (jd - 2451545)) jd (dt_dt * (1 - 0))); [|now replace (dt_dt * (1 - 0)) with dt_dt in D by lra].
  apply (derivable_pt_lim_scal (fun jd => jd - 2451545)). apply (derivable_pt_lim_minus id (fun _ => 2451545)); [apply derivable_pt_lim_id|apply derivable_pt_lim_const].
Qed.

(** * C128 *)
(** Each coordinate is the whole series, whatever the number of powers and of terms in each. *)
Theorem C128_position jd x y z : position jd (x, y, z) = (poisson x ((jd - 2451545) / 365250), poisson y ((jd - 2451545) / 365250), poisson z ((jd - 2451545) / 365250)).
Proof. unfold position. cbv zeta. rewrite !coord_value_part. unfold part, poisson, millennia. cbn [Nat.add]. replace ((jd - 2451545) / 36525 / 10) with ((jd - 2451545) / 365250) by lra. reflexivity. Qed.
(** The velocity is the derivative of the position with respect to the date in days. *)
Theorem C128_velocity jd x y z : let '(vx, vy, vz) := velocity jd (x, y, z) in
  derivable_pt_lim (fun d => fst (fst (position d (x, y, z)))) jd vx /\ derivable_pt_lim (fun d => snd (fst (position d (x, y, z)))) jd vy /\ derivable_pt_lim (fun d => snd (position d (x, y, z))) jd vz.
Proof. unfold velocity, position. cbv zeta. cbn [fst snd]. repeat split; apply day_derive. Qed.
(** The single pass gives the same two. *)
Theorem C128_both jd tb : position_velocity jd tb = (position jd tb, velocity jd tb).
Proof.
  destruct tb as ((x, y), z). unfold position_velocity, position, velocity. cbv zeta. unfold coord_both. cbn [fst snd].
  assert (B : forall ss t, both_loop ss 0 t 1 0 0 0 = (part 0 ss t, der 0 ss t)).
  { intros ss t. replace (both_loop ss 0 t 1 0 0 0) with (both_loop ss 0 t (t ^ 0) (INR 0 * t ^ pred 0) 0 0) by (cbn [pow INR]; f_equal; lra). rewrite both_part. f_equal; lra. }
  rewrite !B. cbn [fst snd]. now rewrite !coord_value_part, !coord_deriv_part.
Qed.
(** The order of the terms of a power does not matter, and an empty power adds nothing. *)
Theorem C128_order ss ss' t : Forall2 (@Permutation term) ss ss' -> coord_value ss t = coord_value ss' t /\ coord_deriv ss t = coord_deriv ss' t.
Proof.
  intros F. rewrite !coord_value_part, !coord_deriv_part.
  assert (T : forall f : term -> R, forall l l', Permutation l l' -> total (map f l) = total (map f l')).
  { intros f l l' P. induction P as [|a l l' P IH|a b l|l l' l'' P IH P' IH']; cbn [map total fold_right]; [reflexivity|unfold total in IH; now rewrite IH|lra|congruence]. }
  assert (G : forall k, part k ss t = part k ss' t /\ der k ss t = der k ss' t).
  { induction F as [|l l' r r' P F IH]; intros k; [now split|]. rewrite !part_cons. cbn [der]. destruct (IH (S k)) as (A & B). unfold inner, inner_der. rewrite !(T _ _ _ P), A, B. now split. }
  destruct (G 0%nat) as (A & B). now rewrite A, B.
Qed.
Theorem C128_empty_power ss t : coord_value (ss ++ [[]]) t = coord_value ss t /\ coord_deriv (ss ++ [[]]) t = coord_deriv ss t.
Proof.
  rewrite !coord_value_part, !coord_deriv_part. assert (G : forall k, part k (ss ++ [[]]) t = part k ss t /\ der k (ss ++ [[]]) t = der k ss t).
  { induction ss as [|s ss IH]; intros k; cbn [app].
    - rewrite part_cons. cbn [der]. unfold part, inner, inner_der. cbn. split; lra.
    - rewrite !part_cons. cbn [der]. destruct (IH (S k)) as (-> & ->). now split. }
  destruct (G 0%nat) as (-> & ->). now split.
Qed.
(** five terms, so one batch of four and one left over, and a second power *)
Example C128_case : let m := Term 1 0 0 in position (2451545 + 365250) ([[m; m; m; m; m]; [m; m]], [], [[m]]) = (7, 0, 1) /\ velocity (2451545 + 365250) ([[m; m; m; m; m]; [m; m]], [], [[m]]) = (2 / 365250, 0, 0).
Proof.
  intros m. unfold position, velocity. rewrite !coord_value_part, !coord_deriv_part. unfold millennia. replace ((2451545 + 365250 - 2451545) / 36525 / 10) with 1 by lra. unfold part, m. cbn [length seq map nth total fold_right inner der inner_der amp pha frq Nat.add Nat.pred pow INR].
  unfold inner, inner_der. cbn [map total fold_right amp pha frq]. replace (0 + 0 * 1) with 0 by lra. rewrite cos_0, sin_0. unfold dt_dt. split; [repeat (f_equal; try lra)|]. f_equal; [f_equal|]; lra.
Qed.

(** * C129 *)
(** the angle of an argument, in radians *)
Definition pl_angle (g : pl_arg) (t : R) : R := ((34.35 + 3034.9057 * t) * pj g + (50.08 + 1222.1138 * t) * ps g + (238.96 + 144.96 * t) * pp g) * (PI / 180).
(** the sum of one table: the i-th term with the i-th argument *)
Definition pl_total (args : list pl_arg) (ts : list pl_term) (t : R) : R :=
  total (map (fun x => ta (snd x) * sin (pl_angle (fst x) t) + tb (snd x) * cos (pl_angle (fst x) t)) (combine args ts)).
Lemma skip_nth {A} (l : list A) : forall i, match nth_error l i with Some m => skipn i l = m :: skipn (S i) l | None => skipn i l = [] end.
Proof. induction l as [|a l IH]; intros [|i]; try reflexivity. cbn [nth_error]. specialize (IH i). destruct (nth_error l i); exact IH. Qed.
Lemma pl_loop_sum args lons lats rads t : forall i lo la ra, (i + length args <= length lons)%nat -> (i + length args <= length lats)%nat -> (i + length args <= length rads)%nat ->
  pl_loop args i lons lats rads t lo la ra = Some (lo + pl_total args (skipn i lons) t, la + pl_total args (skipn i lats) t, ra + pl_total args (skipn i rads) t).
Proof.
  unfold pl_total. induction args as [|g args IH]; intros i lo la ra A B C; cbn [pl_loop length] in *; [cbn [combine map total fold_right]; now rewrite !Rplus_0_r|].
  unfold pl_sum. pose proof (skip_nth lons i) as X. pose proof (skip_nth lats i) as Y. pose proof (skip_nth rads i) as Z.
  destruct (nth_error lons i) as [m|] eqn:E1; [|apply nth_error_None in E1; lia]. destruct (nth_error lats i) as [n|] eqn:E2; [|apply nth_error_None in E2; lia]. destruct (nth_error rads i) as [o|] eqn:E3; [|apply nth_error_None in E3; lia].
  rewrite IH by lia. rewrite X, Y, Z. cbn [combine map total fold_right fst snd]. change (deg (jupiter_lon t * pj g + saturn_lon t * ps g + pluto_lon t * pp g)) with (pl_angle g t). unfold total. f_equal. f_equal; [f_equal|]; lra.
Qed.
Lemma pl_loop_short args lons lats rads t : forall i lo la ra, (length lons < i + length args \/ length lats < i + length args \/ length rads < i + length args)%nat -> (0 < length args)%nat -> (i <= length lons)%nat -> (i <= length lats)%nat -> (i <= length rads)%nat ->
  pl_loop args i lons lats rads t lo la ra = None.
Proof.
  induction args as [|g args IH]; intros i lo la ra H P A B C; cbn [length] in *; [lia|]. cbn [pl_loop]. unfold pl_sum.
  destruct (nth_error lons i) as [m|] eqn:E1; [|reflexivity]. destruct (nth_error lats i) as [n|] eqn:E2; [|reflexivity]. destruct (nth_error rads i) as [o|] eqn:E3; [|reflexivity].
  assert (i < length lons)%nat by (apply nth_error_Some; congruence). assert (i < length lats)%nat by (apply nth_error_Some; congruence). assert (i < length rads)%nat by (apply nth_error_Some; congruence).
  destruct args as [|g' args]; [cbn [length] in H; lia|]. apply IH; cbn [length] in *; lia.
Qed.
(** Pluto's place is at a distance and in a direction given by the three sums, each term with the argument of its row. *)
Theorem C129_place args lons lats rads t : (length args <= length lons)%nat -> (length args <= length lats)%nat -> (length args <= length rads)%nat ->
  let r := 40.7241346 + pl_total args rads t / 10000000 in let b := (pl_total args lats t / 1000000 - 3.908239) * (PI / 180) in let l := (238.958116 + 144.96 * t + pl_total args lons t / 1000000) * (PI / 180) in
  pluto args lons lats rads t = Some (r * cos b * cos l, r * cos b * sin l, r * sin b).
Proof.
  intros A B C r b l. unfold pluto, pl_sphere. rewrite pl_loop_sum by lia. cbn [skipn]. unfold deg.
  replace ((0 + pl_total args lats t) * 0.000001 - 3.908239) with (pl_total args lats t / 1000000 - 3.908239) by lra. fold b.
  replace ((0 + pl_total args lons t) * 0.000001 + (238.958116 + 144.96 * t)) with (238.958116 + 144.96 * t + pl_total args lons t / 1000000) by lra. fold l.
  replace ((0 + pl_total args rads t) * 0.0000001 + 40.7241346) with r by (unfold r; lra). reflexivity.
Qed.
Definition size (ts : list pl_term) : R := total (map (fun m => Rabs (ta m) + Rabs (tb m)) ts).
Lemma total_bound args ts t : Rabs (pl_total args ts t) <= size ts.
Proof.
  unfold pl_total, size. revert args. induction ts as [|m ts IH]; intros [|g args]; cbn [combine map total fold_right fst snd]; try (rewrite Rabs_R0).
  - lra. - lra.
  - specialize (IH []). cbn [combine map total fold_right] in IH. rewrite Rabs_R0 in IH. pose proof (Rabs_pos (ta m)). pose proof (Rabs_pos (tb m)). unfold total in IH. lra.
  - eapply Rle_trans; [apply Rabs_triang|]. apply Rplus_le_compat; [|apply IH]. eapply Rle_trans; [apply Rabs_triang|]. rewrite !Rabs_mult.
    pose proof (SIN_bound (pl_angle g t)). pose proof (COS_bound (pl_angle g t)).
    assert (Rabs (sin (pl_angle g t)) <= 1) by (apply Rabs_le; lra). assert (Rabs (cos (pl_angle g t)) <= 1) by (apply Rabs_le; lra).
    pose proof (Rabs_pos (ta m)). pose proof (Rabs_pos (tb m)). nra.
Qed.
(** At every date the distance stays within the amplitudes of the table of the mean distance. *)
Theorem C129_distance args lons lats rads t x y z : pluto args lons lats rads t = Some (x, y, z) -> (length args <= length lons)%nat -> (length args <= length lats)%nat -> (length args <= length rads)%nat ->
  size rads / 10000000 <= 40.7241346 -> Rabs (sqrt (x * x + y * y + z * z) - 40.7241346) <= size rads / 10000000.
Proof.
  intros E A B C S. pose proof (C129_place args lons lats rads t A B C) as P. cbv zeta in P. rewrite P in E. clear P.
  pose proof (total_bound args rads t) as T. set (r := 40.7241346 + pl_total args rads t / 10000000) in *. set (b := (pl_total args lats t / 1000000 - 3.908239) * (PI / 180)) in *. set (l := (238.958116 + 144.96 * t + pl_total args lons t / 1000000) * (PI / 180)) in *.
  assert (Ex : x = r * cos b * cos l) by congruence. assert (Ey : y = r * cos b * sin l) by congruence. assert (Ez : z = r * sin b) by congruence.
  pose proof (sin2_cos2 b) as Q. pose proof (sin2_cos2 l) as Q'. unfold Rsqr in Q, Q'.
  replace (x * x + y * y + z * z) with (r * r). 2: { rewrite Ex, Ey, Ez. replace (r * r) with (r * r * (sin b * sin b + cos b * cos b * (sin l * sin l + cos l * cos l))) by (rewrite Q'; rewrite Rmult_1_r, Q; lra). ring. }
  assert (R0 : 0 <= r). { unfold r. pose proof (Rle_abs (- pl_total args rads t)) as U. rewrite Rabs_Ropp in U. lra. }
  rewrite sqrt_square by exact R0. unfold r. replace (40.7241346 + pl_total args rads t / 10000000 - 40.7241346) with (pl_total args rads t / 10000000) by lra.
  unfold Rdiv. rewrite Rabs_mult, (Rabs_pos_eq (/ 10000000)) by lra. apply Rmult_le_compat_r; lra.
Qed.
(** A table shorter than that of the arguments is a panic. *)
Theorem C129_short args lons lats rads t : (length lons < length args \/ length lats < length args \/ length rads < length args)%nat -> pluto args lons lats rads t = None.
Proof. intros H. unfold pluto, pl_sphere. rewrite pl_loop_short by (cbn; lia). reflexivity. Qed.
Example C129_case : pluto [] [] [] [] 0 <> None /\ size [PlTerm 68951876 (-69897)] / 10000000 <= 40.7241346 /\ pluto [PlArg 0 0 1] [PlTerm 1 2] [] [PlTerm 1 2] 0 = None.
Proof. split; [discriminate|]. split; [|reflexivity]. unfold size. cbn [map total fold_right ta tb]. rewrite Rabs_pos_eq, Rabs_left1 by lra. lra. Qed.

Print Assumptions C128_position.
Print Assumptions C128_velocity.
Print Assumptions C128_both.
Print Assumptions C128_order.
Print Assumptions C128_empty_power.
Print Assumptions C129_place.
Print Assumptions C129_distance.
Print Assumptions C129_short.
