(** Lemmas on the cached altitude of the Moon. *)
From Coq Require Import List PeanoNat ZArith Lia Bool Reals Lra Psatz.
From Verif Require Import Base Mat3 Ang Horiz_Model Horiz_Proofs Geom_Model Geom_Proofs Jpl_Model Jpl_Proofs Lag_Model Lag_Proofs Cheb Moon_Model.
Import ListNotations.
Local Open Scope R_scope.

Lemma trunc_pos x : 0 <= x -> trunc x = Int_part x. Proof. intros H. unfold trunc. destruct (Rle_dec 0 x); [reflexivity|contradiction]. Qed.
(** Truncation to an index: the whole number at or below. *)
Lemma as_usize_floor x : 0 <= x -> INR (as_usize x) <= x < INR (as_usize x) + 1.
Proof.
  intros H. unfold as_usize. rewrite trunc_pos by exact H. pose proof (int_part_bounds x) as B.
  assert (0 <= Int_part x)%Z. { apply Z.lt_succ_r. apply lt_IZR. rewrite succ_IZR. lra. }
  rewrite INR_IZR_INZ, Z2Nat.id by assumption. exact B.
Qed.
Lemma as_usize_unique x k : INR k <= x < INR k + 1 -> as_usize x = k.
Proof.
  intros H. pose proof (pos_INR k). pose proof (as_usize_floor x ltac:(lra)) as B. set (j := as_usize x) in *. clearbody j.
  destruct (lt_eq_lt_dec j k) as [[L|E]|L]; [|exact E|]; exfalso.
  - apply le_INR in L. rewrite S_INR in L. lra.
  - apply le_INR in L. rewrite S_INR in L. lra.
Qed.
Lemma ceil_up x : x <= INR (Z.to_nat (ceil x)).
Proof.
  unfold ceil. pose proof (int_part_bounds (- x)) as B. destruct (Z_le_gt_dec 0 (- Int_part (- x))) as [P|P].
  - rewrite INR_IZR_INZ, Z2Nat.id, opp_IZR by exact P. lra.
  - eapply Rle_trans; [|apply pos_INR]. assert (IZR (- Int_part (- x)) <= 0) by (apply IZR_le; lia). rewrite opp_IZR in *. lra.
Qed.
Lemma ceil_close x : 0 <= x -> INR (Z.to_nat (ceil x)) < x + 1.
Proof.
  unfold ceil. intros H. pose proof (int_part_bounds (- x)) as B. destruct (Z_le_gt_dec 0 (- Int_part (- x))) as [P|P].
  - rewrite INR_IZR_INZ, Z2Nat.id, opp_IZR by exact P. lra.
  - assert (E : Z.to_nat (- Int_part (- x)) = 0%nat) by lia. rewrite E. cbn. lra.
Qed.
Lemma get_map {A} (f : nat -> A) n i : (i < n)%nat -> get (map f (seq 0 n)) i = Ok (f i).
Proof.
  intros H. unfold get. rewrite nth_error_map. rewrite (nth_error_nth' (seq 0 n) 0%nat) by (now rewrite seq_length). rewrite seq_nth by exact H. reflexivity.
Qed.

(** * Positions *)
(** the position the cache gives inside segment [k] *)
Definition segment_value (truth : R -> vec) (t0 : R) (k : nat) (mjd : R) : vec :=
  let mid := t0 + INR k * 4 + 2 in
  let sample coord := map (fun x => coord (truth (mid + 2 * x))) (nodes 9) in
  let x := (mjd - mid) / 2 in
  (evaluate (fit_coeffs (sample coord_x)) x, evaluate (fit_coeffs (sample coord_y)) x, evaluate (fit_coeffs (sample coord_z)) x).

Definition segments (start stop : R) : nat := Nat.max (Z.to_nat (ceil ((stop + 1 - (start - 1)) / 4))) 1.
Lemma get_inside truth start stop k mjd : (k < segments start stop)%nat -> start - 1 + INR k * 4 <= mjd < start - 1 + INR k * 4 + 4 ->
  get_position truth (pos_new truth start stop) mjd = Ok (segment_value truth (start - 1) k mjd).
Proof.
  intros K H. unfold get_position, pos_new, segment_samples, segment_days, cheb_nodes. cbn [p_start p_num p_x p_y p_z]. fold (segments start stop). pose proof (pos_INR k).
  destruct (rltb_r (mjd - (start - 1)) 0); [lra|].
  assert (E : as_usize ((mjd - (start - 1)) / 4) = k) by (apply as_usize_unique; lra). rewrite E. destruct (Nat.leb_spec (segments start stop) k); [lia|].
  rewrite !get_map by exact K. cbn [obind]. unfold segment_value. rewrite !map_map.
  replace (4 * (1 / 2)) with 2 by field. reflexivity.
Qed.
Lemma get_before truth start stop mjd : mjd < start - 1 -> get_position truth (pos_new truth start stop) mjd = Ok (truth mjd).
Proof. intros H. unfold get_position, pos_new. cbn [p_start]. destruct (rltb_r (mjd - (start - 1)) 0); [reflexivity|lra]. Qed.
Lemma get_after truth start stop mjd : start - 1 + INR (segments start stop) * 4 <= mjd -> get_position truth (pos_new truth start stop) mjd = Ok (truth mjd).
Proof.
  intros H. unfold get_position, pos_new, segment_days. cbn [p_start p_num]. fold (segments start stop). pose proof (pos_INR (segments start stop)).
  destruct (rltb_r (mjd - (start - 1)) 0); [reflexivity|]. pose proof (as_usize_floor ((mjd - (start - 1)) / 4) ltac:(lra)) as B.
  destruct (Nat.leb_spec (segments start stop) (as_usize ((mjd - (start - 1)) / 4))) as [L|L]; [reflexivity|]. apply le_INR in L. rewrite S_INR in L. lra.
Qed.
Lemma segments_cover start stop : stop + 1 <= start - 1 + INR (segments start stop) * 4.
Proof.
  unfold segments. pose proof (ceil_up ((stop + 1 - (start - 1)) / 4)) as C. set (n := Z.to_nat _) in *. clearbody n.
  assert (INR n <= INR (Nat.max n 1)) by (apply le_INR; lia). lra.
Qed.
Lemma segments_tight start stop : start - 1 <= stop + 1 -> start - 1 + INR (segments start stop) * 4 <= Rmax (stop + 1) (start - 1) + 4.
Proof.
  intros H. unfold segments. pose proof (ceil_close ((stop + 1 - (start - 1)) / 4) ltac:(lra)) as C. set (n := Z.to_nat _) in *. clearbody n. rewrite Rmax_left by lra.
  destruct (le_lt_dec n 1) as [L|L]; [rewrite Nat.max_r by lia; cbn; lra|rewrite Nat.max_l by lia; lra].
Qed.
Lemma position_cases truth start stop mjd :
  (mjd < start - 1 /\ get_position truth (pos_new truth start stop) mjd = Ok (truth mjd)) \/
  (start - 1 + INR (segments start stop) * 4 <= mjd /\ get_position truth (pos_new truth start stop) mjd = Ok (truth mjd)) \/
  exists k, (k < segments start stop)%nat /\ start - 1 + INR k * 4 <= mjd < start - 1 + INR k * 4 + 4 /\ get_position truth (pos_new truth start stop) mjd = Ok (segment_value truth (start - 1) k mjd).
Proof.
  destruct (Rlt_le_dec mjd (start - 1)) as [B|B]; [left; split; [exact B|now apply get_before]|].
  destruct (Rle_lt_dec (start - 1 + INR (segments start stop) * 4) mjd) as [A|A]; [right; left; split; [exact A|now apply get_after]|].
  right; right. pose proof (as_usize_floor ((mjd - (start - 1)) / 4) ltac:(lra)) as F. exists (as_usize ((mjd - (start - 1)) / 4)). set (k := as_usize _) in *. clearbody k.
  assert (K : (k < segments start stop)%nat) by (apply INR_lt; lra). assert (I : start - 1 + INR k * 4 <= mjd < start - 1 + INR k * 4 + 4) by lra.
  split; [exact K|]. split; [exact I|]. now apply get_inside.
Qed.

Lemma coordinate_near (f g : R -> R) mid eps mjd : poly 9 g -> (forall t, mid - 2 <= t <= mid + 2 -> Rabs (f t - g t) <= eps) -> mid - 2 <= mjd <= mid + 2 ->
  Rabs (evaluate (fit_coeffs (map (fun x => f (mid + 2 * x)) (nodes 9))) ((mjd - mid) / 2) - f mjd) <= 18 * eps.
Proof.
  intros Pg H M. assert (B : Rabs (evaluate (fit_coeffs (map (fun x => f (mid + 2 * x)) (nodes 9))) ((mjd - mid) / 2) - f (mid + 2 * ((mjd - mid) / 2))) <= 2 * INR 9 * eps).
  { apply (fit_near_best 9 (fun x => f (mid + 2 * x)) (fun x => g (mid + 2 * x))); [lia|now apply poly_affine| |lra]. intros y Y. apply H. lra. }
  replace (mid + 2 * ((mjd - mid) / 2)) with mjd in B by field. replace (2 * INR 9 * eps) with (18 * eps) in B by (cbn [INR]; ring). exact B.
Qed.

(** * Nutation *)
Definition entries (start stop : R) : nat := (Z.to_nat (ceil ((stop + 1 - (start - 1)) / nut_step)) + 1)%nat.
Definition between_grid (f : R -> R) (a t : R) : R := f a + t * (f (a + nut_step) - f a).
Lemma nut_inside series start stop k mjd : (k + 1 < entries start stop)%nat -> start - 1 + INR k * nut_step <= mjd < start - 1 + INR k * nut_step + nut_step ->
  get_nutation series (nut_new series start stop) mjd =
  (let a := start - 1 + INR k * nut_step in let t := (mjd - a) / nut_step in
   Ok (between_grid (fun s => coord_x (series s)) a t, between_grid (fun s => coord_y (series s)) a t, between_grid (fun s => coord_z (series s)) a t)).
Proof.
  intros K H. unfold get_nutation, nut_new. cbn [n_start n_num n_values]. fold (entries start stop). pose proof (pos_INR k). assert (S0 : 0 < nut_step) by (unfold nut_step; lra).
  assert (Mp : 0 <= INR k * nut_step) by (apply Rmult_le_pos; lra).
  destruct (rltb_r (mjd - (start - 1)) 0); [lra|].
  assert (E : as_usize ((mjd - (start - 1)) / nut_step) = k) by (apply as_usize_unique; unfold nut_step in *; lra). rewrite E. destruct (Nat.leb_spec (entries start stop) (k + 1)); [lia|].
  rewrite !get_map by lia. cbn [obind]. unfold lerp, between_grid. rewrite plus_INR. cbn [INR].
  replace (start - 1 + (INR k + 1) * nut_step) with (start - 1 + INR k * nut_step + nut_step) by ring.
  replace ((mjd - (start - 1)) / nut_step - INR k) with ((mjd - (start - 1 + INR k * nut_step)) / nut_step) by (field; lra). reflexivity.
Qed.
Lemma nut_outside series start stop mjd : mjd < start - 1 \/ start - 1 + INR (entries start stop - 1) * nut_step <= mjd -> get_nutation series (nut_new series start stop) mjd = Ok (series mjd).
Proof.
  intros H. unfold get_nutation, nut_new. cbn [n_start n_num]. fold (entries start stop). assert (S0 : 0 < nut_step) by (unfold nut_step; lra).
  destruct (rltb_r (mjd - (start - 1)) 0) as [|N]; [reflexivity|]. destruct H as [H|H]; [lra|].
  pose proof (as_usize_floor ((mjd - (start - 1)) / nut_step) ltac:(unfold nut_step; lra)) as B. set (j := as_usize _) in *. clearbody j.
  destruct (Nat.leb_spec (entries start stop) (j + 1)) as [L|L]; [reflexivity|]. exfalso. assert (J : (j + 1 <= entries start stop - 1)%nat) by lia. apply le_INR in J. rewrite plus_INR in J. cbn [INR] in J.
  apply Rmult_le_compat_r with (r := nut_step) in J; [|lra]. unfold nut_step in *. lra.
Qed.
Lemma entries_cover start stop : stop + 1 <= start - 1 + INR (entries start stop - 1) * nut_step.
Proof.
  unfold entries. rewrite Nat.add_sub. pose proof (ceil_up ((stop + 1 - (start - 1)) / nut_step)) as C. set (n := Z.to_nat _) in *. clearbody n. unfold nut_step in *. lra.
Qed.
Lemma nutation_cases series start stop mjd :
  ((mjd < start - 1 \/ stop + 1 <= mjd) /\ get_nutation series (nut_new series start stop) mjd = Ok (series mjd)) \/
  exists k, start - 1 + INR k * nut_step <= mjd < start - 1 + INR k * nut_step + nut_step /\
    get_nutation series (nut_new series start stop) mjd =
    (let a := start - 1 + INR k * nut_step in let t := (mjd - a) / nut_step in
     Ok (between_grid (fun s => coord_x (series s)) a t, between_grid (fun s => coord_y (series s)) a t, between_grid (fun s => coord_z (series s)) a t)).
Proof.
  assert (S0 : 0 < nut_step) by (unfold nut_step; lra). pose proof (entries_cover start stop) as C.
  destruct (Rlt_le_dec mjd (start - 1)) as [B|B]; [left; split; [now left|apply nut_outside; now left]|].
  destruct (Rle_lt_dec (start - 1 + INR (entries start stop - 1) * nut_step) mjd) as [A|A]; [left; split; [right; lra|apply nut_outside; now right]|].
  right. pose proof (as_usize_floor ((mjd - (start - 1)) / nut_step) ltac:(unfold nut_step; lra)) as F. exists (as_usize ((mjd - (start - 1)) / nut_step)). set (k := as_usize _) in *. clearbody k.
  assert (I : start - 1 + INR k * nut_step <= mjd < start - 1 + INR k * nut_step + nut_step) by (unfold nut_step in *; lra).
  split; [exact I|]. apply nut_inside; [|exact I]. assert (K : (k < entries start stop - 1)%nat); [apply INR_lt; unfold nut_step in *; lra|lia].
Qed.
(** Linear interpolation of a function whose slope changes slowly. *)
Lemma lerp_smooth f f' a t M : 0 <= t <= 1 -> (forall s, a <= s <= a + nut_step -> derivable_pt_lim f s (f' s)) ->
  (forall s u, a <= s <= a + nut_step -> a <= u <= a + nut_step -> Rabs (f' s - f' u) <= M) ->
  Rabs (between_grid f a t - f (a + t * nut_step)) <= M * nut_step / 4.
Proof.
  intros T D HM. assert (S0 : 0 < nut_step) by (unfold nut_step; lra). set (h := nut_step) in *.
  assert (M0 : 0 <= M) by (eapply Rle_trans; [apply Rabs_pos|apply (HM a a); lra]).
  assert (Mh : 0 <= M * h / 4) by (apply Rmult_le_pos; [apply Rmult_le_pos; lra|lra]).
  destruct (Req_dec t 0) as [->|T0]. { unfold between_grid. fold h. replace (a + 0 * h) with a by ring. replace (f a + 0 * (f (a + h) - f a) - f a) with 0 by ring. rewrite Rabs_R0. exact Mh. }
  destruct (Req_dec t 1) as [->|T1]. { unfold between_grid. fold h. replace (a + 1 * h) with (a + h) by ring. replace (f a + 1 * (f (a + h) - f a) - f (a + h)) with 0 by ring. rewrite Rabs_R0. exact Mh. }
  assert (Pt : 0 < t * h) by (apply Rmult_lt_0_compat; lra). assert (Pu : 0 < (1 - t) * h) by (apply Rmult_lt_0_compat; lra).
  destruct (MVT_cor2 f f' a (a + t * h)) as (c1 & E1 & C1); [lra|intros c C; apply D; lra|].
  destruct (MVT_cor2 f f' (a + t * h) (a + h)) as (c2 & E2 & C2); [lra|intros c C; apply D; lra|].
  unfold between_grid. fold h. replace (f a + t * (f (a + h) - f a) - f (a + t * h)) with (t * (f (a + h) - f (a + t * h)) - (1 - t) * (f (a + t * h) - f a)) by ring.
  rewrite E1, E2. replace (t * (f' c2 * (a + h - (a + t * h))) - (1 - t) * (f' c1 * (a + t * h - a))) with ((t * (1 - t) * h) * (f' c2 - f' c1)) by ring.
  specialize (HM c2 c1 ltac:(lra) ltac:(lra)). rewrite Rabs_mult.
  assert (Q : 0 <= t * (1 - t) <= 1 / 4). { split; [apply Rmult_le_pos; lra|]. pose proof (Rle_0_sqr (t - 1 / 2)) as Sq. unfold Rsqr in Sq. lra. }
  assert (Qh : 0 <= t * (1 - t) * h) by (apply Rmult_le_pos; lra). rewrite (Rabs_pos_eq _ Qh).
  apply Rle_trans with (t * (1 - t) * h * M); [now apply Rmult_le_compat_l|]. replace (M * h / 4) with (1 / 4 * h * M) by field. apply Rmult_le_compat_r; [exact M0|]. apply Rmult_le_compat_r; lra.
Qed.

(** * Altitude *)
Lemma rx_orthonormal a : orthonormal (rx a). Proof. apply (proj1 (r1_orthonormal _)). Qed.
Lemma rz_orthonormal a : orthonormal (rz a). Proof. apply (proj1 (r3_orthonormal _)). Qed.
Lemma nutation_orthonormal n : orthonormal (nutation_matrix n).
Proof. destruct n as ((a, b), c). unfold nutation_matrix. auto using orthonormal_mul, rx_orthonormal, rz_orthonormal. Qed.
Lemma to_equatorial_dot e p q : dot3 (to_equatorial e p) (to_equatorial e q) = dot3 p q.
Proof. destruct p as ((a, b), c), q as ((x, y), z). cbn. pose proof (sc e) as A. replace (cos e * cos e) with (1 - sin e * sin e) by lra. 
  transitivity (a * x + (sin e * sin e + cos e * cos e) * (b * y + c * z)); [ring|]. rewrite A. ring. Qed.
(** The sine of the altitude, from a vector. *)
Lemma sin_altitude w theta lat : w <> (0, 0, 0) -> let '(x, y, z) := w in
  let s := sin (atan2 z (sqrt (x * x + y * y))) * sin lat + cos (atan2 z (sqrt (x * x + y * y))) * cos lat * cos (rem_e (theta - atan2 y x) (2 * PI)) in
  norm w * s = dot3 w (up theta lat) /\ -1 <= s <= 1.
Proof.
  intros Ne. pose proof (norm_pos w Ne) as Rp. pose proof (norm_sq w) as R2. pose proof (cauchy w (up theta lat)) as Cy. destruct w as ((x, y), z). cbv zeta. set (r := norm (x, y, z)) in *.
  assert (Up : norm (up theta lat) = 1). { unfold norm. rewrite <- sqrt_1. f_equal. change (up theta lat) with (unit_of theta lat). apply unit_unit. }
  rewrite Up, Rmult_1_r in Cy. set (q := sqrt (x * x + y * y)). assert (Q2 : q * q = x * x + y * y) by (apply sqrt_sqrt; nra). assert (Q0 : 0 <= q) by apply sqrt_pos.
  cbn [dot3] in R2.
  assert (N : q <> 0 \/ z <> 0). { destruct (Req_dec z 0) as [->|]; [left|auto]. intros E. rewrite E in Q2. nra. }
  destruct (atan2_polar z q N) as (P1 & P2). replace (sqrt (q² + z²)) with r in P1, P2 by (unfold r, norm; f_equal; cbn [dot3]; unfold Rsqr; lra).
  rewrite cos_rem_e, cos_minus. set (d := atan2 z q) in *.
  assert (Pq : q * cos (atan2 y x) = x /\ q * sin (atan2 y x) = y).
  { destruct (Req_dec x 0) as [X|X]; [destruct (Req_dec y 0) as [Y|Y]|].
    - assert (q = 0) by (rewrite X, Y in Q2; nra). rewrite X, Y. split; nra.
    - destruct (atan2_polar y x (or_intror Y)) as (A & B). unfold q. fold (Rsqr x). fold (Rsqr y). now split.
    - destruct (atan2_polar y x (or_introl X)) as (A & B). unfold q. fold (Rsqr x). fold (Rsqr y). now split. }
  destruct Pq as (Px & Py).
  assert (E : r * (sin d * sin lat + cos d * cos lat * (cos theta * cos (atan2 y x) + sin theta * sin (atan2 y x))) = dot3 (x, y, z) (up theta lat)).
  { cbn. transitivity ((r * sin d) * sin lat + (r * cos d) * cos lat * (cos theta * cos (atan2 y x) + sin theta * sin (atan2 y x))); [ring|]. rewrite P1, P2.
    transitivity (z * sin lat + cos lat * (cos theta * (q * cos (atan2 y x)) + sin theta * (q * sin (atan2 y x)))); [ring|]. rewrite Px, Py. ring. }
  split; [exact E|]. rewrite <- E in Cy. set (s := sin d * sin lat + _) in *. clearbody s. rewrite Rabs_mult, (Rabs_pos_eq r) in Cy by lra.
  assert (As : Rabs s <= 1) by (apply Rmult_le_reg_l with r; lra). split; [|eapply Rle_trans; [apply RRle_abs|exact As]]. pose proof (RRle_abs (- s)) as Ro. rewrite Rabs_Ropp in Ro. lra.
Qed.
