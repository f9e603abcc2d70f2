(** The overlap of two discs. *)
From Coq Require Import Reals Lra.
From Verif Require Import Mat3 Ang Geom_Model Geom_Proofs.
Local Open Scope R_scope.

(** The area cut from a disc of radius [r] by a chord seen from the centre under the angle [2 a]. *)
Definition segment (r a : R) : R := r * r * (a - sin a * cos a).
Section Lens.
Variables r s d : R.
Hypotheses (Hr : 0 < r) (Hs : 0 < s) (Lo : Rabs (r - s) < d) (Hi : d < r + s).
Lemma gaps : 0 < d /\ r - s < d /\ s - r < d.
Proof. pose proof (Rabs_pos (r - s)). pose proof (Rle_abs (r - s)). pose proof (Rle_abs (- (r - s))) as X. rewrite Rabs_Ropp in X. lra. Qed.
Lemma ratio_bound : -1 < (d * d + r * r - s * s) / (2 * d * r) < 1.
Proof.
  pose proof gaps as (D & A & B). assert (P : 0 < 2 * d * r) by nra.
  assert (E : (d * d + r * r - s * s) / (2 * d * r) * (2 * d * r) = d * d + r * r - s * s) by (field; lra).
  split; apply Rmult_lt_reg_r with (2 * d * r); try exact P; rewrite E; nra.
Qed.
Definition area_product : R := (- d + r + s) * (d + r - s) * (d - r + s) * (d + r + s).
Lemma product_pos : 0 < area_product. Proof. pose proof gaps. unfold area_product. repeat apply Rmult_lt_0_compat; lra. Qed.
End Lens.
Lemma lens_sym r s d : lens r s d = lens s r d.
Proof. unfold lens. replace ((- d + r + s) * (d + r - s) * (d - r + s) * (d + r + s)) with ((- d + s + r) * (d + s - r) * (d - s + r) * (d + s + r)) by ring. ring. Qed.
Lemma sin_acos_ratio r s d : 0 < r -> 0 < s -> Rabs (r - s) < d -> d < r + s ->
  sin (acos ((d * d + r * r - s * s) / (2 * d * r))) = sqrt (area_product r s d) / (2 * d * r).
Proof.
  intros Hr Hs Lo Hi. pose proof (ratio_bound r s d Hr Lo Hi) as B. pose proof (gaps r s d Lo) as (D & _). rewrite sin_acos by lra.
  assert (P : 0 < 2 * d * r) by (apply Rmult_lt_0_compat; lra). replace (1 - ((d * d + r * r - s * s) / (2 * d * r))²) with (area_product r s d / ((2 * d * r) * (2 * d * r))) by (unfold area_product, Rsqr; field; lra).
  rewrite sqrt_div_alt by nra. now rewrite sqrt_square by lra.
Qed.
(** The formula is two segments: the circles meet at the height [r sin a = s sin b] above the line of
    centres, which the common chord divides into [r cos a] and [s cos b]. *)
Lemma lens_segments r s d : 0 < r -> 0 < s -> Rabs (r - s) < d -> d < r + s -> exists a b, 0 < a /\ 0 < b /\ a + b < PI /\
  r * cos a + s * cos b = d /\ r * sin a = s * sin b /\ r * sin a = sqrt (area_product r s d) / (2 * d) /\ lens r s d = segment r a + segment s b.
Proof.
  intros Hr Hs Lo Hi. pose proof (gaps r s d Lo) as (D & G1 & G2). pose proof (ratio_bound r s d Hr Lo Hi) as B. assert (Lo' : Rabs (s - r) < d) by (now rewrite Rabs_minus_sym). assert (Hi' : d < s + r) by lra. pose proof (ratio_bound s r d Hs Lo' Hi') as B'.
  pose proof (sin_acos_ratio r s d Hr Hs Lo Hi) as Sa. pose proof (sin_acos_ratio s r d Hs Hr Lo' Hi') as Sb. assert (Ap : area_product s r d = area_product r s d) by (unfold area_product; ring). rewrite Ap in Sb. pose proof (product_pos r s d Hs Lo Hi) as PP.
  set (u := (d * d + r * r - s * s) / (2 * d * r)) in *. set (v := (d * d + s * s - r * r) / (2 * d * s)) in *. pose proof (acos_bound_lt u B) as Ba. pose proof (acos_bound_lt v B') as Bb.
  pose proof (cos_acos u ltac:(lra)) as Ca. pose proof (cos_acos v ltac:(lra)) as Cb.
  assert (L : lens r s d = r * r * acos u + s * s * acos v - 1 / 2 * sqrt (area_product r s d)). { unfold lens. fold u. fold v. fold (area_product r s d). rewrite !clamp_id by lra. rewrite Rmax_left by lra. reflexivity. }
  set (a := acos u) in *. set (b := acos v) in *. set (q := sqrt (area_product r s d)) in *. assert (Q : 0 < q) by (now apply sqrt_lt_R0).
  assert (Rc : r * cos a + s * cos b = d). { rewrite Ca, Cb. unfold u, v. field. lra. }
  assert (Hh : r * sin a = q / (2 * d)) by (rewrite Sa; field; lra). assert (Hh' : s * sin b = q / (2 * d)) by (rewrite Sb; field; lra).
  exists a, b. split; [lra|]. split; [lra|]. split.
  - apply Rnot_le_lt. intros Ge. assert (Sn : sin (a + b) <= 0). { replace (a + b) with ((a + b - PI) + PI) by ring. rewrite neg_sin. assert (0 <= sin (a + b - PI)) by (apply sin_ge_0; lra). lra. }
    assert (E : r * s * sin (a + b) = q / (2 * d) * d). { transitivity (q / (2 * d) * (r * cos a + s * cos b)); [|now rewrite Rc]. rewrite sin_plus. replace (r * s * (sin a * cos b + cos a * sin b)) with (r * sin a * (s * cos b) + s * sin b * (r * cos a)) by ring. rewrite Hh, Hh'. ring. }
    assert (0 < q / (2 * d) * d) by (apply Rmult_lt_0_compat; [|exact D]; apply Rdiv_lt_0_compat; lra). assert (0 < r * s) by nra. nra.
  - split; [exact Rc|]. split; [lra|]. split; [exact Hh|]. rewrite L. unfold segment. replace (r * r * (a - sin a * cos a) + s * s * (b - sin b * cos b)) with (r * r * a + s * s * b - (r * sin a * (r * cos a) + s * sin b * (s * cos b))) by ring. rewrite Hh, Hh'.
    replace (q / (2 * d) * (r * cos a) + q / (2 * d) * (s * cos b)) with (q / (2 * d) * (r * cos a + s * cos b)) by ring. rewrite Rc. field. lra.
Qed.

(** ** How large it is *)
Lemma x_minus_sin x : 0 < x -> x < PI -> 0 < x - sin x * cos x.
Proof.
  intros X Y. assert (S : 0 < sin x) by (now apply sin_gt_0). assert (L : sin x < x) by (now apply sin_lt_x). pose proof (COS_bound x). nra.
Qed.
Lemma segment_pos r a : 0 < r -> 0 < a -> a < PI -> 0 < segment r a.
Proof. intros. unfold segment. apply Rmult_lt_0_compat; [nra|now apply x_minus_sin]. Qed.
(** [sin x - x cos x] is positive on the half turn. *)
Lemma sin_x_cos x : 0 < x -> x < PI -> 0 < sin x - x * cos x.
Proof.
  intros X Y. destruct (MVT_cor2 (fun x => sin x - x * cos x) (fun x => x * sin x) 0 x X) as (c & E & C).
  - intros c C. replace (c * sin c) with (cos c - (1 * cos c + c * (- sin c))) by ring. apply (derivable_pt_lim_minus sin (fun x => x * cos x)); [apply derivable_pt_lim_sin|]. apply (derivable_pt_lim_mult id cos); [apply derivable_pt_lim_id|apply derivable_pt_lim_cos].
  - rewrite sin_0 in E. assert (0 < sin c) by (apply sin_gt_0; lra). assert (0 < c * sin c * (x - 0)) by (repeat apply Rmult_lt_0_compat; lra). lra.
Qed.
Lemma share_slope x : 0 < x -> x < PI -> derivable_pt_lim (fun x => (x - sin x * cos x) / (sin x * sin x)) x (2 * (sin x - x * cos x) / (sin x * sin x * sin x)).
Proof.
  intros X Y. assert (S : 0 < sin x) by (now apply sin_gt_0). pose proof (sc x) as P.
  assert (H : derivable_pt_lim (fun x => (x - sin x * cos x) / (sin x * sin x)) x (((1 - (cos x * cos x + sin x * - sin x)) * (sin x * sin x) - (cos x * sin x + sin x * cos x) * (x - sin x * cos x)) / Rsqr (sin x * sin x))).
  { apply (derivable_pt_lim_div (fun x => x - sin x * cos x) (fun x => sin x * sin x)); [|apply (derivable_pt_lim_mult sin sin); apply derivable_pt_lim_sin|nra].
    apply (derivable_pt_lim_minus id (fun x => sin x * cos x)); [apply derivable_pt_lim_id|apply (derivable_pt_lim_mult sin cos); [apply derivable_pt_lim_sin|apply derivable_pt_lim_cos]]. }
  match type of H with derivable_pt_lim _ _ ?v => replace (2 * (sin x - x * cos x) / (sin x * sin x * sin x)) with v; [exact H|] end. unfold Rsqr.
  replace ((1 - (cos x * cos x + sin x * - sin x)) * (sin x * sin x) - (cos x * sin x + sin x * cos x) * (x - sin x * cos x)) with
    ((1 - (sin x * sin x + cos x * cos x)) * (sin x * sin x) + 2 * (sin x * sin x) * (sin x * sin x + cos x * cos x) - 2 * sin x * cos x * x) by ring.
  rewrite P. field. lra.
Qed.
Lemma share_lt x y : 0 < x -> x < y -> y < PI -> (x - sin x * cos x) / (sin x * sin x) < (y - sin y * cos y) / (sin y * sin y).
Proof.
  intros X XY Y. destruct (MVT_cor2 (fun x => (x - sin x * cos x) / (sin x * sin x)) (fun x => 2 * (sin x - x * cos x) / (sin x * sin x * sin x)) x y XY) as (c & E & C).
  - intros c C. apply share_slope; lra.
  - assert (S : 0 < sin c) by (apply sin_gt_0; lra). assert (K : 0 < sin c - c * cos c) by (apply sin_x_cos; lra). cbn beta in E.
    assert (0 < 2 * (sin c - c * cos c) / (sin c * sin c * sin c) * (y - x)); [|lra]. apply Rmult_lt_0_compat; [|lra]. apply Rdiv_lt_0_compat; [lra|]. repeat apply Rmult_lt_0_compat; exact S.
Qed.
Lemma two_segments r s a b : 0 < r -> 0 < s -> 0 < a -> 0 < b -> a + b < PI -> r * sin a = s * sin b -> segment r a + segment s b < PI * (r * r).
Proof.
  intros Hr Hs A B AB E. assert (Sa : 0 < sin a) by (apply sin_gt_0; lra). assert (Sb : 0 < sin b) by (apply sin_gt_0; lra). set (h := r * sin a) in *. assert (H : 0 < h) by (unfold h; nra).
  assert (R1 : r * r = h * h / (sin a * sin a)) by (unfold h; field; lra). assert (R2 : s * s = h * h / (sin b * sin b)) by (rewrite E; field; lra).
  pose proof (share_lt b (PI - a) B ltac:(lra) ltac:(lra)) as L. replace (sin (PI - a)) with (sin a) in L by (rewrite sin_minus, sin_PI, cos_PI; ring). replace (cos (PI - a)) with (- cos a) in L by (rewrite cos_minus, sin_PI, cos_PI; ring).
  unfold segment. rewrite R2. replace (h * h / (sin b * sin b) * (b - sin b * cos b)) with (h * h * ((b - sin b * cos b) / (sin b * sin b))) by (field; lra).
  assert (K : h * h * ((b - sin b * cos b) / (sin b * sin b)) < h * h * ((PI - a - sin a * - cos a) / (sin a * sin a))) by (apply Rmult_lt_compat_l; [nra|exact L]).
  replace (h * h * ((PI - a - sin a * - cos a) / (sin a * sin a))) with (r * r * (PI - a + sin a * cos a)) in K by (rewrite R1; field; lra). set (z := h * h * _) in *. lra.
Qed.
Lemma lens_bounds r s d : 0 < r -> 0 < s -> Rabs (r - s) < d -> d < r + s -> 0 < lens r s d < PI * (r * r).
Proof.
  intros Hr Hs Lo Hi. destruct (lens_segments r s d Hr Hs Lo Hi) as (a & b & A & B & AB & _ & E & _ & ->).
  split; [apply Rplus_lt_0_compat; apply segment_pos; lra|now apply two_segments].
Qed.
(** ** How it changes with the distance: by the common chord *)
Lemma acos_slope x : -1 < x < 1 -> derivable_pt_lim acos x (-1 / sqrt (1 - x²)).
Proof. intros H. rewrite <- (derive_pt_acos x H). apply derive_pt_eq_1 with (derivable_pt_acos x H). reflexivity. Qed.
Lemma ratio_slope r s d : 0 < r -> 0 < d -> derivable_pt_lim (fun d => (d * d + r * r - s * s) / (2 * d * r)) d ((d * d - r * r + s * s) / (2 * r * (d * d))).
Proof.
  intros Hr D. assert (H : derivable_pt_lim (fun d => (d * d + r * r - s * s) / (2 * d * r)) d (((1 * d + d * 1 + 0 - 0) * (2 * d * r) - (2 * 1 * r) * (d * d + r * r - s * s)) / Rsqr (2 * d * r))).
  { apply (derivable_pt_lim_div (fun d => d * d + r * r - s * s) (fun d => 2 * d * r)); [| |apply Rgt_not_eq; nra].
    - apply (derivable_pt_lim_minus (fun d => d * d + r * r) (fun _ => s * s)); [|apply derivable_pt_lim_const]. apply (derivable_pt_lim_plus (fun d => d * d) (fun _ => r * r)); [|apply derivable_pt_lim_const]. apply (derivable_pt_lim_mult id id); apply derivable_pt_lim_id.
    - replace (2 * 1 * r) with (2 * 1 * r + 2 * d * 0) by ring. apply (derivable_pt_lim_mult (fun d => 2 * d) (fun _ => r)); [|apply derivable_pt_lim_const]. apply (derivable_pt_lim_scal id), derivable_pt_lim_id. }
  match type of H with derivable_pt_lim _ _ ?v => replace ((d * d - r * r + s * s) / (2 * r * (d * d))) with v; [exact H|] end. unfold Rsqr. field. lra.
Qed.
Lemma product_slope r s d : derivable_pt_lim (fun d => (- d + r + s) * (d + r - s) * (d - r + s) * (d + r + s)) d (4 * d * (r * r + s * s - d * d)).
Proof.
  assert (E : forall d, (- d + r + s) * (d + r - s) * (d - r + s) * (d + r + s) = 4 * (r * r) * (d * d) - (d * d + (r * r - s * s)) * (d * d + (r * r - s * s))) by (intros; ring).
  assert (I2 : derivable_pt_lim (fun d => d * d) d (1 * id d + id d * 1)) by (apply (derivable_pt_lim_mult id id); apply derivable_pt_lim_id).
  assert (J : derivable_pt_lim (fun d => d * d + (r * r - s * s)) d (1 * id d + id d * 1 + 0)) by (apply (derivable_pt_lim_plus (fun d => d * d) (fun _ => r * r - s * s)); [exact I2|apply derivable_pt_lim_const]).
  assert (H : derivable_pt_lim (fun d => 4 * (r * r) * (d * d) - (d * d + (r * r - s * s)) * (d * d + (r * r - s * s))) d
    (4 * (r * r) * (1 * id d + id d * 1) - ((1 * id d + id d * 1 + 0) * (d * d + (r * r - s * s)) + (d * d + (r * r - s * s)) * (1 * id d + id d * 1 + 0)))).
  { apply (derivable_pt_lim_minus (fun d => 4 * (r * r) * (d * d)) (fun d => (d * d + (r * r - s * s)) * (d * d + (r * r - s * s)))); [apply (derivable_pt_lim_scal (fun d => d * d)); exact I2|apply (derivable_pt_lim_mult (fun d => d * d + (r * r - s * s)) (fun d => d * d + (r * r - s * s))); exact J]. }
  intros eps He. match type of H with derivable_pt_lim _ _ ?v => replace v with (4 * d * (r * r + s * s - d * d)) in H by (unfold id; ring) end. destruct (H eps He) as (del & D). exists del. intros h H1 H2. rewrite !E. now apply D.
Qed.
Lemma lens_slope r s d : 0 < r -> 0 < s -> Rabs (r - s) < d -> d < r + s -> derivable_pt_lim (lens r s) d (- (sqrt (area_product r s d) / d)).
Proof.
  intros Hr Hs Lo Hi. pose proof (gaps r s d Lo) as (D & G1 & G2). assert (Lo' : Rabs (s - r) < d) by (now rewrite Rabs_minus_sym). assert (Hi' : d < s + r) by lra.
  set (u := fun r s d => (d * d + r * r - s * s) / (2 * d * r)). set (P := fun d => (- d + r + s) * (d + r - s) * (d - r + s) * (d + r + s)).
  apply (derivable_pt_lim_locally_ext (fun d => r * r * acos (u r s d) + s * s * acos (u s r d) - 1 / 2 * sqrt (P d)) _ d (Rabs (r - s)) (r + s)); [lra| |].
  { intros z (Z1 & Z2). pose proof (ratio_bound r s z Hr Z1 Z2) as B. assert (Z1' : Rabs (s - r) < z) by (now rewrite Rabs_minus_sym). pose proof (ratio_bound s r z Hs Z1' ltac:(lra)) as B'. pose proof (product_pos r s z Hs Z1 Z2) as PP.
    unfold lens. fold (u r s z). fold (u s r z). fold (u r s z) in B. fold (u s r z) in B'. fold (P z). change (area_product r s z) with (P z) in PP. rewrite !clamp_id by lra. rewrite Rmax_left by lra. reflexivity. }
  pose proof (ratio_bound r s d Hr Lo Hi) as B. pose proof (ratio_bound s r d Hs Lo' Hi') as B'. pose proof (product_pos r s d Hs Lo Hi) as PP. set (q := sqrt (area_product r s d)). assert (Q : 0 < q) by (now apply sqrt_lt_R0). assert (Q2 : q * q = area_product r s d) by (apply sqrt_sqrt; lra).
  assert (W1 : sqrt (1 - (u r s d)²) = q / (2 * d * r)). { rewrite <- sin_acos by (unfold u; lra). now apply sin_acos_ratio. }
  assert (W2 : sqrt (1 - (u s r d)²) = q / (2 * d * s)). { rewrite <- sin_acos by (unfold u; lra). replace q with (sqrt (area_product s r d)) by (unfold q; f_equal; unfold area_product; ring). now apply sin_acos_ratio. }
  assert (H : derivable_pt_lim (fun d => r * r * acos (u r s d) + s * s * acos (u s r d) - 1 / 2 * sqrt (P d)) d
    (r * r * (-1 / sqrt (1 - (u r s d)²) * ((d * d - r * r + s * s) / (2 * r * (d * d)))) + s * s * (-1 / sqrt (1 - (u s r d)²) * ((d * d - s * s + r * r) / (2 * s * (d * d)))) - 1 / 2 * (/ (2 * sqrt (P d)) * (4 * d * (r * r + s * s - d * d))))).
  { apply (derivable_pt_lim_minus (fun d => r * r * acos (u r s d) + s * s * acos (u s r d)) (fun d => 1 / 2 * sqrt (P d))); [apply (derivable_pt_lim_plus (fun d => r * r * acos (u r s d)) (fun d => s * s * acos (u s r d)))|].
    - apply (derivable_pt_lim_scal (fun d => acos (u r s d))). apply (derivable_pt_lim_comp (u r s) acos); [now apply ratio_slope|now apply acos_slope].
    - apply (derivable_pt_lim_scal (fun d => acos (u s r d))). apply (derivable_pt_lim_comp (u s r) acos); [now apply ratio_slope|now apply acos_slope].
    - apply (derivable_pt_lim_scal (fun d => sqrt (P d))). apply (derivable_pt_lim_comp P sqrt); [apply product_slope|now apply derivable_pt_lim_sqrt]. }
  match type of H with derivable_pt_lim _ _ ?v => replace (- (q / d)) with v; [exact H|] end. rewrite W1, W2. change (P d) with (area_product r s d). fold q. 
  transitivity (- ((4 * (r * r) * (d * d) - (d * d + (r * r - s * s)) * (d * d + (r * r - s * s))) / (d * q))); [field; lra|].
  replace (4 * (r * r) * (d * d) - (d * d + (r * r - s * s)) * (d * d + (r * r - s * s))) with (q * q) by (rewrite Q2; unfold area_product; ring). field. lra.
Qed.
(** Seen with coordinates: the circles meet at the points [(x, h)] and [(x, -h)]. *)
Lemma lens_chord r s d x h : 0 < r -> 0 < s -> Rabs (r - s) < d -> d < r + s -> 0 <= h -> x * x + h * h = r * r -> (x - d) * (x - d) + h * h = s * s -> derivable_pt_lim (lens r s) d (- (2 * h)).
Proof.
  intros Hr Hs Lo Hi H0 E1 E2. pose proof (gaps r s d Lo) as (D & _). replace (2 * h) with (sqrt (area_product r s d) / d); [now apply lens_slope|].
  replace (area_product r s d) with ((2 * h * d) * (2 * h * d)); [rewrite sqrt_square by nra; field; lra|]. unfold area_product.
  replace ((- d + r + s) * (d + r - s) * (d - r + s) * (d + r + s)) with (4 * (r * r) * (d * d) - (d * d + (r * r) - (s * s)) * (d * d + (r * r) - (s * s))) by ring. rewrite <- E1, <- E2. ring.
Qed.
Lemma lens_decreasing r s d d' : 0 < r -> 0 < s -> Rabs (r - s) < d -> d < d' -> d' < r + s -> lens r s d' < lens r s d.
Proof.
  intros Hr Hs Lo L Hi. destruct (MVT_cor2 (lens r s) (fun d => - (sqrt (area_product r s d) / d)) d d' L) as (c & E & C).
  - intros c C. apply lens_slope; lra.
  - pose proof (gaps r s d Lo) as (D & _). pose proof (product_pos r s c Hs ltac:(lra) ltac:(lra)) as P. assert (0 < sqrt (area_product r s c) / c * (d' - d)). { apply Rmult_lt_0_compat; [|lra]. apply Rdiv_lt_0_compat; [now apply sqrt_lt_R0|lra]. } lra.
Qed.
