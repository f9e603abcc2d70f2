From Coq Require Import Ascii String List Reals Bool Permutation Sorted Arith Lia Lra.
From Verif Require Import Base Mat3 Ang Geom_Model Geom_Proofs Qc_Model Qc_Proofs.
Import ListNotations.
Local Open Scope R_scope.

(** ** C137: the statistics of residuals *)
Theorem C137_stats l : l <> [] -> let s := from_slice l in let n := INR (List.length l) in
  st_n s = List.length l /\ n * st_mean s = sum l /\ n * st_rms s ^ 2 = squares l /\ (n - 1) * st_std s ^ 2 = about (st_mean s) l /\ 0 <= st_rms s /\ 0 <= st_std s /\
  (List.length l = 1%nat -> st_std s = 0).
Proof. intros NE. destruct (from_slice_described l NE) as (A & B & C & D & E & F & G & _). cbv zeta. auto 10. Qed.
Theorem C137_extremes l : l <> [] -> let s := from_slice l in
  In (st_min s) l /\ In (st_max s) l /\ (forall v, In v l -> st_min s <= v <= st_max s) /\ st_min s <= st_mean s <= st_max s.
Proof.
  intros NE. destruct (from_slice_described l NE) as (A & B & C & D & E & F & G & H & I & J). cbv zeta.
  split; [exact H|]. split; [exact I|]. pose proof (sum_bounds _ _ _ J) as K. assert (P : 0 < INR (List.length l)) by (destruct l; [easy|apply length_pos]).
  rewrite Forall_forall in J. split; [exact J|]. rewrite <- B in K. split; apply (Rmult_le_reg_l (INR (List.length l))); lra.
Qed.
Theorem C137_empty : from_slice [] = Stats 0 0 0 0 0 0. Proof. reflexivity. Qed.
(** what the three summary numbers say about each other *)
Theorem C137_spread l : l <> [] -> let s := from_slice l in let n := INR (List.length l) in
  st_rms s ^ 2 = st_mean s ^ 2 + (n - 1) / n * st_std s ^ 2 /\ Rabs (st_mean s) <= st_rms s /\ (st_std s = 0 <-> forall v, In v l -> v = st_mean s).
Proof.
  intros NE. destruct (from_slice_described l NE) as (A & B & C & D & E & F & G & _). cbv zeta. set (s := from_slice l) in *.
  assert (P : 0 < INR (List.length l)) by (destruct l; [easy|apply length_pos]). set (n := INR (List.length l)) in *.
  pose proof (about_squares (st_mean s) l) as Q. fold n in Q. rewrite <- B, <- C in Q.
  assert (X : st_rms s ^ 2 = st_mean s ^ 2 + (n - 1) / n * st_std s ^ 2).
  { apply (Rmult_eq_reg_l n); [|lra]. replace (n * (st_mean s ^ 2 + (n - 1) / n * st_std s ^ 2)) with (n * st_mean s ^ 2 + (n - 1) * st_std s ^ 2) by (field; lra). rewrite D, Q. ring. }
  assert (N1 : 1 <= n) by (unfold n; change 1 with (INR 1); apply le_INR; destruct l; [easy|cbn; lia]).
  split; [exact X|]. split.
  - rewrite <- (Rabs_pos_eq (st_rms s) E). apply Rsqr_le_abs_0. unfold Rsqr.
    assert (0 <= (n - 1) / n * st_std s ^ 2) by (apply Rmult_le_pos; [apply Rdiv_le_0_compat; lra|apply pow2_ge_0]). lra.
  - rewrite <- Forall_forall, <- about_zero, <- D. split; intros H.
    + rewrite H. ring.
    + destruct (Nat.eq_dec (List.length l) 1) as [L|L]; [now apply G|].
      assert (1 < n) by (unfold n; change 1 with (INR 1); apply lt_INR; destruct l; [easy|cbn in *; lia]).
      apply Rmult_integral in H as [H|H]; [lra|]. apply Rsqr_0_uniq. unfold Rsqr. lra.
Qed.
Theorem C137_order a b : Permutation a b -> from_slice a = from_slice b.
Proof. apply from_slice_perm. Qed.
(** another unit ([k > 0]) or origin *)
Theorem C137_units k c l : l <> [] -> 0 < k -> let s := from_slice l in let s' := from_slice (map (fun v => k * v + c) l) in
  st_n s' = st_n s /\ st_mean s' = k * st_mean s + c /\ st_std s' = k * st_std s /\ st_min s' = k * st_min s + c /\ st_max s' = k * st_max s + c /\
  (c = 0 -> st_rms s' = k * st_rms s).
Proof.
  intros NE K. destruct (from_slice_described l NE) as (A & B & C & D & E & F & G & H & I & J).
  assert (NE' : map (fun v => k * v + c) l <> []) by (destruct l; easy).
  destruct (from_slice_described _ NE') as (A' & B' & C' & D' & E' & F' & G' & H' & I' & J'). cbv zeta.
  set (s := from_slice l) in *. set (s' := from_slice (map (fun v => k * v + c) l)) in *. rewrite map_length in *.
  assert (P : 0 < INR (List.length l)) by (destruct l; [easy|apply length_pos]). set (n := INR (List.length l)) in *.
  assert (M : st_mean s' = k * st_mean s + c) by (apply (Rmult_eq_reg_l n); [|lra]; rewrite B', sum_affine, <- B; fold n; ring).
  split; [congruence|]. split; [exact M|]. split; [|split; [|split]].
  - destruct (Nat.eq_dec (List.length l) 1) as [L|L]; [rewrite G, G' by assumption; ring|].
    assert (1 < n) by (unfold n; change 1 with (INR 1); apply lt_INR; destruct l; [easy|cbn in *; lia]).
    apply Rsqr_inj'; [assumption|apply Rmult_le_pos; lra|]. apply (Rmult_eq_reg_l (n - 1)); [|lra]. rewrite D', M, about_affine.
    replace ((n - 1) * (k * st_std s) ^ 2) with (k ^ 2 * ((n - 1) * st_std s ^ 2)) by ring. now rewrite D.
  - rewrite Forall_forall in *. apply in_map_iff in H' as (v & Ev & Iv). apply Rle_antisym.
    + apply J'. apply in_map_iff. eauto.
    + rewrite <- Ev. apply Rplus_le_compat_r, Rmult_le_compat_l; [lra|]. now apply J.
  - rewrite Forall_forall in *. apply in_map_iff in I' as (v & Ev & Iv). apply Rle_antisym.
    + rewrite <- Ev. apply Rplus_le_compat_r, Rmult_le_compat_l; [lra|]. now apply J.
    + apply J'. apply in_map_iff. eauto.
  - intros ->. apply Rsqr_inj'; [assumption|apply Rmult_le_pos; lra|]. apply (Rmult_eq_reg_l n); [|lra]. rewrite C'.
    replace (n * (k * st_rms s) ^ 2) with (k ^ 2 * (n * st_rms s ^ 2)) by ring. rewrite C. unfold squares. clear. induction l as [|v l IH]; [cbn; ring|].
    cbn [map]. rewrite !sum_cons, IH. ring.
Qed.

Lemma keys_in items b k : good_buckets items b -> (exists l, In (k, l) b) <-> In k (map fst items).
Proof. intros (A & K & H). rewrite <- K. rewrite in_map_iff. split; [intros (l & I); now exists (k, l)|intros ([k' l] & <- & I); now exists l]. Qed.
Theorem C137_groups items : let g := from_pairs items in
  ascending (map fst (g_groups g)) /\ (forall k, In k (map fst (g_groups g)) <-> In k (map fst items)) /\
  (forall k s, In (k, s) (g_groups g) -> s = from_slice (of_key k items)) /\ g_overall g = from_slice (map snd items).
Proof.
  destruct (pairs_buckets items) as (b & (A & K & H) & E). cbv zeta. rewrite E. cbn [g_groups g_overall].
  assert (F : map fst (map (fun '(k, l) => (k, from_slice l)) b) = map fst b) by (rewrite map_map; apply map_ext; now intros [? ?]).
  rewrite F. split; [exact A|]. split; [exact K|]. split; [|reflexivity].
  intros k s I. apply in_map_iff in I as ([k' l] & Ek & I). injection Ek as -> <-. f_equal. rewrite <- H. symmetry. apply held_in; [now apply ascending_nodup|exact I].
Qed.
(** Groups and the overall numbers agree: counts, sums and squares add up, and the extremes are those of the groups. *)
Definition weighed (f : stats -> R) (l : list (string * stats)) : R := sum (map (fun p => INR (st_n (snd p)) * f (snd p)) l).
Lemma weighed_sum f items ks : (forall l, l <> [] -> forall s, described l s -> INR (st_n s) * f s = sum (map (fun v => f (from_slice [v])) l)) ->
  (forall k, In k ks -> of_key k items <> []) ->
  weighed f (map (fun k => (k, from_slice (of_key k items))) ks) = sum (map (fun v => f (from_slice [v])) (List.concat (map (fun k => of_key k items) ks))).
Proof.
  intros W. induction ks as [|k ks IH]; intros H; [reflexivity|]. unfold weighed in *. cbn [map List.concat snd]. rewrite sum_cons, map_app, sum_app. f_equal.
  - apply W; [apply H; now left|]. apply from_slice_described, H. now left.
  - apply IH. intros x I. apply H. now right.
Qed.
Lemma groups_list items : g_groups (from_pairs items) = map (fun k => (k, from_slice (of_key k items))) (map fst (g_groups (from_pairs items))).
Proof.
  destruct (C137_groups items) as (_ & _ & H & _). cbv zeta in H. rewrite map_map. rewrite <- (map_id (g_groups (from_pairs items))) at 1.
  apply map_ext_in. intros [k s] I. cbn [fst]. now rewrite (H k s I).
Qed.
Lemma of_key_nonempty k items : In k (map fst items) -> of_key k items <> [].
Proof.
  intros I E. apply in_map_iff in I as ([k' v] & Ek & I). cbn in Ek; subst. assert (In v (of_key k items)).
  { unfold of_key. apply in_map_iff. exists (k, v). split; [reflexivity|]. apply filter_In. split; [exact I|apply String.eqb_refl]. }
  now rewrite E in *.
Qed.
Lemma weighed_all f items : (forall l, l <> [] -> forall s, described l s -> INR (st_n s) * f s = sum (map (fun v => f (from_slice [v])) l)) ->
  items <> [] -> weighed f (g_groups (from_pairs items)) = INR (st_n (g_overall (from_pairs items))) * f (g_overall (from_pairs items)).
Proof.
  intros W NE. destruct (C137_groups items) as (A & K & _ & O). cbv zeta in *. rewrite O.
  assert (NE' : map snd items <> []) by (destruct items; easy). rewrite (W _ NE' _ (from_slice_described _ NE')).
  rewrite groups_list, weighed_sum; [|exact W|intros k I; apply of_key_nonempty; now apply K].
  apply sum_perm, Permutation_map, Permutation_sym, partition; [now apply ascending_nodup|]. intros p I. apply K. now apply in_map.
Qed.
Lemma one_value v : from_slice [v] = Stats 1 v 0 (sqrt (v ^ 2)) v v.
Proof.
  rewrite from_slice_eq. cbv zeta. cbn [List.length fold_left INR Nat.ltb Nat.leb]. unfold sum, squares, sum. cbn [map fold_right]. unfold low, high, rltb.
  destruct (Rlt_dec v v); f_equal; try reflexivity; try field; f_equal; field.
Qed.
Theorem C137_adds_up items : items <> [] -> let g := from_pairs items in let o := g_overall g in
  sum (map (fun p => INR (st_n (snd p))) (g_groups g)) = INR (st_n o) /\
  sum (map (fun p => INR (st_n (snd p)) * st_mean (snd p)) (g_groups g)) = INR (st_n o) * st_mean o /\
  sum (map (fun p => INR (st_n (snd p)) * st_rms (snd p) ^ 2) (g_groups g)) = INR (st_n o) * st_rms o ^ 2.
Proof.
  intros NE. cbv zeta. split; [|split].
  - pose proof (weighed_all (fun _ => 1) items) as H. unfold weighed in H. rewrite Rmult_1_r in H. rewrite <- H; [f_equal; apply map_ext; intros; ring| |exact NE].
    intros l _ s (A & _). rewrite A. clear. induction l as [|v l IH]; [cbn; ring|]. cbn [map List.length]. rewrite sum_cons, S_INR, <- IH. ring.
  - apply (weighed_all st_mean items); [|exact NE]. intros l _ s (A & B & _). rewrite A, B. f_equal. rewrite <- (map_id l) at 1. apply map_ext. intros v. now rewrite one_value.
  - apply (weighed_all (fun s => st_rms s ^ 2) items); [|exact NE]. intros l _ s (A & _ & B & _). rewrite A, B. unfold squares. f_equal. apply map_ext. intros v. rewrite one_value.
    cbn [st_rms]. rewrite sqrt_pow2; [reflexivity|apply pow2_ge_0].
Qed.
Lemma ascending_unique a b : ascending a -> ascending b -> (forall k, In k a <-> In k b) -> a = b.
Proof.
  revert b. induction a as [|x a IH]; intros [|y b] A B H.
  - reflexivity.
  - destruct (proj2 (H y) (or_introl eq_refl)).
  - destruct (proj1 (H x) (or_introl eq_refl)).
  - inversion A as [|? ? A1 A2]; subst. inversion B as [|? ? B1 B2]; subst. rewrite Forall_forall in *.
    assert (x = y).
    { destruct (proj1 (H x) (or_introl eq_refl)) as [E|E]; [now symmetry|]. destruct (proj2 (H y) (or_introl eq_refl)) as [F|F]; [exact F|].
      pose proof (cmp_trans _ _ _ (A2 _ F) (B2 _ E)) as Z. rewrite (proj2 (cmp_eq x x) eq_refl) in Z. discriminate. }
    subst y. f_equal. apply IH; [assumption|assumption|]. intros k. specialize (H k). cbn in H. split; intros I.
    + destruct (proj1 H (or_intror I)) as [->|Z]; [|exact Z]. specialize (A2 _ I). rewrite (proj2 (cmp_eq k k) eq_refl) in A2. discriminate.
    + destruct (proj2 H (or_intror I)) as [->|Z]; [|exact Z]. specialize (B2 _ I). rewrite (proj2 (cmp_eq k k) eq_refl) in B2. discriminate.
Qed.
Lemma filter_perm {A} (p : A -> bool) a b : Permutation a b -> Permutation (filter p a) (filter p b).
Proof.
  induction 1 as [|x a b P IH|x y a|a b c P IH Q IH']; cbn [filter]; [constructor| | |now transitivity (filter p b)].
  - destruct (p x); [now constructor|exact IH].
  - destruct (p x), (p y); try apply Permutation_refl. apply perm_swap.
Qed.
Theorem C137_group_order a b : Permutation a b -> from_pairs a = from_pairs b.
Proof.
  intros P. destruct (C137_groups a) as (A1 & A2 & A3 & A4). destruct (C137_groups b) as (B1 & B2 & B3 & B4). cbv zeta in *.
  assert (K : map fst (g_groups (from_pairs a)) = map fst (g_groups (from_pairs b))).
  { apply ascending_unique; [assumption|assumption|]. intros k. rewrite A2, B2. split; apply Permutation_in; [|apply Permutation_sym]; now apply Permutation_map. }
  assert (G : g_groups (from_pairs a) = g_groups (from_pairs b)).
  { rewrite groups_list, (groups_list b), K. apply map_ext. intros k. f_equal. apply from_slice_perm. unfold of_key. now apply Permutation_map, filter_perm. }
  assert (O : g_overall (from_pairs a) = g_overall (from_pairs b)) by (rewrite A4, B4; apply from_slice_perm; now apply Permutation_map).
  destruct (from_pairs a), (from_pairs b); cbn in *. congruence.
Qed.
(** The laser report keeps the residuals as given beside the statistics of their values. *)
Theorem C137_report pairs : fst (slr_report pairs) = pairs /\ snd (slr_report pairs) = from_slice (map snd pairs).
Proof. unfold slr_report. cbn. split; [|reflexivity]. rewrite <- (map_id pairs) at 2. apply map_ext. now intros [? ?]. Qed.

Example C137_case : let g := from_pairs [("b"%string, 3); ("a"%string, 1); ("b"%string, 5)] in
  map fst (g_groups g) = ["a"%string; "b"%string] /\ map (fun p => st_mean (snd p)) (g_groups g) = [1; 4] /\ st_mean (g_overall g) = 3 /\ st_max (g_overall g) = 5 /\ st_std (g_overall g) = 2.
Proof.
  cbv zeta. destruct (C137_groups [("b"%string, 3); ("a"%string, 1); ("b"%string, 5)]) as (_ & _ & _ & O). cbv zeta in O. rewrite O.
  set (l := map snd _). assert (L : l = [3; 1; 5]) by reflexivity. rewrite L.
  assert (S1 : total [3; 1; 5] / INR 3 = 3) by (unfold total; cbn; field).
  assert (S2 : fold_left (stat_step 3) [3; 1; 5] (0, 0, 3, 3) = (8, 35, 1, 5)).
  { cbn [fold_left stat_step]. unfold rltb. repeat (destruct (Rlt_dec _ _); try lra). repeat apply (f_equal2 pair); lra. }
  repeat split.
  - cbn. unfold total. cbn. unfold rltb. repeat (destruct (Rlt_dec _ _); try lra). f_equal; [field|f_equal; field].
  - unfold from_slice. change (List.length [3; 1; 5]) with 3%nat. cbv zeta. rewrite S1, S2. reflexivity.
  - unfold from_slice. change (List.length [3; 1; 5]) with 3%nat. cbv zeta. rewrite S1, S2. reflexivity.
  - unfold from_slice. change (List.length [3; 1; 5]) with 3%nat. cbv zeta. rewrite S1, S2. cbn [st_std Nat.ltb Nat.leb].
    replace (8 / (INR 3 - 1)) with (2 * 2) by (cbn; field). apply sqrt_square. lra.
Qed.

(** ** C138: orbit differences along the reference orbit's axes *)
Definition axes (frame : orbit -> option mat) : Prop := forall s m, frame s = Some m -> orthonormal m.
(** the triad of the force models is such a frame *)
Lemma unit_dot u : norm u <> 0 -> dot3 (scale (/ norm u) u) (scale (/ norm u) u) = 1.
Proof.
  intros H. assert (E : norm u * norm u = dot3 u u) by (unfold norm; apply sqrt_sqrt; destruct u as [[x y] z]; cbn; nra).
  replace (dot3 (scale (/ norm u) u) (scale (/ norm u) u)) with (/ norm u * / norm u * dot3 u u) by (destruct u as [[x y] z]; cbn; ring). rewrite <- E. field. exact H.
Qed.
Lemma rtn_frame_axes : axes rtn_frame.
Proof.
  intros [t p v] m. unfold rtn_frame. cbn [o_pos o_vel]. unfold reqb. destruct (Req_EM_T (norm p) 0) as [|A]; [discriminate|]. destruct (Req_EM_T (norm (cross p v)) 0) as [|B]; [discriminate|].
  assert (U := unit_dot p A). assert (W := unit_dot (cross p v) B).
  assert (O : dot3 (scale (/ norm (cross p v)) (cross p v)) (scale (/ norm p) p) = 0) by (destruct p as [[x y] z], v as [[u w] q]; cbn; ring).
  destruct (scale (/ norm p) p) as [[a b] c]. destruct (scale (/ norm (cross p v)) (cross p v)) as [[d e] f]. cbn [cross] in *. intros E. injection E as <-.
  cbn in U, W, O.
  rewrite <- (transpose_transpose (M _ _ _ _ _ _ _ _ _)). apply orthonormal_transpose. unfold orthonormal. rewrite transpose_transpose.
  apply mat_eq; cbn; try nra.
  all: try (transitivity (a * a + b * b + c * c); [ring|lra]).
Qed.
Theorem C138_difference frame es rs ds : axes frame -> rtn_diff frame es rs = Ok ds ->
  List.length ds = Nat.min (List.length es) (List.length rs) /\
  forall k e r d, nth_error es k = Some e -> nth_error rs k = Some r -> nth_error ds k = Some d ->
  d_epoch d = o_epoch e /\ (d_r d) ^ 2 + (d_t d) ^ 2 + (d_n d) ^ 2 = (1000 * norm (vminus (o_pos e) (o_pos r))) ^ 2 /\
  exists m, frame r = Some m /\ (d_r d, d_t d, d_n d) = scale 1000 (apply m (vminus (o_pos e) (o_pos r))).
Proof.
  intros A. revert rs ds. induction es as [|e es IH]; intros rs ds H; [injection H as <-; cbn; split; [reflexivity|intros [|]; discriminate]|].
  destruct rs as [|r rs]; [injection H as <-; cbn; split; [reflexivity|intros [|]; discriminate]|]. cbn [rtn_diff] in H.
  destruct (one_difference frame e r) as [d| |] eqn:D; try discriminate. destruct (rtn_diff frame es rs) as [ds'| |] eqn:T; try discriminate. injection H as <-.
  destruct (IH rs ds' T) as [L N]. split; [cbn; now rewrite L|]. intros [|k] e' r' d' E1 E2 E3; [|cbn in *; eauto].
  cbn in E1, E2, E3. injection E1 as <-. injection E2 as <-. injection E3 as <-. unfold one_difference in D. destruct (frame r) as [m|] eqn:F; [|discriminate].
  pose proof (orthonormal_dot m (vminus (o_pos e) (o_pos r)) (vminus (o_pos e) (o_pos r)) (A _ _ F)) as Q.
  destruct (apply m (vminus (o_pos e) (o_pos r))) as [[x y] z] eqn:V. injection D as <-. cbn [d_epoch d_r d_t d_n]. split; [reflexivity|]. split.
  - rewrite (Rpow_mult_distr 1000 _ 2). unfold norm. rewrite sqrt_pow2 by (destruct (vminus (o_pos e) (o_pos r)) as [[? ?] ?]; cbn; nra). rewrite <- Q. cbn. ring.
  - exists m. split; [reflexivity|]. rewrite V. cbn. repeat apply (f_equal2 pair); ring.
Qed.
Lemma fold_rtn ds a b c : fold_left (fun '(a, b, c) d => (a + d_r d * d_r d, b + d_t d * d_t d, c + d_n d * d_n d)) ds (a, b, c) =
  (a + sum (map (fun d => d_r d ^ 2) ds), b + sum (map (fun d => d_t d ^ 2) ds), c + sum (map (fun d => d_n d ^ 2) ds)).
Proof.
  revert a b c. induction ds as [|d ds IH]; intros a b c; cbn [fold_left map]; [unfold sum; cbn; now rewrite !Rplus_0_r|]. rewrite IH, !sum_cons. repeat apply (f_equal2 pair); ring.
Qed.
Lemma sum_squares_nonneg {A} (f : A -> R) l : 0 <= sum (map (fun d => f d ^ 2) l).
Proof. apply sum_nonneg, Forall_map, Forall_forall. intros d _. apply pow2_ge_0. Qed.
Theorem C138_summary ds : ds <> [] -> let s := rtn_summary ds in let n := INR (List.length ds) in
  s_n s = List.length ds /\ n * s_r s ^ 2 = sum (map (fun d => d_r d ^ 2) ds) /\ n * s_t s ^ 2 = sum (map (fun d => d_t d ^ 2) ds) /\ n * s_x s ^ 2 = sum (map (fun d => d_n d ^ 2) ds) /\
  s_3d s ^ 2 = s_r s ^ 2 + s_t s ^ 2 + s_x s ^ 2 /\ 0 <= s_r s <= s_3d s /\ 0 <= s_t s <= s_3d s /\ 0 <= s_x s <= s_3d s.
Proof.
  intros NE. assert (P : 0 < INR (List.length ds)) by (apply lt_0_INR; destruct ds; [easy|cbn; lia]).
  assert (U : rtn_summary ds = let n := INR (List.length ds) in let r := sqrt (sum (map (fun d => d_r d ^ 2) ds) / n) in let t := sqrt (sum (map (fun d => d_t d ^ 2) ds) / n) in
    let x := sqrt (sum (map (fun d => d_n d ^ 2) ds) / n) in Rs (List.length ds) (sqrt (r * r + t * t + x * x)) r t x).
  { unfold rtn_summary. destruct ds; [easy|]. rewrite fold_rtn, !Rplus_0_l. reflexivity. }
  cbv zeta. rewrite U. cbv zeta. cbn [s_n s_3d s_r s_t s_x]. set (n := INR (List.length ds)) in *.
  assert (D : forall f : rtn_difference -> R, 0 <= sum (map (fun d => f d ^ 2) ds) / n) by (intros f; apply Rdiv_le_0_compat; [apply sum_squares_nonneg|exact P]).
  pose proof (sqrt_pos (sum (map (fun d => d_r d ^ 2) ds) / n)). pose proof (sqrt_pos (sum (map (fun d => d_t d ^ 2) ds) / n)). pose proof (sqrt_pos (sum (map (fun d => d_n d ^ 2) ds) / n)).
  split; [reflexivity|]. rewrite !(sqrt_pow2 (_ / n)) by apply D. split; [field; lra|]. split; [field; lra|]. split; [field; lra|].
  assert (Hr := sqrt_sqrt _ (D d_r)). assert (Ht := sqrt_sqrt _ (D d_t)). assert (Hx := sqrt_sqrt _ (D d_n)).
  set (r := sqrt (sum (map (fun d => d_r d ^ 2) ds) / n)) in *. set (t := sqrt (sum (map (fun d => d_t d ^ 2) ds) / n)) in *. set (x := sqrt (sum (map (fun d => d_n d ^ 2) ds) / n)) in *.
  split.
  - rewrite sqrt_pow2 by nra. rewrite Hr, Ht, Hx. ring.
  - repeat split; try assumption; (match goal with |- ?u <= _ => rewrite <- (sqrt_square u) at 1 by assumption end; apply sqrt_le_1_alt; nra).
Qed.

(** The 3-D number is the root mean square distance between the paired positions, in metres, whatever the axes. *)
Fixpoint pairs (es rs : list orbit) : list (orbit * orbit) :=
  match es, rs with e :: es, r :: rs => (e, r) :: pairs es rs | _, _ => [] end.
Lemma diff_norms frame es rs ds : axes frame -> rtn_diff frame es rs = Ok ds ->
  map (fun d => d_r d ^ 2 + d_t d ^ 2 + d_n d ^ 2) ds = map (fun p => (1000 * norm (vminus (o_pos (fst p)) (o_pos (snd p)))) ^ 2) (pairs es rs).
Proof.
  intros A. revert rs ds. induction es as [|e es IH]; intros rs ds H; [injection H as <-; reflexivity|].
  destruct rs as [|r rs]; [injection H as <-; reflexivity|]. pose proof (C138_difference frame _ _ _ A H) as [_ N]. cbn [rtn_diff] in H.
  destruct (one_difference frame e r) as [d| |] eqn:D; try discriminate. destruct (rtn_diff frame es rs) as [ds'| |] eqn:T; try discriminate. injection H as <-.
  cbn [map pairs fst snd]. rewrite (IH rs ds' T). f_equal. now apply (N 0%nat e r d eq_refl eq_refl eq_refl).
Qed.
Theorem C138_distance frame es rs ds : axes frame -> rtn_diff frame es rs = Ok ds -> ds <> [] ->
  INR (s_n (rtn_summary ds)) * s_3d (rtn_summary ds) ^ 2 = sum (map (fun p => (1000 * norm (vminus (o_pos (fst p)) (o_pos (snd p)))) ^ 2) (pairs es rs)).
Proof.
  intros A H NE. rewrite <- (diff_norms frame es rs ds A H). destruct (C138_summary ds NE) as (N & R1 & R2 & R3 & T & _). cbv zeta in *. rewrite N, T.
  rewrite !Rmult_plus_distr_l, R1, R2, R3. clear. induction ds as [|d ds IH]; [cbn; ring|]. cbn [map]. rewrite !sum_cons, <- IH. ring.
Qed.
(** zero exactly when every paired position agrees *)
Theorem C138_zero frame es rs ds : axes frame -> rtn_diff frame es rs = Ok ds ->
  (s_3d (rtn_summary ds) = 0 <-> forall p, In p (pairs es rs) -> o_pos (fst p) = o_pos (snd p)).
Proof.
  intros A H. destruct ds as [|d0 ds0] eqn:E.
  - pose proof (C138_difference frame _ _ _ A H) as [L _]. split; [|reflexivity]. intros _ p I. destruct es as [|e es], rs as [|r rs]; cbn in L, I; try easy.
  - rewrite <- E in *. assert (NE : ds <> []) by (rewrite E; discriminate). pose proof (C138_distance frame es rs ds A H NE) as Q. destruct (C138_summary ds NE) as (N & _ & _ & _ & _ & S3 & _). cbv zeta in N, S3.
    assert (P : 0 < INR (s_n (rtn_summary ds))) by (rewrite N; apply lt_0_INR; rewrite E; cbn; lia).
    assert (Z : forall l : list (orbit * orbit), sum (map (fun p => (1000 * norm (vminus (o_pos (fst p)) (o_pos (snd p)))) ^ 2) l) = 0 <-> forall p, In p l -> o_pos (fst p) = o_pos (snd p)).
    { clear. induction l as [|[e r] l IH]; [split; [easy|reflexivity]|]. cbn [map fst snd]. rewrite sum_cons.
      pose proof (sum_squares_nonneg (fun p : orbit * orbit => 1000 * norm (vminus (o_pos (fst p)) (o_pos (snd p)))) l) as P. cbv beta in P.
      pose proof (pow2_ge_0 (1000 * norm (vminus (o_pos e) (o_pos r)))) as P'. split.
      - intros X p [<-|I]; [|apply IH; [lra|exact I]]. cbn [fst snd]. assert (Y : (1000 * norm (vminus (o_pos e) (o_pos r))) ^ 2 = 0) by lra.
        assert (Y' : 1000 * norm (vminus (o_pos e) (o_pos r)) = 0) by (apply Rsqr_0_uniq; unfold Rsqr; lra). assert (W : norm (vminus (o_pos e) (o_pos r)) = 0) by lra.
        unfold norm in W. destruct (o_pos e) as [[a b] c], (o_pos r) as [[x y] z]. cbn in W. apply sqrt_eq_0 in W; [|repeat apply Rplus_le_le_0_compat; apply Rle_0_sqr]. clear - W.
        pose proof (Rle_0_sqr (a - x)) as V1. pose proof (Rle_0_sqr (b - y)) as V2. pose proof (Rle_0_sqr (c - z)) as V3. unfold Rsqr in V1, V2, V3.
        assert (W1 : a - x = 0) by (apply Rsqr_0_uniq; unfold Rsqr; lra). assert (W2 : b - y = 0) by (apply Rsqr_0_uniq; unfold Rsqr; lra). assert (W3 : c - z = 0) by (apply Rsqr_0_uniq; unfold Rsqr; lra).
        repeat apply (f_equal2 pair); lra.
      - intros X. rewrite (proj2 IH) by (intros p I; apply X; now right). specialize (X (e, r) (or_introl eq_refl)). cbn in X. rewrite X.
        replace (norm (vminus (o_pos r) (o_pos r))) with 0; [ring|]. symmetry. unfold norm. destruct (o_pos r) as [[x y] z]. cbn. rewrite !Rminus_eq_0. replace (0 * 0 + 0 * 0 + 0 * 0) with 0 by ring. apply sqrt_0. }
    rewrite <- Z, <- Q. split; [intros ->; ring|]. intros X. apply Rmult_integral in X as [X|X]; [lra|]. apply Rsqr_0_uniq. unfold Rsqr. lra.
Qed.
(** The call panics exactly when a paired reference state has no axes; there is no other failure. *)
Theorem C138_panics frame es rs : (rtn_diff frame es rs = Panic <-> exists p, In p (pairs es rs) /\ frame (snd p) = None) /\ (forall x, rtn_diff frame es rs <> Err x).
Proof.
  revert rs. induction es as [|e es IH]; intros rs; [cbn; split; [split; [discriminate|intros (p & [] & _)]|discriminate]|].
  destruct rs as [|r rs]; [cbn; split; [split; [discriminate|intros (p & [] & _)]|discriminate]|]. destruct (IH rs) as [I1 I2]. cbn [rtn_diff pairs]. unfold one_difference.
  destruct (frame r) as [m|] eqn:F.
  - destruct (apply m (vminus (o_pos e) (o_pos r))) as [[x y] z]. destruct (rtn_diff frame es rs) as [ds| |] eqn:T; [| now destruct (I2 e0)|].
    + split; [split; [discriminate|]|discriminate]. intros (p & [<-|I] & N); [cbn in N; congruence|]. destruct I1 as [_ I1]. discriminate I1. eauto.
    + split; [split; [|reflexivity]|discriminate]. intros _. destruct (proj1 I1 eq_refl) as (p & I & N). exists p. split; [now right|exact N].
  - split; [split; [|reflexivity]|discriminate]. intros _. exists (e, r). split; [now left|exact F].
Qed.
(** States are paired by position in the lists, not by epoch: an orbit compared with itself one sample late is not
    reported as an error. *)
Theorem C138_by_index_refuted : ~ (forall es rs ds, rtn_diff rtn_frame es rs = Ok ds -> forall p, In p (pairs es rs) -> o_epoch (fst p) = o_epoch (snd p)).
Proof.
  intros H. set (a := Orbit 0 (1, 0, 0) (0, 1, 0)). set (b := Orbit 1 (0, 1, 0) (-1, 0, 0)).
  destruct (rtn_diff rtn_frame [b] [a]) as [ds| |] eqn:E.
  - specialize (H _ _ _ E (b, a) (or_introl eq_refl)). cbn in H. lra.
  - now destruct (proj2 (C138_panics rtn_frame [b] [a]) e).
  - destruct (proj1 (proj1 (C138_panics rtn_frame [b] [a])) E) as (p & [<-|[]] & N). cbn [snd] in N. unfold rtn_frame, a in N. cbn [o_pos o_vel] in N. unfold norm, reqb in N. cbn [dot3 cross] in N.
    replace (1 * 1 + 0 * 0 + 0 * 0) with 1 in N by ring. rewrite sqrt_1 in N. destruct (Req_EM_T 1 0); [lra|].
    match type of N with context [sqrt ?t] => replace t with 1 in N by ring end. rewrite sqrt_1 in N. destruct (Req_EM_T 1 0); [lra|]. cbn [scale cross] in N. discriminate N.
Qed.
Example C138_case : exists ds, rtn_diff rtn_frame [Orbit 7 (3, 0, 0) (0, 1, 0)] [Orbit 7 (1, 0, 0) (0, 1, 0); Orbit 8 (0, 0, 0) (0, 0, 0)] = Ok ds /\ List.length ds = 1%nat /\ s_3d (rtn_summary ds) = 2000.
Proof.
  set (es := [_]). set (rs := [_; _]). destruct (rtn_diff rtn_frame es rs) as [ds| |] eqn:E.
  - exists ds. split; [reflexivity|]. pose proof (C138_difference rtn_frame _ _ _ rtn_frame_axes E) as [L _]. cbn in L. split; [exact L|].
    assert (NE : ds <> []) by (intros ->; discriminate). pose proof (C138_distance rtn_frame _ _ _ rtn_frame_axes E NE) as Q. destruct (C138_summary ds NE) as (N & _ & _ & _ & _ & (S0 & S1) & _). cbv zeta in *.
    rewrite N, L in Q. cbn [pairs es rs map fst snd o_pos] in Q. unfold norm, sum in Q. cbn [vminus dot3 fold_right INR] in Q.
    replace ((3 - 1) * (3 - 1) + (0 - 0) * (0 - 0) + (0 - 0) * (0 - 0)) with (2 * 2) in Q by ring. rewrite sqrt_square in Q by lra.
    apply Rsqr_inj'; [lra|lra|lra].
  - now destruct (proj2 (C138_panics rtn_frame es rs) e).
  - destruct (proj1 (proj1 (C138_panics rtn_frame es rs)) E) as (p & [<-|[]] & N). cbn [snd] in N. unfold rtn_frame in N. cbn [o_pos o_vel] in N. unfold norm, reqb in N. cbn [dot3 cross] in N.
    replace (1 * 1 + 0 * 0 + 0 * 0) with 1 in N by ring. rewrite sqrt_1 in N. destruct (Req_EM_T 1 0); [lra|].
    match type of N with context [sqrt ?t] => replace t with 1 in N by ring end. rewrite sqrt_1 in N. destruct (Req_EM_T 1 0); [lra|]. cbn [scale cross] in N. discriminate N.
Qed.
Print Assumptions C137_stats.
Print Assumptions C137_extremes.
Print Assumptions C137_empty.
Print Assumptions C137_spread.
Print Assumptions C137_order.
Print Assumptions C137_units.
Print Assumptions C137_groups.
Print Assumptions C137_adds_up.
Print Assumptions C137_group_order.
Print Assumptions C137_report.
Print Assumptions C138_difference.
Print Assumptions C138_summary.
Print Assumptions C138_distance.
Print Assumptions C138_zero.
Print Assumptions C138_panics.
Print Assumptions C138_by_index_refuted.
