From Coq Require Import Ascii String List Reals Bool Permutation Sorted Arith Lia Lra.
From Verif Require Import Base Mat3 Ang Geom_Model Qc_Model.
Import ListNotations.
Local Open Scope R_scope.

(** The specification's own sums. *)
Definition sum (l : list R) : R := fold_right Rplus 0 l.
Definition squares (l : list R) : R := sum (map (fun v => v ^ 2) l).
Definition about (c : R) (l : list R) : R := sum (map (fun v => (v - c) ^ 2) l).

Lemma fold_plus l a : fold_left Rplus l a = a + sum l.
Proof. revert a. induction l as [|v l IH]; intros a; cbn [fold_left sum fold_right]; [lra|]. rewrite IH. fold (sum l). lra. Qed.
Lemma total_sum l : total l = sum l.
Proof. unfold total. rewrite fold_plus. lra. Qed.
Lemma sum_app a b : sum (a ++ b) = sum a + sum b.
Proof. unfold sum. induction a as [|v a IH]; cbn [app fold_right]; [lra|]. rewrite IH. lra. Qed.
Lemma sum_perm a b : Permutation a b -> sum a = sum b.
Proof. unfold sum. induction 1; cbn [fold_right]; lra. Qed.
Lemma sum_nonneg l : Forall (fun v => 0 <= v) l -> 0 <= sum l.
Proof. unfold sum. induction 1; cbn [fold_right]; lra. Qed.
Lemma about_nonneg c l : 0 <= about c l.
Proof. apply sum_nonneg, Forall_map, Forall_forall. intros v _. apply pow2_ge_0. Qed.
Lemma squares_nonneg l : 0 <= squares l.
Proof. apply sum_nonneg, Forall_map, Forall_forall. intros v _. apply pow2_ge_0. Qed.
Lemma about_cons c v l : about c (v :: l) = (v - c) ^ 2 + about c l. Proof. reflexivity. Qed.
Lemma squares_cons v l : squares (v :: l) = v ^ 2 + squares l. Proof. reflexivity. Qed.
Lemma sum_cons v l : sum (v :: l) = v + sum l. Proof. reflexivity. Qed.
Lemma about_squares c l : about c l = squares l - 2 * c * sum l + INR (List.length l) * c ^ 2.
Proof.
  induction l as [|v l IH]; [cbn; lra|]. rewrite about_cons, squares_cons, sum_cons, IH. cbn [List.length]. rewrite S_INR. lra.
Qed.

(** smallest and largest value met so far *)
Definition low (a v : R) : R := if rltb v a then v else a.
Definition high (a v : R) : R := if rltb a v then v else a.
Lemma fold_stats mean l a b c d :
  fold_left (stat_step mean) l (a, b, c, d) = (a + about mean l, b + squares l, fold_left low l c, fold_left high l d).
Proof.
  revert a b c d. induction l as [|v l IH]; intros a b c d; cbn [fold_left].
  - unfold about, squares; cbn. rewrite !Rplus_0_r. reflexivity.
  - cbn [stat_step]. fold (low c v) (high d v). rewrite IH, about_cons, squares_cons.
    apply (f_equal2 pair); [apply (f_equal2 pair); [apply (f_equal2 pair); lra|]|]; reflexivity.
Qed.
Lemma from_slice_eq v l : from_slice (v :: l) =
  let L := v :: l in let n := INR (List.length L) in let mean := sum L / n in
  Stats (List.length L) mean (if Nat.ltb 1 (List.length L) then sqrt (about mean L / (n - 1)) else 0) (sqrt (squares L / n)) (fold_left low L v) (fold_left high L v).
Proof.
  cbv zeta. unfold from_slice. rewrite total_sum, fold_stats, !Rplus_0_l. reflexivity.
Qed.
Lemma low_spec a v : (low a v = a \/ low a v = v) /\ low a v <= a /\ low a v <= v.
Proof. unfold low, rltb. destruct (Rlt_dec v a); lra. Qed.
Lemma high_spec a v : (high a v = a \/ high a v = v) /\ a <= high a v /\ v <= high a v.
Proof. unfold high, rltb. destruct (Rlt_dec a v); lra. Qed.
Lemma fold_low l a : (fold_left low l a = a \/ In (fold_left low l a) l) /\ fold_left low l a <= a /\ Forall (fun v => fold_left low l a <= v) l.
Proof.
  revert a. induction l as [|v l IH]; intros a; cbn [fold_left]; [repeat split; [now left|lra|constructor]|].
  destruct (IH (low a v)) as (A & B & C). destruct (low_spec a v) as (D & E & F). repeat split.
  - destruct A as [A|A]; [|right; now right]. rewrite A. destruct D as [->| ->]; [now left|right; now left].
  - lra.
  - constructor; [lra|exact C].
Qed.
Lemma fold_high l a : (fold_left high l a = a \/ In (fold_left high l a) l) /\ a <= fold_left high l a /\ Forall (fun v => v <= fold_left high l a) l.
Proof.
  revert a. induction l as [|v l IH]; intros a; cbn [fold_left]; [repeat split; [now left|lra|constructor]|].
  destruct (IH (high a v)) as (A & B & C). destruct (high_spec a v) as (D & E & F). repeat split.
  - destruct A as [A|A]; [|right; now right]. rewrite A. destruct D as [->| ->]; [now left|right; now left].
  - lra.
  - constructor; [lra|exact C].
Qed.
Lemma length_pos (v : R) l : 0 < INR (List.length (v :: l)).
Proof. apply lt_0_INR. cbn; lia. Qed.

(** What the statistics are, for a list with a value in it. *)
Definition described (l : list R) (s : stats) : Prop :=
  let n := INR (List.length l) in
  st_n s = List.length l /\ n * st_mean s = sum l /\ n * st_rms s ^ 2 = squares l /\ (n - 1) * st_std s ^ 2 = about (st_mean s) l /\
  0 <= st_rms s /\ 0 <= st_std s /\ (List.length l = 1%nat -> st_std s = 0) /\
  In (st_min s) l /\ In (st_max s) l /\ Forall (fun v => st_min s <= v <= st_max s) l.
Lemma Rdiv_le_0_compat a b : 0 <= a -> 0 < b -> 0 <= a / b.
Proof. intros A B. unfold Rdiv. apply Rmult_le_pos; [exact A|]. left. now apply Rinv_0_lt_compat. Qed.
Lemma sqrt_pow2 x : 0 <= x -> sqrt x ^ 2 = x.
Proof. intros H. replace (sqrt x ^ 2) with (sqrt x * sqrt x) by ring. now apply sqrt_sqrt. Qed.
Lemma from_slice_described l : l <> [] -> described l (from_slice l).
Proof.
  destruct l as [|v l]; [easy|]. intros _. rewrite from_slice_eq. cbv zeta. unfold described. cbn [st_n st_mean st_rms st_std st_min st_max].
  set (L := v :: l). assert (P : 0 < INR (List.length L)) by apply length_pos. set (n := INR (List.length L)) in *.
  split; [reflexivity|]. split; [field; lra|]. split.
  { rewrite sqrt_pow2; [field; lra|]. apply Rdiv_le_0_compat; [apply squares_nonneg|lra]. }
  split.
  { destruct (Nat.ltb 1 (List.length L)) eqn:E.
    - apply Nat.ltb_lt in E. assert (1 < n) by (unfold n; change 1 with (INR 1); now apply lt_INR).
      rewrite sqrt_pow2; [field; lra|]. apply Rdiv_le_0_compat; [apply about_nonneg|lra].
    - apply Nat.ltb_ge in E. destruct l as [|w l]; [|cbn in E; lia].
      unfold n, L, about; cbn. field. }
  split; [apply sqrt_pos|]. split; [destruct (Nat.ltb 1 (List.length L)); [apply sqrt_pos|lra]|].
  split; [intros E; now rewrite E|].
  destruct (fold_low L v) as (A & _ & C). destruct (fold_high L v) as (D & _ & F).
  split; [destruct A as [->|A]; [now left|exact A]|]. split; [destruct D as [->|D]; [now left|exact D]|].
  rewrite Forall_forall in *. auto.
Qed.
Lemma Rsqr_inj' a b : 0 <= a -> 0 <= b -> a ^ 2 = b ^ 2 -> a = b.
Proof. intros A B H. apply Rsqr_inj; [assumption|assumption|]. unfold Rsqr. lra. Qed.
(** and they are the only ones described so *)
Lemma described_unique l s s' : l <> [] -> described l s -> described l s' -> s = s'.
Proof.
  intros NE (A1 & A2 & A3 & A4 & A5 & A6 & A7 & A8 & A9 & A10) (B1 & B2 & B3 & B4 & B5 & B6 & B7 & B8 & B9 & B10).
  assert (P : 0 < INR (List.length l)) by (destruct l; [easy|apply length_pos]). set (n := INR (List.length l)) in *.
  assert (M : st_mean s = st_mean s') by (apply (Rmult_eq_reg_l n); lra).
  assert (Q : st_rms s = st_rms s') by (apply Rsqr_inj'; try assumption; apply (Rmult_eq_reg_l n); lra).
  assert (W : st_std s = st_std s').
  { destruct (Nat.eq_dec (List.length l) 1) as [E|E]; [now rewrite A7, B7|].
    assert (1 < n) by (unfold n; change 1 with (INR 1); apply lt_INR; destruct l; [easy|cbn in *; lia]).
    apply Rsqr_inj'; try assumption. apply (Rmult_eq_reg_l (n - 1)); [|lra]. rewrite A4, B4. now rewrite M. }
  rewrite Forall_forall in *.
  assert (X : st_min s = st_min s') by (apply Rle_antisym; [apply (A10 _ B8)|apply (B10 _ A8)]).
  assert (Y : st_max s = st_max s') by (apply Rle_antisym; [apply (B10 _ A9)|apply (A10 _ B9)]).
  destruct s, s'; cbn in *. congruence.
Qed.
Lemma squares_perm a b : Permutation a b -> squares a = squares b.
Proof. intros P. apply sum_perm. now apply Permutation_map. Qed.
Lemma about_perm c a b : Permutation a b -> about c a = about c b.
Proof. intros P. apply sum_perm. now apply Permutation_map. Qed.
Lemma described_perm a b s : Permutation a b -> described a s -> described b s.
Proof.
  intros P (A1 & A2 & A3 & A4 & A5 & A6 & A7 & A8 & A9 & A10). unfold described.
  rewrite <- (Permutation_length P), <- (sum_perm _ _ P), <- (squares_perm _ _ P), <- (about_perm _ _ _ P).
  repeat (split; [assumption|]). split; [now apply (Permutation_in _ P)|]. split; [now apply (Permutation_in _ P)|].
  rewrite Forall_forall in *. intros v I. apply A10. now apply (Permutation_in _ (Permutation_sym P)).
Qed.
Lemma from_slice_perm a b : Permutation a b -> from_slice a = from_slice b.
Proof.
  intros P. destruct a as [|v a]; [apply Permutation_nil in P; now subst|].
  assert (NE : b <> []) by (intros ->; apply Permutation_sym, Permutation_nil in P; easy).
  apply (described_unique b); [assumption|apply (described_perm (v :: a)); [assumption|now apply from_slice_described]|now apply from_slice_described].
Qed.
(** change of unit and origin *)
Lemma sum_affine k c l : sum (map (fun v => k * v + c) l) = k * sum l + INR (List.length l) * c.
Proof. induction l as [|v l IH]; [cbn; lra|]. cbn [map List.length]. rewrite !sum_cons, S_INR, IH. lra. Qed.
Lemma about_affine k c m l : about (k * m + c) (map (fun v => k * v + c) l) = k ^ 2 * about m l.
Proof. induction l as [|v l IH]; [unfold about; cbn; lra|]. cbn [map]. rewrite !about_cons, IH. lra. Qed.
Lemma sum_bounds lo hi l : Forall (fun v => lo <= v <= hi) l -> INR (List.length l) * lo <= sum l <= INR (List.length l) * hi.
Proof. induction 1; [cbn; lra|]. rewrite sum_cons. cbn [List.length]. rewrite S_INR. lra. Qed.
Lemma about_zero c l : about c l = 0 <-> Forall (fun v => v = c) l.
Proof.
  induction l as [|v l IH]; [split; [constructor|reflexivity]|]. rewrite about_cons. pose proof (about_nonneg c l). pose proof (pow2_ge_0 (v - c)). split.
  - intros E. constructor; [|apply IH; lra]. assert (Z : (v - c) ^ 2 = 0) by lra. assert (v - c = 0) by (apply Rsqr_0_uniq; unfold Rsqr; lra). lra.
  - intros F. inversion F as [|? ? F1 F2]; subst. rewrite (proj2 IH F2). ring.
Qed.

(** keys of the groups *)
Lemma cmp_eq s t : String.compare s t = Eq <-> s = t.
Proof. split; [apply String.compare_eq_iff|intros ->]. induction t as [|a t IH]; [reflexivity|]. cbn. unfold Ascii.compare. now rewrite N.compare_refl. Qed.
Lemma cmp_trans a b c : String.compare a b = Lt -> String.compare b c = Lt -> String.compare a c = Lt.
Proof.
  revert b c. induction a as [|x a IH]; intros [|y b] [|z c]; cbn; try easy.
  unfold Ascii.compare. destruct (N.compare_spec (N_of_ascii x) (N_of_ascii y)) as [E|E|E]; try easy;
  destruct (N.compare_spec (N_of_ascii y) (N_of_ascii z)) as [F|F|F]; try easy; intros A B.
  - rewrite E, F, N.compare_refl. eauto.
  - rewrite E. now rewrite (proj2 (N.compare_lt_iff _ _) F).
  - rewrite <- F. now rewrite (proj2 (N.compare_lt_iff _ _) E).
  - rewrite (proj2 (N.compare_lt_iff _ _) (N.lt_trans _ _ _ E F)). reflexivity.
Qed.
Lemma cmp_gt a b : String.compare a b = Gt -> String.compare b a = Lt.
Proof. intros H. rewrite String.compare_antisym, H. reflexivity. Qed.
Definition ascending (ks : list string) : Prop := StronglySorted (fun a b => String.compare a b = Lt) ks.
(** the values of one key, in order *)
Definition of_key (k : string) (items : list (string * R)) : list R := map snd (filter (fun p => String.eqb (fst p) k) items).
Definition held (m : list (string * list R)) (k : string) : list R :=
  match find (fun p => String.eqb (fst p) k) m with Some p => snd p | None => [] end.
Lemma push_keys k v m x : In x (map fst (push k v m)) <-> x = k \/ In x (map fst m).
Proof.
  induction m as [|[k' l] t IH]; [cbn; intuition|]. cbn [push]. destruct (String.compare k k') eqn:E; cbn [map fst In].
  - apply cmp_eq in E as ->. intuition.
  - intuition.
  - rewrite IH. intuition.
Qed.
Lemma push_ascending k v m : ascending (map fst m) -> ascending (map fst (push k v m)).
Proof.
  induction m as [|[k' l] t IH]; intros A; [repeat constructor|]. cbn [map fst] in A. inversion A as [|? ? A1 A2]; subst. cbn [push].
  destruct (String.compare k k') eqn:E; cbn [map fst].
  - exact A.
  - constructor; [exact A|]. constructor; [exact E|]. rewrite Forall_forall in *. intros x I. eapply cmp_trans; eauto.
  - constructor; [now apply IH|]. apply Forall_forall. intros x I. apply push_keys in I as [->|I]; [now apply cmp_gt|]. rewrite Forall_forall in A2. auto.
Qed.
Lemma eqb_cmp a b : String.eqb a b = match String.compare a b with Eq => true | _ => false end.
Proof.
  destruct (String.eqb_spec a b) as [->|N]; [now rewrite (proj2 (cmp_eq b b) eq_refl)|].
  destruct (String.compare a b) eqn:E; try reflexivity. now apply cmp_eq in E.
Qed.
Lemma held_missing m k : ~ In k (map fst m) -> held m k = [].
Proof.
  intros N. unfold held. destruct (find _ m) as [[k' l]|] eqn:F; [|reflexivity]. apply find_some in F as [I E]. cbn in E. apply String.eqb_eq in E as ->.
  destruct N. apply in_map_iff. now exists (k, l).
Qed.
Lemma push_held k v m x : ascending (map fst m) -> held (push k v m) x = if String.eqb k x then held m x ++ [v] else held m x.
Proof.
  induction m as [|[k' l] t IH]; intros A.
  - cbn. unfold held. cbn. destruct (String.eqb k x); reflexivity.
  - cbn [map fst] in A. inversion A as [|? ? A1 A2]; subst. cbn [push]. destruct (String.compare k k') eqn:E.
    + apply cmp_eq in E as ->. unfold held. cbn [find fst]. destruct (String.eqb k' x); reflexivity.
    + destruct (String.eqb_spec k x) as [->|N].
      * rewrite (held_missing ((k', l) :: t) x).
        -- unfold held. cbn [find fst]. now rewrite String.eqb_refl.
        -- cbn. intros [->|I]; [rewrite (proj2 (cmp_eq x x) eq_refl) in E; discriminate|].
           rewrite Forall_forall in A2. pose proof (cmp_trans _ _ _ E (A2 _ I)) as Z. rewrite (proj2 (cmp_eq x x) eq_refl) in Z. discriminate.
      * unfold held. cbn [find fst]. rewrite (proj2 (String.eqb_neq _ _) N). reflexivity.
    + specialize (IH A1). unfold held in *. cbn [find fst]. destruct (String.eqb_spec k' x) as [->|N].
      * destruct (String.eqb_spec k x) as [->|M]; [|reflexivity]. rewrite (proj2 (cmp_eq x x) eq_refl) in E. discriminate.
      * exact IH.
Qed.
Lemma of_key_app k a b : of_key k (a ++ b) = of_key k a ++ of_key k b.
Proof. unfold of_key. now rewrite filter_app, map_app. Qed.
Definition good_buckets (items : list (string * R)) (m : list (string * list R)) : Prop :=
  ascending (map fst m) /\ (forall k, In k (map fst m) <-> In k (map fst items)) /\ forall k, held m k = of_key k items.
Lemma fold_pairs items done b a : good_buckets done b -> a = map snd done ->
  exists b', fold_left (fun '(b, a) '(g, v) => (push g v b, a ++ [v])) items (b, a) = (b', map snd (done ++ items)) /\ good_buckets (done ++ items) b'.
Proof.
  revert done b a. induction items as [|[g v] items IH]; intros done b a G ->.
  - rewrite app_nil_r. exists b. now split.
  - cbn [fold_left]. destruct (IH (done ++ [(g, v)]) (push g v b) (map snd done ++ [v])) as (b' & E & G').
    + destruct G as (A & K & H). split; [now apply push_ascending|]. split.
      * intros k. rewrite push_keys, K, map_app, in_app_iff. cbn. intuition.
      * intros k. rewrite push_held by assumption. rewrite of_key_app, H. replace (of_key k [(g, v)]) with (if String.eqb g k then [v] else []) by (unfold of_key; cbn; now destruct (String.eqb g k)).
        destruct (String.eqb g k); [reflexivity|now rewrite app_nil_r].
    + now rewrite map_app.
    + exists b'. rewrite <- app_assoc in *. now split.
Qed.
Lemma pairs_buckets items : exists b, good_buckets items b /\ from_pairs items = Grouped (map (fun '(k, l) => (k, from_slice l)) b) (from_slice (map snd items)).
Proof.
  destruct (fold_pairs items [] [] []) as (b & E & G); [|reflexivity|].
  - split; [constructor|]. split; [now cbn|reflexivity].
  - exists b. split; [exact G|]. unfold from_pairs. cbn [app] in E. now rewrite E.
Qed.
Lemma ascending_nodup ks : ascending ks -> NoDup ks.
Proof.
  induction 1 as [|k ks A IH F]; [constructor|]. constructor; [|exact IH]. intros I. rewrite Forall_forall in F.
  specialize (F _ I). rewrite (proj2 (cmp_eq k k) eq_refl) in F. discriminate.
Qed.
Lemma held_in m k l : NoDup (map fst m) -> In (k, l) m -> held m k = l.
Proof.
  induction m as [|[k' l'] t IH]; [easy|]. cbn [map fst]. intros N [E|I]; inversion N as [|? ? N1 N2]; subst.
  - injection E as -> ->. unfold held. cbn [find fst]. now rewrite String.eqb_refl.
  - unfold held. cbn [find fst]. destruct (String.eqb_spec k' k) as [->|D]; [|now apply IH]. destruct N1. apply in_map_iff. now exists (k, l).
Qed.
(** every value is in exactly one bucket *)
Lemma split_key k items : Permutation (map snd items) (of_key k items ++ map snd (filter (fun p => negb (String.eqb (fst p) k)) items)).
Proof.
  unfold of_key. induction items as [|[g v] items IH]; [constructor|]. cbn [filter fst]. destruct (String.eqb g k); cbn [map snd negb app].
  - now constructor.
  - rewrite IH. apply Permutation_middle.
Qed.
Lemma of_key_other k k' items : k <> k' -> of_key k' (filter (fun p => negb (String.eqb (fst p) k)) items) = of_key k' items.
Proof.
  intros N. unfold of_key. induction items as [|[g v] items IH]; [reflexivity|]. cbn [filter fst].
  destruct (String.eqb_spec g k) as [->|M]; cbn [negb filter fst].
  - rewrite (proj2 (String.eqb_neq _ _) N). exact IH.
  - destruct (String.eqb g k'); cbn [map]; [now rewrite IH|exact IH].
Qed.
Lemma partition ks items : NoDup ks -> (forall p, In p items -> In (fst p) ks) -> Permutation (map snd items) (List.concat (map (fun k => of_key k items) ks)).
Proof.
  revert items. induction ks as [|k ks IH]; intros items N H.
  - destruct items as [|p items]; [constructor|]. destruct (H p (or_introl eq_refl)).
  - inversion N as [|? ? N1 N2]; subst. cbn [map List.concat]. rewrite (split_key k items). apply Permutation_app_head.
    rewrite (IH (filter (fun p => negb (String.eqb (fst p) k)) items) N2).
    + assert (E : map (fun x => of_key x (filter (fun p => negb (String.eqb (fst p) k)) items)) ks = map (fun x => of_key x items) ks).
      { apply map_ext_in. intros x I. apply of_key_other. intros ->. contradiction. }
      now rewrite E.
    + intros p I. apply filter_In in I as [I E]. destruct (H p I) as [Z|Z]; [|exact Z]. apply negb_true_iff, String.eqb_neq in E. congruence.
Qed.
