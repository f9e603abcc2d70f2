(** Proofs about Earth-orientation tables and twilight classes. *)
From Coq Require Import List NArith ZArith QArith Qfield Bool Lqa Lia Sorting.Sorted.
From Verif Require Import Base Text DecFloat Qb Fnum Eop_Model.
Import ListNotations.
Local Open Scope Q_scope.

Definition increasing (l : list eop_record) : Prop := StronglySorted (fun a b => mjd a < mjd b) l.
(** The six components in a row. *)
Definition comps (e : eop) : list Q := [dut1 e; lod e; xp e; yp e; dx e; dy e].
(** The value at [t] on the line through two records. *)
Definition on_line (t : Q) (a b r : eop_record) : Prop :=
  mjd r = t /\ Forall2 (fun uv w => w * (mjd b - mjd a) == fst uv * (mjd b - t) + snd uv * (t - mjd a)) (combine (comps (vals a)) (comps (vals b))) (comps (vals r)).
Lemma bisect_ok fuel l t : forall lo hi, (hi - lo <= S fuel)%nat -> (lo < hi < length l)%nat ->
  (exists a, nth_error l lo = Some a /\ mjd a <= t) -> (exists b, nth_error l hi = Some b /\ t < mjd b) ->
  exists k a b, bisect fuel l t lo hi = Some (k, S k) /\ (lo <= k)%nat /\ (S k <= hi)%nat /\ nth_error l k = Some a /\ nth_error l (S k) = Some b /\ mjd a <= t /\ t < mjd b.
Proof.
  induction fuel as [|n IH]; intros lo hi F R (a & Na & Ha) (b & Nb & Hb); cbn [bisect].
  - destruct (Nat.ltb_spec 1 (hi - lo)); [lia|]. exists lo, a, b. assert (hi = S lo) by lia. subst hi. repeat split; auto.
  - destruct (Nat.ltb_spec 1 (hi - lo)) as [L|L]; [|exists lo, a, b; assert (hi = S lo) by lia; subst hi; repeat split; auto].
    set (mid := ((lo + hi) / 2)%nat). assert (M : (lo < mid < hi)%nat).
    { unfold mid. split; [apply Nat.div_le_lower_bound; lia|apply Nat.div_lt_upper_bound; lia]. }
    destruct (nth_error l mid) as [r|] eqn:Nm; [|apply nth_error_None in Nm; lia].
    destruct (qleb_r (mjd r) t) as [Q|Q].
    + destruct (IH mid hi) as (k & x & y & H & ?); try lia; [exists r; split; [assumption|lra]|exists b; split; assumption|]. exists k, x, y. split; [exact H|]. intuition lia.
    + destruct (IH lo mid) as (k & x & y & H & ?); try lia; [exists a; split; assumption|exists r; split; [assumption|lra]|]. exists k, x, y. split; [exact H|]. intuition lia.
Qed.
Lemma blend_line t a b u v : mjd a < mjd b -> blend ((t - mjd a) / (mjd b - mjd a)) u v * (mjd b - mjd a) == u * (mjd b - t) + v * (t - mjd a).
Proof. intros H. unfold blend. field. lra. Qed.
Lemma last_nth {A} (x : A) l d : nth_error (x :: l) (length l) = Some (last (x :: l) d).
Proof. revert x. induction l as [|y l IH]; intros x; [reflexivity|]. cbn [length nth_error]. rewrite IH. reflexivity. Qed.
(** Whatever the order of the table. *)
Theorem interpolate_any first l t : let tab := first :: l in
  (t <= mjd first -> interpolate tab t = Some (Some first)) /\
  (mjd first < t -> mjd (last tab first) <= t -> interpolate tab t = Some (Some (last tab first))) /\
  (mjd first < t -> t < mjd (last tab first) -> exists k a b r, interpolate tab t = Some (Some r) /\
     nth_error tab k = Some a /\ nth_error tab (S k) = Some b /\ mjd a <= t /\ t < mjd b /\ on_line t a b r).
Proof.
  intros tab. unfold interpolate, tab. repeat split.
  - intros H. destruct (qleb_r t (mjd first)); [reflexivity|contradiction].
  - intros H1 H2. destruct (qleb_r t (mjd first)); [lra|]. destruct (qleb_r (mjd (last (first :: l) first)) t); [reflexivity|contradiction].
  - intros H1 H2. destruct (qleb_r t (mjd first)); [lra|]. destruct (qleb_r (mjd (last (first :: l) first)) t); [lra|].
    destruct l as [|y l]; [cbn in *; lra|].
    destruct (bisect_ok (length (first :: y :: l)) (first :: y :: l) t 0 (length (first :: y :: l) - 1)) as (k & a & b & B & _ & K & Na & Nb & Ha & Hb); [cbn; lia|cbn; lia|exists first; split; [reflexivity|lra]| |].
    + exists (last (first :: y :: l) first). split; [|assumption]. replace (length (first :: y :: l) - 1)%nat with (length (y :: l)) by (cbn; lia). apply last_nth.
    + rewrite B, Na, Nb. exists k, a, b. eexists. split; [reflexivity|]. repeat (split; [assumption|]). split; [reflexivity|]. unfold comps. cbn [vals dut1 lod xp yp dx dy combine].
      repeat constructor; cbn [fst snd]; apply blend_line; lra.
Qed.
Lemma inc_nth l i j a b : increasing l -> nth_error l i = Some a -> nth_error l j = Some b -> (i < j)%nat -> mjd a < mjd b.
Proof.
  intros S. revert i j. induction S as [|x l S IH F]; intros i j Hi Hj L; [destruct i; discriminate|]. destruct i as [|i].
  - injection Hi as <-. destruct j as [|j]; [lia|]. cbn in Hj. apply nth_error_In in Hj. rewrite Forall_forall in F. now apply F.
  - destruct j as [|j]; [lia|]. apply (IH i j); auto. lia.
Qed.
Lemma scale_eq w1 w2 d : 0 < d -> w1 * d == w2 * d -> w1 == w2.
Proof. intros H E. apply (Qmult_inj_r w1 w2 d); [lra|assumption]. Qed.
(** On an increasing table, between any two neighbours (ends included) the result lies on their line. *)
Theorem interpolate_between l i a b t : increasing l -> nth_error l i = Some a -> nth_error l (S i) = Some b -> mjd a <= t -> t <= mjd b ->
  exists r, interpolate l t = Some (Some r) /\ mjd r == t /\
    Forall2 (fun uv w => w * (mjd b - mjd a) == fst uv * (mjd b - t) + snd uv * (t - mjd a)) (combine (comps (vals a)) (comps (vals b))) (comps (vals r)).
Proof.
  intros S Na Nb Ha Hb. destruct l as [|first l]; [destruct i; discriminate|]. destruct (interpolate_any first l t) as (A & B & C).
  pose proof (inc_nth _ _ _ _ _ S Na Nb (Nat.lt_succ_diag_r i)) as Lab.
  assert (First : forall j x, nth_error (first :: l) j = Some x -> mjd first <= mjd x). { intros [|j] x H; [injection H as <-; lra|]. apply Qlt_le_weak. apply (inc_nth _ 0 (Datatypes.S j) _ _ S eq_refl H). lia. }
  assert (Last : forall j x, nth_error (first :: l) j = Some x -> mjd x <= mjd (last (first :: l) first) /\ (mjd x == mjd (last (first :: l) first) -> j = length l)).
  { intros j x H. assert (J : (j < length (first :: l))%nat) by (apply nth_error_Some; congruence). cbn [length] in J. destruct (Nat.eq_dec j (length l)) as [->|Nj]; [rewrite last_nth with (d := first) in H; assert (E : last (first :: l) first = x) by congruence; rewrite E; split; [lra|reflexivity]|].
    assert (mjd x < mjd (last (first :: l) first)) by (apply (inc_nth _ j (length l) _ _ S H (last_nth first l first)); lia). split; [lra|]. intros E. lra. }
  assert (Line : forall u v w, w == u -> t == mjd a -> w * (mjd b - mjd a) == u * (mjd b - t) + v * (t - mjd a)) by (intros u v w E1 E2; rewrite E1, E2; ring).
  assert (Line2 : forall u v w, w == v -> t == mjd b -> w * (mjd b - mjd a) == u * (mjd b - t) + v * (t - mjd a)) by (intros u v w E1 E2; rewrite E1, E2; ring).
  destruct (Qlt_le_dec (mjd first) t) as [L1|L1].
  - destruct (Qlt_le_dec t (mjd (last (first :: l) first))) as [L2|L2].
    + destruct C as (k & x & y & r & E & Nx & Ny & Hx & Hy & M & F); [assumption|assumption|]. exists r. split; [exact E|]. split; [now rewrite M|].
      destruct (Nat.lt_trichotomy k i) as [Lt|[Eq|Gt]].
      * destruct (Nat.eq_dec (Datatypes.S k) i) as [Ek|Nk].
        -- subst i. rewrite Ny in Na. injection Na as ->. lra.
        -- pose proof (inc_nth _ _ _ _ _ S Ny Na ltac:(lia)). lra.
      * subst k. rewrite Na in Nx. rewrite Nb in Ny. injection Nx as ->. injection Ny as ->. exact F.
      * destruct (Nat.eq_dec k (Datatypes.S i)) as [Ek|Nk].
        -- subst k. rewrite Nb in Nx. injection Nx as <-. assert (Et : t == mjd b) by lra. unfold comps in *. cbn [combine] in *. inversion F as [|? ? ? ? F1 F2]; subst. clear F.
           assert (Lxy : 0 < mjd y - mjd b) by lra.
           assert (G : forall u v w, w * (mjd y - mjd b) == u * (mjd y - mjd r) + v * (mjd r - mjd b) -> w == u) by (intros u v w H; apply (scale_eq _ _ (mjd y - mjd b) Lxy); rewrite H, Et; ring).
           repeat match goal with H : Forall2 _ (_ :: _) _ |- _ => inversion H; subst; clear H end. cbn [fst snd] in *.
           repeat (constructor; [cbn [fst snd]; apply Line2; [eapply G; eassumption|exact Et]|]). constructor.
        -- pose proof (inc_nth _ _ _ _ _ S Nb Nx ltac:(lia)). lra.
    + rewrite B by assumption. destruct (Last _ _ Nb) as [Hl1 Hl2]. assert (Et : t == mjd b) by lra. specialize (Hl2 ltac:(lra)). rewrite Hl2, last_nth with (d := first) in Nb. assert (E : last (first :: l) first = b) by congruence. rewrite E.
      eexists. split; [reflexivity|]. split; [lra|]. unfold comps. cbn [combine]. repeat (constructor; [cbn [fst snd]; apply Line2; [reflexivity|exact Et]|]). constructor.
  - rewrite A by assumption. pose proof (First _ _ Na) as Hf. assert (Et : t == mjd a) by lra. assert (i = O). { destruct i as [|i]; [reflexivity|]. pose proof (inc_nth _ 0 (Datatypes.S i) _ _ S eq_refl Na ltac:(lia)). lra. } subst i. injection Na as <-.
    eexists. split; [reflexivity|]. split; [lra|]. unfold comps. cbn [combine]. repeat (constructor; [cbn [fst snd]; apply Line; [reflexivity|exact Et]|]). constructor.
Qed.
(** ** Twilight *)
Definition rank (p : phase) : nat := match p with Day => 4 | Civil => 3 | Nautical => 2 | Astronomical => 1 | Dark => 0 end.
Lemma flt_fin a b : flt (Fin a) (Fin b) = true <-> a < b.
Proof. unfold flt. cbn. rewrite negb_true_iff. destruct (Qle_bool b a) eqn:E; [apply Qle_bool_iff in E|assert (~ b <= a) by (intros H; apply Qle_bool_iff in H; congruence)]; split; intros; try discriminate; try reflexivity; lra. Qed.
Theorem twilight_exact q : match twilight (Fin q) with
  | Day => 0 < q | Civil => -6 < q /\ q <= 0 | Nautical => -12 < q /\ q <= -6 | Astronomical => -18 < q /\ q <= -12 | Dark => q <= -18 end.
Proof.
  unfold twilight. pose proof (flt_fin 0 q). pose proof (flt_fin (-6) q). pose proof (flt_fin (-12) q). pose proof (flt_fin (-18) q).
  destruct (flt (Fin 0) (Fin q)), (flt (Fin (-6)) (Fin q)), (flt (Fin (-12)) (Fin q)), (flt (Fin (-18)) (Fin q)); 
  repeat match goal with H : true = true <-> _ |- _ => apply proj1 in H; specialize (H eq_refl) | H : false = true <-> _ |- _ => apply proj2 in H; match type of H with ?x < ?y -> _ => assert (y <= x) by (apply Qnot_lt_le; intros Hx; specialize (H Hx); discriminate); clear H end end; repeat split; lra.
Qed.
Lemma flt_mono c a b : fle a b = true -> flt c a = true -> flt c b = true.
Proof.
  unfold fle, flt. rewrite !andb_true_iff, !negb_true_iff. intros ((N1 & N2) & L) ((N3 & N4) & H). repeat split; auto. destruct (tleb b c) eqn:E; [|reflexivity]. rewrite (tleb_trans a b c L E) in H. discriminate.
Qed.
Theorem twilight_mono a b : fle a b = true -> (rank (twilight a) <= rank (twilight b))%nat.
Proof.
  intros L. unfold twilight. pose proof (flt_mono (Fin 0) a b L). pose proof (flt_mono (Fin (-6)) a b L). pose proof (flt_mono (Fin (-12)) a b L). pose proof (flt_mono (Fin (-18)) a b L).
  destruct (flt (Fin 0) a), (flt (Fin (-6)) a), (flt (Fin (-12)) a), (flt (Fin (-18)) a); repeat match goal with H : true = true -> _ |- _ => specialize (H eq_refl) | H : false = true -> _ |- _ => clear H end;
  repeat match goal with H : flt _ b = true |- _ => rewrite H; clear H end; cbn; try lia; repeat match goal with |- context [if ?x then _ else _] => destruct x end; cbn; lia.
Qed.
