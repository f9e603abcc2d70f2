From Coq Require Import Ascii String List Arith NArith ZArith QArith Qabs Bool Lia Lqa Permutation Sorted.
From Coq Require Import ZifyBool ZifyNat ZifyN.
From Verif Require Import Base Text DecFloat Sort Fnum Daf_Model Daf_Spec Daf_Proofs Spk_Model Ck_Model.
Import ListNotations.
Local Open Scope N_scope.
Local Open Scope outcome_scope.

(** The documented contract of [binary_search_by] on a slice in ascending order *)
Definition search_ok (search : list fnum -> fnum -> nat + nat) : Prop := forall ks x, ordered tleb ks ->
  match search ks x with
  | inl i => exists k, nth_error ks i = Some k /\ tleb k x = true /\ tleb x k = true
  | inr i => (i <= length ks)%nat /\ forall j k, nth_error ks j = Some k ->
      ((j < i)%nat -> tleb x k = false) /\ ((i <= j)%nat -> tleb k x = false)
  end.
(** It can be met. *)
Fixpoint scan_search (ks : list fnum) (x : fnum) : nat + nat :=
  match ks with
  | [] => inr O
  | k :: t => if tleb x k then (if tleb k x then inl O else inr O)
              else match scan_search t x with inl i => inl (S i) | inr i => inr (S i) end
  end.
Lemma scan_search_ok : search_ok scan_search.
Proof.
  intros ks x. induction ks as [|k t IH]; intros O; [cbn; split; [lia|]; intros [|j] k; discriminate|].
  inversion O as [|? ? O' F]; subst. specialize (IH O'). cbn [scan_search]. destruct (tleb x k) eqn:E1.
  - destruct (tleb k x) eqn:E2; [exists k; auto|]. cbn [length]. split; [lia|]. intros j k' Hj. split; [lia|]. intros _.
    destruct j as [|j]; [injection Hj as <-; exact E2|]. cbn [nth_error] in Hj. apply nth_error_In in Hj. rewrite Forall_forall in F. specialize (F _ Hj).
    destruct (tleb k' x) eqn:E3; [|reflexivity]. rewrite (tleb_trans _ _ _ F E3) in E2. discriminate.
  - destruct (scan_search t x) as [i|i].
    + destruct IH as (k' & H1 & H2). exists k'. cbn [nth_error]. auto.
    + destruct IH as (L & H). cbn [length]. split; [lia|]. intros [|j] k' Hj.
      * injection Hj as <-. split; [auto|lia].
      * destruct (H j k' Hj) as (A & B). split; intros; [apply A|apply B]; lia.
Qed.

Lemma tleb_flt a b : is_nan a = false -> is_nan b = false -> tleb b a = false -> flt a b = true.
Proof. intros A B H. unfold flt. now rewrite A, B, H. Qed.
Lemma flt_tleb a b : is_nan a = false -> is_nan b = false -> flt a b = false -> tleb b a = true.
Proof. intros A B H. unfold flt in H. rewrite A, B in H. cbn in H. now apply negb_false_iff in H. Qed.
Definition same_tick (a b : fnum) : Prop := tleb a b = true /\ tleb b a = true.

Section Quat.
Context {V : Type}.
Variable norm_words : N -> N -> N -> N -> V.
Variable normalize : V -> V.
Variable slerp : V -> V -> fnum -> V.
Variable search : list fnum -> fnum -> nat + nat.
Hypothesis Hs : search_ok search.
Notation evaluate := (evaluate V normalize slerp search).
Notation rotation := (rotation V normalize slerp search).

Lemma ordered_ticks (l : list (record V)) : ordered by_tick l -> ordered tleb (map tick l).
Proof.
  induction 1 as [|r l H IH F]; [constructor|]. cbn [map]. constructor; [exact IH|]. apply Forall_map. exact F.
Qed.
Definition no_nan (l : list (record V)) : Prop := Forall (fun r => is_nan (tick r) = false) l.
Lemma last_in (l : list (record V)) d : l <> [] -> In (last l d) l.
Proof. intros H. destruct (exists_last H) as (a & x & ->). rewrite last_last. apply in_or_app. right. now left. Qed.
Lemma last_nth (l : list (record V)) d : l <> [] -> nth_error l (length l - 1) = Some (last l d).
Proof.
  intros H. destruct (exists_last H) as (a & x & ->). rewrite last_last, app_length. cbn [length].
  rewrite nth_error_app2 by lia. now replace (length a + 1 - 1 - length a)%nat with O by lia.
Qed.

Definition between (s : segment V) (x : fnum) (l r : record V) : Prop :=
  exists a b, recs s = a ++ l :: r :: b /\ flt (tick l) x = true /\ flt x (tick r) = true.
Definition blend (l r : record V) (x : fnum) : V :=
  let span := fsub (tick r) (tick l) in
  if tiny span then normalize (quat l) else slerp (quat l) (quat r) (fdiv (fsub x (tick l)) span).

Lemma evaluate_inside s x first rest : recs s = first :: rest -> ordered by_tick (recs s) -> no_nan (recs s) ->
  fle (tick first) x = true -> fle x (tick (last (recs s) first)) = true ->
  (exists r, In r (recs s) /\ same_tick (tick r) x /\ evaluate s x = Ok (normalize (quat r))) \/
  ((forall r, In r (recs s) -> ~ same_tick (tick r) x) /\ exists l r, between s x l r /\ evaluate s x = Ok (blend l r x)).
Proof.
  intros E Od NN F L. unfold fle in F, L. rewrite !andb_true_iff, !negb_true_iff in F, L. destruct F as ((_ & Nx) & F). destruct L as (_ & L).
  unfold Ck_Model.evaluate. rewrite E. rewrite <- E.
  assert (G : flt x (tick first) || flt (tick (last (recs s) first)) x = false).
  { unfold flt. rewrite F, L. cbn. now rewrite !andb_false_r. }
  rewrite G. pose proof (Hs (map tick (recs s)) x (ordered_ticks _ Od)) as S. destruct (search (map tick (recs s)) x) as [i|i].
  - left. destruct S as (k & Hk & A & B). rewrite nth_error_map in Hk. destruct (nth_error (recs s) i) as [r|] eqn:Er; [|discriminate].
    injection Hk as <-. exists r. split; [exact (nth_error_In _ _ Er)|]. split; [split; assumption|reflexivity].
  - right. destruct S as (Li & S). rewrite map_length in Li.
    assert (S' : forall j r, nth_error (recs s) j = Some r -> ((j < i)%nat -> tleb x (tick r) = false) /\ ((i <= j)%nat -> tleb (tick r) x = false)).
    { intros j r Hr. apply S. rewrite nth_error_map, Hr. reflexivity. }
    assert (Ne : recs s <> []) by (rewrite E; discriminate).
    assert (I0 : i <> O). { intros ->. destruct (S' 0%nat first) as (_ & X); [now rewrite E|]. rewrite X in F by lia. discriminate. }
    assert (I1 : (i < length (recs s))%nat).
    { destruct (Nat.lt_ge_cases i (length (recs s))) as [|X]; [assumption|].
      destruct (S' _ _ (last_nth (recs s) first Ne)) as (Y & _).
      assert (length (recs s) <> O) by (destruct (recs s); [congruence|discriminate]). rewrite Y in L by lia. discriminate. }
    split.
    { intros r Hr (A & B). apply In_nth_error in Hr as (j & Hj). destruct (S' j r Hj) as (X & Y).
      destruct (Nat.lt_ge_cases j i); [rewrite X in B by lia|rewrite Y in A by lia]; discriminate. }
    destruct (Nat.eqb_spec i 0); [contradiction|]. destruct (Nat.leb_spec (length (recs s)) i); [lia|]. cbn [orb].
    destruct (nth_error (recs s) (i - 1)) as [l|] eqn:El; [|exfalso; apply nth_error_None in El; lia].
    destruct (nth_error (recs s) i) as [r|] eqn:Er; [|exfalso; apply nth_error_None in Er; lia].
    exists l, r. split; [|unfold blend; destruct (tiny _); reflexivity].
    unfold no_nan in NN. rewrite Forall_forall in NN.
    destruct (nth_error_split _ _ El) as (a & b & Ea & La). rewrite Ea in Er. rewrite nth_error_app2 in Er by lia.
    replace (i - length a)%nat with 1%nat in Er by lia. destruct b as [|r' b]; [discriminate|]. injection Er as ->.
    exists a, b. split; [exact Ea|]. split.
    + apply tleb_flt; [apply NN; exact (nth_error_In _ _ El)|exact Nx|]. apply (S' _ _ El). lia.
    + apply tleb_flt; [exact Nx|apply NN; rewrite Ea; apply in_or_app; right; right; now left|].
      apply (S' i). 2: lia. rewrite Ea, nth_error_app2 by lia. replace (i - length a)%nat with 1%nat by lia. reflexivity.
Qed.
Lemma evaluate_outside s x first rest : recs s = first :: rest -> ordered by_tick (recs s) -> no_nan (recs s) ->
  fle (tick first) x = false \/ fle x (tick (last (recs s) first)) = false -> evaluate s x = Err (OutOfCoverage (start s) (stop s)).
Proof.
  intros E O NN H. assert (Ne : recs s <> []) by (rewrite E; discriminate). pose proof (last_in (recs s) first Ne) as Il.
  unfold no_nan in NN. rewrite Forall_forall in NN. assert (N1 : is_nan (tick first) = false) by (apply NN; rewrite E; now left).
  assert (N2 : is_nan (tick (last (recs s) first)) = false) by (apply NN; exact Il).
  unfold Ck_Model.evaluate. rewrite E. rewrite <- E. destruct (is_nan x) eqn:Nx.
  - destruct x as [| |]; try discriminate.
    assert (G : flt NaN (tick first) || flt (tick (last (recs s) first)) NaN = false) by (unfold flt; cbn; now rewrite andb_false_r).
    rewrite G. pose proof (Hs (map tick (recs s)) NaN (ordered_ticks _ O)) as S. destruct (search (map tick (recs s)) NaN) as [i|i].
    + exfalso. destruct S as (k & Hk & _ & B). rewrite nth_error_map in Hk. destruct (nth_error (recs s) i) as [r|] eqn:Er; [|discriminate].
      injection Hk as <-. specialize (NN r (nth_error_In _ _ Er)). destruct (tick r) as [|[]|]; cbn in *; discriminate.
    + destruct S as (_ & S). assert (L : (length (recs s) <= i)%nat).
      { destruct (Nat.le_gt_cases (length (recs s)) i) as [|X]; [assumption|]. destruct (nth_error (recs s) i) as [r|] eqn:Er; [|apply nth_error_None in Er; lia].
        destruct (S i (tick r)) as (_ & Y); [rewrite nth_error_map, Er; reflexivity|]. specialize (Y (Nat.le_refl _)). destruct (tick r) as [|[]|]; cbn in *; discriminate. }
      apply Nat.leb_le in L. rewrite L, orb_true_r. reflexivity.
  - assert (G : flt x (tick first) || flt (tick (last (recs s) first)) x = true).
    { unfold fle, flt in *. rewrite N1, N2, Nx in *. cbn in *. destruct H as [->| ->]; [reflexivity|now rewrite orb_true_r]. }
    rewrite G. reflexivity.
Qed.
Lemma evaluate_no_panic s x : ordered by_tick (recs s) -> evaluate s x <> Panic.
Proof.
  intros O. unfold Ck_Model.evaluate. destruct (recs s) as [|f t] eqn:E; [discriminate|]. rewrite <- E in O |- *.
  destruct (_ || _); [discriminate|]. pose proof (Hs (map tick (recs s)) x (ordered_ticks _ O)) as S. destruct (search _ _) as [i|i].
  - destruct S as (k & Hk & _). rewrite nth_error_map in Hk. destruct (nth_error (recs s) i); discriminate.
  - destruct S as (L & _). rewrite map_length in L. destruct (Nat.eqb_spec i 0); [discriminate|]. destruct (Nat.leb_spec (length (recs s)) i); [discriminate|]. cbn [orb].
    destruct (nth_error (recs s) (i - 1)) eqn:E1; [|apply nth_error_None in E1; lia]. destruct (nth_error (recs s) i) eqn:E2; [|apply nth_error_None in E2; lia].
    destruct (tiny _); discriminate.
Qed.
(** The fraction between two finite ticks *)
Lemma fraction (l r : record V) x p q : tick l = Fin p -> tick r = Fin q -> flt (tick l) x = true -> flt x (tick r) = true ->
  exists y, x = Fin y /\ (p < y < q)%Q /\ fdiv (fsub x (tick l)) (fsub (tick r) (tick l)) = Fin ((y + - p) / (q + - p)) /\
  (0 < (y + - p) / (q + - p) < 1)%Q.
Proof.
  intros -> -> A B. unfold flt in A, B. destruct x as [y|[]|]; cbn in A, B; try discriminate. exists y. split; [reflexivity|].
  apply negb_true_iff in A, B. assert (A' : (p < y)%Q) by (apply Qnot_le_lt; intros X; apply Qle_bool_iff in X; congruence).
  assert (B' : (y < q)%Q) by (apply Qnot_le_lt; intros X; apply Qle_bool_iff in X; congruence).
  split; [split; assumption|]. split; [reflexivity|]. split; [apply Qlt_shift_div_l|apply Qlt_shift_div_r]; lra.
Qed.

(** ** Segment choice *)
Definition covers (i : Z) (x : fnum) (s : segment V) : bool := (inst s =? i)%Z && (fle (start s) x && fle x (stop s)).
Lemma rotation_spec segs i x : match find (covers i x) segs with
  | Some s => rotation segs i x = evaluate s x
  | None => if existsb (fun s => (inst s =? i)%Z) segs then exists a b, rotation segs i x = Err (OutOfCoverage a b) else rotation segs i x = Err NoSegment
  end.
Proof.
  unfold Ck_Model.rotation. assert (G : forall c, match find (covers i x) segs with
    | Some s => rotation_from V normalize slerp search segs i x c = evaluate s x
    | None => if existsb (fun s => (inst s =? i)%Z) segs || match c with Some _ => true | None => false end
              then exists a b, rotation_from V normalize slerp search segs i x c = Err (OutOfCoverage a b) else rotation_from V normalize slerp search segs i x c = Err NoSegment end).
  { induction segs as [|s t IH]; intros c; [destruct c as [[a b]|]; cbn; eauto|]. cbn [find existsb rotation_from]. unfold covers at 1.
    destruct (inst s =? i)%Z eqn:Ei; cbn [andb negb orb]; [|apply IH]. destruct (fle (start s) x && fle x (stop s)); [reflexivity|].
    specialize (IH (Some match c with Some (a, b) => (fmin a (start s), fmax b (stop s)) | None => (start s, stop s) end)).
    destruct (find (covers i x) t); [exact IH|]. rewrite orb_true_r in IH. exact IH. }
  specialize (G None). destruct (find (covers i x) segs); [exact G|]. now rewrite orb_false_r in G.
Qed.
(** The reported coverage spans that of every segment of the instrument. *)
Lemma fmin_le a b : is_nan a = false -> is_nan b = false -> is_nan (fmin a b) = false /\ tleb (fmin a b) a = true /\ tleb (fmin a b) b = true.
Proof.
  intros A B. unfold fmin. rewrite A, B. destruct (tleb a b) eqn:E.
  - rewrite E, tleb_refl. auto.
  - destruct (tleb_total a b) as [X|X]; [congruence|]. rewrite X, tleb_refl. auto.
Qed.
Lemma fmax_ge a b : is_nan a = false -> is_nan b = false -> is_nan (fmax a b) = false /\ tleb a (fmax a b) = true /\ tleb b (fmax a b) = true.
Proof.
  intros A B. unfold fmax. rewrite A, B. destruct (tleb a b) eqn:E.
  - rewrite E, tleb_refl. auto.
  - destruct (tleb_total a b) as [X|X]; [congruence|]. rewrite X, tleb_refl. auto.
Qed.
Lemma rotation_cover segs i x : Forall (fun s => is_nan (start s) = false /\ is_nan (stop s) = false) segs -> find (covers i x) segs = None ->
  forall a b, rotation segs i x = Err (OutOfCoverage a b) ->
  Forall (fun s => inst s = i -> tleb a (start s) = true /\ tleb (stop s) b = true) segs.
Proof.
  intros Nn. assert (G : forall c a b, match c with Some (p, q) => is_nan p = false /\ is_nan q = false | None => True end ->
    find (covers i x) segs = None -> rotation_from V normalize slerp search segs i x c = Err (OutOfCoverage a b) ->
    match c with Some (p, q) => tleb a p = true /\ tleb q b = true | None => True end /\
    Forall (fun s => inst s = i -> tleb a (start s) = true /\ tleb (stop s) b = true) segs).
  { induction Nn as [|s t (N1 & N2) _ IH]; intros c a b Hc F H.
    - split; [|constructor]. cbn in H. destruct c as [[p q]|]; [|exact I]. injection H as <- <-. rewrite !tleb_refl. auto.
    - cbn [find rotation_from] in F, H. unfold covers in F at 1. destruct (inst s =? i)%Z eqn:Ei; cbn [andb negb] in F, H.
      + destruct (fle (start s) x && fle x (stop s)); [discriminate|].
        destruct c as [[p q]|].
        * destruct Hc as (Np & Nq). destruct (fmin_le p (start s) Np N1) as (M1 & M2 & M3). destruct (fmax_ge q (stop s) Nq N2) as (X1 & X2 & X3).
          destruct (IH (Some (fmin p (start s), fmax q (stop s))) a b (conj M1 X1) F H) as ((A & B) & Fa).
          split; [split; eapply tleb_trans; eauto|]. constructor; [|exact Fa]. intros _. split; eapply tleb_trans; eauto.
        * destruct (IH (Some (start s, stop s)) a b (conj N1 N2) F H) as (AB & Fa). split; [exact I|]. constructor; auto.
      + destruct (IH c a b Hc F H) as (C & Fa). split; [exact C|]. constructor; [|exact Fa]. intros X. apply Z.eqb_neq in Ei. contradiction. }
  intros F a b H. exact (proj2 (G None a b I F H)).
Qed.

(** ** Reading *)
Definition dw (data : list N) (w : N) : N := dword true data ((w - 1) * 8).
Definition rec_at (data : list N) (w : N) : record V :=
  Rec (f64_num (dw data w)) (norm_words (dw data (w + 1)) (dw data (w + 2)) (dw data (w + 3)) (dw data (w + 4))).
Definition rec_list (data : list N) (sw : N) (n : nat) : list (record V) := map (fun i => rec_at data (sw + 5 * N.of_nat i)) (seq 0 n).
Notation read_segment := (read_segment V norm_words).
Notation read_records := (read_records V norm_words).
Lemma word_ok data w : 1 <= w -> w * 8 <= size data -> word data w = Ok (dw data w).
Proof.
  intros A B. unfold word, lift, read_f64_at_word. destruct (N.eqb_spec w 0); [lia|]. rewrite read_f64_ok by lia. reflexivity.
Qed.
Lemma word_panic data w : w = 0 \/ size data < w * 8 -> word data w = Panic.
Proof.
  intros H. unfold word, lift, read_f64_at_word. destruct (N.eqb_spec w 0); [reflexivity|]. unfold read_f64, bytes_at. unfold size in *.
  destruct (N.leb_spec ((w - 1) * 8 + N.of_nat 8) (N.of_nat (length data))); [lia|reflexivity].
Qed.
Lemma rec_list_S data sw n : rec_list data sw (S n) = rec_at data sw :: rec_list data (sw + 5) n.
Proof.
  unfold rec_list. cbn [seq map]. f_equal; [f_equal; lia|]. rewrite <- seq_shift, map_map. apply map_ext. intros i. f_equal. lia.
Qed.
Lemma read_records_ok data n : forall sw, 1 <= sw -> (sw - 1 + 5 * N.of_nat n) * 8 <= size data -> read_records data sw n = Ok (rec_list data sw n).
Proof.
  induction n as [|n IH]; intros sw A B; [reflexivity|]. cbn [Ck_Model.read_records]. rewrite !word_ok by lia. cbn [obind].
  rewrite IH by lia. cbn [obind]. rewrite rec_list_S. reflexivity.
Qed.
Lemma by_tick_total : total (@by_tick V). Proof. intros a b. apply tleb_total. Qed.
Lemma by_tick_trans : transitive (@by_tick V). Proof. intros a b c. apply tleb_trans. Qed.

Lemma read_segment_spec data i f a b sw ew : 1 <= sw < ew -> ew * 8 <= size data -> size data < M64 ->
  let n := f64_as_usize (dw data ew) in
  read_segment data i f a b sw ew =
  if negb (f64_finite (dw data ew)) || f64_lt1 (dw data ew) then Err BadRecordCount
  else if ew - sw <? n * 5 then (if M64 <=? n * 5 + 1 then Err BadRecordCount else Err RangeTooSmall)
  else Ok (Seg i f a b (isort by_tick (rec_list data sw (N.to_nat n)))).
Proof.
  intros H L LM n. unfold Ck_Model.read_segment. destruct (N.leb_spec ew sw); [lia|]. rewrite word_ok by lia. cbn [obind]. fold n.
  destruct (negb _ || _); [reflexivity|].
  destruct (N.ltb_spec (ew - sw) (n * 5)).
  - destruct (N.leb_spec M64 (n * 5 + 1)); [reflexivity|]. destruct (N.ltb_spec (ew - sw + 1) (n * 5 + 1)); [reflexivity|lia].
  - destruct (N.leb_spec M64 (n * 5 + 1)) as [X|X]; [lia|]. destruct (N.ltb_spec (ew - sw + 1) (n * 5 + 1)); [lia|].
    rewrite read_records_ok by lia. reflexivity.
Qed.
Lemma as_usize_ge1 w : f64_finite w = true -> f64_lt1 w = false -> 1 <= f64_as_usize w.
Proof.
  intros F L. unfold f64_lt1 in L. apply orb_false_iff in L as (Ng & E). apply N.ltb_ge in E. unfold f64_finite in F. apply negb_true_iff in F.
  unfold f64_as_usize, f64_as, f64_trunc_mag. rewrite F, Ng. apply N.eqb_neq in F. destruct (N.eqb_spec (f64_exp w) 0); [lia|].
  set (m := f64_man w + 4503599627370496). assert (M : 4503599627370496 <= m) by lia. clearbody m.
  assert (G : forall k, 1 <= k -> 1 <= Z.to_N (clampZ 0 18446744073709551615 (Z.of_N k))).
  { intros k Hk. unfold clampZ. destruct (Z.ltb_spec (Z.of_N k) 0); [lia|]. destruct (Z.ltb_spec 18446744073709551615 (Z.of_N k)); lia. }
  destruct (N.leb_spec 1075 (f64_exp w)); apply G.
  - assert (2 ^ (f64_exp w - 1075) <> 0) by (apply N.pow_nonzero; lia). nia.
  - assert (P : 2 ^ (1075 - f64_exp w) <= 4503599627370496) by (change 4503599627370496 with (2 ^ 52); apply N.pow_le_mono_r; lia).
    assert (2 ^ (1075 - f64_exp w) <> 0) by (apply N.pow_nonzero; lia). apply N.div_le_lower_bound; lia.
Qed.
(** What an accepted segment holds *)
Lemma read_segment_ok data i f a b sw ew s : 1 <= sw < ew -> ew * 8 <= size data -> size data < M64 ->
  read_segment data i f a b sw ew = Ok s ->
  inst s = i /\ frame s = f /\ start s = a /\ stop s = b /\ ordered by_tick (recs s) /\
  exists n, (1 <= n)%nat /\ N.of_nat n = f64_as_usize (dw data ew) /\ sw + 5 * N.of_nat n <= ew /\ Permutation (rec_list data sw n) (recs s).
Proof.
  intros H L LM. pose proof (read_segment_spec data i f a b sw ew H L LM) as R. cbv zeta in R. rewrite R. clear R.
  destruct (negb _ || _) eqn:B; [discriminate|]. destruct (N.ltb_spec (ew - sw) (f64_as_usize (dw data ew) * 5)) as [X|X]; [destruct (_ <=? _); discriminate|].
  intros E. injection E as <-. cbn [inst frame start stop recs]. do 4 (split; [reflexivity|]). split; [apply isort_ordered; [apply by_tick_total|apply by_tick_trans]|].
  exists (N.to_nat (f64_as_usize (dw data ew))). rewrite N2Nat.id. apply orb_false_iff in B as (B0 & B). apply negb_false_iff in B0. pose proof (as_usize_ge1 _ B0 B).
  split; [lia|]. split; [reflexivity|]. split; [lia|]. apply Permutation_sym, isort_perm.
Qed.
Lemma read_segment_past data i f a b sw ew : sw < ew -> size data < ew * 8 -> read_segment data i f a b sw ew = Panic.
Proof. intros H L. unfold Ck_Model.read_segment. destruct (N.leb_spec ew sw); [lia|]. rewrite word_panic by lia. reflexivity. Qed.
Lemma read_records_zero data n : (1 <= n)%nat -> read_records data 0 n = Panic.
Proof. destruct n; [lia|]. intros _. cbn [Ck_Model.read_records]. rewrite word_panic by lia. reflexivity. Qed.
(** Exactly when a summary makes the reader panic *)
Lemma read_segment_panic data i f a b sw ew : size data < M64 -> (read_segment data i f a b sw ew = Panic <->
  sw < ew /\ (size data < ew * 8 \/
    sw = 0 /\ f64_finite (dw data ew) = true /\ f64_lt1 (dw data ew) = false /\ 5 * f64_as_usize (dw data ew) <= ew)).
Proof.
  intros LM. destruct (N.le_gt_cases ew sw) as [X|X].
  { unfold Ck_Model.read_segment. destruct (N.leb_spec ew sw); [|lia]. split; [discriminate|lia]. }
  destruct (N.lt_ge_cases (size data) (ew * 8)) as [Y|Y]; [rewrite (read_segment_past _ _ _ _ _ _ _ X Y); tauto|].
  destruct (N.eq_dec sw 0) as [->|Z].
  - unfold Ck_Model.read_segment. destruct (N.leb_spec ew 0); [lia|]. rewrite word_ok by lia. cbn [obind].
    destruct (f64_finite (dw data ew)) eqn:F; cbn [negb orb]; [|split; [discriminate|intros (_ & [?|(_ & ? & _)]); [lia|discriminate]]].
    destruct (f64_lt1 (dw data ew)) eqn:L1; [split; [discriminate|intros (_ & [?|(_ & _ & ? & _)]); [lia|discriminate]]|].
    pose proof (as_usize_ge1 _ F L1) as G. set (n := f64_as_usize (dw data ew)) in *. clearbody n.
    destruct (N.leb_spec M64 (n * 5 + 1)); [split; [discriminate|lia]|]. destruct (N.ltb_spec (ew - 0 + 1) (n * 5 + 1)); [split; [discriminate|lia]|].
    rewrite read_records_zero by lia. split; [|reflexivity]. intros _. split; [lia|]. right. repeat split; lia.
  - pose proof (read_segment_spec data i f a b sw ew) as R. cbv zeta in R. rewrite R by lia.
    split; [|lia]. destruct (_ || _); [discriminate|]. destruct (_ <? _); [destruct (_ <=? _); discriminate|discriminate].
Qed.

(** ** All the summaries *)
Definition wide (sm : raw_summary) : bool := (2 <=? length (fst sm))%nat && (6 <=? length (snd sm))%nat.
Definition type1 (sm : raw_summary) : bool := (nth 2 (snd sm) 0 =? 1)%Z.
Definition seg_of (data : list N) (sm : raw_summary) : outcome (segment V) ck_err :=
  read_segment data (nth 0 (snd sm) 0)%Z (nth 1 (snd sm) 0)%Z (f64_num (nth 0 (fst sm) 0)) (f64_num (nth 1 (fst sm) 0))
    (usize_of_i32 (nth (length (snd sm) - 2) (snd sm) 0)%Z) (usize_of_i32 (nth (length (snd sm) - 1) (snd sm) 0)%Z).
Lemma load_spec data sums segs : load V norm_words data sums = Ok segs <->
  forallb wide sums = true /\ Forall2 (fun sm s => seg_of data sm = Ok s) (filter type1 sums) segs.
Proof.
  revert segs. induction sums as [|(ds, is) t IH]; intros segs.
  - cbn. split; [intros E; injection E as <-; split; [reflexivity|constructor]|]. intros (_ & F). now inversion F.
  - cbn [load forallb filter]. unfold wide at 1, type1 at 1. cbn [fst snd]. rewrite (Nat.ltb_antisym 2 (length ds)), (Nat.ltb_antisym 6 (length is)).
    destruct (2 <=? length ds)%nat; cbn [negb orb andb]; [|split; [discriminate|intros (? & _); discriminate]].
    destruct (6 <=? length is)%nat; cbn [negb andb]; [|split; [discriminate|intros (? & _); discriminate]].
    destruct (nth 2 is 0 =? 1)%Z; cbn [negb]; [|apply IH].
    change (read_segment data _ _ _ _ _ _) with (seg_of data (ds, is)).
    destruct (seg_of data (ds, is)) as [s|e|] eqn:Es; cbn [obind].
    + destruct (load V norm_words data t) as [r|e|] eqn:El; cbn [obind].
      * split.
        -- intros E. injection E as <-. destruct (proj1 (IH r) eq_refl) as (A & B). split; [exact A|]. now constructor.
        -- intros (A & F). inversion F as [|? s' ? r' H1 H2]; subst. rewrite Es in H1. injection H1 as <-.
           assert (X : Ok r = Ok r') by (apply IH; auto). injection X as ->. reflexivity.
      * split; [discriminate|]. intros (A & F). inversion F as [|? s' ? r' H1 H2]; subst. assert (X : Err e = Ok r') by (apply IH; auto). discriminate.
      * split; [discriminate|]. intros (A & F). inversion F as [|? s' ? r' H1 H2]; subst. assert (X : Panic = Ok r') by (apply IH; auto). discriminate.
    + split; [discriminate|]. intros (A & F). inversion F as [|? s' ? r' H1 H2]; subst. congruence.
    + split; [discriminate|]. intros (A & F). inversion F as [|? s' ? r' H1 H2]; subst. congruence.
Qed.
End Quat.
