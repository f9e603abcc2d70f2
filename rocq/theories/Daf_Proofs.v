(** Lemmas about the DAF reader. *)
From Coq Require Import List ListDec NArith ZArith Lia Bool.
From Coq Require Import ZifyBool ZifyNat ZifyN.
From Verif Require Import Base Text Daf_Model Daf_Spec.
Import ListNotations.
Local Open Scope N_scope.

Lemma bytes_at_ok {E} data off k : off + N.of_nat k <= size data -> @bytes_at E data off k = Ok (cut data off k).
Proof. intros H. unfold bytes_at, size in *. destruct (N.leb_spec (off + N.of_nat k) (N.of_nat (length data))); [reflexivity|lia]. Qed.
Lemma read_f64_ok {E} le data off : off + 8 <= size data -> @read_f64 E le data off = Ok (dword le data off).
Proof. intros H. unfold read_f64. rewrite bytes_at_ok by (cbn; lia). reflexivity. Qed.
Lemma read_i32_ok {E} le data off : off + 4 <= size data -> @read_i32 E le data off = Ok (iword le data off).
Proof. intros H. unfold read_i32. rewrite bytes_at_ok by (cbn; lia). reflexivity. Qed.

Lemma read_many_ok {A} (rd : N -> outcome A daf_err) val off step k top :
  (forall o, o + step <= top -> rd o = Ok (val o)) -> off + N.of_nat k * step <= top ->
  read_many rd off step k = Ok (map (fun j => val (off + N.of_nat j * step)) (seq 0 k)).
Proof.
  intros R. revert off; induction k as [|k IH]; intros off H; [reflexivity|].
  cbn [read_many]. rewrite R by lia. cbn [obind]. rewrite IH by lia. cbn [obind seq map]. f_equal. f_equal.
  - f_equal. lia.
  - rewrite <- seq_shift, map_map. apply map_ext. intros j. f_equal. lia.
Qed.

Lemma rd_summary_ok le data off : off + 40 <= size data -> rd_summary le data off = Ok (val_summary le data off).
Proof.
  intros H. unfold rd_summary. rewrite !read_f64_ok by lia. cbn [obind]. cbv zeta.
  rewrite !read_i32_ok by lia. reflexivity.
Qed.
Lemma rd_raw_ok le data nd ni off : off + (nd + (ni + 1) / 2) * 8 <= size data ->
  rd_raw le data nd ni off = Ok (val_raw le data nd ni off).
Proof.
  intros H. unfold rd_raw.
  assert (B : 2 * ((ni + 1) / 2) >= ni) by (pose proof (N.div_mod (ni + 1) 2); pose proof (N.mod_lt (ni + 1) 2); lia).
  rewrite (read_many_ok _ (dword le data) _ _ _ (size data)); [|intros; now apply read_f64_ok|lia].
  cbn [obind]. rewrite (read_many_ok _ (iword le data) _ _ _ (size data)); [|intros; now apply read_i32_ok|lia].
  reflexivity.
Qed.

Section Loop.
  Context {S : Type} (le : bool) (data : list N) (ss : N) (rd : N -> outcome S daf_err) (val : N -> S).
  Hypothesis Hrd : forall off, off + ss * 8 <= size data -> rd off = Ok (val off).
  Hypothesis Hsize : size data < 9223372036854775808.
  Hypothesis Hss : 0 < ss <= 1000.

  Lemma cmul_ok a b : a * b < M64 -> cmul a b = Ok (a * b).
  Proof. intros H. unfold cmul. destruct (N.ltb_spec (a * b) M64); [reflexivity|lia]. Qed.
  Lemma cadd_ok a b : a + b < M64 -> cadd a b = Ok (a + b).
  Proof. intros H. unfold cadd. destruct (N.ltb_spec (a + b) M64); [reflexivity|lia]. Qed.

  Lemma sum_loop_spec rec ro i k acc : ro + 1024 <= size data -> (i = 0 \/ ro + 24 + i * (ss * 8) <= size data) ->
    (k = 0%nat \/ ro + 24 + (i + N.of_nat k) * (ss * 8) <= size data ->
       sum_loop data ss rd rec ro i k acc =
         Ok (acc ++ map (fun j => val (ro + 24 + (i + N.of_nat j) * (ss * 8))) (seq 0 k))) /\
    (k <> 0%nat /\ size data < ro + 24 + (i + N.of_nat k) * (ss * 8) ->
       exists j, sum_loop data ss rd rec ro i k acc = Err (SummaryPastEof j rec)).
  Proof.
    intros Hro. revert i acc; induction k as [|k IH]; intros i acc Hi.
    - split; [|intros [X _]; congruence]. intros _. cbn. now rewrite app_nil_r.
    - assert (Bi : i * (ss * 8) <= size data) by (destruct Hi as [->|]; lia).
      assert (R : sum_loop data ss rd rec ro i (Datatypes.S k) acc =
        (if size data <? ro + 24 + (i + 1) * (ss * 8) then Err (SummaryPastEof i rec)
         else obind (rd (ro + 24 + i * (ss * 8))) (fun s => sum_loop data ss rd rec ro (i + 1) k (acc ++ [s])))).
      { cbn [sum_loop]. assert (X : i * ss * 8 = i * (ss * 8)) by lia.
        rewrite cmul_ok by (unfold M64; lia). cbn [obind]. rewrite cmul_ok by (unfold M64; lia). cbn [obind].
        rewrite cadd_ok by (unfold M64; lia). cbn [obind]. rewrite cadd_ok by (unfold M64; lia). cbn [obind].
        rewrite cmul_ok by (unfold M64; lia). cbn [obind]. rewrite cadd_ok by (unfold M64; lia). cbn [obind].
        rewrite X. replace (ro + 24 + i * (ss * 8) + ss * 8) with (ro + 24 + (i + 1) * (ss * 8)) by lia. reflexivity. }
      destruct (N.ltb_spec (size data) (ro + 24 + (i + 1) * (ss * 8))) as [G|G].
      + split.
        * intros [X|X]; [discriminate|]. exfalso.
          assert ((i + 1) * (ss * 8) <= (i + N.of_nat (Datatypes.S k)) * (ss * 8)) by (apply N.mul_le_mono_r; lia). lia.
        * intros _. exists i. exact R.
      + destruct (IH (i + 1) (acc ++ [val (ro + 24 + i * (ss * 8))]) (or_intror G)) as [I1 I2].
        rewrite Hrd in R by lia. cbn [obind] in R. split.
        * intros _X. rewrite R, I1.
          -- rewrite <- app_assoc. cbn [app seq map]. f_equal. f_equal. f_equal.
             { f_equal. change (N.of_nat 0) with 0. rewrite N.add_0_r. reflexivity. }
             rewrite <- seq_shift, map_map. apply map_ext. intros j. f_equal. lia.
          -- destruct _X as [X|X]; [discriminate|]. destruct k; [now left|]. right.
             replace (i + 1 + N.of_nat (Datatypes.S k)) with (i + N.of_nat (Datatypes.S (Datatypes.S k))) by lia. exact X.
        * intros [_ X]. destruct (Nat.eq_dec k 0) as [->|Hk].
          -- change (N.of_nat 1) with 1 in X. lia.
          -- rewrite R. apply I2. split; [exact Hk|].
             replace (i + 1 + N.of_nat k) with (i + N.of_nat (Datatypes.S k)) by lia. exact X.
  Qed.

  Notation run := (rec_loop le data ss rd).
  Notation next := (next_rec le data).
  Definition good (r : N) : Prop := whole data r /\ fits_in le data ss r.
  Definition sums (r : N) : list S := map val (offsets le data ss r).

  Lemma good_dec r : good r \/ ~ good r.
  Proof.
    unfold good, whole, fits_in. destruct (N.eq_dec r 0); [right; tauto|].
    destruct (N.le_gt_cases (r * 1024) (size data)) as [H|H]; [|right; lia].
    destruct (N.eq_dec (count_of le data r) 0); [left; tauto|].
    destruct (N.le_gt_cases (rec_start r + 24 + count_of le data r * (ss * 8)) (size data)); [left|right]; tauto || lia.
  Qed.

  Lemma run_0 f acc : run (Datatypes.S f) 0 acc = Some (Ok acc).
  Proof. reflexivity. Qed.

  Lemma run_good f r acc : good r -> run (Datatypes.S f) r acc = run f (next r) (acc ++ sums r).
  Proof.
    intros [[Hr Hw] Hf]. cbn [rec_loop]. destruct (N.eqb_spec r 0); [congruence|].
    unfold rec_start in *. assert (E : (r - 1) * 1024 + 1024 = r * 1024) by lia.
    rewrite cmul_ok by (unfold M64; lia). cbn [obind]. rewrite cadd_ok by (unfold M64; lia). cbn [obind]. rewrite E.
    change (N.of_nat (length data)) with (size data).
    destruct (N.ltb_spec (size data) (r * 1024)); [lia|].
    rewrite !read_f64_ok by lia. cbn [obind].
    destruct (sum_loop_spec r ((r - 1) * 1024) 0 (N.to_nat (count_of le data r)) acc) as [H1 _]; [lia|now left|].
    assert (L : sum_loop data ss rd r ((r - 1) * 1024) 0 (N.to_nat (count_of le data r)) acc = Ok (acc ++ sums r)).
    { rewrite H1.
      - f_equal. f_equal. unfold sums, offsets. rewrite map_map. apply map_ext. intros j. reflexivity.
      - destruct Hf as [->|X]; [now left|]. unfold rec_start in X. right. lia. }
    change (f64_as_usize (dword le data ((r - 1) * 1024 + 16))) with (count_of le data r).
    rewrite L. cbn [obind]. reflexivity.
  Qed.

  Lemma run_bad f r acc : r <> 0 -> ~ good r ->
    (M64 <= r * 1024 /\ run (Datatypes.S f) r acc = Some Panic) \/
    (r * 1024 < M64 /\ exists e, run (Datatypes.S f) r acc = Some (Err e)).
  Proof.
    intros Hr Hg. cbn [rec_loop]. destruct (N.eqb_spec r 0); [congruence|].
    assert (E : (r - 1) * 1024 + 1024 = r * 1024) by lia.
    destruct (N.le_gt_cases M64 (r * 1024)) as [G|G].
    - left. split; [exact G|]. unfold cmul at 1. destruct (N.ltb_spec ((r - 1) * 1024) M64).
      + cbn [obind]. unfold cadd at 1. rewrite E. destruct (N.ltb_spec (r * 1024) M64); [lia|reflexivity].
      + reflexivity.
    - right. split; [exact G|]. rewrite cmul_ok by lia. cbn [obind]. rewrite cadd_ok by lia. cbn [obind]. rewrite E.
      change (N.of_nat (length data)) with (size data).
      destruct (N.ltb_spec (size data) (r * 1024)); [eexists; reflexivity|].
      rewrite !read_f64_ok by lia. cbn [obind].
      destruct (sum_loop_spec r ((r - 1) * 1024) 0 (N.to_nat (count_of le data r)) acc) as [_ H2]; [lia|now left|].
      assert (B : exists j, sum_loop data ss rd r ((r - 1) * 1024) 0 (N.to_nat (count_of le data r)) acc = Err (SummaryPastEof j r)).
      { apply H2. destruct (N.eq_dec (count_of le data r) 0) as [Z|Z].
        - exfalso. apply Hg. split; [split; [assumption|lia]|now left].
        - split; [lia|]. destruct (N.le_gt_cases (rec_start r + 24 + count_of le data r * (ss * 8)) (size data)) as [X|X].
          + exfalso. apply Hg. split; [split; [assumption|lia]|now right].
          + unfold rec_start in X. lia. }
      destruct B as (j & B).
      change (f64_as_usize (dword le data ((r - 1) * 1024 + 16))) with (count_of le data r).
      rewrite B. cbn [obind]. eexists; reflexivity.
  Qed.

  (** Success is exactly a finite chain. *)
  Lemma run_chain r l acc f : chain le data ss r l -> (length l < f)%nat ->
    run f r acc = Some (Ok (acc ++ flat_map sums l)).
  Proof.
    intros C. revert acc f; induction C as [|r l Hw Hf _ IH]; intros acc f Hl; destruct f as [|f]; cbn [length] in Hl; try lia.
    - rewrite run_0. cbn. now rewrite app_nil_r.
    - rewrite run_good by (split; assumption). rewrite IH by lia. cbn [flat_map]. now rewrite app_assoc.
  Qed.
  Lemma run_ok_chain f r acc out : run f r acc = Some (Ok out) ->
    exists l, chain le data ss r l /\ out = acc ++ flat_map sums l.
  Proof.
    revert r acc; induction f as [|f IH]; intros r acc H; [discriminate|].
    destruct (N.eq_dec r 0) as [->|Hr].
    - rewrite run_0 in H. injection H as <-. exists []. split; [constructor|]. now rewrite app_nil_r.
    - destruct (good_dec r) as [G|G].
      + rewrite run_good in H by assumption. apply IH in H as (l & C & ->).
        exists (r :: l). split; [constructor; [apply G..|exact C]|]. cbn [flat_map]. now rewrite app_assoc.
      + destruct (run_bad f r acc Hr G) as [[_ X]|[_ (e & X)]]; congruence.
  Qed.

  (** ** Termination *)
  Fixpoint iter (n : nat) (r : N) : N := match n with O => r | Datatypes.S m => iter m (next r) end.
  Lemma iter_S n r : iter (Datatypes.S n) r = next (iter n r).
  Proof. revert r; induction n as [|n IH]; intros r; [reflexivity|]. cbn [iter] in *. apply IH. Qed.
  Lemma iter_add n m r : iter (n + m) r = iter n (iter m r).
  Proof. induction n as [|n IH]; [reflexivity|]. rewrite Nat.add_succ_l, !iter_S, IH. reflexivity. Qed.

  Lemma run_none f r acc : run f r acc = None <-> forall i, (i < f)%nat -> good (iter i r).
  Proof.
    revert r acc; induction f as [|f IH]; intros r acc.
    - split; [intros _ i Hi; lia|reflexivity].
    - destruct (N.eq_dec r 0) as [->|Hr].
      { rewrite run_0. split; [discriminate|]. intros H. specialize (H 0%nat ltac:(lia)). destruct H as [[X _] _]. now destruct X. }
      destruct (good_dec r) as [G|G].
      + rewrite run_good by assumption. rewrite IH. split.
        * intros H [|i] Hi; [exact G|]. cbn [iter]. apply H. lia.
        * intros H i Hi. apply (H (Datatypes.S i)). lia.
      + split.
        * intros X. destruct (run_bad f r acc Hr G) as [[_ Y]|[_ (e & Y)]]; congruence.
        * intros H. exfalso. apply G. apply (H 0%nat). lia.
  Qed.

  Lemma pigeon (g : nat -> N) n : (forall i, (i <= n)%nat -> 0 < g i <= N.of_nat n) ->
    exists i j, (i < j <= n)%nat /\ g i = g j.
  Proof.
    intros H.
    destruct (ListDec.NoDup_dec Nat.eq_dec (map (fun i => N.to_nat (g i)) (seq 0 (Datatypes.S n)))) as [D|D].
    - exfalso. assert (I : incl (map (fun i => N.to_nat (g i)) (seq 0 (Datatypes.S n))) (seq 1 n)).
      { intros x Hx. apply in_map_iff in Hx as (i & <- & Hi). apply in_seq in Hi. specialize (H i ltac:(lia)). apply in_seq. lia. }
      pose proof (NoDup_incl_length D I) as L. rewrite map_length, !seq_length in L. lia.
    - assert (X : exists i j, (i < j <= n)%nat /\ N.to_nat (g i) = N.to_nat (g j)).
      { clear H. assert (G : forall k, (k <= Datatypes.S n)%nat -> ~ NoDup (map (fun i => N.to_nat (g i)) (seq 0 k)) ->
          exists i j, (i < j < k)%nat /\ N.to_nat (g i) = N.to_nat (g j)).
        { induction k as [|k IHk]; intros Hk ND; [exfalso; apply ND; constructor|].
          destruct (ListDec.NoDup_dec Nat.eq_dec (map (fun i => N.to_nat (g i)) (seq 0 k))) as [D'|D'].
          - rewrite seq_S, map_app in ND. cbn [map Nat.add] in ND.
            destruct (in_dec Nat.eq_dec (N.to_nat (g k)) (map (fun i => N.to_nat (g i)) (seq 0 k))) as [I|I].
            + apply in_map_iff in I as (i & E & Hi). apply in_seq in Hi. exists i, k. split; [lia|exact E].
            + exfalso. apply ND. apply NoDup_rev in D'. rewrite <- (rev_involutive (_ ++ _)). apply NoDup_rev.
              rewrite rev_app_distr. cbn [rev app]. constructor; [|exact D']. now rewrite <- in_rev.
          - destruct (IHk ltac:(lia) D') as (i & j & B & E). exists i, j. split; [lia|exact E]. }
        destruct (G (Datatypes.S n) ltac:(lia) D) as (i & j & B & E). exists i, j. split; [lia|exact E]. }
      destruct X as (i & j & B & E). exists i, j. split; [exact B|lia].
  Qed.

  (** If the loop is still running after one more step than there are records, it never ends. *)
  Theorem run_none_forever r acc : run (Datatypes.S (length data / 1024)) r acc = None ->
    forall f acc', run f r acc' = None.
  Proof.
    intros H. pose proof (proj1 (run_none _ _ _) H) as G. clear H. rename G into H. set (n := (length data / 1024)%nat) in *.
    assert (B : forall i, (i <= n)%nat -> 0 < iter i r <= N.of_nat n).
    { intros i Hi. destruct (H i ltac:(lia)) as [[H1 H2] _]. unfold size in H2.
      assert (N.to_nat (iter i r) * 1024 <= length data)%nat by lia.
      assert (N.to_nat (iter i r) <= n)%nat by (unfold n; apply Nat.div_le_lower_bound; lia). lia. }
    destruct (pigeon (fun i => iter i r) n B) as (i & j & Hij & E). cbn beta in E.
    intros f acc'. apply run_none. intros m _. induction m as [m IH] using lt_wf_ind.
    destruct (le_lt_dec m n) as [|Hm]; [apply H; lia|].
    replace m with ((m - j) + j)%nat by lia. rewrite iter_add, <- E, <- iter_add. apply IH. lia.
  Qed.

  (** A panic needs a record number whose byte offset does not fit 64 bits. *)
  Theorem run_panic f r acc : run f r acc = Some Panic ->
    exists i, (forall j, (j < i)%nat -> good (iter j r)) /\ M64 <= iter i r * 1024.
  Proof.
    revert r acc; induction f as [|f IH]; intros r acc H; [discriminate|].
    destruct (N.eq_dec r 0) as [->|Hr]; [rewrite run_0 in H; discriminate|].
    destruct (good_dec r) as [G|G].
    - rewrite run_good in H by assumption. apply IH in H as (i & H1 & H2). exists (Datatypes.S i).
      split; [|exact H2]. intros [|j] Hj; [exact G|]. cbn [iter]. apply H1. lia.
    - destruct (run_bad f r acc Hr G) as [[X _]|[_ (e & X)]]; [|congruence].
      exists 0%nat. split; [intros; lia|exact X].
  Qed.
End Loop.

(** ** Whole files *)
Lemma in_1_100_iff z : in_1_100 z = true <-> small z.
Proof. unfold in_1_100, small. lia. Qed.

Lemma header_spec {E} (e : E) data : 1024 <= size data ->
  (exists le nd ni, header e data = Ok (le, nd, ni) /\ announces data le nd ni) \/
  (header e data = Err e /\ forall le nd ni, ~ announces data le nd ni).
Proof.
  intros H. unfold header. rewrite !read_i32_ok by lia. cbn [obind].
  set (a := iword true data 8) in *. set (b := iword true data 12) in *.
  set (c := iword false data 8) in *. set (d := iword false data 12) in *.
  destruct (in_1_100 a && in_1_100 b) eqn:E1.
  - left. apply andb_prop in E1 as [A1 A2]. apply in_1_100_iff in A1, A2.
    exists true, (Z.to_N a), (Z.to_N b). split; [reflexivity|]. unfold announces. fold a b. unfold small in *.
    repeat split; try lia.
  - destruct (in_1_100 c && in_1_100 d) eqn:E2.
    + left. apply andb_prop in E2 as [A1 A2]. apply in_1_100_iff in A1, A2.
      exists false, (Z.to_N c), (Z.to_N d). split; [reflexivity|]. unfold announces. fold a b c d. unfold small in *.
      repeat split; try lia; intros _ [S1 S2]; apply andb_false_iff in E1; unfold in_1_100 in E1; lia.
    + right. split; [reflexivity|]. intros le nd ni (_ & X1 & X2 & S1 & S2 & _). rewrite X1 in S1. rewrite X2 in S2.
      apply in_1_100_iff in S1, S2. destruct le; fold a b c d in S1, S2; rewrite S1, S2 in *; discriminate.
Qed.

Lemma announces_unique data le nd ni le' nd' ni' : announces data le nd ni -> announces data le' nd' ni' ->
  le = le' /\ nd = nd' /\ ni = ni'.
Proof.
  intros (_ & A1 & A2 & A3 & A4 & A5) (_ & B1 & B2 & B3 & B4 & B5).
  assert (le = le').
  { destruct le, le'; try reflexivity.
    - exfalso. apply B5; [reflexivity|]. rewrite <- A1, <- A2. auto.
    - exfalso. apply A5; [reflexivity|]. rewrite <- B1, <- B2. auto. }
  subst le'. split; [reflexivity|]. split; lia.
Qed.

Lemma five : 0 < 5 <= 1000.
Proof. lia. Qed.

Lemma daf_parse_run f data le : locator_ok true data = true -> announces data le 2 6 ->
  daf_parse f data = rec_loop le data 5 (rd_summary le data) f (first_rec le data) [].
Proof.
  intros L A. unfold daf_parse. assert (H : 1024 <= size data) by apply A. unfold size in H.
  destruct (Nat.ltb_spec (length data) 1024); [lia|]. rewrite L. cbn [negb].
  destruct (header_spec BadEndian data ltac:(unfold size; lia)) as [(le' & nd & ni & -> & B)|[_ B]].
  - destruct (announces_unique _ _ _ _ _ _ _ A B) as (<- & <- & <-). cbn [of_outcome].
    rewrite read_i32_ok by (unfold size; lia). cbn [of_outcome]. reflexivity.
  - exfalso. eapply B; eauto.
Qed.

Lemma daf_parse_other f data : (forall le, ~ (locator_ok true data = true /\ announces data le 2 6)) ->
  exists e, daf_parse f data = Some (Err e).
Proof.
  intros H. unfold daf_parse. destruct (Nat.ltb_spec (length data) 1024); [eauto|].
  destruct (locator_ok true data); cbn [negb]; [|eauto].
  destruct (header_spec BadEndian data ltac:(unfold size; lia)) as [(le' & nd & ni & -> & B)|[-> _]]; cbn [of_outcome]; [|eauto].
  rewrite read_i32_ok by (unfold size; lia). cbn [of_outcome].
  destruct (N.eqb_spec nd 2) as [->|], (N.eqb_spec ni 6) as [->|]; cbn [andb negb]; eauto.
  exfalso. apply (H le'). auto.
Qed.

Lemma daf_success data out : size data < 9223372036854775808 ->
  ((exists f, daf_parse f data = Some (Ok out)) <->
   exists le l, locator_ok true data = true /\ announces data le 2 6 /\
     chain le data 5 (first_rec le data) l /\
     out = flat_map (fun r => map (val_summary le data) (offsets le data 5 r)) l).
Proof.
  intros Hs. split.
  - intros (f & P). destruct (locator_ok true data) eqn:L.
    2: { destruct (daf_parse_other f data) as (e & X); [intros le [Y _]; congruence|congruence]. }
    assert (A : exists le, announces data le 2 6).
    { destruct (N.le_gt_cases 1024 (size data)) as [H|H].
      - destruct (header_spec BadEndian data H) as [(le & nd & ni & E & A)|[E A]].
        + exists le. destruct (N.eq_dec nd 2) as [->|N1]; [destruct (N.eq_dec ni 6) as [->|N2]; [exact A|]|].
          * destruct (daf_parse_other f data) as (e & X); [|congruence].
            intros le' [_ Y]. destruct (announces_unique _ _ _ _ _ _ _ A Y) as (_ & _ & Z). congruence.
          * destruct (daf_parse_other f data) as (e & X); [|congruence].
            intros le' [_ Y]. destruct (announces_unique _ _ _ _ _ _ _ A Y) as (_ & Z & _). congruence.
        + destruct (daf_parse_other f data) as (e & X); [|congruence]. intros le [_ Y]. eapply A; eauto.
      - destruct (daf_parse_other f data) as (e & X); [|congruence]. intros le [_ (Y & _)]. lia. }
    destruct A as (le & A). rewrite (daf_parse_run f data le L A) in P.
    apply (run_ok_chain le data 5 (rd_summary le data) (val_summary le data) (rd_summary_ok le data) Hs five) in P as (l & C & ->).
    exists le, l. auto.
  - intros (le & l & L & A & C & ->). exists (S (length l)). rewrite (daf_parse_run _ data le L A).
    rewrite (run_chain le data 5 (rd_summary le data) (val_summary le data) (rd_summary_ok le data) Hs five _ l [] (S (length l)) C (Nat.lt_succ_diag_r _)). reflexivity.
Qed.

Lemma daf_forever data : size data < 9223372036854775808 ->
  daf_parse (S (length data / 1024)) data = None -> forall f, daf_parse f data = None.
Proof.
  intros Hs P f.
  assert (D : (exists le, locator_ok true data = true /\ announces data le 2 6) \/
              (forall le, ~ (locator_ok true data = true /\ announces data le 2 6))).
  { destruct (locator_ok true data); [|right; intros ? [? _]; discriminate].
    destruct (N.le_gt_cases 1024 (size data)) as [H|H]; [|right; intros le [_ (Y & _)]; lia].
    destruct (header_spec BadEndian data H) as [(le & nd & ni & E & A)|[E A]].
    - destruct (N.eq_dec nd 2) as [->|N1]; [destruct (N.eq_dec ni 6) as [->|N2]; [left; eauto|]|]; right;
        intros le' [_ Y]; destruct (announces_unique _ _ _ _ _ _ _ A Y) as (_ & Z1 & Z2); congruence.
    - right. intros le [_ Y]. eapply A; eauto. }
  destruct D as [(le & L & A)|D].
  - rewrite (daf_parse_run _ data le L A) in P. rewrite (daf_parse_run _ data le L A).
    eapply (run_none_forever le data 5 (rd_summary le data) (val_summary le data) (rd_summary_ok le data) Hs five). exact P.
  - destruct (daf_parse_other (S (length data / 1024)) data D) as (e & X). congruence.
Qed.

Lemma daf_panic data f : size data < 9223372036854775808 -> daf_parse f data = Some Panic ->
  exists le i, announces data le 2 6 /\
    (forall j, (j < i)%nat -> whole data (iter le data j (first_rec le data))) /\
    M64 <= iter le data i (first_rec le data) * 1024.
Proof.
  intros Hs P. destruct (locator_ok true data) eqn:L.
  2: { destruct (daf_parse_other f data) as (e & X); [intros le [Y _]; congruence|congruence]. }
  assert (D : (exists le, announces data le 2 6) \/ (forall le, ~ announces data le 2 6)).
  { destruct (N.le_gt_cases 1024 (size data)) as [H|H]; [|right; intros le (Y & _); lia].
    destruct (header_spec BadEndian data H) as [(le & nd & ni & E & A)|[E A]].
    - destruct (N.eq_dec nd 2) as [->|N1]; [destruct (N.eq_dec ni 6) as [->|N2]; [left; eauto|]|]; right;
        intros le' Y; destruct (announces_unique _ _ _ _ _ _ _ A Y) as (_ & Z1 & Z2); congruence.
    - right. intros le Y. eapply A; eauto. }
  destruct D as [(le & A)|D].
  - rewrite (daf_parse_run _ data le L A) in P.
    apply (run_panic le data 5 (rd_summary le data) (val_summary le data) (rd_summary_ok le data) Hs five) in P as (i & G & B).
    exists le, i. split; [exact A|]. split; [|exact B]. intros j Hj. apply G. exact Hj.
  - destruct (daf_parse_other f data) as (e & X); [intros le [_ Y]; eapply D; eauto|congruence].
Qed.

(** The generic reader *)
Lemma raw_parse_run f data le nd ni : locator_ok false data = true -> announces data le nd ni ->
  raw_parse f data = match rec_loop le data (nd + (ni + 1) / 2) (rd_raw le data nd ni) f (first_rec le data) [] with
    | None => None | Some (Ok l) => Some (Ok (nd, ni, l)) | Some (Err e) => Some (Err e) | Some Panic => Some Panic end.
Proof.
  intros L A. unfold raw_parse. assert (H : 1024 <= size data) by apply A. unfold size in H.
  destruct (Nat.ltb_spec (length data) 1024); [lia|]. rewrite L. cbn [negb].
  destruct (header_spec BadEndian data ltac:(unfold size; lia)) as [(le' & nd' & ni' & -> & B)|[_ B]].
  - destruct (announces_unique _ _ _ _ _ _ _ A B) as (<- & <- & <-). cbn [of_outcome].
    rewrite read_i32_ok by (unfold size; lia). cbn [of_outcome]. reflexivity.
  - exfalso. eapply B; eauto.
Qed.
Lemma ss_bound data le nd ni : announces data le nd ni -> 0 < nd + (ni + 1) / 2 <= 1000.
Proof. intros (_ & _ & _ & A & B & _). unfold small in *. lia. Qed.

Lemma raw_success data le nd ni out : size data < 9223372036854775808 ->
  locator_ok false data = true -> announces data le nd ni ->
  ((exists f, raw_parse f data = Some (Ok (nd, ni, out))) <->
   exists l, chain le data (nd + (ni + 1) / 2) (first_rec le data) l /\
     out = flat_map (fun r => map (val_raw le data nd ni) (offsets le data (nd + (ni + 1) / 2) r)) l).
Proof.
  intros Hs L A. pose proof (ss_bound _ _ _ _ A) as Hss.
  assert (R : forall off, off + (nd + (ni + 1) / 2) * 8 <= size data -> rd_raw le data nd ni off = Ok (val_raw le data nd ni off)) by (intros; now apply rd_raw_ok).
  split.
  - intros (f & P). rewrite (raw_parse_run f data le nd ni L A) in P.
    destruct (rec_loop _ _ _ _ _ _ _) as [[l|e|]|] eqn:E; try discriminate. injection P as ->.
    apply (run_ok_chain le data _ _ (val_raw le data nd ni) R Hs Hss) in E. exact E.
  - intros (l & C & ->). exists (S (length l)). rewrite (raw_parse_run _ data le nd ni L A).
    rewrite (run_chain le data _ _ (val_raw le data nd ni) R Hs Hss _ l [] (S (length l)) C (Nat.lt_succ_diag_r _)). reflexivity.
Qed.
