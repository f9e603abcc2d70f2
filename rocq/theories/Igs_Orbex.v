(** Proofs about orbit exchange files. *)
From Coq Require Import Ascii String List NArith ZArith Bool QArith Lia.
From Verif Require Import Base Text DecFloat Lsk_Spec Sp3_Model Oem_Model Omm_Model Ilrs_Model Nav_Model Igs_Model Igs_Spec Igs_Proofs.
From Verif Require Ilrs_Proofs.
Import ListNotations.
Local Open Scope N_scope.

Definition prod (ver : str) (pre : list str) : orbex :=
  Orbex ver (flat_map orb_of (each (ox_words Orb) pre)) (flat_map clk_of (each (ox_words Clk) pre)) (flat_map att_of (each (ox_words Att) pre)).
Definition all_good (m : pmode) (pre : list str) : Prop := forall k, Forall (ox_good m k) (each (ox_words k) pre).

Lemma few_case m no ws k p e : (length ws < ox_least k)%nat -> match few m no ws p with Ok p' => p' = p /\ ox_good m k (e, ws) | Err _ => ~ ox_good m k (e, ws) | Panic => False end.
Proof.
  intros L. unfold few. destruct (is_strict m) eqn:S.
  - intros (H & _). specialize (H S). cbn [snd] in H. lia.
  - split; [reflexivity|]. split; cbn [snd]; [congruence|lia].
Qed.
Ltac short k ep := match goal with |- context [few ?m ?no ?ws ?p] => pose proof (few_case m no ws k p ep ltac:(cbn; lia)) as F; destruct (few m no ws p); [|exact F|exact F]; destruct F as (-> & F); split; [|exact F] end.
Ltac num w := unfold ox_f64 at 1; destruct (parse_f64 w) eqn:?; cbn [obind].
Ltac refuse := let H := fresh in intros (_ & H); cbn [snd length] in H; specialize (H ltac:(cbn [ox_least]; lia)); rewrite Forall_forall in H;
  match goal with E : parse_f64 ?w = None |- _ => apply (H w); [cbn [ox_numbers tl ox_least Nat.sub length]; first [change (7 <=? _)%nat with true; cbn [firstn In]; tauto|repeat match goal with |- context [(?a <=? ?b)%nat] => destruct (a <=? b)%nat end; cbn [firstn In]; tauto]|exact E] end.
Ltac accept := split; cbn [snd length ox_least]; [lia|]; intros _; cbn [ox_numbers tl length Nat.leb firstn ox_least Nat.sub]; repeat (constructor; [congruence|]); constructor.

Lemma orb_case m no ep ws ver os cs ats : ws <> [] ->
  match ox_data m no ep Orb ws (Orbex ver os cs ats) with Ok p' => p' = Orbex ver (os ++ orb_of (ep, ws)) cs ats /\ ox_good m Orb (ep, ws) | Err _ => ~ ox_good m Orb (ep, ws) | Panic => False end.
Proof.
  intros _. unfold ox_data. destruct ws as [|s [|x [|y [|z more]]]].
  1-4: short Orb ep; unfold orb_of, three, number; cbn [nth_error plus]; repeat match goal with |- context [parse_f64 ?a] => destruct (parse_f64 a) end; now rewrite app_nil_r.
  num x; [|refuse]. num y; [|refuse]. num z; [|refuse].
  destruct more as [|u [|v [|w more]]]; cbn [obind].
  1-3: split; [|accept]; unfold orb_of, three, number; cbn [nth_error plus hd];
    repeat match goal with E : parse_f64 _ = Some _ |- _ => rewrite E end; cbn [nth_error]; repeat match goal with |- context [parse_f64 ?a] => destruct (parse_f64 a) end; reflexivity.
  num u; [|refuse]. num v; [|refuse]. num w; [|refuse].
  split; [|accept]. unfold orb_of, three, number. cbn [nth_error plus hd]. repeat match goal with E : parse_f64 _ = Some _ |- _ => rewrite E end. reflexivity.
Qed.
Lemma clk_case m no ep ws ver os cs ats : ws <> [] ->
  match ox_data m no ep Clk ws (Orbex ver os cs ats) with Ok p' => p' = Orbex ver os (cs ++ clk_of (ep, ws)) ats /\ ox_good m Clk (ep, ws) | Err _ => ~ ox_good m Clk (ep, ws) | Panic => False end.
Proof.
  intros _. unfold ox_data. destruct ws as [|s [|x more]].
  1-2: short Clk ep; unfold clk_of, number; cbn [nth_error plus]; now rewrite app_nil_r.
  num x; [|refuse]. split; [|accept]. unfold clk_of, number. cbn [nth_error plus hd]. now rewrite Heqo.
Qed.
Lemma att_case m no ep ws ver os cs ats : ws <> [] ->
  match ox_data m no ep Att ws (Orbex ver os cs ats) with Ok p' => p' = Orbex ver os cs (ats ++ att_of (ep, ws)) /\ ox_good m Att (ep, ws) | Err _ => ~ ox_good m Att (ep, ws) | Panic => False end.
Proof.
  intros _. unfold ox_data. destruct ws as [|s [|x [|y [|z [|w more]]]]].
  1-5: short Att ep;
    unfold att_of, three, number; cbn [nth_error plus]; repeat match goal with |- context [parse_f64 ?a] => destruct (parse_f64 a) end; now rewrite app_nil_r.
  num x; [|refuse]. num y; [|refuse]. num z; [|refuse]. num w; [|refuse].
  split; [|accept]. unfold att_of, three, number. cbn [nth_error plus hd]. repeat match goal with E : parse_f64 _ = Some _ |- _ => rewrite E end. reflexivity.
Qed.

(** a line that says nothing *)
Lemma kind_skip pre l : ox_mark l = false -> ox_kind (pre ++ [l]) = ox_kind pre. Proof. intros H. unfold ox_kind. now rewrite last_with_snoc, H. Qed.
Lemma when_skip pre l : ox_time l = false -> ox_when (pre ++ [l]) = ox_when pre. Proof. intros H. unfold ox_when. now rewrite last_with_snoc, H. Qed.
Lemma words_skip k pre l : first_is 32 l = false -> each (ox_words k) (pre ++ [l]) = each (ox_words k) pre.
Proof. intros H. rewrite each_snoc. unfold ox_words at 2. rewrite H. destruct (ox_kind pre), k; apply app_nil_r. Qed.
Lemma trim_start_words s : split_ws (trim_start s) = split_ws s.
Proof. induction s as [|c s IH]; [reflexivity|]. cbn [trim_start]. destruct (is_ws c) eqn:C; [|reflexivity]. rewrite IH. cbn [split_ws]. now rewrite C. Qed.
Lemma trim_words s : split_ws (trim s) = split_ws s.
Proof. unfold trim. now rewrite Ilrs_Proofs.split_ws_trim_end, trim_start_words. Qed.
Lemma time_step pre l : starts_with (lit "##") l = true -> ox_epoch l (ox_when pre) = ox_when (pre ++ [l]).
Proof.
  intros H. symmetry. unfold ox_when at 1. rewrite last_with_snoc. unfold ox_epoch. rewrite trim_words. unfold ox_time at 1. rewrite H. cbn [andb].
  destruct (split_ws (trim_hash l)) as [|y [|d [|s ws]]] eqn:W; cbn [length Nat.leb]; try reflexivity. now rewrite W.
Qed.

Lemma ox_loop_spec m ls : forall pre no, all_good m pre ->
  let all := pre ++ until ox_end ls in
  match ox_loop m ls no (ox_when pre) (ox_kind pre) (prod (heading ox_head 1 pre) pre) with
  | Ok p => p = prod (heading ox_head 1 all) all /\ all_good m all
  | Err _ => ~ all_good m all
  | Panic => False
  end.
Proof.
  induction ls as [|l t IH]; intros pre no G all; cbn [ox_loop until] in *.
  - unfold all. rewrite app_nil_r. auto.
  - assert (Go : ox_end l = false -> first_is 32 l = false ->
      match ox_loop m t (S no) (ox_when (pre ++ [l])) (ox_kind (pre ++ [l])) (prod (heading ox_head 1 (pre ++ [l])) pre) with
      | Ok p => p = prod (heading ox_head 1 all) all /\ all_good m all
      | Err _ => ~ all_good m all
      | Panic => False
      end).
    { intros E F. assert (P : forall v, prod v pre = prod v (pre ++ [l])) by (intros v; unfold prod; now rewrite !words_skip by exact F). rewrite P.
      assert (G' : all_good m (pre ++ [l])) by (intros k; rewrite words_skip by exact F; apply G).
      unfold all. rewrite E. replace (pre ++ l :: until ox_end t) with ((pre ++ [l]) ++ until ox_end t) by (now rewrite <- app_assoc). apply IH. exact G'. }
    assert (Skip : ox_end l = false -> first_is 32 l = false -> ox_mark l = false -> ox_time l = false ->
      match ox_loop m t (S no) (ox_when pre) (ox_kind pre) (prod (heading ox_head 1 (pre ++ [l])) pre) with
      | Ok p => p = prod (heading ox_head 1 all) all /\ all_good m all
      | Err _ => ~ all_good m all
      | Panic => False
      end).
    { intros E F Mk T. pose proof (Go E F) as R. rewrite when_skip, kind_skip in R by assumption. exact R. }
    destruct (starts_with (lit "%=ORBEX") l) eqn:H0.
    { destruct (starts_first 37 _ l H0) as (r & ->). change (starts_with (lit "=ORBEX") r = true) in H0. destruct (starts_first 61 _ r H0) as (r' & ->).
      match goal with |- context [ox_loop m t (S no) _ _ ?p] => replace p with (prod (heading ox_head 1 (pre ++ [37 :: 61 :: r'])) pre) end.
      2: { rewrite heading_snoc. change (ox_head (37 :: 61 :: r')) with (starts_with (lit "=ORBEX") (61 :: r')). rewrite H0. cbn [andb]. destruct (split_ws (37 :: 61 :: r')) as [|? [|? ?]]; reflexivity. }
      apply Skip; reflexivity. }
    assert (Hd : heading ox_head 1 (pre ++ [l]) = heading ox_head 1 pre) by (rewrite heading_snoc; unfold ox_head at 1; rewrite H0; reflexivity).
    rewrite Hd in Go, Skip.
    destruct (starts_with (lit "%ENDORBEX") l || starts_with (lit "%EOF") l) eqn:H1.
    { unfold all. unfold ox_end. rewrite H1, app_nil_r. auto. }
    assert (E : ox_end l = false) by exact H1.
    destruct l as [|c r]; [apply Skip; reflexivity|].
    destruct (N.eq_dec c 37) as [->|N1]; [apply Skip; trivial|]. destruct (N.eq_dec c 43) as [->|N2]; [apply Skip; trivial|].
    destruct (N.eq_dec c 45) as [->|N3]; [apply Skip; trivial|].
    destruct (N.eq_dec c 35) as [->|N4].
    { assert (Hash : forall x, (x = 35 -> False) -> starts_with (lit "##") (35 :: x :: tl r) = false).
      { intros x N. cbn. destruct x as [|p]; [reflexivity|]. destruct (Pos.eqb_spec 35 p); [|reflexivity]. congruence. }
      destruct r as [|d r].
      { pose proof (Go E eq_refl) as R. rewrite when_skip in R by reflexivity. unfold ox_kind in R. rewrite last_with_snoc in R. exact R. }
      destruct (N.eq_dec d 35) as [->|N5].
      { pose proof (Go E eq_refl) as R. rewrite <- time_step, kind_skip in R by reflexivity. exact R. }
      specialize (Hash d N5). cbn [tl] in Hash.
      pose proof (Go E eq_refl) as R. rewrite when_skip in R by (unfold ox_time; now rewrite Hash).
      unfold ox_kind in R. rewrite last_with_snoc in R. replace (ox_mark (35 :: d :: r)) with true in R by (unfold ox_mark; now rewrite Hash).
      destruct d as [|p]; [exact R|]. do 6 (destruct p as [p|p|]; try exact R); congruence. }
    destruct (N.eq_dec c 32) as [->|N5].
    { assert (Al : all = (pre ++ [32 :: r]) ++ until ox_end t) by (unfold all; rewrite E; now rewrite <- app_assoc).
      assert (Wd : forall k, each (ox_words k) (pre ++ [32 :: r]) = each (ox_words k) pre ++ ox_words k pre (32 :: r)) by (intros; apply each_snoc).
      set (ver := heading ox_head 1 pre) in *.
      destruct (split_ws (32 :: r)) as [|w ws] eqn:W.
      { assert (Z : forall k, each (ox_words k) (pre ++ [32 :: r]) = each (ox_words k) pre).
        { intros k. rewrite Wd. unfold ox_words at 2. rewrite W. cbn [first_is N.eqb Pos.eqb]. destruct (ox_kind pre), k; apply app_nil_r. }
        specialize (IH (pre ++ [32 :: r]) (S no)). cbv zeta in IH. rewrite <- Al in IH. replace (heading ox_head 1 (pre ++ [32 :: r])) with ver in IH by (symmetry; exact Hd). rewrite when_skip, kind_skip in IH by reflexivity.
        unfold prod at 1 in IH. rewrite !Z in IH. fold (prod ver pre) in IH. apply IH. intros k. rewrite Z. apply G. }
      set (x := (ox_when pre, w :: ws)).
      assert (Bad : forall k, ox_kind pre = k -> k <> NoSection -> ~ ox_good m k x -> ~ all_good m all).
      { intros k K N B H. apply B. specialize (H k). rewrite Forall_forall in H. apply H. rewrite Al. apply each_in. exists pre, (32 :: r), (until ox_end t). split; [now rewrite <- app_assoc|].
        unfold ox_words. rewrite W, K. cbn [first_is N.eqb Pos.eqb]. destruct k; try (now left). contradiction. }
      assert (Next : all_good m (pre ++ [32 :: r]) ->
        match ox_loop m t (S no) (ox_when pre) (ox_kind pre) (prod ver (pre ++ [32 :: r])) with
        | Ok p => p = prod (heading ox_head 1 all) all /\ all_good m all
        | Err _ => ~ all_good m all
        | Panic => False
        end).
      { intros G'. specialize (IH (pre ++ [32 :: r]) (S no) G'). cbv zeta in IH. rewrite <- Al in IH. replace (heading ox_head 1 (pre ++ [32 :: r])) with ver in IH by (symmetry; exact Hd). rewrite when_skip, kind_skip in IH by reflexivity. exact IH. }
      destruct (ox_kind pre) eqn:K; unfold prod at 1.
      - cbn [ox_data obind]. fold (prod ver pre). replace (prod ver pre) with (prod ver (pre ++ [32 :: r])).
        + apply Next. intros k. rewrite Wd. unfold ox_words at 2. rewrite K. destruct k; rewrite app_nil_r; apply G.
        + unfold prod. rewrite !Wd. unfold ox_words at 2 4 6. rewrite K. now rewrite !app_nil_r.
      - pose proof (orb_case m no (ox_when pre) (w :: ws) ver (flat_map orb_of (each (ox_words Orb) pre)) (flat_map clk_of (each (ox_words Clk) pre)) (flat_map att_of (each (ox_words Att) pre)) ltac:(discriminate)) as C.
        destruct (ox_data _ _ _ _ _ _) as [p|e|]; cbn [obind]; [|apply (Bad Orb); [reflexivity|discriminate|exact C]|exact C]. destruct C as (-> & C).
        match goal with |- context [ox_loop m t (S no) _ _ ?p] => replace p with (prod ver (pre ++ [32 :: r])) end.
        + apply Next. intros k. rewrite Wd. unfold ox_words at 2. rewrite K, W. cbn [first_is N.eqb Pos.eqb]. destruct k; rewrite ?app_nil_r; try apply G. apply Forall_app. split; [apply G|]. constructor; [exact C|constructor].
        + unfold prod. rewrite !Wd. unfold ox_words at 2 4 6. rewrite K, W. cbn [first_is N.eqb Pos.eqb]. rewrite !app_nil_r, flat_map_app. cbn [flat_map]. now rewrite app_nil_r.
      - pose proof (clk_case m no (ox_when pre) (w :: ws) ver (flat_map orb_of (each (ox_words Orb) pre)) (flat_map clk_of (each (ox_words Clk) pre)) (flat_map att_of (each (ox_words Att) pre)) ltac:(discriminate)) as C.
        destruct (ox_data _ _ _ _ _ _) as [p|e|]; cbn [obind]; [|apply (Bad Clk); [reflexivity|discriminate|exact C]|exact C]. destruct C as (-> & C).
        match goal with |- context [ox_loop m t (S no) _ _ ?p] => replace p with (prod ver (pre ++ [32 :: r])) end.
        + apply Next. intros k. rewrite Wd. unfold ox_words at 2. rewrite K, W. cbn [first_is N.eqb Pos.eqb]. destruct k; rewrite ?app_nil_r; try apply G. apply Forall_app. split; [apply G|]. constructor; [exact C|constructor].
        + unfold prod. rewrite !Wd. unfold ox_words at 2 4 6. rewrite K, W. cbn [first_is N.eqb Pos.eqb]. rewrite !app_nil_r, flat_map_app. cbn [flat_map]. now rewrite app_nil_r.
      - pose proof (att_case m no (ox_when pre) (w :: ws) ver (flat_map orb_of (each (ox_words Orb) pre)) (flat_map clk_of (each (ox_words Clk) pre)) (flat_map att_of (each (ox_words Att) pre)) ltac:(discriminate)) as C.
        destruct (ox_data _ _ _ _ _ _) as [p|e|]; cbn [obind]; [|apply (Bad Att); [reflexivity|discriminate|exact C]|exact C]. destruct C as (-> & C).
        match goal with |- context [ox_loop m t (S no) _ _ ?p] => replace p with (prod ver (pre ++ [32 :: r])) end.
        + apply Next. intros k. rewrite Wd. unfold ox_words at 2. rewrite K, W. cbn [first_is N.eqb Pos.eqb]. destruct k; rewrite ?app_nil_r; try apply G. apply Forall_app. split; [apply G|]. constructor; [exact C|constructor].
        + unfold prod. rewrite !Wd. unfold ox_words at 2 4 6. rewrite K, W. cbn [first_is N.eqb Pos.eqb]. rewrite !app_nil_r, flat_map_app. cbn [flat_map]. now rewrite app_nil_r. }
    assert (Mk : ox_mark (c :: r) = false) by (unfold ox_mark, first_is; destruct (N.eqb_spec c 35); [contradiction|reflexivity]).
    assert (Tm : ox_time (c :: r) = false). { unfold ox_time. replace (starts_with (lit "##") (c :: r)) with false; [reflexivity|]. symmetry. cbn. destruct c as [|p]; [reflexivity|]. destruct (Pos.eqb_spec 35 p); [congruence|reflexivity]. }
    assert (F : first_is 32 (c :: r) = false) by (unfold first_is; destruct (N.eqb_spec c 32); [contradiction|reflexivity]).
    specialize (Skip E F Mk Tm). clear -Skip N1 N2 N3 N4 N5.
    destruct c as [|p]; [exact Skip|]. do 6 (destruct p as [p|p|]; try exact Skip; try congruence).
Qed.
