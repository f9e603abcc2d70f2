(** Proofs about station solutions and orbit exchange files. *)
From Coq Require Import Ascii String List NArith ZArith Bool QArith Lia.
From Verif Require Import Base Text DecFloat Lsk_Spec Sp3_Model Oem_Model Omm_Model Ilrs_Model Nav_Model Igs_Model Igs_Spec.
Import ListNotations.
Local Open Scope N_scope.

(** * Lists *)
Lemma last_with_snoc {A} (p : A -> bool) l x : last_with p (l ++ [x]) = if p x then Some x else last_with p l.
Proof. unfold last_with. rewrite rev_app_distr. reflexivity. Qed.
Lemma each_snoc {A} (f : list str -> str -> list A) ls l : each f (ls ++ [l]) = each f ls ++ f ls l.
Proof.
  unfold each. rewrite app_length. cbn [length]. rewrite seq_app, flat_map_app. cbn [plus seq flat_map]. rewrite app_nil_r. f_equal.
  - rewrite !flat_map_concat_map. f_equal. apply map_ext_in. intros i H. apply in_seq in H. rewrite nth_error_app1 by lia. destruct (nth_error ls i); [|reflexivity].
    rewrite firstn_app. replace (i - length ls)%nat with 0%nat by lia. cbn [firstn]. now rewrite app_nil_r.
  - rewrite nth_error_app2, Nat.sub_diag by lia. cbn [nth_error]. rewrite firstn_app, Nat.sub_diag, firstn_all. cbn [firstn]. now rewrite app_nil_r.
Qed.
Lemma each_nil {A} (f : list str -> str -> list A) : each f [] = []. Proof. reflexivity. Qed.
Lemma each_in {A} (f : list str -> str -> list A) ls x : In x (each f ls) <-> exists before l after, ls = before ++ l :: after /\ In x (f before l).
Proof.
  split.
  - intros H. unfold each in H. apply in_flat_map in H. destruct H as (i & Hi & H). destruct (nth_error ls i) as [l|] eqn:E; [|destruct H].
    exists (firstn i ls), l, (skipn (S i) ls). split; [|exact H]. clear -E. revert i E. induction ls as [|a t IH]; intros [|i] E; cbn in *; try discriminate; [congruence|]. now rewrite <- IH.
  - intros (b & l & a & -> & H). unfold each. apply in_flat_map. exists (length b). split; [apply in_seq; rewrite app_length; cbn; lia|].
    rewrite nth_error_app2, Nat.sub_diag by lia. cbn. rewrite firstn_app, Nat.sub_diag, firstn_all. cbn. now rewrite app_nil_r.
Qed.

(** * Hash maps *)
Lemma look_put {V} k k' (v : V) m : look k (put k' v m) = if str_eqb k k' then Some v else look k m.
Proof.
  induction m as [|(a, b) m IH]; [reflexivity|]. cbn [put]. destruct (str_eqb_spec k' a) as [->|N]; cbn [look].
  - destruct (str_eqb_spec k a); reflexivity.
  - rewrite IH. destruct (str_eqb_spec k a) as [->|]; [|reflexivity]. destruct (str_eqb_spec a k'); [congruence|reflexivity].
Qed.
Lemma put_keys {V} k (v : V) m x : In x (map fst (put k v m)) <-> x = k \/ In x (map fst m).
Proof.
  induction m as [|(a, b) m IH]; cbn [put map In fst]; [intuition congruence|]. destruct (str_eqb_spec k a) as [->|N]; cbn [map In fst]; [intuition congruence|]. rewrite IH. intuition congruence.
Qed.
Lemma put_nodup {V} k (v : V) m : NoDup (map fst m) -> NoDup (map fst (put k v m)).
Proof.
  induction m as [|(a, b) m IH]; cbn [put map fst]; intros H; [constructor; [intros []|constructor]|]. inversion H as [|? ? N D]; subst.
  destruct (str_eqb_spec k a) as [->|Ne]; cbn [map fst]; [now constructor|]. constructor; [|auto]. rewrite put_keys. intuition congruence.
Qed.
Lemma look_none {V} k (m : list (str * V)) : look k m = None <-> ~ In k (map fst m).
Proof.
  induction m as [|(a, b) m IH]; cbn [look map fst In]; [intuition congruence|]. destruct (str_eqb_spec k a) as [->|N]; [intuition congruence|]. rewrite IH. intuition congruence.
Qed.
Lemma look_in {V} k (v : V) m : NoDup (map fst m) -> look k m = Some v <-> In (k, v) m.
Proof.
  induction m as [|(a, b) m IH]; cbn [look map fst In]; intros D; [intuition congruence|]. inversion D as [|? ? N D']; subst. destruct (str_eqb_spec k a) as [->|Ne].
  - split; [intros H; injection H as ->; now left|]. intros [H|H]; [congruence|]. exfalso. apply N. apply (in_map fst) in H. exact H.
  - rewrite IH by exact D'. split; [now right|]. intros [H|H]; [congruence|exact H].
Qed.

(** * Station solutions *)
Definition pick (l : str) : list estimate := match estimate_of l with Some e => [e] | None => [] end.
Definition est_in (before : list str) (l : str) : list str := if snx_data l && snx_open before then [l] else [].
Definition add_est (m : list (str * est_row)) (e : estimate) : list (str * est_row) :=
  let '(EstRow x y z u w q _ _ _) := or_else (look (e_code e) m) empty_row in
  put (e_code e) (set_component (e_type e) (e_value e) (EstRow x y z u w q (e_epoch e) (e_point e) (e_soln e))) m.
Definition folded (es : list estimate) : list (str * est_row) := fold_left add_est es [].
Lemma folded_snoc es e : folded (es ++ [e]) = add_est (folded es) e. Proof. unfold folded. now rewrite fold_left_app. Qed.

Definition row_of (es : list estimate) (c : str) : option est_row :=
  option_map (fun e => EstRow (last_value es c (lit "STAX")) (last_value es c (lit "STAY")) (last_value es c (lit "STAZ"))
    (last_value es c (lit "VELX")) (last_value es c (lit "VELY")) (last_value es c (lit "VELZ")) (e_epoch e) (e_point e) (e_soln e)) (last_line es c).
Lemma last_value_snoc es e c ty : last_value (es ++ [e]) c ty = if str_eqb c (e_code e) && str_eqb (e_type e) ty then Some (e_value e) else last_value es c ty.
Proof. unfold last_value. rewrite last_with_snoc. now destruct (_ && _). Qed.
Lemma no_line es c ty : last_line es c = None -> last_value es c ty = None.
Proof.
  unfold last_line, last_value, last_with. intros H. replace (find _ (rev es)) with (@None estimate); [reflexivity|]. symmetry.
  induction (rev es) as [|e t IH]; [reflexivity|]. cbn in *. destruct (str_eqb c (e_code e)); [discriminate|]. cbn. auto.
Qed.
Lemma folded_look es c : look c (folded es) = row_of es c.
Proof.
  induction es as [|e es IH] using rev_ind; [reflexivity|]. rewrite folded_snoc. unfold add_est. unfold row_of in *. unfold last_line in *. rewrite last_with_snoc.
  fold (last_line es c) in *.
  destruct (or_else (look (e_code e) (folded es)) empty_row) as [x y z u w q ep p s] eqn:R. rewrite look_put. rewrite !last_value_snoc.
  destruct (str_eqb_spec c (e_code e)) as [->|N]; cbn [andb].
  - cbn [option_map]. f_equal.
    assert (X : x = last_value es (e_code e) (lit "STAX") /\ y = last_value es (e_code e) (lit "STAY") /\ z = last_value es (e_code e) (lit "STAZ") /\
      u = last_value es (e_code e) (lit "VELX") /\ w = last_value es (e_code e) (lit "VELY") /\ q = last_value es (e_code e) (lit "VELZ")).
    { rewrite IH in R. destruct (last_line es (e_code e)) as [e'|] eqn:L; cbn [option_map or_else] in R; [injection R as <- <- <- <- <- <- _ _ _; auto 10|].
      unfold empty_row in R. injection R as <- <- <- <- <- <- _ _ _. rewrite !no_line by exact L. auto 10. }
    destruct X as (<- & <- & <- & <- & <- & <-). unfold set_component.
    destruct (str_eqb_spec (e_type e) (lit "STAX")) as [X|]; [rewrite X; reflexivity|]. destruct (str_eqb_spec (e_type e) (lit "STAY")) as [X|]; [rewrite X; reflexivity|].
    destruct (str_eqb_spec (e_type e) (lit "STAZ")) as [X|]; [rewrite X; reflexivity|]. destruct (str_eqb_spec (e_type e) (lit "VELX")) as [X|]; [rewrite X; reflexivity|].
    destruct (str_eqb_spec (e_type e) (lit "VELY")) as [X|]; [rewrite X; reflexivity|]. destruct (str_eqb_spec (e_type e) (lit "VELZ")) as [X|]; reflexivity.
  - exact IH.
Qed.
Lemma folded_nodup es : NoDup (map fst (folded es)).
Proof.
  induction es as [|e es IH] using rev_ind; [constructor|]. rewrite folded_snoc. unfold add_est. destruct (or_else _ _) as [x y z u w q ep p s]. now apply put_nodup.
Qed.
Lemma stations_code m c : In c (map s_code (flat_map station_of m)) -> In c (map fst m).
Proof.
  induction m as [|(k, [x y z u v w ep p s]) m IH]; [intros []|]. cbn [flat_map]. rewrite map_app, in_app_iff. cbn [map fst In]. intros [H|H]; [left|right; auto].
  cbn in H. destruct x, y, z; cbn in H; intuition.
Qed.
Lemma stations_nodup m : NoDup (map fst m) -> NoDup (map s_code (flat_map station_of m)).
Proof.
  induction m as [|(k, [x y z u v w ep p s]) m IH]; intros D; [constructor|]. cbn [map fst] in D. inversion D as [|? ? N D']; subst. cbn [flat_map]. rewrite map_app.
  assert (I := IH D'). cbn [station_of]. destruct x, y, z; cbn [map app]; try exact I. constructor; [|exact I]. cbn. intros H. apply N, stations_code, H.
Qed.

Lemma heading_snoc head i ls l : heading head i (ls ++ [l]) = if head l && (i <? length (split_ws l))%nat then nth i (split_ws l) [] else heading head i ls.
Proof. unfold heading. rewrite last_with_snoc. now destruct (_ && _). Qed.
Definition line_ok (l : str) : Prop := estimate_of l <> None.
(** one line of the block *)
Lemma estimate_line_spec m no l es :
  match estimate_line m no l (folded es) with
  | Ok r => r = folded (es ++ pick l) /\ (is_strict m = true -> line_ok l)
  | Err _ => is_strict m = true /\ ~ line_ok l
  | Panic => False
  end.
Proof.
  unfold estimate_line, line_ok, pick, estimate_of.
  destruct (split_ws l) as [|w0 [|w1 [|w2 [|w3 [|w4 [|w5 [|w6 [|w7 [|w8 ws]]]]]]]]] eqn:W; cbn [nth_error nth length];
    try (destruct (is_strict m); [split; [reflexivity|intros H; now apply H]|split; [now rewrite app_nil_r|discriminate]]).
  destruct (parse_f64 w8) as [v|].
  - split; [|discriminate]. rewrite folded_snoc. reflexivity.
  - destruct (is_strict m); [split; [reflexivity|intros H; now apply H]|split; [now rewrite app_nil_r|discriminate]].
Qed.
Definition blocked (b : snx_block) : bool := match b with Estimate => true | _ => false end.
Lemma starts_first c t l : starts_with (c :: t) l = true -> exists r, l = c :: r.
Proof. destruct l as [|d r]; cbn; [discriminate|]. destruct (N.eqb_spec c d) as [->|]; [|discriminate]. eauto. Qed.
Lemma head_not l : snx_head l = true -> exists t, l = 37 :: t /\ snx_end l = false.
Proof.
  intros H. unfold snx_head in H. destruct (starts_first 37 _ l H) as (r & ->). exists r. split; [reflexivity|]. cbn in H. change (starts_with (lit "=SNX") r = true) in H.
  destruct (starts_first 61 _ r H) as (r' & ->). reflexivity.
Qed.
Lemma snx_open_skip pre l : snx_mark l = false -> snx_open (pre ++ [l]) = snx_open pre.
Proof. intros H. unfold snx_open. rewrite last_with_snoc, H. reflexivity. Qed.
Lemma est_skip pre l : snx_data l = false -> each est_in (pre ++ [l]) = each est_in pre.
Proof. intros H. rewrite each_snoc. unfold est_in at 2. rewrite H. cbn [andb]. apply app_nil_r. Qed.

Lemma sinex_loop_spec m ls : forall pre no b, blocked b = snx_open pre -> (is_strict m = true -> Forall line_ok (each est_in pre)) ->
  let all := each est_in (pre ++ until snx_end ls) in let hd := heading snx_head 2 (pre ++ until snx_end ls) in
  match sinex_loop m ls no (heading snx_head 2 pre) (folded (flat_map pick (each est_in pre))) b with
  | Ok (ag, rows) => ag = hd /\ rows = folded (flat_map pick all) /\ (is_strict m = true -> Forall line_ok all)
  | Err _ => is_strict m = true /\ ~ Forall line_ok all
  | Panic => False
  end.
Proof.
  induction ls as [|l t IH]; intros pre no b B F all hd; cbn [sinex_loop until] in *.
  - unfold all, hd. rewrite app_nil_r. auto.
  - assert (Go : forall b', snx_end l = false -> snx_data l = false -> blocked b' = snx_open (pre ++ [l]) ->
      match sinex_loop m t (S no) (heading snx_head 2 (pre ++ [l])) (folded (flat_map pick (each est_in pre))) b' with
      | Ok (ag, rows) => ag = hd /\ rows = folded (flat_map pick all) /\ (is_strict m = true -> Forall line_ok all)
      | Err _ => is_strict m = true /\ ~ Forall line_ok all
      | Panic => False
      end).
    { intros b' E D B'. unfold all, hd. cbn [until]. rewrite E. specialize (IH (pre ++ [l]) (S no) b' B'). rewrite est_skip in IH by exact D. cbv zeta in IH.
      rewrite <- app_assoc in IH. exact (IH F). }
    destruct (starts_with (lit "%=SNX") l) eqn:H0.
    { destruct (head_not l H0) as (r & -> & E). specialize (Go b E eq_refl). rewrite heading_snoc in Go. change (snx_head (37 :: r)) with (starts_with (lit "%=SNX") (37 :: r)) in Go. rewrite H0 in Go. cbn [andb] in Go. rewrite snx_open_skip in Go by reflexivity. specialize (Go B).
      destruct (split_ws (37 :: r)) as [|w0 [|w1 [|w2 ws]]]; exact Go. }
    assert (Hd : heading snx_head 2 (pre ++ [l]) = heading snx_head 2 pre) by (rewrite heading_snoc; unfold snx_head at 1; rewrite H0; reflexivity).
    rewrite Hd in Go.
    destruct (starts_with (lit "%ENDSNX") l) eqn:H1.
    { unfold all, hd. unfold until. fold (@until str). unfold snx_end. rewrite H1, app_nil_r. auto. }
    assert (E : snx_end l = false) by exact H1.
    assert (Data : snx_data l = true -> match b with
                  | Estimate => obind (estimate_line m no l (folded (flat_map pick (each est_in pre)))) (fun rows' => sinex_loop m t (S no) (heading snx_head 2 pre) rows' b)
                  | _ => sinex_loop m t (S no) (heading snx_head 2 pre) (folded (flat_map pick (each est_in pre))) b
                  end = sinex_loop m (l :: t) no (heading snx_head 2 pre) (folded (flat_map pick (each est_in pre))) b -> 
      match match b with
                  | Estimate => obind (estimate_line m no l (folded (flat_map pick (each est_in pre)))) (fun rows' => sinex_loop m t (S no) (heading snx_head 2 pre) rows' b)
                  | _ => sinex_loop m t (S no) (heading snx_head 2 pre) (folded (flat_map pick (each est_in pre))) b
                  end with
      | Ok (ag, rows) => ag = hd /\ rows = folded (flat_map pick all) /\ (is_strict m = true -> Forall line_ok all)
      | Err _ => is_strict m = true /\ ~ Forall line_ok all
      | Panic => False
      end).
    { intros D _. assert (Mk : snx_mark l = false) by (unfold snx_data in D; destruct (snx_mark l); [discriminate|reflexivity]).
      assert (Al : all = each est_in ((pre ++ [l]) ++ until snx_end t)) by (unfold all; cbn [until]; now rewrite E, <- app_assoc).
      assert (Hl : hd = heading snx_head 2 ((pre ++ [l]) ++ until snx_end t)) by (unfold hd; cbn [until]; now rewrite E, <- app_assoc).
      specialize (IH (pre ++ [l]) (S no) b). rewrite (snx_open_skip _ _ Mk), Hd in IH. specialize (IH B). cbv zeta in IH. rewrite <- Al, <- Hl in IH. clear Go.
      destruct b; cbn [blocked] in B;
        [rewrite each_snoc in IH; unfold est_in at 2 4 in IH; rewrite D, <- B in IH; cbn [andb] in IH; rewrite app_nil_r in IH; exact (IH F)
        |rewrite each_snoc in IH; unfold est_in at 2 4 in IH; rewrite D, <- B in IH; cbn [andb] in IH; rewrite app_nil_r in IH; exact (IH F)|].
      rewrite each_snoc in IH; unfold est_in at 2 4 in IH; rewrite D, <- B in IH; cbn [andb] in IH.
      pose proof (estimate_line_spec m no l (flat_map pick (each est_in pre))) as S. destruct (estimate_line m no l _) as [r|e|]; cbn [obind] in *.
      - destruct S as (-> & S). rewrite flat_map_app in IH. cbn [flat_map] in IH. rewrite app_nil_r in IH. apply IH. intros St. apply Forall_app. split; auto.
      - destruct S as (St & S). split; [exact St|]. intros Fa. rewrite Al in Fa. rewrite Forall_forall in Fa. apply S, Fa. apply each_in. exists pre, l, (until snx_end t).
        split; [now rewrite <- app_assoc|]. unfold est_in. rewrite D, <- B. now left.
      - exact S. }
    cbn [sinex_loop] in Data. rewrite H0, H1 in Data.
    destruct l as [|c r]; [apply Data; reflexivity|].
    destruct (N.eq_dec c 42) as [->|N1]; [apply Go; [exact E|reflexivity|now rewrite snx_open_skip]|].
    destruct (N.eq_dec c 37) as [->|N2]; [apply Go; [exact E|reflexivity|now rewrite snx_open_skip]|].
    destruct (N.eq_dec c 43) as [->|N3].
    { apply Go; [exact E|reflexivity|]. unfold snx_open. rewrite last_with_snoc. change (snx_mark (43 :: r)) with true. cbv iota.
      destruct (str_eqb_spec (trim r) (lit "SITE/ID")) as [X|]; [rewrite X; reflexivity|]. destruct (str_eqb (trim r) (lit "SOLUTION/ESTIMATE")); reflexivity. }
    destruct (N.eq_dec c 45) as [->|N4]; [apply Go; [exact E|reflexivity|]; unfold snx_open; rewrite last_with_snoc; reflexivity|].
    assert (D : snx_data (c :: r) = true). { unfold snx_data, snx_mark, first_is. destruct (N.eqb_spec c 43), (N.eqb_spec c 45), (N.eqb_spec c 42), (N.eqb_spec c 37); try contradiction. reflexivity. }
    specialize (Data D). clear -Data N1 N2 N3 N4.
    destruct c as [|p]; [apply Data; reflexivity|]. do 6 (destruct p as [p|p|]; try (apply Data; reflexivity); try (exfalso; congruence)).
Qed.
