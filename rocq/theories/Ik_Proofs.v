From Coq Require Import Ascii String List NArith ZArith QArith Bool Lia Sorted.
From Verif Require Import Base Text DecFloat Sort Fnum Omm_Model Tk_Model Sclk_Model Fk_Model Fk_Proofs Pck_Model Ik_Model.
Import ListNotations.
Local Open Scope string_scope.
Local Open Scope Z_scope.
Local Open Scope list_scope.
Local Open Scope outcome_scope.

(** A field is read when its variable is there, and absent otherwise *)
Definition field {A B} (o : option A) (R : A -> B -> Prop) (x : option B) : Prop :=
  match o, x with Some a, Some b => R a b | None, None => True | _, _ => False end.
Lemma opt_spec {A B E} (o : option A) (f : A -> outcome B E) (R : A -> B -> Prop) x : (forall a b, f a = Ok b <-> R a b) -> (opt o f = Ok x <-> field o R x).
Proof.
  intros H. destruct o as [a|]; cbn.
  - destruct (f a) as [b|e|] eqn:Fa; cbn [obind].
    + destruct x as [b'|]; [|split; [discriminate|intros []]]. rewrite <- H, Fa. split; intros X; injection X as <-; reflexivity.
    + destruct x as [b'|]; [rewrite <- H, Fa|]; split; try discriminate; intros [].
    + destruct x as [b'|]; [rewrite <- H, Fa|]; split; try discriminate; intros [].
  - destruct x; split; try discriminate; [intros []|auto|reflexivity].
Qed.
Definition shape_name (s : fov_shape) : str :=
  match s with Circle => lit "CIRCLE" | Rectangle => lit "RECTANGLE" | Ellipse => lit "ELLIPSE" | Polygon => lit "POLYGON" | Other u => u end.
Definition known_name (u : str) : Prop := In u [lit "CIRCLE"; lit "RECTANGLE"; lit "ELLIPSE"; lit "POLYGON"].
Definition shape_of (v : tv) (s : fov_shape) : Prop :=
  exists t, v = TText t /\ shape_name s = map upper t /\ match s with Other u => ~ known_name u | _ => True end.
Lemma parse_shape_spec v id s : parse_shape v id = Ok s <-> shape_of v s.
Proof.
  unfold parse_shape, shape_of. destruct v as [z|f|t|l]; cbn [text_value obind]; try (split; [discriminate|intros (? & ? & _); discriminate]).
  assert (K : forall a b : string, str_eqb (lit a) (lit b) = false -> lit a <> lit b) by (intros a b E; destruct (str_eqb_spec (lit a) (lit b)); [discriminate|assumption]).
  destruct (str_eqb_spec (map upper t) (lit "CIRCLE")) as [E1|N1];
  [|destruct (str_eqb_spec (map upper t) (lit "RECTANGLE")) as [E2|N2];
  [|destruct (str_eqb_spec (map upper t) (lit "ELLIPSE")) as [E3|N3];
  [|destruct (str_eqb_spec (map upper t) (lit "POLYGON")) as [E4|N4]]]].
  all: split; [intros X; injection X as <-; exists t; split; [reflexivity|]; cbn [shape_name]; auto|].
  1-4: intros (t' & E & Sn & C); injection E as <-; destruct s as [| | | |u]; cbn [shape_name] in Sn; try reflexivity;
       try (exfalso; rewrite ?E1, ?E2, ?E3, ?E4 in Sn; revert Sn; apply K; reflexivity);
       exfalso; apply C; unfold known_name; cbn [In]; rewrite Sn; auto.
  - split; [reflexivity|]. unfold known_name. cbn [In]. intros [X|[X|[X|[X|[]]]]]; symmetry in X; contradiction.
  - intros (t' & E & Sn & C). injection E as <-. destruct s as [| | | |u]; cbn [shape_name] in Sn; try (symmetry in Sn; contradiction). now rewrite Sn.
Qed.
(** what the kernel says about one instrument *)
Definition inst_in (d : table) (i : instrument) : Prop :=
  field (get d (key_of "INS" (i_id i) "_FOV_SHAPE")) shape_of (i_shape i) /\
  field (get d (key_of "INS" (i_id i) "_FOV_FRAME")) (fun v s => exists t, v = TText t /\ s = map upper t) (i_frame i) /\
  field (get_f64_array d (key_of "INS" (i_id i) "_BORESIGHT")) (fun l b => let '(x, y, z) := b in l = [x; y; z]) (i_boresight i) /\
  field (get d (key_of "INS" (i_id i) "_FOV_REF_ANGLE")) (fun v x => num1 v = Some x) (i_ref i) /\
  field (get d (key_of "INS" (i_id i) "_FOV_CROSS_ANGLE")) (fun v x => num1 v = Some x) (i_cross i).
Lemma one_inst_spec d id i : one_instrument d id = Ok i <-> i_id i = id /\ inst_in d i.
Proof.
  assert (T : forall v k s, (s <- text_value v k ;; Ok (map upper s)) = Ok s <-> exists t, v = TText t /\ s = map upper t).
  { intros v k s. destruct v; cbn; split; try discriminate; try (intros (? & ? & _); discriminate).
    - intros X. injection X as <-. eauto.
    - intros (t & X & ->). injection X as ->. reflexivity. }
  assert (B : forall (l : list fnum) (b : fnum * fnum * fnum), match l with [x; y; z] => Ok (x, y, z) | _ => Err (IBoresight id) end = Ok b <-> (let '(x, y, z) := b in l = [x; y; z])).
  { intros l [[x y] z]. destruct l as [|a [|c [|e [|? ?]]]]; split; try discriminate; intros X; injection X; intros; subst; reflexivity. }
  assert (N : forall v k (x : fnum), scalar_value v k = Ok x <-> num1 v = Some x) by (intros v k x; unfold scalar_value; destruct (num1 v); split; congruence).
  unfold one_instrument, inst_in. rewrite obind_ok. split.
  - intros (shape & H1 & H). apply obind_ok in H as (fr & H2 & H). apply obind_ok in H as (bo & H3 & H). apply obind_ok in H as (ra & H4 & H). apply obind_ok in H as (ca & H5 & H).
    injection H as <-. cbn [i_id i_shape i_frame i_boresight i_ref i_cross]. split; [reflexivity|].
    apply (opt_spec _ _ shape_of) in H1; [|intros; apply parse_shape_spec].
    apply (opt_spec _ _ (fun v s => exists t, v = TText t /\ s = map upper t)) in H2; [|intros; apply T].
    apply (opt_spec _ _ (fun l b => let '(x, y, z) := b in l = [x; y; z])) in H3; [|intros; apply B].
    apply (opt_spec _ _ (fun v x => num1 v = Some x)) in H4; [|intros; apply N].
    apply (opt_spec _ _ (fun v x => num1 v = Some x)) in H5; [|intros; apply N]. auto.
  - intros (<- & H1 & H2 & H3 & H4 & H5). destruct i as [id shape fr bo ra ca]. cbn [i_id i_shape i_frame i_boresight i_ref i_cross] in *.
    exists shape. split; [apply (opt_spec _ _ shape_of); [intros; apply parse_shape_spec|exact H1]|].
    apply obind_ok. exists fr. split; [apply (opt_spec _ _ (fun v s => exists t, v = TText t /\ s = map upper t)); [intros; apply T|exact H2]|].
    apply obind_ok. exists bo. split; [apply (opt_spec _ _ (fun l b => let '(x, y, z) := b in l = [x; y; z])); [intros; apply B|exact H3]|].
    apply obind_ok. exists ra. split; [apply (opt_spec _ _ (fun v x => num1 v = Some x)); [intros; apply N|exact H4]|].
    apply obind_ok. exists ca. split; [apply (opt_spec _ _ (fun v x => num1 v = Some x)); [intros; apply N|exact H5]|]. reflexivity.
Qed.
Theorem instruments_spec d l : from_table d = Ok l <->
  StronglySorted Z.lt (map i_id l) /\ (forall i, In i (map i_id l) <-> exists k v, In (k, v) d /\ inst_key k = Some i) /\ Forall (inst_in d) l.
Proof. apply (read_ids i_id (one_instrument d) (inst_in d) inst_key d l). apply one_inst_spec. Qed.
Theorem instruments_np d : from_table d <> Panic.
Proof.
  apply omap_np. intros id. unfold one_instrument.
  assert (O : forall A B (o : option A) (f : A -> outcome B ikerr), (forall a, f a <> Panic) -> opt o f <> Panic).
  { intros A B o f H. destruct o as [a|]; cbn; [|discriminate]. specialize (H a). destruct (f a); cbn; congruence. }
  apply obind_np; [apply O; intros v; unfold parse_shape; destruct v; cbn; discriminate|intros ?].
  apply obind_np; [apply O; intros v; destruct v; cbn; discriminate|intros ?].
  apply obind_np; [apply O; intros l; destruct l as [|? [|? [|? [|? ?]]]]; discriminate|intros ?].
  apply obind_np; [apply O; intros v; unfold scalar_value; destruct (num1 v); discriminate|intros ?].
  apply obind_np; [apply O; intros v; unfold scalar_value; destruct (num1 v); discriminate|intros ?]. discriminate.
Qed.
(** ** Which variables name something *)
Lemma starts_with_spec p s : starts_with p s = true <-> exists r, s = p ++ r.
Proof.
  revert s. induction p as [|a p IH]; intros s; cbn [starts_with].
  - split; [intros _; exists s; reflexivity|reflexivity].
  - destruct s as [|b s]; [split; [discriminate|intros (r & E); discriminate]|]. rewrite andb_true_iff, N.eqb_eq, IH. split.
    + intros (-> & r & ->). exists r. reflexivity.
    + intros (r & E). injection E as -> ->. eauto.
Qed.
Lemma strip_prefix_spec p s r : strip_prefix p s = Some r <-> s = p ++ r.
Proof.
  unfold strip_prefix. destruct (starts_with p s) eqn:E.
  - apply starts_with_spec in E as (t & ->). replace (skipn (List.length p) (p ++ t)) with t by (clear; induction p; auto).
    split; [congruence|]. intros X. apply app_inv_head in X. subst r. reflexivity.
  - split; [discriminate|]. intros ->. assert (starts_with p (p ++ r) = true) by (apply starts_with_spec; eauto). congruence.
Qed.
Lemma ends_with_spec p s : ends_with p s = true <-> exists r, s = r ++ p.
Proof.
  induction s as [|c s IH]; cbn [ends_with].
  - rewrite orb_false_r. destruct (str_eqb_spec [] p) as [<-|N]; split; try discriminate; [exists []; reflexivity|reflexivity|].
    intros (r & E). symmetry in E. apply app_eq_nil in E as (_ & ->). contradiction.
  - rewrite orb_true_iff, IH. destruct (str_eqb_spec (c :: s) p) as [<-|N].
    + split; [intros _; exists []; reflexivity|auto].
    + split.
      * intros [E|(r & ->)]; [discriminate|]. exists (c :: r). reflexivity.
      * intros ([|x r] & E); [contradiction|]. injection E as -> ->. right. eauto.
Qed.
Lemma strip_suffix_spec p s r : strip_suffix p s = Some r <-> s = r ++ p.
Proof.
  unfold strip_suffix. destruct (ends_with p s) eqn:E.
  - apply ends_with_spec in E as (t & ->). replace (firstn (List.length (t ++ p) - List.length p) (t ++ p)) with t.
    + split; [congruence|]. intros X. apply app_inv_tail in X. subst r. reflexivity.
    + rewrite app_length. replace (List.length t + List.length p - List.length p)%nat with (List.length t) by lia.
      rewrite firstn_app, Nat.sub_diag, firstn_all, firstn_O, app_nil_r. reflexivity.
  - split; [discriminate|]. intros ->. assert (ends_with p (r ++ p) = true) by (apply ends_with_spec; eauto). congruence.
Qed.
Lemma split_once_spec c s a b : split_once c s = Some (a, b) <-> s = a ++ c :: b /\ ~ In c a.
Proof.
  revert a b. induction s as [|x s IH]; intros a b; cbn [split_once].
  - split; [discriminate|]. intros (E & _). destruct a; discriminate.
  - destruct (N.eqb_spec x c) as [->|N].
    + split; [intros E; injection E as <- <-; auto|]. intros (E & H). destruct a as [|y a]; [injection E as ->; reflexivity|]. injection E as -> _. destruct H. now left.
    + destruct (split_once c s) as [(a', b')|] eqn:E.
      * split.
        -- intros X. injection X as <- <-. destruct (proj1 (IH a' b') eq_refl) as (-> & H). split; [reflexivity|]. intros [->|I]; auto.
        -- intros (X & H). destruct a as [|y a]; [injection X as -> ->; contradiction|]. injection X as -> X.
           assert (Y : Some (a', b') = Some (a, b)) by (apply IH; split; [exact X|intros I; apply H; now right]). injection Y as -> ->. reflexivity.
      * split; [discriminate|]. intros (X & H). destruct a as [|y a]; [injection X as -> ->; contradiction|]. injection X as -> X.
        assert (Y : @None (str * str) = Some (a, b)) by (apply IH; split; [exact X|intros I; apply H; now right]). discriminate.
Qed.
(** FRAME_<number>_NAME *)
Lemma frame_key_spec k i : frame_key k = Some i <-> exists n, k = lit "FRAME_" ++ n ++ lit "_NAME" /\ parse_int 2147483647 n = Some i.
Proof.
  unfold frame_key. split.
  - destruct (strip_prefix _ k) as [r|] eqn:E; [|discriminate]. apply strip_prefix_spec in E as ->.
    destruct (strip_suffix _ r) as [n|] eqn:E; [|discriminate]. apply strip_suffix_spec in E as ->. eauto.
  - intros (n & -> & H). rewrite (proj2 (strip_prefix_spec _ _ _) eq_refl), (proj2 (strip_suffix_spec _ _ _) eq_refl). exact H.
Qed.
(** BODY<number>_<constant>, INS<number>_<anything> *)
Lemma number_key_spec (p k : str) i s : (exists n r, strip_prefix p k = Some r /\ split_once 95 r = Some (n, s) /\ parse_int 2147483647 n = Some i) <->
  exists n, k = p ++ n ++ lit "_" ++ s /\ ~ In 95%N n /\ parse_int 2147483647 n = Some i.
Proof.
  split.
  - intros (n & r & E1 & E2 & E3). apply strip_prefix_spec in E1 as ->. apply split_once_spec in E2 as (-> & H). exists n. auto.
  - intros (n & -> & H & P). exists n, (n ++ 95%N :: s). repeat split; [now apply strip_prefix_spec|now apply split_once_spec|exact P].
Qed.
Lemma body_key_spec k i s : body_key k = Some (i, s) <-> exists n, k = lit "BODY" ++ n ++ lit "_" ++ s /\ ~ In 95%N n /\ parse_int 2147483647 n = Some i.
Proof.
  rewrite <- number_key_spec. unfold body_key. split.
  - destruct (strip_prefix _ k) as [r|]; [|discriminate]. destruct (split_once 95 r) as [(n, s')|] eqn:E; [|discriminate]. destruct (parse_int _ n) as [j|] eqn:Pn; [|discriminate].
    intros X. injection X as -> ->. exists n, r. auto.
  - intros (n & r & -> & -> & ->). reflexivity.
Qed.
Lemma inst_key_spec k i : inst_key k = Some i <-> exists n s, k = lit "INS" ++ n ++ lit "_" ++ s /\ ~ In 95%N n /\ parse_int 2147483647 n = Some i.
Proof.
  unfold inst_key. split.
  - intros H. destruct (strip_prefix _ k) as [r|] eqn:E1; [|discriminate]. destruct (split_once 95 r) as [(n, s)|] eqn:E2; [|discriminate].
    destruct (proj1 (number_key_spec (lit "INS") k i s)) as (n' & X); [exists n, r; auto|]. exists n', s. exact X.
  - intros (n & s & X). destruct (proj2 (number_key_spec (lit "INS") k i s)) as (n' & r & -> & -> & H); [eauto|]. exact H.
Qed.
