From Coq Require Import Ascii String List NArith ZArith QArith Qround Bool Lia Sorted.
From Verif Require Import Base Text DecFloat Sort Fnum Omm_Model Tk_Model Sclk_Model Sclk_Proofs Fk_Model.
Import ListNotations.
Local Open Scope string_scope.
Local Open Scope Z_scope.
Local Open Scope list_scope.
Local Open Scope outcome_scope.

(** ** Numbers named by keys, sorted without repetition *)
Lemma collect_in key keys i : In i (collect key keys) <-> exists k, In k keys /\ key k = Some i.
Proof.
  unfold collect. rewrite in_flat_map. split; intros (k & K & H); exists k; (split; [exact K|]).
  - destruct (key k); [destruct H as [->|[]]; reflexivity|destruct H].
  - rewrite H. now left.
Qed.
Definition ids key (d : table) := dedup (isort Z.leb (collect key (map fst d))).
Lemma ids_sorted key d : StronglySorted Z.lt (ids key d).
Proof. apply dedup_strict, isort_ordered; [apply zleb_total|apply zleb_trans]. Qed.
Lemma ids_spec key d i : In i (ids key d) <-> exists k v, In (k, v) d /\ key k = Some i.
Proof.
  unfold ids. rewrite dedup_in, isort_in, collect_in. split.
  - intros (k & K & H). apply in_map_iff in K as ((k' & v) & <- & K). exists k', v. auto.
  - intros (k & v & K & H). exists k. split; [|exact H]. apply in_map_iff. exists (k, v). auto.
Qed.
Lemma sorted_unique l1 l2 : StronglySorted Z.lt l1 -> StronglySorted Z.lt l2 -> (forall i, In i l1 <-> In i l2) -> l1 = l2.
Proof.
  intros S1. revert l2. induction S1 as [|x l1 S1 IH F1]; intros l2 S2 E.
  - destruct l2 as [|y l2]; [reflexivity|]. exfalso. apply (proj2 (E y)). now left.
  - destruct S2 as [|y l2 S2 F2]; [exfalso; apply (proj1 (E x)); now left|]. rewrite Forall_forall in F1, F2.
    assert (x = y).
    { destruct (proj1 (E x) (or_introl eq_refl)) as [->|X]; [reflexivity|]. destruct (proj2 (E y) (or_introl eq_refl)) as [->|Y]; [reflexivity|].
      specialize (F1 y Y). specialize (F2 x X). lia. }
    subst y. f_equal. apply IH; [exact S2|]. intros i. split; intros H.
    + destruct (proj1 (E i) (or_intror H)) as [<-|X]; [specialize (F1 x H); lia|exact X].
    + destruct (proj2 (E i) (or_intror H)) as [<-|X]; [specialize (F2 x H); lia|exact X].
Qed.
Lemma omap_spec {A B E} (f : A -> outcome B E) l r : omap f l = Ok r <-> Forall2 (fun a b => f a = Ok b) l r.
Proof.
  revert r. induction l as [|a l IH]; intros r; cbn [omap].
  - split; [intros E0; injection E0 as <-; constructor|intros F; inversion F; reflexivity].
  - destruct (f a) as [x|e|] eqn:Ea; cbn [obind].
    + destruct (omap f l) as [t|e|] eqn:El; cbn [obind].
      * split.
        -- intros E0. injection E0 as <-. constructor; [exact Ea|]. now apply IH.
        -- intros F. inversion F as [|? b ? r' H1 H2]; subst. rewrite Ea in H1. injection H1 as <-. apply IH in H2. injection H2 as <-. reflexivity.
      * split; [discriminate|]. intros F. inversion F as [|? b ? r' H1 H2]; subst. apply IH in H2. discriminate.
      * split; [discriminate|]. intros F. inversion F as [|? b ? r' H1 H2]; subst. apply IH in H2. discriminate.
    + split; [discriminate|]. intros F. inversion F; subst. congruence.
    + split; [discriminate|]. intros F. inversion F; subst. congruence.
Qed.
Lemma omap_np {A B E} (f : A -> outcome B E) l : (forall a, f a <> Panic) -> omap f l <> Panic.
Proof.
  intros H. induction l as [|a l IH]; cbn [omap]; [discriminate|]. specialize (H a). destruct (f a); cbn [obind]; [|discriminate|congruence].
  destruct (omap f l); cbn [obind]; congruence.
Qed.
(** What reading "one thing per number" gives *)
Lemma read_ids {B E} (num : B -> Z) (one : Z -> outcome B E) (good : B -> Prop) key d r :
  (forall i b, one i = Ok b <-> num b = i /\ good b) ->
  (omap one (ids key d) = Ok r <->
   StronglySorted Z.lt (map num r) /\ (forall i, In i (map num r) <-> exists k v, In (k, v) d /\ key k = Some i) /\ Forall good r).
Proof.
  intros H. rewrite omap_spec. split.
  - intros F. assert (M : map num r = ids key d).
    { induction F as [|a b l r' F1 F IH]; [reflexivity|]. cbn. apply H in F1 as (-> & _). f_equal. exact IH. }
    rewrite M. split; [apply ids_sorted|]. split; [apply ids_spec|].
    clear M. induction F as [|a b l r' F1 F IH]; constructor; [now apply H in F1|exact IH].
  - intros (S & I & G). assert (M : map num r = ids key d).
    { apply sorted_unique; [exact S|apply ids_sorted|]. intros i. rewrite I. symmetry. apply ids_spec. }
    rewrite <- M. clear M S I. induction G as [|b r' G1 G IH]; cbn; constructor; [|exact IH]. apply H. auto.
Qed.

(** ** Frames *)
Definition code (c : frame_class) : Z := match c with Inertial => 1 | Pck => 2 | Ck => 3 | TwoVector => 4 | Dynamic => 5 end.
Lemma class_code z c : parse_frame_class z = Ok c <-> z = code c.
Proof.
  split.
  - unfold parse_frame_class. destruct z as [|p|p]; try discriminate.
    destruct p as [p|p|]; [destruct p as [p|p|]|destruct p as [p|p|]|]; try discriminate; try destruct p; try discriminate; intros E; injection E as <-; reflexivity.
  - intros ->. destruct c; reflexivity.
Qed.
(** the integer an entry stands for *)
Definition whole (v : tv) (z : Z) : Prop :=
  (v = TInt z /\ -2147483648 <= z <= 2147483647) \/ exists f, v = TFlt f /\ z = f_as_i32 f.
Lemma int_value_spec v k z : int_value v k = Ok z <-> whole v z.
Proof.
  unfold whole. destruct v as [n|f|s|l]; cbn.
  - destruct (Z.leb_spec (-2147483648) n), (Z.leb_spec n 2147483647); cbn [andb]; split; try discriminate.
    + intros E. injection E as <-. left. auto.
    + intros [(E & _)|(f & E & _)]; [injection E as ->; reflexivity|discriminate].
    + intros [(E & ?)|(f & E & _)]; [injection E as ->; lia|discriminate].
    + intros [(E & ?)|(f & E & _)]; [injection E as ->; lia|discriminate].
    + intros [(E & ?)|(f & E & _)]; [injection E as ->; lia|discriminate].
  - split; [intros E; injection E as <-; right; eauto|]. intros [(E & _)|(g & E & ->)]; [discriminate|]. injection E as ->. reflexivity.
  - split; [discriminate|]. intros [(E & _)|(g & E & _)]; discriminate.
  - split; [discriminate|]. intros [(E & _)|(g & E & _)]; discriminate.
Qed.
Lemma text_value_spec v k s : text_value v k = Ok s <-> v = TText s.
Proof. destruct v; cbn; split; try discriminate; congruence. Qed.

(** what the kernel says about the fixed rotation of a frame *)
Definition tk_in (d : table) (id : Z) (c : frame_class) (o : option (list fnum * str)) : Prop :=
  match o with
  | None => c <> TwoVector \/ get d (key_of "TKFRAME_" id "_SPEC") = None
  | Some (values, rel) => c = TwoVector /\ get d (key_of "TKFRAME_" id "_SPEC") = Some (TText (lit "MATRIX")) /\
      get_f64_array d (key_of "TKFRAME_" id "_MATRIX") = Some values /\ List.length values = 9%nat /\
      exists s, get d (key_of "TKFRAME_" id "_RELATIVE") = Some (TText s) /\ rel = map upper s
  end.
Lemma read_tk_spec d id c o : read_tk d id c = Ok o <-> tk_in d id c o.
Proof.
  unfold read_tk, tk_in. destruct c; try (split; [intros E; injection E as <-; left; discriminate|destruct o as [[values rel]|]; [intros (? & _); discriminate|reflexivity]]).
  destruct (get d (key_of "TKFRAME_" id "_SPEC")) as [v|]; [|].
  - destruct v as [z|f|s|l]; cbn [text_value obind]; try (split; [discriminate|destruct o as [[values rel]|]; [intros (_ & ? & _); discriminate|intros [?|?]; [contradiction|discriminate]]]).
    destruct (str_eqb_spec s (lit "MATRIX")) as [->|Ns].
    2: { split; [discriminate|]. destruct o as [[values rel]|]; [intros (_ & ? & _); congruence|intros [?|?]; [contradiction|discriminate]]. }
    destruct (get_f64_array d (key_of "TKFRAME_" id "_MATRIX")) as [values|].
    2: { split; [discriminate|]. destruct o as [[values rel]|]; [intros (_ & _ & ? & _); discriminate|intros [?|?]; [contradiction|discriminate]]. }
    destruct (Nat.eqb_spec (List.length values) 9) as [L|L]; cbn [negb].
    2: { split; [discriminate|]. destruct o as [[vs rel]|]; [intros (_ & _ & E & X & _); injection E as ->; contradiction|intros [?|?]; [contradiction|discriminate]]. }
    unfold need. destruct (get d (key_of "TKFRAME_" id "_RELATIVE")) as [rv|]; cbn [obind].
    2: { split; [discriminate|]. destruct o as [[vs rel]|]; [intros (_ & _ & _ & _ & s & ? & _); discriminate|intros [?|?]; [contradiction|discriminate]]. }
    destruct rv as [z|f|s|l]; cbn [text_value obind]; try (split; [discriminate|destruct o as [[vs rel]|]; [intros (_ & _ & _ & _ & s & ? & _); discriminate|intros [?|?]; [contradiction|discriminate]]]).
    split.
    + intros E. injection E as <-. repeat split; auto. exists s. auto.
    + destruct o as [[vs rel]|]; [|intros [?|?]; [contradiction|discriminate]]. intros (_ & _ & E & _ & s' & E' & ->). injection E as ->. injection E' as ->. reflexivity.
  - split; [intros E; injection E as <-; right; reflexivity|]. destruct o as [[values rel]|]; [intros (_ & ? & _); discriminate|reflexivity].
Qed.
(** what the kernel says about one frame *)
Definition frame_in (d : table) (f : frame_spec) : Prop :=
  (exists s, get d (key_of "FRAME_" (f_id f) "_NAME") = Some (TText s) /\ f_name f = map upper s) /\
  (exists v, get d (key_of "FRAME_" (f_id f) "_CLASS") = Some v /\ whole v (code (f_class f))) /\
  (exists v, get d (key_of "FRAME_" (f_id f) "_CLASS_ID") = Some v /\ whole v (f_class_id f)) /\
  (exists v, get d (key_of "FRAME_" (f_id f) "_CENTER") = Some v /\ whole v (f_center f)) /\
  tk_in d (f_id f) (f_class f) (f_tk f).
Lemma obind_ok {A B E} (x : outcome A E) (k : A -> outcome B E) b : obind x k = Ok b <-> exists a, x = Ok a /\ k a = Ok b.
Proof. destruct x as [a|e|]; cbn; split; [eauto|intros (a' & E0 & K); injection E0 as ->; exact K|discriminate|intros (? & ? & _); discriminate|discriminate|intros (? & ? & _); discriminate]. Qed.
Lemma need_ok d k v : need d k = Ok v <-> get d k = Some v.
Proof. unfold need. destruct (get d k); split; congruence. Qed.
Lemma one_frame_spec d id f : one_frame d id = Ok f <-> f_id f = id /\ frame_in d f.
Proof.
  unfold one_frame, frame_in. split.
  - intros H. repeat (apply obind_ok in H as (? & ? & H)). injection H as <-. cbn [f_id f_name f_class f_class_id f_center f_tk]. split; [reflexivity|].
    repeat match goal with
      | E : need _ _ = Ok _ |- _ => apply need_ok in E
      | E : text_value _ _ = Ok _ |- _ => apply text_value_spec in E; subst
      | E : int_value _ _ = Ok _ |- _ => apply int_value_spec in E
      | E : parse_frame_class _ = Ok _ |- _ => apply class_code in E; subst
      | E : read_tk _ _ _ = Ok _ |- _ => apply read_tk_spec in E
    end. repeat split; eauto.
  - intros (<- & (s & N & Ns) & (cv & C & Cw) & (iv & I & Iw) & (ev & X & Xw) & T). destruct f as [id name c ci ce tk]. cbn [f_id f_name f_class f_class_id f_center f_tk] in *. subst name.
    rewrite (proj2 (need_ok _ _ _) N). cbn [obind text_value]. rewrite (proj2 (need_ok _ _ _) C). cbn [obind]. rewrite (proj2 (int_value_spec _ _ _) Cw). cbn [obind].
    rewrite (proj2 (class_code _ _) eq_refl). cbn [obind]. rewrite (proj2 (need_ok _ _ _) I). cbn [obind]. rewrite (proj2 (int_value_spec _ _ _) Iw). cbn [obind].
    rewrite (proj2 (need_ok _ _ _) X). cbn [obind]. rewrite (proj2 (int_value_spec _ _ _) Xw). cbn [obind]. rewrite (proj2 (read_tk_spec _ _ _ _) T). reflexivity.
Qed.
Theorem frames_spec d fs : from_table d = Ok fs <->
  StronglySorted Z.lt (map f_id fs) /\ (forall i, In i (map f_id fs) <-> exists k v, In (k, v) d /\ frame_key k = Some i) /\ Forall (frame_in d) fs.
Proof. apply (read_ids f_id (one_frame d) (frame_in d) frame_key d fs). apply one_frame_spec. Qed.
Lemma read_tk_np d id c : read_tk d id c <> Panic.
Proof.
  unfold read_tk. destruct c; try discriminate. destruct (get d _) as [v|]; [|discriminate]. destruct v; cbn; try discriminate.
  destruct (str_eqb _ _); [|discriminate]. destruct (get_f64_array _ _); [|discriminate]. destruct (negb _); [discriminate|].
  unfold need. destruct (get d _) as [v|]; [|discriminate]. destruct v; cbn; discriminate.
Qed.
Lemma int_value_np v k : int_value v k <> Panic.
Proof. destruct v; cbn; try discriminate. destruct (_ && _); discriminate. Qed.
Lemma obind_np {A B E} (x : outcome A E) (k : A -> outcome B E) : x <> Panic -> (forall a, k a <> Panic) -> obind x k <> Panic.
Proof. destruct x; cbn; intros; auto; congruence. Qed.
Theorem frames_np d : from_table d <> Panic.
Proof.
  apply omap_np. intros id. unfold one_frame.
  repeat (apply obind_np; [first [unfold need; destruct (get _ _); discriminate | destruct a; discriminate | apply int_value_np | apply read_tk_np | idtac]|intros ?]); try discriminate;
  try (match goal with |- text_value ?v _ <> _ => destruct v; discriminate end); try apply int_value_np; try apply read_tk_np.
  - unfold parse_frame_class. repeat match goal with |- context [match ?x with _ => _ end] => destruct x end; discriminate.
Qed.
