(** What the tolerant readers of mean-elements messages accept, field by field. *)
From Coq Require Import Ascii String List NArith ZArith Lia Bool QArith Qabs.
From Verif Require Import Base Text DecFloat Tle_Model Tle_Spec Tle_Proofs Tle_Fields Tle_Roundtrip Omm_Model Omm_Proofs Xml_Model Xml_Proofs Ctx_Proofs.
Import ListNotations.
Local Open Scope N_scope.
Local Open Scope list_scope.

(** ** Lines and keys *)
(** A line says that [k] is [v]: it is not a comment and its first equals sign separates the two, blanks around them apart *)
Definition says (l k v : str) : Prop :=
  starts_with (lit "COMMENT") (trim l) = false /\ exists a b, trim l = a ++ 61 :: b /\ ~ In 61 a /\ trim a = k /\ trim b = v.
Lemma split_first (c : N) a b a' b' : ~ In c a -> ~ In c a' -> a ++ c :: b = a' ++ c :: b' -> a = a' /\ b = b'.
Proof.
  revert a'. induction a as [|x a IH]; intros [|y a'] N N' E; cbn in E; injection E.
  - auto.
  - intros _ ->. destruct N'. now left.
  - intros _ ->. destruct N. now left.
  - intros E1 ->. destruct (IH a') as (-> & ->); auto; intros X; [apply N|apply N']; now right.
Qed.
Lemma kv_line_says l k v : In (k, v) (kv_line l) <-> says l k v.
Proof.
  unfold kv_line, says. destruct (trim l) as [|x t] eqn:T.
  { split; [intros []|]. intros (_ & a & b & E & _). destruct a; discriminate. }
  rewrite <- T. clear x t T. destruct (starts_with (lit "COMMENT") (trim l)); [split; [intros []|intros (X & _); discriminate]|].
  destruct (find_char 61 (trim l)) as [i|] eqn:F.
  - apply find_char_some in F. split.
    + intros [E|[]]. injection E as <- <-. split; [reflexivity|]. exists (firstn i (trim l)), (skipn (S i) (trim l)). tauto.
    + intros (_ & a & b & E & N & <- & <-). left. destruct F as (F1 & F2 & _). rewrite F1 in E at 1. apply split_first in E as (E1 & E2); [|assumption|assumption]. now rewrite E1, E2.
  - apply find_char_none in F. split; [intros []|]. intros (_ & a & b & E & _). destruct F. rewrite E. apply in_or_app. right. now left.
Qed.
Lemma kv_line_one l : kv_line l = [] \/ exists k v, kv_line l = [(k, v)].
Proof. unfold kv_line. destruct (trim l) as [|x t]; [auto|]. destruct (starts_with _ _); [auto|]. destruct (find_char _ _); eauto. Qed.
Definition told_in (ls : list str) (k v : str) : Prop := exists l, latest ls (fun l => exists w, says l k w) l /\ says l k v.
Definition told (text k v : str) : Prop := told_in (split_lines text) k v.
Lemma says_fun l k v w : says l k v -> says l k w -> v = w.
Proof. intros (_ & a & b & E & N & _ & <-) (_ & a' & b' & E' & N' & _ & <-). rewrite E in E'. now apply split_first in E' as (_ & ->). Qed.
Theorem kv_get_told_in ls k v : kv_get (flat_map kv_line ls) k = Some v <-> told_in ls k v.
Proof.
  unfold told_in, kv_get. induction ls as [|l ls IH] using rev_ind.
  { split; [discriminate|]. intros (l & (a & b & E & _) & _). destruct a; discriminate. }
  rewrite flat_map_app, rev_app_distr. cbn [flat_map]. rewrite app_nil_r.
  assert (S1 : (exists w, says l k w) -> (match find (fun e => str_eqb (fst e) k) (rev (kv_line l) ++ rev (flat_map kv_line ls)) with Some e => Some (snd e) | None => None end = Some v <-> says l k v)).
  { intros (w & S). pose proof (proj2 (kv_line_says l k w) S) as I. destruct (kv_line_one l) as [E|(k' & v' & E)]; rewrite E in *; [destruct I|].
    destruct I as [I|[]]. injection I as -> ->. cbn [rev app find fst snd]. destruct (str_eqb_spec k k) as [_|X]; [|congruence].
    split; [intros Q; injection Q as <-; exact S|]. intros S'. f_equal. exact (says_fun _ _ _ _ S S'). }
  assert (S2 : ~ (exists w, says l k w) -> find (fun e => str_eqb (fst e) k) (rev (kv_line l) ++ rev (flat_map kv_line ls)) = find (fun e => str_eqb (fst e) k) (rev (flat_map kv_line ls))).
  { intros N. destruct (kv_line_one l) as [E|(k' & v' & E)]; rewrite E; [reflexivity|]. cbn [rev app find fst].
    destruct (str_eqb_spec k' k) as [->|_]; [|reflexivity]. destruct N. exists v'. apply kv_line_says. rewrite E. now left. }
  assert (D : (exists w, says l k w) \/ ~ (exists w, says l k w)).
  { destruct (kv_line_one l) as [E|(k' & v' & E)].
    - right. intros (w & S). apply kv_line_says in S. rewrite E in S. destruct S.
    - destruct (str_eqb_spec k' k) as [->|N]; [left; exists v'; apply kv_line_says; rewrite E; now left|].
      right. intros (w & S). apply kv_line_says in S. rewrite E in S. destruct S as [S|[]]. congruence. }
  destruct D as [D|D].
  - rewrite (S1 D). split.
    + intros S. exists l. split; [|exact S]. exists ls, []. split; [reflexivity|]. split; [exact D|constructor].
    + intros (l' & L & S). assert (X : l' = l). { eapply latest_fun; [exact L|]. exists ls, []. split; [reflexivity|]. split; [exact D|constructor]. } subst l'. exact S.
  - rewrite (S2 D), IH. split; intros (l' & (a & b & E & P & F) & S).
    + exists l'. split; [|exact S]. exists a, (b ++ [l]). rewrite E, <- app_assoc. split; [reflexivity|]. split; [exact P|]. apply Forall_app. auto.
    + exists l'. split; [|exact S]. destruct b as [|z b] using rev_ind; [apply app_inj_tail in E as (_ & <-); contradiction|].
      replace (a ++ l' :: b ++ [z]) with ((a ++ l' :: b) ++ [z]) in E by (rewrite <- app_assoc; reflexivity). apply app_inj_tail in E as (-> & ->).
      apply Forall_app in F as (F & _). exists a, b. auto.
Qed.
Theorem kv_get_told text k v : kv_get (kv_parse text) k = Some v <-> told text k v.
Proof. apply kv_get_told_in. Qed.
Lemma told_fun text k v w : told text k v -> told text k w -> v = w.
Proof. rewrite <- !kv_get_told. congruence. Qed.

(** ** The message of the fields found *)
Section Fields.
  Context {E : Type} (parse_epoch : str -> res E).
  (** [found k v]: the text of field [k] is [v] *)
  Variable found : str -> str -> Prop.
  Definition number_is (k : string) (x : fnum) : Prop := exists v, found (lit k) v /\ parse_f64 v = Some x.
  (** a field that may be absent or unreadable, and is then zero *)
  Definition number_or_zero (k : string) (x : fnum) : Prop :=
    number_is k x \/ ((forall v, found (lit k) v -> parse_f64 v = None) /\ x = Fin 0).
  Definition count_is (k : string) (max n : N) : Prop :=
    (exists v, found (lit k) v /\ parse_uint max v = Some n) \/ ((forall v, found (lit k) v -> parse_uint max v = None) /\ n = 0).
  Definition message (text : str -> str) (o : omm E) : Prop :=
    (forall t, found (lit "MEAN_ELEMENT_THEORY") t -> map lower t = lit "sgp4") /\
    (exists v, found (lit "OBJECT_NAME") v /\ o_name o = text v) /\
    (exists v, found (lit "OBJECT_ID") v /\ o_id o = text v) /\
    (exists v, found (lit "EPOCH") v /\ parse_epoch v = Ok (o_epoch o)) /\
    ((exists c v, found (lit "CLASSIFICATION_TYPE") (c :: v) /\ class_of c = Ok (o_class o)) \/
     ((forall v, found (lit "CLASSIFICATION_TYPE") v -> v = []) /\ o_class o = Unclassified)) /\
    (exists v, found (lit "NORAD_CAT_ID") v /\ sat_parse v = Ok (o_norad o)) /\
    number_is "MEAN_MOTION" (o_mm o) /\ number_is "ECCENTRICITY" (o_ecc o) /\ number_is "INCLINATION" (o_inc o) /\
    number_is "RA_OF_ASC_NODE" (o_raan o) /\ number_is "ARG_OF_PERICENTER" (o_argp o) /\ number_is "MEAN_ANOMALY" (o_ma o) /\
    count_is "EPHEMERIS_TYPE" 255 (o_eph o) /\ count_is "ELEMENT_SET_NO" 65535 (o_esn o) /\ count_is "REV_AT_EPOCH" 4294967295 (o_rev o) /\
    number_or_zero "BSTAR" (o_bstar o) /\ number_or_zero "MEAN_MOTION_DOT" (o_ndot o) /\ number_or_zero "MEAN_MOTION_DDOT" (o_nddot o).

  Variable get : str -> option str.
  Hypothesis get_found : forall k v, get k = Some v <-> found k v.

  Lemma num_is k x : num get (lit k) = Ok x <-> number_is k x.
  Proof.
    unfold num, number_is. split.
    - destruct (get (lit k)) as [v|] eqn:G; [|discriminate]. cbn [Tle_Model.need obind]. intros H. exists v. split; [now apply get_found|].
      destruct (parse_f64 v); [now injection H as ->|discriminate].
    - intros (v & F & P). apply get_found in F. rewrite F. cbn [Tle_Model.need obind]. now rewrite P.
  Qed.
  Lemma num_or_zero k x : unwrap_or (Fin 0) (num get (lit k)) = x <-> number_or_zero k x.
  Proof.
    unfold number_or_zero. rewrite <- num_is. unfold num. destruct (get (lit k)) as [v|] eqn:G; cbn [Tle_Model.need obind].
    - destruct (parse_f64 v) as [y|] eqn:P; cbn [Tle_Model.need unwrap_or].
      + split; [intros ->; now left|]. intros [H|(H & _)]; [now injection H|]. apply get_found in G. rewrite (H _ G) in P. discriminate.
      + split; [|intros [H|(_ & H)]; [discriminate|now symmetry]]. intros <-. right. split; [|reflexivity]. intros w F. apply get_found in F. congruence.
    - cbn [unwrap_or]. split; [|intros [H|(_ & H)]; [discriminate|now symmetry]]. intros <-. right. split; [|reflexivity]. intros w F. apply get_found in F. congruence.
  Qed.
  Lemma count_spec k max n : count get (lit k) max = n <-> count_is k max n.
  Proof.
    unfold count, count_is. destruct (get (lit k)) as [v|] eqn:G.
    - destruct (parse_uint max v) as [m|] eqn:P.
      + split; [intros ->; left; exists v; split; [now apply get_found|exact P]|].
        intros [(w & F & Q)|(F & _)]; [apply get_found in F; congruence|]. apply get_found in G. rewrite (F _ G) in P. discriminate.
      + split; [intros <-; right; split; [|reflexivity]; intros w F; apply get_found in F; congruence|].
        intros [(w & F & Q)|(_ & ->)]; [apply get_found in F; congruence|reflexivity].
    - split; [intros <-; right; split; [|reflexivity]; intros w F; apply get_found in F; congruence|].
      intros [(w & F & Q)|(_ & ->)]; [apply get_found in F; congruence|reflexivity].
  Qed.
  Lemma class_spec c : class_of (hd 85 (match get (lit "CLASSIFICATION_TYPE") with Some v => v | None => lit "U" end)) = Ok c <->
    (exists x v, found (lit "CLASSIFICATION_TYPE") (x :: v) /\ class_of x = Ok c) \/
    ((forall v, found (lit "CLASSIFICATION_TYPE") v -> v = []) /\ c = Unclassified).
  Proof.
    assert (U : forall c', class_of 85 = Ok c' <-> c' = Unclassified) by (intros c'; cbn; split; [intros H; now injection H|now intros ->]).
    destruct (get (lit "CLASSIFICATION_TYPE")) as [[|x v]|] eqn:G.
    - cbn [hd]. rewrite U. split; [intros ->; right; split; [|reflexivity]; intros w F; apply get_found in F; congruence|].
      intros [(x & v & F & _)|(_ & H)]; [apply get_found in F; congruence|exact H].
    - cbn [hd]. split; [intros H; left; exists x, v; split; [now apply get_found|exact H]|].
      intros [(y & w & F & H)|(F & _)]; [apply get_found in F; rewrite G in F; now injection F as <- <-|]. apply get_found in G. discriminate (F _ G).
    - change (hd 85 (lit "U")) with 85. rewrite U. split; [intros ->; right; split; [|reflexivity]; intros w F; apply get_found in F; congruence|].
      intros [(x & v & F & _)|(_ & H)]; [apply get_found in F; congruence|exact H].
  Qed.
  Lemma obind_iff {A B X} (x : outcome A X) (k : A -> outcome B X) b : obind x k = Ok b <-> exists a, x = Ok a /\ k a = Ok b.
  Proof. destruct x; cbn; split; try discriminate; try (intros (? & ? & ?); congruence). eauto. Qed.
  Lemma need_iff k v : Tle_Model.need (get k) (OmmMissingField k) = Ok v <-> found k v.
  Proof. rewrite <- get_found. destruct (get k); cbn; split; congruence. Qed.
  Lemma theory_spec : negb (str_eqb (map lower (match get (lit "MEAN_ELEMENT_THEORY") with Some t => t | None => lit "SGP4" end)) (map lower (lit "SGP4"))) = false <->
    (forall t, found (lit "MEAN_ELEMENT_THEORY") t -> map lower t = lit "sgp4").
  Proof.
    change (map lower (lit "SGP4")) with (lit "sgp4"). rewrite negb_false_iff. destruct (get (lit "MEAN_ELEMENT_THEORY")) as [t|] eqn:G.
    - destruct (str_eqb_spec (map lower t) (lit "sgp4")) as [Q|Q].
      + split; [|reflexivity]. intros _ t' F. apply get_found in F. congruence.
      + split; [discriminate|]. intros H. apply get_found in G. destruct Q. now apply H.
    - split; [|reflexivity]. intros _ t' F. apply get_found in F. congruence.
  Qed.
  Theorem omm_of_message text o : omm_of parse_epoch get text = Ok o <-> message text o.
  Proof.
    unfold omm_of, message. pose proof theory_spec as T. destruct (negb _) eqn:B.
    { split; [discriminate|]. intros (H & _). apply T in H. discriminate. }
    pose proof (proj1 T eq_refl) as T1. clear T. split.
    - intros H. repeat (apply obind_iff in H as (? & ? & H)). injection H as <-. cbn [o_name o_id o_epoch o_class o_norad o_eph o_esn o_rev o_mm o_ecc o_inc o_raan o_argp o_ma o_bstar o_ndot o_nddot].
      repeat match goal with H : Tle_Model.need _ _ = Ok _ |- _ => apply need_iff in H | H : num _ _ = Ok _ |- _ => apply num_is in H end.
      repeat (split; [solve [exact T1 | eexists; split; [eassumption|reflexivity] | eexists; split; [eassumption|eassumption] | now apply class_spec | assumption | now apply count_spec | now apply num_or_zero]|]).
      now apply num_or_zero.
    - intros (_ & (n & N1 & N2) & (i & I1 & I2) & (e & E1 & E2) & C & (s & S1 & S2) & M1 & M2 & M3 & M4 & M5 & M6 & K1 & K2 & K3 & Z1 & Z2 & Z3).
      apply need_iff in N1, I1, E1, S1. apply class_spec in C. apply num_is in M1, M2, M3, M4, M5, M6. apply count_spec in K1, K2, K3. apply num_or_zero in Z1, Z2, Z3.
      fold u32_max in K3. rewrite N1, I1, E1. cbn [obind]. rewrite E2. cbn [obind]. cbv zeta. apply obind_iff. exists (o_class o). split; [exact C|]. rewrite S1. cbn [obind]. rewrite S2. cbn [obind]. rewrite M1. cbn [obind]. rewrite M2. cbn [obind].
      rewrite M3. cbn [obind]. rewrite M4. cbn [obind]. rewrite M5. cbn [obind]. rewrite M6. cbn [obind]. rewrite K1, K2, K3, Z1, Z2, Z3. destruct o. cbn in *. now subst.
  Qed.
  Lemma omm_of_np text : (forall s, parse_epoch s <> Panic) -> (forall s, sat_parse s <> Panic) -> omm_of parse_epoch get text <> Panic.
  Proof.
    intros P Q. unfold omm_of. destruct (negb _); [discriminate|].
    assert (N : forall k, num get k <> Panic) by (intros k; unfold num; destruct (get k); cbn; [destruct (parse_f64 _); discriminate|discriminate]).
    assert (D : forall {A B} (x : res A) (k : A -> res B), x <> Panic -> (forall a, k a <> Panic) -> obind x k <> Panic) by (intros A B x k X K; destruct x; cbn; congruence || auto).
    repeat (apply D; [first [apply P | apply Q | apply N | (destruct (get _); discriminate) | (unfold class_of; repeat destruct (_ =? _); discriminate)]|intros ?]). discriminate.
  Qed.
End Fields.

(** ** The readers *)
Theorem kvn_reads {E} (parse_epoch : str -> res E) text o : kvn_read parse_epoch text = Ok o <-> message parse_epoch (told text) (fun s => s) o.
Proof. rewrite kvn_is_omm_of. apply omm_of_message. intros k v. apply kv_get_told. Qed.
(** [pat] occurs in [s] first between [a] and [b] *)
Definition first_at (pat s a b : str) : Prop := s = a ++ pat ++ b /\ forall a' b', s = a' ++ pat ++ b' -> (length a <= length a')%nat.
Lemma first_at_fun pat s a b a' b' : first_at pat s a b -> first_at pat s a' b' -> a = a' /\ b = b'.
Proof.
  intros (E & L) (E' & L'). assert (Q : length a = length a') by (pose proof (L _ _ E'); pose proof (L' _ _ E); lia).
  rewrite E in E'. assert (A : a = a'). { apply (f_equal (firstn (length a))) in E'. rewrite firstn_app_exact in E' by reflexivity. rewrite firstn_app_exact in E' by (symmetry; exact Q). exact E'. }
  subst a'. split; [reflexivity|]. apply app_inv_head in E'. now apply app_inv_head in E'.
Qed.
Lemma starts_iff p s : starts_with p s = true <-> exists r, s = p ++ r.
Proof.
  revert s. induction p as [|c p IH]; intros s; [split; [intros _; now exists s|reflexivity]|]. destruct s as [|d s]; cbn [starts_with]; [split; [discriminate|intros (r & X); discriminate]|].
  rewrite andb_true_iff, N.eqb_eq, IH. split; [intros (-> & r & ->); now exists r|]. intros (r & X). injection X as -> ->. eauto.
Qed.
Lemma find_str_spec pat s a b : pat <> [] -> find_str pat s = Some (a, b) <-> first_at pat s a b.
Proof.
  intros NP. revert a b. induction s as [|c s IH]; intros a b; cbn [find_str].
  - destruct pat; [contradiction|]. cbn [starts_with]. split; [discriminate|]. intros (E & _). destruct a; discriminate.
  - destruct (starts_with pat (c :: s)) eqn:S.
    + apply starts_iff in S as (r & R). rewrite R, skipn_app, Nat.sub_diag, skipn_all. cbn [skipn app].
      assert (F : first_at pat (pat ++ r) [] r) by (split; [reflexivity|intros; cbn; lia]).
      split; [intros E; injection E as <- <-; exact F|]. intros F'. destruct (first_at_fun _ _ _ _ _ _ F F') as (<- & <-). reflexivity.
    + assert (NS : forall b', c :: s <> pat ++ b') by (intros b' X; assert (Y : starts_with pat (c :: s) = true) by (apply starts_iff; eauto); congruence).
      destruct (find_str pat s) as [(a', b')|] eqn:F.
      * pose proof (proj1 (IH a' b') eq_refl) as (E1 & L1).
        assert (F1 : first_at pat (c :: s) (c :: a') b').
        { split; [cbn; now rewrite E1 at 1|]. intros x y X. destruct x as [|d x]; [destruct (NS y X)|]. cbn in X. injection X as -> X. cbn. specialize (L1 _ _ X). lia. }
        split; [intros Q; injection Q as <- <-; exact F1|]. intros F'. destruct (first_at_fun _ _ _ _ _ _ F1 F') as (<- & <-). reflexivity.
      * split; [discriminate|]. intros (E1 & L1). destruct a as [|d a]; [destruct (NS b E1)|]. cbn in E1. injection E1 as -> E1.
        assert (X : first_at pat s a b). { split; [exact E1|]. intros x y X. specialize (L1 (d :: x) y). cbn in L1. rewrite X in L1. specialize (L1 eq_refl). lia. }
        apply IH in X. discriminate.
Qed.
(** the text, blanks at its ends apart, between the first start tag and the first end tag after it *)
Definition tagged (text t v : str) : Prop :=
  exists a r b c, first_at (lit "<" ++ t ++ lit ">") text a r /\ first_at (lit "</" ++ t ++ lit ">") r b c /\ v = trim b.
Theorem extract_tagged text t v : extract_tag text t = Some v <-> tagged text t v.
Proof.
  unfold extract_tag, tagged. change (lit "<" ++ t ++ lit ">") with ([60] ++ t ++ [62]). change (lit "</" ++ t ++ lit ">") with ([60; 47] ++ t ++ [62]).
  destruct (find_str ([60] ++ t ++ [62]) text) as [(a, r)|] eqn:F.
  - apply find_str_spec in F; [|discriminate]. destruct (find_str ([60; 47] ++ t ++ [62]) r) as [(b, c)|] eqn:G.
    + apply find_str_spec in G; [|discriminate]. split; [intros X; injection X as <-; exists a, r, b, c; auto|].
      intros (a' & r' & b' & c' & F' & G' & ->). destruct (first_at_fun _ _ _ _ _ _ F F') as (_ & <-). destruct (first_at_fun _ _ _ _ _ _ G G') as (<- & _). reflexivity.
    + split; [discriminate|]. intros (a' & r' & b' & c' & F' & G' & ->). destruct (first_at_fun _ _ _ _ _ _ F F') as (_ & <-). apply find_str_spec in G'; [congruence|discriminate].
  - split; [discriminate|]. intros (a' & r' & b' & c' & F' & G' & ->). apply find_str_spec in F'; [congruence|discriminate].
Qed.
Theorem xml_reads {E} (parse_epoch : str -> res E) text o : xml_read parse_epoch text = Ok o <-> message parse_epoch (tagged text) xml_unescape o.
Proof. unfold xml_read. apply omm_of_message. intros k v. apply extract_tagged. Qed.
Theorem readers_np {E} (parse_epoch : str -> res E) text : (forall s, parse_epoch s <> Panic) -> kvn_read parse_epoch text <> Panic /\ xml_read parse_epoch text <> Panic.
Proof.
  intros P. rewrite kvn_is_omm_of. split; apply omm_of_np; auto using sat_parse_no_panic.
Qed.

(** ** The JSON record *)
Section Json.
  Context {E : Type} (format_epoch : E -> res str) (parse_epoch : str -> res E).
  Theorem dto_roundtrip o s : format_epoch (o_epoch o) = Ok s -> forall e', parse_epoch s = Ok e' ->
    exists d, dto_of format_epoch o = Ok d /\
      omm_of_dto parse_epoch d = Ok {| o_name := o_name o; o_id := o_id o; o_epoch := e'; o_mm := o_mm o; o_ecc := o_ecc o; o_inc := o_inc o; o_raan := o_raan o;
        o_argp := o_argp o; o_ma := o_ma o; o_eph := o_eph o; o_class := o_class o; o_norad := o_norad o; o_esn := o_esn o; o_rev := o_rev o;
        o_bstar := o_bstar o; o_ndot := o_ndot o; o_nddot := o_nddot o |}.
  Proof.
    intros F e' P. unfold dto_of. rewrite F. cbn [obind]. eexists. split; [reflexivity|]. unfold omm_of_dto.
    cbn [d_theory d_epoch d_class d_name d_id d_mm d_ecc d_inc d_raan d_argp d_ma d_eph d_norad d_esn d_rev d_bstar d_ndot d_nddot or hd].
    change (negb (str_eqb (map lower (lit "SGP4")) (map lower (lit "SGP4")))) with false. cbv iota. rewrite P. cbn [obind]. rewrite class_roundtrip. reflexivity.
  Qed.
  Theorem dto_reads d o : omm_of_dto parse_epoch d = Ok o <->
    (forall t, d_theory d = Some t -> map lower t = lit "sgp4") /\ parse_epoch (d_epoch d) = Ok (o_epoch o) /\
    ((exists c v, d_class d = Some (c :: v) /\ class_of c = Ok (o_class o)) \/ ((d_class d = None \/ d_class d = Some []) /\ o_class o = Unclassified)) /\
    o_name o = d_name d /\ o_id o = d_id d /\ o_norad o = d_norad d /\
    o_mm o = d_mm d /\ o_ecc o = d_ecc d /\ o_inc o = d_inc d /\ o_raan o = d_raan d /\ o_argp o = d_argp d /\ o_ma o = d_ma d /\
    (forall x, o_eph o = x <-> d_eph d = Some x \/ d_eph d = None /\ x = 0) /\
    (forall x, o_esn o = x <-> d_esn d = Some x \/ d_esn d = None /\ x = 0) /\
    (forall x, o_rev o = x <-> d_rev d = Some x \/ d_rev d = None /\ x = 0) /\
    (forall x, o_bstar o = x <-> d_bstar d = Some x \/ d_bstar d = None /\ x = Fin 0) /\
    (forall x, o_ndot o = x <-> d_ndot d = Some x \/ d_ndot d = None /\ x = Fin 0) /\
    (forall x, o_nddot o = x <-> d_nddot d = Some x \/ d_nddot d = None /\ x = Fin 0).
  Proof.
    assert (OR : forall {A} (a : option A) (z v : A), v = or a z <-> (forall x, v = x <-> a = Some x \/ a = None /\ x = z)).
    { intros A a z v. destruct a as [y|]; cbn [or]; split.
      - intros -> x. split; [intros ->; now left|]. intros [Q|(Q & _)]; [now injection Q|discriminate].
      - intros H. apply H. now left.
      - intros -> x. split; [intros <-; now right|]. intros [Q|(_ & Q)]; [discriminate|now symmetry].
      - intros H. apply H. now right. }
    unfold omm_of_dto. rewrite <- !OR. clear OR.
    assert (T : (match d_theory d with Some t => negb (str_eqb (map lower t) (map lower (lit "SGP4"))) | None => false end = false <-> (forall t, d_theory d = Some t -> map lower t = lit "sgp4"))).
    { change (map lower (lit "SGP4")) with (lit "sgp4"). destruct (d_theory d) as [t|]; [|split; [discriminate|reflexivity]]. rewrite negb_false_iff.
      destruct (str_eqb_spec (map lower t) (lit "sgp4")) as [Q|Q]; [split; [|reflexivity]; intros _ t' X; injection X as <-; exact Q|].
      split; [discriminate|]. intros H. destruct Q. now apply H. }
    assert (C : forall c, class_of (hd 85 (or (d_class d) (lit "U"))) = Ok c <-> (exists x v, d_class d = Some (x :: v) /\ class_of x = Ok c) \/ ((d_class d = None \/ d_class d = Some []) /\ c = Unclassified)).
    { assert (U : forall c', class_of 85 = Ok c' <-> c' = Unclassified) by (intros c'; cbn; split; [intros H; now injection H|now intros ->]).
      intros c. destruct (d_class d) as [[|x v]|]; cbn [or].
      - cbn [hd]. rewrite U. split; [auto|]. intros [(x & v & X & _)|(_ & H)]; [discriminate|exact H].
      - cbn [hd]. split; [eauto|]. intros [(y & w & X & H)|([X|X] & _)]; [now injection X as <- <-|discriminate|discriminate].
      - change (hd 85 (lit "U")) with 85. rewrite U. split; [auto|]. intros [(x & v & X & _)|(_ & H)]; [discriminate|exact H]. }
    destruct (match d_theory d with Some t => _ | None => false end) eqn:B.
    { split; [discriminate|]. intros (H & _). apply T in H. discriminate. }
    pose proof (proj1 T eq_refl) as T1. clear T. split.
    - intros H. apply obind_iff in H as (e & P & H). apply obind_iff in H as (c & K & H). injection H as <-. cbn [o_name o_id o_epoch o_class o_norad o_eph o_esn o_rev o_mm o_ecc o_inc o_raan o_argp o_ma o_bstar o_ndot o_nddot].
      split; [exact T1|]. split; [exact P|]. split; [now apply C|]. repeat split.
    - intros (_ & P & K & H). apply C in K. rewrite P. cbn [obind]. rewrite K. cbn [obind]. destruct o. cbn in *.
      destruct H as (-> & -> & -> & -> & -> & -> & -> & -> & -> & -> & -> & -> & -> & -> & ->). reflexivity.
  Qed.
End Json.
