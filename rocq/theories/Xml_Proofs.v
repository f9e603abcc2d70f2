From Coq Require Import Ascii String List NArith ZArith Lia Bool QArith Permutation.
From Verif Require Import Base Text DecFloat Tle_Model Tle_Spec Tle_Proofs Tle_Fields Tle_Roundtrip Omm_Model Omm_Proofs Xml_Model.
Import ListNotations.
Local Open Scope N_scope.
Local Open Scope list_scope.

(** ** Character references *)
(** A piece of escaped text: a plain character or one of the five references *)
Inductive piece := Plain (c : N) | Amp | Lt | Gt | Quot | Apos.
Definition spelled (p : piece) : str :=
  match p with Plain c => [c] | Amp => lit "&amp;" | Lt => lit "&lt;" | Gt => lit "&gt;" | Quot => lit "&quot;" | Apos => lit "&apos;" end.
Definition meant (p : piece) : N := match p with Plain c => c | Amp => 38 | Lt => 60 | Gt => 62 | Quot => 34 | Apos => 39 end.
Definition plain_ok (p : piece) : Prop := match p with Plain c => c <> 38 | _ => True end.

Lemma flat_map_flat_map {A B C} (f : B -> list C) (g : A -> list B) l : flat_map f (flat_map g l) = flat_map (fun x => flat_map f (g x)) l.
Proof. induction l as [|x l IH]; [reflexivity|]. cbn. rewrite flat_map_app. f_equal. exact IH. Qed.
Lemma flat_map_same {A B} (f g : A -> list B) l : (forall x, f x = g x) -> flat_map f l = flat_map g l.
Proof. intros H. induction l as [|x l IH]; [reflexivity|]. cbn. now rewrite H, IH. Qed.
Definition escape1 (c : N) : piece :=
  if c =? 38 then Amp else if c =? 60 then Lt else if c =? 62 then Gt else if c =? 34 then Quot else if c =? 39 then Apos else Plain c.
Lemma escape_pieces s : xml_escape s = flat_map spelled (map escape1 s).
Proof.
  unfold xml_escape, replace_char. rewrite !flat_map_flat_map. rewrite (flat_map_concat_map spelled), map_map, <- flat_map_concat_map. apply flat_map_same. intros c. unfold escape1.
  destruct (N.eqb_spec c 38) as [->|N1]; [reflexivity|]. cbn [flat_map app].
  destruct (N.eqb_spec c 60) as [->|N2]; [reflexivity|]. cbn [flat_map app].
  destruct (N.eqb_spec c 62) as [->|N3]; [reflexivity|]. cbn [flat_map app].
  destruct (N.eqb_spec c 34) as [->|N4]; [reflexivity|]. cbn [flat_map app].
  destruct (N.eqb_spec c 39) as [->|N5]; [reflexivity|]. cbn [flat_map app]. reflexivity.
Qed.
(** Replacing a reference in text made of tokens *)
Lemma rep_skip pat to w r : rep pat to (w ++ r) (length w) = rep pat to r 0.
Proof. induction w as [|c w IH]; [reflexivity|]. exact IH. Qed.
Lemma starts_app p r : starts_with p (p ++ r) = true.
Proof. induction p as [|x p IH]; [reflexivity|]. cbn. now rewrite N.eqb_refl. Qed.
Lemma rep_match pat to r : pat <> [] -> replace_str pat to (pat ++ r) = to ++ replace_str pat to r.
Proof.
  intros N. destruct pat as [|c w]; [contradiction|]. unfold replace_str. cbn [app rep].
  pose proof (starts_app (c :: w) r) as S. cbn [app] in S.
  rewrite S. f_equal. cbn [length]. rewrite Nat.sub_1_r. cbn [Nat.pred]. apply rep_skip.
Qed.
Definition passes (pat tok : str) : Prop := forall to r, replace_str pat to (tok ++ r) = tok ++ replace_str pat to r.
Lemma passes_plain w c : c <> 38 -> passes (38 :: w) [c].
Proof. intros N to r. unfold replace_str. cbn [app rep starts_with]. destruct (N.eqb_spec 38 c); [congruence|]. reflexivity. Qed.
Lemma rep_tokens {A} (g : A -> str) (pat to : str) l : pat <> [] -> Forall (fun x => g x = pat \/ passes pat (g x)) l ->
  replace_str pat to (flat_map g l) = flat_map (fun x => if str_eqb (g x) pat then to else g x) l.
Proof.
  intros N F. induction F as [|x l [E|P] F IH]; [reflexivity| |]; cbn [flat_map].
  - rewrite E, rep_match, IH by exact N. destruct (str_eqb_spec pat pat); [reflexivity|contradiction].
  - rewrite P, IH. destruct (str_eqb_spec (g x) pat) as [E|_]; [|reflexivity].
    f_equal. exfalso. pose proof (P [] []) as X. rewrite E, rep_match in X by exact N. cbn in X. destruct pat; [contradiction|discriminate].
Qed.
Definition stage (n : nat) (p : piece) : str :=
  match p with
  | Plain c => [c]
  | Apos => if (1 <=? n)%nat then [39] else lit "&apos;"
  | Quot => if (2 <=? n)%nat then [34] else lit "&quot;"
  | Gt => if (3 <=? n)%nat then [62] else lit "&gt;"
  | Lt => if (4 <=? n)%nat then [60] else lit "&lt;"
  | Amp => if (5 <=? n)%nat then [38] else lit "&amp;"
  end.
Lemma one_stage n pat to l : (forall p, plain_ok p -> stage n p = pat \/ passes pat (stage n p)) -> pat <> [] ->
  (forall p, plain_ok p -> stage (S n) p = if str_eqb (stage n p) pat then to else stage n p) -> Forall plain_ok l ->
  replace_str pat to (flat_map (stage n) l) = flat_map (stage (S n)) l.
Proof.
  intros A N B F. rewrite rep_tokens; [|exact N|eapply Forall_impl; [|exact F]; exact A]. clear A. induction F as [|p l H F IH]; [reflexivity|].
  cbn [flat_map]. now rewrite IH, (B p H).
Qed.
Lemma single_ne c (w : str) x : str_eqb [c] (x :: 97 :: w) = false. Proof. cbn. apply andb_false_r. Qed.
Ltac stage_tac := intros p H; destruct p as [c| | | | |]; cbn [stage plain_ok] in *;
  [right; now apply passes_plain|..]; first [left; reflexivity | right; intros to r; reflexivity].
Theorem unescape_pieces l : Forall plain_ok l -> xml_unescape (flat_map spelled l) = map meant l.
Proof.
  intros F. unfold xml_unescape.
  replace (flat_map spelled l) with (flat_map (stage 0) l) by (apply flat_map_same; intros []; reflexivity).
  rewrite (one_stage 0), (one_stage 1), (one_stage 2), (one_stage 3), (one_stage 4); auto; try discriminate; try stage_tac;
  try (intros p H; destruct p as [c| | | | |]; cbn [stage plain_ok] in *; try reflexivity; cbn [str_eqb lit]; unfold lit; cbn; rewrite ?andb_false_r; reflexivity).
  clear F. induction l as [|p l IH]; [reflexivity|]. cbn. rewrite IH. destruct p; reflexivity.
Qed.
Theorem unescape_escape s : xml_unescape (xml_escape s) = s.
Proof.
  rewrite escape_pieces, unescape_pieces.
  - rewrite map_map. rewrite <- (map_id s) at 2. apply map_ext. intros c. unfold escape1.
    repeat (match goal with |- context [N.eqb ?a ?b] => destruct (N.eqb_spec a b) as [->|] end; [reflexivity|]). reflexivity.
  - apply Forall_forall. intros p I. apply in_map_iff in I as (c & <- & _). unfold escape1.
    destruct (N.eqb_spec c 38); [exact I|]. repeat (match goal with |- context [N.eqb ?a ?b] => destruct (N.eqb_spec a b) as [->|] end; [exact I|]). assumption.
Qed.
Theorem escape_clean s c : In c (xml_escape s) -> ~ In c [60; 62; 34; 39].
Proof.
  rewrite escape_pieces. intros I. apply in_flat_map in I as (p & P & I). apply in_map_iff in P as (x & <- & _). unfold escape1 in I.
  repeat (match type of I with context [N.eqb x ?b] => let e := fresh "e" in destruct (N.eqb_spec x b) as [e|e]; [cbn in I; intros X; cbn in X; lia|] end). cbn in I |- *. lia.
Qed.
Lemma escape_solid s : solid s -> solid (xml_escape s).
Proof.
  intros [->|[H L]]; [left; reflexivity|]. destruct s as [|c t]; [left; reflexivity|]. right. rewrite escape_pieces.
  assert (E1 : forall x, is_ws x = false -> is_ws (hd 0 (spelled (escape1 x))) = false /\ is_ws (last (spelled (escape1 x)) 0) = false /\ spelled (escape1 x) <> []).
  { intros x Hx. unfold escape1. repeat (match goal with |- context [N.eqb ?a ?b] => destruct (N.eqb_spec a b) as [->|] end; [repeat split; discriminate|]). repeat split; [exact Hx..|discriminate]. }
  split.
  - cbn [map flat_map]. destruct (E1 c H) as (A & _ & B). destruct (spelled (escape1 c)); [contradiction|exact A].
  - assert (N : c :: t <> []) by discriminate. destruct (exists_last N) as (l & x & E). rewrite E in *. rewrite last_last in L.
    rewrite map_app, flat_map_app. cbn [map flat_map]. rewrite app_nil_r. destruct (E1 x L) as (_ & A & B). rewrite last_app_r by exact B. exact A.
Qed.

(** ** Elements *)
Lemma plain_no (c : N) s : forallb (fun x => negb (x =? c)) s = true -> ~ In c s.
Proof. rewrite forallb_forall. intros H I. specialize (H c I). rewrite N.eqb_refl in H. discriminate. Qed.
Definition tag_ok (t : str) : Prop := ~ In 60 t /\ ~ In 62 t.
Definition doc (l : list (str * str)) : str := flat_map (fun e => [60] ++ fst e ++ [62] ++ snd e) l.
Definition doc_ok (l : list (str * str)) : Prop := Forall (fun e => tag_ok (fst e) /\ ~ In 60 (snd e)) l.
Lemma find_skip pat w s : ~ In 60 w -> find_str (60 :: pat) (w ++ s) = match find_str (60 :: pat) s with Some (a, b) => Some (w ++ a, b) | None => None end.
Proof.
  induction w as [|c w IH]; intros N; [cbn [app]; destruct (find_str (60 :: pat) s) as [(a, b)|]; reflexivity|]. cbn [app find_str starts_with].
  destruct (N.eqb_spec 60 c) as [<-|]; [destruct N; now left|]. cbn [andb]. rewrite IH by (intros X; apply N; now right).
  destruct (find_str (60 :: pat) s) as [(a, b)|]; reflexivity.
Qed.
Lemma tag_match t t' r : ~ In 62 t -> ~ In 62 t' -> starts_with (t ++ [62]) (t' ++ 62 :: r) = str_eqb t t'.
Proof.
  revert t'. induction t as [|c t IH]; intros t' A B.
  - destruct t' as [|d t']; [reflexivity|]. cbn [app starts_with str_eqb]. destruct (N.eqb_spec 62 d) as [<-|]; [destruct B; now left|reflexivity].
  - destruct t' as [|d t']; cbn [app starts_with str_eqb].
    + destruct (N.eqb_spec c 62) as [->|]; [destruct A; now left|reflexivity].
    + rewrite IH; [reflexivity|intros X; apply A; now right|intros X; apply B; now right].
Qed.
(** Searching a document for a tag finds the first element start with that very tag *)
Fixpoint seek (t : str) (l : list (str * str)) : option (list (str * str) * str * list (str * str)) :=
  match l with
  | [] => None
  | e :: r => if str_eqb t (fst e) then Some ([], snd e, r)
              else match seek t r with Some (a, v, b) => Some (e :: a, v, b) | None => None end
  end.
Lemma find_doc t l : ~ In 62 t -> doc_ok l ->
  find_str ([60] ++ t ++ [62]) (doc l) = match seek t l with Some (a, v, b) => Some (doc a, v ++ doc b) | None => None end.
Proof.
  intros T F. induction F as [|e l ((A & B) & C) F IH]; [reflexivity|]. destruct e as [t' v]. cbn [fst snd] in *.
  change (doc ((t', v) :: l)) with ([60] ++ (t' ++ [62] ++ v) ++ doc l) || idtac.
  unfold doc at 1. cbn [flat_map fst snd]. fold (doc l). cbn [app]. rewrite <- !app_assoc. cbn [app find_str starts_with].
  rewrite N.eqb_refl. cbn [andb]. rewrite tag_match by assumption. cbn [seek fst snd].
  destruct (str_eqb_spec t t') as [->|N].
  - f_equal. f_equal. cbn [length skipn]. rewrite app_length. cbn [length]. replace (length t' + 1)%nat with (S (length t')) by lia. apply skipn_app_cons. reflexivity.
  - replace (t' ++ 62 :: v ++ doc l) with ((t' ++ 62 :: v) ++ doc l) by (rewrite <- app_assoc; reflexivity).
    rewrite find_skip.
    + change (60 :: t ++ [62]) with ([60] ++ t ++ [62]). rewrite IH. destruct (seek t l) as [((a, w), b)|]; [|reflexivity].
      repeat f_equal.
    + intros X. apply in_app_or in X as [X|[X|X]]; [contradiction|discriminate|contradiction].
Qed.
Lemma seek_ok t l a v b : doc_ok l -> seek t l = Some (a, v, b) -> doc_ok b /\ ~ In 60 v.
Proof.
  intros F. revert a v b. induction F as [|[t' v'] l (A & C) F IH]; intros a v b; [discriminate|]. cbn [seek fst snd] in *. destruct (str_eqb t t').
  - intros E. injection E as <- <- <-. auto.
  - destruct (seek t l) as [((a', w'), b')|]; [|discriminate]. intros E. injection E as <- <- <-. eapply IH; reflexivity.
Qed.
(** the text of the first element with a tag *)
Definition text_of (t : str) (l : list (str * str)) : option str :=
  match seek t l with
  | Some (_, v, b) => match seek (47 :: t) b with Some (a, _, _) => Some (v ++ doc a) | None => None end
  | None => None
  end.
Theorem extract_doc t l : tag_ok t -> doc_ok l -> extract_tag (doc l) t = match text_of t l with Some v => Some (trim v) | None => None end.
Proof.
  intros (A & B) F. unfold extract_tag, text_of. rewrite find_doc by assumption. destruct (seek t l) as [((a, v), b)|] eqn:E; [|reflexivity].
  apply seek_ok in E as (Fb & Nv); [|exact F]. change ([60; 47] ++ t ++ [62]) with (60 :: (47 :: t) ++ [62]). rewrite find_skip by exact Nv.
  change (60 :: (47 :: t) ++ [62]) with ([60] ++ (47 :: t) ++ [62]). rewrite find_doc; [|intros [X|X]; [discriminate|contradiction]|exact Fb].
  destruct (seek (47 :: t) b) as [((a', v'), b')|]; reflexivity.
Qed.

(** ** The message *)
Section RT.
  Context {E : Type} (format_epoch : E -> res str) (parse_epoch : str -> res E).
  Lemma kvn_is_omm_of input : kvn_read parse_epoch input = omm_of parse_epoch (kv_get (kv_parse input)) (fun s => s).
  Proof. reflexivity. Qed.

  Definition pairs (o : omm E) (s : str) : list (str * str) :=
    let el tag v := [(lit tag, v); (47 :: lit tag, [10])] in
    [(lit "?xml version=""1.0"" encoding=""UTF-8""?", [10]); (lit "omm id=""CCSDS_OMM_VERS"" version=""2.0""", [10]); (lit "body", []); (lit "segment", []); (lit "metadata", [10])] ++
    el "OBJECT_NAME"%string (xml_escape (o_name o)) ++ el "OBJECT_ID"%string (xml_escape (o_id o)) ++ el "CENTER_NAME"%string (lit "EARTH") ++
    el "REF_FRAME"%string (lit "TEME") ++ el "TIME_SYSTEM"%string (lit "UTC") ++ el "MEAN_ELEMENT_THEORY"%string (lit "SGP4") ++
    [(lit "/metadata", []); (lit "data", [10]); (lit "meanElements", [10])] ++
    el "EPOCH"%string s ++ el "MEAN_MOTION"%string (fmt_fixedF 8 (o_mm o)) ++ el "ECCENTRICITY"%string (fmt_fixedF 7 (o_ecc o)) ++
    el "INCLINATION"%string (fmt_fixedF 4 (o_inc o)) ++ el "RA_OF_ASC_NODE"%string (fmt_fixedF 4 (o_raan o)) ++
    el "ARG_OF_PERICENTER"%string (fmt_fixedF 4 (o_argp o)) ++ el "MEAN_ANOMALY"%string (fmt_fixedF 4 (o_ma o)) ++
    [(lit "/meanElements", [10]); (lit "tleParameters", [10])] ++
    el "EPHEMERIS_TYPE"%string (dec (o_eph o)) ++ el "CLASSIFICATION_TYPE"%string [class_char (o_class o)] ++ el "NORAD_CAT_ID"%string (dec (o_norad o)) ++
    el "ELEMENT_SET_NO"%string (dec (o_esn o)) ++ el "REV_AT_EPOCH"%string (dec (o_rev o)) ++ el "BSTAR"%string (fmt_expF 8 (o_bstar o)) ++
    el "MEAN_MOTION_DOT"%string (fmt_expF 8 (o_ndot o)) ++ el "MEAN_MOTION_DDOT"%string (fmt_expF 8 (o_nddot o)) ++
    [(lit "/tleParameters", [10]); (lit "/data", []); (lit "/segment", []); (lit "/body", []); (lit "/omm", [10])].
  Lemma text_pairs o s : xml_text o s = doc (pairs o s).
  Proof.
    unfold xml_text, doc, pairs, elem. cbn [app flat_map fst snd].
    repeat (progress (rewrite <- ?app_assoc; cbn [app lit])). reflexivity.
  Qed.

  (** *** No markup in the values *)
  Definition plain (s : str) : bool := forallb (fun c => negb (c =? 60)) s.
  Lemma plain_spec s : plain s = true -> ~ In 60 s.
  Proof. unfold plain. rewrite forallb_forall. intros H I. specialize (H 60 I). discriminate. Qed.
  Lemma plain_app a b : plain (a ++ b) = plain a && plain b. Proof. apply forallb_app. Qed.
  Lemma plain_digits s : forallb is_digit s = true -> plain s = true.
  Proof. unfold plain. rewrite !forallb_forall. intros H x I. specialize (H x I). unfold is_digit in H. destruct (N.eqb_spec x 60) as [->|]; [discriminate|reflexivity]. Qed.
  Lemma plain_fixed p f : plain (fmt_fixedF p f) = true.
  Proof.
    destruct f as [q|n|]; [|destruct n; reflexivity|reflexivity]. unfold fmt_fixedF, fmt_fixed.
    rewrite !plain_app, (plain_digits (dec _)) by apply dec_digit.
    destruct (Qle_bool 0 q), (p =? 0)%nat; try reflexivity; cbn [plain forallb andb]; apply (plain_digits _ (digits_digit _ _)).
  Qed.
  Lemma plain_exp p f : plain (fmt_expF p f) = true.
  Proof.
    destruct f as [q|n|]; [|destruct n; reflexivity|reflexivity]. unfold fmt_expF, fmt_exp.
    destruct (Qeq_bool q 0).
    - rewrite !plain_app. destruct (p =? 0)%nat; [reflexivity|]. cbn [plain forallb andb].
      change (plain (digits p 0) && true = true). rewrite (plain_digits _ (digits_digit _ _)). reflexivity.
    - match goal with |- context [let '(_, _) := ?x in _] => destruct x as [m e] end.
      rewrite !plain_app, !(plain_digits (dec _)) by apply dec_digit.
      destruct (p =? 0)%nat.
      + destruct (Qle_bool 0 q), (e <? 0)%Z; reflexivity.
      + assert (D : plain (46 :: digits p (m mod 10 ^ N.of_nat p)) = true) by exact (plain_digits _ (digits_digit _ _)).
        rewrite D. destruct (Qle_bool 0 q), (e <? 0)%Z; reflexivity.
  Qed.
  Lemma pairs_ok o s : ~ In 60 s -> doc_ok (pairs o s).
  Proof.
    intros S. unfold doc_ok, pairs. cbn [app].
    repeat (apply Forall_cons; [cbn [fst snd]; split; [split; apply plain_no; reflexivity|]|]); try apply Forall_nil;
    first [assumption | intros X; exact (escape_clean _ _ X (or_introl eq_refl)) | apply plain_spec; first [reflexivity | apply plain_fixed | apply plain_exp | apply plain_digits, dec_digit | destruct (o_class o); reflexivity]].
  Qed.

  (** *** Reading back *)
  Lemma count_dec get k max n : get k = Some (dec n) -> n <= max -> count get k max = n.
  Proof.
    intros G H. unfold count. rewrite G. rewrite parse_uint_digits by (apply dec_digit || apply dec_nonempty).
    rewrite dval_dec. destruct (N.leb_spec n max); [reflexivity|lia].
  Qed.
  Lemma num_of (get : str -> option str) k v x : get k = Some v -> parse_f64 v = Some x -> num get k = Ok x.
  Proof. intros G P. unfold num. rewrite G. cbn [need obind]. now rewrite P. Qed.
  Lemma sat_small n : n < 100000 -> sat_parse (dec n) = Ok n.
  Proof.
    intros Hn. unfold sat_parse. rewrite trim_start_digits by apply dec_digit.
    pose proof (dec_digit n) as D. pose proof (dec_nonempty n) as Dn.
    assert (L : (length (dec n) <= 5)%nat).
    { unfold dec. rewrite digits_length. apply ndig_le; [lia|]. change (10 ^ N.of_nat 5) with 100000. exact Hn. }
    pose proof (parse_uint_digits u32_max (dec n) D Dn) as PU. rewrite dval_dec in PU.
    destruct (dec n) as [|c t] eqn:X; [congruence|].
    destruct (Nat.ltb_spec 5 (length (c :: t))); [lia|].
    assert (Dc : is_digit c = true) by (cbn in D; now apply andb_prop in D as [-> _]).
    rewrite Dc, PU. unfold u32_max. destruct (N.leb_spec n 4294967295); [reflexivity|lia].
  Qed.
  Lemma sat_large n : 100000 <= n -> sat_parse (dec n) = Err InvalidAlpha5.
  Proof.
    intros Hn. unfold sat_parse. rewrite trim_start_digits by apply dec_digit. pose proof (dec_nonempty n) as Dn.
    assert (L : (6 <= length (dec n))%nat).
    { unfold dec. rewrite digits_length. apply (ndig_ge n 5). change (10 ^ N.of_nat 5) with 100000. exact Hn. }
    destruct (dec n) as [|c t]; [congruence|]. destruct (Nat.ltb_spec 5 (length (c :: t))); [reflexivity|lia].
  Qed.

  Variable o : omm E.
  Variables (s : str) (e' : E).
  Hypothesis Fe : format_epoch (o_epoch o) = Ok s.
  Hypothesis Pe : parse_epoch s = Ok e'.
  Hypothesis Sn : solid (o_name o).
  Hypothesis Si : solid (o_id o).
  Hypothesis Ss : solid s.
  Hypothesis Ls : ~ In 60 s.

  Definition got := extract_tag (xml_text o s).
  Lemma got_at t v : tag_ok t -> text_of t (pairs o s) = Some (v ++ []) -> solid v -> got t = Some v.
  Proof. intros T H S. unfold got. rewrite text_pairs, extract_doc, H; [|exact T|now apply pairs_ok]. now rewrite app_nil_r, trim_solid. Qed.
  Lemma inked_solid v : inked v = true -> solid v. Proof. intros H. now apply inked_good in H as [H _]. Qed.
  Ltac at_tac := apply got_at; [split; apply plain_no; reflexivity|reflexivity|
    first [apply escape_solid; assumption | assumption | apply inked_solid; first [reflexivity | apply inked_fixed | apply inked_exp | apply inked_digits, dec_digit | destruct (o_class o); reflexivity]]].
  Theorem xml_roundtrip : fits_ints o -> o_norad o < 100000 ->
    exists text o', xml_write format_epoch o = Ok text /\ xml_read parse_epoch text = Ok o' /\
      o_name o' = o_name o /\ o_id o' = o_id o /\ o_epoch o' = e' /\ o_class o' = o_class o /\
      o_norad o' = o_norad o /\ o_eph o' = o_eph o /\ o_esn o' = o_esn o /\ o_rev o' = o_rev o /\
      near (5 # 1000000000) (o_mm o') (o_mm o) /\ near (5 # 100000000) (o_ecc o') (o_ecc o) /\
      near (5 # 100000) (o_inc o') (o_inc o) /\ near (5 # 100000) (o_raan o') (o_raan o) /\
      near (5 # 100000) (o_argp o') (o_argp o) /\ near (5 # 100000) (o_ma o') (o_ma o) /\
      near_rel (5 # 1000000000) (o_bstar o') (o_bstar o) /\
      near_rel (5 # 1000000000) (o_ndot o') (o_ndot o) /\
      near_rel (5 # 1000000000) (o_nddot o') (o_nddot o).
  Proof.
    intros (B1 & B2 & B3) Hn. unfold xml_write. rewrite Fe. cbn [obind].
    destruct (fixed_near 8 (o_mm o)) as (mm & Pmm & Nmm). destruct (fixed_near 7 (o_ecc o)) as (ec & Pec & Nec).
    destruct (fixed_near 4 (o_inc o)) as (i & Pi & Ni). destruct (fixed_near 4 (o_raan o)) as (ra & Pra & Nra).
    destruct (fixed_near 4 (o_argp o)) as (ap & Pap & Nap). destruct (fixed_near 4 (o_ma o)) as (ma & Pma & Nma).
    destruct (exp_near 8 (o_bstar o)) as (bs & Pbs & Nbs). destruct (exp_near 8 (o_ndot o)) as (nd & Pnd & Nnd).
    destruct (exp_near 8 (o_nddot o)) as (ndd & Pndd & Nndd).
    eexists. unfold xml_read. eexists. split; [reflexivity|]. fold got.
    assert (G1 : got (lit "MEAN_ELEMENT_THEORY") = Some (lit "SGP4")) by at_tac.
    assert (G2 : got (lit "OBJECT_NAME") = Some (xml_escape (o_name o))) by at_tac.
    assert (G3 : got (lit "OBJECT_ID") = Some (xml_escape (o_id o))) by at_tac.
    assert (G4 : got (lit "EPOCH") = Some s) by at_tac.
    assert (G5 : got (lit "CLASSIFICATION_TYPE") = Some [class_char (o_class o)]) by at_tac.
    assert (G6 : got (lit "NORAD_CAT_ID") = Some (dec (o_norad o))) by at_tac.
    assert (G7 : num got (lit "MEAN_MOTION") = Ok mm) by (eapply num_of; [at_tac|exact Pmm]).
    assert (G8 : num got (lit "ECCENTRICITY") = Ok ec) by (eapply num_of; [at_tac|exact Pec]).
    assert (G9 : num got (lit "INCLINATION") = Ok i) by (eapply num_of; [at_tac|exact Pi]).
    assert (G10 : num got (lit "RA_OF_ASC_NODE") = Ok ra) by (eapply num_of; [at_tac|exact Pra]).
    assert (G11 : num got (lit "ARG_OF_PERICENTER") = Ok ap) by (eapply num_of; [at_tac|exact Pap]).
    assert (G12 : num got (lit "MEAN_ANOMALY") = Ok ma) by (eapply num_of; [at_tac|exact Pma]).
    assert (G13 : num got (lit "BSTAR") = Ok bs) by (eapply num_of; [at_tac|exact Pbs]).
    assert (G14 : num got (lit "MEAN_MOTION_DOT") = Ok nd) by (eapply num_of; [at_tac|exact Pnd]).
    assert (G15 : num got (lit "MEAN_MOTION_DDOT") = Ok ndd) by (eapply num_of; [at_tac|exact Pndd]).
    assert (G16 : count got (lit "EPHEMERIS_TYPE") 255 = o_eph o) by (apply count_dec; [at_tac|assumption]).
    assert (G17 : count got (lit "ELEMENT_SET_NO") 65535 = o_esn o) by (apply count_dec; [at_tac|assumption]).
    assert (G18 : count got (lit "REV_AT_EPOCH") u32_max = o_rev o) by (apply count_dec; [at_tac|assumption]).
    unfold omm_of. generalize dependent got. intros got. intros.
    rewrite G1, G2, G3, G4, G5, G6, G7, G8, G9, G10, G11, G12, G13, G14, G15, G16, G17, G18.
    cbn [need obind hd unwrap_or]. change (negb (str_eqb (map lower (lit "SGP4")) (map lower (lit "SGP4")))) with false.
    cbv iota. rewrite Pe. cbn [obind]. rewrite class_roundtrip. cbn [obind]. rewrite sat_small by exact Hn. cbn [obind]. rewrite !unescape_escape.
    split; [reflexivity|]. cbn [o_name o_id o_epoch o_class o_norad o_eph o_esn o_rev o_mm o_ecc o_inc o_raan o_argp o_ma o_bstar o_ndot o_nddot].
    repeat (split; [solve [reflexivity|eapply near_le; [|eassumption]; discriminate
      |eapply near_rel_le; [|eassumption]; discriminate]|]).
    eapply near_rel_le; [|eassumption]; discriminate.
  Qed.
  Theorem xml_six_digits : 100000 <= o_norad o -> exists text, xml_write format_epoch o = Ok text /\ xml_read parse_epoch text = Err InvalidAlpha5.
  Proof.
    intros Hn. unfold xml_write. rewrite Fe. cbn [obind]. eexists. split; [reflexivity|]. unfold xml_read. fold got.
    assert (G1 : got (lit "MEAN_ELEMENT_THEORY") = Some (lit "SGP4")) by at_tac.
    assert (G2 : got (lit "OBJECT_NAME") = Some (xml_escape (o_name o))) by at_tac.
    assert (G3 : got (lit "OBJECT_ID") = Some (xml_escape (o_id o))) by at_tac.
    assert (G4 : got (lit "EPOCH") = Some s) by at_tac.
    assert (G5 : got (lit "CLASSIFICATION_TYPE") = Some [class_char (o_class o)]) by at_tac.
    assert (G6 : got (lit "NORAD_CAT_ID") = Some (dec (o_norad o))) by at_tac.
    unfold omm_of. generalize dependent got. intros got. intros.
    rewrite G1, G2, G3, G4, G5, G6. cbn [need obind hd].
    change (negb (str_eqb (map lower (lit "SGP4")) (map lower (lit "SGP4")))) with false.
    cbv iota. rewrite Pe. cbn [obind]. rewrite class_roundtrip. cbn [obind]. rewrite sat_large by exact Hn. reflexivity.
  Qed.
End RT.

(** ** What surrounds an element does not matter *)
Lemma seek_app t l m : seek t (l ++ m) = match seek t l with Some (a, v, b) => Some (a, v, b ++ m) | None => match seek t m with Some (a, v, b) => Some (l ++ a, v, b) | None => None end end.
Proof.
  induction l as [|[t' v] l IH]; [cbn [app seek]; destruct (seek t m) as [((a, v), b)|]; reflexivity|].
  cbn [app seek fst snd]. destruct (str_eqb t t'); [reflexivity|]. rewrite IH. destruct (seek t l) as [((a, w), b)|]; [reflexivity|].
  destruct (seek t m) as [((a, w), b)|]; reflexivity.
Qed.
Lemma seek_none t l : seek t l = None <-> ~ In t (map fst l).
Proof.
  induction l as [|[t' v] l IH]; [cbn; tauto|]. cbn [seek map fst snd]. destruct (str_eqb_spec t t') as [->|N].
  - split; [discriminate|]. intros X. destruct X. now left.
  - destruct (seek t l) as [((a, w), b)|].
    + split; [discriminate|]. intros X. assert (Y : ~ In t (map fst l)) by (intros I; apply X; now right). apply IH in Y. discriminate.
    + split; [|reflexivity]. intros _ [X|X]; [congruence|]. now apply (proj1 IH).
Qed.
Theorem text_of_before t m l : ~ In t (map fst m) -> text_of t (m ++ l) = text_of t l.
Proof. intros N. unfold text_of. rewrite seek_app, (proj2 (seek_none t m) N). destruct (seek t l) as [((a, v), b)|]; reflexivity. Qed.
Theorem text_of_after t l m v : text_of t l = Some v -> text_of t (l ++ m) = Some v.
Proof.
  unfold text_of. rewrite seek_app. destruct (seek t l) as [((a, w), b)|]; [|discriminate]. rewrite seek_app.
  destruct (seek (47 :: t) b) as [((a', w'), b')|]; [auto|discriminate].
Qed.
Theorem text_of_none t l : ~ In t (map fst l) -> text_of t l = None.
Proof. intros N. unfold text_of. now rewrite (proj2 (seek_none t l) N). Qed.
Theorem text_of_leaf t l m v w : ~ In t (map fst l) -> text_of t (l ++ (t, v) :: (47 :: t, w) :: m) = Some v.
Proof.
  intros N. rewrite text_of_before by exact N. unfold text_of. cbn [seek fst snd]. destruct (str_eqb_spec t t) as [_|X]; [|congruence].
  cbn [seek fst snd]. destruct (str_eqb_spec (47 :: t) (47 :: t)) as [_|X]; [|congruence]. now rewrite app_nil_r.
Qed.
