(** Written tracking data messages read back. *)
From Coq Require Import Ascii String List NArith ZArith Bool QArith Qabs Lia.
From Verif Require Import Base Text DecFloat Omm_Model Omm_Proofs Pck_Model Ik_Proofs Ctx_Proofs Kvn_Proofs Sp3_Model Sp3_Write Oem_Model Oem_Proofs Oem_Write Tdm_Model Tdm_Proofs.
Import ListNotations.
Local Open Scope N_scope.
Local Open Scope list_scope.

(** ** What can be written *)
(** A keyword of one's own: trimmed, one line, no equals sign, not one of the known ones, not looking like a comment or the version *)
Definition good_type (t : obs_type) : Prop :=
  match t with
  | Other k => solid k /\ one_line k /\ ~ In 61 k /\ starts_with (lit "COMMENT") k = false /\ starts_with (lit "CCSDS_TDM") k = false /\
               ~ In k [lit "RANGE"; lit "DOPPLER_INSTANTANEOUS"; lit "DOPPLER_INTEGRATED"; lit "ANGLE_1"; lit "ANGLE_2"]
  | _ => True
  end.
Definition good_obs (o : observation) : Prop := good_type (what o) /\ good_val (at_ o) /\ at_ o <> [].
Definition good_tmeta (m : tdm_meta) : Prop := Forall good_val (participants m) /\ Forall good_val [path_mode m; path m; clock m].
Definition good_tdm (m : tdm) : Prop := Forall good_tmeta (metas m) /\ Forall good_obs (observations m).

Lemma tkey_line k n v : k <> [] -> solid k -> ~ In 61 k -> starts_with (lit "COMMENT") (k ++ repeat 32 n ++ [61]) = false -> starts_with (lit "CCSDS_TDM") (k ++ repeat 32 n ++ [61]) = false ->
  (0 < n)%nat -> solid v -> tsays (k ++ repeat 32 n ++ [61; 32] ++ v) k v.
Proof.
  intros K0 K1 K2 K3 K4 N V. split; [|now apply key_line].
  destruct K1 as [->|(K1 & K1')]; [congruence|].
  assert (T : trim (k ++ repeat 32 n ++ [61; 32] ++ v) = (k ++ repeat 32 n) ++ 61 :: trim_end (32 :: v)).
  { unfold trim. rewrite trim_start_app_solid by assumption. rewrite app_assoc. cbn [app]. now apply trim_end_keep. }
  rewrite T. set (w := trim_end (32 :: v)). clearbody w. destruct (starts_with _ ((k ++ repeat 32 n) ++ 61 :: w)) eqn:S; [|reflexivity]. exfalso.
  apply starts_with_spec in S as (r & S). change (61 :: w) with ([61] ++ w) in S. rewrite app_assoc, <- (app_assoc k) in S. destruct (prefix_split _ _ _ _ S) as [(r' & H)|(q & H)].
  - pose proof (proj2 (starts_with_spec (lit "CCSDS_TDM") _) (ex_intro _ r' H)). congruence.
  - assert (X : In 61 (lit "CCSDS_TDM")) by (rewrite H; apply in_or_app; left; apply in_or_app; right; apply in_or_app; right; now left). revert X. no_eq.
Qed.
Ltac tkey_ok := match goal with
  | |- tsays (?p ++ ?v) (lit ?k) ?v =>
      let n := eval vm_compute in (length p - length (lit k) - 2)%nat in
      change (tsays (lit k ++ repeat 32 n ++ [61; 32] ++ v) (lit k) v); apply tkey_line;
      [discriminate|right; split; reflexivity|no_eq|reflexivity|reflexivity|lia|]
  end.
Lemma starts_short (p k s : str) c : ~ In c p -> starts_with p (k ++ c :: s) = starts_with p k.
Proof.
  intros N. destruct (starts_with p (k ++ c :: s)) eqn:S.
  - symmetry. apply starts_with_spec in S as (r & S). apply starts_with_spec. destruct (prefix_split _ _ _ _ S) as [(r' & H)|(q & H)]; [eauto|]. destruct q as [|d q]; [exists []; now rewrite app_nil_r in *|].
    rewrite H, <- app_assoc in S. apply app_inv_head in S. injection S as <- _. exfalso. apply N. rewrite H. apply in_or_app. right. now left.
  - symmetry. destruct (starts_with p k) eqn:K; [|reflexivity]. apply starts_with_spec in K as (r & ->). rewrite <- app_assoc in S.
    pose proof (proj2 (starts_with_spec p (p ++ r ++ c :: s)) (ex_intro _ _ eq_refl)). congruence.
Qed.
(** A line about any keyword, the empty one included *)
Lemma free_line k v : solid k -> ~ In 61 k -> starts_with (lit "COMMENT") k = false -> starts_with (lit "CCSDS_TDM") k = false -> solid v -> tsays (k ++ lit " = " ++ v) k v.
Proof.
  intros K1 K2 K3 K4 V. destruct k as [|c k].
  - assert (T : trim (lit " = " ++ v) = 61 :: trim_end (32 :: v)).
    { unfold trim. change (trim_start (lit " = " ++ v)) with ([] ++ 61 :: 32 :: v). now rewrite trim_end_keep. }
    cbn [app]. unfold tsays, says. rewrite T. split; [reflexivity|]. split; [reflexivity|]. exists [], (trim_end (32 :: v)). split; [reflexivity|]. split; [intros []|]. split; [reflexivity|].
    destruct V as [->|(V & V')]; [reflexivity|]. destruct v as [|d v]; [reflexivity|]. rewrite trim_end_id by exact V'. unfold trim. change (trim_start (32 :: d :: v)) with (trim_start (d :: v)). apply trim_solid. now right.
  - change ((c :: k) ++ lit " = " ++ v) with ((c :: k) ++ repeat 32 1 ++ [61; 32] ++ v). apply tkey_line; [discriminate|exact K1|exact K2| | |lia|exact V].
    + change (repeat 32 1 ++ [61]) with (32 :: [61]). rewrite starts_short; [exact K3|no_eq].
    + change (repeat 32 1 ++ [61]) with (32 :: [61]). rewrite starts_short; [exact K4|no_eq].
Qed.
Lemma tsays_plain l k v : tsays l k v -> plain l.
Proof. intros (_ & _ & a & b & E & _). unfold plain. rewrite E. repeat split; intros H; assert (X : In 61 (a ++ 61 :: b)) by (apply in_or_app; right; now left); rewrite H in X; revert X; no_eq. Qed.

(** ** Metadata *)
Lemma tsays_entry l k v : tsays l k v -> entry l = Some (k, v). Proof. apply entry_spec. Qed.
Lemma participant_says j p : solid p -> tsays (lit "PARTICIPANT_" ++ dec j ++ lit " = " ++ p) (lit "PARTICIPANT_" ++ dec j) p.
Proof.
  intros P. rewrite app_assoc. apply free_line; [|..|exact P].
  - right. split; [reflexivity|]. rewrite last_app_r by apply dec_nonempty. pose proof (inked_dec j) as F. apply (forallb_last _ _ 0) in F; [now apply negb_true_iff in F|apply dec_nonempty].
  - intros H. apply in_app_or in H as [H|H]; [revert H; no_eq|]. pose proof (dec_digit j) as D. rewrite forallb_forall in D. specialize (D _ H). discriminate D.
  - reflexivity.
  - reflexivity.
Qed.
Lemma participants_entries ps : Forall good_val ps -> forall j, Forall plain (participant_lines j ps) /\ Forall one_line (participant_lines j ps) /\
  exists ns, length ns = length ps /\ entries (participant_lines j ps) = map (fun np => (lit "PARTICIPANT_" ++ fst np, snd np)) (combine ns ps).
Proof.
  induction 1 as [|p ps (P & P1) _ IH]; intros j; cbn [participant_lines]; [split; [constructor|split; [constructor|exists []; split; reflexivity]]|].
  destruct (IH (j + 1)) as (A & B & ns & L & E). pose proof (participant_says j p P) as S. split; [constructor; [exact (tsays_plain _ _ _ S)|exact A]|]. split.
  - constructor; [|exact B]. unfold one_line. apply no_nl_app; [no_eq|]. apply no_nl_app; [apply no_nl_inked, inked_dec|]. apply no_nl_app; [no_eq|exact P1].
  - exists (dec j :: ns). split; [cbn; now rewrite L|]. unfold entries in *. cbn [flat_map]. rewrite (tsays_entry _ _ _ S), E. reflexivity.
Qed.
Definition meta_body (m : tdm_meta) : list str :=
  participant_lines 1 (participants m) ++ unless_empty "MODE             = " (path_mode m) ++ unless_empty "PATH             = " (path m) ++ unless_empty "TIME_SYSTEM      = " (clock m).
Definition opt_entry (k : string) (v : str) : list (str * str) := match v with [] => [] | _ => [(lit k, v)] end.
Lemma unless_ok (p k : string) v : (v <> [] -> tsays (lit p ++ v) (lit k) v) -> ~ In 10 (lit p) -> one_line v ->
  Forall plain (unless_empty p v) /\ Forall one_line (unless_empty p v) /\ entries (unless_empty p v) = opt_entry k v.
Proof.
  intros S N O. unfold unless_empty, opt_entry. destruct v as [|c v]; [repeat split; constructor|]. specialize (S ltac:(discriminate)). split; [|split].
  - constructor; [exact (tsays_plain _ _ _ S)|constructor].
  - constructor; [|constructor]. now apply no_nl_app.
  - unfold entries. cbn [flat_map]. rewrite (tsays_entry _ _ _ S). reflexivity.
Qed.
Lemma entries_app a b : entries (a ++ b) = entries a ++ entries b. Proof. apply flat_map_app. Qed.
Lemma kv_get_app a b k : kv_get (a ++ b) k = match kv_get b k with Some v => Some v | None => kv_get a k end.
Proof.
  induction a as [|(k', v) a IH]; cbn [app]; [destruct (kv_get b k); reflexivity|]. rewrite !kv_get_cons, IH. destruct (kv_get b k); reflexivity.
Qed.
Lemma parts_app a b : parts (a ++ b) = parts a ++ parts b. Proof. unfold parts. now rewrite filter_app, map_app. Qed.
Lemma parts_named ns ps : length ns = length ps -> parts (map (fun np => (lit "PARTICIPANT_" ++ fst np, snd np)) (combine ns ps)) = ps.
Proof.
  revert ps. induction ns as [|n ns IH]; intros [|p ps] L; try discriminate; [reflexivity|]. cbn [combine map fst snd]. unfold parts. cbn [filter fst].
  rewrite (proj2 (starts_with_spec (lit "PARTICIPANT_") (lit "PARTICIPANT_" ++ n)) (ex_intro _ n eq_refl)). cbn [map snd]. f_equal. apply IH. now injection L.
Qed.
Lemma get_named ns (ps : list str) k : starts_with (lit "PARTICIPANT_") k = false -> kv_get (map (fun np => (lit "PARTICIPANT_" ++ fst np, snd np)) (combine ns ps)) k = None.
Proof.
  intros K. generalize (combine ns ps). induction l as [|(n, p) l IH]; [reflexivity|]. cbn [map fst snd]. rewrite kv_get_cons, IH.
  destruct (str_eqb_spec (lit "PARTICIPANT_" ++ n) k) as [E|]; [|reflexivity]. pose proof (proj2 (starts_with_spec (lit "PARTICIPANT_") k) (ex_intro _ n (eq_sym E))). congruence.
Qed.
Lemma meta_body_back m : good_tmeta m -> Forall plain (meta_body m) /\ Forall one_line (meta_body m) /\ meta_is (meta_body m) m.
Proof.
  intros (P & F). repeat match goal with H : Forall _ (_ :: _) |- _ => inversion_clear H end. unfold good_val in *.
  destruct (participants_entries _ P 1) as (A1 & B1 & ns & L & E1).
  destruct (unless_ok "MODE             = " "MODE" (path_mode m)) as (A2 & B2 & E2); [intros _; tkey_ok; tauto|no_eq|tauto|].
  destruct (unless_ok "PATH             = " "PATH" (path m)) as (A3 & B3 & E3); [intros _; tkey_ok; tauto|no_eq|tauto|].
  destruct (unless_ok "TIME_SYSTEM      = " "TIME_SYSTEM" (clock m)) as (A4 & B4 & E4); [intros _; tkey_ok; tauto|no_eq|tauto|].
  unfold meta_body. split; [repeat (apply Forall_app; split; [assumption|]); assumption|]. split; [repeat (apply Forall_app; split; [assumption|]); assumption|].
  apply meta_is_spec. rewrite !entries_app, E1, E2, E3, E4. unfold tover. rewrite !parts_app, (parts_named _ _ L), !kv_get_app, !get_named by reflexivity. cbn [participants path_mode path clock new_meta app].
  destruct m as [ps mo pa cl]. cbn [participants path_mode path clock]. destruct mo, pa, cl; cbn; rewrite ?app_nil_r; reflexivity.
Qed.

(** ** Observations *)
Section Shown.
(** [show] is the text of a number, [same] what holds between a number and the one its text is read as *)
Variable show : fnum -> str.
Variable same : fnum -> fnum -> Prop.
Hypothesis show_word : forall f, show f <> [] /\ inked (show f) = true.
Hypothesis show_back : forall f, exists g, parse_f64 (show f) = Some g /\ same g f.
Definition like_obs (a b : observation) : Prop := what a = what b /\ at_ a = at_ b /\ same (value a) (value b).
Lemma keyword_names t : good_type t -> names (keyword t) t.
Proof. destruct t; cbn [good_type keyword]; intros G; constructor. apply G. Qed.
Lemma sep_last e x : ~ In 32 x -> splits_last (lit " : ") (e ++ lit " : " ++ x) e x.
Proof.
  intros N. split; [reflexivity|]. intros a' b' E. destruct (Nat.le_gt_cases (length a') (length e)) as [|G]; [assumption|]. exfalso.
  assert (K : forall (e a' : str), (length e < length a')%nat -> e ++ lit " : " ++ x = a' ++ lit " : " ++ b' -> exists t, lit " : " ++ x = t ++ lit " : " ++ b' /\ t <> []).
  { clear. induction e as [|c e IH]; intros a' G E.
    - exists a'. split; [exact E|]. destruct a'; [cbn in G; lia|discriminate].
    - destruct a' as [|d a']; [cbn in G; lia|]. cbn [app length] in *. injection E as -> E. apply IH with (a' := a'); [lia|exact E]. }
  destruct (K _ _ G E) as (t & Et & Nt). destruct t as [|c0 t]; [congruence|]. cbn [app lit] in Et. change (lit " : ") with [32; 58; 32] in Et. cbn [app] in Et. injection Et as _ Et.
  destruct t as [|c1 t]; [discriminate Et|]. cbn [app] in Et. injection Et as _ Et. destruct t as [|c2 t]; cbn [app] in Et.
  - injection Et as Et. apply N. rewrite Et. right. left. reflexivity.
  - injection Et as _ Et. apply N. rewrite Et. apply in_or_app. right. left. reflexivity.
Qed.
Lemma solid_app3 e x : solid e -> e <> [] -> x <> [] -> inked x = true -> solid (e ++ lit " : " ++ x).
Proof.
  intros [->|(E1 & E2)] E0 X I; [congruence|]. right. split; [destruct e; [congruence|exact E1]|]. rewrite app_assoc, last_app_r by exact X. apply (forallb_last _ _ 0) in I; [now apply negb_true_iff in I|exact X].
Qed.
Lemma keyword_line o : good_obs o -> tsays (obs_line show o) (keyword (what o)) (at_ o ++ lit " : " ++ show (value o)) /\ one_line (obs_line show o).
Proof.
  intros (T & (V & V1) & N). destruct (show_word (value o)) as (S0 & S1). unfold obs_line.
  assert (K : solid (keyword (what o)) /\ one_line (keyword (what o)) /\ ~ In 61 (keyword (what o)) /\ starts_with (lit "COMMENT") (keyword (what o)) = false /\ starts_with (lit "CCSDS_TDM") (keyword (what o)) = false).
  { destruct (what o); cbn [keyword good_type] in *; [..|tauto]; (split; [right; split; reflexivity|]; split; [no_eq|]; split; [no_eq|]; split; reflexivity). }
  destruct K as (K1 & K2 & K3 & K4 & K5). split.
  - apply free_line; try assumption. now apply solid_app3.
  - unfold one_line. apply no_nl_app; [exact K2|]. apply no_nl_app; [no_eq|]. apply no_nl_app; [exact V1|]. apply no_nl_app; [no_eq|]. now apply no_nl_inked.
Qed.
Lemma obs_back o : good_obs o -> exists o', obs_is (keyword (what o)) (at_ o ++ lit " : " ++ show (value o)) o' /\ like_obs o' o.
Proof.
  intros (T & (V & V1) & N). destruct (show_back (value o)) as (g & P & S). destruct (show_word (value o)) as (S0 & S1). exists (Obs (what o) (at_ o) g). split; [|repeat split; assumption].
  split; [now apply keyword_names|]. exists (at_ o), (show (value o)). split; [apply sep_last|split].
  - intros I. unfold inked in S1. rewrite forallb_forall in S1. specialize (S1 _ I). discriminate S1.
  - cbn [at_]. symmetry. now apply trim_solid.
  - rewrite trim_solid; [exact P|]. apply (inked_good _ S1).
Qed.
Lemma observed_back os : Forall good_obs os -> Forall plain (map (obs_line show) os) /\ Forall one_line (map (obs_line show) os) /\ exists os', observed (map (obs_line show) os) os' /\ Forall2 like_obs os' os.
Proof.
  induction 1 as [|o os G _ (A & B & os' & O & L)]; [split; [constructor|split; [constructor|exists []; split; constructor]]|].
  destruct (keyword_line o G) as (S & One). destruct (obs_back o G) as (o' & Oi & Li). cbn [map]. split; [constructor; [exact (tsays_plain _ _ _ S)|exact A]|]. split; [constructor; assumption|].
  exists (o' :: os'). split; [|now constructor]. eapply ob_take; eassumption.
Qed.

(** ** Messages *)
Fixpoint meta_pieces (first : bool) (ms : list tdm_meta) : list piece :=
  match ms with [] => [] | m :: t => (if first then [] else [Stray []]) ++ PMeta (lit "META_START") (meta_body m) (lit "META_STOP") :: meta_pieces false t end.
Definition tdm_pieces (m : tdm) : list piece :=
  Stray (lit "CCSDS_TDM_VERS = 1.0") :: meta_pieces true (metas m) ++ [Stray []; PData (lit "DATA_START") (map (obs_line show) (observations m)) (lit "DATA_STOP")].
Lemma block_shape m : meta_block m = lit "META_START" :: meta_body m ++ [lit "META_STOP"].
Proof. unfold meta_block, meta_body. rewrite <- !app_assoc. reflexivity. Qed.
Lemma meta_pieces_lines ms : forall b, flat_map piece_lines (meta_pieces b ms) = meta_blocks b ms.
Proof.
  induction ms as [|m ms IH]; intros b; [reflexivity|]. cbn [meta_pieces meta_blocks]. rewrite flat_map_app. cbn [flat_map piece_lines]. rewrite IH, block_shape. destruct b; cbn [flat_map piece_lines app]; rewrite <- app_assoc; reflexivity.
Qed.
Lemma tdm_pieces_lines m : flat_map piece_lines (tdm_pieces m) = tdm_lines show m.
Proof. unfold tdm_pieces, tdm_lines. cbn [flat_map]. rewrite flat_map_app, meta_pieces_lines. cbn [flat_map piece_lines app]. rewrite app_nil_r. reflexivity. Qed.
Lemma meta_pieces_ok ms : Forall good_tmeta ms -> forall b, Forall good_piece (meta_pieces b ms) /\ Forall one_line (meta_blocks b ms) /\ Forall2 meta_is (meta_bodies (meta_pieces b ms)) ms /\ data_lines (meta_pieces b ms) = [].
Proof.
  induction 1 as [|m ms G _ IH]; intros b; [repeat split; constructor|]. destruct (IH false) as (A & B & C & D). destruct (meta_body_back m G) as (P & O & M).
  cbn [meta_pieces meta_blocks]. rewrite block_shape. split; [|split; [|split]].
  - apply Forall_app. split; [destruct b; [constructor|constructor; [repeat split; discriminate|constructor]]|]. constructor; [split; [reflexivity|split; [exact P|reflexivity]]|exact A].
  - apply Forall_app. split; [destruct b; [constructor|constructor; [intros []|constructor]]|]. constructor; [no_eq|]. apply Forall_app. split; [apply Forall_app; split; [exact O|constructor; [no_eq|constructor]]|exact B].
  - destruct b; cbn; (constructor; [exact M|exact C]).
  - destruct b; cbn; exact D.
Qed.
Lemma one_lines m : good_tdm m -> Forall one_line (tdm_lines show m).
Proof.
  intros (M & O). destruct (meta_pieces_ok _ M true) as (_ & B & _). destruct (observed_back _ O) as (_ & B2 & _). unfold tdm_lines.
  constructor; [no_eq|]. apply Forall_app. split; [exact B|]. constructor; [intros []|]. constructor; [no_eq|]. apply Forall_app. split; [exact B2|]. constructor; [no_eq|constructor].
Qed.
Theorem tdm_back m : good_tdm m -> exists m', read_tdm (write_tdm show m) = Ok m' /\ metas m' = metas m /\ Forall2 like_obs (observations m') (observations m).
Proof.
  intros G. pose proof (one_lines m G) as One. destruct G as (M & O). destruct (meta_pieces_ok _ M true) as (A & _ & C & D). destruct (observed_back _ O) as (P & _ & os & Ob & L).
  exists (Tdm (metas m) os). split; [|split; [reflexivity|exact L]]. rewrite read_tdm_lines. unfold write_tdm, unlines. rewrite (split_nl_lines _ One), <- tdm_pieces_lines. apply tread_spec.
  - unfold tdm_pieces. constructor; [repeat split; discriminate|]. apply Forall_app. split; [exact A|]. constructor; [repeat split; discriminate|]. constructor; [split; [reflexivity|split; [exact P|reflexivity]]|constructor].
  - unfold tdm_told, tdm_pieces, meta_bodies, data_lines. cbn [flat_map metas observations app]. rewrite !flat_map_app. cbn [flat_map]. rewrite app_nil_r. fold (data_lines (meta_pieces true (metas m))) (meta_bodies (meta_pieces true (metas m))). rewrite D, !app_nil_r. split; [exact C|exact Ob].
Qed.
(** An observation without an epoch is written as a line that makes the whole message unreadable *)
Definition written_obs (o : observation) : Prop := good_type (what o) /\ good_val (at_ o).
Lemma gen_line k w : solid k -> ~ In 61 k -> starts_with (lit "COMMENT") k = false -> starts_with (lit "CCSDS_TDM") k = false -> is_ws (last w 0) = false -> w <> [] -> tsays (k ++ lit " = " ++ w) k (trim w).
Proof.
  intros K1 K2 K3 K4 W W0. assert (E : trim_end (32 :: w) = 32 :: w) by (apply trim_end_id; destruct w; [congruence|exact W]). destruct k as [|c k].
  - assert (T : trim (lit " = " ++ w) = 61 :: 32 :: w) by (unfold trim; change (trim_start (lit " = " ++ w)) with ([] ++ 61 :: 32 :: w); rewrite trim_end_keep, E; reflexivity).
    cbn [app]. unfold tsays, says. rewrite T. split; [reflexivity|]. split; [reflexivity|]. exists [], (32 :: w). repeat split. intros [].
  - destruct K1 as [K1|(K1 & K1')]; [discriminate|].
    assert (T : trim ((c :: k) ++ lit " = " ++ w) = ((c :: k) ++ [32]) ++ 61 :: 32 :: w).
    { unfold trim. rewrite trim_start_app_solid by (assumption || discriminate). rewrite <- app_assoc. change ([32] ++ 61 :: 32 :: w) with ([32; 61] ++ 32 :: w). change (lit " = " ++ w) with ([32] ++ 61 :: 32 :: w). rewrite app_assoc, trim_end_keep, E by reflexivity. now rewrite <- app_assoc. }
    unfold tsays, says. rewrite T. rewrite <- app_assoc. change ([32] ++ 61 :: 32 :: w) with (32 :: 61 :: 32 :: w). rewrite !starts_short by no_eq. split; [exact K4|]. split; [exact K3|].
    exists ((c :: k) ++ [32]), (32 :: w). split; [now rewrite <- app_assoc|]. split; [|split].
    + intros I. apply in_app_or in I as [I|I]; [exact (K2 I)|]. revert I. no_eq.
    + unfold trim. rewrite trim_start_app_solid by (assumption || discriminate). change [32] with (repeat 32 1). rewrite trim_end_spaces. now apply trim_end_id.
    + reflexivity.
Qed.
Lemma written_line o : written_obs o -> tsays (obs_line show o) (keyword (what o)) (trim (at_ o ++ lit " : " ++ show (value o))) /\ one_line (obs_line show o).
Proof.
  intros (T & (V & V1)). destruct (show_word (value o)) as (S0 & S1). unfold obs_line.
  assert (K : solid (keyword (what o)) /\ one_line (keyword (what o)) /\ ~ In 61 (keyword (what o)) /\ starts_with (lit "COMMENT") (keyword (what o)) = false /\ starts_with (lit "CCSDS_TDM") (keyword (what o)) = false).
  { destruct (what o); cbn [keyword good_type] in *; [..|tauto]; (split; [right; split; reflexivity|]; split; [no_eq|]; split; [no_eq|]; split; reflexivity). }
  destruct K as (K1 & K2 & K3 & K4 & K5). split.
  - apply gen_line; try assumption; [|destruct (at_ o); discriminate]. rewrite app_assoc, last_app_r by exact S0. apply (forallb_last _ _ 0) in S1; [now apply negb_true_iff in S1|exact S0].
  - unfold one_line. apply no_nl_app; [exact K2|]. apply no_nl_app; [no_eq|]. apply no_nl_app; [exact V1|]. apply no_nl_app; [no_eq|]. now apply no_nl_inked.
Qed.
Lemma no_sep x : inked x = true -> x <> [] -> forall e y, trim (lit " : " ++ x) <> e ++ lit " : " ++ y.
Proof.
  intros I N e y E. assert (T : trim (lit " : " ++ x) = 58 :: 32 :: x).
  { unfold trim. change (trim_start (lit " : " ++ x)) with (58 :: 32 :: x). apply trim_end_id. apply (forallb_last _ _ 0) in I; [|exact N]. apply negb_true_iff in I. destruct x; [congruence|exact I]. }
  assert (X : ~ In 32 x) by (intros H; unfold inked in I; rewrite forallb_forall in I; specialize (I _ H); discriminate I).
  rewrite T in E. change (lit " : ") with [32; 58; 32] in E. destruct e as [|c e]; cbn [app] in E; [discriminate|]. injection E as _ E. destruct e as [|d e]; cbn [app] in E.
  - injection E as E. apply X. rewrite E. right. now left.
  - injection E as _ E. apply X. rewrite E. apply in_or_app. right. now left.
Qed.
Theorem no_epoch_lost m o : Forall good_tmeta (metas m) -> Forall written_obs (observations m) -> In o (observations m) -> at_ o = [] -> forall m', read_tdm (write_tdm show m) <> Ok m'.
Proof.
  intros M W I E m' R. destruct (meta_pieces_ok _ M true) as (A & B & _ & D).
  assert (P : Forall plain (map (obs_line show) (observations m))) by (apply Forall_map; eapply Forall_impl; [|exact W]; intros x Hx; eapply tsays_plain, written_line, Hx).
  assert (One : Forall one_line (tdm_lines show m)).
  { unfold tdm_lines. constructor; [no_eq|]. apply Forall_app. split; [exact B|]. constructor; [intros []|]. constructor; [no_eq|]. apply Forall_app. split; [|constructor; [no_eq|constructor]].
    apply Forall_map. eapply Forall_impl; [|exact W]. intros x Hx. apply written_line, Hx. }
  rewrite read_tdm_lines in R. unfold write_tdm, unlines in R. rewrite (split_nl_lines _ One), <- tdm_pieces_lines in R. apply tread_spec in R.
  - destruct R as (_ & R). unfold tdm_pieces, data_lines in R. cbn [flat_map app] in R. rewrite !flat_map_app in R. cbn [flat_map] in R. fold (data_lines (meta_pieces true (metas m))) in R. rewrite D, app_nil_r in R. cbn [app] in R.
    destruct m as [ms os]. cbn [observations] in *. clear - R I W E show_word. generalize dependent (observations m'). induction os as [|x os IH]; intros os' R; [destruct I|].
    inversion W as [|? ? Wx Ws]; subst. cbn [map] in R. destruct (written_line x Wx) as (S & _). inversion R as [|? ? ? N R'|? ? k v q qs T O R']; subst; [exact (N _ _ S)|].
    destruct I as [->|I]; [|exact (IH Ws I _ R')]. apply tsays_entry in S. apply tsays_entry in T. rewrite S in T. assert (Ev : v = trim (at_ o ++ lit " : " ++ show (value o))) by congruence. subst v.
    rewrite E in O. destruct O as (_ & e & y & (Y & _) & _). destruct (show_word (value o)) as (S0 & S1). exact (no_sep _ S1 S0 _ _ Y).
  - unfold tdm_pieces. constructor; [repeat split; discriminate|]. apply Forall_app. split; [exact A|]. constructor; [repeat split; discriminate|]. constructor; [split; [reflexivity|split; [exact P|reflexivity]]|constructor].
Qed.
End Shown.
