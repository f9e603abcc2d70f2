(** What the reader of tracking data messages accepts; written messages read back. *)
From Coq Require Import Ascii String List NArith ZArith Bool QArith Qabs Lia.
From Verif Require Import Base Text DecFloat Omm_Model Omm_Proofs Pck_Model Ik_Proofs Ctx_Proofs Kvn_Proofs Sp3_Model Sp3_Write Oem_Model Oem_Proofs Oem_Write Tdm_Model.
Import ListNotations.
Local Open Scope N_scope.
Local Open Scope list_scope.

Lemma obind_iff {A B} (x : tres A) (k : A -> tres B) (b : B) : @eq (tres B) (obind x k) (Ok b) <-> exists a, @eq (tres A) x (Ok a) /\ @eq (tres B) (k a) (Ok b).
Proof. apply Kvn_Proofs.obind_iff. Qed.

(** ** Lines *)
(** [says], lines beginning like the version line apart *)
Definition tsays (l k v : str) : Prop := starts_with (lit "CCSDS_TDM") (trim l) = false /\ says l k v.
Definition plain (l : str) : Prop := trim l <> lit "META_START" /\ trim l <> lit "META_STOP" /\ trim l <> lit "DATA_START" /\ trim l <> lit "DATA_STOP".
Definition tskip (line : str) : bool := match line with [] => true | _ => starts_with (lit "COMMENT") line || starts_with (lit "CCSDS_TDM") line end.
Definition entry (l : str) : option (str * str) :=
  if tskip (trim l) then None else match split_once 61 (trim l) with Some (k, v) => Some (trim k, trim v) | None => None end.
Lemma entry_spec l k v : entry l = Some (k, v) <-> tsays l k v.
Proof.
  unfold entry, tsays, says. split.
  - destruct (tskip (trim l)) eqn:S; [discriminate|]. destruct (split_once 61 (trim l)) as [(a, b)|] eqn:E; [|discriminate]. apply split_once_spec in E as (E & N). intros X. injection X as <- <-.
    assert (H : starts_with (lit "COMMENT") (trim l) || starts_with (lit "CCSDS_TDM") (trim l) = false) by (unfold tskip in S; destruct (trim l); [discriminate S|exact S]).
    apply orb_false_elim in H as (H1 & H2). split; [exact H2|]. split; [exact H1|]. exists a, b. auto.
  - intros (H2 & H1 & a & b & E & N & <- & <-). rewrite (proj2 (split_once_spec 61 (trim l) a b)) by auto. unfold tskip. rewrite H1, H2. destruct (trim l); [destruct a; discriminate E|reflexivity].
Qed.
Lemma tstep_plain a l : plain l -> tstep a l = match entry l with
  | None => Ok a
  | Some (k, v) => match t_state a with
      | SMeta => Ok (TAcc (t_metas a) (t_obs a) SMeta (set_tmeta (t_cur a) k v))
      | SData => obind (observe k v) (fun o => Ok (TAcc (t_metas a) (t_obs a ++ [o]) SData (t_cur a)))
      | SNone => Ok a
      end
  end.
Proof.
  intros (H1 & H2 & H3 & H4). unfold tstep, entry. fold (tskip (trim l)). destruct (tskip (trim l)); [reflexivity|].
  destruct (str_eqb_spec (trim l) (lit "META_START")); [contradiction|]. destruct (str_eqb_spec (trim l) (lit "META_STOP")); [contradiction|].
  destruct (str_eqb_spec (trim l) (lit "DATA_START")); [contradiction|]. destruct (str_eqb_spec (trim l) (lit "DATA_STOP")); [contradiction|].
  destruct (split_once 61 (trim l)) as [(k, v)|]; reflexivity.
Qed.
Lemma tsteps_app a l1 l2 : tsteps a (l1 ++ l2) = obind (tsteps a l1) (fun a' => tsteps a' l2).
Proof. revert a. induction l1 as [|l t IH]; intros a; cbn [app tsteps]; [reflexivity|]. destruct (tstep a l); cbn [obind]; auto. Qed.

(** ** Metadata *)
Definition entries (ls : list str) : list (str * str) := flat_map (fun l => match entry l with Some e => [e] | None => [] end) ls.
(** the last line about [k] *)
Definition ttold (ls : list str) (k v : str) : Prop := exists l, latest ls (fun l => exists w, tsays l k w) l /\ tsays l k v.
Definition ttold_or (ls : list str) (k : string) (v : str) : Prop := ttold ls (lit k) v \/ ((forall w, ~ ttold ls (lit k) w) /\ v = []).
Lemma latest_last {A} (ls : list A) l (P : A -> Prop) : P l -> latest (ls ++ [l]) P l.
Proof. intros H. exists ls, []. split; [reflexivity|]. split; [exact H|constructor]. Qed.
Lemma latest_skip {A} (ls : list A) l (P : A -> Prop) x : ~ P l -> (latest (ls ++ [l]) P x <-> latest ls P x).
Proof.
  intros N. split.
  - intros (a & b & E & H & F). destruct b as [|z b] using rev_ind; [apply app_inj_tail in E as (_ & ->); contradiction|]. clear IHb.
    replace (a ++ x :: b ++ [z]) with ((a ++ x :: b) ++ [z]) in E by (rewrite <- app_assoc; reflexivity). apply app_inj_tail in E as (-> & ->).
    apply Forall_app in F as (F & _). exists a, b. auto.
  - intros (a & b & -> & H & F). exists a, (b ++ [l]). rewrite <- app_assoc. split; [reflexivity|]. split; [exact H|]. apply Forall_app. auto.
Qed.
Lemma entries_told ls k v : kv_get (entries ls) k = Some v <-> ttold ls k v.
Proof.
  unfold ttold, kv_get, entries. induction ls as [|l ls IH] using rev_ind.
  { split; [discriminate|]. intros (l & (a & b & E & _) & _). destruct a; discriminate. }
  rewrite flat_map_app, rev_app_distr. cbn [flat_map]. rewrite app_nil_r.
  assert (SK : ~ (exists w, tsays l k w) -> (exists x, latest (ls ++ [l]) (fun l => exists w, tsays l k w) x /\ tsays x k v) <-> (exists x, latest ls (fun l => exists w, tsays l k w) x /\ tsays x k v)).
  { intros N. split; intros (x & L & S); exists x; (split; [|exact S]); apply (latest_skip ls l _ x N); exact L. }
  destruct (entry l) as [(k', v')|] eqn:E.
  - cbn [rev app find fst]. destruct (str_eqb_spec k' k) as [->|N].
    + apply entry_spec in E. cbn [snd]. split.
      * intros H. injection H as <-. exists l. split; [apply latest_last; eauto|exact E].
      * intros (x & L & S). assert (x = l) by (eapply latest_fun; [exact L|apply latest_last; eauto]). subst x. f_equal. exact (says_fun _ _ _ _ (proj2 E) (proj2 S)).
    + rewrite SK; [exact IH|]. intros (w & S). apply entry_spec in S. congruence.
  - cbn [rev app]. rewrite SK; [exact IH|]. intros (w & S). apply entry_spec in S. congruence.
Qed.
(** the values of the lines about participants, in order *)
Inductive listed : list str -> list str -> Prop :=
| listed_nil : listed [] []
| listed_skip l ls vs : (forall n v, ~ tsays l (lit "PARTICIPANT_" ++ n) v) -> listed ls vs -> listed (l :: ls) vs
| listed_take l ls n v vs : tsays l (lit "PARTICIPANT_" ++ n) v -> listed ls vs -> listed (l :: ls) (v :: vs).
Definition parts (es : list (str * str)) : list str := map snd (filter (fun e => starts_with (lit "PARTICIPANT_") (fst e)) es).
Lemma parts_listed ls vs : parts (entries ls) = vs <-> listed ls vs.
Proof.
  split.
  - intros <-. induction ls as [|l ls IH]; [constructor|]. unfold entries, parts in *. cbn [flat_map]. destruct (entry l) as [(k, v)|] eqn:E; cbn [app filter fst].
    + destruct (starts_with _ k) eqn:S.
      * cbn [map snd]. apply starts_with_spec in S as (n & ->). apply listed_take with n; [now apply entry_spec|exact IH].
      * apply listed_skip; [|exact IH]. intros n w T. apply entry_spec in T. rewrite T in E. assert (Ek : k = lit "PARTICIPANT_" ++ n) by congruence. subst k. pose proof (proj2 (starts_with_spec (lit "PARTICIPANT_") (lit "PARTICIPANT_" ++ n)) (ex_intro _ n eq_refl)). congruence.
    + apply listed_skip; [|exact IH]. intros n w T. apply entry_spec in T. congruence.
  - induction 1 as [|l ls vs N _ IH|l ls n v vs T _ IH]; [reflexivity| |]; unfold entries, parts in *; cbn [flat_map].
    + destruct (entry l) as [(k, v)|] eqn:E; cbn [app filter fst]; [|exact IH]. destruct (starts_with _ k) eqn:S; [|exact IH]. apply starts_with_spec in S as (n & ->). destruct (N n v). now apply entry_spec.
    + apply entry_spec in T. rewrite T. cbn [app filter fst]. rewrite (proj2 (starts_with_spec (lit "PARTICIPANT_") (lit "PARTICIPANT_" ++ n)) (ex_intro _ n eq_refl)). cbn [map snd]. now rewrite IH.
Qed.
Definition tover (es : list (str * str)) (m : tdm_meta) : tdm_meta :=
  TMeta (participants m ++ parts es) (or_else (kv_get es (lit "MODE")) (path_mode m)) (or_else (kv_get es (lit "PATH")) (path m)) (or_else (kv_get es (lit "TIME_SYSTEM")) (clock m)).
Lemma or_else_key k v es key d : or_else (kv_get ((k, v) :: es) key) d = or_else (kv_get es key) (if str_eqb k key then v else d).
Proof. rewrite kv_get_cons. destruct (kv_get es key); [reflexivity|]. destruct (str_eqb k key); reflexivity. Qed.
Lemma tover_cons k v es m : tover es (set_tmeta m k v) = tover ((k, v) :: es) m.
Proof.
  unfold tover. rewrite !or_else_key. unfold set_tmeta, parts. cbn [filter fst]. destruct (starts_with (lit "PARTICIPANT_") k) eqn:S.
  - cbn [map snd participants path_mode path clock]. rewrite <- app_assoc. apply starts_with_spec in S as (n & ->). reflexivity.
  - destruct (str_eqb_spec k (lit "MODE")) as [->|_]; [reflexivity|]. destruct (str_eqb_spec k (lit "PATH")) as [->|_]; [reflexivity|]. destruct (str_eqb_spec k (lit "TIME_SYSTEM")) as [->|_]; reflexivity.
Qed.
Lemma tsteps_meta M : Forall plain M -> forall ms os c, tsteps (TAcc ms os SMeta c) M = Ok (TAcc ms os SMeta (tover (entries M) c)).
Proof.
  induction 1 as [|l M P _ IH]; intros ms os c; cbn [tsteps].
  - unfold tover, parts. cbn. rewrite app_nil_r. now destruct c.
  - rewrite (tstep_plain _ _ P). unfold entries. cbn [flat_map t_state t_metas t_obs t_cur]. destruct (entry l) as [(k, v)|]; cbn [obind app]; rewrite IH; [|reflexivity]. now rewrite tover_cons.
Qed.
(** What a metadata block says *)
Definition meta_is (M : list str) (m : tdm_meta) : Prop :=
  listed M (participants m) /\ ttold_or M "MODE" (path_mode m) /\ ttold_or M "PATH" (path m) /\ ttold_or M "TIME_SYSTEM" (clock m).
Lemma or_else_told M k v : or_else (kv_get (entries M) (lit k)) [] = v <-> ttold_or M k v.
Proof.
  unfold ttold_or. destruct (kv_get (entries M) (lit k)) as [w|] eqn:E; cbn.
  - split; [intros <-; left; now apply entries_told|]. intros [H|(H & _)]; [apply entries_told in H; congruence|]. apply entries_told in E. destruct (H _ E).
  - split; [intros <-; right; split; [|reflexivity]; intros w H; apply entries_told in H; congruence|]. intros [H|(_ & H)]; [apply entries_told in H; congruence|now symmetry].
Qed.
Lemma meta_is_spec M m : tover (entries M) new_meta = m <-> meta_is M m.
Proof.
  unfold meta_is, tover. rewrite <- parts_listed, <- !or_else_told. cbn [participants path_mode path clock new_meta app]. split.
  - intros <-. cbn. auto.
  - intros (-> & -> & -> & ->). now destruct m.
Qed.

(** ** Observations *)
(** The last occurrence *)
Definition splits_last (sep s a b : str) : Prop := s = a ++ sep ++ b /\ forall a' b', s = a' ++ sep ++ b' -> (length a' <= length a)%nat.
Lemma rsplit_none sep s : sep <> [] -> rsplit sep s = None -> forall a b, s <> a ++ sep ++ b.
Proof.
  intros N. induction s as [|c s IH]; cbn [rsplit]; intros H a b E; [destruct a; [destruct sep; [congruence|discriminate]|discriminate]|].
  destruct (rsplit sep s) as [(x, y)|] eqn:R; [discriminate|]. destruct a as [|d a].
  - destruct (Sclk_Model.strip_prefix sep (c :: s)) eqn:P; [discriminate|]. cbn [app] in E. apply strip_prefix_spec in E. congruence.
  - cbn [app] in E. injection E as -> E. exact (IH eq_refl _ _ E).
Qed.
Lemma rsplit_some sep s a b : sep <> [] -> rsplit sep s = Some (a, b) -> splits_last sep s a b.
Proof.
  intros N. revert a b. induction s as [|c s IH]; cbn [rsplit]; intros a b H; [discriminate|]. destruct (rsplit sep s) as [(x, y)|] eqn:R.
  - injection H as <- <-. destruct (IH _ _ eq_refl) as (-> & L). split; [reflexivity|]. intros [|d a'] b' E; [cbn; lia|]. cbn [app] in E. injection E as _ E. specialize (L _ _ E). cbn [length]. lia.
  - destruct (Sclk_Model.strip_prefix sep (c :: s)) as [r|] eqn:P; [|discriminate]. injection H as <- <-. apply strip_prefix_spec in P. split; [exact P|].
    intros [|d a'] b' E; [cbn; lia|]. exfalso. cbn [app] in E. injection E as _ E. exact (rsplit_none _ _ N R _ _ E).
Qed.
Lemma rsplit_spec sep s a b : sep <> [] -> (rsplit sep s = Some (a, b) <-> splits_last sep s a b).
Proof.
  intros N. split; [now apply rsplit_some|]. intros (E & L). destruct (rsplit sep s) as [(x, y)|] eqn:R; [|destruct (rsplit_none _ _ N R _ _ E)].
  destruct (rsplit_some _ _ _ _ N R) as (E' & L'). pose proof (L _ _ E') as A. pose proof (L' _ _ E) as B. rewrite E in E'.
  assert (X : a = x). { apply (f_equal (firstn (length a))) in E'. rewrite firstn_app, Nat.sub_diag, firstn_all, app_nil_r in E'. replace (length a) with (length x) in E' by lia. now rewrite firstn_app, Nat.sub_diag, firstn_all, app_nil_r in E'. }
  subst x. apply app_inv_head in E'. apply app_inv_head in E'. now rewrite E'.
Qed.
Inductive names : str -> obs_type -> Prop :=
| n_range : names (lit "RANGE") Range
| n_inst : names (lit "DOPPLER_INSTANTANEOUS") Doppler
| n_integ : names (lit "DOPPLER_INTEGRATED") Doppler
| n_a1 : names (lit "ANGLE_1") Angle1
| n_a2 : names (lit "ANGLE_2") Angle2
| n_other k : ~ In k [lit "RANGE"; lit "DOPPLER_INSTANTANEOUS"; lit "DOPPLER_INTEGRATED"; lit "ANGLE_1"; lit "ANGLE_2"] -> names k (Other k).
Lemma names_of k t : obs_of_keyword k = t <-> names k t.
Proof.
  split.
  - intros <-. unfold obs_of_keyword. destruct (str_eqb_spec k (lit "RANGE")) as [->|N1]; [constructor|]. destruct (str_eqb_spec k (lit "DOPPLER_INSTANTANEOUS")) as [->|N2]; [constructor|].
    destruct (str_eqb_spec k (lit "DOPPLER_INTEGRATED")) as [->|N3]; [constructor|]. destruct (str_eqb_spec k (lit "ANGLE_1")) as [->|N4]; [constructor|]. destruct (str_eqb_spec k (lit "ANGLE_2")) as [->|N5]; [constructor|].
    cbn [orb]. constructor. intros [H|[H|[H|[H|[H|[]]]]]]; subst; congruence.
  - destruct 1; try reflexivity. unfold obs_of_keyword. repeat match goal with |- context [str_eqb k ?l] => destruct (str_eqb_spec k l) as [->|_]; [exfalso; apply H; cbn [In]; tauto|] end. reflexivity.
Qed.
Definition obs_is (k v : str) (o : observation) : Prop :=
  names k (what o) /\ exists e x, splits_last (lit " : ") v e x /\ at_ o = trim e /\ parse_f64 (trim x) = Some (value o).
Lemma observe_spec k v o : observe k v = Ok o <-> obs_is k v o.
Proof.
  unfold observe, obs_is. destruct (rsplit (lit " : ") v) as [(e, x)|] eqn:R.
  - pose proof R as S. apply rsplit_some in S; [|discriminate]. split.
    + destruct (parse_f64 (trim x)) as [f|] eqn:P; [|discriminate]. intros H. injection H as <-. cbn. split; [now apply names_of|]. exists e, x. auto.
    + intros (H & e' & x' & S' & A & P). apply rsplit_spec in S'; [|discriminate]. rewrite R in S'. injection S' as <- <-. rewrite P. apply names_of in H. rewrite H, <- A. now destruct o.
  - split; [discriminate|]. intros (_ & e & x & (E & _) & _). assert (N : lit " : " <> []) by discriminate. destruct (rsplit_none _ _ N R _ _ E).
Qed.
Inductive observed : list str -> list observation -> Prop :=
| ob_nil : observed [] []
| ob_skip l ls os : (forall k v, ~ tsays l k v) -> observed ls os -> observed (l :: ls) os
| ob_take l ls k v o os : tsays l k v -> obs_is k v o -> observed ls os -> observed (l :: ls) (o :: os).
Lemma observed_app a b os : observed (a ++ b) os <-> exists x y, os = x ++ y /\ observed a x /\ observed b y.
Proof.
  revert os. induction a as [|l a IH]; intros os; cbn [app].
  - split; [intros H; exists [], os; split; [reflexivity|split; [constructor|exact H]]|]. intros (x & y & -> & H & H'). inversion H. exact H'.
  - split.
    + intros H. inversion H as [|? ? ? N H'|? ? k v o os' T O H']; subst; apply IH in H' as (x & y & -> & A & B).
      * exists x, y. split; [reflexivity|]. split; [now constructor|exact B].
      * exists (o :: x), y. split; [reflexivity|]. split; [now apply ob_take with k v|exact B].
    + intros (x & y & -> & A & B). inversion A as [|? ? ? N H'|? ? k v o os' T O H']; subst.
      * constructor; [exact N|]. apply IH. eauto.
      * apply ob_take with k v; [exact T|exact O|]. apply IH. eauto.
Qed.
Lemma tsteps_data D : Forall plain D -> forall ms os c a',
  tsteps (TAcc ms os SData c) D = Ok a' <-> exists os', observed D os' /\ a' = TAcc ms (os ++ os') SData c.
Proof.
  induction 1 as [|l D P _ IH]; intros ms os c a'; cbn [tsteps].
  - split; [intros H; injection H as <-; exists []; split; [constructor|now rewrite app_nil_r]|]. intros (os' & H & ->). inversion H. now rewrite app_nil_r.
  - rewrite (tstep_plain _ _ P). cbn [t_state t_metas t_obs t_cur]. destruct (entry l) as [(k, v)|] eqn:E.
    + pose proof (proj1 (entry_spec _ _ _) E) as T. rewrite obind_iff. split.
      * intros (a1 & E1 & E2). apply obind_iff in E1 as (o & O & E1). injection E1 as <-. apply IH in E2 as (os' & R & ->). apply observe_spec in O.
        exists (o :: os'). split; [now apply ob_take with k v|]. now rewrite <- app_assoc.
      * intros (os' & H & ->). inversion H as [|? ? ? N H'|? ? k' v' o os1 T' O H']; subst; [destruct (N k v T)|]. apply entry_spec in T'. rewrite E in T'. injection T' as <- <-. apply observe_spec in O.
        exists (TAcc ms (os ++ [o]) SData c). split; [apply obind_iff; eauto|]. apply IH. exists os1. split; [exact H'|]. now rewrite <- app_assoc.
    + assert (N : forall k v, ~ tsays l k v) by (intros k v T; apply entry_spec in T; congruence). cbn [obind]. rewrite IH. split; intros (os' & H & ->).
      * exists os'. split; [now constructor|reflexivity].
      * inversion H as [|? ? ? N' H'|? ? k' v' o os1 T' O H']; subst; [eauto|destruct (N _ _ T')].
Qed.

(** ** Messages *)
Inductive piece := PMeta (start : str) (body : list str) (stop : str) | PData (start : str) (body : list str) (stop : str) | Stray (l : str).
Definition piece_lines (p : piece) : list str := match p with PMeta a b c | PData a b c => a :: b ++ [c] | Stray l => [l] end.
Definition good_piece (p : piece) : Prop :=
  match p with
  | PMeta a b c => trim a = lit "META_START" /\ Forall plain b /\ trim c = lit "META_STOP"
  | PData a b c => trim a = lit "DATA_START" /\ Forall plain b /\ trim c = lit "DATA_STOP"
  | Stray l => plain l
  end.
Definition meta_bodies (ps : list piece) : list (list str) := flat_map (fun p => match p with PMeta _ b _ => [b] | _ => [] end) ps.
Definition data_lines (ps : list piece) : list str := flat_map (fun p => match p with PData _ b _ => b | _ => [] end) ps.
Lemma word_step l w : trim l = w -> w <> [] -> starts_with (lit "COMMENT") w || starts_with (lit "CCSDS_TDM") w = false -> tskip (trim l) = false.
Proof. intros -> N S. unfold tskip. destruct w; [congruence|exact S]. Qed.
Definition tread (ls : list str) : tres tdm := obind (tsteps (TAcc [] [] SNone new_meta) ls) (fun a => Ok (Tdm (t_metas a) (t_obs a))).
Lemma tsteps_pieces ps : Forall good_piece ps -> forall ms os a',
  tsteps (TAcc ms os SNone new_meta) (flat_map piece_lines ps) = Ok a' <->
  exists ms' os', Forall2 meta_is (meta_bodies ps) ms' /\ observed (data_lines ps) os' /\ a' = TAcc (ms ++ ms') (os ++ os') SNone new_meta.
Proof.
  induction 1 as [|p ps G _ IH]; intros ms os a'; cbn [flat_map].
  - cbn [tsteps meta_bodies data_lines flat_map]. split.
    + intros H. injection H as <-. exists [], []. split; [constructor|]. split; [constructor|]. now rewrite !app_nil_r.
    + intros (ms' & os' & M & O & ->). inversion M. inversion O. now rewrite !app_nil_r.
  - rewrite tsteps_app. destruct p as [x b y|x b y|l]; cbn [good_piece] in G; cbn [piece_lines].
    + destruct G as (Gx & Gb & Gy). cbn [tsteps]. unfold tstep at 1. fold (tskip (trim x)). rewrite (word_step x _ Gx ltac:(discriminate) eq_refl), Gx. cbn [str_eqb]. destruct (str_eqb_spec (lit "META_START") (lit "META_START")) as [_|C]; [|congruence]. cbn [t_metas t_obs obind].
      rewrite tsteps_app, (tsteps_meta _ Gb). cbn [obind tsteps]. unfold tstep at 1. fold (tskip (trim y)). rewrite (word_step y _ Gy ltac:(discriminate) eq_refl), Gy.
      destruct (str_eqb_spec (lit "META_STOP") (lit "META_START")) as [C|_]; [discriminate C|]. destruct (str_eqb_spec (lit "META_STOP") (lit "META_STOP")) as [_|C]; [|congruence]. cbn [t_metas t_obs t_cur obind].
      rewrite IH. change (meta_bodies (PMeta x b y :: ps)) with (b :: meta_bodies ps). change (data_lines (PMeta x b y :: ps)) with (data_lines ps). split.
      * intros (ms' & os' & M & O & ->). exists (tover (entries b) new_meta :: ms'), os'. split; [constructor; [now apply meta_is_spec|exact M]|]. split; [exact O|]. now rewrite <- app_assoc.
      * intros (ms' & os' & M & O & ->). inversion M as [|? m0 ? ms1 M0 M1]; subst. apply meta_is_spec in M0. subst m0. exists ms1, os'. split; [exact M1|]. split; [exact O|]. now rewrite <- app_assoc.
    + destruct G as (Gx & Gb & Gy). cbn [tsteps]. unfold tstep at 1. fold (tskip (trim x)). rewrite (word_step x _ Gx ltac:(discriminate) eq_refl), Gx.
      change (str_eqb (lit "DATA_START") (lit "META_START")) with false. change (str_eqb (lit "DATA_START") (lit "META_STOP")) with false. change (str_eqb (lit "DATA_START") (lit "DATA_START")) with true. cbn [t_metas t_obs t_cur obind].
      rewrite tsteps_app. change (meta_bodies (PData x b y :: ps)) with (meta_bodies ps). change (data_lines (PData x b y :: ps)) with (b ++ data_lines ps).
      assert (Y : forall m o, tsteps (TAcc m o SData new_meta) [y] = Ok (TAcc m o SNone new_meta)).
      { intros m o. cbn [tsteps]. unfold tstep. fold (tskip (trim y)). rewrite (word_step y _ Gy ltac:(discriminate) eq_refl), Gy.
        change (str_eqb (lit "DATA_STOP") (lit "META_START")) with false. change (str_eqb (lit "DATA_STOP") (lit "META_STOP")) with false. change (str_eqb (lit "DATA_STOP") (lit "DATA_START")) with false. change (str_eqb (lit "DATA_STOP") (lit "DATA_STOP")) with true. reflexivity. }
      rewrite obind_iff. split.
      * intros (a1 & E1 & E2). apply obind_iff in E1 as (a2 & E0 & E1). apply (tsteps_data _ Gb) in E0 as (o1 & O1 & ->). rewrite Y in E1. injection E1 as <-.
        apply IH in E2 as (ms' & os' & M & O & ->). exists ms', (o1 ++ os'). split; [exact M|]. split; [apply observed_app; eauto|]. now rewrite <- app_assoc.
      * intros (ms' & os' & M & O & ->). apply observed_app in O as (o1 & o2 & -> & O1 & O2). exists (TAcc ms (os ++ o1) SNone new_meta). split.
        -- apply obind_iff. exists (TAcc ms (os ++ o1) SData new_meta). split; [apply (tsteps_data _ Gb); eauto|apply Y].
        -- apply IH. exists ms', o2. split; [exact M|]. split; [exact O2|]. now rewrite <- app_assoc.
    + cbn [tsteps]. rewrite (tstep_plain _ _ G). cbn [t_state]. destruct (entry l) as [(?, ?)|]; cbn [obind]; apply IH.
Qed.
(** A message made of blocks and lines outside them is read exactly as the lines inside the blocks say *)
Definition tdm_told (ps : list piece) (m : tdm) : Prop := Forall2 meta_is (meta_bodies ps) (metas m) /\ observed (data_lines ps) (observations m).
Theorem tread_spec ps m : Forall good_piece ps -> (tread (flat_map piece_lines ps) = Ok m <-> tdm_told ps m).
Proof.
  intros G. unfold tread, tdm_told. rewrite obind_iff. split.
  - intros (a & E & H). apply (tsteps_pieces _ G) in E as (ms & os & M & O & ->). injection H as <-. auto.
  - intros (M & O). exists (TAcc (metas m) (observations m) SNone new_meta). split; [apply (tsteps_pieces _ G); exists (metas m), (observations m); auto|]. now destruct m.
Qed.
Lemma read_tdm_lines text : read_tdm text = tread (split_nl text). Proof. reflexivity. Qed.
Lemma observe_np k v : observe k v <> Panic.
Proof. unfold observe. destruct (rsplit _ _) as [(e, x)|]; [destruct (parse_f64 _)|]; discriminate. Qed.
Theorem read_tdm_np text : read_tdm text <> Panic.
Proof.
  rewrite read_tdm_lines. unfold tread. assert (H : forall ls a, tsteps a ls <> Panic).
  { induction ls as [|l ls IH]; intros a; cbn [tsteps]; [discriminate|]. assert (P : tstep a l <> Panic).
    { unfold tstep. destruct (match trim l with [] => true | _ => _ end); [discriminate|]. repeat (destruct (str_eqb _ _); [discriminate|]). destruct (split_once _ _) as [(k, v)|]; [|discriminate].
      destruct (t_state a); try discriminate. pose proof (observe_np (trim k) (trim v)). destruct (observe _ _); cbn [obind]; congruence. }
    destruct (tstep a l); cbn [obind]; congruence. }
  pose proof (H (split_nl text) (TAcc [] [] SNone new_meta)). destruct (tsteps _ _); cbn [obind]; congruence.
Qed.
