(** Ephemeris messages as XML: C181. *)
From Coq Require Import Ascii String List NArith ZArith Bool QArith Qabs Lia.
From Verif Require Import Base Text DecFloat Omm_Model Omm_Proofs Oem_Model Oem_Epoch Oem_Proofs Oem_Write OemXml_Model OemXml_Proofs.
Import ListNotations.
Local Open Scope N_scope.
Local Open Scope list_scope.
Local Open Scope outcome_scope.

Definition names (m : metadata) : list str := [object_id m; object_name m; ref_frame m; time_system m; center_name m].
Definition dated (ss : list state) : Prop := Forall (fun s => in_calendar (epoch_jd s)) ss.

(** ** C181 *)
(** A document of header, segments and state vectors reads exactly as what it says: for each name the last run of text under it, whatever
    prefix the names carry; a number or date by reading that text; the version by the last attribute of that name. It is refused when a
    segment lacks a name, a vector lacks a readable entry, or there is no segment. *)
Theorem C181_reads p attrs hs gs f : Forall plain hs -> Forall plain_segment gs ->
  (read_oem_xml (doc_events p attrs hs gs) = Ok f <-> doc_is attrs hs gs f).
Proof. exact (read_doc_iff p attrs hs gs f). Qed.
(** Comments, declarations and the like change nothing, wherever they stand; a document that is broken anywhere is refused. *)
Lemma run_app a b : forall c, run_events c (a ++ b) = (c' <- run_events c a ;; run_events c' b).
Proof. induction a as [|e a IH]; intros c; [reflexivity|]. cbn [app run_events]. destruct (on_event c e); cbn [obind]; [apply IH|reflexivity|reflexivity]. Qed.
Theorem C181_comments a b : read_oem_xml (a ++ Other :: b) = read_oem_xml (a ++ b).
Proof. unfold read_oem_xml. rewrite !run_app. destruct (run_events ra0 a); reflexivity. Qed.
Lemma event_np c e : on_event c e <> Panic.
Proof.
  destruct e as [n l|n|t| |]; cbn [on_event]; try discriminate.
  - unfold on_end. destruct (str_eqb _ _).
    + destruct (r_seg c) as [[m ss [b|]]|]; try discriminate. unfold finish_state.
      repeat match goal with |- context[vneed ?o ?k] => destruct o; cbn [vneed obind]; try discriminate end.
    + destruct (str_eqb _ _); [|discriminate]. destruct (r_seg c) as [g|]; [|discriminate]. unfold finish_xmeta.
      repeat match goal with |- context[mneed ?o ?k] => destruct o; cbn [mneed obind]; try discriminate end.
  - destruct t; [|discriminate]. cbn [on_text]. destruct (r_tag c); [|discriminate]. destruct (r_seg c) as [[m ss [b|]]|]; try discriminate.
    destruct (str_eqb _ _); [discriminate|]. destruct (str_eqb _ _); discriminate.
Qed.
Lemma run_np es : forall c, run_events c es <> Panic.
Proof. induction es as [|e es IH]; intros c; [discriminate|]. cbn [run_events]. pose proof (event_np c e). destruct (on_event c e); cbn [obind]; [apply IH|discriminate|congruence]. Qed.
Theorem C181_broken a b : exists e, read_oem_xml (a ++ Broken :: b) = Err e.
Proof.
  unfold read_oem_xml. rewrite run_app. pose proof (run_np a ra0). destruct (run_events ra0 a); cbn [obind]; [|eauto|congruence]. cbn [run_events on_event obind]. eauto.
Qed.
Theorem C181_no_panic es : read_oem_xml es <> Panic.
Proof. unfold read_oem_xml. pose proof (run_np es ra0). destruct (run_events ra0 es) as [a|e|]; cbn [obind]; [destruct (r_segs a); discriminate|discriminate|congruence]. Qed.
(** Escaping is undone by resolving references, and leaves no character that could end the text. *)
Theorem C181_escape charref s : unescape charref (xml_escape s) = Some s. Proof. exact (unescape_escape charref s). Qed.
Theorem C181_markup s : ~ In 60 (xml_escape s) /\ ~ In 62 (xml_escape s) /\ ~ In 34 (xml_escape s). Proof. exact (escape_markup s). Qed.
Theorem C181_whole charref : faithful (whole charref). Proof. intros s T. exact (whole_escape charref s T). Qed.
(** A written document reads back when each text is handed over in one piece: names exactly, dates and numbers to the digits written. *)
Theorem C181_roundtrip bad_date chars m ss : faithful chars -> Forall tight (names m) -> ss <> [] -> dated ss ->
  exists ls ts, write_items bad_date m ss = Ok ls /\ read_oem_xml (delivered chars ls) = Ok (written_file m ts) /\ Forall2 like ts ss.
Proof. intros F. exact (xml_back bad_date chars (faithful_sober chars F) m ss F). Qed.
Theorem C181_needs_states bad_date m ss : write_oem_xml bad_date m ss = Err NoStates <-> ss = [].
Proof. destruct ss; split; first [reflexivity|discriminate]. Qed.
(** The documentation promises an error for a number that is not finite. None is given: it is written and read back as it is. *)
Theorem C181_not_finite_refuted bad_date chars m ss s : faithful chars -> Forall tight (names m) -> dated ss -> In s ss -> ~ finite (x s) ->
  exists ls f t, write_items bad_date m ss = Ok ls /\ read_oem_xml (delivered chars ls) = Ok f /\ In t (flat_map states (segments f)) /\ x t = x s.
Proof.
  intros F T D I N. destruct (C181_roundtrip bad_date chars m ss F T) as (ls & ts & W & R & K); [intros ->; destruct I|exact D|].
  assert (X : exists t, In t ts /\ like t s).
  { clear -K I. induction K as [|t s' ts ss L _ IH]; [destruct I|]. destruct I as [->|I]; [exists t; split; [now left|exact L]|]. destruct (IH I) as (t' & J & L'). exists t'. split; [now right|exact L']. }
  destruct X as (t & J & (_ & Lx & _)). exists ls, (written_file m ts), t. split; [exact W|]. split; [exact R|]. split.
  - cbn [written_file segments flat_map states]. now rewrite app_nil_r.
  - unfold near6, near in Lx. destruct (x s) as [q| |] eqn:E; [|exact Lx|exact Lx]. destruct N. now exists q.
Qed.
(** A name that is empty, or blank, is written, and the document is refused. *)
Theorem C181_blank_refuted bad_date charref m ss ls : Exists (fun n => xtrim n = []) (names m) -> Forall (fun n => xtrim n = [] \/ tight n) (names m) -> dated ss ->
  write_items bad_date m ss = Ok ls -> exists k, read_oem_xml (delivered (whole charref) ls) = Err (NoMeta k).
Proof.
  intros B T D W.
  assert (E : forall n, xtrim n = [] -> whole charref (xml_escape n) = []).
  { intros n H. assert (A : forallb is_xws n = true).
    { unfold xtrim in H. apply (f_equal (@rev N)) in H. rewrite rev_involutive in H. cbn [rev] in H.
      assert (G : forall s, xtrim_start s = [] -> forallb is_xws s = true). { induction s as [|c s IH]; [reflexivity|]. cbn. destruct (is_xws c); [exact IH|discriminate]. }
      apply G in H. assert (Z : xtrim_start n = []).
      { destruct (xtrim_start n) as [|c u] eqn:Y; [reflexivity|]. exfalso. assert (Q : is_xws c = false).
        { clear -Y. induction n as [|d n IH]; [discriminate|]. cbn in Y. destruct (is_xws d) eqn:X; [now apply IH|]. injection Y as -> ->. exact X. }
        rewrite forallb_forall in H. specialize (H c). rewrite H in Q; [discriminate|]. apply in_rev. rewrite rev_involutive. now left. }
      now apply G. }
    assert (S : xml_escape n = n).
    { rewrite escape_each. clear -A. induction n as [|c n IH]; [reflexivity|]. cbn [forallb] in A. apply andb_prop in A as (A & A'). cbn [flat_map]. rewrite (IH A').
      replace (esc1 c) with [c]; [reflexivity|]. unfold esc1. destruct (N.eqb_spec c 38) as [->|]; [discriminate|]. destruct (N.eqb_spec c 60) as [->|]; [discriminate|].
      destruct (N.eqb_spec c 62) as [->|]; [discriminate|]. destruct (N.eqb_spec c 34) as [->|]; [discriminate|reflexivity]. }
    unfold whole. now rewrite S, H. }
  apply (xml_blank bad_date (whole charref) (faithful_sober _ (C181_whole charref)) m ss ls); [| |exact D|exact W].
  - revert B. apply Exists_impl. exact E.
  - revert T. apply Forall_impl. intros n [H|H]; [rewrite (E n H); constructor|rewrite (C181_whole charref n H); constructor; [discriminate|constructor]].
Qed.
(** If the XML crate hands over the references in a text as events of their own, so that the text comes in pieces, only the last piece of
    a name is kept: everything up to its last [&], [<], [>] or quote is lost, without an error. *)
Lemma cut_escape a : forall acc c b, In c [38; 60; 62; 34] -> Forall (fun d => ~ In d [38; 60; 62; 34]) b ->
  exists us, cut_refs acc false (xml_escape (a ++ c :: b)) = us ++ [b] /\ Forall (fun u => ~ In 38 u) (us ++ [b]) \/ In 38 acc.
Proof.
  assert (P : forall b acc, Forall (fun d => ~ In d [38; 60; 62; 34]) b -> cut_refs acc false (flat_map esc1 b) = [acc ++ b]).
  { induction b as [|d b IH]; intros acc F; [cbn; now rewrite app_nil_r|]. inversion_clear F as [|? ? D F']. cbn [flat_map].
    assert (E : esc1 d = [d]).
    { unfold esc1. destruct (N.eqb_spec d 38) as [->|]; [destruct D; cbn; tauto|]. destruct (N.eqb_spec d 60) as [->|]; [destruct D; cbn; tauto|].
      destruct (N.eqb_spec d 62) as [->|]; [destruct D; cbn; tauto|]. destruct (N.eqb_spec d 34) as [->|]; [destruct D; cbn; tauto|reflexivity]. }
    rewrite E. cbn [app cut_refs]. destruct (N.eqb_spec d 38) as [->|]; [destruct D; cbn; tauto|]. rewrite (IH (acc ++ [d]) F'). now rewrite <- app_assoc. }
  assert (Q : forall c acc r, In c [38; 60; 62; 34] -> cut_refs acc false (esc1 c ++ r) = acc :: cut_refs [] false r).
  { intros c acc r I. cbn [In] in I. repeat destruct I as [<-|I]; try contradiction; reflexivity. }
  assert (G : forall a acc c b, ~ In 38 acc -> In c [38; 60; 62; 34] -> Forall (fun d => ~ In d [38; 60; 62; 34]) b ->
    exists us, cut_refs acc false (flat_map esc1 (a ++ c :: b)) = us ++ [b] /\ Forall (fun u => ~ In 38 u) (us ++ [b])).
  { clear a. induction a as [|d a IH]; intros acc c b N I F.
    - cbn [app flat_map]. rewrite (Q c acc _ I), (P b [] F). exists [acc]. split; [reflexivity|]. cbn [app]. constructor; [exact N|]. constructor; [|constructor].
      intros J. rewrite Forall_forall in F. apply (F 38 J). cbn. tauto.
    - cbn [app flat_map]. destruct (in_dec N.eq_dec d [38; 60; 62; 34]) as [Id|Nd].
      + rewrite (Q d acc _ Id). destruct (IH [] c b) as (us & -> & Fu); [intros []|exact I|exact F|]. exists (acc :: us). split; [reflexivity|]. cbn [app]. constructor; assumption.
      + assert (E : esc1 d = [d]).
        { unfold esc1. destruct (N.eqb_spec d 38) as [->|]; [destruct Nd; cbn; tauto|]. destruct (N.eqb_spec d 60) as [->|]; [destruct Nd; cbn; tauto|].
          destruct (N.eqb_spec d 62) as [->|]; [destruct Nd; cbn; tauto|]. destruct (N.eqb_spec d 34) as [->|]; [destruct Nd; cbn; tauto|reflexivity]. }
        rewrite E. cbn [app cut_refs]. destruct (N.eqb_spec d 38) as [->|]; [destruct Nd; cbn; tauto|]. apply IH; [|exact I|exact F].
        intros J. apply in_app_or in J as [J|[J|[]]]; congruence. }
  intros acc c b I F. rewrite escape_each. destruct (in_dec N.eq_dec 38 acc) as [X|X]; [exists []; now right|]. destruct (G a acc c b X I F) as (us & H). exists us. now left.
Qed.
Lemma whole_no_amp cr u : ~ In 38 u -> resolved (whole cr u).
Proof.
  intros N. unfold whole. destruct (xtrim u) as [|d t] eqn:E; [constructor|]. rewrite <- E.
  assert (I : incl (norm_eol (xtrim u)) (10 :: u)).
  { assert (A : forall s, incl (xtrim_start s) s) by (induction s as [|c s IH]; [now intros ?|]; cbn; destruct (is_xws c); [intros q J; right; now apply IH|now intros ?]).
    assert (B : incl (xtrim u) u). { unfold xtrim. intros q J. apply in_rev in J. apply A in J. apply in_rev in J. now apply A in J. }
    assert (C : forall s, incl (norm_eol s) (10 :: s)).
    { induction s as [|c s IH]; [intros q []|]. cbn [norm_eol]. destruct (c =? 13).
      - destruct s as [|e s]; [intros q [<-|[]]; now left|]. destruct (e =? 10); intros q J; [|destruct J as [<-|J]; [now left|]]; destruct (IH q J) as [<-|J']; [now left|right; now right|now left|right; now right].
      - intros q [<-|J]; [right; now left|]. destruct (IH q J) as [<-|J']; [now left|right; now right]. }
    intros q J. destruct (C _ q J) as [<-|J']; [now left|right; now apply B]. }
  assert (M : ~ In 38 (norm_eol (xtrim u))) by (intros J; destruct (I _ J) as [J'|J']; [discriminate J'|contradiction]).
  constructor; [|constructor]. clear -M. unfold unescape. induction (norm_eol (xtrim u)) as [|c s IH]; [discriminate|]. cbn [unescape_from].
  destruct (N.eqb_spec c 38) as [->|]; [destruct M; now left|]. destruct (unescape_from cr None s); [discriminate|]. apply IH. intros J. apply M. now right.
Qed.
Theorem C181_references_refuted bad_date charref m ss a c b : object_name m = a ++ c :: b -> In c [38; 60; 62; 34] ->
  tight b -> Forall (fun d => ~ In d [38; 60; 62; 34]) b ->
  Forall (fun n => tight n /\ Forall (fun d => ~ In d [38; 60; 62; 34]) n) [object_id m; ref_frame m; time_system m; center_name m] -> ss <> [] -> dated ss ->
  exists ls ts, write_items bad_date m ss = Ok ls /\
    read_oem_xml (delivered (at_refs charref) ls) = Ok (written_file (Meta (object_id m) b (ref_frame m) (time_system m) (center_name m)) ts) /\ Forall2 like ts ss.
Proof.
  intros Nm Ic Tb Fb Ot N D. destruct ss as [|s ss]; [contradiction|]. cbn [write_items].
  assert (One : forall n, tight n -> Forall (fun d => ~ In d [38; 60; 62; 34]) n -> at_refs charref (xml_escape n) = [Some n]).
  { intros n T F. unfold at_refs. assert (E : xml_escape n = n).
    { rewrite escape_each. clear -F. induction F as [|d n Nd _ IH]; [reflexivity|]. cbn [flat_map]. rewrite IH. replace (esc1 d) with [d]; [reflexivity|].
      unfold esc1. destruct (N.eqb_spec d 38) as [->|]; [destruct Nd; cbn; tauto|]. destruct (N.eqb_spec d 60) as [->|]; [destruct Nd; cbn; tauto|].
      destruct (N.eqb_spec d 62) as [->|]; [destruct Nd; cbn; tauto|]. destruct (N.eqb_spec d 34) as [->|]; [destruct Nd; cbn; tauto|reflexivity]. }
    rewrite E. assert (A : forall acc, cut_refs acc false n = [acc ++ n]).
    { clear -F. induction F as [|d n Nd _ IH]; intros acc; [cbn; now rewrite app_nil_r|]. cbn [cut_refs]. destruct (N.eqb_spec d 38) as [->|]; [destruct Nd; cbn; tauto|]. rewrite IH. now rewrite <- app_assoc. }
    rewrite A. cbn [app flat_map]. rewrite app_nil_r. apply whole_tight; [exact T|]. intros J. rewrite Forall_forall in F. apply (F 38 J). cbn. tauto. }
  assert (Nb : resolved (at_refs charref (xml_escape (object_name m))) /\ last (texts_of (at_refs charref (xml_escape (object_name m)))) [] = b /\ texts_of (at_refs charref (xml_escape (object_name m))) <> []).
  { rewrite Nm. destruct (cut_escape a [] c b Ic Fb) as (us & [(E & F)|[]]). unfold at_refs. rewrite E, flat_map_app. cbn [flat_map]. rewrite app_nil_r.
    apply Forall_app in F as (Fu & Fb'). inversion_clear Fb' as [|? ? Nb _]. rewrite (whole_tight charref b Tb Nb). split; [|split].
    - apply Forall_app. split; [|constructor; [discriminate|constructor]]. clear -Fu. induction Fu as [|u us A _ IH]; [constructor|]. cbn [flat_map]. apply Forall_app. split; [now apply whole_no_amp|exact IH].
    - unfold texts_of. rewrite flat_map_app. cbn [flat_map app]. apply last_last.
    - unfold texts_of. rewrite flat_map_app. cbn [flat_map app]. intros H. now apply app_eq_nil in H as (_ & H). }
  assert (Num : forall t, t <> [] -> sober t = true -> at_refs charref t = [Some t]).
  { intros t Nt St. destruct (sober_tight t Nt St) as (T & E). rewrite <- E at 1. apply One; [exact T|]. apply Forall_forall. intros d I J. unfold sober in St. rewrite forallb_forall in St. specialize (St d I).
    cbn [In] in J. repeat destruct J as [<-|J]; try discriminate St. exact J. }
  inversion_clear Ot as [|? ? (T1 & O1) Ot']. inversion_clear Ot' as [|? ? (T2 & O2) Ot]. inversion_clear Ot as [|? ? (T3 & O3) Ot']. inversion_clear Ot' as [|? ? (T4 & O4) _].
  destruct (names_back bad_date (at_refs charref) Num m (Meta (object_id m) b (ref_frame m) (time_system m) (center_name m)) s (last (s :: ss) s) (s :: ss)) as (ts & R & K).
  - constructor; [rewrite (One _ T1 O1); split; [constructor; [discriminate|constructor]|split; [reflexivity|discriminate]]|].
    constructor; [exact Nb|]. constructor; [rewrite (One _ T2 O2); split; [constructor; [discriminate|constructor]|split; [reflexivity|discriminate]]|].
    constructor; [rewrite (One _ T3 O3); split; [constructor; [discriminate|constructor]|split; [reflexivity|discriminate]]|].
    constructor; [rewrite (One _ T4 O4); split; [constructor; [discriminate|constructor]|split; [reflexivity|discriminate]]|]. constructor.
  - now inversion D.
  - now apply last_cal.
  - exact D.
  - eauto.
Qed.

Definition xml_meta (n : str) : metadata := Meta (lit "1998-067A") n (lit "EME2000") (lit "UTC") (lit "EARTH").
Definition xml_state (t : Q) (a : fnum) : state := State (Fin t) a (Fin 0) (Fin (1 # 3)) (Fin (-7)) (Fin 0) (Fin (1 # 1000)).
Definition no_date (f : fnum) : str := lit "?".
Definition no_ref (s : str) : option str := None.
Definition sight (o : xres oem_file) : list (str * list fnum) :=
  match o with Ok f => map (fun s => (object_name (meta s), map x (states s))) (segments f) | _ => [] end.
Definition both (chars : str -> list (option str)) (n : str) (a : fnum) : xres oem_file :=
  match write_items no_date (xml_meta n) [xml_state 2451545 (Fin 1); xml_state 2451546 a] with Ok ls => read_oem_xml (delivered chars ls) | _ => Err XmlBroken end.
Example C181_case :
  Forall tight (names (xml_meta (lit "AT&T <1>"))) /\ dated [xml_state 2451545 (Fin 1); xml_state 2451546 NaN] /\
  sight (both (whole no_ref) (lit "AT&T <1>") NaN) = [(lit "AT&T <1>", [Fin (1000000 # 1000000); NaN])] /\
  sight (both (at_refs no_ref) (lit "AT&T") NaN) = [(lit "T", [Fin (1000000 # 1000000); NaN])] /\
  both (whole no_ref) (lit " ") NaN = Err (NoMeta "OBJECT_NAME").
Proof.
  split; [repeat (constructor; [repeat split; try discriminate; intros X; cbn in X; repeat destruct X as [X|X]; first [discriminate X|exact X]|]); constructor|].
  split; [repeat (constructor; [eexists; split; [reflexivity|split; [discriminate|reflexivity]]|]); constructor|].
  split; [vm_compute; reflexivity|]. split; vm_compute; reflexivity.
Qed.
Print Assumptions C181_reads. Print Assumptions C181_comments. Print Assumptions C181_broken. Print Assumptions C181_no_panic. Print Assumptions C181_escape.
Print Assumptions C181_markup. Print Assumptions C181_whole. Print Assumptions C181_roundtrip. Print Assumptions C181_needs_states. Print Assumptions C181_not_finite_refuted.
Print Assumptions C181_blank_refuted. Print Assumptions C181_references_refuted.
