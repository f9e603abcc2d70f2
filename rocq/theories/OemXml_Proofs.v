(** Ephemeris messages as XML: documents and what they say, escaping, and written documents read back. *)
From Coq Require Import Ascii String List NArith ZArith Bool QArith Qabs Lia.
From Verif Require Import Base Text DecFloat Omm_Model Omm_Proofs Pck_Model Sp3_Model Sp3_Write Cal_Proofs Oem_Model Oem_Epoch Oem_Proofs Oem_Write OemXml_Model.
Import ListNotations.
Local Open Scope N_scope.
Local Open Scope list_scope.
Local Open Scope outcome_scope.

(** ** Documents and what they say *)
(** an element with character data: name without prefix, attributes, the runs of text *)
Definition element := (str * list (str * str) * list str)%type.
Definition key (e : element) : str := fst (fst e).
Definition qual (p : option str) (k : str) : str := match p with None => k | Some q => q ++ 58 :: k end.
Definition plain (e : element) : Prop := ~ In 58 (key e) /\ key e <> lit "oem" /\ key e <> lit "segment" /\ key e <> lit "stateVector".
Record xsegment := XSeg { xmeta : list element; xvectors : list (list element) }.
Section Doc.
Variable p : option str.
Definition open_ (k : string) : event := Start (qual p (lit k)) [].
Definition close_ (k : string) : event := End_ (qual p (lit k)).
Definition el (e : element) : list event := Start (qual p (key e)) (snd (fst e)) :: map (fun t => Run (Some t)) (snd e) ++ [End_ (qual p (key e))].
Definition els (l : list element) : list event := flat_map el l.
Definition vector_events (v : list element) : list event := open_ "stateVector" :: els v ++ [close_ "stateVector"].
Definition segment_events (g : xsegment) : list event :=
  open_ "segment" :: open_ "metadata" :: els (xmeta g) ++ close_ "metadata" :: open_ "data" :: flat_map vector_events (xvectors g) ++ [close_ "data"; close_ "segment"].
Definition doc_events (attrs : list (str * str)) (hs : list element) (gs : list xsegment) : list event :=
  Other :: Start (qual p (lit "oem")) attrs :: open_ "header" :: els hs ++ close_ "header" :: open_ "body" :: flat_map segment_events gs ++ [close_ "body"; close_ "oem"].
End Doc.
(** every run of text with the name it stands under *)
Definition said := (str * str)%type.
Definition sayings (l : list element) : list said := flat_map (fun e => map (pair (key e)) (snd e)) l.
(** the last run of text under that name is [v] *)
Definition says_last (l : list said) (k : string) (v : str) : Prop :=
  exists a e b, l = a ++ e :: b /\ fst e = lit k /\ snd e = v /\ Forall (fun e' => fst e' <> lit k) b.
Definition says_or (l : list said) (k : string) (d v : str) : Prop := says_last l k v \/ (Forall (fun e => fst e <> lit k) l /\ v = d).
Definition says_num (read : str -> option fnum) (l : list said) (k : string) (f : fnum) : Prop := exists t, says_last l k t /\ read t = Some f.
Definition vector_is (v : list element) (s : state) : Prop :=
  says_num iso_to_jd (sayings v) "EPOCH" (epoch_jd s) /\ says_num parse_f64 (sayings v) "X" (x s) /\ says_num parse_f64 (sayings v) "Y" (y s) /\ says_num parse_f64 (sayings v) "Z" (z s) /\
  says_num parse_f64 (sayings v) "X_DOT" (vx s) /\ says_num parse_f64 (sayings v) "Y_DOT" (vy s) /\ says_num parse_f64 (sayings v) "Z_DOT" (vz s).
Definition segment_is (g : xsegment) (s : segment) : Prop :=
  says_last (sayings (xmeta g)) "OBJECT_ID" (object_id (meta s)) /\ says_last (sayings (xmeta g)) "OBJECT_NAME" (object_name (meta s)) /\
  says_last (sayings (xmeta g)) "REF_FRAME" (ref_frame (meta s)) /\ says_last (sayings (xmeta g)) "TIME_SYSTEM" (time_system (meta s)) /\
  says_last (sayings (xmeta g)) "CENTER_NAME" (center_name (meta s)) /\ Forall2 vector_is (xvectors g) (states s).
Definition version_is (attrs : list (str * str)) (v : str) : Prop :=
  (exists a b, attrs = a ++ (lit "version", v) :: b /\ Forall (fun q => fst q <> lit "version") b) \/
  (Forall (fun q => fst q <> lit "version") attrs /\ v = lit "3.0").
Definition doc_is (attrs : list (str * str)) (hs : list element) (gs : list xsegment) (f : oem_file) : Prop :=
  version_is attrs (version f) /\ says_or (sayings hs) "CREATION_DATE" [] (creation_date f) /\ says_or (sayings hs) "ORIGINATOR" [] (originator f) /\
  gs <> [] /\ Forall2 segment_is gs (segments f).

(** ** Names *)
Lemma split_on_cons c s : exists w ws, split_on c s = w :: ws.
Proof. induction s as [|a s (w & ws & E)]; cbn; [eauto|]. destruct (a =? c); [eauto|]. rewrite E. eauto. Qed.
Lemma split_on_prefix c q k : ~ In c k -> exists ws, split_on c (q ++ c :: k) = ws ++ [k].
Proof.
  intros N. induction q as [|a q (ws & E)]; cbn [app split_on].
  - rewrite N.eqb_refl. rewrite (split_on_none c k N). exists [[]]. reflexivity.
  - destruct (a =? c); [rewrite E; exists ([] :: ws); reflexivity|]. rewrite E. destruct ws as [|w ws]; cbn [app].
    + exists []. exfalso. clear -E. revert E. generalize (split_on_cons c (q ++ c :: k)). intros _ E.
      assert (H : (2 <= length (split_on c (q ++ c :: k)))%nat); [|rewrite E in H; cbn in H; lia].
      clear E. induction q as [|b q IH]; cbn [app split_on]; [rewrite N.eqb_refl; cbn; destruct (split_on_cons c k) as (w & ws & ->); cbn; lia|].
      destruct (b =? c); [cbn; lia|]. destruct (split_on c (q ++ c :: k)); cbn in *; lia.
    + exists ((a :: w) :: ws). reflexivity.
Qed.
Lemma local_qual p k : ~ In 58 k -> local (qual p k) = k.
Proof.
  intros N. unfold local, qual. destruct p as [q|]; [|now rewrite (split_on_none 58 k N)].
  destruct (split_on_prefix 58 q k N) as (ws & ->). now rewrite last_last.
Qed.

(** ** The last word *)
Definition told (l : list said) (k : str) : option str := fold_left (fun (o : option str) (e : said) => if str_eqb (fst e) k then Some (snd e) else o) l None.
Lemma fold_told l k : forall o, fold_left (fun (o : option str) (e : said) => if str_eqb (fst e) k then Some (snd e) else o) l o = match told l k with Some v => Some v | None => o end.
Proof.
  unfold told. set (F := fun (o : option str) (e : said) => if str_eqb (fst e) k then Some (snd e) else o).
  induction l as [|e l IH]; intros o; [reflexivity|]. cbn [fold_left]. rewrite (IH (F o e)), (IH (F None e)). unfold F at 2 4.
    destruct (fold_left F l None); [reflexivity|]. now destruct (str_eqb (fst e) k).
Qed.
Lemma told_cons e l k : told (e :: l) k = match told l k with Some v => Some v | None => if str_eqb (fst e) k then Some (snd e) else None end.
Proof. unfold told at 1. cbn [fold_left]. now rewrite fold_told. Qed.
Lemma told_none l k : told l k = None <-> Forall (fun e => fst e <> k) l.
Proof.
  induction l as [|e l IH]; [now split; constructor|]. rewrite told_cons. destruct (told l k) as [v|].
  - split; [discriminate|]. intros F. inversion F; subst. now apply IH.
  - destruct (str_eqb_spec (fst e) k) as [E|E].
    + split; [discriminate|]. intros F. inversion F; subst. congruence.
    + split; [|reflexivity]. intros _. constructor; [exact E|now apply IH].
Qed.
Lemma told_some l k v : told l (lit k) = Some v <-> says_last l k v.
Proof.
  unfold says_last. induction l as [|e l IH].
  - split; [discriminate|]. intros (a & e & b & H & _). now destruct a.
  - rewrite told_cons. destruct (told l (lit k)) as [w|] eqn:T.
    + split.
      * intros E. injection E as ->. destruct (proj1 IH eq_refl) as (a & e' & b & -> & H). exists (e :: a), e', b. auto.
      * intros (a & e' & b & H & K & S & F). apply IH. destruct a as [|a0 a]; cbn [app] in H; injection H as -> ->.
        -- apply told_none in F. congruence.
        -- now exists a, e', b.
    + apply told_none in T. destruct (str_eqb_spec (fst e) (lit k)) as [E|E].
      * split.
        -- intros H. injection H as <-. exists [], e, l. auto.
        -- intros (a & e' & b & H & K & S & F). destruct a as [|a0 a]; cbn [app] in H; injection H as -> ->; [now rewrite S|].
           apply Forall_app in T as (_ & T). inversion T; subst. congruence.
      * split; [discriminate|]. intros (a & e' & b & H & K & S & F). destruct a as [|a0 a]; cbn [app] in H; injection H as -> ->; [congruence|].
        apply Forall_app in T as (_ & T). inversion T; subst. congruence.
Qed.

(** ** Reading elements *)
Definition set_v (b : sbuild) (e : said) : sbuild := set_vector b (fst e) (snd e).
Definition set_m (b : builder) (e : said) : builder := set_meta b (fst e) (snd e).
Definition after (l : list element) (t : option str) : option str := match l with [] => t | _ => None end.
Lemma start_plain a p e : plain e -> on_start a (qual p (key e)) (snd (fst e)) = RA (r_version a) (r_date a) (r_orig a) (r_segs a) (r_seg a) (Some (key e)).
Proof.
  intros (C & A & B & D). unfold on_start. rewrite (local_qual p _ C).
  destruct (str_eqb_spec (key e) (lit "oem")); [contradiction|]. destruct (str_eqb_spec (key e) (lit "segment")); [contradiction|].
  now destruct (str_eqb_spec (key e) (lit "stateVector")).
Qed.
Lemma end_plain a p e : plain e -> on_end a (qual p (key e)) = Ok (RA (r_version a) (r_date a) (r_orig a) (r_segs a) (r_seg a) None).
Proof.
  intros (C & A & B & D). unfold on_end. rewrite (local_qual p _ C).
  destruct (str_eqb_spec (key e) (lit "stateVector")); [contradiction|]. now destruct (str_eqb_spec (key e) (lit "segment")).
Qed.
Lemma after_after l t : after l None = None /\ (forall e, after (e :: l) t = None). Proof. now destruct l. Qed.
Lemma runs_vector k rs : forall v d o sg m ss b r,
  run_events (RA v d o sg (Some (GB m ss (Some b))) (Some k)) (map (fun t => Run (Some t)) rs ++ r) =
  run_events (RA v d o sg (Some (GB m ss (Some (fold_left set_v (map (pair k) rs) b)))) (Some k)) r.
Proof.
  induction rs as [|t rs IH]; intros v d o sg m ss b r; [reflexivity|]. cbn [map app run_events on_event on_text r_tag r_seg r_version r_date r_orig r_segs obind].
  rewrite IH. reflexivity.
Qed.
Lemma runs_meta k rs : forall v d o sg m ss r,
  run_events (RA v d o sg (Some (GB m ss None)) (Some k)) (map (fun t => Run (Some t)) rs ++ r) =
  run_events (RA v d o sg (Some (GB (fold_left set_m (map (pair k) rs) m) ss None)) (Some k)) r.
Proof.
  induction rs as [|t rs IH]; intros v d o sg m ss r; [reflexivity|]. cbn [map app run_events on_event on_text r_tag r_seg r_version r_date r_orig r_segs obind].
  rewrite IH. reflexivity.
Qed.
Definition or_told (l : list said) (k : string) (d : str) : str := or_else (told l (lit k)) d.
Lemma or_told_cons e l k d : or_told (e :: l) k d = or_told l k (if str_eqb (fst e) (lit k) then snd e else d).
Proof. unfold or_told. rewrite told_cons. destruct (told l (lit k)); [reflexivity|]. now destruct (str_eqb (fst e) (lit k)). Qed.
Lemma or_told_app a b k d : or_told (a ++ b) k d = or_told b k (or_told a k d).
Proof. revert d. induction a as [|e a IH]; intros d; [reflexivity|]. cbn [app]. now rewrite !or_told_cons, IH. Qed.
Lemma runs_header k rs : forall v d o sg r,
  run_events (RA v d o sg None (Some k)) (map (fun t => Run (Some t)) rs ++ r) =
  run_events (RA v (or_told (map (pair k) rs) "CREATION_DATE" d) (or_told (map (pair k) rs) "ORIGINATOR" o) sg None (Some k)) r.
Proof.
  induction rs as [|t rs IH]; intros v d o sg r; [reflexivity|]. cbn [map app run_events on_event on_text r_tag r_seg r_version r_date r_orig r_segs].
  rewrite !or_told_cons. cbn [fst snd]. destruct (str_eqb_spec k (lit "CREATION_DATE")) as [->|E].
  - replace (str_eqb (lit "CREATION_DATE") (lit "ORIGINATOR")) with false by reflexivity. cbn [obind]. apply IH.
  - destruct (str_eqb k (lit "ORIGINATOR")); cbn [obind]; apply IH.
Qed.
Lemma run_vector p l : Forall plain l -> forall v d o sg m ss b t r,
  run_events (RA v d o sg (Some (GB m ss (Some b))) t) (els p l ++ r) = run_events (RA v d o sg (Some (GB m ss (Some (fold_left set_v (sayings l) b)))) (after l t)) r.
Proof.
  induction 1 as [|e l P _ IH]; intros v d o sg m ss b t r; [reflexivity|]. unfold els, sayings. cbn [flat_map]. unfold el. cbn [app run_events on_event obind]. rewrite (start_plain _ p e P).
  cbn [r_version r_date r_orig r_segs r_seg r_tag]. rewrite <- !app_assoc, runs_vector, fold_left_app. cbn [app run_events on_event]. rewrite (end_plain _ p e P).
  cbn [r_version r_date r_orig r_segs r_seg r_tag obind]. fold (els p l) (sayings l). rewrite IH. now rewrite (proj1 (after_after l t)).
Qed.
Lemma run_meta p l : Forall plain l -> forall v d o sg m ss t r,
  run_events (RA v d o sg (Some (GB m ss None)) t) (els p l ++ r) = run_events (RA v d o sg (Some (GB (fold_left set_m (sayings l) m) ss None)) (after l t)) r.
Proof.
  induction 1 as [|e l P _ IH]; intros v d o sg m ss t r; [reflexivity|]. unfold els, sayings. cbn [flat_map]. unfold el. cbn [app run_events on_event obind]. rewrite (start_plain _ p e P).
  cbn [r_version r_date r_orig r_segs r_seg r_tag]. rewrite <- !app_assoc, runs_meta, fold_left_app. cbn [app run_events on_event]. rewrite (end_plain _ p e P).
  cbn [r_version r_date r_orig r_segs r_seg r_tag obind]. fold (els p l) (sayings l). rewrite IH. now rewrite (proj1 (after_after l t)).
Qed.
Lemma run_header p l : Forall plain l -> forall v d o sg t r,
  run_events (RA v d o sg None t) (els p l ++ r) = run_events (RA v (or_told (sayings l) "CREATION_DATE" d) (or_told (sayings l) "ORIGINATOR" o) sg None (after l t)) r.
Proof.
  induction 1 as [|e l P _ IH]; intros v d o sg t r; [reflexivity|]. unfold els, sayings. cbn [flat_map]. unfold el. cbn [app run_events on_event obind]. rewrite (start_plain _ p e P).
  cbn [r_version r_date r_orig r_segs r_seg r_tag]. rewrite <- !app_assoc, runs_header, !or_told_app. cbn [app run_events on_event]. rewrite (end_plain _ p e P).
  cbn [r_version r_date r_orig r_segs r_seg r_tag obind]. fold (els p l) (sayings l). rewrite IH. now rewrite (proj1 (after_after l t)).
Qed.
Lemma no_colon k : forallb (fun c => negb (c =? 58)) (lit k) = true -> ~ In 58 (lit k).
Proof. intros F I. rewrite forallb_forall in F. now specialize (F _ I). Qed.
Ltac loc := rewrite local_qual by (apply no_colon; reflexivity).
Ltac lits := repeat match goal with |- context[str_eqb (lit ?a) (lit ?b)] => let e := eval vm_compute in (str_eqb (lit a) (lit b)) in change (str_eqb (lit a) (lit b)) with e; cbv iota end.
Definition vector_of (v : list element) : xres state := finish_state (fold_left set_v (sayings v) sb0).
Definition meta_of (l : list element) : xres metadata := finish_xmeta (fold_left set_m (sayings l) empty_builder).
Lemma run_one_vector p l : Forall plain l -> forall v d o sg m ss c t r,
  run_events (RA v d o sg (Some (GB m ss c)) t) (vector_events p l ++ r) = (s <- vector_of l ;; run_events (RA v d o sg (Some (GB m (ss ++ [s]) None)) None) r).
Proof.
  intros P v d o sg m ss c t r. unfold vector_events, open_, close_. cbn [app run_events on_event obind]. unfold on_start. loc. lits.
  cbn [r_version r_date r_orig r_segs r_seg r_tag g_meta g_states]. rewrite <- app_assoc. rewrite (run_vector p l P).
  cbn [app run_events on_event]. unfold on_end. loc. lits. cbn [r_version r_date r_orig r_segs r_seg r_tag]. fold (vector_of l). now destruct (vector_of l).
Qed.
Fixpoint vectors_of (l : list (list element)) : xres (list state) :=
  match l with [] => Ok [] | v :: t => s <- vector_of v ;; ss <- vectors_of t ;; Ok (s :: ss) end.
Lemma run_vectors p l : Forall (Forall plain) l -> forall v d o sg m ss r,
  run_events (RA v d o sg (Some (GB m ss None)) None) (flat_map (vector_events p) l ++ r) = (ts <- vectors_of l ;; run_events (RA v d o sg (Some (GB m (ss ++ ts) None)) None) r).
Proof.
  induction 1 as [|v0 l P _ IH]; intros v d o sg m ss r; cbn [flat_map vectors_of obind]; [now rewrite app_nil_r|].
  rewrite <- app_assoc, (run_one_vector p v0 P). destruct (vector_of v0) as [s|e|]; cbn [obind]; [|reflexivity|reflexivity].
  rewrite IH. destruct (vectors_of l); cbn [obind]; [|reflexivity|reflexivity]. now rewrite <- app_assoc.
Qed.
Lemma run_vectors' p l : Forall (Forall plain) l -> forall v d o sg m ss t r, exists t',
  run_events (RA v d o sg (Some (GB m ss None)) t) (flat_map (vector_events p) l ++ r) = (ts <- vectors_of l ;; run_events (RA v d o sg (Some (GB m (ss ++ ts) None)) t') r).
Proof.
  intros P v d o sg m ss t r. destruct P as [|v0 l P0 P]; [exists t; cbn [flat_map vectors_of obind app]; now rewrite app_nil_r|]. exists None.
  cbn [flat_map vectors_of]. rewrite <- app_assoc, (run_one_vector p v0 P0). destruct (vector_of v0) as [s|e|]; cbn [obind]; [|reflexivity|reflexivity].
  rewrite (run_vectors p l P). destruct (vectors_of l); cbn [obind]; [|reflexivity|reflexivity]. now rewrite <- app_assoc.
Qed.
Definition plain_segment (g : xsegment) : Prop := Forall plain (xmeta g) /\ Forall (Forall plain) (xvectors g).
Definition segment_of (g : xsegment) : xres segment := ss <- vectors_of (xvectors g) ;; m <- meta_of (xmeta g) ;; Ok (Segment m ss).
Lemma run_segment p g : plain_segment g -> forall v d o sg c t r,
  run_events (RA v d o sg c t) (segment_events p g ++ r) = (s <- segment_of g ;; run_events (RA v d o (sg ++ [s]) None None) r).
Proof.
  intros (P & Q) v d o sg c t r. unfold segment_events. cbn [app run_events]. unfold open_ at 1 2. cbn [on_event obind]. unfold on_start. repeat loc. lits.
  cbn [r_version r_date r_orig r_segs r_seg r_tag]. unfold gb0. rewrite <- app_assoc. rewrite (run_meta p _ P).
  cbn [app run_events]. unfold close_ at 1. cbn [on_event]. unfold on_end. loc. lits. cbn [obind r_version r_date r_orig r_segs r_seg r_tag].
  unfold open_ at 1. cbn [on_event obind]. unfold on_start. loc. lits. cbn [r_version r_date r_orig r_segs r_seg r_tag]. rewrite <- app_assoc.
  match goal with |- run_events (RA ?v ?d ?o ?sg (Some (GB ?m ?ss None)) ?t) (flat_map _ _ ++ ?r) = _ => destruct (run_vectors' p _ Q v d o sg m ss t r) as (t' & ->) end.
  unfold segment_of. destruct (vectors_of (xvectors g)) as [ss|e|]; cbn [obind]; [|reflexivity|reflexivity].
  cbn [app run_events]. unfold close_ at 1. cbn [on_event]. unfold on_end at 1. loc. lits. cbn [obind r_version r_date r_orig r_segs r_seg r_tag].
  unfold close_ at 1. cbn [on_event]. unfold on_end. loc. lits. cbn [r_version r_date r_orig r_segs r_seg r_tag g_meta g_states]. fold (meta_of (xmeta g)). now destruct (meta_of (xmeta g)).
Qed.
Fixpoint segments_of (l : list xsegment) : xres (list segment) :=
  match l with [] => Ok [] | g :: t => s <- segment_of g ;; ss <- segments_of t ;; Ok (s :: ss) end.
Lemma run_segments p l : Forall plain_segment l -> forall v d o sg t r, exists t',
  run_events (RA v d o sg None t) (flat_map (segment_events p) l ++ r) = (ts <- segments_of l ;; run_events (RA v d o (sg ++ ts) None t') r).
Proof.
  induction 1 as [|g l P _ IH]; intros v d o sg t r; cbn [flat_map segments_of obind]; [exists t; now rewrite app_nil_r|].
  rewrite <- app_assoc, (run_segment p g P). destruct (segment_of g) as [s|e|]; cbn [obind]; [|now exists None|now exists None].
  destruct (IH v d o (sg ++ [s]) None r) as (t' & ->). exists t'. destruct (segments_of l); cbn [obind]; [|reflexivity|reflexivity]. now rewrite <- app_assoc.
Qed.
Theorem read_doc p attrs hs gs : Forall plain hs -> Forall plain_segment gs ->
  read_oem_xml (doc_events p attrs hs gs) =
    (ss <- segments_of gs ;; match ss with [] => Err XmlNoSegments | _ => Ok (Oem (version_of (lit "3.0") attrs) (or_told (sayings hs) "CREATION_DATE" []) (or_told (sayings hs) "ORIGINATOR" []) ss) end).
Proof.
  intros P Q. unfold read_oem_xml, doc_events. cbn [run_events on_event obind]. unfold on_start. loc. lits. unfold ra0. cbn [obind r_version r_date r_orig r_segs r_seg r_tag].
  unfold open_ at 1. cbn [on_event obind]. unfold on_start. loc. lits. cbn [r_version r_date r_orig r_segs r_seg r_tag].
  rewrite (run_header p hs P). cbn [run_events]. unfold close_ at 1. cbn [on_event]. unfold on_end. loc. lits. cbn [obind r_version r_date r_orig r_segs r_seg r_tag].
  unfold open_ at 1. cbn [on_event obind]. unfold on_start. loc. lits. cbn [r_version r_date r_orig r_segs r_seg r_tag].
  match goal with |- context[run_events (RA ?v ?d ?o ?sg None ?t) (flat_map _ _ ++ ?r)] => destruct (run_segments p gs Q v d o sg t r) as (t' & ->) end.
  destruct (segments_of gs) as [ss|e|]; cbn [obind]; [|reflexivity|reflexivity].
  cbn [run_events]. unfold close_ at 1. cbn [on_event]. unfold on_end at 1. loc. lits. cbn [obind r_version r_date r_orig r_segs r_seg r_tag].
  unfold close_ at 1. cbn [on_event]. unfold on_end. loc. lits. cbn [obind run_events r_version r_date r_orig r_segs r_seg r_tag app]. now destruct ss.
Qed.

(** ** What the folds say *)
Lemma set_v_told (g : sbuild -> option fnum) k read : (forall b e, g (set_v b e) = if str_eqb (fst e) (lit k) then read (snd e) else g b) ->
  forall l b, g (fold_left set_v l b) = match told l (lit k) with Some t => read t | None => g b end.
Proof.
  intros H. induction l as [|e l IH]; intros b; [reflexivity|]. cbn [fold_left]. rewrite IH, told_cons, H. destruct (told l (lit k)); [reflexivity|]. now destruct (str_eqb (fst e) (lit k)).
Qed.
Lemma set_m_told (g : builder -> option str) k : (forall b e, g (set_m b e) = if str_eqb (fst e) (lit k) then Some (snd e) else g b) ->
  forall l b, g (fold_left set_m l b) = match told l (lit k) with Some t => Some t | None => g b end.
Proof.
  intros H. induction l as [|e l IH]; intros b; [reflexivity|]. cbn [fold_left]. rewrite IH, told_cons, H. destruct (told l (lit k)); [reflexivity|]. now destruct (str_eqb (fst e) (lit k)).
Qed.
Ltac keys := intros b e; unfold set_v, set_m, set_vector, set_meta;
  repeat match goal with |- context[str_eqb (fst e) ?l] => let E := fresh in destruct (str_eqb_spec (fst e) l) as [E|E]; [try rewrite E; lits; reflexivity|] end; reflexivity.
Lemma v_epoch l : s_epoch (fold_left set_v l sb0) = match told l (lit "EPOCH") with Some t => iso_to_jd t | None => None end. Proof. apply (set_v_told s_epoch "EPOCH" iso_to_jd). keys. Qed.
Lemma v_x l : s_x (fold_left set_v l sb0) = match told l (lit "X") with Some t => parse_f64 t | None => None end. Proof. apply (set_v_told s_x "X" parse_f64). keys. Qed.
Lemma v_y l : s_y (fold_left set_v l sb0) = match told l (lit "Y") with Some t => parse_f64 t | None => None end. Proof. apply (set_v_told s_y "Y" parse_f64). keys. Qed.
Lemma v_z l : s_z (fold_left set_v l sb0) = match told l (lit "Z") with Some t => parse_f64 t | None => None end. Proof. apply (set_v_told s_z "Z" parse_f64). keys. Qed.
Lemma v_vx l : s_vx (fold_left set_v l sb0) = match told l (lit "X_DOT") with Some t => parse_f64 t | None => None end. Proof. apply (set_v_told s_vx "X_DOT" parse_f64). keys. Qed.
Lemma v_vy l : s_vy (fold_left set_v l sb0) = match told l (lit "Y_DOT") with Some t => parse_f64 t | None => None end. Proof. apply (set_v_told s_vy "Y_DOT" parse_f64). keys. Qed.
Lemma v_vz l : s_vz (fold_left set_v l sb0) = match told l (lit "Z_DOT") with Some t => parse_f64 t | None => None end. Proof. apply (set_v_told s_vz "Z_DOT" parse_f64). keys. Qed.
Lemma m_id l : b_id (fold_left set_m l empty_builder) = told l (lit "OBJECT_ID"). Proof. rewrite (set_m_told b_id "OBJECT_ID") by keys. now destruct (told l (lit "OBJECT_ID")). Qed.
Lemma m_name l : b_name (fold_left set_m l empty_builder) = told l (lit "OBJECT_NAME"). Proof. rewrite (set_m_told b_name "OBJECT_NAME") by keys. now destruct (told l (lit "OBJECT_NAME")). Qed.
Lemma m_frame l : b_frame (fold_left set_m l empty_builder) = told l (lit "REF_FRAME"). Proof. rewrite (set_m_told b_frame "REF_FRAME") by keys. now destruct (told l (lit "REF_FRAME")). Qed.
Lemma m_time l : b_time (fold_left set_m l empty_builder) = told l (lit "TIME_SYSTEM"). Proof. rewrite (set_m_told b_time "TIME_SYSTEM") by keys. now destruct (told l (lit "TIME_SYSTEM")). Qed.
Lemma m_center l : b_center (fold_left set_m l empty_builder) = told l (lit "CENTER_NAME"). Proof. rewrite (set_m_told b_center "CENTER_NAME") by keys. now destruct (told l (lit "CENTER_NAME")). Qed.
Lemma says_num_iff read l k f : says_num read l k f <-> match told l (lit k) with Some t => read t | None => None end = Some f.
Proof.
  unfold says_num. destruct (told l (lit k)) as [t|] eqn:E.
  - split.
    + intros (t' & S & R). apply told_some in S. congruence.
    + intros R. exists t. split; [now apply told_some|exact R].
  - split; [|discriminate]. intros (t' & S & _). apply told_some in S. congruence.
Qed.
Lemma vector_of_iff v s : vector_of v = Ok s <-> vector_is v s.
Proof.
  unfold vector_is. rewrite !says_num_iff. unfold vector_of, finish_state. rewrite v_epoch, v_x, v_y, v_z, v_vx, v_vy, v_vz.
  repeat match goal with |- context[vneed ?o ?k] => let e := fresh in destruct o eqn:e; cbn [vneed obind]; [|split; [discriminate|intuition discriminate]] end.
  split.
  - intros E. injection E as <-. cbn. tauto.
  - intros (A & B & C & D & F & G & I). destruct s. cbn in *. congruence.
Qed.
Lemma meta_of_iff l m : meta_of l = Ok m <-> says_last (sayings l) "OBJECT_ID" (object_id m) /\ says_last (sayings l) "OBJECT_NAME" (object_name m) /\
  says_last (sayings l) "REF_FRAME" (ref_frame m) /\ says_last (sayings l) "TIME_SYSTEM" (time_system m) /\ says_last (sayings l) "CENTER_NAME" (center_name m).
Proof.
  rewrite <- !told_some. unfold meta_of, finish_xmeta. rewrite m_id, m_name, m_frame, m_time, m_center.
  repeat match goal with |- context[mneed ?o ?k] => let e := fresh in destruct o eqn:e; cbn [mneed obind]; [|split; [discriminate|intuition discriminate]] end.
  split.
  - intros E. injection E as <-. cbn. tauto.
  - intros (A & B & C & D & F). destruct m. cbn in *. congruence.
Qed.
Lemma vectors_of_iff l ss : vectors_of l = Ok ss <-> Forall2 vector_is l ss.
Proof.
  revert ss. induction l as [|v l IH]; intros ss; cbn [vectors_of].
  - split; [intros E; injection E as <-; constructor|]. intros F. now inversion F.
  - destruct (vector_of v) as [s|e|] eqn:V; cbn [obind].
    + apply vector_of_iff in V as V'. destruct (vectors_of l) as [ts|e|] eqn:R; cbn [obind].
      * split; [intros E; injection E as <-; constructor; [exact V'|now apply IH]|]. intros F. inversion F as [|a b c d A B]; subst. apply vector_of_iff in A. apply IH in B. congruence.
      * split; [discriminate|]. intros F. inversion F as [|a b c d A B]; subst. apply IH in B. congruence.
      * split; [discriminate|]. intros F. inversion F as [|a b c d A B]; subst. apply IH in B. congruence.
    + split; [discriminate|]. intros F. inversion F as [|a b c d A B]; subst. apply vector_of_iff in A. congruence.
    + split; [discriminate|]. intros F. inversion F as [|a b c d A B]; subst. apply vector_of_iff in A. congruence.
Qed.
Lemma segment_of_iff g s : segment_of g = Ok s <-> segment_is g s.
Proof.
  unfold segment_of, segment_is. split.
  - destruct (vectors_of (xvectors g)) as [ss|e|] eqn:V; cbn [obind]; [|discriminate|discriminate]. destruct (meta_of (xmeta g)) as [m|e|] eqn:M; cbn [obind]; [|discriminate|discriminate].
    intros E. injection E as <-. cbn. apply vectors_of_iff in V. apply meta_of_iff in M. tauto.
  - intros (A & B & C & D & F & V). apply vectors_of_iff in V. rewrite V. cbn [obind]. rewrite (proj2 (meta_of_iff (xmeta g) (meta s))) by tauto. destruct s; reflexivity.
Qed.
Lemma segments_of_iff l ss : segments_of l = Ok ss <-> Forall2 segment_is l ss.
Proof.
  revert ss. induction l as [|v l IH]; intros ss; cbn [segments_of].
  - split; [intros E; injection E as <-; constructor|]. intros F. now inversion F.
  - split.
    + destruct (segment_of v) as [s|e|] eqn:V; cbn [obind]; [|discriminate|discriminate]. destruct (segments_of l) as [ts|e|] eqn:R; cbn [obind]; [|discriminate|discriminate].
      intros E. injection E as <-. constructor; [now apply segment_of_iff|now apply IH].
    + intros F. inversion F as [|a b c d A B]; subst. apply segment_of_iff in A. apply IH in B. now rewrite A, B.
Qed.
Lemma version_of_iff attrs v : version_of (lit "3.0") attrs = v <-> version_is attrs v.
Proof.
  assert (G : forall d, version_of d attrs = v <-> (exists a b, attrs = a ++ (lit "version", v) :: b /\ Forall (fun q => fst q <> lit "version") b) \/ (Forall (fun q => fst q <> lit "version") attrs /\ v = d)); [|apply G].
  induction attrs as [|(n, w) l IH]; intros d.
  - cbn. split; [intros <-; right; split; [constructor|reflexivity]|]. intros [(a & b & H & _)|(_ & ->)]; [now destruct a|reflexivity].
  - unfold version_of. cbn [fold_left fst snd]. fold (version_of (if str_eqb n (lit "version") then w else d) l). rewrite IH. destruct (str_eqb_spec n (lit "version")) as [->|N]. 
    + split.
      * intros [(a & b & -> & F)|(F & ->)]; left; [exists ((lit "version", w) :: a), b; auto|exists [], l; auto].
      * intros [(a & b & H & F)|(F & _)]; [|inversion F; subst; cbn in *; congruence].
        destruct a as [|q a]; cbn [app] in H; injection H as <- ->; [right; auto|left; exists a, b; auto].
    + split.
      * intros [(a & b & -> & F)|(F & ->)]; [left; exists ((n, w) :: a), b; auto|right; split; [constructor; auto|reflexivity]].
      * intros [(a & b & H & F)|(F & ->)]; [left|right; inversion F; auto].
        destruct a as [|q a]; cbn [app] in H; [injection H as -> ->; congruence|injection H as <- ->; exists a, b; auto].
Qed.
Lemma says_or_iff l k d v : or_told l k d = v <-> says_or l k d v.
Proof.
  unfold says_or, or_told, or_else. destruct (told l (lit k)) as [w|] eqn:E.
  - apply told_some in E as E'. split; [intros <-; now left|]. intros [S|(F & _)]; [apply told_some in S; congruence|]. apply told_none in F. congruence.
  - apply told_none in E as E'. split; [intros <-; now right|]. intros [S|(_ & ->)]; [apply told_some in S; congruence|reflexivity].
Qed.
Theorem read_doc_iff p attrs hs gs f : Forall plain hs -> Forall plain_segment gs -> (read_oem_xml (doc_events p attrs hs gs) = Ok f <-> doc_is attrs hs gs f).
Proof.
  intros P Q. rewrite (read_doc p attrs hs gs P Q). unfold doc_is. rewrite <- version_of_iff, <- !says_or_iff. split.
  - destruct (segments_of gs) as [ss|e|] eqn:S; cbn [obind]; [|discriminate|discriminate]. destruct ss as [|s ss]; [discriminate|]. intros E. injection E as <-. cbn.
    apply segments_of_iff in S. repeat (split; [reflexivity|]). split; [|exact S]. intros ->. inversion S.
  - intros (V & D & O & N & S). apply segments_of_iff in S as S'. rewrite S'. cbn [obind]. destruct (segments f) as [|s ss] eqn:E; [inversion S; congruence|].
    destruct f. cbn in *. now subst.
Qed.

(** ** Escaping *)
Definition esc1 (c : N) : str := if c =? 38 then lit "&amp;" else if c =? 60 then lit "&lt;" else if c =? 62 then lit "&gt;" else if c =? 34 then lit "&quot;" else [c].
Lemma replace_app c r a b : replace c r (a ++ b) = replace c r a ++ replace c r b. Proof. apply flat_map_app. Qed.
Lemma escape_each s : xml_escape s = flat_map esc1 s.
Proof.
  unfold xml_escape. induction s as [|c s IH]; [reflexivity|]. change (c :: s) with ([c] ++ s). rewrite !replace_app, IH. cbn [flat_map app]. f_equal. clear IH.
  unfold esc1. unfold replace at 4. cbn [flat_map]. rewrite app_nil_r.
  destruct (N.eqb_spec c 38) as [->|A]; [reflexivity|]. unfold replace at 3. cbn [flat_map]. rewrite app_nil_r.
  destruct (N.eqb_spec c 60) as [->|B]; [reflexivity|]. unfold replace at 2. cbn [flat_map]. rewrite app_nil_r.
  destruct (N.eqb_spec c 62) as [->|C]; [reflexivity|]. unfold replace. cbn [flat_map]. rewrite app_nil_r. reflexivity.
Qed.
Lemma unescape_esc1 cr c s : unescape_from cr None (esc1 c ++ s) = option_map (cons c) (unescape_from cr None s).
Proof.
  unfold esc1. destruct (N.eqb_spec c 38) as [->|A]; [reflexivity|]. destruct (N.eqb_spec c 60) as [->|B]; [reflexivity|].
  destruct (N.eqb_spec c 62) as [->|C]; [reflexivity|]. destruct (N.eqb_spec c 34) as [->|D]; [reflexivity|].
  cbn [app unescape_from]. destruct (N.eqb_spec c 38); [contradiction|reflexivity].
Qed.
Lemma unescape_escape cr s : unescape cr (xml_escape s) = Some s.
Proof. rewrite escape_each. unfold unescape. induction s as [|c s IH]; [reflexivity|]. cbn [flat_map]. now rewrite unescape_esc1, IH. Qed.
Lemma escape_markup s : ~ In 60 (xml_escape s) /\ ~ In 62 (xml_escape s) /\ ~ In 34 (xml_escape s).
Proof.
  rewrite escape_each. assert (H : forall c, esc1 c = [c] /\ c <> 60 /\ c <> 62 /\ c <> 34 \/ ~ In 60 (esc1 c) /\ ~ In 62 (esc1 c) /\ ~ In 34 (esc1 c)).
  { intros c. unfold esc1. destruct (N.eqb_spec c 38) as [->|A]; [right; cbn; repeat split; intros X; repeat destruct X as [X|X]; first [discriminate X|exact X]|].
    destruct (N.eqb_spec c 60) as [->|B]; [right; cbn; repeat split; intros X; repeat destruct X as [X|X]; first [discriminate X|exact X]|].
    destruct (N.eqb_spec c 62) as [->|C]; [right; cbn; repeat split; intros X; repeat destruct X as [X|X]; first [discriminate X|exact X]|].
    destruct (N.eqb_spec c 34) as [->|D]; [right; cbn; repeat split; intros X; repeat destruct X as [X|X]; first [discriminate X|exact X]|]. left. auto. }
  repeat split; intros I; apply in_flat_map in I as (c & _ & I); destruct (H c) as [(E & A & B & C)|(A & B & C)];
    solve [rewrite E in I; cbn in I; destruct I as [I|[]]; congruence|contradiction].
Qed.
(** characters of the escaped text that are white space or a carriage return stand in the text itself *)
Lemma esc1_ws c : is_xws (hd 0 (esc1 c)) = is_xws c /\ is_xws (last (esc1 c) 0) = is_xws c /\ esc1 c <> [].
Proof.
  unfold esc1. destruct (N.eqb_spec c 38) as [->|A]; [repeat split; discriminate|]. destruct (N.eqb_spec c 60) as [->|B]; [repeat split; discriminate|].
  destruct (N.eqb_spec c 62) as [->|C]; [repeat split; discriminate|]. destruct (N.eqb_spec c 34) as [->|D]; repeat split; discriminate.
Qed.
Definition tight (s : str) : Prop := s <> [] /\ is_xws (hd 0 s) = false /\ is_xws (last s 0) = false /\ ~ In 13 s.
Lemma xtrim_start_id s : is_xws (hd 0 s) = false -> xtrim_start s = s.
Proof. destruct s as [|c s]; [reflexivity|]. cbn. now intros ->. Qed.
Lemma hd_rev (s : str) : hd 0 (rev s) = last s 0.
Proof.
  induction s as [|c s IH] using rev_ind; [reflexivity|]. rewrite rev_app_distr, last_last. reflexivity.
Qed.
Lemma xtrim_id s : is_xws (hd 0 s) = false -> is_xws (last s 0) = false -> xtrim s = s.
Proof. intros H L. unfold xtrim. rewrite (xtrim_start_id s H). rewrite (xtrim_start_id (rev s)); [apply rev_involutive|]. now rewrite hd_rev. Qed.
Lemma norm_eol_id s : ~ In 13 s -> norm_eol s = s.
Proof. induction s as [|c s IH]; intros N; [reflexivity|]. cbn [norm_eol]. destruct (N.eqb_spec c 13) as [->|_]; [destruct N; now left|]. rewrite IH; [reflexivity|]. intros I. apply N. now right. Qed.
Lemma tight_escape s : tight s -> tight (xml_escape s).
Proof.
  intros (N & H & L & R). rewrite escape_each. repeat split.
  - destruct s as [|c s]; [contradiction|]. cbn [flat_map]. destruct (esc1_ws c) as (_ & _ & E). destruct (esc1 c); [contradiction|discriminate].
  - destruct s as [|c s]; [contradiction|]. cbn [flat_map hd] in *. destruct (esc1_ws c) as (W & _ & E). destruct (esc1 c) as [|d t]; [contradiction|]. cbn in *. congruence.
  - destruct (exists_last N) as (s0 & c & ->). rewrite last_last in L. rewrite flat_map_app. cbn [flat_map]. rewrite app_nil_r. destruct (esc1_ws c) as (_ & W & E).
    destruct (exists_last E) as (u & d & X). rewrite X in *. rewrite app_assoc, last_last. rewrite last_last in W. congruence.
  - intros I. apply in_flat_map in I as (c & J & I). apply R. replace 13 with c; [exact J|]. revert I. unfold esc1.
    destruct (c =? 38); [cbn; intuition discriminate|]. destruct (c =? 60); [cbn; intuition discriminate|]. destruct (c =? 62); [cbn; intuition discriminate|].
    destruct (c =? 34); [cbn; intuition discriminate|]. cbn. intuition.
Qed.
Lemma whole_tight cr s : tight s -> ~ In 38 s -> whole cr s = [Some s].
Proof.
  intros (N & H & L & R) A. unfold whole. rewrite (xtrim_id s H L). destruct s as [|c0 s0] eqn:E; [contradiction|]. rewrite <- E in *. rewrite (norm_eol_id s R). f_equal.
  clear -A. unfold unescape. induction s as [|c s IH]; [reflexivity|]. cbn [unescape_from]. destruct (N.eqb_spec c 38) as [->|_]; [destruct A; now left|].
  rewrite IH; [reflexivity|]. intros I. apply A. now right.
Qed.
Lemma whole_escape cr s : tight s -> whole cr (xml_escape s) = [Some s].
Proof.
  intros T. destruct (tight_escape s T) as (N & H & L & R). unfold whole. rewrite (xtrim_id _ H L). destruct (xml_escape s) as [|c t] eqn:E; [contradiction|]. rewrite <- E in *.
  rewrite (norm_eol_id _ R). now rewrite unescape_escape.
Qed.

(** ** Written numbers and dates need no escaping *)
Definition sober (s : str) : bool := forallb (fun c => negb (is_ws c) && negb ((c =? 38) || (c =? 60) || (c =? 62) || (c =? 34))) s.
Lemma sober_app a b : sober (a ++ b) = sober a && sober b. Proof. apply forallb_app. Qed.
Lemma sober_digits s : forallb is_digit s = true -> sober s = true.
Proof.
  unfold sober. rewrite !forallb_forall. intros H c I. specialize (H c I). unfold is_digit in H. apply andb_prop in H as (A & B). apply N.leb_le in A, B. unfold is_ws.
  repeat match goal with |- context[?a <=? ?b] => destruct (N.leb_spec a b); try lia | |- context[?a =? ?b] => destruct (N.eqb_spec a b); try lia end; reflexivity.
Qed.
Lemma sober_fixed p f : sober (fmt_fixedF p f) = true.
Proof.
  destruct f as [q|n|]; [|destruct n; reflexivity|reflexivity]. unfold fmt_fixedF, fmt_fixed.
  rewrite !sober_app, (sober_digits (dec _)) by apply dec_digit. rewrite andb_true_l.
  destruct (Qle_bool 0 q), (p =? 0)%nat; try reflexivity; apply (sober_digits _ (digits_digit _ _)).
Qed.
Lemma sober_iso jd : (first_day <= jd)%Q -> sober (jd_to_iso jd) = true.
Proof.
  intros H. destruct (iso_shape jd H) as (y & m & d & h & mi & sec & -> & _ & _ & _ & _ & (S & _) & _).
  rewrite !sober_app, !(sober_digits (pad0 _ _)) by apply pad0_digit. rewrite !andb_true_l.
  unfold sober. apply forallb_forall. intros c I. destruct (pad0_fixed_chars _ _ _ _ S I) as [D| ->]; [|reflexivity].
  pose proof (sober_digits [c]) as X. cbn [forallb sober] in X. rewrite D in X. specialize (X eq_refl). unfold sober in X. cbn [forallb] in X. now rewrite andb_true_r in X.
Qed.
Lemma sober_tight s : s <> [] -> sober s = true -> tight s /\ xml_escape s = s.
Proof.
  intros N F. unfold sober in F. rewrite forallb_forall in F.
  assert (W : forall c, In c s -> is_xws c = false /\ esc1 c = [c]).
  { intros c I. specialize (F c I). apply andb_prop in F as (A & B). apply negb_true_iff in A, B. split.
    - unfold is_ws in A. unfold is_xws. apply orb_false_elim in A as (A & C). rewrite C. cbn [orb].
      destruct (N.eqb_spec c 9) as [->|]; [discriminate|]. destruct (N.eqb_spec c 10) as [->|]; [discriminate|]. destruct (N.eqb_spec c 13) as [->|]; [discriminate|reflexivity].
    - unfold esc1. apply orb_false_elim in B as (B & D). apply orb_false_elim in B as (B & C). apply orb_false_elim in B as (B & E). now rewrite B, E, C, D. }
  split.
  - split; [exact N|]. split; [|split].
    + destruct s as [|c t]; [contradiction|]. apply W. now left.
    + destruct (exists_last N) as (u & c & ->). rewrite last_last. apply W. apply in_or_app. right. now left.
    + intros I. now destruct (W _ I).
  - rewrite escape_each. clear -W. induction s as [|c s IH]; [reflexivity|]. cbn [flat_map]. rewrite (proj2 (W c (or_introl eq_refl))). cbn [app]. f_equal. apply IH. intros d I. apply W. now right.
Qed.

(** ** Written documents *)
Definition texts_of (l : list (option str)) : list str := flat_map (fun o => match o with Some t => [t] | None => [] end) l.
Definition resolved (l : list (option str)) : Prop := Forall (fun o => o <> None) l.
Lemma resolved_runs l : resolved l -> map Run l = map (fun t => Run (Some t)) (texts_of l).
Proof. induction 1 as [|[t|] l N _ IH]; [reflexivity| |congruence]. unfold texts_of. cbn [flat_map map app]. f_equal. exact IH. Qed.
Section Written.
Variable bad_date : fnum -> str.
Variable chars : str -> list (option str).
Definition elt (k : string) (a : list (str * str)) (t : str) : element := (lit k, a, texts_of (chars t)).
Definition header_elts : list element := [elt "CREATION_DATE" [] (lit "2026-01-01T00:00:00"); elt "ORIGINATOR" [] (lit "SIDERUST-POD")].
Definition meta_elts (m : metadata) (a b : str) : list element :=
  [ elt "OBJECT_NAME" [] (xml_escape (object_name m)); elt "OBJECT_ID" [] (xml_escape (object_id m)); elt "CENTER_NAME" [] (xml_escape (center_name m));
    elt "REF_FRAME" [] (xml_escape (ref_frame m)); elt "TIME_SYSTEM" [] (xml_escape (time_system m)); elt "START_TIME" [] a; elt "STOP_TIME" [] b ].
Definition state_elts (s : state) : list element :=
  [ elt "EPOCH" [] (iso bad_date (epoch_jd s)); elt "X" km (fmt_fixedF 6 (x s)); elt "Y" km (fmt_fixedF 6 (y s)); elt "Z" km (fmt_fixedF 6 (z s));
    elt "X_DOT" km_s (fmt_fixedF 9 (vx s)); elt "Y_DOT" km_s (fmt_fixedF 9 (vy s)); elt "Z_DOT" km_s (fmt_fixedF 9 (vz s)) ].
Definition written_attrs : list (str * str) := [(lit "id", lit "CCSDS_OEM_VERS"); (lit "version", lit "3.0")].
Definition written_segment (m : metadata) (f l : state) (ss : list state) : xsegment :=
  XSeg (meta_elts m (iso bad_date (epoch_jd f)) (iso bad_date (epoch_jd l))) (map state_elts ss).
(** every text of the document arrives with its references resolved *)
Definition all_resolved (ls : list xline) : Prop := forall t, In (Chars t) (flat_map snd ls) -> resolved (chars t).
Lemma deliver_leaf n k a t r : resolved (chars t) -> delivered chars (leaf n k a t :: r) = el None (elt k a t) ++ delivered chars r.
Proof.
  intros R. unfold delivered. unfold leaf. cbn [flat_map snd deliver app]. rewrite (resolved_runs _ R). unfold el, elt, key. cbn [fst snd qual app]. now rewrite <- !app_assoc.
Qed.
Lemma resolved_in ls n k a t : all_resolved ls -> In (leaf n k a t) ls -> resolved (chars t).
Proof. intros R I. apply R. apply in_flat_map. exists (leaf n k a t). split; [exact I|]. right. now left. Qed.
Lemma deliver_states ss r : all_resolved (flat_map (state_lines bad_date) ss) -> delivered chars (flat_map (state_lines bad_date) ss ++ r) = flat_map (vector_events None) (map state_elts ss) ++ delivered chars r.
Proof.
  induction ss as [|s ss IH]; intros R; [reflexivity|]. cbn [flat_map map]. rewrite <- app_assoc.
  assert (R1 : all_resolved (state_lines bad_date s)) by (intros t I; apply R; cbn [flat_map]; rewrite flat_map_app; apply in_or_app; now left).
  assert (R2 : all_resolved (flat_map (state_lines bad_date) ss)) by (intros t I; apply R; cbn [flat_map]; rewrite flat_map_app; apply in_or_app; now right).
  rewrite <- app_assoc, <- (IH R2). unfold state_lines at 1, vector_events, els, state_elts. cbn [app flat_map].
  change (delivered chars (tag 8 "stateVector" :: ?r)) with (open_ None "stateVector" :: delivered chars r). cbn [app]. f_equal.
  rewrite !deliver_leaf by (eapply resolved_in; [exact R1|unfold state_lines; cbn [In]; tauto]).
  change (delivered chars (untag 8 "stateVector" :: ?r)) with (close_ None "stateVector" :: delivered chars r). rewrite app_nil_r. rewrite <- !app_assoc. reflexivity.
Qed.
Lemma delivered_doc m f l ss : all_resolved (xml_lines bad_date m f l ss) ->
  delivered chars (xml_lines bad_date m f l ss) = doc_events None written_attrs header_elts [written_segment m f l ss].
Proof.
  intros R. unfold xml_lines. cbn [app].
  change (delivered chars ((0%nat, [Decl ?d]) :: ?r)) with (Other :: delivered chars r).
  change (delivered chars ((0%nat, [Open ?n ?a]) :: ?r)) with (Start n a :: delivered chars r).
  repeat change (delivered chars (tag ?n ?k :: ?r)) with (open_ None k :: delivered chars r).
  rewrite !deliver_leaf by (eapply resolved_in; [exact R|unfold xml_lines; cbn [In app]; tauto]).
  repeat (progress (repeat change (delivered chars (tag ?n ?k :: ?r)) with (open_ None k :: delivered chars r); repeat change (delivered chars (untag ?n ?k :: ?r)) with (close_ None k :: delivered chars r);
    rewrite ?deliver_leaf by (eapply resolved_in; [exact R|unfold xml_lines; cbn [In app]; tauto]))).
  rewrite deliver_states by (intros t I; apply R; unfold xml_lines; cbn [app flat_map]; rewrite !in_app_iff, flat_map_app, in_app_iff; tauto).
  unfold doc_events, header_elts, written_segment, segment_events, els, meta_elts, written_attrs. cbn [flat_map app qual xmeta xvectors].
  repeat (progress (rewrite ?app_nil_r, <- ?app_assoc; cbn [app])). reflexivity.
Qed.
Lemma elt_plain k a t : forallb (fun c => negb (c =? 58)) (lit k) = true -> str_eqb (lit k) (lit "oem") = false -> str_eqb (lit k) (lit "segment") = false -> str_eqb (lit k) (lit "stateVector") = false -> plain (elt k a t).
Proof.
  intros C A B D. unfold plain, elt, key. cbn [fst]. split; [now apply no_colon|].
  repeat split; intros E; rewrite E in *; match goal with H : str_eqb ?l ?l = false |- _ => vm_compute in H; discriminate H end.
Qed.
Lemma header_plain : Forall plain header_elts. Proof. repeat constructor; apply elt_plain; reflexivity. Qed.
Lemma segment_plain m f l ss : plain_segment (written_segment m f l ss).
Proof.
  split; cbn [written_segment xmeta xvectors]; [unfold meta_elts; repeat (constructor; [apply elt_plain; reflexivity|]); constructor|].
  apply Forall_map, Forall_forall. intros s _. unfold state_elts. repeat (constructor; [apply elt_plain; reflexivity|]). constructor.
Qed.
(** What a written document says, however its texts are cut into runs *)
Theorem read_written m f l ss file : all_resolved (xml_lines bad_date m f l ss) ->
  (read_oem_xml (delivered chars (xml_lines bad_date m f l ss)) = Ok file <-> doc_is written_attrs header_elts [written_segment m f l ss] file).
Proof.
  intros R. rewrite (delivered_doc m f l ss R). apply read_doc_iff; [exact header_plain|]. constructor; [apply segment_plain|constructor].
Qed.
Lemma read_written_fun m f l ss : all_resolved (xml_lines bad_date m f l ss) ->
  read_oem_xml (delivered chars (xml_lines bad_date m f l ss)) =
    (s <- segment_of (written_segment m f l ss) ;; Ok (Oem (lit "3.0") (or_told (sayings header_elts) "CREATION_DATE" []) (or_told (sayings header_elts) "ORIGINATOR" []) [s])).
Proof.
  intros R. rewrite (delivered_doc m f l ss R), read_doc; [|exact header_plain|constructor; [apply segment_plain|constructor]].
  cbn [segments_of]. destruct (segment_of (written_segment m f l ss)); reflexivity.
Qed.
(** one run for each element with text, nothing for an empty one *)
Definition faithful : Prop := forall s, tight s -> chars (xml_escape s) = [Some s].
Lemma faithful_sober : faithful -> forall t, t <> [] -> sober t = true -> chars t = [Some t].
Proof. intros F t N S. destruct (sober_tight t N S) as (T & E). rewrite <- E at 1. now apply F. Qed.
Hypothesis chars_sober : forall t, t <> [] -> sober t = true -> chars t = [Some t].
Lemma chars_fixed p f : chars (fmt_fixedF p f) = [Some (fmt_fixedF p f)].
Proof. apply chars_sober; [apply fixed_nonempty|apply sober_fixed]. Qed.
Lemma chars_iso f : in_calendar f -> chars (iso bad_date f) = [Some (iso bad_date f)].
Proof.
  intros (q & -> & L & _). cbn [iso]. apply chars_sober; [|now apply sober_iso]. destruct (iso_head q L) as (c & t & -> & _). discriminate.
Qed.
Lemma resolved_one t : resolved [Some t]. Proof. constructor; [discriminate|constructor]. Qed.
Lemma all_resolved_written m f l ss : Forall (fun n => resolved (chars (xml_escape n))) [object_id m; object_name m; ref_frame m; time_system m; center_name m] ->
  in_calendar (epoch_jd f) -> in_calendar (epoch_jd l) -> Forall (fun s => in_calendar (epoch_jd s)) ss -> all_resolved (xml_lines bad_date m f l ss).
Proof.
  intros N Cf Cl C t I. assert (N' : forall n, In n [object_id m; object_name m; ref_frame m; time_system m; center_name m] -> resolved (chars (xml_escape n))) by (now apply Forall_forall).
  unfold xml_lines in I. rewrite !flat_map_app, !in_app_iff in I. destruct I as [I|[I|I]].
  - cbn [flat_map leaf tag untag snd app In] in I. repeat destruct I as [I|I]; try discriminate I; try contradiction; injection I as <-;
      first [apply N'; cbn [In]; tauto|rewrite chars_iso by assumption; apply resolved_one|rewrite chars_sober by (first [discriminate|reflexivity]); apply resolved_one].
  - apply in_flat_map in I as (ln & I & J). apply in_flat_map in I as (s & Is & I). rewrite Forall_forall in C. specialize (C s Is).
    unfold state_lines in I. cbn [In] in I. repeat destruct I as [<-|I]; try contradiction; cbn [tag untag leaf snd In] in J; repeat destruct J as [J|J]; try discriminate J; try contradiction; injection J as <-;
      first [rewrite chars_fixed; apply resolved_one|rewrite chars_iso by assumption; apply resolved_one].
  - cbn [flat_map leaf tag untag snd app In] in I. repeat destruct I as [I|I]; try discriminate I; contradiction.
Qed.
Lemma says_at a k v b : Forall (fun e => fst e <> lit k) b -> says_last (a ++ (lit k, v) :: b) k v.
Proof. intros N. exists a, (lit k, v), b. auto. Qed.
Lemma told_num read l k t f : told l (lit k) = Some t -> read t = Some f -> says_num read l k f.
Proof. intros T R. exists t. split; [now apply told_some|exact R]. Qed.
Lemma vector_back s : in_calendar (epoch_jd s) -> exists t, vector_is (state_elts s) t /\ like t s.
Proof.
  intros C. pose proof (chars_iso _ C) as CI. destruct C as (q & E & L & U). destruct (iso_back q L U) as (jd & J & Nj).
  destruct (fixed6 (x s)) as (x' & Px & Nx). destruct (fixed6 (y s)) as (y' & Py & Ny). destruct (fixed6 (z s)) as (z' & Pz & Nz).
  destruct (fixed9 (vx s)) as (u' & Pu & Nu). destruct (fixed9 (vy s)) as (v' & Pv & Nv). destruct (fixed9 (vz s)) as (w' & Pw & Nw).
  exists (State (Fin jd) x' y' z' u' v' w'). split.
  - assert (Sy : sayings (state_elts s) = [(lit "EPOCH", iso bad_date (epoch_jd s)); (lit "X", fmt_fixedF 6 (x s)); (lit "Y", fmt_fixedF 6 (y s)); (lit "Z", fmt_fixedF 6 (z s));
      (lit "X_DOT", fmt_fixedF 9 (vx s)); (lit "Y_DOT", fmt_fixedF 9 (vy s)); (lit "Z_DOT", fmt_fixedF 9 (vz s))]).
    { unfold state_elts, elt. rewrite CI, !chars_fixed. reflexivity. }
    unfold vector_is. rewrite Sy. cbn [epoch_jd Oem_Model.x Oem_Model.y Oem_Model.z Oem_Model.vx Oem_Model.vy Oem_Model.vz].
    repeat split; (eapply told_num; [unfold told; cbn [fold_left fst snd]; lits; reflexivity|]); try assumption. rewrite E. exact J.
  - unfold like. cbn [epoch_jd Oem_Model.x Oem_Model.y Oem_Model.z Oem_Model.vx Oem_Model.vy Oem_Model.vz]. split; [exists jd, q; auto|]. repeat split; assumption.
Qed.
Lemma vectors_back ss : Forall (fun s => in_calendar (epoch_jd s)) ss -> exists ts, Forall2 vector_is (map state_elts ss) ts /\ Forall2 like ts ss.
Proof.
  induction 1 as [|s ss C _ (ts & A & B)]; [exists []; split; constructor|]. destruct (vector_back s C) as (t & V & K). exists (t :: ts). split; constructor; assumption.
Qed.
Lemma header_date : or_told (sayings header_elts) "CREATION_DATE" [] = lit "2026-01-01T00:00:00" /\ or_told (sayings header_elts) "ORIGINATOR" [] = lit "SIDERUST-POD".
Proof. unfold header_elts, elt. rewrite !chars_sober by (first [discriminate|reflexivity]). split; reflexivity. Qed.
(** the last run of a name decides *)
Lemma names_back m n f l ss :
  Forall2 (fun a b => resolved (chars (xml_escape a)) /\ last (texts_of (chars (xml_escape a))) [] = b /\ texts_of (chars (xml_escape a)) <> [])
    [object_id m; object_name m; ref_frame m; time_system m; center_name m] [object_id n; object_name n; ref_frame n; time_system n; center_name n] ->
  in_calendar (epoch_jd f) -> in_calendar (epoch_jd l) -> Forall (fun s => in_calendar (epoch_jd s)) ss ->
  exists ts, read_oem_xml (delivered chars (xml_lines bad_date m f l ss)) = Ok (written_file n ts) /\ Forall2 like ts ss.
Proof.
  intros N Cf Cl C. destruct (vectors_back ss C) as (ts & V & K). exists ts. split; [|exact K].
  rewrite read_written_fun.
  2:{ apply all_resolved_written; [|assumption..]. clear -N. revert N. generalize [object_id n; object_name n; ref_frame n; time_system n; center_name n]. intros ns N. induction N as [|a b la lb (A & _) _ IH]; constructor; assumption. }
  destruct header_date as (-> & ->). rewrite (proj2 (segment_of_iff _ (Segment n ts))); [reflexivity|].
  unfold segment_is, written_segment. cbn [xmeta xvectors meta states].
  assert (G : forall k, forall a rs b, rs <> [] -> Forall (fun e => key e <> lit k) b -> says_last (sayings (a ++ (lit k, [], rs) :: b)) k (last rs [])).
  { intros k a rs b R B. destruct (exists_last R) as (u & v & ->). rewrite last_last. unfold sayings. rewrite flat_map_app. cbn [flat_map key fst snd]. rewrite map_app. cbn [map].
    rewrite <- app_assoc, app_assoc. cbn [app]. apply says_at. apply Forall_forall. intros q I. apply in_flat_map in I as (e & Ie & I). apply in_map_iff in I as (w & <- & _). cbn [fst].
    rewrite Forall_forall in B. now apply B. }
  inversion N as [|? ? ? ? (_ & N1 & M1) N1']; subst. inversion N1' as [|? ? ? ? (_ & N2 & M2) N2']; subst. inversion N2' as [|? ? ? ? (_ & N3 & M3) N3']; subst.
  inversion N3' as [|? ? ? ? (_ & N4 & M4) N4']; subst. inversion N4' as [|? ? ? ? (_ & N5 & M5) N5']; subst. clear N N1' N2' N3' N4' N5'.
  rewrite <- N1, <- N2, <- N3, <- N4, <- N5. unfold meta_elts, elt.
  assert (D : forall a b : string, str_eqb (lit a) (lit b) = false -> lit a <> lit b) by (intros a b H; destruct (str_eqb_spec (lit a) (lit b)); congruence).
  repeat split; [apply (G "OBJECT_ID"%string [_])|apply (G "OBJECT_NAME"%string [])|apply (G "REF_FRAME"%string [_; _; _])|apply (G "TIME_SYSTEM"%string [_; _; _; _])|apply (G "CENTER_NAME"%string [_; _])|exact V];
    try assumption; repeat (constructor; [unfold key; cbn [fst]; apply D; reflexivity|]); constructor.
Qed.
Lemma last_cal ss (s : state) : Forall (fun s => in_calendar (epoch_jd s)) (s :: ss) -> in_calendar (epoch_jd (last (s :: ss) s)).
Proof. intros C. rewrite Forall_forall in C. apply C. apply last_in. discriminate. Qed.
Theorem xml_back m ss : faithful -> Forall tight [object_id m; object_name m; ref_frame m; time_system m; center_name m] -> ss <> [] -> Forall (fun s => in_calendar (epoch_jd s)) ss ->
  exists ls ts, write_items bad_date m ss = Ok ls /\ read_oem_xml (delivered chars ls) = Ok (written_file m ts) /\ Forall2 like ts ss.
Proof.
  intros F T N C. destruct ss as [|s ss]; [contradiction|]. cbn [write_items].
  destruct (names_back m m s (last (s :: ss) s) (s :: ss)) as (ts & R & K).
  - repeat match goal with H : Forall _ (_ :: _) |- Forall2 _ _ _ => idtac end. inversion_clear T as [|? ? T1 T']. inversion_clear T' as [|? ? T2 T'']. inversion_clear T'' as [|? ? T3 T']. inversion_clear T' as [|? ? T4 T''].
    inversion_clear T'' as [|? ? T5 _]. repeat (constructor; [rewrite F by assumption; split; [apply resolved_one|split; [reflexivity|discriminate]]|]). constructor.
  - now inversion C.
  - now apply last_cal.
  - exact C.
  - eauto.
Qed.
Theorem xml_blank m ss ls : Exists (fun n => chars (xml_escape n) = []) [object_id m; object_name m; ref_frame m; time_system m; center_name m] ->
  Forall (fun n => resolved (chars (xml_escape n))) [object_id m; object_name m; ref_frame m; time_system m; center_name m] ->
  Forall (fun s => in_calendar (epoch_jd s)) ss -> write_items bad_date m ss = Ok ls -> exists k, read_oem_xml (delivered chars ls) = Err (NoMeta k).
Proof.
  intros B R C W. destruct ss as [|s ss]; [discriminate|]. cbn [write_items] in W. injection W as <-. rewrite read_written_fun.
  2:{ apply all_resolved_written; [exact R|now inversion C|now apply last_cal|exact C]. }
  destruct (vectors_back _ C) as (ts & V & _). unfold segment_of, written_segment. cbn [xvectors xmeta].
  rewrite (proj2 (vectors_of_iff _ ts) V). cbn [obind].
  set (l := meta_elts _ _ _). assert (M : forall n, meta_of l <> Ok n).
  { intros n E. apply meta_of_iff in E as (E1 & E2 & E3 & E4 & E5). rewrite <- told_some in *.
    assert (Z : forall k a b, Forall (fun e => key e <> lit k) a -> Forall (fun e => key e <> lit k) b -> told (sayings (a ++ (lit k, [], []) :: b)) (lit k) = None).
    { intros k a b A D. apply told_none. apply Forall_forall. intros q I. apply in_flat_map in I as (e & Ie & I). apply in_map_iff in I as (w & <- & Iw). cbn [fst].
      rewrite Forall_forall in A, D. apply in_app_or in Ie as [Ie|[<-|Ie]]; [now apply A|destruct Iw|now apply D]. }
    assert (D : forall a b : string, str_eqb (lit a) (lit b) = false -> lit a <> lit b) by (intros a b H; destruct (str_eqb_spec (lit a) (lit b)); congruence).
    unfold l, meta_elts, elt in *. 
    repeat match goal with H : Exists _ (_ :: _) |- _ => inversion H; clear H; subst | H : Exists _ [] |- _ => inversion H end;
    match goal with H : chars (xml_escape (?g m)) = [] |- _ => rewrite H in * end; cbn [texts_of flat_map] in *.
    - match type of E1 with ?t = _ => assert (W : t = None); [apply (Z "OBJECT_ID"%string [_])|congruence] end; repeat (constructor; [unfold key; cbn [fst]; apply D; reflexivity|]); constructor.
    - match type of E2 with ?t = _ => assert (W : t = None); [apply (Z "OBJECT_NAME"%string [])|congruence] end; repeat (constructor; [unfold key; cbn [fst]; apply D; reflexivity|]); constructor.
    - match type of E3 with ?t = _ => assert (W : t = None); [apply (Z "REF_FRAME"%string [_; _; _])|congruence] end; repeat (constructor; [unfold key; cbn [fst]; apply D; reflexivity|]); constructor.
    - match type of E4 with ?t = _ => assert (W : t = None); [apply (Z "TIME_SYSTEM"%string [_; _; _; _])|congruence] end; repeat (constructor; [unfold key; cbn [fst]; apply D; reflexivity|]); constructor.
    - match type of E5 with ?t = _ => assert (W : t = None); [apply (Z "CENTER_NAME"%string [_; _])|congruence] end; repeat (constructor; [unfold key; cbn [fst]; apply D; reflexivity|]); constructor. }
  unfold meta_of, finish_xmeta in *. revert M. generalize (fold_left set_m (sayings l) empty_builder). intros b M.
  destruct (b_id b); cbn [mneed obind] in *; [|eauto]. destruct (b_name b); cbn [mneed obind] in *; [|eauto]. destruct (b_frame b); cbn [mneed obind] in *; [|eauto].
  destruct (b_time b); cbn [mneed obind] in *; [|eauto]. destruct (b_center b); cbn [mneed obind] in *; [|eauto]. now destruct (M _ eq_refl).
Qed.
End Written.
