(** What the reader of orbit parameter messages accepts; written messages read back. *)
From Coq Require Import Ascii String List NArith ZArith Bool QArith Qabs Lia Lqa.
From Verif Require Import Base Text DecFloat Omm_Model Omm_Proofs Pck_Model Ik_Proofs Ctx_Proofs Kvn_Proofs Sp3_Model Sp3_Write Oem_Model Oem_Proofs Oem_Write Opm_Model.
Import ListNotations.
Local Open Scope N_scope.
Local Open Scope list_scope.

Lemma obind_iff {A B} (x : ores A) (k : A -> ores B) (b : B) : @eq (ores B) (obind x k) (Ok b) <-> exists a, @eq (ores A) x (Ok a) /\ @eq (ores B) (k a) (Ok b).
Proof. apply Kvn_Proofs.obind_iff. Qed.
Section Said.
Variable ls : list str.
(** the lines tell the number [v] of [k] *)
Definition told_number (k : string) (v : fnum) : Prop := exists s, told_in ls (lit k) s /\ parse_f64 s = Some v.
Definition kepler_told (o : option kepler) : Prop :=
  match o with
  | None => forall s, ~ told_in ls (lit "SEMI_MAJOR_AXIS") s
  | Some k => told_number "SEMI_MAJOR_AXIS" (k_a k) /\ told_number "ECCENTRICITY" (k_e k) /\ told_number "INCLINATION" (k_i k) /\
              told_number "RA_OF_ASC_NODE" (k_node k) /\ told_number "ARG_OF_PERICENTER" (k_peri k) /\ told_number "TRUE_ANOMALY" (k_nu k)
  end.
Definition opm_told (m : opm) : Prop :=
  told_in ls (lit "OBJECT_NAME") (object_name (o_meta m)) /\ told_or ls "OBJECT_ID" [] (object_id (o_meta m)) /\
  told_or ls "REF_FRAME" (lit "EME2000") (ref_frame (o_meta m)) /\ told_or ls "TIME_SYSTEM" (lit "UTC") (time_system (o_meta m)) /\
  told_or ls "CENTER_NAME" (lit "EARTH") (center_name (o_meta m)) /\ told_in ls (lit "EPOCH") (o_epoch m) /\
  told_number "X" (px m) /\ told_number "Y" (py m) /\ told_number "Z" (pz m) /\
  told_number "X_DOT" (ux m) /\ told_number "Y_DOT" (uy m) /\ told_number "Z_DOT" (uz m) /\ kepler_told (o_kepler m).
Notation kvs := (flat_map kv_line ls).
Lemma get_spec k v : get kvs k = Ok v <-> told_in ls (lit k) v.
Proof. rewrite <- kv_get_told_in. unfold get. destruct (kv_get _ _); split; congruence. Qed.
Lemma getf_spec k v : getf kvs k = Ok v <-> told_number k v.
Proof.
  unfold told_number, getf. destruct (kv_get kvs (lit k)) as [s|] eqn:E.
  - destruct (parse_f64 s) as [f|] eqn:P; split.
    + intros H. injection H as <-. exists s. split; [now apply kv_get_told_in|exact P].
    + intros (s' & T & P'). apply kv_get_told_in in T. congruence.
    + discriminate.
    + intros (s' & T & P'). apply kv_get_told_in in T. congruence.
  - split; [discriminate|]. intros (s' & T & _). apply kv_get_told_in in T. congruence.
Qed.
Lemma get_or_spec k d v : get_or kvs k d = v <-> told_or ls k d v.
Proof. rewrite <- or_else_spec. unfold get_or. destruct (kv_get kvs (lit k)); reflexivity. Qed.
Lemma kepler_spec o : kepler_of kvs = Ok o <-> kepler_told o.
Proof.
  unfold kepler_of. destruct (kv_get kvs (lit "SEMI_MAJOR_AXIS")) as [s|] eqn:E.
  - split.
    + intros H. apply obind_iff in H as (a & A & H). apply obind_iff in H as (e & Ee & H). apply obind_iff in H as (i & I & H). apply obind_iff in H as (n & Nn & H).
      apply obind_iff in H as (p & Pp & H). apply obind_iff in H as (t & T & H). injection H as <-. cbn. rewrite <- !getf_spec. auto 8.
    + destruct o as [k|]; cbn [kepler_told]; [|intros H; destruct (H s); now apply kv_get_told_in]. rewrite <- !getf_spec. intros (-> & -> & -> & -> & -> & ->). cbn [obind]. now destruct k.
  - split; [intros H; injection H as <-; intros s T; apply kv_get_told_in in T; congruence|].
    destruct o as [k|]; [|reflexivity]. cbn. intros ((s & T & _) & _). apply kv_get_told_in in T. congruence.
Qed.
Theorem opm_of_spec m : opm_of kvs = Ok m <-> opm_told m.
Proof.
  unfold opm_told, opm_of. rewrite <- !getf_spec, <- !get_or_spec, <- !get_spec, <- kepler_spec. split.
  - intros H. apply obind_iff in H as (n & Nn & H). cbn zeta in H. apply obind_iff in H as (ep & Ee & H). apply obind_iff in H as (x & X & H). apply obind_iff in H as (y & Y & H). apply obind_iff in H as (z & Z & H).
    apply obind_iff in H as (u & U & H). apply obind_iff in H as (v & V & H). apply obind_iff in H as (w & W & H). apply obind_iff in H as (k & K & H). injection H as <-.
    cbn [o_meta object_name object_id ref_frame time_system center_name o_epoch px py pz ux uy uz o_kepler]. auto 20.
  - intros (A & B & C & D & F & G & H1 & H2 & H3 & H4 & H5 & H6 & H7).
    rewrite A. cbn [obind]. rewrite G, H1, H2, H3, H4, H5, H6, H7. cbn [obind]. rewrite B, C, D, F. now destruct m as [[] ? ? ? ? ? ? ? ?].
Qed.
End Said.
Theorem read_opm_spec text m : read_opm text = Ok m <-> opm_told (split_nl text) m.
Proof. apply opm_of_spec. Qed.
Lemma get_np kv k : get kv k <> Panic. Proof. unfold get. destruct (kv_get _ _); discriminate. Qed.
Lemma getf_np kv k : getf kv k <> Panic. Proof. unfold getf. destruct (kv_get _ _); [destruct (parse_f64 _)|]; discriminate. Qed.
Lemma obind_np {A B} (x : ores A) (k : A -> ores B) : x <> Panic -> (forall a, k a <> Panic) -> obind x k <> Panic.
Proof. intros X K. destruct x; cbn [obind]; [apply K|discriminate|congruence]. Qed.
Theorem read_opm_np text : read_opm text <> Panic.
Proof.
  unfold read_opm, opm_of. generalize (flat_map kv_line (split_nl text)). intros kv.
  apply obind_np; [apply get_np|intros]. cbn zeta. apply obind_np; [apply get_np|intros]. do 6 (apply obind_np; [apply getf_np|intros]).
  apply obind_np; [|discriminate]. unfold kepler_of. destruct (kv_get _ _); [|discriminate]. do 6 (apply obind_np; [apply getf_np|intros]). discriminate.
Qed.

(** ** Round trip *)
Definition opm_good (m : opm) : Prop := good_meta (o_meta m) /\ good_val (o_epoch m).
Definition near7 (a b : fnum) : Prop := near (1 # 20000000) a b.
Definition near4 (a b : fnum) : Prop := near (1 # 20000) a b.
Definition like_kepler (a b : option kepler) : Prop :=
  match a, b with
  | None, None => True
  | Some a, Some b => near6 (k_a a) (k_a b) /\ near7 (k_e a) (k_e b) /\ near4 (k_i a) (k_i b) /\ near4 (k_node a) (k_node b) /\ near4 (k_peri a) (k_peri b) /\ near4 (k_nu a) (k_nu b)
  | _, _ => False
  end.
Definition like_opm (a b : opm) : Prop :=
  o_meta a = o_meta b /\ o_epoch a = o_epoch b /\ near6 (px a) (px b) /\ near6 (py a) (py b) /\ near6 (pz a) (pz b) /\
  near6 (ux a) (ux b) /\ near6 (uy a) (uy b) /\ near6 (uz a) (uz b) /\ like_kepler (o_kepler a) (o_kepler b).
Lemma fixed7 f : exists g, parse_f64 (fmt_fixedF 7 f) = Some g /\ near7 g f.
Proof. destruct (fixed_near 7 f) as (g & P & N). exists g. split; [exact P|]. eapply near_le; [|exact N]. discriminate. Qed.
Lemma fixed4 f : exists g, parse_f64 (fmt_fixedF 4 f) = Some g /\ near4 g f.
Proof. destruct (fixed_near 4 f) as (g & P & N). exists g. split; [exact P|]. eapply near_le; [|exact N]. discriminate. Qed.
Lemma solid_fixed p f : solid (fmt_fixedF p f). Proof. apply (inked_good _ (inked_fixed p f)). Qed.
Lemma one_fixed p f : ~ In 10 (fmt_fixedF p f). Proof. apply (inked_good _ (inked_fixed p f)). Qed.
Definition kepler_kvs (o : option kepler) : list (str * str) :=
  match o with
  | None => []
  | Some k => [ (lit "SEMI_MAJOR_AXIS", fmt_fixedF 6 (k_a k)); (lit "ECCENTRICITY", fmt_fixedF 7 (k_e k)); (lit "INCLINATION", fmt_fixedF 4 (k_i k));
                (lit "RA_OF_ASC_NODE", fmt_fixedF 4 (k_node k)); (lit "ARG_OF_PERICENTER", fmt_fixedF 4 (k_peri k)); (lit "TRUE_ANOMALY", fmt_fixedF 4 (k_nu k)) ]
  end.
Definition opm_kvs (m : opm) : list (str * str) :=
  [ (lit "CCSDS_OPM_VERS", lit "2.0"); (lit "OBJECT_NAME", object_name (o_meta m)); (lit "OBJECT_ID", object_id (o_meta m)); (lit "CENTER_NAME", center_name (o_meta m));
    (lit "REF_FRAME", ref_frame (o_meta m)); (lit "TIME_SYSTEM", time_system (o_meta m)); (lit "EPOCH", o_epoch m);
    (lit "X", fmt_fixedF 6 (px m)); (lit "Y", fmt_fixedF 6 (py m)); (lit "Z", fmt_fixedF 6 (pz m));
    (lit "X_DOT", fmt_fixedF 6 (ux m)); (lit "Y_DOT", fmt_fixedF 6 (uy m)); (lit "Z_DOT", fmt_fixedF 6 (uz m)) ] ++ kepler_kvs (o_kepler m).
Lemma opm_lines_kvs m : opm_good m -> flat_map kv_line (opm_lines m) = opm_kvs m.
Proof.
  intros (G & E). unfold good_meta in G. repeat match goal with H : Forall _ (_ :: _) |- _ => inversion_clear H end. unfold good_val in *.
  unfold opm_lines, opm_kvs. rewrite flat_map_app. f_equal.
  - cbn [flat_map].
    change (kv_line (lit "CCSDS_OPM_VERS = 2.0")) with [(lit "CCSDS_OPM_VERS", lit "2.0")]. change (kv_line (lit "META_START")) with (@nil (str * str)). change (kv_line (lit "META_STOP")) with (@nil (str * str)). change (kv_line []) with (@nil (str * str)).
    rewrite (says_kv (lit "OBJECT_NAME          = " ++ object_name (o_meta m)) (lit "OBJECT_NAME") (object_name (o_meta m))) by (key_ok; tauto).
    rewrite (says_kv (lit "OBJECT_ID            = " ++ object_id (o_meta m)) (lit "OBJECT_ID") (object_id (o_meta m))) by (key_ok; tauto).
    rewrite (says_kv (lit "CENTER_NAME          = " ++ center_name (o_meta m)) (lit "CENTER_NAME") (center_name (o_meta m))) by (key_ok; tauto).
    rewrite (says_kv (lit "REF_FRAME            = " ++ ref_frame (o_meta m)) (lit "REF_FRAME") (ref_frame (o_meta m))) by (key_ok; tauto).
    rewrite (says_kv (lit "TIME_SYSTEM          = " ++ time_system (o_meta m)) (lit "TIME_SYSTEM") (time_system (o_meta m))) by (key_ok; tauto).
    rewrite (says_kv (lit "EPOCH                = " ++ o_epoch m) (lit "EPOCH") (o_epoch m)) by (key_ok; tauto).
    rewrite (says_kv (lit "X                    = " ++ fmt_fixedF 6 (px m)) (lit "X") (fmt_fixedF 6 (px m))) by (key_ok; apply solid_fixed).
    rewrite (says_kv (lit "Y                    = " ++ fmt_fixedF 6 (py m)) (lit "Y") (fmt_fixedF 6 (py m))) by (key_ok; apply solid_fixed).
    rewrite (says_kv (lit "Z                    = " ++ fmt_fixedF 6 (pz m)) (lit "Z") (fmt_fixedF 6 (pz m))) by (key_ok; apply solid_fixed).
    rewrite (says_kv (lit "X_DOT                = " ++ fmt_fixedF 6 (ux m)) (lit "X_DOT") (fmt_fixedF 6 (ux m))) by (key_ok; apply solid_fixed).
    rewrite (says_kv (lit "Y_DOT                = " ++ fmt_fixedF 6 (uy m)) (lit "Y_DOT") (fmt_fixedF 6 (uy m))) by (key_ok; apply solid_fixed).
    rewrite (says_kv (lit "Z_DOT                = " ++ fmt_fixedF 6 (uz m)) (lit "Z_DOT") (fmt_fixedF 6 (uz m))) by (key_ok; apply solid_fixed).
    reflexivity.
  - destruct (o_kepler m) as [k|]; [|reflexivity]. cbn [flat_map kepler_kvs]. change (kv_line []) with (@nil (str * str)).
    rewrite (says_kv (lit "SEMI_MAJOR_AXIS      = " ++ fmt_fixedF 6 (k_a k)) (lit "SEMI_MAJOR_AXIS") (fmt_fixedF 6 (k_a k))) by (key_ok; apply solid_fixed).
    rewrite (says_kv (lit "ECCENTRICITY         = " ++ fmt_fixedF 7 (k_e k)) (lit "ECCENTRICITY") (fmt_fixedF 7 (k_e k))) by (key_ok; apply solid_fixed).
    rewrite (says_kv (lit "INCLINATION          = " ++ fmt_fixedF 4 (k_i k)) (lit "INCLINATION") (fmt_fixedF 4 (k_i k))) by (key_ok; apply solid_fixed).
    rewrite (says_kv (lit "RA_OF_ASC_NODE       = " ++ fmt_fixedF 4 (k_node k)) (lit "RA_OF_ASC_NODE") (fmt_fixedF 4 (k_node k))) by (key_ok; apply solid_fixed).
    rewrite (says_kv (lit "ARG_OF_PERICENTER    = " ++ fmt_fixedF 4 (k_peri k)) (lit "ARG_OF_PERICENTER") (fmt_fixedF 4 (k_peri k))) by (key_ok; apply solid_fixed).
    rewrite (says_kv (lit "TRUE_ANOMALY         = " ++ fmt_fixedF 4 (k_nu k)) (lit "TRUE_ANOMALY") (fmt_fixedF 4 (k_nu k))) by (key_ok; apply solid_fixed).
    reflexivity.
Qed.
Lemma opm_one_line m : opm_good m -> split_nl (write_opm m) = opm_lines m.
Proof.
  intros (G & E). apply split_nl_lines. unfold good_meta in G. repeat match goal with H : Forall _ (_ :: _) |- _ => inversion_clear H end. unfold good_val, one_line in *.
  unfold opm_lines. apply Forall_app. split.
  - repeat (constructor; [first [no_eq|apply no_nl_app; [no_eq|first [tauto|apply one_fixed]]]|]). constructor.
  - destruct (o_kepler m) as [k|]; [|constructor]. repeat (constructor; [first [no_eq|apply no_nl_app; [no_eq|apply one_fixed]]|]). constructor.
Qed.
Lemma getf_at kv k s v : kv_get kv (lit k) = Some s -> parse_f64 s = Some v -> getf kv k = Ok v.
Proof. unfold getf. now intros -> ->. Qed.
Theorem opm_back m : opm_good m -> exists m', read_opm (write_opm m) = Ok m' /\ like_opm m' m.
Proof.
  intros G. unfold read_opm. rewrite (opm_one_line m G), (opm_lines_kvs m G). clear G.
  destruct m as [[oid on rf ts cn] ep x y z u v w k]. destruct (fixed6 x) as (x' & Px & Nx). destruct (fixed6 y) as (y' & Py & Ny). destruct (fixed6 z) as (z' & Pz & Nz).
  destruct (fixed6 u) as (u' & Pu & Nu). destruct (fixed6 v) as (v' & Pv & Nv). destruct (fixed6 w) as (w' & Pw & Nw).
  destruct k as [[a e i n p t]|].
  - destruct (fixed6 a) as (a' & Pa & Na). destruct (fixed7 e) as (e' & Pe & Ne). destruct (fixed4 i) as (i' & Pi & Ni). destruct (fixed4 n) as (n' & Pn & Nn). destruct (fixed4 p) as (p' & Pp & Np). destruct (fixed4 t) as (t' & Pt & Nt).
    exists (Opm (Meta oid on rf ts cn) ep x' y' z' u' v' w' (Some (Kepler a' e' i' n' p' t'))). split; [|unfold like_opm; cbn; auto 20].
    set (kv := opm_kvs _). unfold opm_of, kepler_of, get, get_or.
    rewrite (getf_at kv "X" _ _ eq_refl Px), (getf_at kv "Y" _ _ eq_refl Py), (getf_at kv "Z" _ _ eq_refl Pz), (getf_at kv "X_DOT" _ _ eq_refl Pu), (getf_at kv "Y_DOT" _ _ eq_refl Pv), (getf_at kv "Z_DOT" _ _ eq_refl Pw).
    rewrite (getf_at kv "SEMI_MAJOR_AXIS" _ _ eq_refl Pa), (getf_at kv "ECCENTRICITY" _ _ eq_refl Pe), (getf_at kv "INCLINATION" _ _ eq_refl Pi), (getf_at kv "RA_OF_ASC_NODE" _ _ eq_refl Pn), (getf_at kv "ARG_OF_PERICENTER" _ _ eq_refl Pp), (getf_at kv "TRUE_ANOMALY" _ _ eq_refl Pt).
    reflexivity.
  - exists (Opm (Meta oid on rf ts cn) ep x' y' z' u' v' w' None). split; [|unfold like_opm; cbn; auto 20].
    set (kv := opm_kvs _). unfold opm_of, kepler_of, get, get_or.
    rewrite (getf_at kv "X" _ _ eq_refl Px), (getf_at kv "Y" _ _ eq_refl Py), (getf_at kv "Z" _ _ eq_refl Pz), (getf_at kv "X_DOT" _ _ eq_refl Pu), (getf_at kv "Y_DOT" _ _ eq_refl Pv), (getf_at kv "Z_DOT" _ _ eq_refl Pw).
    reflexivity.
Qed.
