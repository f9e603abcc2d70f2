(** Written ephemeris files read back; blocks that are skipped take data with them. *)
From Coq Require Import Ascii String List NArith ZArith Bool QArith Qabs Lia Lqa.
From Verif Require Import Base Text DecFloat Omm_Model Omm_Proofs Pck_Model Ik_Proofs Ctx_Proofs Kvn_Proofs Sp3_Model Sp3_Write Lsk_Spec Oem_Model Cal_Proofs Oem_Epoch Oem_Proofs.
Import ListNotations.
Local Open Scope N_scope.
Local Open Scope list_scope.

(** ** Trimming *)
Lemma trim_start_keep w c s : is_ws c = false -> trim_start (w ++ c :: s) = trim_start w ++ c :: s.
Proof. intros H. induction w as [|a w IH]; cbn [app trim_start]; [now rewrite H|]. destruct (is_ws a); [exact IH|reflexivity]. Qed.
Lemma trim_end_keep s c w : is_ws c = false -> trim_end (s ++ c :: w) = s ++ c :: trim_end w.
Proof.
  intros H. unfold trim_end. rewrite rev_app_distr. cbn [rev]. rewrite <- app_assoc. cbn [app]. rewrite trim_start_keep by exact H.
  rewrite rev_app_distr. cbn [rev]. rewrite rev_involutive, <- app_assoc. reflexivity.
Qed.
Lemma prefix_split (u w p r : str) : u ++ w = p ++ r -> (exists r', u = p ++ r') \/ exists q, p = u ++ q.
Proof.
  revert p. induction u as [|a u IH]; intros p E; [right; exists p; reflexivity|]. destruct p as [|b p]; [left; exists (a :: u); reflexivity|]. cbn [app] in E. injection E as -> E.
  destruct (IH _ E) as [(r' & ->)|(q & ->)]; [left; now exists r'|right; now exists q].
Qed.
(** A written line about a key *)
Lemma key_line k n v : k <> [] -> solid k -> ~ In 61 k -> starts_with (lit "COMMENT") (k ++ repeat 32 n ++ [61]) = false -> (0 < n)%nat -> solid v ->
  says (k ++ repeat 32 n ++ [61; 32] ++ v) k v.
Proof.
  intros K0 K1 K2 K3 N V. destruct K1 as [->|(K1 & K1')]; [congruence|].
  assert (T : trim (k ++ repeat 32 n ++ [61; 32] ++ v) = (k ++ repeat 32 n) ++ 61 :: trim_end (32 :: v)).
  { unfold trim. rewrite trim_start_app_solid by assumption. rewrite app_assoc. cbn [app]. now apply trim_end_keep. }
  split.
  - rewrite T. set (w := trim_end (32 :: v)). clearbody w. destruct (starts_with _ ((k ++ repeat 32 n) ++ 61 :: w)) eqn:S; [|reflexivity]. exfalso.
    apply starts_with_spec in S as (r & S). change (61 :: w) with ([61] ++ w) in S. rewrite app_assoc, <- (app_assoc k) in S. pose proof (prefix_split _ _ _ _ S) as L.
    destruct L as [(r' & H)|(q & H)].
    + rewrite (proj2 (starts_with_spec _ _)) in K3 by eauto. discriminate.
    + assert (X : In 61 (lit "COMMENT")) by (rewrite H; apply in_or_app; left; apply in_or_app; right; apply in_or_app; right; now left).
      cbn in X. repeat destruct X as [X|X]; first [discriminate X|exact X].
  - exists (k ++ repeat 32 n), (trim_end (32 :: v)). split; [exact T|]. split.
    + intros I. apply in_app_or in I as [I|I]; [exact (K2 I)|]. apply repeat_spec in I. discriminate.
    + split.
      * unfold trim. rewrite trim_start_app_solid, trim_end_spaces by assumption. now apply trim_end_id.
      * destruct V as [->|(V & V')]; [reflexivity|]. destruct v as [|c v]; [reflexivity|]. rewrite trim_end_id by exact V'. unfold trim. change (trim_start (32 :: c :: v)) with (trim_start (c :: v)). apply trim_solid. now right.
Qed.
Ltac key_ok := match goal with
  | |- says (?p ++ ?v) (lit ?k) ?v =>
      let n := eval vm_compute in (length p - length (lit k) - 2)%nat in
      change (says (lit k ++ repeat 32 n ++ [61; 32] ++ v) (lit k) v); apply key_line;
      [discriminate|right; split; reflexivity|no_eq|reflexivity|lia|]
  end.

(** ** Printed dates are words *)
Lemma inked_pad0 w n : inked (pad0 w n) = true. Proof. apply inked_digits, pad0_digit. Qed.
Lemma inked_pad0_fixed w p v : (0 <= v)%Q -> inked (pad0_fixed w p v) = true.
Proof.
  intros V. unfold inked. apply forallb_forall. intros c I. destruct (pad0_fixed_chars _ _ _ _ V I) as [D| ->]; [|reflexivity]. now rewrite (digit_not_ws _ D).
Qed.
Lemma iso_inked jd : (first_day <= jd)%Q -> inked (jd_to_iso jd) = true.
Proof.
  intros H. destruct (iso_shape jd H) as (y & m & d & h & mi & sec & -> & _ & _ & _ & _ & (S & _) & _).
  rewrite !inked_app, !inked_pad0, (inked_pad0_fixed 9 6 sec S). reflexivity.
Qed.
Lemma iso_head jd : (first_day <= jd)%Q -> exists c t, jd_to_iso jd = c :: t /\ is_digit c = true.
Proof.
  intros H. destruct (iso_shape jd H) as (y & m & d & h & mi & sec & -> & _). pose proof (pad0_digit 4 (Z.to_N y)) as D. pose proof (pad0_nonempty 4 (Z.to_N y)) as N.
  destruct (pad0 4 (Z.to_N y)) as [|c t]; [congruence|]. cbn [app]. exists c, (t ++ 45 :: pad0 2 (Z.to_N m) ++ 45 :: pad0 2 (Z.to_N d) ++ 84 :: pad0 2 (Z.to_N h) ++ 58 :: pad0 2 (Z.to_N mi) ++ 58 :: pad0_fixed 9 6 sec).
  split; [reflexivity|]. cbn in D. now apply andb_prop in D as (D & _).
Qed.

(** ** Rows *)
Definition in_calendar (f : fnum) : Prop := exists q, f = Fin q /\ (first_day <= q)%Q /\ (q < 700000000000)%Q.
Definition finite (f : fnum) : Prop := exists q, f = Fin q.
Definition good_state (s : state) : Prop := in_calendar (epoch_jd s) /\ Forall finite [x s; y s; z s; vx s; vy s; vz s].
(** within half a microsecond *)
Definition same_instant (a b : fnum) : Prop := exists p q, a = Fin p /\ b = Fin q /\ (Qabs (p - q) * 86400 <= 1 # 2000000)%Q.
Definition near6 (a b : fnum) : Prop := near (1 # 2000000) a b.
Definition near9 (a b : fnum) : Prop := near (1 # 2000000000) a b.
Definition like (a b : state) : Prop :=
  same_instant (epoch_jd a) (epoch_jd b) /\ near6 (x a) (x b) /\ near6 (y a) (y b) /\ near6 (z a) (z b) /\ near9 (vx a) (vx b) /\ near9 (vy a) (vy b) /\ near9 (vz a) (vz b).
Lemma fixed6 f : exists g, parse_f64 (fmt_fixedF 6 f) = Some g /\ near6 g f.
Proof. destruct (fixed_near 6 f) as (g & P & N). exists g. split; [exact P|]. eapply near_le; [|exact N]. discriminate. Qed.
Lemma fixed9 f : exists g, parse_f64 (fmt_fixedF 9 f) = Some g /\ near9 g f.
Proof. destruct (fixed_near 9 f) as (g & P & N). exists g. split; [exact P|]. eapply near_le; [|exact N]. discriminate. Qed.
Section Written.
Variable bad_date : fnum -> str.
Notation data_line := (data_line bad_date).
Notation write_oem := (write_oem bad_date).
Lemma data_words s : in_calendar (epoch_jd s) -> trim (data_line s) = data_line s /\
  split_ws (data_line s) = [iso bad_date (epoch_jd s); fmt_fixedF 6 (x s); fmt_fixedF 6 (y s); fmt_fixedF 6 (z s); fmt_fixedF 9 (vx s); fmt_fixedF 9 (vy s); fmt_fixedF 9 (vz s)].
Proof.
  intros (q & E & L & U). unfold Oem_Model.data_line. rewrite E. cbn [iso].
  destruct (iso_head q L) as (c & t & Et & Dc). pose proof (iso_inked q L) as I. split.
  - apply trim_solid. right. split.
    + rewrite Et. cbn [app hd]. now apply digit_not_ws.
    + rewrite !app_assoc, last_app_r by apply fixed_nonempty. pose proof (inked_fixed 9 (vz s)) as F. apply (forallb_last _ _ 0) in F; [now apply negb_true_iff in F|apply fixed_nonempty].
  - cbn [app]. assert (N0 : jd_to_iso q <> []) by (rewrite Et; discriminate). rewrite (split_ws_word _ _ N0 I).
    rewrite !split_ws_word by (first [apply fixed_nonempty|apply inked_fixed]). rewrite split_ws_last by (first [apply fixed_nonempty|apply inked_fixed]). reflexivity.
Qed.
Lemma data_line_datum s : in_calendar (epoch_jd s) -> datum (data_line s) /\ ~ idle (data_line s) /\ ~ In 10 (data_line s).
Proof.
  intros C. destruct (data_words s C) as (T & _). destruct C as (q & E & L & U). destruct (iso_head q L) as (c & t & Et & Dc).
  assert (H : exists r, data_line s = c :: r) by (unfold Oem_Model.data_line; rewrite E; cbn [iso]; rewrite Et; cbn [app]; eauto). destruct H as (r & H).
  split; [|split].
  - unfold datum. rewrite T, H. repeat split; intros X; injection X as X _; subst c; discriminate Dc.
  - unfold idle. rewrite T, H. intros [X|(r' & X)]; [discriminate|]. injection X as X _. subst c. discriminate Dc.
  - unfold Oem_Model.data_line. rewrite E. cbn [iso]. pose proof (no_nl_inked _ (iso_inked q L)) as NI.
    repeat first [exact NI|apply no_nl_inked, inked_fixed|apply no_nl_app|cbn; intros [X|[]]; discriminate X].
Qed.
Lemma row_back s : good_state s -> exists t, row (data_line s) t /\ like t s.
Proof.
  intros (C & F). destruct (data_words s C) as (T & W). destruct C as (q & E & L & U). destruct (iso_back q L U) as (jd & J & Nj).
  destruct (fixed6 (x s)) as (x' & Px & Nx). destruct (fixed6 (y s)) as (y' & Py & Ny). destruct (fixed6 (z s)) as (z' & Pz & Nz).
  destruct (fixed9 (vx s)) as (u' & Pu & Nu). destruct (fixed9 (vy s)) as (v' & Pv & Nv). destruct (fixed9 (vz s)) as (w' & Pw & Nw).
  exists (State (Fin jd) x' y' z' u' v' w'). split.
  - exists (iso bad_date (epoch_jd s)), (fmt_fixedF 6 (x s)), (fmt_fixedF 6 (y s)), (fmt_fixedF 6 (z s)), (fmt_fixedF 9 (vx s)), (fmt_fixedF 9 (vy s)), (fmt_fixedF 9 (vz s)), [].
    rewrite T. split; [exact W|]. rewrite E. cbn [iso epoch_jd Oem_Model.x Oem_Model.y Oem_Model.z Oem_Model.vx Oem_Model.vy Oem_Model.vz].
    repeat (split; [assumption|]).
    repeat match goal with H : Forall _ (_ :: _) |- _ => inversion_clear H end. unfold finite in *.
    repeat match goal with H : exists q, ?f = Fin q |- _ => let p := fresh "p" in let e := fresh "e" in destruct H as (p & e); rewrite e in * end.
    unfold near6, near9, near in *. repeat (constructor; [match goal with H : exists x, ?a = Fin x /\ _ |- exists q, ?a = Fin q => let r := fresh in destruct H as (r & -> & _); exists r; reflexivity end|]). constructor.
  - unfold like. cbn [epoch_jd Oem_Model.x Oem_Model.y Oem_Model.z Oem_Model.vx Oem_Model.vy Oem_Model.vz]. split; [exists jd, q; auto|]. repeat split; assumption.
Qed.
Lemma rows_back ss : Forall good_state ss -> exists ts, rows (map data_line ss) ts /\ Forall2 like ts ss.
Proof.
  induction 1 as [|s ss Hs _ (ts & R & F)]; [exists []; split; constructor|]. destruct (row_back s Hs) as (t & Rt & Lt). exists (t :: ts). split; [|now constructor].
  cbn [map]. destruct (data_line_datum s (proj1 Hs)) as (_ & I & _). now constructor.
Qed.

(** ** The whole file *)
Definition good_meta (m : metadata) : Prop := Forall good_val [object_id m; object_name m; ref_frame m; time_system m; center_name m].
Definition header_lines : list str := [ lit "CCSDS_OEM_VERS = 3.0"; lit "CREATION_DATE  = 2026-01-01T00:00:00"; lit "ORIGINATOR     = SIDERUST-POD"; [] ].
Definition meta_lines (m : metadata) (a b : str) : list str :=
  [ lit "OBJECT_NAME          = " ++ object_name m; lit "OBJECT_ID            = " ++ object_id m;
    lit "CENTER_NAME          = " ++ center_name m; lit "REF_FRAME            = " ++ ref_frame m;
    lit "TIME_SYSTEM          = " ++ time_system m;
    lit "START_TIME           = " ++ a; lit "STOP_TIME            = " ++ b ].
Definition written_block (m : metadata) (a b : str) (ss : list state) : block :=
  Block (lit "META_START") (meta_lines m a b) (lit "META_STOP") ([] :: map data_line ss).
Lemma lines_shape m f l ss : oem_lines bad_date m f l ss =
  header_lines ++ flat_map block_lines [written_block m (iso bad_date (epoch_jd f)) (iso bad_date (epoch_jd l)) ss].
Proof. cbn [flat_map]. rewrite app_nil_r. reflexivity. Qed.
Lemma header_keyed : Forall keyed header_lines.
Proof.
  unfold header_lines. constructor; [|constructor; [|constructor; [|constructor; [|constructor]]]]; [right|right|right|left; now left].
  - exists (lit "CCSDS_OEM_VERS"), (lit "3.0"). change (lit "CCSDS_OEM_VERS = 3.0") with (lit "CCSDS_OEM_VERS = " ++ lit "3.0"). key_ok. right; split; reflexivity.
  - exists (lit "CREATION_DATE"), (lit "2026-01-01T00:00:00"). change (lit "CREATION_DATE  = 2026-01-01T00:00:00") with (lit "CREATION_DATE  = " ++ lit "2026-01-01T00:00:00"). key_ok. right; split; reflexivity.
  - exists (lit "ORIGINATOR"), (lit "SIDERUST-POD"). change (lit "ORIGINATOR     = SIDERUST-POD") with (lit "ORIGINATOR     = " ++ lit "SIDERUST-POD"). key_ok. right; split; reflexivity.
Qed.
Lemma meta_says m a b : good_meta m -> solid a -> solid b ->
  says (lit "OBJECT_NAME          = " ++ object_name m) (lit "OBJECT_NAME") (object_name m) /\
  says (lit "OBJECT_ID            = " ++ object_id m) (lit "OBJECT_ID") (object_id m) /\
  says (lit "CENTER_NAME          = " ++ center_name m) (lit "CENTER_NAME") (center_name m) /\
  says (lit "REF_FRAME            = " ++ ref_frame m) (lit "REF_FRAME") (ref_frame m) /\
  says (lit "TIME_SYSTEM          = " ++ time_system m) (lit "TIME_SYSTEM") (time_system m) /\
  says (lit "START_TIME           = " ++ a) (lit "START_TIME") a /\ says (lit "STOP_TIME            = " ++ b) (lit "STOP_TIME") b.
Proof.
  intros G A B. unfold good_meta in G. repeat match goal with H : Forall _ (_ :: _) |- _ => inversion_clear H end. unfold good_val in *.
  repeat match goal with |- says _ _ _ /\ _ => split end; key_ok; tauto.
Qed.
Lemma says_other l k v k' w : says l k v -> k <> k' -> ~ says l k' w.
Proof. intros S N S'. apply kv_line_says in S'. rewrite (says_kv _ _ _ S) in S'. destruct S' as [S'|[]]. congruence. Qed.
Lemma told_at ls a l b k v : ls = a ++ l :: b -> says l k v -> Forall (fun l' => exists k' v', says l' k' v' /\ k' <> k) b -> told_in ls k v.
Proof.
  intros E S F. exists l. split; [|exact S]. exists a, b. split; [exact E|]. split; [eauto|]. eapply Forall_impl; [|exact F].
  intros l' (k' & v' & S' & N) (w & Sw). exact (says_other _ _ _ _ _ S' N Sw).
Qed.
Lemma written_good m a b ss : good_meta m -> solid a -> solid b -> Forall (fun s => in_calendar (epoch_jd s)) ss -> good_block (written_block m a b ss).
Proof.
  intros G A B F. destruct (meta_says m a b G A B) as (S1 & S2 & S3 & S4 & S5 & S6 & S7). split; [reflexivity|]. split; [|split; [reflexivity|]].
  - cbn [b_meta written_block]. unfold meta_lines. repeat (constructor; [right; eauto|]). constructor.
  - cbn [b_data written_block]. constructor; [repeat split; discriminate|]. apply Forall_map. eapply Forall_impl; [|exact F]. intros s Hs. apply data_line_datum, Hs.
Qed.
Lemma written_is m a b ss ts : good_meta m -> solid a -> solid b -> rows (map data_line ss) ts -> block_is (written_block m a b ss) (Segment m ts).
Proof.
  intros G A B R. destruct (meta_says m a b G A B) as (S1 & S2 & S3 & S4 & S5 & S6 & S7). unfold block_is. cbn [meta states b_meta b_data written_block].
  unfold meta_lines. split; [|split; [|split; [|split; [|split]]]].
  - eapply (told_at _ [_] _ [_;_;_;_;_]); [reflexivity|exact S2|]. repeat (constructor; [eexists; eexists; split; [eassumption|discriminate]|]). constructor.
  - eapply (told_at _ [] _ [_;_;_;_;_;_]); [reflexivity|exact S1|]. repeat (constructor; [eexists; eexists; split; [eassumption|discriminate]|]). constructor.
  - eapply (told_at _ [_;_;_] _ [_;_;_]); [reflexivity|exact S4|]. repeat (constructor; [eexists; eexists; split; [eassumption|discriminate]|]). constructor.
  - eapply (told_at _ [_;_;_;_] _ [_;_]); [reflexivity|exact S5|]. repeat (constructor; [eexists; eexists; split; [eassumption|discriminate]|]). constructor.
  - eapply (told_at _ [_;_] _ [_;_;_;_]); [reflexivity|exact S3|]. repeat (constructor; [eexists; eexists; split; [eassumption|discriminate]|]). constructor.
  - constructor; [now left|exact R].
Qed.
Lemma iso_solid f : in_calendar f -> solid (iso bad_date f) /\ ~ In 10 (iso bad_date f).
Proof. intros (q & -> & L & U). cbn [iso]. apply inked_good, iso_inked, L. Qed.
Lemma lines_one m f l ss : good_meta m -> in_calendar (epoch_jd f) -> in_calendar (epoch_jd l) -> Forall (fun s => in_calendar (epoch_jd s)) ss ->
  split_nl (unlines (oem_lines bad_date m f l ss)) = oem_lines bad_date m f l ss.
Proof.
  intros G F L S. apply split_nl_lines. unfold oem_lines. apply Forall_app. split.
  - unfold good_meta in G. repeat match goal with H : Forall _ (_ :: _) |- _ => inversion_clear H end. unfold good_val, one_line in *.
    repeat (constructor; [first [no_eq|apply no_nl_app; [no_eq|first [tauto|apply iso_solid; assumption]]]|]). constructor.
  - apply Forall_map. eapply Forall_impl; [|exact S]. intros s Hs. apply data_line_datum, Hs.
Qed.
Lemma last_in {A} (l : list A) d : l <> [] -> In (last l d) l.
Proof. intros N. destruct (exists_last N) as (t & c & ->). rewrite last_last. apply in_or_app. right. now left. Qed.
Definition written_file (m : metadata) (ts : list state) : oem_file := Oem (lit "3.0") (lit "2026-01-01T00:00:00") (lit "SIDERUST-POD") [Segment m ts].
Lemma written_header f : told_or header_lines "CCSDS_OEM_VERS" (lit "unknown") f <-> f = lit "3.0".
Proof. rewrite <- or_else_spec. cbn. split; now intros <-. Qed.
Theorem oem_back m ss : good_meta m -> ss <> [] -> Forall good_state ss ->
  exists text ts, write_oem m ss = Ok text /\ read_oem text = Ok (written_file m ts) /\ Forall2 like ts ss.
Proof.
  intros G N F. destruct (rows_back ss F) as (ts & R & Lk). destruct ss as [|s0 ss]; [congruence|]. cbn [Oem_Model.write_oem]. eexists. exists ts. split; [reflexivity|]. split; [|exact Lk].
  assert (C : Forall (fun s => in_calendar (epoch_jd s)) (s0 :: ss)) by (eapply Forall_impl; [|exact F]; now intros s (? & _)).
  assert (C0 : in_calendar (epoch_jd s0)) by (now inversion C).
  assert (C1 : in_calendar (epoch_jd (last (s0 :: ss) s0))) by (rewrite Forall_forall in C; apply C, last_in; discriminate).
  rewrite read_oem_lines, lines_one, lines_shape by assumption. destruct (iso_solid _ C0) as (A0 & _). destruct (iso_solid _ C1) as (A1 & _).
  apply read_document; [exact header_keyed|constructor; [now apply written_good|constructor]|discriminate|].
  unfold file_is. cbn [version creation_date originator segments written_file]. split; [|split; [|split]].
  - rewrite <- or_else_spec. reflexivity.
  - rewrite <- or_else_spec. reflexivity.
  - rewrite <- or_else_spec. reflexivity.
  - constructor; [|constructor]. now apply written_is.
Qed.
(** The writer writes numbers that are not finite; the reader refuses them *)
Theorem oem_not_finite m ss s text : good_meta m -> Forall (fun s => in_calendar (epoch_jd s)) ss -> In s ss -> Exists (fun f => ~ finite f) [x s; y s; z s; vx s; vy s; vz s] ->
  write_oem m ss = Ok text -> forall f, read_oem text <> Ok f.
Proof.
  intros G C I E W f H. destruct ss as [|s0 ss]; [destruct I|]. assert (Et : text = unlines (oem_lines bad_date m s0 (last (s0 :: ss) s0) (s0 :: ss))) by (unfold Oem_Model.write_oem in W; congruence). subst text. clear W.
  assert (C0 : in_calendar (epoch_jd s0)) by (now inversion C).
  assert (C1 : in_calendar (epoch_jd (last (s0 :: ss) s0))) by (rewrite Forall_forall in C; apply C, last_in; discriminate).
  rewrite read_oem_lines, lines_one, lines_shape in H by assumption. destruct (iso_solid _ C0) as (A0 & _). destruct (iso_solid _ C1) as (A1 & _).
  apply read_document in H; [|exact header_keyed|constructor; [now apply written_good|constructor]|discriminate].
  destruct H as (_ & _ & _ & H). inversion H as [|? sg ? ? Hb]; subst. destruct Hb as (_ & _ & _ & _ & _ & R). cbn [b_data written_block] in R.
  assert (R' : exists ts, rows (map data_line (s0 :: ss)) ts) by (inversion R as [|? ? ? _ R1|? ? ? ? NI _ _]; subst; [eauto|exfalso; apply NI; now left]). clear R H A0 A1 C0 C1.
  destruct R' as (ts & R). revert ts R C I. generalize (s0 :: ss). clear ss s0. induction l as [|s1 l IH]; intros ts R C I; [destruct I|].
  inversion C as [|? ? Cs Cl]; subst. cbn [map] in R. destruct (data_line_datum s1 Cs) as (_ & NI & _). inversion R as [|? ? ? X|? ? t ts' _ Rw R']; subst; [contradiction|].
  destruct I as [->|I]; [|exact (IH _ R' Cl I)].
  destruct Rw as (e & a & b & c & d & g & h & rest & W & _ & Pa & Pb & Pc & Pd & Pg & Ph & Fn). destruct (data_words s Cs) as (T & Wd). rewrite T, Wd in W. injection W as <- <- <- <- <- <- <- <-.
  assert (K : forall p u v, parse_f64 (fmt_fixedF p u) = Some v -> finite v -> finite u).
  { intros p u v P (q & ->). destruct u as [q'|[]|]; [now exists q'|discriminate P|discriminate P|discriminate P]. }
  repeat match goal with H : Forall _ (_ :: _) |- _ => inversion_clear H end.
  repeat match goal with H : Exists _ (_ :: _) |- _ => inversion H; clear H; subst end;
  try match goal with H : Exists _ [] |- _ => inversion H end;
  match goal with H : ~ finite _ |- _ => apply H; eapply K; eassumption end.
Qed.
End Written.

(** ** Skipped blocks *)
Definition not_end (l : str) : Prop := trim l <> lit "COVARIANCE_STOP" /\ trim l <> lit "MAN_STOP".
Definition opens (l : str) : Prop := trim l = lit "COVARIANCE_START" \/ trim l = lit "MAN_START".
Definition closes (l : str) : Prop := trim l = lit "COVARIANCE_STOP" \/ trim l = lit "MAN_STOP".
Lemma steps_skip K : Forall not_end K -> forall a no, steps (with_mode a SkipBlock) K no = Ok (with_mode a SkipBlock).
Proof.
  induction 1 as [|l K (H1 & H2) _ IH]; intros a no; cbn [steps]; [reflexivity|]. unfold step. destruct (skipped (trim l)); [apply IH|]. cbn [with_mode a_mode].
  destruct (str_eqb_spec (trim l) (lit "COVARIANCE_STOP")); [contradiction|]. destruct (str_eqb_spec (trim l) (lit "MAN_STOP")); [contradiction|]. cbn [orb obind]. apply IH.
Qed.
Lemma step_opens a s l no : opens l -> step (with_mode a (InData s)) l no = Ok (with_mode a SkipBlock).
Proof.
  intros H. unfold step. assert (K : skipped (trim l) = false) by (destruct H as [H|H]; exact (not_idle_word _ _ H ltac:(discriminate) eq_refl)). rewrite K.
  cbn [with_mode a_mode]. destruct H as [-> | ->]; reflexivity.
Qed.
Lemma step_closes a l no : closes l -> step (with_mode a SkipBlock) l no =
  Ok (match rev (a_segs a) with s :: _ => with_segs a (empty_last (a_segs a)) (InData s) | [] => with_mode a Header end).
Proof.
  intros H. unfold step. assert (K : skipped (trim l) = false) by (destruct H as [H|H]; exact (not_idle_word _ _ H ltac:(discriminate) eq_refl)). rewrite K.
  cbn [with_mode a_mode a_segs]. destruct H as [-> | ->]; cbn [orb]; destruct (rev (a_segs a)); reflexivity.
Qed.
(** A file whose last segment ends with a covariance or manoeuvre block *)
Theorem block_loses Hs bs o K c ss s f : Forall keyed Hs -> Forall good_block bs -> bs <> [] -> opens o -> Forall not_end K -> closes c ->
  read_lines (Hs ++ flat_map block_lines bs) = Ok f -> segments f = ss ++ [s] ->
  read_lines (Hs ++ flat_map block_lines bs ++ [o] ++ K ++ [c]) =
    match rev ss with
    | [] => Err NoSegments
    | p :: r => Ok (Oem (version f) (creation_date f) (originator f) (rev r ++ [Segment (meta p) []; p]))
    end.
Proof.
  intros KH KB N Ho HK Hc R E. unfold read_lines in *. rewrite app_assoc, steps_app. apply obind_iff in R as (a & R & F). rewrite R. cbn [obind].
  rewrite steps_app, (steps_header _ KH) in R by reflexivity. cbn [obind] in R. apply (steps_blocks _ KB) in R as (ss' & s' & F2 & ->); [|now left|assumption].
  cbn [closed over_header a_mode a_segs app] in *. unfold finish in F. cbn [with_segs a_mode a_segs] in F. destruct (ss' ++ [s']) as [|z0 zs] eqn:Z; [destruct ss'; discriminate|].
  injection F as <-. cbn [segments version creation_date originator] in *. rewrite <- Z in E. apply app_inj_tail in E as (-> & ->).
  set (a0 := with_segs _ ss (InData s)). cbn [steps]. change a0 with (with_mode a0 (InData s)) at 1. rewrite (step_opens _ _ _ _ Ho). cbn [obind].
  rewrite steps_app, (steps_skip _ HK). cbn [obind steps]. rewrite (step_closes _ _ _ Hc). cbn [obind]. unfold a0. cbn [with_segs a_segs].
  unfold empty_last. destruct (rev ss) as [|p r] eqn:Er; [unfold finish; cbn [with_mode a_mode a_segs]; assert (ss = []) by (apply (f_equal (@rev segment)) in Er; rewrite rev_involutive in Er; exact Er); subst; reflexivity|].
  unfold finish. cbn [with_segs a_mode a_segs]. rewrite <- app_assoc. cbn [app]. destruct (rev r ++ [Segment (meta p) []; p]) eqn:Q; [destruct (rev r); discriminate|]. reflexivity.
Qed.
(** The reader never panics *)
Lemma step_np a l no : step a l no <> Panic.
Proof.
  unfold step. destruct (skipped (trim l)); [discriminate|]. destruct (a_mode a) as [|b|s|].
  - destruct (str_eqb _ _); [discriminate|]. unfold split_kv. destruct (split_once _ _) as [(k, v)|]; discriminate.
  - destruct (str_eqb _ _).
    + unfold finish_meta. destruct (b_id b), (b_name b), (b_frame b), (b_time b), (b_center b); discriminate.
    + unfold split_kv. destruct (split_once _ _) as [(k, v)|]; discriminate.
  - destruct (str_eqb _ _); [discriminate|]. destruct (_ || _); [discriminate|]. unfold parse_data_line. destruct (split_ws (trim l)) as [|e ws]; [discriminate|].
    assert (V : forall k, value_at (e :: ws) no k <> Panic) by (intros k; unfold value_at; destruct (nth_error _ k) as [w|]; [destruct (parse_f64 w) as [g|]; [destruct (is_finite g); discriminate|discriminate]|discriminate]).
    cbn zeta. repeat (match goal with |- context [value_at ?w ?n ?k] => let H := fresh in pose proof (V k) as H; destruct (value_at w n k); cbn [obind]; try discriminate; try congruence; clear H end).
    destruct (iso_to_jd e); discriminate.
  - destruct (_ || _); [|discriminate]. destruct (rev _); discriminate.
Qed.
Theorem read_oem_np text : read_oem text <> Panic.
Proof.
  rewrite read_oem_lines. unfold read_lines. assert (H : forall ls a no, steps a ls no <> Panic).
  { induction ls as [|l ls IH]; intros a no; cbn [steps]; [discriminate|]. pose proof (step_np a l no). destruct (step a l no); cbn [obind]; congruence. }
  pose proof (H (split_nl text) (Acc None None None [] Header) 0%nat) as P. destruct (steps _ _ _) as [a| |]; cbn [obind]; try congruence.
  unfold finish. destruct (match a_mode a with InData s => _ | _ => _ end); discriminate.
Qed.
