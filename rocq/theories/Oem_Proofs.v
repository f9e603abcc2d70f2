(** What the ephemeris reader makes of a file, and what it loses. *)
From Coq Require Import Ascii String List NArith ZArith Bool QArith Qabs Lia.
From Verif Require Import Base Text DecFloat Omm_Model Omm_Proofs Pck_Model Ik_Proofs Ctx_Proofs Kvn_Proofs Sp3_Model Sp3_Write Oem_Model Oem_Epoch.
Import ListNotations.
Local Open Scope N_scope.
Local Open Scope list_scope.

Lemma obind_iff {A B} (x : res A) (k : A -> res B) (b : B) : @eq (res B) (obind x k) (Ok b) <-> exists a, @eq (res A) x (Ok a) /\ @eq (res B) (k a) (Ok b).
Proof. apply Kvn_Proofs.obind_iff. Qed.
(** ** Lines *)
(** A line without content: blank or a comment *)
Definition idle (l : str) : Prop := trim l = [] \/ exists r, trim l = lit "COMMENT" ++ r.
Lemma skipped_idle l : skipped (trim l) = true <-> idle l.
Proof.
  unfold idle. rewrite <- starts_with_spec. unfold skipped. destruct (trim l) as [|c t]; [split; auto|]. split; [auto|]. intros [H|H]; [discriminate|exact H].
Qed.
Definition idle_dec l : {idle l} + {~ idle l}.
Proof. destruct (skipped (trim l)) eqn:E; [left|right]; rewrite <- skipped_idle; congruence. Defined.
Lemma skipped_false l : ~ idle l -> skipped (trim l) = false.
Proof. rewrite <- skipped_idle. now destruct (skipped (trim l)). Qed.
Lemma says_not_idle l k v : says l k v -> ~ idle l.
Proof.
  intros (C & a & b & E & _) [H|(r & H)]; [rewrite H in E; destruct a; discriminate|].
  assert (X : starts_with (lit "COMMENT") (trim l) = true) by (apply starts_with_spec; eauto). congruence.
Qed.
Lemma idle_kv l : idle l -> kv_line l = [].
Proof. intros [H|(r & H)]; unfold kv_line; rewrite H; reflexivity. Qed.
Lemma says_kv l k v : says l k v -> kv_line l = [(k, v)].
Proof. intros S. apply kv_line_says in S. destruct (kv_line_one l) as [E|(k' & v' & E)]; rewrite E in *; [destruct S|]. destruct S as [S|[]]. now rewrite S. Qed.
Lemma says_split l k v no : says l k v -> split_kv (trim l) no = Ok (k, v).
Proof.
  intros (_ & a & b & E & N & <- & <-). unfold split_kv. rewrite (proj2 (split_once_spec 61 (trim l) a b)); [reflexivity|auto].
Qed.
Lemma split_says l no kv : ~ idle l -> split_kv (trim l) no = Ok kv -> says l (fst kv) (snd kv).
Proof.
  intros I. unfold split_kv. destruct (split_once 61 (trim l)) as [(a, b)|] eqn:E; [|discriminate]. apply split_once_spec in E as (E & N).
  intros X. injection X as <-. split; [|exists a, b; auto]. destruct (starts_with _ (trim l)) eqn:S; [|reflexivity]. destruct I. right. now apply starts_with_spec.
Qed.
Lemma kv_get_cons k v kvs key : kv_get ((k, v) :: kvs) key = match kv_get kvs key with Some w => Some w | None => if str_eqb k key then Some v else None end.
Proof.
  unfold kv_get. cbn [rev]. assert (F : forall l, find (fun e : str * str => str_eqb (fst e) key) (l ++ [(k, v)]) =
    match find (fun e => str_eqb (fst e) key) l with Some e => Some e | None => if str_eqb k key then Some (k, v) else None end).
  { induction l as [|e l IH]; cbn [app find fst]; [reflexivity|]. destruct (str_eqb (fst e) key); [reflexivity|exact IH]. }
  rewrite F. destruct (find _ (rev kvs)); [reflexivity|]. destruct (str_eqb k key); reflexivity.
Qed.

(** ** Running over lines *)
Lemma steps_app a l1 l2 no : steps a (l1 ++ l2) no = obind (steps a l1 no) (fun a' => steps a' l2 (no + length l1)).
Proof.
  revert a no. induction l1 as [|l t IH]; intros a no; cbn [app steps length].
  - cbn [obind]. now rewrite Nat.add_0_r.
  - destruct (step a l no) as [a'| |]; cbn [obind]; try reflexivity. rewrite IH. destruct (steps a' t (S no)); cbn [obind]; try reflexivity. f_equal. lia.
Qed.
Lemma step_idle a l no : idle l -> step a l no = Ok a.
Proof. intros H. unfold step. apply skipped_idle in H. now rewrite H. Qed.
(** A line of the header or of a metadata block *)
Definition keyed (l : str) : Prop := idle l \/ exists k v, says l k v.
Lemma says_not_word l k v w : ~ In 61 w -> says l k v -> str_eqb (trim l) w = false.
Proof.
  intros N (_ & a & b & E & _). destruct (str_eqb_spec (trim l) w) as [X|]; [|reflexivity]. exfalso. apply N. rewrite <- X, E. apply in_or_app. right. now left.
Qed.
Ltac no_eq := let H := fresh in cbn; intros H; repeat destruct H as [H|H]; first [discriminate H|exact H].
Definition or_o (a b : option str) : option str := match a with Some v => Some v | None => b end.
Definition over (kvs : list (str * str)) (b : builder) : builder :=
  B (or_o (kv_get kvs (lit "OBJECT_ID")) (b_id b)) (or_o (kv_get kvs (lit "OBJECT_NAME")) (b_name b)) (or_o (kv_get kvs (lit "REF_FRAME")) (b_frame b))
    (or_o (kv_get kvs (lit "TIME_SYSTEM")) (b_time b)) (or_o (kv_get kvs (lit "CENTER_NAME")) (b_center b)).
Lemma or_o_key k v kvs key o : or_o (kv_get ((k, v) :: kvs) key) o = or_o (kv_get kvs key) (if str_eqb k key then Some v else o).
Proof. rewrite kv_get_cons. destruct (kv_get kvs key); [reflexivity|]. cbn [or_o]. destruct (str_eqb k key); reflexivity. Qed.
Lemma set_meta_over k v kvs b : over kvs (set_meta b k v) = over ((k, v) :: kvs) b.
Proof.
  unfold over, set_meta. rewrite !or_o_key.
  destruct (str_eqb_spec k (lit "OBJECT_ID")) as [->|_]; [reflexivity|].
  destruct (str_eqb_spec k (lit "OBJECT_NAME")) as [->|_]; [reflexivity|].
  destruct (str_eqb_spec k (lit "REF_FRAME")) as [->|_]; [reflexivity|].
  destruct (str_eqb_spec k (lit "TIME_SYSTEM")) as [->|_]; [reflexivity|].
  destruct (str_eqb_spec k (lit "CENTER_NAME")) as [->|_]; [reflexivity|]. reflexivity.
Qed.
Lemma over_nil b : over [] b = b. Proof. now destruct b. Qed.
Lemma steps_meta M : Forall keyed M -> forall a b no, steps (with_mode a (InMeta b)) M no = Ok (with_mode a (InMeta (over (flat_map kv_line M) b))).
Proof.
  induction 1 as [|l M [H|(k & v & H)] _ IH]; intros a b no; cbn [steps flat_map].
  - now rewrite over_nil.
  - rewrite (step_idle _ _ _ H), (idle_kv _ H). cbn [obind app]. apply IH.
  - unfold step. rewrite (skipped_false _ (says_not_idle _ _ _ H)). cbn [with_mode a_mode].
    rewrite (says_not_word _ _ _ (lit "META_STOP") ltac:(no_eq) H), (says_split _ _ _ no H). cbn [obind fst snd].
    change (with_mode (Acc (a_version a) (a_date a) (a_orig a) (a_segs a) (InMeta b)) (InMeta (set_meta b k v))) with (with_mode a (InMeta (set_meta b k v))).
    rewrite IH, set_meta_over, (says_kv _ _ _ H). reflexivity.
Qed.
Definition over_header (kvs : list (str * str)) (a : acc) : acc :=
  Acc (or_o (kv_get kvs (lit "CCSDS_OEM_VERS")) (a_version a)) (or_o (kv_get kvs (lit "CREATION_DATE")) (a_date a)) (or_o (kv_get kvs (lit "ORIGINATOR")) (a_orig a)) (a_segs a) (a_mode a).
Lemma set_header_over k v kvs a : over_header kvs (set_header a k v) = over_header ((k, v) :: kvs) a.
Proof.
  unfold over_header, set_header. rewrite !or_o_key.
  destruct (str_eqb_spec k (lit "CCSDS_OEM_VERS")) as [->|_]; [reflexivity|].
  destruct (str_eqb_spec k (lit "CREATION_DATE")) as [->|_]; [reflexivity|].
  destruct (str_eqb_spec k (lit "ORIGINATOR")) as [->|_]; [reflexivity|]. reflexivity.
Qed.
Lemma steps_header Hs : Forall keyed Hs -> forall a no, a_mode a = Header -> steps a Hs no = Ok (over_header (flat_map kv_line Hs) a).
Proof.
  induction 1 as [|l M [H|(k & v & H)] _ IH]; intros a no E; cbn [steps flat_map].
  - now destruct a.
  - rewrite (step_idle _ _ _ H), (idle_kv _ H). cbn [obind app]. now apply IH.
  - unfold step. rewrite (skipped_false _ (says_not_idle _ _ _ H)), E.
    rewrite (says_not_word _ _ _ (lit "META_START") ltac:(no_eq) H), (says_split _ _ _ no H). cbn [obind fst snd].
    rewrite IH, set_header_over, (says_kv _ _ _ H); [reflexivity|]. unfold set_header. destruct (str_eqb _ _); [exact E|]. destruct (str_eqb _ _); [exact E|]. destruct (str_eqb _ _); exact E.
Qed.

(** ** Rows *)
(** A data row: a date and six finite numbers; further words do not matter *)
Definition row (l : str) (s : state) : Prop := exists e a b c d f g rest,
  split_ws (trim l) = e :: a :: b :: c :: d :: f :: g :: rest /\ iso_to_jd e = Some (epoch_jd s) /\
  parse_f64 a = Some (x s) /\ parse_f64 b = Some (y s) /\ parse_f64 c = Some (z s) /\
  parse_f64 d = Some (vx s) /\ parse_f64 f = Some (vy s) /\ parse_f64 g = Some (vz s) /\
  Forall (fun v => exists q, v = Fin q) [x s; y s; z s; vx s; vy s; vz s].
Lemma value_at_ok ws no k v : value_at ws no k = Ok v <-> exists w, nth_error ws k = Some w /\ parse_f64 w = Some v /\ exists q, v = Fin q.
Proof.
  unfold value_at. destruct (nth_error ws k) as [w|]; [|split; [discriminate|intros (? & ? & _); discriminate]].
  destruct (parse_f64 w) as [f|] eqn:P.
  - split.
    + intros H. exists w. split; [reflexivity|]. destruct f as [q|n|]; cbn [is_finite] in H; try discriminate. injection H as <-. split; [exact P|eauto].
    + intros (w' & E & P' & q' & ->). injection E as <-. rewrite P in P'. injection P' as ->. reflexivity.
  - split; [discriminate|]. intros (w' & E & P' & _). injection E as <-. congruence.
Qed.
Lemma data_row l no s : parse_data_line (trim l) no = Ok s <-> row l s.
Proof.
  unfold parse_data_line, row. destruct (split_ws (trim l)) as [|e ws] eqn:W.
  { split; [discriminate|]. intros (e & a & b & c & d & f & g & r & E & _). discriminate. }
  cbn zeta. split.
  - intros H. apply obind_iff in H as (a & A & H). apply obind_iff in H as (b & Bv & H). apply obind_iff in H as (c & C & H). apply obind_iff in H as (d & D & H).
    apply obind_iff in H as (f & F & H). apply obind_iff in H as (g & G & H).
    apply value_at_ok in A as (wa & A & Pa & Qa). apply value_at_ok in Bv as (wb & Bv & Pb & Qb). apply value_at_ok in C as (wc & C & Pc & Qc).
    apply value_at_ok in D as (wd & D & Pd & Qd). apply value_at_ok in F as (wf & F & Pf & Qf). apply value_at_ok in G as (wg & G & Pg & Qg).
    destruct (iso_to_jd e) as [jd|] eqn:J; [|discriminate]. injection H as <-. cbn [epoch_jd x y z vx vy vz].
    destruct ws as [|w1 [|w2 [|w3 [|w4 [|w5 [|w6 rest]]]]]]; try discriminate.
    cbn in A, Bv, C, D, F, G. injection A as ->. injection Bv as ->. injection C as ->. injection D as ->. injection F as ->. injection G as ->.
    exists e, wa, wb, wc, wd, wf, wg, rest. repeat (split; [first [reflexivity|assumption]|]). repeat constructor; assumption.
  - intros (e' & a & b & c & d & f & g & rest & E & J & Pa & Pb & Pc & Pd & Pf & Pg & Fn). injection E as <- ->.
    repeat match goal with H : Forall _ (_ :: _) |- _ => inversion_clear H end.
    apply obind_iff. exists (x s). split; [apply value_at_ok; exists a; auto|]. apply obind_iff. exists (y s). split; [apply value_at_ok; exists b; auto|].
    apply obind_iff. exists (z s). split; [apply value_at_ok; exists c; auto|]. apply obind_iff. exists (vx s). split; [apply value_at_ok; exists d; auto|].
    apply obind_iff. exists (vy s). split; [apply value_at_ok; exists f; auto|]. apply obind_iff. exists (vz s). split; [apply value_at_ok; exists g; auto|].
    rewrite J. now destruct s.
Qed.
(** The rows of a data block, idle lines apart *)
Inductive rows : list str -> list state -> Prop :=
| rows_nil : rows [] []
| rows_idle l ls ss : idle l -> rows ls ss -> rows (l :: ls) ss
| rows_row l ls s ss : ~ idle l -> row l s -> rows ls ss -> rows (l :: ls) (s :: ss).
(** A line of a data block: not one of the words that end it *)
Definition datum (l : str) : Prop := trim l <> lit "META_START" /\ trim l <> lit "COVARIANCE_START" /\ trim l <> lit "MAN_START".
Lemma step_datum a s l no : datum l -> ~ idle l -> step (with_mode a (InData s)) l no =
  obind (parse_data_line (trim l) no) (fun st => Ok (with_mode a (InData (Segment (meta s) (states s ++ [st]))))).
Proof.
  intros (H1 & H2 & H3) I. unfold step. rewrite (skipped_false _ I). cbn [with_mode a_mode].
  destruct (str_eqb_spec (trim l) (lit "META_START")); [contradiction|]. destruct (str_eqb_spec (trim l) (lit "COVARIANCE_START")); [contradiction|].
  destruct (str_eqb_spec (trim l) (lit "MAN_START")); [contradiction|]. reflexivity.
Qed.
Lemma steps_data D : Forall datum D -> forall a s no a',
  steps (with_mode a (InData s)) D no = Ok a' <-> exists ss, rows D ss /\ a' = with_mode a (InData (Segment (meta s) (states s ++ ss))).
Proof.
  induction 1 as [|l D Hl _ IH]; intros a s no a'; cbn [steps].
  - split.
    + intros E. injection E as <-. exists []. split; [constructor|]. rewrite app_nil_r. now destruct s.
    + intros (ss & R & ->). inversion_clear R. rewrite app_nil_r. now destruct s.
  - destruct (idle_dec l) as [I|I].
    + rewrite (step_idle _ _ _ I). cbn [obind]. rewrite IH. split; intros (ss & R & ->).
      * exists ss. split; [now constructor|reflexivity].
      * inversion R; subst; [eauto|contradiction].
    + rewrite (step_datum _ _ _ _ Hl I). rewrite obind_iff. split.
      * intros (a1 & E1 & E2). apply obind_iff in E1 as (st & P & E1). injection E1 as <-. apply IH in E2 as (ss & R & ->). apply data_row in P.
        exists (st :: ss). split; [now constructor|]. cbn [meta states]. rewrite <- app_assoc. reflexivity.
      * intros (ss & R & ->). inversion R as [|? ? ? I'|? ? st ss' _ Rw R']; subst; [contradiction|].
        exists (with_mode a (InData (Segment (meta s) (states s ++ [st])))). split.
        -- apply obind_iff. exists st. split; [now apply data_row|reflexivity].
        -- apply IH. exists ss'. split; [exact R'|]. cbn [meta states]. rewrite <- app_assoc. reflexivity.
Qed.

(** ** Documents *)
Record block := Block { b_start : str; b_meta : list str; b_stop : str; b_data : list str }.
Definition block_lines (b : block) : list str := b_start b :: b_meta b ++ b_stop b :: b_data b.
Definition good_block (b : block) : Prop :=
  trim (b_start b) = lit "META_START" /\ Forall keyed (b_meta b) /\ trim (b_stop b) = lit "META_STOP" /\ Forall datum (b_data b).
(** What a block says *)
Definition block_is (b : block) (s : segment) : Prop :=
  told_in (b_meta b) (lit "OBJECT_ID") (object_id (meta s)) /\ told_in (b_meta b) (lit "OBJECT_NAME") (object_name (meta s)) /\
  told_in (b_meta b) (lit "REF_FRAME") (ref_frame (meta s)) /\ told_in (b_meta b) (lit "TIME_SYSTEM") (time_system (meta s)) /\
  told_in (b_meta b) (lit "CENTER_NAME") (center_name (meta s)) /\ rows (b_data b) (states s).
Lemma need_spec ls k v : need (or_o (kv_get (flat_map kv_line ls) (lit k)) None) k = Ok v <-> told_in ls (lit k) v.
Proof. rewrite <- kv_get_told_in. destruct (kv_get _ _); cbn; split; congruence. Qed.
Lemma finish_spec M m : finish_meta (over (flat_map kv_line M) empty_builder) = Ok m <->
  told_in M (lit "OBJECT_ID") (object_id m) /\ told_in M (lit "OBJECT_NAME") (object_name m) /\ told_in M (lit "REF_FRAME") (ref_frame m) /\
  told_in M (lit "TIME_SYSTEM") (time_system m) /\ told_in M (lit "CENTER_NAME") (center_name m).
Proof.
  unfold finish_meta. cbn [over b_id b_name b_frame b_time b_center empty_builder]. rewrite <- !need_spec. split.
  - intros H. apply obind_iff in H as (i & -> & H). apply obind_iff in H as (n & -> & H). apply obind_iff in H as (f & -> & H).
    apply obind_iff in H as (t & -> & H). apply obind_iff in H as (c & -> & H). injection H as <-. cbn. auto.
  - intros (-> & -> & -> & -> & ->). cbn [obind]. now destruct m.
Qed.
Lemma not_idle_word l w : trim l = w -> w <> [] -> starts_with (lit "COMMENT") w = false -> skipped (trim l) = false.
Proof. intros -> N S. unfold skipped. destruct w; [congruence|exact S]. Qed.
(** A block read from the start: the mode before it is the header, or the data of the segment before *)
Definition closed (a : acc) : list segment := match a_mode a with InData s => a_segs a ++ [s] | _ => a_segs a end.
Definition at_start (a : acc) : Prop := a_mode a = Header \/ exists s, a_mode a = InData s.
Lemma step_start a l no : at_start a -> trim l = lit "META_START" -> step a l no = Ok (with_segs a (closed a) (InMeta empty_builder)).
Proof.
  intros A T. unfold step. rewrite (not_idle_word _ _ T ltac:(discriminate) eq_refl). rewrite T. unfold closed.
  destruct A as [E|(s & E)]; rewrite E; cbn [str_eqb]; destruct (str_eqb_spec (lit "META_START") (lit "META_START")) as [_|X]; try congruence; destruct a; cbn in *; subst; reflexivity.
Qed.
Lemma steps_block a b no a' : at_start a -> good_block b ->
  (steps a (block_lines b) no = Ok a' <-> exists s, block_is b s /\ a' = with_segs a (closed a) (InData s)).
Proof.
  intros A (S1 & M & S2 & D). unfold block_lines. cbn [steps]. rewrite (step_start _ _ _ A S1). cbn [obind].
  set (a1 := with_segs a (closed a) (InMeta empty_builder)). rewrite steps_app.
  change a1 with (with_mode a1 (InMeta empty_builder)) at 1. rewrite (steps_meta _ M). cbn [obind]. cbn [steps].
  set (no' := (S no + length (b_meta b))%nat).
  assert (St : forall n, step (with_mode a1 (InMeta (over (flat_map kv_line (b_meta b)) empty_builder))) (b_stop b) n =
    obind (finish_meta (over (flat_map kv_line (b_meta b)) empty_builder)) (fun m => Ok (with_mode a1 (InData (Segment m []))))).
  { intros n. unfold step. rewrite (not_idle_word _ _ S2 ltac:(discriminate) eq_refl), S2. cbn [with_mode a_mode].
    destruct (str_eqb_spec (lit "META_STOP") (lit "META_STOP")) as [_|X]; [reflexivity|congruence]. }
  rewrite St. clear St. split.
  - intros H. apply obind_iff in H as (a2 & E & H). apply obind_iff in E as (m & F & E). injection E as <-. apply finish_spec in F.
    apply (steps_data _ D) in H as (ss & R & ->). exists (Segment m ss). split; [unfold block_is; cbn [meta states]; tauto|]. reflexivity.
  - intros (s & (H1 & H2 & H3 & H4 & H5 & R) & ->). apply obind_iff. exists (with_mode a1 (InData (Segment (meta s) []))). split.
    + apply obind_iff. exists (meta s). split; [apply finish_spec; auto|reflexivity].
    + apply (steps_data _ D). exists (states s). split; [exact R|]. cbn [meta states app]. now destruct s.
Qed.
Lemma with_segs_twice a l m l' m' : with_segs (with_segs a l m) l' m' = with_segs a l' m'. Proof. reflexivity. Qed.
Lemma steps_blocks bs : Forall good_block bs -> forall a no a', at_start a -> bs <> [] ->
  (steps a (flat_map block_lines bs) no = Ok a' <-> exists ss s, Forall2 block_is bs (ss ++ [s]) /\ a' = with_segs a (closed a ++ ss) (InData s)).
Proof.
  induction 1 as [|b bs Hb Hbs IH]; intros a no a' A N; [congruence|]. cbn [flat_map]. rewrite steps_app, obind_iff. clear N.
  destruct bs as [|b' bs].
  - cbn [flat_map steps]. split.
    + intros (a1 & E1 & E2). injection E2 as <-. apply (steps_block _ _ _ _ A Hb) in E1 as (s & B1 & ->). exists [], s. split; [constructor; [exact B1|constructor]|]. now rewrite app_nil_r.
    + intros (ss & s & F & ->). inversion F as [|? s' ? l' B1 F' E1 E2]; subst. inversion F'; subst. destruct ss as [|? [|]]; try discriminate E2. injection E2 as ->.
      exists (with_segs a (closed a ++ []) (InData s)). split; [|reflexivity]. apply (steps_block _ _ _ _ A Hb). exists s. split; [exact B1|]. now rewrite app_nil_r.
  - split.
    + intros (a1 & E1 & E2). apply (steps_block _ _ _ _ A Hb) in E1 as (s & B1 & ->).
      apply IH in E2 as (ss & s' & F & ->); [|right; eexists; reflexivity|discriminate]. exists (s :: ss), s'. split; [constructor; assumption|].
      rewrite with_segs_twice. unfold closed at 1. cbn [with_segs a_mode a_segs]. rewrite <- app_assoc. reflexivity.
    + intros (ss & s & F & ->). inversion F as [|? s1 ? l' B1 F' E1 E2]; subst. destruct ss as [|s0 ss]; [inversion E2; subst; inversion F'|]. injection E2 as <- ->.
      exists (with_segs a (closed a) (InData s1)). split; [apply (steps_block _ _ _ _ A Hb); exists s1; auto|].
      apply IH; [right; eexists; reflexivity|discriminate|]. exists ss, s. split; [exact F'|]. rewrite with_segs_twice. unfold closed at 2. cbn [with_segs a_mode a_segs]. now rewrite <- app_assoc.
Qed.
Definition told_or (ls : list str) (k : string) (d v : str) : Prop := told_in ls (lit k) v \/ ((forall w, ~ told_in ls (lit k) w) /\ v = d).
Lemma or_else_spec ls k d v : or_else (or_o (kv_get (flat_map kv_line ls) (lit k)) None) d = v <-> told_or ls k d v.
Proof.
  unfold told_or. destruct (kv_get (flat_map kv_line ls) (lit k)) as [w|] eqn:E; cbn.
  - split; [intros <-; left; now apply kv_get_told_in|]. intros [H|(H & _)]; [apply kv_get_told_in in H; congruence|]. apply kv_get_told_in in E. destruct (H _ E).
  - split; [intros <-; right; split; [|reflexivity]; intros w H; apply kv_get_told_in in H; congruence|]. intros [H|(_ & H)]; [apply kv_get_told_in in H; congruence|now symmetry].
Qed.
(** What a document says *)
Definition file_is (Hs : list str) (bs : list block) (f : oem_file) : Prop :=
  told_or Hs "CCSDS_OEM_VERS" (lit "unknown") (version f) /\ told_or Hs "CREATION_DATE" [] (creation_date f) /\ told_or Hs "ORIGINATOR" [] (originator f) /\
  Forall2 block_is bs (segments f).
Definition read_lines (ls : list str) : res oem_file := obind (steps (Acc None None None [] Header) ls 0) finish.
Theorem read_document Hs bs f : Forall keyed Hs -> Forall good_block bs -> bs <> [] ->
  (read_lines (Hs ++ flat_map block_lines bs) = Ok f <-> file_is Hs bs f).
Proof.
  intros KH KB N. unfold read_lines. rewrite steps_app, (steps_header _ KH) by reflexivity. cbn [obind]. set (a := over_header _ _). set (no := (0 + _)%nat). clearbody no.
  assert (A : at_start a) by (now left). rewrite obind_iff. unfold file_is. rewrite <- !or_else_spec. split.
  - intros (a' & E & F). apply (steps_blocks _ KB _ _ _ A N) in E as (ss & s & F2 & ->). unfold finish in F. cbn [with_segs a_mode a_segs] in F.
    change (closed a) with (@nil segment) in F. cbn [app] in F. destruct (ss ++ [s]) as [|s0 t] eqn:Es; [destruct ss; discriminate|]. injection F as <-. cbn [version creation_date originator segments]. auto.
  - intros (V & C & O & F2). destruct (segments f) as [|s0 t] eqn:Es; [inversion F2; subst; congruence|]. assert (X : s0 :: t <> []) by discriminate. destruct (exists_last X) as (ss & s & E).
    exists (with_segs a ss (InData s)). split.
    + apply (steps_blocks _ KB _ _ _ A N). exists ss, s. split; [rewrite <- E; exact F2|reflexivity].
    + unfold finish. cbn [with_segs a_mode a_segs]. rewrite <- E. unfold a. cbn [a_version a_date a_orig over_header with_segs]. rewrite V, C, O, <- Es. now destruct f.
Qed.
Lemma read_oem_lines text : read_oem text = read_lines (split_nl text). Proof. reflexivity. Qed.
