(** C149, C150: orbit product files; C151: the parameter order. *)
From Coq Require Import Ascii String List NArith ZArith Bool QArith Qabs Lia.
From Verif Require Import Base Text DecFloat Omm_Proofs Sp3_Model Sp3_Write Oem_Model Oem_Write Prod_Model.
Import ListNotations.
Local Open Scope N_scope.
Local Open Scope list_scope.

(** * C149 SP3 products *)
Definition pad_ok (s : str) : Prop := ~ In 10 s.
Lemma in_pad_right w s c : In c (pad_right w s) -> In c s \/ c = 32.
Proof. unfold pad_right. intros I. apply in_app_or in I as [I|I]; auto. right. now apply repeat_spec in I. Qed.
Lemma in_pad_left w s c : In c (pad_left w s) -> In c s \/ c = 32.
Proof. unfold pad_left. intros I. apply in_app_or in I as [I|I]; auto. right. now apply repeat_spec in I. Qed.
Lemma last_app_l (a b : str) d : b <> [] -> last (a ++ b) d = last b d.
Proof. intros H. induction a as [|x a IH]; [reflexivity|]. cbn [app]. destruct (a ++ b) eqn:E; [destruct a; cbn in *; [contradiction|discriminate]|]. exact IH. Qed.
Lemma literal_good (s : str) : forallb (fun c => negb (c =? 10)) s = true -> last s 0 <> 13 -> hd 0 s <> 42 -> s <> lit "EOF" -> good_line s.
Proof.
  intros A B C D. split; [split; [|exact B]|auto]. intros I. rewrite forallb_forall in A. specialize (A _ I). discriminate.
Qed.
Lemma header_good id n : pad_ok id -> Forall good_line (sp3_header id n).
Proof.
  intros G. unfold sp3_header.
  repeat (apply Forall_cons; [|]); try solve [apply literal_good; vm_compute; congruence]; [| |constructor].
  - split; [split|split].
    + intros I. apply in_app_or in I as [I|I]; [vm_compute in I; repeat (destruct I as [I|I]; [discriminate|]); exact I|].
      apply in_app_or in I as [I|I]; [|vm_compute in I; repeat (destruct I as [I|I]; [discriminate|]); exact I].
      apply in_pad_left in I as [I|I]; [|discriminate]. pose proof (inked_dec (N.of_nat n)) as K. exact (no_nl_inked _ K I).
    + rewrite !last_app_l; [discriminate|discriminate|]. intros X. apply app_eq_nil in X as (_ & X). discriminate.
    + discriminate.
    + discriminate.
  - split; [split|split].
    + intros I. apply in_app_or in I as [I|I]; [vm_compute in I; repeat (destruct I as [I|I]; [discriminate|]); exact I|].
      apply in_app_or in I as [I|I]; [|vm_compute in I; repeat (destruct I as [I|I]; [discriminate|]); exact I].
      apply in_pad_right in I as [I|I]; [|discriminate]. contradiction.
    + rewrite !last_app_l; [discriminate|discriminate|]. intros X. apply app_eq_nil in X as (_ & X). discriminate.
    + discriminate.
    + discriminate.
Qed.
Section Product.
Variable date_ok : Z -> N -> N -> bool.
Variable utc_ok : civil -> bool.
Variable to_utc : Q -> civil.
(** an epoch the file format can hold: a calendar date, not within 5 ns of the end of a minute, and not a leap second *)
Definition holds (jd : Q) : Prop := good_civil date_ok (to_utc jd) /\ ticks (to_utc jd) / 100000000 < 60 /\ utc_ok (rounded (to_utc jd)) = true.
(** a product with an identifier of at most three characters reads back: one epoch a state, in order, each with the one
    satellite, its UTC epoch to the nearest 10 ns and its position to half a millimetre *)
Theorem C149_reads_back id ss : good_id id -> Forall (fun s => holds (o_jd s)) ss ->
  exists r, read_sp3 date_ok utc_ok (sp3_product to_utc id ss) = Ok r /\ header r = sp3_header id (length ss) /\
  Forall2 (fun e s => time e = rounded (to_utc (o_jd s)) /\ exists p, positions e = [p] /\ sat p = id /\
    near (1 # 2000000) (px p) (o_x s) /\ near (1 # 2000000) (py p) (o_y s) /\ near (1 # 2000000) (pz p) (o_z s)) (epochs r) ss.
Proof.
  intros G F. unfold sp3_product. set (f := fun s => Sp3_Model.Epoch _ _).
  destruct (write_read date_ok utc_ok (Sp3 (sp3_header id (length ss)) (map f ss))) as (r & R & H & E).
  - cbn [header]. apply header_good. apply G.
  - cbn [epochs]. apply Forall_forall. intros e I. apply in_map_iff in I as (s & <- & I). rewrite Forall_forall in F. destruct (F s I) as (A & B & C).
    unfold f, good_epoch. cbn [time positions]. repeat (split; [assumption|]). constructor; [exact G|constructor].
  - exists r. split; [exact R|]. split; [exact H|]. cbn [epochs] in E. revert E. generalize (epochs r). clear. induction ss as [|s ss IH]; intros es E; inversion E as [|e ? es' ? X Y]; subst; constructor.
    + destruct X as (T & P). unfold f in *. cbn [time positions] in *. split; [exact T|]. inversion P as [|p ? ps ? L N]; subst. inversion N; subst. destruct L as (L0 & L1 & L2 & L3 & _). cbn [sat px py pz] in *. exists p. auto.
    + now apply IH.
Qed.
End Product.
(** the header's number of epochs is the number of states; its date, its spacing, its time system and its frame are
    always the same, whatever the states *)
Theorem C149_header id n : nth 0 (sp3_header id n) [] = lit "#dP2024  1  1  0  0  0.00000000      " ++ pad_left 5 (dec (N.of_nat n)) ++ lit " ORBIT IGS20 HLM  POD" /\
  forall id' n' k, (k <> 0)%nat -> (k <> 2)%nat -> nth k (sp3_header id n) [] = nth k (sp3_header id' n') [].
Proof. split; [reflexivity|]. intros id' n' k A B. do 3 (destruct k as [|k]; [try contradiction; try reflexivity|]). reflexivity. Qed.
(** so the header of a file of one state on 15 March 2020 says it starts in 2024, and in GPS time although the epoch
    is written in UTC *)
Theorem C149_header_refuted : let text := sp3_product (fun _ => Civil 2020 3 15 6 0 0 0) (lit "L01") [OState 0 (Fin 7000) (Fin 0) (Fin 0) (Fin 0) (Fin 0) (Fin 0)] in
  exists r p, read_sp3 (fun _ _ _ => true) (fun _ => true) text = Ok r /\ epochs r = [Sp3_Model.Epoch (Civil 2020 3 15 6 0 0 0) [p]] /\ hd [] (header r) = lit "#dP2024  1  1  0  0  0.00000000          1 ORBIT IGS20 HLM  POD" /\
  firstn 12 (nth 4 (header r) []) = lit "%c L  cc GPS".
Proof. eexists. eexists. split; [vm_compute; reflexivity|]. split; [reflexivity|]. repeat split; reflexivity. Qed.
(** an identifier longer than three characters runs into the numbers: if the rest of it reads as a number, that number
    is taken for x, x for y, y for z, and nobody is told; otherwise the file cannot be read *)
Lemma long_line p a d n : sat p = a ++ d -> length a = 3%nat -> solid a -> d <> [] -> inked d = true ->
  match parse_f64 d with
  | Some g => exists x y z, parse_p_line (write_p_line p) n = Ok (Position a g x y z) /\ near (1 # 2000000) x (px p) /\ near (1 # 2000000) y (py p) /\ near (1 # 2000000) z (pz p)
  | None => parse_p_line (write_p_line p) n = Err (Record_err n (BadField 0))
  end.
Proof.
  intros E L So Ne In. unfold parse_p_line, write_p_line. rewrite E. unfold pad_right. replace (3 - length (a ++ d))%nat with 0%nat by (rewrite app_length; lia). cbn [repeat]. rewrite app_nil_r. cbn [app].
  set (tl := pad_left 14 _ ++ _). destruct (Nat.ltb_spec (length (80 :: (a ++ d) ++ 32 :: tl)) 4) as [X|_].
  { cbn [length] in X. rewrite !app_length in X. lia. }
  change (skipn 1 (80 :: ?x)) with x. change (skipn 4 (80 :: ?x)) with (skipn 3 x). rewrite <- app_assoc, firstn_app_exact, skipn_app_exact by exact L.
  rewrite (trim_solid a So).
  change (d ++ 32 :: tl) with (repeat 32 0 ++ d ++ 32 :: tl). replace (repeat 32 0 ++ d ++ 32 :: tl) with (pad_left 0 d ++ 32 :: tl) by reflexivity.
  unfold tl. cbn [app]. rewrite !split_ws_pad by (first [assumption|apply inked_fixed|apply fixed_nonempty]).
  destruct (parse_f64 d) as [g|]; [|reflexivity].
  destruct (fixed_near 6 (px p)) as (x & -> & Nx). destruct (fixed_near 6 (py p)) as (y & -> & Ny). destruct (fixed_near 6 (pz p)) as (z & -> & Nz).
  cbn [opt_field obind]. exists x, y, z. auto.
Qed.
Theorem C149_long_identifier a d x y z k n : length a = 3%nat -> solid a -> d <> [] -> inked d = true ->
  match parse_f64 d with
  | Some g => exists x' y' z', parse_p_line (write_p_line (Position (a ++ d) x y z k)) n = Ok (Position a g x' y' z') /\ near (1 # 2000000) x' x /\ near (1 # 2000000) y' y /\ near (1 # 2000000) z' z
  | None => parse_p_line (write_p_line (Position (a ++ d) x y z k)) n = Err (Record_err n (BadField 0))
  end.
Proof. intros. apply (long_line (Position (a ++ d) x y z k)); auto. Qed.
Theorem C149_long_refuted : exists r, read_sp3 (fun _ _ _ => true) (fun _ => true) (sp3_product (fun _ => Civil 2020 3 15 6 0 0 0) (lit "LEO1") [OState 0 (Fin 7000) (Fin 100) (Fin 200) (Fin 0) (Fin 0) (Fin 0)]) = Ok r /\
  map (fun e => map (fun p => (sat p, px p, py p, pz p)) (positions e)) (epochs r) = [[(lit "LEO", Fin 1, Fin (7000000000 # 1000000), Fin (100000000 # 1000000))]].
Proof. eexists. split; [vm_compute; reflexivity|]. vm_compute. reflexivity. Qed.
Example C149_case : good_id (lit "L01") /\ holds (fun _ _ _ => true) (fun _ => true) (fun _ => Civil 2020 3 15 6 0 0 0) 2458923.
Proof.
  split.
  - split; [cbn; lia|]. split; [right; split; reflexivity|]. split; [|reflexivity]. vm_compute. intros I; repeat (destruct I as [I|I]; [discriminate|]); exact I.
  - unfold holds, good_civil, u32_max. cbn [year month day hour minute second nano]. repeat split; (lia || reflexivity).
Qed.

(** * C150 OEM products *)
(** a product reads back under its names: every state in order, its instant to half a microsecond, its position to half
    a millimetre, its velocity to half a micrometre a second *)
Theorem C150_reads_back bad_date id name ss : Forall good_val [id; name] -> ss <> [] ->
  Forall (fun s => in_calendar (Fin (o_jd s)) /\ Forall finite [o_x s; o_y s; o_z s; o_vx s; o_vy s; o_vz s]) ss ->
  exists text f seg, oem_product bad_date id name ss = Ok text /\ read_oem text = Ok f /\ segments f = [seg] /\
  object_id (meta seg) = id /\ object_name (meta seg) = name /\ ref_frame (meta seg) = lit "EME2000" /\ time_system (meta seg) = lit "TT" /\ center_name (meta seg) = lit "EARTH" /\
  Forall2 (fun t s => same_instant (epoch_jd t) (Fin (o_jd s)) /\ near (1 # 2000000) (x t) (o_x s) /\ near (1 # 2000000) (y t) (o_y s) /\ near (1 # 2000000) (z t) (o_z s) /\
    near (1 # 2000000000) (vx t) (o_vx s) /\ near (1 # 2000000000) (vy t) (o_vy s) /\ near (1 # 2000000000) (vz t) (o_vz s)) (states seg) ss.
Proof.
  intros V Ne F. unfold oem_product. set (g := fun s => State _ _ _ _ _ _ _). set (m := Meta _ _ _ _ _).
  assert (GM : good_meta m).
  { inversion V as [|? ? V1 W]; subst. inversion W as [|? ? V2 _]; subst. unfold good_meta, m. cbn [object_id object_name ref_frame time_system center_name].
    repeat (apply Forall_cons; [first [exact V1|exact V2|solve [split; [right; split; reflexivity|vm_compute; intros I; repeat (destruct I as [I|I]; [discriminate|]); exact I]]]|]). constructor. }
  destruct (oem_back bad_date m (map g ss) GM) as (text & ts & W & R & L).
  - destruct ss; [congruence|discriminate].
  - apply Forall_forall. intros t I. apply in_map_iff in I as (s & <- & I). rewrite Forall_forall in F. exact (F s I).
  - exists text, (written_file m ts), (Segment m ts). split; [exact W|]. split; [exact R|]. repeat (split; [reflexivity|]). cbn [states].
    clear -L. revert ts L. induction ss as [|s ss IH]; intros ts L; inversion L as [|t ? ts' ? X Y]; subst; constructor; [exact X|now apply IH].
Qed.
(** no states: no OEM file, but an SP3 file of no epochs *)
Theorem C150_empty bad_date id name to_utc date_ok utc_ok sat : oem_product bad_date id name [] = Err NoStates /\
  (good_id sat -> exists r, read_sp3 date_ok utc_ok (sp3_product to_utc sat []) = Ok r /\ epochs r = []).
Proof.
  split; [reflexivity|]. intros G. destruct (C149_reads_back date_ok utc_ok to_utc sat [] G (Forall_nil _)) as (r & R & _ & E). exists r. split; [exact R|]. now inversion E.
Qed.
Example C150_case : Forall (fun s => in_calendar (Fin (o_jd s)) /\ Forall finite [o_x s; o_y s; o_z s; o_vx s; o_vy s; o_vz s]) [OState 2451545 (Fin 7000) (Fin 0) (Fin 0) (Fin 0) (Fin (15 # 2)) (Fin 0)].
Proof. constructor; [|constructor]. split; [exists 2451545%Q; split; [reflexivity|]; split; [discriminate|reflexivity]|]. repeat constructor; eexists; reflexivity. Qed.

(** * C151 The parameter order *)
Lemma pkind_eqb_spec a b : reflect (a = b) (pkind_eqb a b).
Proof.
  destruct a, b; cbn; try (constructor; congruence);
  repeat match goal with |- context [str_eqb ?u ?v] => destruct (str_eqb_spec u v) end; cbn; try (constructor; congruence).
  destruct (N.eqb_spec c c0); constructor; congruence.
Qed.
(** the index of a kind is where it first occurs; there is none exactly when it is not estimated *)
Theorem C151_index k ps : match index_of k ps with
  | Some i => (i < length ps)%nat /\ nth_error ps i = Some k /\ forall j, (j < i)%nat -> nth_error ps j <> Some k
  | None => ~ In k ps
  end.
Proof.
  induction ps as [|p ps IH]; cbn [index_of]; [intros []|]. destruct (pkind_eqb_spec p k) as [->|N].
  - cbn. split; [lia|]. split; [reflexivity|]. intros j J. lia.
  - destruct (index_of k ps) as [i|]; cbn in *.
    + destruct IH as (A & B & C). split; [lia|]. split; [exact B|]. intros [|j] J; cbn; [congruence|]. apply C. lia.
    + intros [E|I]; auto.
Qed.
(** kinds at distinct places get distinct columns, and a column belongs to one kind; the order of the estimator is a
    one-to-one numbering exactly when no kind is listed twice *)
Theorem C151_columns ps : (forall k k' i, index_of k ps = Some i -> index_of k' ps = Some i -> k = k') /\
  ((forall i, (i < length ps)%nat -> exists k, index_of k ps = Some i) <-> NoDup ps).
Proof.
  split.
  - intros k k' i A B. pose proof (C151_index k ps) as X. pose proof (C151_index k' ps) as Y. rewrite A in X. rewrite B in Y. destruct X as (_ & X & _), Y as (_ & Y & _). congruence.
  - rewrite NoDup_nth_error. split.
    + intros H i j I E. destruct (Nat.lt_trichotomy i j) as [L|[L|L]]; [|exact L|].
      * assert (J : (j < length ps)%nat) by (apply nth_error_Some; rewrite <- E; now apply nth_error_Some).
        destruct (H j J) as (k & K). pose proof (C151_index k ps) as X. rewrite K in X. destruct X as (_ & X & Y). exfalso. apply (Y i L). congruence.
      * destruct (H i I) as (k & K). pose proof (C151_index k ps) as X. rewrite K in X. destruct X as (_ & X & Y). exfalso. apply (Y j L). congruence.
    + intros H i I. destruct (nth_error ps i) as [k|] eqn:E; [|apply nth_error_None in E; lia]. exists k.
      pose proof (C151_index k ps) as X. destruct (index_of k ps) as [j|].
      * destruct X as (A & B & _). f_equal. apply H; [exact A|congruence].
      * exfalso. apply X. eapply nth_error_In. exact E.
Qed.
Example C151_case : index_of (CarrierAmbiguity (lit "R") (lit "G02") (lit "L1")) [PosX; DragScale; CarrierAmbiguity (lit "R") (lit "G01") (lit "L1"); CarrierAmbiguity (lit "R") (lit "G02") (lit "L1"); DragScale] = Some 3%nat /\
  index_of DragScale [PosX; DragScale; DragScale] = Some 1%nat.
Proof. split; reflexivity. Qed.
Print Assumptions C149_reads_back.
Print Assumptions C149_header.
Print Assumptions C149_header_refuted.
Print Assumptions C149_long_identifier.
Print Assumptions C149_long_refuted.
Print Assumptions C149_case.
Print Assumptions C150_reads_back.
Print Assumptions C150_empty.
Print Assumptions C150_case.
Print Assumptions C151_index.
Print Assumptions C151_columns.
Print Assumptions C151_case.
