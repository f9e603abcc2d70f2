(** C158 - C160: star tables, VLBI side-car headers and body names. *)
From Coq Require Import Ascii String List NArith ZArith Bool QArith Lia Permutation.
From Verif Require Import Base Text DecFloat Sp3_Model Oem_Model Pck_Model Nav_Model Igs_Model Sp3_Proofs Oem_Epoch Ik_Proofs Csv_Model.
Import ListNotations.
Local Open Scope N_scope.
Local Open Scope outcome_scope.
Local Open Scope list_scope.

(** ** Trimming and splitting *)
Lemma trim_ws_cons a s : is_ws a = true -> trim (a :: s) = trim s.
Proof. intros H. unfold trim. cbn [trim_start]. now rewrite H. Qed.
Lemma trim_start_snoc w a : is_ws a = true -> trim_start (w ++ [a]) = match trim_start w with [] => [] | u => u ++ [a] end.
Proof. intros H. induction w as [|b w IH]; cbn [app trim_start]; [now rewrite H|]. destruct (is_ws b); [exact IH|reflexivity]. Qed.
Lemma trim_end_snoc u a : is_ws a = true -> trim_end (u ++ [a]) = trim_end u.
Proof. intros H. unfold trim_end. rewrite rev_app_distr. cbn [rev app trim_start]. now rewrite H. Qed.
Lemma trim_ws_snoc w a : is_ws a = true -> trim (w ++ [a]) = trim w.
Proof. intros H. unfold trim. rewrite trim_start_snoc by exact H. destruct (trim_start w) as [|b u]; [reflexivity|]. now apply trim_end_snoc. Qed.
Lemma split_on_cons_ne c s : exists w ws, split_on c s = w :: ws.
Proof. destruct s as [|a s]; cbn; [eauto|]. destruct (a =? c); [eauto|]. destruct (split_on c s); eauto. Qed.
Lemma split_on_snoc c a u : a <> c -> exists i w, split_on c u = i ++ [w] /\ split_on c (u ++ [a]) = i ++ [w ++ [a]].
Proof.
  intros N. induction u as [|b u (i & w & E & F)]; [exists [], []; cbn; destruct (N.eqb_spec a c); [contradiction|auto]|]. cbn [app split_on]. destruct (b =? c).
  - exists ([] :: i), w. now rewrite E, F.
  - rewrite E, F. destruct i as [|x i]; [exists [], (b :: w); auto|]. exists ((b :: x) :: i), w. auto.
Qed.
Lemma trim_start_split c s : is_ws c = false -> map trim (split_on c (trim_start s)) = map trim (split_on c s).
Proof.
  intros C. induction s as [|a s IH]; [reflexivity|]. cbn [trim_start]. destruct (is_ws a) eqn:A; [|reflexivity]. rewrite IH. cbn [split_on]. destruct (N.eqb_spec a c) as [->|]; [congruence|].
  destruct (split_on_cons_ne c s) as (w & ws & ->). cbn [map]. now rewrite trim_ws_cons.
Qed.
Lemma trim_end_split c s : is_ws c = false -> map trim (split_on c (trim_end s)) = map trim (split_on c s).
Proof.
  intros C. induction s as [|a s IH] using rev_ind; [reflexivity|]. destruct (is_ws a) eqn:A.
  - rewrite trim_end_snoc, IH by exact A. assert (N : a <> c) by congruence. destruct (split_on_snoc c a s N) as (i & w & E & F). rewrite E, F, !map_app. cbn [map]. now rewrite trim_ws_snoc.
  - now rewrite trim_end_id by now rewrite last_last.
Qed.
Lemma fields_eq s : csv_fields s = map trim (split_on 44 s).
Proof. unfold csv_fields, trim at 2. rewrite trim_end_split, trim_start_split by reflexivity. reflexivity. Qed.
Lemma trim_chop s : trim (chop_cr s) = trim s.
Proof.
  unfold chop_cr. destruct (rev s) as [|c r] eqn:R; [reflexivity|]. destruct (N.eq_dec c 13) as [->|N].
  - rewrite <- (rev_involutive s), R. cbn [rev]. now rewrite trim_ws_snoc.
  - destruct c as [|p]; [reflexivity|]. do 4 (try (destruct p as [p|p|]; try reflexivity)). congruence.
Qed.
Lemma trim_head s h t : trim_start s = h :: t -> exists u, trim s = h :: u.
Proof.
  intros E. unfold trim. rewrite E. assert (H : is_ws h = false) by (pose proof (trim_start_hd s) as X; rewrite E in X; apply X; discriminate). clear E. induction t as [|a t IH] using rev_ind.
  - exists []. apply trim_end_id. exact H.
  - destruct (is_ws a) eqn:A; [change (h :: t ++ [a]) with ((h :: t) ++ [a]); rewrite trim_end_snoc by exact A; exact IH|]. exists (t ++ [a]). apply trim_end_id. change (h :: t ++ [a]) with ((h :: t) ++ [a]). now rewrite last_last.
Qed.

(** ** Tables as text *)
Definition unl (ls : list str) : str := flat_map (fun l => l ++ [10]) ls.
Fixpoint join (ws : list str) : str := match ws with [] => [] | [w] => w | w :: t => w ++ 44 :: join t end.
Lemma join_fields ws : ws <> [] -> Forall (fun w => ~ In 44 w) ws -> csv_fields (join ws) = map trim ws.
Proof.
  intros N F. rewrite fields_eq. induction F as [|w ws W F IH]; [congruence|]. destruct ws as [|v ws]; [cbn [join map]; now rewrite split_on_none|].
  change (join (w :: v :: ws)) with (w ++ 44 :: join (v :: ws)). rewrite split_on_app by exact W. cbn [map] in *. f_equal. apply IH. discriminate.
Qed.
Definition neat (w : str) : Prop := ~ In 44 w /\ ~ In 10 w /\ hd 0 (trim_start w) <> 35.
Lemma join_live w ws : ws <> [] -> neat w -> skipped (join (w :: ws)) = false.
Proof.
  intros N (_ & _ & H). destruct ws as [|v ws]; [congruence|]. change (join (w :: v :: ws)) with (w ++ 44 :: join (v :: ws)). unfold skipped.
  assert (E : exists h t, trim_start (w ++ 44 :: join (v :: ws)) = h :: t /\ h <> 35).
  { induction w as [|b w IH]; [exists 44, (join (v :: ws)); split; [reflexivity|lia]|]. cbn [app trim_start] in *. destruct (is_ws b); [now apply IH|]. cbn [hd] in H. eauto. }
  destruct E as (h & t & E & X). destruct (trim_head _ _ _ E) as (u & ->). now apply N.eqb_neq.
Qed.
Lemma join_nl ws : Forall (fun w => ~ In 10 w) ws -> ~ In 10 (join ws).
Proof.
  induction 1 as [|w ws W F IH]; [cbn; auto|]. destruct ws as [|v ws]; [exact W|]. change (join (w :: v :: ws)) with (w ++ 44 :: join (v :: ws)). rewrite in_app_iff. intros [|[|]]; [contradiction|lia|contradiction].
Qed.
Lemma csv_lines_chop hdr no ls : csv_lines hdr no (map chop_cr ls) = csv_lines hdr no ls.
Proof.
  revert hdr no. induction ls as [|l ls IH]; intros; [reflexivity|]. cbn [map csv_lines]. unfold skipped, csv_fields. rewrite trim_chop. destruct (match trim l with [] => true | c :: _ => c =? 35 end); [apply IH|].
  destruct hdr; [|apply IH]. destruct (csv_row _ _); cbn [obind]; [|reflexivity|reflexivity]. now rewrite IH.
Qed.
Lemma split_nl_line l s : ~ In 10 l -> split_nl (l ++ 10 :: s) = l :: split_nl s.
Proof.
  induction l as [|a l IH]; intros H; cbn [app split_nl]; [reflexivity|]. destruct (N.eqb_spec a 10) as [->|]; [destruct H; now left|]. rewrite IH by (intros X; apply H; now right). reflexivity.
Qed.
Lemma split_nl_back ls : Forall (fun l => ~ In 10 l) ls -> split_nl (unl ls) = ls.
Proof. induction 1 as [|l ls L F IH]; [reflexivity|]. unfold unl in *. cbn [flat_map]. rewrite <- app_assoc. cbn [app]. rewrite split_nl_line by exact L. now rewrite IH. Qed.
Lemma parse_unl ls : Forall (fun l => ~ In 10 l) ls -> parse_csv_chunk (unl ls) = csv_lines None 1 ls.
Proof. intros F. unfold parse_csv_chunk, text_lines. now rewrite split_nl_back, csv_lines_chop. Qed.

(** a table: named columns of cells; its text has a line of names and a line for each row *)
Definition col := (str * list str)%type.
Definition row_text (cols : list col) (k : nat) : str := join (map (fun c => nth k (snd c) []) cols).
Definition table (cols : list col) (n : nat) : str := unl (join (map fst cols) :: map (row_text cols) (seq 0 n)).
Definition neat_col (c : col) : Prop := neat (fst c) /\ Forall neat (snd c).
(** the entry of row [k] under a name: in the first column so named, letter case and surrounding space apart; an empty
    entry is none *)
Definition titled (name : str) (c : col) : bool := str_eqb (map lower (trim (fst c))) name.
Definition cell (cols : list col) (k : nat) (name : str) : option str :=
  match find (titled name) cols with Some c => match trim (nth k (snd c) []) with [] => None | t => Some t end | None => None end.
Fixpoint collect {A E} (l : list (outcome A E)) : outcome (list A) E :=
  match l with [] => Ok [] | x :: t => a <- x ;; r <- collect t ;; Ok (a :: r) end.

Lemma csv_row_ext g g' no : (forall name, g name = g' name) -> csv_row g no = csv_row g' no.
Proof.
  intros H. assert (O : forall name, opt_num g name no = opt_num g' name no) by (intros name; unfold opt_num; now rewrite H). assert (N : forall name, need_num g name no = need_num g' name no) by (intros name; unfold need_num; now rewrite O).
  unfold csv_row. now rewrite !H, !N, !O.
Qed.
Lemma nth_nil_neat (c : col) k : Forall neat (snd c) -> neat (nth k (snd c : list str) []).
Proof. intros F. destruct (nth_in_or_default k (snd c) []) as [I| ->]; [rewrite Forall_forall in F; now apply F|]. repeat split; cbn; auto; discriminate. Qed.
Lemma col_cell cols k name : csv_col (map (map lower) (map trim (map fst cols))) (map trim (map (fun c : col => nth k (snd c) []) cols)) name = cell cols k name.
Proof.
  unfold csv_col, cell. induction cols as [|c cols IH]; [reflexivity|]. cbn [map index find]. unfold titled at 1. destruct (str_eqb (map lower (trim (fst c))) name); [cbn [nth_error]; now rewrite trim_trim|].
  destruct (index name _) as [i|]; [cbn [nth_error]; exact IH|exact IH].
Qed.

(** * C158 Star tables *)
(** a table of two or more columns is read row by row, an entry being looked up under its column name *)
Theorem C158_reads cols n : (2 <= length cols)%nat -> Forall neat_col cols ->
  parse_csv_chunk (table cols n) = collect (map (fun k => csv_row (cell cols k) (k + 2)) (seq 0 n)).
Proof.
  intros L F. assert (FN : Forall neat (map fst cols)) by (apply Forall_map; eapply Forall_impl; [|exact F]; intros c (A & _); exact A).
  assert (FR : forall k, Forall neat (map (fun c : col => nth k (snd c) []) cols)) by (intros k; apply Forall_map; eapply Forall_impl; [|exact F]; intros c (_ & A); now apply nth_nil_neat).
  assert (NC : forall ws, Forall neat ws -> Forall (fun w => ~ In 44 w) ws) by (intros ws W; eapply Forall_impl; [|exact W]; intros w (A & _); exact A).
  assert (NN : forall ws, Forall neat ws -> Forall (fun w => ~ In 10 w) ws) by (intros ws W; eapply Forall_impl; [|exact W]; intros w (_ & A & _); exact A).
  assert (LIVE : forall ws, (2 <= length ws)%nat -> Forall neat ws -> skipped (join ws) = false).
  { intros ws W Q. destruct ws as [|w [|v ws]]; cbn [length] in W; [lia|lia|]. inversion Q; subst. apply join_live; [discriminate|assumption]. }
  assert (NE : forall ws : list str, (2 <= length ws)%nat -> ws <> []) by (intros ws W ->; cbn in W; lia).
  unfold table. rewrite parse_unl.
  2:{ constructor; [apply join_nl, NN, FN|]. apply Forall_map, Forall_forall. intros k _. unfold row_text. apply join_nl, NN, FR. }
  cbn [csv_lines]. rewrite LIVE by (rewrite ?map_length; assumption). rewrite join_fields by (rewrite ?map_length; auto; apply NE; now rewrite map_length).
  assert (G : forall m s, csv_lines (Some (map (map lower) (map trim (map fst cols)))) (s + 2) (map (row_text cols) (seq s m)) = collect (map (fun k => csv_row (cell cols k) (k + 2)) (seq s m))); [|exact (G n 0%nat)].
  induction m as [|m IH]; intros s; [reflexivity|]. cbn [seq map csv_lines collect]. change (row_text cols s) with (join (map (fun c : col => nth s (snd c) []) cols)). rewrite LIVE by (rewrite ?map_length; auto). rewrite join_fields by (auto; apply NE; now rewrite map_length).
  rewrite (csv_row_ext _ (cell cols s)) by (intros name; apply col_cell). destruct (csv_row _ _); cbn [obind]; [|reflexivity|reflexivity]. change (S (s + 2)) with (S s + 2)%nat. now rewrite IH.
Qed.
(** what a row says: the four required entries are there and are numbers, an optional entry is absent or a number, and
    the quality is good when not given or given as 1, true or ok in any letter case *)
Definition says (get : str -> option str) (name : string) (v : option fnum) : Prop :=
  match get (lit name) with Some t => exists x, parse_f64 t = Some x /\ v = Some x | None => v = None end.
Lemma opt_num_spec get name no v : opt_num get (lit name) no = Ok v <-> says get name v.
Proof.
  unfold opt_num, says. destruct (get (lit name)) as [t|]; [|split; [intros [= <-]; reflexivity|intros ->; reflexivity]]. destruct (parse_f64 t) as [x|]; split; try discriminate.
  - intros [= <-]. eauto. - intros (y & [= <-] & ->). reflexivity. - intros (y & [=] & _).
Qed.
Lemma need_num_spec get name no v : need_num get (lit name) no = Ok v <-> says get name (Some v).
Proof.
  unfold need_num. rewrite <- opt_num_spec with (no := no). destruct (opt_num get (lit name) no) as [[x|]| |]; cbn [obind]; split; try discriminate; congruence.
Qed.
Lemma bind_ok {A B E} (x : outcome A E) (f : A -> outcome B E) b : obind x f = Ok b <-> exists a, x = Ok a /\ f a = Ok b.
Proof. destruct x as [a| |]; cbn [obind]; split; [eauto|intros (? & [= <-] & H); exact H|discriminate|intros (? & [=] & _)|discriminate|intros (? & [=] & _)]. Qed.
Theorem C158_row get no s : csv_row get no = Ok s <->
  (exists t, get (lit "source_id") = Some t /\ parse_uint 18446744073709551615 t = Some (s_id s)) /\
  says get "ra" (Some (s_ra s)) /\ says get "dec" (Some (s_dec s)) /\ says get "epoch" (Some (s_epoch s)) /\
  says get "pmra" (s_pmra s) /\ says get "pmdec" (s_pmdec s) /\ says get "parallax" (s_parallax s) /\ says get "radial_velocity" (s_rv s) /\
  says get "g_mag" (s_g s) /\ says get "bp_mag" (s_bp s) /\ says get "rp_mag" (s_rp s) /\
  (s_quality s = true <-> match get (lit "quality") with None => True | Some t => In (map lower t) [lit "1"; lit "true"; lit "ok"] end).
Proof.
  assert (Q : quality_of (get (lit "quality")) = true <-> match get (lit "quality") with None => True | Some t => In (map lower t) [lit "1"; lit "true"; lit "ok"] end).
  { unfold quality_of. destruct (get (lit "quality")) as [t|]; [|tauto]. rewrite !orb_true_iff. cbn [In].
    destruct (str_eqb_spec (map lower t) (lit "1")), (str_eqb_spec (map lower t) (lit "true")), (str_eqb_spec (map lower t) (lit "ok")); split; intros H; auto; intuition (try discriminate; congruence). }
  unfold csv_row. split.
  - destruct (get (lit "source_id")) as [t|]; [|discriminate]. destruct (parse_uint _ t) as [id|] eqn:U; [|discriminate]. intros H.
    repeat (apply bind_ok in H as (? & ? & H)). injection H as <-. cbn [s_id s_ra s_dec s_epoch s_pmra s_pmdec s_parallax s_rv s_g s_bp s_rp s_quality].
    repeat match goal with X : need_num _ _ _ = Ok _ |- _ => apply need_num_spec in X | X : opt_num _ _ _ = Ok _ |- _ => apply opt_num_spec in X end. split; [eauto|]. repeat (split; [assumption|]). exact Q.
  - intros ((t & T & U) & A1 & A2 & A3 & A4 & A5 & A6 & A7 & A8 & A9 & A10 & QQ). rewrite T, U.
    apply (need_num_spec _ _ no) in A1, A2, A3. apply (opt_num_spec _ _ no) in A4, A5, A6, A7, A8, A9, A10. rewrite A1, A2, A3. cbn [obind]. rewrite A4, A5, A6, A7, A8, A9, A10. cbn [obind]. rewrite <- Q in QQ.
    destruct s as [i r d e p1 p2 p3 p4 p5 p6 p7 q]. cbn in *. do 2 f_equal. destruct q, (quality_of _); intuition congruence.
Qed.
(** the order of the columns does not matter *)
Lemma find_perm (f : col -> bool) l l' : Permutation l l' -> (forall a b, In a l -> In b l -> f a = true -> f b = true -> a = b) -> find f l = find f l'.
Proof.
  induction 1 as [|x l l' P IH|x y l|l l' l'' P IH P' IH']; intros U; [reflexivity| | |].
  - cbn [find]. destruct (f x); [reflexivity|]. apply IH. intros a b A B. apply U; now right.
  - cbn [find]. destruct (f x) eqn:X, (f y) eqn:Y; auto. now rewrite (U x y) by (cbn; auto).
  - rewrite IH by exact U. apply IH'. intros a b A B. apply U; now apply (Permutation_in _ (Permutation_sym P)).
Qed.
Theorem C158_columns cols cols' n : (2 <= length cols)%nat -> Forall neat_col cols -> NoDup (map (fun c => map lower (trim (fst c))) cols) -> Permutation cols cols' ->
  parse_csv_chunk (table cols' n) = parse_csv_chunk (table cols n).
Proof.
  intros L F ND P. rewrite !C158_reads; try assumption; [|now rewrite <- (Permutation_length P)|now apply (Permutation_Forall P)]. f_equal. apply map_ext. intros k. apply csv_row_ext. intros name. unfold cell. rewrite (find_perm _ cols cols' P); [reflexivity|].
  intros a b A B Ta Tb. unfold titled in *. destruct (str_eqb_spec (map lower (trim (fst a))) name) as [E|]; [|discriminate]. destruct (str_eqb_spec (map lower (trim (fst b))) name) as [E'|]; [|discriminate].
  rewrite <- E' in E. clear - ND A B E. induction cols as [|c cols IH]; [contradiction|]. cbn [map] in ND. inversion ND as [|? ? NI ND']; subst.
  destruct A as [->|A], B as [->|B]; auto; exfalso; apply NI; [rewrite E|rewrite <- E]; apply in_map_iff; eauto.
Qed.
(** blank lines and lines that begin with [#] are passed over, before the names too *)
Theorem C158_comments ls ls' rs : Forall (fun l => ~ In 10 l) ls -> Forall (fun l => ~ In 10 l) ls' ->
  filter (fun l => negb (skipped l)) ls = filter (fun l => negb (skipped l)) ls' -> parse_csv_chunk (unl ls) = Ok rs -> parse_csv_chunk (unl ls') = Ok rs.
Proof.
  intros F F' E. rewrite !parse_unl by assumption. clear F F'.
  assert (NO : forall get a b s, csv_row get a = Ok s -> csv_row get b = Ok s) by (intros get a b s H; apply C158_row; now apply C158_row in H).
  assert (R : forall ls hdr a rs, csv_lines hdr a ls = Ok rs <-> csv_lines hdr 0 (filter (fun l => negb (skipped l)) ls) = Ok rs).
  { clear. intros ls. assert (NO : forall get a b s, csv_row get a = Ok s -> csv_row get b = Ok s) by (intros get a b s H; apply C158_row; now apply C158_row in H).
    assert (SH : forall l hdr a b rs, csv_lines hdr a l = Ok rs -> csv_lines hdr b l = Ok rs).
    { induction l as [|x l IH]; intros hdr a b rs H; [exact H|]. cbn [csv_lines] in *. destruct (skipped x); [eapply IH; exact H|]. destruct hdr as [h|]; [|eapply IH; exact H].
      apply bind_ok in H as (s & S1 & H). apply bind_ok in H as (r & R1 & H). rewrite (NO _ _ b _ S1). cbn [obind]. rewrite (IH _ _ (S b) _ R1). exact H. }
    induction ls as [|x ls IH]; intros hdr a rs; [reflexivity|]. cbn [csv_lines filter]. destruct (skipped x) eqn:SX; cbn [negb]; [apply IH|]. cbn [csv_lines]. rewrite SX. destruct hdr as [h|].
    - rewrite !bind_ok. split; intros (s & S1 & H); apply bind_ok in H as (r & R1 & H); exists s; (split; [eapply NO; exact S1|]); apply bind_ok; exists r; (split; [|exact H]).
      + apply IH in R1. eapply SH. exact R1. + apply IH. eapply SH. exact R1.
    - split; intros H; [apply IH in H; eapply SH; exact H|]. apply IH. eapply SH. exact H. }
  intros H. apply R. rewrite <- E. now apply R in H.
Qed.
(** an error names the first line that cannot be read *)
Definition at_line (e : csv_err) : nat := match e with MissingColumn _ n => n | InvalidNumber _ n _ => n end.
Lemma row_line get no e : csv_row get no = Err e -> at_line e = no.
Proof.
  assert (O : forall name e, opt_num get name no = Err e -> at_line e = no) by (intros name x; unfold opt_num; destruct (get name) as [t|]; [|discriminate]; destruct (parse_f64 t); [discriminate|]; intros [= <-]; reflexivity).
  assert (N : forall name e, need_num get name no = Err e -> at_line e = no) by (intros name x; unfold need_num; specialize (O name); destruct (opt_num get name no) as [[y|]|y|]; cbn [obind]; [discriminate|intros [= <-]; reflexivity|intros [= <-]; now apply O|discriminate]).
  unfold csv_row. destruct (get (lit "source_id")) as [t|]; [|intros [= <-]; reflexivity]. destruct (parse_uint _ t); [|intros [= <-]; reflexivity].
  repeat match goal with
  | |- obind (need_num get ?n no) _ = _ -> _ => let X := fresh in pose proof (N n) as X; destruct (need_num get n no); cbn [obind]; [clear X|intros [= <-]; now apply X|discriminate]
  | |- obind (opt_num get ?n no) _ = _ -> _ => let X := fresh in pose proof (O n) as X; destruct (opt_num get n no); cbn [obind]; [clear X|intros [= <-]; now apply X|discriminate]
  end. discriminate.
Qed.
Theorem C158_first_error ls e : Forall (fun l => ~ In 10 l) ls -> parse_csv_chunk (unl ls) = Err e ->
  (1 <= at_line e <= length ls)%nat /\ (exists rs, parse_csv_chunk (unl (firstn (at_line e - 1) ls)) = Ok rs) /\ parse_csv_chunk (unl (firstn (at_line e) ls)) = Err e.
Proof.
  intros F H. rewrite parse_unl in H by exact F.
  assert (FF : forall k, Forall (fun l => ~ In 10 l) (firstn k ls)) by (intros k; apply Forall_forall; intros l I; apply (proj1 (Forall_forall _ _) F l); rewrite <- (firstn_skipn k ls); apply in_or_app; now left).
  rewrite !parse_unl by apply FF. clear F FF.
  assert (G : forall ls hdr no, csv_lines hdr (S no) ls = Err e -> (S no <= at_line e <= no + length ls)%nat /\ (exists rs, csv_lines hdr (S no) (firstn (at_line e - S no) ls) = Ok rs) /\ csv_lines hdr (S no) (firstn (at_line e - no) ls) = Err e).
  { clear. induction ls as [|x ls IH]; intros hdr no H; [discriminate|]. cbn [csv_lines] in H. destruct (skipped x) eqn:SX; [|destruct hdr as [h|]].
    - destruct (IH _ _ H) as (A & (rs & B) & C). cbn [length]. split; [lia|]. replace (at_line e - S no)%nat with (S (at_line e - S (S no))) by lia. replace (at_line e - no)%nat with (S (at_line e - S no)) by lia.
      cbn [firstn csv_lines]. rewrite SX. split; [exists rs; exact B|exact C].
    - destruct (csv_row _ (S no)) as [s|e'|] eqn:R; cbn [obind] in H; [|injection H as ->|discriminate].
      + destruct (csv_lines (Some h) (S (S no)) ls) as [r|e'|] eqn:T; cbn [obind] in H; [discriminate|injection H as ->|discriminate]. destruct (IH _ _ T) as (A & (rs & B) & C). cbn [length]. split; [lia|].
        replace (at_line e - S no)%nat with (S (at_line e - S (S no))) by lia. replace (at_line e - no)%nat with (S (at_line e - S no)) by lia. cbn [firstn csv_lines]. rewrite SX, R. cbn [obind]. rewrite B, C. cbn [obind]. split; [eauto|reflexivity].
      + apply row_line in R as RL. rewrite RL in *. cbn [length]. split; [lia|]. replace (S no - S no)%nat with 0%nat by lia. replace (S no - no)%nat with 1%nat by lia. cbn [firstn csv_lines]. rewrite SX, R. cbn [obind]. split; [eauto|reflexivity].
    - destruct (IH _ _ H) as (A & (rs & B) & C). cbn [length]. split; [lia|]. replace (at_line e - S no)%nat with (S (at_line e - S (S no))) by lia. replace (at_line e - no)%nat with (S (at_line e - S no)) by lia.
      cbn [firstn csv_lines]. rewrite SX. split; [exists rs; exact B|exact C]. }
  destruct (G _ _ _ H) as (A & B & C). rewrite Nat.sub_0_r in C. auto.
Qed.
(** nothing else is checked: a declination of a hundred degrees and a right ascension that is not a number are records,
    and a table without the required columns is read if it has no rows *)
Theorem C158_unchecked_refuted : 
  (exists s, parse_csv_chunk (unl [lit "source_id,ra,dec,epoch"; lit "1,nan,100,2016"]) = Ok [s] /\ s_ra s = NaN /\ exists q, s_dec s = Fin q /\ (90 < q)%Q) /\
  parse_csv_chunk (unl [lit "name,colour"]) = Ok [].
Proof. split; [|reflexivity]. eexists. split; [vm_compute; reflexivity|]. split; [reflexivity|]. eexists. split; reflexivity. Qed.
Example C158_case : (exists s, parse_csv_chunk (unl [lit "# Gaia"; []; lit "Dec, RA ,epoch,Source_ID,g_mag,quality"; lit "-5.5,10,2016,42,,OK"]) = Ok [s] /\ s_id s = 42 /\ s_g s = None /\ s_quality s = true) /\
  parse_csv_chunk (unl [lit "source_id,ra,dec,epoch"; lit "1,2,3,2016"; lit "2,x,3,2016"]) = Err (InvalidNumber (lit "ra") 3 (lit "x")) /\
  parse_csv_chunk (unl [lit "source_id,ra,dec,epoch"; lit "1,2,3"]) = Err (MissingColumn (lit "epoch") 2).
Proof. split; [eexists; split; [vm_compute; reflexivity|repeat split]|]. split; reflexivity. Qed.

(** * C159 VLBI side-car headers *)
(** a line says [key = value], space apart, up to the first equals sign *)
Definition entry (l key value : str) : Prop := skipped l = false /\ exists a b, trim l = a ++ 61 :: b /\ ~ In 61 a /\ trim a = key /\ trim b = value.
(** the value of a key is that of the last line that gives it, and empty if none does *)
Definition latest (ls : list str) (key value : str) : Prop :=
  (exists pre l post, ls = pre ++ l :: post /\ entry l key value /\ forall l' v, In l' post -> ~ entry l' key v) \/ (value = [] /\ forall l v, In l ls -> ~ entry l key v).
Lemma latest_more ls l key value : latest ls key value -> (forall v, ~ entry l key v) -> latest (ls ++ [l]) key value.
Proof.
  intros [(pre & x & post & -> & E & N)|(-> & N)] O.
  - left. exists pre, x, (post ++ [l]). rewrite <- app_assoc. split; [reflexivity|]. split; [exact E|]. intros l' v I. apply in_app_or in I as [I|[<-|[]]]; [now apply N|apply O].
  - right. split; [reflexivity|]. intros l' v I. apply in_app_or in I as [I|[<-|[]]]; [now apply N|apply O].
Qed.
Lemma latest_now ls l key value : entry l key value -> latest (ls ++ [l]) key value.
Proof. intros E. left. exists ls, l, []. split; [reflexivity|]. split; [exact E|]. intros ? ? []. Qed.
Lemma entry_unique l k v k' v' : entry l k v -> entry l k' v' -> k = k' /\ v = v'.
Proof.
  intros (_ & a & b & E & N & <- & <-) (_ & a' & b' & E' & N' & <- & <-). assert (X : split_once 61 (trim l) = Some (a, b)) by (now apply split_once_spec). assert (Y : split_once 61 (trim l) = Some (a', b')) by (now apply split_once_spec). rewrite X in Y. injection Y as -> ->. auto.
Qed.
Lemma vgos_app h no a b : vgos_lines h no (a ++ b) = (h' <- vgos_lines h no a ;; vgos_lines h' (no + length a) b).
Proof.
  revert h no. induction a as [|l a IH]; intros h no; cbn [app vgos_lines length]; [cbn [obind]; now rewrite Nat.add_0_r|]. destruct (vgos_line h no l); cbn [obind]; [|reflexivity|reflexivity]. rewrite IH. now rewrite Nat.add_succ_comm.
Qed.
Lemma vgos_one h no l h' : vgos_lines h no [l] = Ok h' -> vgos_line h no l = Ok h'.
Proof. cbn [vgos_lines]. now destruct (vgos_line h no l). Qed.
Definition known (k : str) : Prop := In k [lit "session_code"; lit "start_epoch"; lit "stations"].
Lemma line_ok h no l h' : vgos_line h no l = Ok h' <->
  (skipped l = true /\ h' = h) \/ (exists v, entry l (lit "session_code") v /\ h' = Vgos v (v_epoch h) (v_stations h)) \/ (exists v, entry l (lit "start_epoch") v /\ h' = Vgos (v_code h) v (v_stations h)) \/
  (exists v, entry l (lit "stations") v /\ h' = Vgos (v_code h) (v_epoch h) (filter nonempty (map trim (split_on 44 v)))).
Proof.
  unfold vgos_line. destruct (skipped l) eqn:SK.
  - split; [intros [= <-]; now left|]. intros [(_ & ->)|H]; [reflexivity|]. exfalso. destruct H as [H|[H|H]]; destruct H as (v & (S1 & _) & _); congruence.
  - destruct (split_once 61 (trim l)) as [(a, b)|] eqn:SO.
    2:{ split; [discriminate|]. intros [(X & _)|H]; [discriminate|]. exfalso. destruct H as [H|[H|H]]; destruct H as (v & (_ & a & b & E & N & _) & _); assert (X : split_once 61 (trim l) = Some (a, b)) by (now apply split_once_spec); congruence. }
    apply split_once_spec in SO as (E & N). assert (EN : entry l (trim a) (trim b)) by (split; [exact SK|]; exists a, b; auto). assert (SP : map trim (split_on 44 (trim b)) = map trim (split_on 44 b)) by exact (fields_eq b).
    cbv zeta. destruct (str_eqb_spec (trim a) (lit "session_code")) as [K|K1]; [|destruct (str_eqb_spec (trim a) (lit "start_epoch")) as [K|K2]; [|destruct (str_eqb_spec (trim a) (lit "stations")) as [K|K3]]].
    + rewrite K in EN. split; [intros [= <-]; right; left; eauto|]. intros [(X & _)|[(v & V & ->)|[(v & V & ->)|(v & V & ->)]]]; try discriminate; destruct (entry_unique _ _ _ _ _ EN V) as (KK & <-); try discriminate KK; reflexivity.
    + rewrite K in EN. split; [intros [= <-]; right; right; left; eauto|]. intros [(X & _)|[(v & V & ->)|[(v & V & ->)|(v & V & ->)]]]; try discriminate; destruct (entry_unique _ _ _ _ _ EN V) as (KK & <-); try discriminate KK; reflexivity.
    + rewrite K in EN. split; [intros [= <-]; right; right; right; exists (trim b); now rewrite SP|]. intros [(X & _)|[(v & V & ->)|[(v & V & ->)|(v & V & ->)]]]; try discriminate; destruct (entry_unique _ _ _ _ _ EN V) as (KK & <-); try discriminate KK; now rewrite SP.
    + split; [discriminate|]. intros [(X & _)|[(v & V & ->)|[(v & V & ->)|(v & V & ->)]]]; try discriminate; destruct (entry_unique _ _ _ _ _ EN V) as (KK & <-); contradiction.
Qed.
(** of a file that is read, each field is what the last line with its key says; the stations are the parts of the value
    between commas, empty parts left out *)
Theorem C159_latest ls h : Forall (fun l => ~ In 10 l) ls -> read_vgosdb_sidecar (unl ls) = Ok h ->
  latest ls (lit "session_code") (v_code h) /\ latest ls (lit "start_epoch") (v_epoch h) /\ exists v, latest ls (lit "stations") v /\ v_stations h = filter nonempty (map trim (split_on 44 v)).
Proof.
  intros F. unfold read_vgosdb_sidecar. rewrite split_nl_back by exact F. clear F. revert h. induction ls as [|l ls IH] using rev_ind; intros h H.
  - injection H as <-. cbn [v_code v_epoch v_stations]. repeat split; try (right; split; [reflexivity|intros ? ? []]). exists []. split; [right; split; [reflexivity|intros ? ? []]|reflexivity].
  - rewrite vgos_app in H. apply bind_ok in H as (h0 & H0 & H1). destruct (IH _ H0) as (A & B & v & C & D). apply vgos_one, line_ok in H1. destruct H1 as [(SK & ->)|[(w & E & ->)|[(w & E & ->)|(w & E & ->)]]]; cbn [v_code v_epoch v_stations].
    + assert (NO : forall k v, ~ entry l k v) by (intros k u (X & _); congruence). repeat split; try (apply latest_more; auto). exists v. split; [now apply latest_more|exact D].
    + assert (NO : forall k u, k <> lit "session_code" -> ~ entry l k u) by (intros k u K X; destruct (entry_unique _ _ _ _ _ E X) as (KK & _); congruence). split; [now apply latest_now|]. split; [apply latest_more; [exact B|intros u; apply NO; discriminate]|]. exists v. split; [apply latest_more; [exact C|intros u; apply NO; discriminate]|exact D].
    + assert (NO : forall k u, k <> lit "start_epoch" -> ~ entry l k u) by (intros k u K X; destruct (entry_unique _ _ _ _ _ E X) as (KK & _); congruence). split; [apply latest_more; [exact A|intros u; apply NO; discriminate]|]. split; [now apply latest_now|]. exists v. split; [apply latest_more; [exact C|intros u; apply NO; discriminate]|exact D].
    + assert (NO : forall k u, k <> lit "stations" -> ~ entry l k u) by (intros k u K X; destruct (entry_unique _ _ _ _ _ E X) as (KK & _); congruence). split; [apply latest_more; [exact A|intros u; apply NO; discriminate]|]. split; [apply latest_more; [exact B|intros u; apply NO; discriminate]|]. exists w. split; [now apply latest_now|reflexivity].
Qed.
(** a file is read exactly when every line is blank, a comment or gives one of the three keys *)
Theorem C159_accepts ls : Forall (fun l => ~ In 10 l) ls ->
  (exists h, read_vgosdb_sidecar (unl ls) = Ok h) <-> Forall (fun l => skipped l = true \/ exists k v, known k /\ entry l k v) ls.
Proof.
  intros F. unfold read_vgosdb_sidecar. rewrite split_nl_back by exact F. clear F. generalize 1%nat as no. generalize (Vgos [] [] []) as h0. induction ls as [|l ls IH]; intros h0 no; [split; [constructor|cbn; eauto]|]. cbn [vgos_lines].
  assert (LO : (exists h, vgos_line h0 no l = Ok h) <-> (skipped l = true \/ exists k v, known k /\ entry l k v)).
  { split.
    - intros (h & H). apply line_ok in H as [(A & _)|[(v & V & _)|[(v & V & _)|(v & V & _)]]]; [now left| | |]; right; eexists; exists v; (split; [|exact V]); unfold known; cbn [In]; auto.
    - intros [A|(k & v & K & V)]; [exists h0; apply line_ok; now left|]. unfold known in K. cbn [In] in K. destruct K as [<-|[<-|[<-|[]]]]; eexists; apply line_ok; right; [left|right; left|right; right]; eauto. }
  split.
  - intros (h & H). apply bind_ok in H as (h1 & H1 & H2). constructor; [apply LO; eauto|]. eapply IH. eauto.
  - intros X. inversion X as [|? ? A B]; subst. apply LO in A as (h1 & H1). rewrite H1. cbn [obind]. now apply IH.
Qed.
(** an error names the first line that is none of these, with its key if it has one *)
Theorem C159_first_error ls e : Forall (fun l => ~ In 10 l) ls -> read_vgosdb_sidecar (unl ls) = Err e ->
  exists pre l post, ls = pre ++ l :: post /\ (exists h, read_vgosdb_sidecar (unl pre) = Ok h) /\
    (e = ExpectedPair (S (length pre)) /\ ~ In 61 (trim l) \/ exists k v, e = UnknownKey (S (length pre)) k /\ entry l k v /\ ~ known k).
Proof.
  intros F H. unfold read_vgosdb_sidecar in *. rewrite split_nl_back in H by exact F.
  assert (G : forall ls h0 no, vgos_lines h0 no ls = Err e -> exists pre l post, ls = pre ++ l :: post /\ (exists h, vgos_lines h0 no pre = Ok h) /\
    (e = ExpectedPair (no + length pre) /\ ~ In 61 (trim l) \/ exists k v, e = UnknownKey (no + length pre) k /\ entry l k v /\ ~ known k)).
  { clear. induction ls as [|l ls IH]; intros h0 no H; [discriminate|]. cbn [vgos_lines] in H. destruct (vgos_line h0 no l) as [h1|e'|] eqn:L; cbn [obind] in H; [|injection H as ->|discriminate].
    - destruct (IH _ _ H) as (pre & x & post & -> & (h & P) & D). exists (l :: pre), x, post. split; [reflexivity|]. split; [exists h; cbn [vgos_lines]; rewrite L; exact P|]. cbn [length]. rewrite <- Nat.add_succ_comm. exact D.
    - exists [], l, ls. split; [reflexivity|]. split; [cbn; eauto|]. cbn [length]. rewrite Nat.add_0_r. unfold vgos_line in L. destruct (skipped l) eqn:SK; [discriminate|]. destruct (split_once 61 (trim l)) as [(a, b)|] eqn:SO.
      + right. cbv zeta in L. apply split_once_spec in SO as (E & N). destruct (str_eqb_spec (trim a) (lit "session_code")) as [|K1]; [discriminate|]. destruct (str_eqb_spec (trim a) (lit "start_epoch")) as [|K2]; [discriminate|]. destruct (str_eqb_spec (trim a) (lit "stations")) as [|K3]; [discriminate|].
        injection L as <-. exists (trim a), (trim b). split; [reflexivity|]. split; [split; [exact SK|]; exists a, b; auto|]. unfold known. cbn [In]. intros [X|[X|[X|[]]]]; symmetry in X; contradiction.
      + left. injection L as <-. split; [reflexivity|]. intros I. apply in_split in I as (a & b & E). clear - SO E. revert SO. rewrite E. clear. induction a as [|x a IH]; [discriminate|]. cbn [app split_once]. destruct (x =? 61); [discriminate|]. destruct (split_once 61 (a ++ 61 :: b)) as [(u, w)|]; [discriminate|]. intros _. now apply IH. }
  destruct (G _ _ _ H) as (pre & l & post & E & (h & P) & D). exists pre, l, post. split; [exact E|]. split; [exists h; rewrite split_nl_back; [exact P|]|exact D]. rewrite E in F. apply Forall_app in F. apply F.
Qed.
(** a header written as three lines, in any order, is read back *)
Definition vgos_text (h : vgos) : list str := [lit "session_code=" ++ v_code h; lit "start_epoch=" ++ v_epoch h; lit "stations=" ++ join (v_stations h)].
Definition plain_value (s : str) : Prop := solid s /\ ~ In 10 s.
Lemma written_entry (k v : str) : k <> [] -> solid k -> ~ In 61 k -> hd 0 k <> 35 -> solid v -> entry (k ++ 61 :: v) k v.
Proof.
  intros NE K N H V. destruct K as [K|(K1 & K2)]; [contradiction|]. assert (TS : trim (k ++ 61 :: v) = k ++ 61 :: v).
  { destruct k as [|a k]; [congruence|]. apply trim_solid. right. split; [exact K1|]. destruct V as [->|(V1 & V2)]; [rewrite last_last; reflexivity|]. destruct v as [|b v]; [rewrite last_last; reflexivity|]. replace ((a :: k) ++ 61 :: b :: v) with (((a :: k) ++ [61]) ++ b :: v) by (rewrite <- app_assoc; reflexivity).
    revert V2. destruct (exists_last (l := b :: v)) as (i & z & ->); [discriminate|]. now rewrite app_assoc, !last_last. }
  split; [unfold skipped; rewrite TS; destruct k as [|a k]; [congruence|]; cbn [app]; now apply N.eqb_neq|]. exists k, v. split; [exact TS|]. split; [exact N|]. split; [apply trim_solid; right; split; assumption|now apply trim_solid].
Qed.
Lemma solid_join ws : Forall solid ws -> Forall (fun w => w <> []) ws -> solid (join ws).
Proof.
  intros F N. induction F as [|w ws W F IH]; [now left|]. destruct ws as [|v ws]; [exact W|]. change (join (w :: v :: ws)) with (w ++ 44 :: join (v :: ws)). inversion N as [|? ? N1 N2]; subst. specialize (IH N2). destruct W as [W|(W1 & _)]; [contradiction|].
  right. split; [destruct w; [congruence|exact W1]|]. assert (NJ : join (v :: ws) <> []) by (inversion N2; subst; destruct ws; cbn; [assumption|destruct v; [congruence|discriminate]]).
  destruct IH as [IH|(_ & I2)]; [contradiction|]. revert I2. destruct (exists_last NJ) as (i & z & ->). replace (w ++ 44 :: i ++ [z]) with ((w ++ 44 :: i) ++ [z]) by (rewrite <- app_assoc; reflexivity). now rewrite !last_last.
Qed.
Theorem C159_written h ls : plain_value (v_code h) -> plain_value (v_epoch h) -> Forall (fun s => plain_value s /\ s <> [] /\ ~ In 44 s) (v_stations h) -> Permutation (vgos_text h) ls -> read_vgosdb_sidecar (unl ls) = Ok h.
Proof.
  intros (C & CN) (E & EN) S P.
  assert (SJ : solid (join (v_stations h))) by (apply solid_join; eapply Forall_impl; try exact S; intros s ((A & _) & B & _); assumption).
  assert (NJ : ~ In 10 (join (v_stations h))) by (apply join_nl; eapply Forall_impl; try exact S; intros s ((_ & A) & _); assumption).
  assert (E1 : entry (lit "session_code=" ++ v_code h) (lit "session_code") (v_code h)) by (apply (written_entry (lit "session_code")); [discriminate|right; split; reflexivity|cbn; intuition discriminate|discriminate|exact C]).
  assert (E2 : entry (lit "start_epoch=" ++ v_epoch h) (lit "start_epoch") (v_epoch h)) by (apply (written_entry (lit "start_epoch")); [discriminate|right; split; reflexivity|cbn; intuition discriminate|discriminate|exact E]).
  assert (E3 : entry (lit "stations=" ++ join (v_stations h)) (lit "stations") (join (v_stations h))) by (apply (written_entry (lit "stations")); [discriminate|right; split; reflexivity|cbn; intuition discriminate|discriminate|exact SJ]).
  assert (F : Forall (fun l => ~ In 10 l) ls).
  { apply (Permutation_Forall P). repeat constructor; rewrite in_app_iff; intros [X|X]; try contradiction; cbn in X; intuition discriminate. }
  destruct (proj2 (C159_accepts ls F)) as (h' & H').
  { apply (Permutation_Forall P). unfold vgos_text. do 3 (apply Forall_cons; [right; eexists; eexists; (split; [|eassumption]); unfold known; cbn [In]; auto|]). apply Forall_nil. }
  rewrite H'. f_equal. destruct (C159_latest ls h' F H') as (A & B & v & D & D').
  assert (U : forall key value w, latest ls key value -> In (key, w) [(lit "session_code", v_code h); (lit "start_epoch", v_epoch h); (lit "stations", join (v_stations h))] -> value = w).
  { intros key value w [(pre & x & post & EQ & X & _)|(_ & N)] I.
    - assert (IX : In x (vgos_text h)) by (apply (Permutation_in _ (Permutation_sym P)); rewrite EQ; apply in_elt). 
      cbn [In vgos_text] in IX, I. destruct IX as [<-|[<-|[<-|[]]]]; [pose proof (entry_unique _ _ _ _ _ E1 X) as (Q1 & Q2)|pose proof (entry_unique _ _ _ _ _ E2 X) as (Q1 & Q2)|pose proof (entry_unique _ _ _ _ _ E3 X) as (Q1 & Q2)];
        destruct I as [I|[I|[I|[]]]]; injection I as I1 I2; subst key; try discriminate Q1; congruence.
    - exfalso. cbn [In] in I. destruct I as [I|[I|[I|[]]]]; injection I as <- <-; [apply (N (lit "session_code=" ++ v_code h) (v_code h))|apply (N (lit "start_epoch=" ++ v_epoch h) (v_epoch h))|apply (N (lit "stations=" ++ join (v_stations h)) (join (v_stations h)))]; auto; apply (Permutation_in _ P); cbn; auto. }
  apply (U _ _ (v_code h)) in A; [|cbn; auto]. apply (U _ _ (v_epoch h)) in B; [|cbn; auto]. apply (U _ _ (join (v_stations h))) in D; [|cbn; auto]. destruct h as [c ep st], h' as [c' ep' st']. cbn [v_code v_epoch v_stations] in *. subst. f_equal.
  destruct st as [|s st]; [reflexivity|]. rewrite <- fields_eq, join_fields; [|discriminate|eapply Forall_impl; try exact S; intros s' (_ & _ & N); exact N].
  clear - S. induction S as [|w ws ((W & _) & N & _) F IH]; [reflexivity|]. cbn [map filter]. rewrite trim_solid by exact W. destruct w; [congruence|]. cbn [nonempty]. now rewrite IH.
Qed.
Example C159_case : read_vgosdb_sidecar (unl [lit "# VLBI"; lit " stations = KOKEE , ,WETTZELL"; lit "session_code=R1=100"; lit "session_code=R2"]) = Ok (Vgos (lit "R2") [] [lit "KOKEE"; lit "WETTZELL"]) /\
  read_vgosdb_sidecar (unl [lit "session_code=R2"; lit "agency=IVS"]) = Err (UnknownKey 2 (lit "agency")).
Proof. split; reflexivity. Qed.

(** * C160 Body names *)
Lemma trim_up s : trim (map up s) = map up (trim s).
Proof.
  assert (W : forall c, is_ws (up c) = is_ws c).
  { intros c. unfold up, is_ws. destruct (N.leb_spec 97 c), (N.leb_spec c 122); cbn [andb]; try reflexivity. rewrite (proj2 (N.leb_gt (c - 32) 13)) by lia. rewrite (proj2 (N.leb_gt c 13)) by lia. rewrite !andb_false_r. cbn. destruct (N.eqb_spec (c - 32) 32), (N.eqb_spec c 32); try reflexivity; lia. }
  assert (T : forall s, trim_start (map up s) = map up (trim_start s)) by (induction s0 as [|a s0 IH]; [reflexivity|]; cbn [map trim_start]; rewrite W; destruct (is_ws a); [exact IH|reflexivity]).
  unfold trim, trim_end. now rewrite T, <- map_rev, T, map_rev.
Qed.
Lemma up_up c : up (up c) = up c.
Proof. unfold up. destruct (N.leb_spec 97 c), (N.leb_spec c 122); cbn [andb]; try (destruct (N.leb_spec 97 (c - 32)), (N.leb_spec (c - 32) 122); cbn [andb]; lia); destruct (N.leb_spec 97 c), (N.leb_spec c 122); cbn [andb]; lia. Qed.
Lemma up_lower c : up (lower c) = up c.
Proof. unfold up, lower. destruct (N.leb_spec 65 c), (N.leb_spec c 90), (N.leb_spec 97 c), (N.leb_spec c 122); cbn [andb]; try lia; destruct (N.leb_spec 97 (c + 32)), (N.leb_spec (c + 32) 122), (N.leb_spec 97 c), (N.leb_spec c 122); cbn [andb]; lia. Qed.
(** letter case and surrounding space do not matter *)
Lemma up_ext s t : map up s = map up t -> naif_id_for_name s = naif_id_for_name t.
Proof. intros H. unfold naif_id_for_name. now rewrite <- !trim_up, H. Qed.
Theorem C160_spelling s m n : naif_id_for_name (repeat 32 m ++ s ++ repeat 32 n) = naif_id_for_name s /\ naif_id_for_name (map lower s) = naif_id_for_name s /\ naif_id_for_name (map up s) = naif_id_for_name s.
Proof.
  split; [|split].
  - unfold naif_id_for_name. f_equal. f_equal. unfold trim. rewrite trim_start_spaces.
    induction n as [|n IH]; [now rewrite app_nil_r|]. replace (repeat 32 (S n)) with (repeat 32 n ++ [32]) by (clear; induction n; cbn in *; congruence). change (trim_end (trim_start (s ++ repeat 32 n ++ [32]))) with (trim (s ++ repeat 32 n ++ [32])). now rewrite app_assoc, trim_ws_snoc.
  - apply up_ext. rewrite map_map. apply map_ext, up_lower.
  - apply up_ext. rewrite map_map. apply map_ext, up_up.
Qed.
Lemma assoc_in (k : str) (l : list (str * Z)) v : assoc k l = Some v -> In (k, v) l.
Proof. induction l as [|(x, w) l IH]; [discriminate|]. cbn [assoc]. destruct (str_eqb_spec x k) as [->|]; [intros [= ->]; now left|right; auto]. Qed.
(** a planet that is known has a known barycentre, whose number is the planet's without its final 99 *)
Theorem C160_barycentre s n : naif_id_for_name s = Some n -> (n mod 100 = 99)%Z -> naif_id_for_name (trim s ++ lit " BARYCENTER") = Some (n / 100)%Z.
Proof.
  intros H M. unfold naif_id_for_name in H. apply assoc_in in H. 
  assert (G : forall t, map up (trim s) = t -> naif_id_for_name (trim s ++ lit " BARYCENTER") = naif_id_for_name (t ++ lit " BARYCENTER")) by (intros t T; apply up_ext; rewrite !map_app, T, <- T, map_map; f_equal; apply map_ext; intros c; symmetry; apply up_up).
  rewrite (G _ eq_refl). revert H. generalize (map up (trim s)) as t. intros t. unfold naif_table. cbn [In]. intros H.
  repeat (destruct H as [H|H]; [injection H as <- <-; first [discriminate M|reflexivity]|]). destruct H.
Qed.
(** numbers tell bodies apart but for the barycentre names and Pluto, which is its own barycentre *)
Theorem C160_distinct s t n : naif_id_for_name s = Some n -> naif_id_for_name t = Some n -> (10 <= n)%Z -> map up (trim s) = map up (trim t).
Proof.
  intros H H' M. unfold naif_id_for_name in *. apply assoc_in in H, H'. revert H H'. generalize (map up (trim s)) (map up (trim t)). intros a b. unfold naif_table. cbn [In]. intros H H'.
  repeat (destruct H as [H|H]; [injection H as <- <-; first [lia|repeat (destruct H' as [H'|H']; [first [discriminate H'|injection H' as <-; reflexivity]|]); destruct H']|]). destruct H.
Qed.
Theorem C160_pluto_refuted : naif_id_for_name (lit "Pluto") = Some 9%Z /\ naif_id_for_name (lit "Pluto Barycenter") = Some 9%Z.
Proof. split; reflexivity. Qed.
(** the published constants are those of the names *)
Theorem C160_constants : Forall (fun e => naif_id_for_name (fst e) = Some (snd e)) well_known.
Proof. repeat constructor. Qed.
Example C160_case : naif_id_for_name (lit " earth moon barycenter ") = Some 3%Z /\ naif_id_for_name (lit "Earth-Moon barycenter") = None /\ naif_id_for_name (lit "venus") = Some 299%Z.
Proof. repeat split. Qed.
Print Assumptions C158_reads.
Print Assumptions C158_columns.
Print Assumptions C158_first_error.
Print Assumptions C159_latest.
Print Assumptions C159_written.
Print Assumptions C160_barycentre.
