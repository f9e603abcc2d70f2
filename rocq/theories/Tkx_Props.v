(** C21, C22: comments, unfinished assignments and trailing text in text kernels. *)
From Coq Require Import Ascii String List NArith ZArith QArith Lia Bool.
From Verif Require Import Base Text DecFloat Omm_Model Tk_Model Tk_Spec Tk_Proofs.
Import ListNotations.
Local Open Scope N_scope.
Local Open Scope string_scope.
Local Open Scope list_scope.

Lemma split2_first a b p r : a <> b -> ~ occurs2 a b p -> split2 a b (p ++ a :: b :: r) = Some (p, r).
Proof.
  intros N. induction p as [|x p IH]; intros H; cbn [app split2]; [now rewrite !N.eqb_refl|].
  assert (H' : ~ occurs2 a b p) by (intros (u & v & ->); apply H; now exists (x :: u), v).
  destruct (p ++ a :: b :: r) as [|y u] eqn:E; [destruct p; discriminate|]. rewrite (IH H').
  destruct (N.eqb_spec x a) as [->|]; [|reflexivity]. cbn [andb]. destruct (N.eqb_spec y b) as [->|]; [|reflexivity].
  exfalso. destruct p as [|y' p]; cbn in E; [congruence|]. injection E as -> _. apply H. now exists [], p.
Qed.
Lemma strip_none fuel s : ~ occurs2 47 42 s -> strip_go fuel s = s.
Proof. intros H. apply split2_none in H. destruct fuel; cbn [strip_go]; now rewrite H. Qed.
Lemma strip_open a x : ~ occurs2 47 42 a -> ~ occurs2 42 47 x -> strip_comments (a ++ 47 :: 42 :: x) = a.
Proof.
  intros A X. unfold strip_comments. destruct (length (a ++ 47 :: 42 :: x)); cbn [strip_go]; rewrite (split2_first 47 42 a x) by (congruence || assumption); apply split2_none in X; now rewrite X.
Qed.
Lemma strip_closed a x b : ~ occurs2 47 42 a -> ~ occurs2 42 47 x -> ~ occurs2 47 42 b -> strip_comments (a ++ 47 :: 42 :: x ++ 42 :: 47 :: b) = a ++ b.
Proof.
  intros A X B. unfold strip_comments. destruct (length (a ++ 47 :: 42 :: x ++ 42 :: 47 :: b)) eqn:L; [destruct a; discriminate|].
  cbn [strip_go]. rewrite (split2_first 47 42 a) by (congruence || assumption). rewrite (split2_first 42 47 x) by (congruence || assumption). now rewrite strip_none.
Qed.
Lemma feed_lines_eq pre l l' post : (forall st, feed st l = feed st l') -> parse_lines (pre ++ l :: post) = parse_lines (pre ++ l' :: post).
Proof.
  intros H. unfold parse_lines. assert (E : forall st, feed_all st (pre ++ l :: post) = feed_all st (pre ++ l' :: post)); [|now rewrite E].
  induction pre as [|p pre IH]; intros st; cbn [app feed_all]; [now rewrite H|]. destruct (feed st p) as [[st'| |]|]; auto.
Qed.
(** What matters of a line: the directive it is, whether it is a whole-line comment, and its text
    without comments. *)
Lemma feed_same st l l' : hd 0 (trim l) <> 92 -> hd 0 (trim l') <> 92 -> trim (strip_comments l) = trim (strip_comments l') ->
  (starts_with [47; 42] (trim l) && ends_with [42; 47] (trim l) = true -> trim (strip_comments l) = []) ->
  (starts_with [47; 42] (trim l') && ends_with [42; 47] (trim l') = true -> trim (strip_comments l') = []) -> feed st l = feed st l'.
Proof.
  intros D D' E C C'. destruct st as ((i, stmt), d). unfold feed. destruct (not_directive _ D) as (-> & ->). destruct (not_directive _ D') as (-> & ->).
  destruct (negb i); [reflexivity|].
  destruct (starts_with [47; 42] (trim l) && ends_with [42; 47] (trim l)).
  - rewrite <- E, (C eq_refl). now destruct (starts_with [47; 42] (trim l') && ends_with [42; 47] (trim l')).
  - rewrite E. destruct (starts_with [47; 42] (trim l') && ends_with [42; 47] (trim l')); [|reflexivity]. now rewrite (C' eq_refl).
Qed.
Lemma trim_empty_pad s : trim s = [] -> pad s.
Proof.
  intros H. destruct (trim_start_suffix s) as (p & E & P). unfold trim in H. destruct (trim_start s) as [|c t] eqn:T; [rewrite E, app_nil_r; exact P|].
  exfalso. assert (W : is_ws c = false) by (pose proof (trim_start_hd s) as Q; rewrite T in Q; apply Q; discriminate).
  unfold trim_end in H. apply (f_equal (@rev BinNums.N)) in H. rewrite rev_involutive in H. cbn [rev] in H.
  destruct (trim_start_suffix (rev t ++ [c])) as (q & E' & P'). rewrite H, app_nil_r in E'. unfold pad in P'. rewrite forallb_forall in P'. specialize (P' c). rewrite <- E' in P'. rewrite P' in W; [discriminate|]. apply in_or_app. right. now left.
Qed.
Lemma trim_split s : exists p q, pad p /\ pad q /\ s = p ++ trim s ++ q.
Proof.
  destruct (trim_start_suffix s) as (p & E & P). destruct (trim_start_suffix (rev (trim_start s))) as (q & E' & P').
  exists p, (rev q). split; [exact P|]. split; [now apply pad_rev|]. rewrite E at 1. f_equal. rewrite <- (rev_involutive (trim_start s)) at 1. rewrite E', rev_app_distr. reflexivity.
Qed.
Lemma hd_trim s c t : trim_start s = c :: t -> is_ws c = false -> hd 0 (trim s) = c.
Proof.
  intros T W. unfold trim. rewrite T. destruct (trim_end (c :: t)) as [|x u] eqn:E.
  - exfalso. assert (pad s). { apply trim_empty_pad. unfold trim. now rewrite T. } rewrite trim_start_all in T by assumption. discriminate.
  - cbn. destruct (trim_start_suffix (rev (c :: t))) as (q & Q & _). apply (f_equal (@rev BinNums.N)) in Q. rewrite rev_involutive, rev_app_distr in Q.
    unfold trim_end in E. rewrite E in Q. cbn in Q. congruence.
Qed.
Lemma trim_start_app s t : ~ pad s -> trim_start (s ++ t) = trim_start s ++ t.
Proof.
  intros N. destruct (trim_start_suffix s) as (p & E & P). destruct (trim_start s) as [|c u] eqn:T; [exfalso; apply N; rewrite E, app_nil_r; exact P|].
  rewrite E, <- app_assoc, trim_start_pad by exact P. apply trim_start_app_solid; [discriminate|]. pose proof (trim_start_hd s) as Q. rewrite T in Q. apply Q. discriminate.
Qed.
(** The first character of a line is that of its beginning, if this is not blank. *)
Lemma hd_trim_app s t : ~ pad s -> hd 0 (trim (s ++ t)) = hd 0 (trim s).
Proof.
  intros N. pose proof (trim_start_app s t N) as A. destruct (trim_start s) as [|c u] eqn:T.
  - exfalso. apply N. destruct (trim_start_suffix s) as (p & E & P). rewrite T, app_nil_r in E. now rewrite E.
  - assert (W : is_ws c = false) by (pose proof (trim_start_hd s) as Q; rewrite T in Q; apply Q; discriminate).
    rewrite (hd_trim s c u T W). now apply (hd_trim _ c (u ++ t)).
Qed.
Lemma pad_dec s : {pad s} + {~ pad s}.
Proof. unfold pad. destruct (forallb is_ws s); [now left|now right]. Qed.
Lemma starts_hd s : starts_with [47; 42] s = true -> hd 0 s = 47.
Proof. destruct s as [|x t]; cbn [starts_with]; [discriminate|]. destruct (N.eqb_spec 47 x); [now intros|discriminate]. Qed.
Lemma starts_trim_app a t : ~ pad a -> ~ occurs2 47 42 a -> starts_with [47; 42] (trim (a ++ 47 :: 42 :: t)) = true -> False.
Proof.
  intros N O S. destruct (trim_split (a ++ 47 :: 42 :: t)) as (p & q & P & _ & E).
  pose proof (trim_start_app a (47 :: 42 :: t) N) as T.
  destruct (trim_start_suffix (rev (trim_start (a ++ 47 :: 42 :: t)))) as (z & Z & _). apply (f_equal (@rev BinNums.N)) in Z. rewrite rev_involutive, rev_app_distr in Z. fold (trim_end (trim_start (a ++ 47 :: 42 :: t))) in Z. fold (trim (a ++ 47 :: 42 :: t)) in Z.
  rewrite T in Z. destruct (trim_start_suffix a) as (y & Y & _). assert (NE : trim_start a <> []) by (intros X; apply N; destruct (trim_start_suffix a) as (p' & E' & P'); rewrite X, app_nil_r in E'; now rewrite E').
  destruct (trim (a ++ 47 :: 42 :: t)) as [|u [|v w]] eqn:R; [discriminate| |].
  - cbn [starts_with] in S. rewrite andb_false_r in S. discriminate.
  - cbn [starts_with] in S. destruct (N.eqb_spec 47 u); [|discriminate]. destruct (N.eqb_spec 42 v); [|discriminate]. subst u v. cbn in Z.
    destruct (trim_start a) as [|x [|x' l]]; [contradiction| |]; cbn in Z; [injection Z as -> E2 _; discriminate|]. injection Z as -> -> _. apply O. rewrite Y. exists y, l. reflexivity.
Qed.

(** A comment that is never closed hides the rest of its line and nothing else. *)
Theorem C21_comment_open pre post a x : ~ occurs2 47 42 a -> ~ occurs2 42 47 x -> hd 0 (trim a) <> 92 ->
  parse_lines (pre ++ (a ++ [47; 42] ++ x) :: post) = parse_lines (pre ++ a :: post).
Proof.
  intros A X D. apply feed_lines_eq. intros st. cbn [app].
  assert (Sa : strip_comments a = a) by (apply strip_none; exact A).
  destruct (pad_dec a) as [P|P].
  - apply feed_same; rewrite ?(strip_open a x A X), ?Sa; try reflexivity; try (intros _; now apply trim_all).
    + rewrite (hd_trim _ 47 (42 :: x)); [discriminate| |reflexivity]. rewrite trim_start_pad by exact P. reflexivity.
    + exact D.
  - apply feed_same; rewrite ?(strip_open a x A X), ?Sa; try reflexivity.
    + now rewrite hd_trim_app.
    + exact D.
    + intros C. apply andb_true_iff in C as (C & _). now apply starts_trim_app in C.
    + intros C. apply andb_true_iff in C as (C & _). exfalso. apply A. apply starts2 in C. destruct (trim_split a) as (p & q & _ & _ & E). rewrite E. now apply occurs2_app.
Qed.
(** A closed comment after the beginning of an assignment counts as nothing. *)
Theorem C21_comment_closed pre post a x b : trim a <> [] -> ~ occurs2 47 42 a -> ~ occurs2 42 47 x -> ~ occurs2 47 42 (a ++ b) -> hd 0 (trim a) <> 92 ->
  parse_lines (pre ++ (a ++ [47; 42] ++ x ++ [42; 47] ++ b) :: post) = parse_lines (pre ++ (a ++ b) :: post).
Proof.
  intros NE A X B D. assert (P : ~ pad a) by (intros Q; now apply NE, trim_all). apply feed_lines_eq. intros st. cbn [app].
  assert (Ob : ~ occurs2 47 42 b) by (intros (u & v & ->); apply B; exists (a ++ u), v; now rewrite <- app_assoc).
  apply feed_same; rewrite ?(strip_closed a x b A X Ob), ?(strip_none _ (a ++ b) B).
  - now rewrite hd_trim_app.
  - now rewrite hd_trim_app.
  - unfold strip_comments. now rewrite strip_none.
  - intros C. apply andb_true_iff in C as (C & _). now apply starts_trim_app in C.
  - intros C. apply andb_true_iff in C as (C & _). exfalso. apply B. apply starts2 in C. destruct (trim_split (a ++ b)) as (p & q & _ & _ & E). rewrite E. now apply occurs2_app.
Qed.
(** An assignment between two comments on one line is lost without an error. *)
Theorem C21_between_comments_refuted : parse_lines (map lit ["\begindata"; "/* a */ K = 1 /* b */"]) = Some (Ok []) /\ parse_lines (map lit ["\begindata"; " K = 1 /* b */"]) = Some (Ok [(lit "K", TInt 1)]).
Proof. split; vm_compute; reflexivity. Qed.

(** ** An unfinished assignment at the end *)
Definition in_data (ls : list str) : Prop := exists a o b, ls = a ++ o :: b /\ opens o /\ Forall (fun l => ~ opens l /\ ~ closes l) b.
Lemma word_is_iff t w : word_is t w = true <-> map lower t = w.
Proof. unfold word_is. destruct (str_eqb_spec (map lower t) w); split; congruence. Qed.
Lemma feed_keeps l st st' : ~ opens l -> ~ closes l -> feed st l = Some (Ok st') -> fst (fst st') = fst (fst st).
Proof.
  intros O C. destruct st as ((i, stmt), d). unfold feed.
  assert (W1 : word_is (trim l) begindata = false) by (destruct (word_is (trim l) begindata) eqn:E; [apply word_is_iff in E; contradiction|reflexivity]).
  assert (W2 : word_is (trim l) begintext = false) by (destruct (word_is (trim l) begintext) eqn:E; [apply word_is_iff in E; contradiction|reflexivity]).
  rewrite W1, W2. destruct (negb i); [intros E; now injection E as <-|]. destruct (_ && _)%bool; [intros E; now injection E as <-|].
  destruct (trim (strip_comments l)); [intros E; now injection E as <-|]. cbv zeta. destruct (negb (statement_complete _)); [intros E; now injection E as <-|].
  destruct (parse_assignment _) as [[((k, ap), v)| |]|]; intros E; try discriminate. now injection E as <-.
Qed.
Definition lively (s : str) : Prop := s = [] \/ ~ pad s.
Lemma feed_lively l st st' : lively (snd (fst st)) -> feed st l = Some (Ok st') -> lively (snd (fst st')).
Proof.
  destruct st as ((i, stmt), d). cbn [fst snd]. intros L. unfold feed. destruct (word_is _ begindata); [intros E; injection E as <-; now left|]. destruct (word_is _ begintext); [intros E; injection E as <-; now left|].
  destruct (negb i); [intros E; injection E as <-; exact L|]. destruct (_ && _)%bool; [intros E; injection E as <-; exact L|].
  destruct (trim (strip_comments l)) as [|c t] eqn:T; [intros E; injection E as <-; exact L|]. cbv zeta.
  assert (NC : ~ pad (c :: t)). { intros P. pose proof (trim_is_solid (strip_comments l)) as Q. rewrite T in Q. destruct Q as [Q|(Q & _)]; [discriminate|]. unfold pad in P. cbn in P, Q. rewrite Q in P. discriminate. }
  destruct (negb (statement_complete _)).
  - intros E. injection E as <-. cbn [fst snd]. right. destruct stmt as [|y u]; [exact NC|]. intros P. apply NC. unfold pad in *. rewrite forallb_forall in *. intros z Z. apply P. apply in_or_app. right. now right.
  - destruct (parse_assignment _) as [[((k, ap), v)| |]|]; intros E; try discriminate. injection E as <-. now left.
Qed.
Lemma feed_all_lively ls : forall st st', lively (snd (fst st)) -> feed_all st ls = Some (Ok st') -> lively (snd (fst st')).
Proof.
  induction ls as [|l ls IH]; intros st st' L; cbn [feed_all]; [intros E; injection E as <-; exact L|].
  destruct (feed st l) as [[s| |]|] eqn:F; try discriminate. intros E. eapply IH; [|exact E]. eapply feed_lively; eassumption.
Qed.
Lemma feed_all_split ls1 ls2 st st' : feed_all st (ls1 ++ ls2) = Some (Ok st') -> exists m, feed_all st ls1 = Some (Ok m) /\ feed_all m ls2 = Some (Ok st').
Proof.
  revert st. induction ls1 as [|l ls1 IH]; intros st; cbn [app feed_all]; [intros E; now exists st|]. destruct (feed st l) as [[s| |]|]; try discriminate. apply IH.
Qed.
Lemma feed_all_keeps ls : forall st st', Forall (fun l => ~ opens l /\ ~ closes l) ls -> feed_all st ls = Some (Ok st') -> fst (fst st') = fst (fst st).
Proof.
  induction ls as [|l ls IH]; intros st st' F; cbn [feed_all]; [intros E; now injection E as <-|]. inversion F as [|? ? (A & B) F']; subst.
  destruct (feed st l) as [[s| |]|] eqn:Q; try discriminate. intros E. rewrite (IH _ _ F' E). eapply feed_keeps; eassumption.
Qed.
Lemma accepted_ready ls d : in_data ls -> parse_lines ls = Some (Ok d) -> feed_all (false, [], []) ls = Some (Ok (ready d)).
Proof.
  intros (a & o & b & -> & O & B) P. unfold parse_lines in P. destruct (feed_all (false, [], []) (a ++ o :: b)) as [[((i, stmt), d')| |]|] eqn:F; try discriminate.
  destruct (trim stmt) eqn:T; [|discriminate]. injection P as <-. destruct (feed_all_split _ _ _ _ F) as (m & F1 & F2).
  cbn [feed_all] in F2. destruct m as (m1, m2). rewrite (feed_opens o m1 m2 O) in F2. pose proof (feed_all_keeps _ _ _ B F2) as K. cbn in K. subst i.
  assert (L : lively stmt). { apply (feed_all_lively _ (false, [], []) (true, stmt, d')) in F; [exact F|now left]. } destruct L as [->|L]; [reflexivity|]. exfalso. apply L. now apply trim_empty_pad.
Qed.
(** A file that ends inside a parenthesis is refused. *)
Theorem C21_unfinished ls d k app p q l s raw : in_data ls -> parse_lines ls = Some (Ok d) ->
  name_ok k -> blanks p -> blanks q -> items l s -> solid (40 :: s) -> ~ occurs2 47 42 (k ++ p ++ op app ++ q ++ 40 :: s) -> padded (k ++ p ++ op app ++ q ++ 40 :: s) raw ->
  parse_lines (ls ++ [raw]) = Some (Err Unterminated).
Proof.
  intros I P N Bp Bq It So Q R. set (st := k ++ p ++ op app ++ q ++ 40 :: s) in *.
  assert (Nk : exists c t, k = c :: t) by (destruct N as (N & _); destruct k; [contradiction|eauto]). destruct Nk as (c & t & Ek).
  assert (Hc : c <> 92) by (apply (name_char k c N); rewrite Ek; now left).
  assert (Sol : solid st). { right. split; [unfold st; rewrite Ek; cbn; destruct N as (_ & [N|(N & _)] & _); [congruence|rewrite Ek in N; exact N]|]. unfold st. rewrite !app_assoc, last_app_ne by discriminate. destruct So as [So|(_ & So)]; [discriminate|exact So]. }
  assert (NE : st <> []) by (unfold st; rewrite Ek; discriminate).
  assert (Inc : statement_complete st = false).
  { unfold statement_complete, st. rewrite scan_name, scan_blanks, scan_op, scan_blanks by assumption. cbn [scan N.eqb Pos.eqb orb]. pose proof (proj2 scan_written l s It [] (0 + 1)%Z) as Z. rewrite app_nil_r in Z. rewrite Z. reflexivity. }
  unfold parse_lines. rewrite (feed_app ls [raw] _ _ (accepted_ready ls d I P)). cbn [feed_all]. unfold ready. rewrite (feed_piece [] d st raw R NE Sol); [|unfold st; rewrite Ek; exact Hc|exact Q].
  cbv zeta. rewrite Inc. cbn [negb]. rewrite (trim_solid _ Sol). unfold st. rewrite Ek. reflexivity.
Qed.

(** Text after a complete value is refused. *)
Theorem C22_trailing k append v p q s r rest : name_ok k -> blanks p -> blanks q -> written v s -> sep_char r -> solid rest -> skip_delims rest <> [] ->
  (append = false -> ~ occurs2 43 61 (k ++ p ++ op append ++ q ++ s ++ r :: rest)) ->
  parse_assignment (k ++ p ++ op append ++ q ++ s ++ r :: rest) = Some (Err Trailing).
Proof.
  intros N Bp Bq W Sr So K Q. unfold parse_assignment.
  assert (NE : rest <> []) by (intros ->; now apply K).
  assert (Sp : match split2 43 61 (k ++ p ++ op append ++ q ++ s ++ r :: rest) with Some (a, b) => Some (a, b, true) | None => match split1 61 (k ++ p ++ op append ++ q ++ s ++ r :: rest) with Some (a, b) => Some (a, b, false) | None => None end end = Some (k ++ p, q ++ s ++ r :: rest, append)).
  { assert (A : forall c, c = 43 \/ c = 61 -> ~ In c (k ++ p)). { intros c C I. apply in_app_or in I as [I|I]; [pose proof (name_char k c N I); destruct C; subst; tauto|]. destruct (blank_char p c Bp I), C; subst; discriminate. }
    destruct append.
    - cbn [op]. rewrite app_assoc. cbn [app]. rewrite split2_app by (apply A; now left). reflexivity.
    - rewrite (proj2 (split2_none 43 61 _) (Q eq_refl)). cbn [op app]. rewrite app_assoc. rewrite split1_app by (apply A; now right). reflexivity. }
  rewrite Sp.
  assert (Tk : trim (k ++ p) = k). { destruct N as (N1 & N2 & _). rewrite <- (app_nil_l (k ++ p)). apply trim_pad; [reflexivity|now apply blanks_pad|exact N1|exact N2]. }
  rewrite Tk. destruct N as (Nk & _). destruct k as [|kc kt]; [contradiction|].
  destruct (written_solid v s W) as (Ws & Wl).
  assert (Tv : trim (q ++ s ++ r :: rest) = s ++ r :: rest).
  { rewrite <- (app_nil_r (s ++ r :: rest)) at 1. apply trim_pad; [now apply blanks_pad|reflexivity|destruct s; [contradiction|discriminate]|].
    right. split; [destruct s as [|y u]; [contradiction|]; destruct Wl as [Wl|(Wl & _)]; [discriminate|exact Wl]|].
    replace (s ++ r :: rest) with ((s ++ [r]) ++ rest) by (rewrite <- app_assoc; reflexivity). rewrite last_app_ne by exact NE. destruct So as [So|(_ & So)]; [contradiction|exact So]. }
  rewrite Tv. assert (St : stop (hd 0 (r :: rest)) = true) by (cbn [hd]; destruct Sr as [-> | [-> | ->]]; reflexivity).
  rewrite (proj1 read_written v s W (vfuel (s ++ r :: rest)) (r :: rest)).
  - cbn [skip_delims]. replace (is_delim r) with true by (destruct Sr as [-> | [-> | ->]]; reflexivity). destruct (skip_delims rest); [contradiction|reflexivity].
  - unfold vfuel. rewrite app_length. lia.
  - auto.
Qed.
Example C22_trailing_case : parse_assignment (lit "K = 12 34") = Some (Err Trailing) /\ parse_assignment (lit "K = (1 2) 'x'") = Some (Err Trailing).
Proof. split; vm_compute; reflexivity. Qed.
Example C21_unfinished_case : in_data (map lit ["\begindata"; "A = 1"]) /\ parse_lines (map lit ["\begindata"; "A = 1"; "K = ( 1 2"]) = Some (Err Unterminated).
Proof. split; [|vm_compute; reflexivity]. exists [], (lit "\begindata"), [lit "A = 1"]. repeat constructor; discriminate. Qed.
Example C21_comment_case : parse_lines (map lit ["\begindata"; "A = 1 /* one"; "B = ( 1 /* two */ 2 )"]) = Some (Ok [(lit "B", TArr [TInt 1; TInt 2]); (lit "A", TInt 1)]).
Proof. vm_compute. reflexivity. Qed.
Print Assumptions C21_comment_open.
Print Assumptions C21_comment_closed.
Print Assumptions C21_unfinished.
Print Assumptions C22_trailing.
