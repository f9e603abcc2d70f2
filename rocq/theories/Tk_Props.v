(** C21, C22: text kernels. *)
From Coq Require Import Ascii String List NArith ZArith QArith Lia Bool.
From Verif Require Import Base Text DecFloat Omm_Model Tk_Model Tk_Spec Tk_Proofs.
Import ListNotations.
Local Open Scope N_scope.
Local Open Scope string_scope.
Local Open Scope list_scope.

(** Reading a kernel gives each variable what its own assignments add up to. *)
Theorem C21_accumulate l ls : kernel_lines l ls ->
  exists d, parse_lines ls = Some (Ok d) /\ forall k, get d k = final k l.
Proof. intros H. eexists. split; [apply (kernel_table l ls H)|]. intros k. apply table_final. Qed.

(** The same from the file text, line by line. *)
Theorem C21_accumulate_text l ls : kernel_lines l (ls ++ [[]]) -> Forall (fun x => ~ In 10 x) ls -> ls <> [] ->
  exists d, parse (concat (map (fun x => x ++ [10]) ls)) = Some (Ok d) /\ forall k, get d k = final k l.
Proof. intros H N E. unfold parse. rewrite split_lines_join by assumption. now apply C21_accumulate. Qed.

(** What the assignments of a name add up to: everything since the last plain one, in order. *)
Theorem C21_value k v pre ak post : same_name k (Assign ak false v) = true ->
  (forall a, In a post -> same_name k a = true -> a_app a = true) ->
  final k (pre ++ Assign ak false v :: post) =
    Some (match filter (same_name k) post with
          | [] => v
          | apps => TArr (parts v ++ concat (map (fun a => parts (a_val a)) apps))
          end).
Proof.
  intros Hk Hp. unfold final. rewrite filter_app. cbn [filter]. rewrite Hk, fold_left_app. cbn [fold_left].
  assert (Ha : Forall (fun a => a_app a = true) (filter (same_name k) post)).
  { apply Forall_forall. intros a X. apply filter_In in X as [X1 X2]. auto. }
  unfold effect at 2. cbn [a_app a_val].
  assert (G : forall apps acc, Forall (fun a => a_app a = true) apps -> apps <> [] ->
    fold_left effect apps (Some acc) = Some (TArr (parts acc ++ concat (map (fun a => parts (a_val a)) apps)))).
  { induction apps as [|a apps IH]; intros acc F N; [congruence|]. apply Forall_cons_iff in F as [Fa F]. cbn [fold_left map concat].
    unfold effect at 2. rewrite Fa. destruct apps as [|b apps]; [cbn; now rewrite app_nil_r|].
    rewrite IH; auto; [|discriminate]. cbn [parts]. now rewrite <- app_assoc. }
  destruct (filter (same_name k) post) as [|a apps] eqn:E; [reflexivity|]. rewrite <- E in *. apply G; [assumption|congruence].
Qed.
Theorem C21_appended_only k l : filter (same_name k) l <> [] -> (forall a, In a l -> same_name k a = true -> a_app a = true) ->
  final k l = Some (TArr (concat (map (fun a => parts (a_val a)) (filter (same_name k) l)))).
Proof.
  intros N Hp. unfold final. assert (Ha : Forall (fun a => a_app a = true) (filter (same_name k) l)).
  { apply Forall_forall. intros a X. apply filter_In in X as [X1 X2]. auto. }
  assert (G : forall apps acc, Forall (fun a => a_app a = true) apps ->
    fold_left effect apps (Some (TArr acc)) = Some (TArr (acc ++ concat (map (fun a => parts (a_val a)) apps)))).
  { induction apps as [|a apps IH]; intros acc F; [cbn; now rewrite app_nil_r|]. apply Forall_cons_iff in F as [Fa F]. cbn [fold_left map concat].
    unfold effect at 2. rewrite Fa. rewrite IH by assumption. cbn [parts]. now rewrite <- app_assoc. }
  destruct (filter (same_name k) l) as [|a apps]; [congruence|]. apply Forall_cons_iff in Ha as [Fa F]. cbn [fold_left map concat].
  unfold effect at 2. rewrite Fa. cbn [app]. now apply G.
Qed.

(** The value parser reads every written value back and ends on every input. *)
Theorem C22_roundtrip k append v p q s : name_ok k -> blanks p -> blanks q -> written v s ->
  (append = false -> ~ occurs2 43 61 (k ++ p ++ op append ++ q ++ s)) ->
  parse_assignment (k ++ p ++ op append ++ q ++ s) = Some (Ok (map upper k, append, v)).
Proof. exact (assignment_text k append v p q s). Qed.
Theorem C22_value v s : written v s -> parse_value (vfuel s) s = Some (Ok (v, [])).
Proof.
  intros W. pose proof (proj1 read_written v s W (vfuel s) []) as R. rewrite app_nil_r in R. apply R; [unfold vfuel; lia|auto].
Qed.
Theorem C22_unambiguous v w s : written v s -> written w s -> v = w.
Proof. intros H1 H2. apply C22_value in H1, H2. congruence. Qed.
Theorem C22_total s : exists r, parse_value (vfuel s) s = Some r /\ r <> Panic.
Proof. exact (parse_value_total s). Qed.
(** Every text is read to the end with a table or an error. *)
Theorem C22_parse_total src : exists r, parse src = Some r /\ r <> Panic.
Proof.
  unfold parse, parse_lines.
  assert (A : forall st, exists r, parse_assignment st = Some r /\ r <> Panic).
  { intros st. unfold parse_assignment. destruct (match split2 43 61 st with Some (k, v) => _ | None => _ end) as [[[k v] ap]|]; [|eexists; split; [reflexivity|discriminate]].
    destruct (trim k); [eexists; split; [reflexivity|discriminate]|]. destruct (parse_value_total (trim v)) as (r & -> & Np).
    destruct r as [[x b]|e|]; [|eexists; split; [reflexivity|discriminate]|congruence]. destruct (skip_delims b); eexists; (split; [reflexivity|discriminate]). }
  assert (F : forall st l, exists r, feed st l = Some r /\ r <> Panic).
  { intros [[i stmt] d] l. unfold feed. destruct (word_is _ _); [eexists; split; [reflexivity|discriminate]|].
    destruct (word_is _ _); [eexists; split; [reflexivity|discriminate]|]. destruct (negb i); [eexists; split; [reflexivity|discriminate]|].
    destruct (_ && _)%bool; [eexists; split; [reflexivity|discriminate]|]. destruct (trim (strip_comments l)) as [|c t]; [eexists; split; [reflexivity|discriminate]|].
    cbv zeta. destruct (negb _); [eexists; split; [reflexivity|discriminate]|].
    match goal with |- context [parse_assignment ?x] => destruct (A x) as (r & -> & Np) end.
    destruct r as [[[k ap] v]|e|]; [| |congruence]; eexists; (split; [reflexivity|discriminate]). }
  assert (G : forall ls st, exists r, feed_all st ls = Some r /\ r <> Panic).
  { induction ls as [|l ls IH]; intros st; cbn [feed_all]; [eexists; split; [reflexivity|discriminate]|].
    destruct (F st l) as (r & -> & Np). destruct r as [st'|e|]; [apply IH|eexists; split; [reflexivity|discriminate]|congruence]. }
  destruct (G (split_lines src) (false, [], [])) as (r & -> & Np). destruct r as [[[i stmt] d]|e|]; [|eexists; split; [reflexivity|discriminate]|congruence].
  destruct (trim stmt); eexists; (split; [reflexivity|discriminate]).
Qed.

(** A kernel with indentation, comments, a text block and an array over three lines. *)
Definition sample : list str := map lit
  ["Text before"; "\begindata"; "  A = ( 1,2"; "   3"; "  'x' )"; ""; "/* note */"; "\begintext"; "A = 9"; "\begindata"; "a += -1.5E2"; "B = 7"; ""].
Definition sample_assigns : list assignment :=
  [Assign (lit "A") false (TArr ([TInt 1; TInt 2] ++ [TInt 3] ++ [TText (lit "x")]));
   Assign (lit "a") true (TFlt (Fin (qsgn true (QofN 15 * p10 1)))); Assign (lit "B") false (TInt 7)].
Example C21_case : kernel_lines sample_assigns sample /\
  final (lit "a") sample_assigns = Some (TArr [TInt 1; TInt 2; TInt 3; TText (lit "x"); TFlt (Fin (qsgn true (QofN 15 * p10 1)))]).
Proof.
  assert (Quiet : forall b s, split2 47 42 s = None -> split2 43 61 s = None -> quiet b s).
  { intros b s H1 H2. split; [now apply split2_none|intros _; now apply split2_none]. }
  assert (Q2 : forall s, split2 47 42 s = None -> quiet true s).
  { intros s H1. split; [now apply split2_none|discriminate]. }
  assert (Nm : forall k, k = lit "A" \/ k = lit "a" \/ k = lit "B" -> name_ok k).
  { intros k [->|[->| ->]]; (split; [discriminate|]); (split; [right; split; reflexivity|]); repeat constructor; discriminate. }
  split; [|reflexivity]. unfold sample. cbn [map].
  apply (kl_data [lit "Text before"] (lit "\begindata")); [repeat constructor; discriminate|reflexivity|].
  apply (dl_assign _ [lit "A = ( 1,2"; lit "3"; lit "'x' )"] [lit "  A = ( 1,2"; lit "   3"; lit "  'x' )"]).
  - apply (al_many (lit "A") false (lit " ") (lit " ") [TInt 1; TInt 2] (lit " 1,2") [([TInt 3], lit "3")] [TText (lit "x")] (lit "'x' ")).
    + apply Nm; auto.
    + repeat constructor.
    + repeat constructor.
    + apply (i_cons (lit " ") (TInt 1) (lit "1") [TInt 2] (lit ",2")); [repeat constructor| | |right; left; right; right; reflexivity].
      * apply (w_int 1). lia.
      * apply (i_cons (lit ",") (TInt 2) (lit "2") [] []); [constructor; [right; right; reflexivity|constructor]| | |left; reflexivity].
        -- apply (w_int 2). lia.
        -- constructor. constructor.
    + apply (i_cons [] (TText (lit "x")) (lit "'x'") [] (lit " ")); [constructor| | |right; left; left; reflexivity].
      * apply (w_text 39 (lit "x")); [auto|]. intros [X|[]]; discriminate.
      * constructor. repeat constructor.
    + constructor; [|constructor]. split; [|split; [discriminate|right; split; reflexivity]].
      apply (i_cons [] (TInt 3) (lit "3") [] []); [constructor| | |left; reflexivity].
      * apply (w_int 3). lia.
      * constructor. constructor.
    + right. split; reflexivity.
    + right. split; reflexivity.
    + apply Quiet; reflexivity.
  - repeat constructor; [exists (lit "  "), []|exists (lit "   "), []|exists (lit "  "), []]; repeat split.
  - apply dl_blank; [reflexivity|]. apply (dl_comment _ (lit " note ")); [reflexivity|].
    apply (dl_text (lit "\begintext") [lit "A = 9"] (lit "\begindata")); [reflexivity|repeat constructor; discriminate|reflexivity|].
    apply (dl_assign _ [lit "a += -1.5E2"] [lit "a += -1.5E2"]).
    + apply (al_one (lit "a") true _ (lit " ") (lit " ") (lit "-1.5E2")); [apply Nm; auto|repeat constructor|repeat constructor| |apply Q2; reflexivity].
      apply (w_float true (lit "1") (lit "5") (lit "E2") 2); [reflexivity|reflexivity|discriminate|reflexivity].
    + repeat constructor. exists [], []. repeat split.
    + apply (dl_assign _ [lit "B = 7"] [lit "B = 7"]).
      * apply (al_one (lit "B") false _ (lit " ") (lit " ") (lit "7")); [apply Nm; auto|repeat constructor|repeat constructor| |apply Quiet; reflexivity].
        apply (w_int 7). lia.
      * repeat constructor. exists [], []. repeat split.
      * apply dl_blank; [reflexivity|]. apply dl_end.
Qed.

(** A quoted [+=] turns a plain assignment into an append to a broken name. *)
Theorem C22_quoted_plus_refuted : written (TText (lit "a+=b")) (lit "'a+=b'") /\
  parse_assignment (lit "K = 'a+=b'") <> Some (Ok (lit "K", false, TText (lit "a+=b"))).
Proof.
  split; [|vm_compute; discriminate]. apply (w_text 39 (lit "a+=b")); [auto|]. cbn. intros H. repeat (destruct H as [H|H]; [discriminate|]). exact H.
Qed.
(** Numbers with a Fortran exponent, as in the published leap-second kernels, are read as text. *)
Theorem C22_fortran_refuted : parse_assignment (lit "DELTET/K = 1.657D-3") = Some (Ok (lit "DELTET/K", false, TText (lit "1.657D-3"))).
Proof. vm_compute. reflexivity. Qed.
(** Comment markers inside quotes are removed. *)
Theorem C22_quoted_comment_refuted : parse_lines (map lit ["\begindata"; "K = 'a/*b*/c'"]) = Some (Ok [(lit "K", TText (lit "ac"))]).
Proof. vm_compute. reflexivity. Qed.
(** An unfinished assignment before a text block is dropped without an error. *)
Theorem C21_unfinished_refuted : parse_lines (map lit ["\begindata"; "K = ( 1"; "\begintext"]) = Some (Ok []).
Proof. vm_compute. reflexivity. Qed.

Print Assumptions C21_accumulate.
Print Assumptions C21_accumulate_text.
Print Assumptions C21_value.
Print Assumptions C21_appended_only.
Print Assumptions C22_roundtrip.
Print Assumptions C22_value.
Print Assumptions C22_total.
Print Assumptions C22_parse_total.
