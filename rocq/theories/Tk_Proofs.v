(** Lemmas about text kernels. *)
From Coq Require Import Ascii String List NArith ZArith QArith Lia Bool.
From Coq Require Import ZifyBool ZifyNat ZifyN.
From Verif Require Import Base Text DecFloat Omm_Model Omm_Proofs Tk_Model Tk_Spec.
Import ListNotations.
Local Open Scope N_scope.
Local Open Scope list_scope.
Local Notation length := List.length.

(** ** Totality of the value parser *)
Lemma skip_len s : (length (skip_delims s) <= length s)%nat.
Proof.
  induction s as [|c t IH]; cbn; [lia|]. destruct (is_delim c); cbn; lia.
Qed.
Lemma bare_len s a b : bare s = (a, b) -> (length b <= length s)%nat /\ (a <> [] -> (length b < length s)%nat).
Proof.
  revert a b; induction s as [|c t IH]; intros a b; cbn; [intros [= <- <-]; split; [cbn; lia|congruence]|].
  destruct (is_ws c || (c =? 44) || (c =? 41)); [intros [= <- <-]; split; [cbn; lia|congruence]|].
  destruct (bare t) as [a' b'] eqn:E. intros [= <- <-]. destruct (IH a' b' eq_refl) as [H _]. split; [|intros _]; cbn; lia.
Qed.
Lemma parse_string_len q s a b : parse_string q s = Ok (a, b) -> (length b < length s)%nat.
Proof.
  revert a b; induction s as [|c t IH]; intros a b; cbn; [discriminate|].
  destruct (c =? q); [intros [= <- <-]; cbn; lia|]. destruct (parse_string q t) as [[a' b']|e|]; cbn; try discriminate.
  intros [= <- <-]. specialize (IH a' b' eq_refl). cbn. lia.
Qed.
Lemma parse_string_np q s : parse_string q s <> Panic.
Proof. induction s as [|c t IH]; cbn; [discriminate|]. destruct (c =? q); [discriminate|]. destruct (parse_string q t) as [[? ?]|e|]; cbn; congruence. Qed.
Lemma parse_bare_len s v r : parse_bare s = Ok (v, r) -> (length r < length s)%nat.
Proof.
  unfold parse_bare. destruct (bare s) as [a b] eqn:E. destruct (trim a) eqn:T; [discriminate|]. intros [= _ <-].
  apply (bare_len s a b E). intros ->. discriminate.
Qed.
Lemma parse_bare_np s : parse_bare s <> Panic.
Proof. unfold parse_bare. destruct (bare s) as [a b]. destruct (trim a); discriminate. Qed.

Lemma value_total n : forall s f, (length s <= n)%nat ->
  ((2 * length s < f)%nat -> exists r, parse_value f s = Some r /\ r <> Panic /\ forall v b, r = Ok (v, b) -> (length b < length s)%nat) /\
  ((2 * length s + 1 < f)%nat -> forall acc, exists r, parse_items f s acc = Some r /\ r <> Panic /\ forall v b, r = Ok (v, b) -> (length b < length s)%nat).
Proof.
  induction n as [|n IH]; intros s f Hn.
  - destruct s; [|cbn in Hn; lia]. split; intros Hf; (destruct f as [|f]; [lia|]); cbn; [|intros acc]; eexists; (split; [reflexivity|]); split; discriminate.
  - assert (Pv : (2 * length s < f)%nat -> exists r, parse_value f s = Some r /\ r <> Panic /\ forall v b, r = Ok (v, b) -> (length b < length s)%nat).
    { intros Hf. destruct f as [|f]; [lia|]. cbn [parse_value]. pose proof (skip_len s) as Hs.
      destruct (skip_delims s) as [|c t]; [eexists; split; [reflexivity|]; split; discriminate|]. cbn in Hs.
      destruct (c =? 40).
      - destruct (proj2 (IH t f ltac:(lia)) ltac:(lia) []) as (r & -> & Np & L). eexists. split; [reflexivity|]. split; [exact Np|].
        intros v b E. specialize (L v b E). lia.
      - destruct ((c =? 39) || (c =? 34)).
        + eexists. split; [reflexivity|]. pose proof (parse_string_np c t). destruct (parse_string c t) as [[a b]|e|] eqn:E; cbn; [|split; discriminate|congruence].
          split; [discriminate|]. intros v b' [= _ <-]. apply parse_string_len in E. lia.
        + eexists. split; [reflexivity|]. split; [apply parse_bare_np|]. intros v b E. apply parse_bare_len in E. cbn in E. lia. }
    split; [exact Pv|]. intros Hf acc. destruct f as [|f]; [lia|]. cbn [parse_items]. pose proof (skip_len s) as Hs.
    destruct (skip_delims s) as [|c t] eqn:Sk; [eexists; split; [reflexivity|]; split; discriminate|]. cbn in Hs.
    destruct (c =? 41); [eexists; split; [reflexivity|]; split; [discriminate|]; intros v b [= _ <-]; lia|].
    assert (V : exists r, parse_value f (c :: t) = Some r /\ r <> Panic /\ forall v b, r = Ok (v, b) -> (length b < length (c :: t))%nat).
    { destruct (Nat.eq_dec (length (c :: t)) (S n)) as [El|El].
      - assert (El2 : length s = length (c :: t)) by (cbn in *; lia).
        clear - IH El El2 Hf Hn. cbn [List.length] in *.
        destruct f as [|f]; [lia|]. cbn [parse_value]. pose proof (skip_len (c :: t)) as Hs. cbn [List.length] in Hs.
        destruct (skip_delims (c :: t)) as [|c' t']; [eexists; split; [reflexivity|]; split; discriminate|]. cbn in Hs.
        destruct (c' =? 40).
        + destruct (proj2 (IH t' f ltac:(lia)) ltac:(lia) []) as (r & -> & Np & L). eexists. split; [reflexivity|]. split; [exact Np|].
          intros v b E. specialize (L v b E). lia.
        + destruct ((c' =? 39) || (c' =? 34)).
          * eexists. split; [reflexivity|]. pose proof (parse_string_np c' t'). destruct (parse_string c' t') as [[a b]|e|] eqn:E; cbn; [|split; discriminate|congruence].
            split; [discriminate|]. intros v b' [= _ <-]. apply parse_string_len in E. lia.
          * eexists. split; [reflexivity|]. split; [apply parse_bare_np|]. intros v b E. apply parse_bare_len in E. cbn in E. lia.
      - apply (proj1 (IH (c :: t) f ltac:(cbn in *; lia))). cbn in *. lia. }
    destruct V as (r & -> & Np & L). destruct r as [[v b]|e|]; [|eexists; split; [reflexivity|]; split; discriminate|congruence].
    specialize (L v b eq_refl). cbn in L.
    destruct (proj2 (IH b f ltac:(lia)) ltac:(lia) (v :: acc)) as (r & -> & Np' & L').
    eexists. split; [reflexivity|]. split; [exact Np'|]. intros v' b' E. specialize (L' v' b' E). lia.
Qed.
Theorem parse_value_total s : exists r, parse_value (vfuel s) s = Some r /\ r <> Panic.
Proof.
  destruct (proj1 (value_total (length s) s (vfuel s) (le_n _))) as (r & E & N & _); [unfold vfuel; lia|]. eauto.
Qed.

(** ** Reading written values *)
Definition stop (c : N) : bool := is_ws c || (c =? 44) || (c =? 41).
Lemma bare_app s rest : forallb (fun c => negb (stop c)) s = true -> (rest = [] \/ stop (hd 0 rest) = true) -> bare (s ++ rest) = (s, rest).
Proof.
  intros H Hr. induction s as [|c t IH]; cbn [app].
  - destruct rest as [|c r]; [reflexivity|]. destruct Hr as [?|Hr]; [discriminate|]. cbn in *. unfold stop in Hr. now rewrite Hr.
  - cbn in H. apply andb_prop in H as [H1 H2]. cbn [bare]. unfold stop in H1. apply negb_true_iff in H1. rewrite H1, IH by assumption. reflexivity.
Qed.
Definition numchar (c : N) : bool := is_digit c || (c =? 45) || (c =? 43) || (c =? 46) || (c =? 101) || (c =? 69).
Lemma numchar_stop c : numchar c = true -> negb (stop c) = true.
Proof. unfold numchar, stop, is_digit, is_ws. lia. Qed.
Lemma forallb_impl (f g : N -> bool) s : (forall c, f c = true -> g c = true) -> forallb f s = true -> forallb g s = true.
Proof. intros H. rewrite !forallb_forall. auto. Qed.
Lemma digits_num s : forallb is_digit s = true -> forallb numchar s = true.
Proof. apply forallb_impl. unfold numchar. intros c ->. reflexivity. Qed.
Lemma parse_exp_num ex e : parse_exp ex = Some e -> forallb numchar ex = true.
Proof.
  destruct ex as [|c t]; [reflexivity|]. cbn [parse_exp]. destruct ((c =? 101) || (c =? 69)) eqn:C; [|discriminate].
  destruct (sign_of t) as [ng d] eqn:S. destruct d as [|d0 d]; [discriminate|]. destruct (forallb is_digit (d0 :: d)) eqn:D; [|discriminate]. intros _.
  cbn [forallb]. apply andb_true_intro. split; [unfold numchar; lia|].
  destruct t as [|x t']; [reflexivity|]. cbn in S. destruct (N.eqb_spec x 43) as [->|]; [injection S as _ ->; exact (digits_num _ D)|].
  destruct (N.eqb_spec x 45) as [->|]; [injection S as _ ->; exact (digits_num _ D)|].
  injection S as _ <- <-. now apply digits_num.
Qed.
Lemma show_num z : forallb numchar (show z) = true /\ show z <> [].
Proof.
  unfold show. pose proof (digits_num _ (dec_digit (Z.abs_N z))) as H. pose proof (dec_nonempty (Z.abs_N z)).
  destruct (z <? 0)%Z; [split; [cbn [forallb]; now rewrite H|discriminate]|auto].
Qed.
Definition flt_text (neg : bool) ip fp ex : str := (if neg then [45] else []) ++ ip ++ (46 :: fp) ++ ex.
Lemma flt_num neg ip fp ex e : forallb is_digit ip = true -> forallb is_digit fp = true -> parse_exp ex = Some e ->
  forallb numchar (flt_text neg ip fp ex) = true /\ flt_text neg ip fp ex <> [].
Proof.
  intros H1 H2 H3. unfold flt_text. split.
  - rewrite !forallb_app. cbn [forallb]. rewrite (digits_num _ H1), (digits_num _ H2), (parse_exp_num _ _ H3). destruct neg; reflexivity.
  - destruct neg; [discriminate|]. destruct ip; discriminate.
Qed.
Lemma parse_int_show z : (-9223372036854775808 <= z <= 9223372036854775807)%Z -> parse_int 9223372036854775807 (show z) = Some z.
Proof.
  intros Hz. unfold show. pose proof (dec_digit (Z.abs_N z)) as D. pose proof (dec_nonempty (Z.abs_N z)) as Ne.
  destruct (Z.ltb_spec z 0).
  - unfold parse_int, sign_of. cbn [N.eqb Pos.eqb]. destruct (dec (Z.abs_N z)) as [|c t] eqn:E; [congruence|]. rewrite <- E in *.
    rewrite D, dval_dec. destruct (N.leb_spec (Z.abs_N z) (9223372036854775807 + 1)); [f_equal; lia|lia].
  - rewrite parse_int_digits by assumption. rewrite dval_dec. destruct (N.leb_spec (Z.abs_N z) 9223372036854775807); [f_equal; lia|lia].
Qed.
Lemma parse_int_flt neg ip fp ex m : forallb is_digit ip = true -> parse_int m (flt_text neg ip fp ex) = None.
Proof.
  intros H1.
  assert (F : forall l, forallb is_digit (ip ++ 46 :: l) = false).
  { intros l. rewrite forallb_app, H1. reflexivity. }
  unfold flt_text. destruct neg; cbn [app].
  - unfold parse_int, sign_of. cbn [N.eqb Pos.eqb]. rewrite F. destruct (ip ++ 46 :: fp ++ ex); reflexivity.
  - unfold parse_int.
    assert (S : sign_of (ip ++ 46 :: fp ++ ex) = (false, ip ++ 46 :: fp ++ ex)).
    { destruct ip as [|c t]; [reflexivity|]. cbn [app]. apply sign_of_digit. cbn in H1. now apply andb_prop in H1 as [-> _]. }
    rewrite S, F. destruct (ip ++ 46 :: fp ++ ex); reflexivity.
Qed.

(** Number tokens are read back by the bare-token parser. *)
Lemma num_solid s : forallb numchar s = true -> solid s.
Proof.
  intros H. unfold solid. destruct s as [|c t] eqn:E; [left; reflexivity|]. rewrite <- E in *. right.
  assert (G : forall c, numchar c = true -> is_ws c = false) by (intros x; unfold numchar, is_ws, is_digit; lia).
  split; apply G.
  - rewrite E in *. cbn in *. now apply andb_prop in H as [-> _].
  - apply forallb_last; [assumption|congruence].
Qed.
Lemma num_value f s rest : forallb numchar s = true -> s <> [] -> (rest = [] \/ stop (hd 0 rest) = true) ->
  (0 < f)%nat -> parse_value f (s ++ rest) = Some (Ok (parse_scalar s, rest)).
Proof.
  intros H Hn Hr Hf. destruct f as [|f]; [lia|]. destruct s as [|c t]; [congruence|]. cbn [app parse_value].
  assert (Hc : numchar c = true) by (cbn in H; now apply andb_prop in H as [-> _]).
  assert (Sk : skip_delims (c :: t ++ rest) = c :: t ++ rest).
  { cbn [skip_delims]. replace (is_delim c) with false; [reflexivity|]. unfold numchar, is_delim, is_ws, is_digit in *. lia. }
  rewrite Sk. destruct (N.eqb_spec c 40); [unfold numchar, is_digit in *; lia|].
  destruct (N.eqb_spec c 39); [unfold numchar, is_digit in *; lia|]. destruct (N.eqb_spec c 34); [unfold numchar, is_digit in *; lia|]. cbn [orb].
  unfold parse_bare. change (c :: t ++ rest) with ((c :: t) ++ rest).
  rewrite bare_app; [|apply (forallb_impl numchar); [apply numchar_stop|assumption]|assumption].
  rewrite trim_solid by (now apply num_solid). reflexivity.
Qed.
Lemma parse_string_app q t rest : ~ In q t -> parse_string q (t ++ q :: rest) = Ok (t, rest).
Proof.
  intros H. induction t as [|c t IH]; cbn [app parse_string]; [now rewrite N.eqb_refl|].
  destruct (N.eqb_spec c q) as [->|]; [exfalso; apply H; now left|]. rewrite IH by (intros X; apply H; now right). reflexivity.
Qed.

Definition selfend (v : tv) : Prop := (exists t, v = TText t) \/ exists x, v = TArr x.
Lemma written_head v s : written v s -> exists c t, s = c :: t /\ is_delim c = false /\ c <> 41 /\ c <> 92 /\ is_ws (last s 0) = false.
Proof.
  assert (Nm : forall s, forallb numchar s = true -> s <> [] -> exists c t, s = c :: t /\ is_delim c = false /\ c <> 41 /\ c <> 92 /\ is_ws (last s 0) = false).
  { intros s' H Hn. destruct s' as [|c t] eqn:E; [congruence|]. exists c, t. split; [reflexivity|]. rewrite <- E in *.
    pose proof (num_solid s' H) as So. assert (Hc : numchar c = true) by (rewrite E in H; cbn in H; now apply andb_prop in H as [-> _]).
    unfold numchar, is_delim, is_ws, is_digit in *. destruct So as [So|[_ So]]; [congruence|]. repeat split; try lia. exact So. }
  intros W. destruct W as [z Hz|neg ip fp ex e H1 H2 H3 H4|q t Hq Hi|l s Hs].
  - apply Nm; apply show_num.
  - apply Nm; apply (flt_num neg ip fp ex e H1 H2 H4).
  - exists q, (t ++ [q]). change (q :: t ++ [q]) with ((q :: t) ++ [q]). rewrite last_last. unfold is_delim, is_ws. destruct Hq; subst; repeat split; discriminate.
  - exists 40, (s ++ [41]). change (40 :: s ++ [41]) with ((40 :: s) ++ [41]). rewrite last_last. repeat split; discriminate.
Qed.
Lemma seps_skip p s : seps p -> skip_delims (p ++ s) = skip_delims s.
Proof. induction 1 as [|c p Hc _ IH]; [reflexivity|]. cbn. destruct Hc as [->|[->| ->]]; cbn; exact IH. Qed.

Lemma read_written :
  (forall v s, written v s -> forall f rest, (2 * length s < f)%nat -> (selfend v \/ rest = [] \/ stop (hd 0 rest) = true) ->
     parse_value f (s ++ rest) = Some (Ok (v, rest))) /\
  (forall l s, items l s -> forall f rest acc, (2 * length s + 1 < f)%nat ->
     parse_items f (s ++ 41 :: rest) acc = Some (Ok (TArr (rev acc ++ l), rest))).
Proof.
  apply written_items_ind.
  - intros z Hz f rest Hf Hr. destruct (show_num z) as [N1 N2]. rewrite num_value; auto; try lia.
    + unfold parse_scalar. now rewrite parse_int_show.
    + destruct Hr as [[(x & ?)|(x & ?)]|Hr]; [discriminate|discriminate|exact Hr].
  - intros neg ip fp ex e H1 H2 H3 H4 f rest Hf Hr. destruct (flt_num neg ip fp ex e H1 H2 H4) as [N1 N2].
    fold (flt_text neg ip fp ex). rewrite num_value; auto; try lia.
    + unfold parse_scalar. rewrite parse_int_flt by assumption. unfold flt_text. rewrite (parse_f64_gen neg ip fp true ex e); auto. discriminate.
    + destruct Hr as [[(x & ?)|(x & ?)]|Hr]; [discriminate|discriminate|exact Hr].
  - intros q t Hq Hi f rest Hf _. destruct f as [|f]; [lia|]. cbn [app parse_value]. rewrite <- app_assoc. cbn [app].
    assert (Sk : skip_delims (q :: t ++ q :: rest) = q :: t ++ q :: rest) by (destruct Hq; subst; reflexivity).
    rewrite Sk. replace (q =? 40) with false by (destruct Hq; subst; reflexivity).
    replace ((q =? 39) || (q =? 34)) with true by (destruct Hq; subst; reflexivity).
    rewrite parse_string_app by assumption. reflexivity.
  - intros l s _ IH f rest Hf _. destruct f as [|f]; [lia|]. cbn [app parse_value]. rewrite <- app_assoc. cbn [app].
    change (skip_delims (40 :: s ++ 41 :: rest)) with (40 :: s ++ 41 :: rest). cbn [N.eqb Pos.eqb].
    rewrite IH; [reflexivity|]. cbn in Hf. rewrite app_length in Hf. cbn in Hf. lia.
  - intros s Hs f rest acc Hf. destruct f as [|f]; [lia|]. cbn [parse_items]. rewrite seps_skip by assumption. cbn. now rewrite app_nil_r.
  - intros p v s l r Hp Wv IHv Wl IHl Hr f rest acc Hf. rewrite !app_length in Hf.
    destruct f as [|f]; [lia|]. cbn [parse_items]. rewrite <- !app_assoc, seps_skip by assumption.
    destruct (written_head v s Wv) as (c & t & -> & Hd & H41 & _). cbn [app]. cbn [skip_delims]. rewrite Hd.
    destruct (N.eqb_spec c 41); [contradiction|]. change (c :: t ++ r ++ 41 :: rest) with ((c :: t) ++ r ++ 41 :: rest).
    cbn [List.length] in Hf.
    rewrite IHv; [| cbn [List.length]; lia |].
    + rewrite IHl by lia. cbn [rev]. rewrite <- app_assoc. reflexivity.
    + destruct Hr as [->|[Hr|(x & [E|E])]].
      * right. right. reflexivity.
      * right. right. destruct r as [|y r]; [reflexivity|]. cbn in *. destruct Hr as [->|[->| ->]]; reflexivity.
      * left. left. eauto.
      * left. right. destruct E as (y & E). eauto.
Qed.

(** ** Statements *)
Lemma scan_plain s r d : Forall (fun c => c <> 39 /\ c <> 34 /\ c <> 40 /\ c <> 41) s -> scan (s ++ r) None d = scan r None d.
Proof.
  induction 1 as [|c s (H1 & H2 & H3 & H4) _ IH]; [reflexivity|]. cbn [app scan].
  destruct (N.eqb_spec c 39); [contradiction|]. destruct (N.eqb_spec c 34); [contradiction|]. cbn [orb].
  destruct (N.eqb_spec c 40); [contradiction|]. destruct (N.eqb_spec c 41); [contradiction|]. exact IH.
Qed.
Lemma scan_num s r d : forallb numchar s = true -> scan (s ++ r) None d = scan r None d.
Proof.
  intros H. apply scan_plain. apply Forall_forall. intros c Hc. rewrite forallb_forall in H. specialize (H c Hc).
  unfold numchar, is_digit in H. lia.
Qed.
Lemma scan_seps s r d : seps s -> scan (s ++ r) None d = scan r None d.
Proof. intros H. apply scan_plain. eapply Forall_impl; [|exact H]. intros c [->|[->| ->]]; repeat split; discriminate. Qed.
Lemma scan_quoted q t r d : ~ In q t -> scan (t ++ q :: r) (Some q) d = scan r None d.
Proof.
  intros H. induction t as [|c t IH]; cbn [app scan]; [now rewrite N.eqb_refl|].
  destruct (N.eqb_spec c q) as [->|]; [exfalso; apply H; now left|]. apply IH. intros X; apply H; now right.
Qed.
Lemma scan_written :
  (forall v s, written v s -> forall r d, scan (s ++ r) None d = scan r None d) /\
  (forall l s, items l s -> forall r d, scan (s ++ r) None d = scan r None d).
Proof.
  apply written_items_ind.
  - intros z _ r d. apply scan_num, show_num.
  - intros neg ip fp ex e H1 H2 H3 H4 r d. apply (scan_num (flt_text neg ip fp ex)), (flt_num neg ip fp ex e H1 H2 H4).
  - intros q t Hq Hi r d. cbn [app scan]. replace ((q =? 39) || (q =? 34)) with true by (destruct Hq; subst; reflexivity).
    rewrite <- app_assoc. cbn [app]. now apply scan_quoted.
  - intros l s _ IH r d. cbn [app scan N.eqb Pos.eqb orb]. rewrite <- app_assoc, IH. cbn [app scan N.eqb Pos.eqb orb]. f_equal. lia.
  - intros s Hs r d. now apply scan_seps.
  - intros p v s l r0 Hp _ IHv _ IHl _ r d. rewrite <- !app_assoc, scan_seps, IHv by assumption. apply IHl.
Qed.

Lemma split2_none a b s : split2 a b s = None <-> ~ occurs2 a b s.
Proof.
  unfold occurs2. induction s as [|x t IH]; [split; [intros _ ([|? ?] & y & E); discriminate|reflexivity]|].
  cbn [split2]. destruct t as [|y u].
  - split; [|reflexivity]. intros _ ([|? [|? ?]] & z & E); discriminate.
  - destruct (N.eqb_spec x a) as [->|Na]; cbn [andb].
    + destruct (N.eqb_spec y b) as [->|Nb].
      * split; [discriminate|]. intros H. exfalso. apply H. exists [], u. reflexivity.
      * destruct (split2 a b (y :: u)) as [[p r]|] eqn:E.
        -- split; [discriminate|]. intros H. exfalso.
           assert (X : Some (p, r) = None) by (apply IH; intros (l & z & Eq); apply H; exists (a :: l), z; cbn; now rewrite Eq). discriminate.
        -- split; [|reflexivity]. intros _ ([|x' l] & z & Eq); [injection Eq as -> _; congruence|].
           injection Eq as <- Eq. apply (proj1 IH eq_refl). exists l, z. exact Eq.
    + destruct (split2 a b (y :: u)) as [[p r]|] eqn:E.
      * split; [discriminate|]. intros H. exfalso.
        assert (X : Some (p, r) = None) by (apply IH; intros (l & z & Eq); apply H; exists (x :: l), z; cbn; now rewrite Eq). discriminate.
      * split; [|reflexivity]. intros _ ([|x' l] & z & Eq); [injection Eq as -> _; congruence|].
        injection Eq as <- Eq. apply (proj1 IH eq_refl). exists l, z. exact Eq.
Qed.
Lemma split2_app a b p r : ~ In a p -> split2 a b (p ++ a :: b :: r) = Some (p, r).
Proof.
  intros H. induction p as [|x p IH]; cbn [app split2]; [now rewrite !N.eqb_refl|].
  destruct (N.eqb_spec x a) as [->|]; [exfalso; apply H; now left|]. cbn [andb].
  destruct (p ++ a :: b :: r) as [|y u] eqn:E; [destruct p; discriminate|]. rewrite IH by (intros X; apply H; now right). reflexivity.
Qed.
Lemma split1_app a p r : ~ In a p -> split1 a (p ++ a :: r) = Some (p, r).
Proof.
  intros H. induction p as [|x p IH]; cbn [app split1]; [now rewrite !N.eqb_refl|].
  destruct (N.eqb_spec x a) as [->|]; [exfalso; apply H; now left|]. rewrite IH by (intros X; apply H; now right). reflexivity.
Qed.

(** ** Trimming *)
Lemma trim_start_pad p s : pad p -> trim_start (p ++ s) = trim_start s.
Proof. unfold pad. induction p as [|c p IH]; [reflexivity|]. cbn. intros H. apply andb_prop in H as [-> H]. auto. Qed.
Lemma trim_start_all p : pad p -> trim_start p = [].
Proof. intros H. rewrite <- (app_nil_r p). now rewrite trim_start_pad. Qed.
Lemma pad_rev p : pad p -> pad (rev p).
Proof. unfold pad. rewrite !forallb_forall. intros H x Hx. apply H. now apply in_rev. Qed.
Lemma trim_pad p l q : pad p -> pad q -> l <> [] -> solid l -> trim (p ++ l ++ q) = l.
Proof.
  intros Hp Hq Hl [|[S1 S2]]; [contradiction|]. unfold trim. rewrite trim_start_pad by assumption.
  rewrite trim_start_app_solid by assumption. unfold trim_end. rewrite rev_app_distr, trim_start_pad by (now apply pad_rev).
  rewrite trim_start_id; [apply rev_involutive|]. now rewrite <- last_rev_hd.
Qed.
Lemma trim_all p : pad p -> trim p = [].
Proof. intros H. unfold trim. now rewrite trim_start_all. Qed.
Lemma blanks_pad s : blanks s -> pad s.
Proof. unfold pad, blanks. rewrite forallb_forall, Forall_forall. intros H c Hc. destruct (H c Hc) as [-> | ->]; reflexivity. Qed.
Lemma blanks_seps s : blanks s -> seps s.
Proof. apply Forall_impl. unfold sep_char. tauto. Qed.

Lemma written_solid v s : written v s -> s <> [] /\ solid s.
Proof.
  intros W. destruct (written_head v s W) as (c & t & -> & Hd & _ & _ & L). split; [discriminate|]. right. split; [|exact L].
  cbn. unfold is_delim in Hd. apply orb_false_iff in Hd. tauto.
Qed.

(** A whole assignment text. *)
Lemma name_char k c : name_ok k -> In c k -> c <> 39 /\ c <> 34 /\ c <> 40 /\ c <> 41 /\ c <> 61 /\ c <> 43 /\ c <> 92.
Proof. intros (_ & _ & H) Hc. rewrite Forall_forall in H. auto. Qed.
Lemma blank_char s c : blanks s -> In c s -> c = 32 \/ c = 9.
Proof. intros H Hc. unfold blanks in H. rewrite Forall_forall in H. auto. Qed.

Lemma assignment_text k app v p q s : name_ok k -> blanks p -> blanks q -> written v s ->
  (app = false -> ~ occurs2 43 61 (k ++ p ++ op app ++ q ++ s)) ->
  parse_assignment (k ++ p ++ op app ++ q ++ s) = Some (Ok (map upper k, app, v)).
Proof.
  intros Hk Hp Hq W Hquiet. destruct (written_solid v s W) as [Ns So].
  assert (K43 : ~ In 43 (k ++ p)).
  { rewrite in_app_iff. intros [X|X]; [apply (name_char k) in X; [tauto|assumption]|apply (blank_char p) in X; [lia|assumption]]. }
  assert (K61 : ~ In 61 (k ++ p)).
  { rewrite in_app_iff. intros [X|X]; [apply (name_char k) in X; [tauto|assumption]|apply (blank_char p) in X; [lia|assumption]]. }
  assert (Tk : trim (k ++ p) = k).
  { destruct Hk as (Nk & Sk & _). rewrite <- (app_nil_l (k ++ p)). apply trim_pad; auto; [reflexivity|now apply blanks_pad]. }
  assert (Tv : trim (q ++ s) = s).
  { rewrite <- (app_nil_r s) at 1. apply trim_pad; auto; [now apply blanks_pad|reflexivity]. }
  unfold parse_assignment.
  assert (Sp : match split2 43 61 (k ++ p ++ op app ++ q ++ s) with
        | Some (k, v) => Some (k, v, true)
        | None => match split1 61 (k ++ p ++ op app ++ q ++ s) with Some (k, v) => Some (k, v, false) | None => None end
        end = Some (k ++ p, q ++ s, app)).
  { destruct app.
    - unfold op. cbn [List.app]. rewrite app_assoc, split2_app by assumption. reflexivity.
    - rewrite (proj2 (split2_none 43 61 _) (Hquiet eq_refl)). unfold op. cbn [List.app]. rewrite app_assoc, split1_app by assumption. reflexivity. }
  rewrite Sp, Tk, Tv. destruct k as [|k0 k']; [destruct Hk; congruence|].
  pose proof (proj1 read_written v s W (vfuel s) []) as R. rewrite app_nil_r in R. rewrite R; [reflexivity|unfold vfuel; lia|auto].
Qed.

(** ** Feeding lines *)
Lemma lower_92 c : lower c = 92 -> c = 92.
Proof. unfold lower. destruct ((65 <=? c) && (c <=? 90)) eqn:E; lia. Qed.
Lemma not_directive t : hd 0 t <> 92 -> word_is t begindata = false /\ word_is t begintext = false.
Proof.
  intros H. unfold word_is. split.
  - destruct (str_eqb_spec (map lower t) begindata) as [E|]; [|reflexivity]. exfalso. destruct t as [|c t]; [discriminate|]. apply H. apply lower_92.
    change begindata with (92 :: tl begindata) in E. now injection E.
  - destruct (str_eqb_spec (map lower t) begintext) as [E|]; [|reflexivity]. exfalso. destruct t as [|c t]; [discriminate|]. apply H. apply lower_92.
    change begintext with (92 :: tl begintext) in E. now injection E.
Qed.
Lemma starts2 s : starts_with [47; 42] s = true -> occurs2 47 42 s.
Proof.
  destruct s as [|x [|y t]]; cbn [starts_with]; try discriminate; [rewrite andb_false_r; discriminate|].
  destruct (N.eqb_spec 47 x); [|discriminate]. destruct (N.eqb_spec 42 y); [|discriminate]. intros _. subst. exists [], t. reflexivity.
Qed.
Lemma occurs2_app a b p s q : occurs2 a b s -> occurs2 a b (p ++ s ++ q).
Proof. intros (x & y & ->). exists (p ++ x), (y ++ q). rewrite <- !app_assoc. reflexivity. Qed.
Lemma occurs2_pad p s q : pad p -> pad q -> occurs2 47 42 (p ++ s ++ q) -> occurs2 47 42 s.
Proof.
  intros Hp Hq. unfold pad in *. rewrite forallb_forall in *.
  assert (A : forall l p, (forall c, In c p -> is_ws c = true) -> occurs2 47 42 (p ++ l) -> occurs2 47 42 l).
  { intros l p0. induction p0 as [|c p0 IH]; intros H O; [exact O|]. destruct O as ([|x xs] & y & E).
    - injection E as -> _. assert (X : is_ws 47 = true) by (apply H; now left). discriminate X.
    - injection E as -> E. apply IH; [intros; apply H; now right|]. exists xs, y. exact E. }
  assert (B : forall l p, (forall c, In c p -> is_ws c = true) -> occurs2 47 42 (l ++ p) -> occurs2 47 42 l).
  { intros l p0 H (x & y & E). assert (Hy : exists y', y = y' ++ p0 /\ l = x ++ 47 :: 42 :: y').
    { revert x E. induction l as [|c l IH]; intros x E.
      - exfalso. cbn in E. assert (X : is_ws 47 = true) by (apply H; rewrite E; apply in_or_app; right; now left). discriminate X.
      - destruct x as [|x0 x]; cbn in E.
        + injection E as -> E. destruct l as [|d l]; cbn in E.
          * exfalso. assert (X : is_ws 42 = true) by (apply H; rewrite E; now left). discriminate X.
          * injection E as -> E. exists l. auto.
        + injection E as -> E. destruct (IH x E) as (y' & -> & ->). exists y'. auto. }
    destruct Hy as (y' & _ & ->). exists x, y'. reflexivity. }
  intros O. apply (A _ p) in O; [|assumption]. now apply (B _ q) in O.
Qed.

Lemma last_app_ne (a s : str) d : s <> [] -> last (a ++ s) d = last s d.
Proof.
  intros H. induction a as [|c a IH]; [reflexivity|]. cbn [app]. rewrite <- IH.
  assert (N : a ++ s <> []) by (destruct a; [exact H|discriminate]). destruct (a ++ s); [contradiction|reflexivity].
Qed.
(** A data line holding the piece [l], which starts no directive and no comment. *)
Lemma feed_piece stmt d l raw : padded l raw -> l <> [] -> solid l -> hd 0 l <> 92 -> ~ occurs2 47 42 l ->
  feed (true, stmt, d) raw =
    (let stmt' := match stmt with [] => l | _ => stmt ++ 32 :: l end in
     if negb (statement_complete stmt') then Some (Ok (true, stmt', d))
     else match parse_assignment stmt' with
          | None => None
          | Some (Ok (k, app, v)) => Some (Ok (true, [], store_value d k app v))
          | Some (Err e) => Some (Err e)
          | Some Panic => Some Panic
          end).
Proof.
  intros (p & q & Hp & Hq & ->) Nl Sl H92 Hno. unfold feed. rewrite trim_pad by assumption.
  destruct (not_directive l H92) as [-> ->]. cbn [negb].
  replace (starts_with [47; 42] l) with false by (destruct (starts_with [47; 42] l) eqn:E; [apply starts2 in E; contradiction|reflexivity]).
  cbn [andb]. assert (St : strip_comments (p ++ l ++ q) = p ++ l ++ q).
  { unfold strip_comments. assert (X : split2 47 42 (p ++ l ++ q) = None) by (apply split2_none; intros O; exact (Hno (occurs2_pad p l q Hp Hq O))).
    destruct (length (p ++ l ++ q)); cbn [strip_go]; now rewrite X. }
  rewrite St, trim_pad by assumption. destruct l; [contradiction|]. reflexivity.
Qed.

Lemma scan_blanks s r d : blanks s -> scan (s ++ r) None d = scan r None d.
Proof. intros H. apply scan_seps. now apply blanks_seps. Qed.
Lemma scan_name k r d : name_ok k -> scan (k ++ r) None d = scan r None d.
Proof. intros (_ & _ & H). apply scan_plain. eapply Forall_impl; [|exact H]. cbn. tauto. Qed.
Lemma scan_op app r d : scan (op app ++ r) None d = scan r None d.
Proof. destruct app; reflexivity. Qed.

Lemma items_prefix p l s : seps p -> items l s -> items l (p ++ s).
Proof.
  intros Hp H. destruct H as [s Hs|p0 v s l r Hp0 W I C].
  - constructor. now apply Forall_app.
  - rewrite app_assoc. constructor; auto. now apply Forall_app.
Qed.
Lemma items_app l1 s1 l2 s2 : items l1 s1 -> items l2 s2 -> items (l1 ++ l2) (s1 ++ 32 :: s2).
Proof.
  intros H1 H2. induction H1 as [s Hs|p v s l r Hp W I IH C].
  - cbn [app]. apply items_prefix; [assumption|]. change (32 :: s2) with ([32] ++ s2). apply items_prefix; [|assumption]. repeat constructor.
  - cbn [app]. rewrite <- !app_assoc. constructor; auto. right. destruct C as [->|[C|C]]; [left; left; reflexivity| |right; exact C].
    left. destruct r as [|x r]; [cbn in C; destruct C as [?|[?|?]]; discriminate|exact C].
Qed.

Lemma items_head l s : items l s -> hd 0 s <> 92.
Proof.
  intros H. destruct H as [s Hs|p v s l r Hp W I C].
  - destruct Hs as [|c s [->|[->| ->]] _]; cbn; discriminate.
  - destruct Hp as [|c p [->|[->| ->]] _]; cbn; try discriminate. destruct (written_head v s W) as (c & t & -> & _ & _ & N & _). exact N.
Qed.

Lemma feed_app ls1 ls2 st st' : feed_all st ls1 = Some (Ok st') -> feed_all st (ls1 ++ ls2) = feed_all st' ls2.
Proof.
  revert st; induction ls1 as [|l t IH]; intros st; cbn; [intros [= ->]; reflexivity|].
  destruct (feed st l) as [[x|e|]|]; try discriminate. apply IH.
Qed.

Lemma occurs2_mid a b x l y : ~ occurs2 a b (x ++ l ++ y) -> ~ occurs2 a b l.
Proof. intros H O. apply H. now apply occurs2_app. Qed.

(** Middle lines of a broken array. *)
Lemma feed_mid d : forall mid raws (stmt : str), Forall (fun '(l, s) => items l s /\ s <> [] /\ solid s) mid ->
  Forall2 padded (map snd mid) raws -> stmt <> [] -> scan stmt None 0 = (None, 1%Z) ->
  (forall l s, In (l, s) mid -> ~ occurs2 47 42 s) ->
  feed_all (true, stmt, d) raws = Some (Ok (true, stmt ++ concat (map (fun '(_, s) => 32 :: s) mid), d)) /\
  scan (stmt ++ concat (map (fun '(_, s) => 32 :: s) mid)) None 0 = (None, 1%Z).
Proof.
  induction mid as [|[l s] mid IH]; intros raws stmt Hm Hp Hs Hsc Hno; cbn [map] in Hp.
  - inversion Hp; subst. cbn. rewrite app_nil_r. auto.
  - inversion Hp as [|? raw ? raws' Hpad Hp']; subst. apply Forall_cons_iff in Hm as [(Hi & Ns & So) Hm]. cbn [feed_all].
    assert (Sapp : forall a b, scan (a ++ b) None 0 = let '(q, d) := scan a None 0 in scan b q d).
    { clear. intros a b. generalize (@None N) 0%Z. induction a as [|c a IH]; intros q d; [reflexivity|]. cbn [app scan].
      destruct q as [q|]; [apply IH|]. destruct ((c =? 39) || (c =? 34)); [apply IH|]. destruct (c =? 40); [apply IH|]. destruct (c =? 41); apply IH. }
    assert (Sc : scan (stmt ++ 32 :: s) None 0 = (None, 1%Z)).
    { rewrite Sapp, Hsc. cbn [scan N.eqb Pos.eqb orb]. rewrite <- (app_nil_r s). rewrite (proj2 scan_written l s Hi). reflexivity. }
    rewrite (feed_piece stmt d s raw); auto; [| now apply (items_head l) | apply (Hno l); now left].
    destruct stmt as [|c0 stmt0]; [congruence|]. set (stmt := c0 :: stmt0) in *. cbv zeta.
    unfold statement_complete at 1. rewrite Sc. cbn [Z.eqb negb].
    destruct (IH raws' (stmt ++ 32 :: s)) as [E1 E2]; auto.
    { subst stmt. discriminate. }
    { intros l0 s0 H0. apply (Hno l0). now right. }
    cbn [map concat]. change ((32 :: s) ++ concat (map (fun '(_, s) => 32 :: s) mid)) with (32 :: s ++ concat (map (fun '(_, s) => 32 :: s) mid)).
    split.
    + rewrite E1. f_equal. f_equal. f_equal. f_equal. rewrite <- app_assoc. reflexivity.
    + rewrite <- app_assoc in E2. exact E2.
Qed.

Lemma mid_items mid l0 s0 : Forall (fun '(l, s) => items l s /\ s <> [] /\ solid s) mid -> items l0 s0 ->
  items (l0 ++ concat (map fst mid)) (s0 ++ concat (map (fun '(_, s) => 32 :: s) mid)).
Proof.
  revert l0 s0; induction mid as [|[l s] mid IH]; intros l0 s0 Hm H0; cbn; [now rewrite !app_nil_r|].
  apply Forall_cons_iff in Hm as [(Hi & _) Hm]. rewrite app_assoc. change (32 :: s ++ ?x) with ((32 :: s) ++ x). rewrite app_assoc. apply IH; [assumption|].
  now apply items_app.
Qed.
Lemma mid_shift (mid : list (list tv * str)) r : 32 :: concat (map (fun '(_, s) => s ++ [32]) mid) ++ r = concat (map (fun '(_, s) => 32 :: s) mid) ++ 32 :: r.
Proof.
  induction mid as [|[l s] mid IH]; [reflexivity|]. cbn [map concat]. rewrite <- !app_assoc. cbn [app]. f_equal. now rewrite IH.
Qed.

Definition exec (d : table) (a : assignment) : table := store_value d (map upper (a_key a)) (a_app a) (a_val a).

Definition ready (d : table) : kstate := @pair (bool * str) table (@pair bool str true (@nil N)) d.
Lemma feed_assign d a lines raws : assign_lines a lines -> Forall2 padded lines raws ->
  feed_all (ready d) raws = Some (Ok (ready (exec d a))).
Proof.
  unfold ready. intros H. destruct H as [k ap v p q s Hk Hp Hq W [Q1 Q2]|k ap p q l0 s0 mid ln sn Hk Hp Hq I0 In Hmid S0 Sn Hqt].
  - intros F. inversion F as [|? raw ? ? Hpad F']; subst. inversion F'; subst. cbn [feed_all].
    destruct (written_solid v s W) as [Ns So]. set (l := k ++ p ++ op ap ++ q ++ s) in *.
    assert (Hk' := Hk). destruct Hk' as (Nk & Sk & Fk).
    assert (Nl : l <> []) by (subst l; destruct k; [congruence|discriminate]).
    assert (Sl : solid l).
    { right. destruct Sk as [|[Sk _]]; [congruence|]. destruct So as [|[_ So]]; [congruence|]. split.
      - subst l. destruct k; [congruence|exact Sk].
      - subst l. rewrite !app_assoc. rewrite last_app_ne by assumption. exact So. }
    rewrite (feed_piece [] d l raw Hpad Nl Sl); auto.
    2: { subst l. destruct k as [|c k']; [congruence|]. cbn. apply Forall_inv in Fk. tauto. }
    cbv zeta. unfold statement_complete. subst l. rewrite scan_name, scan_blanks, scan_op, scan_blanks by assumption.
    rewrite <- (app_nil_r s), (proj1 scan_written v s W). cbn [scan Z.eqb negb]. rewrite app_nil_r.
    rewrite (assignment_text k ap v) by assumption. reflexivity.
  - intros F. inversion F as [|? raw ? raws' Hpad F']; subst. cbn [feed_all].
    apply Forall2_app_inv_l in F' as (rm & rl & Fm & Fl & ->). inversion Fl as [|? rawl ? ? Hpadl Fl']; subst. inversion Fl'; subst.
    cbv zeta in Hqt. set (first := k ++ p ++ op ap ++ q ++ 40 :: s0) in *.
    assert (Txt : k ++ p ++ op ap ++ q ++ 40 :: s0 ++ 32 :: concat (map (fun '(_, s) => s ++ [32]) mid) ++ sn ++ [41] =
      first ++ concat (map (fun '(_, s) => 32 :: s) mid) ++ 32 :: sn ++ [41]).
    { rewrite mid_shift. unfold first. rewrite <- !app_assoc. cbn [app]. reflexivity. }
    rewrite Txt in Hqt. destruct Hqt as [Q1 Q2].
    assert (Hk' := Hk). destruct Hk' as (Nk & Sk & Fk).
    assert (Nf : first <> []) by (unfold first; destruct k; [congruence|discriminate]).
    assert (Sf : solid first).
    { right. destruct Sk as [|[Sk _]]; [congruence|]. destruct S0 as [|[_ S0]]; [discriminate|]. split.
      - unfold first. destruct k; [congruence|exact Sk].
      - unfold first. rewrite !app_assoc. rewrite last_app_ne by discriminate. exact S0. }
    assert (Hf92 : hd 0 first <> 92).
    { unfold first. destruct k as [|c k']; [congruence|]. cbn. apply Forall_inv in Fk. tauto. }
    assert (Of : ~ occurs2 47 42 first) by (intros O; apply Q1; now apply (occurs2_app 47 42 [] first)).
    rewrite (feed_piece [] d first raw Hpad Nf Sf Hf92 Of). cbv zeta.
    assert (Scf : scan first None 0 = (None, 1%Z)).
    { unfold first. rewrite scan_name, scan_blanks, scan_op, scan_blanks by assumption. cbn [scan N.eqb Pos.eqb orb].
      rewrite <- (app_nil_r s0), (proj2 scan_written l0 s0 I0). reflexivity. }
    unfold statement_complete at 1. rewrite Scf. cbn [Z.eqb negb].
    destruct (feed_mid d mid rm first Hmid Fm Nf Scf) as [E1 E2].
    { intros l s Hls O. apply Q1. apply in_split in Hls as (m1 & m2 & ->). rewrite map_app, concat_app. cbn [map concat].
      rewrite <- !app_assoc. cbn [app]. destruct O as (x & y & ->).
      exists (first ++ concat (map (fun '(_, s) => 32 :: s) m1) ++ 32 :: x), (y ++ concat (map (fun '(_, s) => 32 :: s) m2) ++ 32 :: sn ++ [41]).
      rewrite <- !app_assoc. cbn [List.app]. rewrite <- ?app_assoc. reflexivity. }
    rewrite (feed_app rm [rawl] _ _ E1). cbn [feed_all].
    set (stmt := first ++ concat (map (fun '(_, s) => 32 :: s) mid)) in *.
    assert (Ne : stmt <> []) by (unfold stmt; destruct first; [congruence|discriminate]).
    assert (Nn : sn ++ [41] <> []) by (destruct sn; discriminate).
    assert (H92 : hd 0 (sn ++ [41]) <> 92).
    { pose proof (items_head ln sn In) as X. destruct sn; [cbn; discriminate|exact X]. }
    assert (Onn : ~ occurs2 47 42 (sn ++ [41])).
    { intros (x & y & E). apply Q1. exists (stmt ++ 32 :: x), y. unfold stmt. rewrite <- !app_assoc. cbn [app]. now rewrite E. }
    match goal with |- context [feed ?st rawl] => change (feed st rawl) with (feed (@pair (bool * str) table (@pair bool str true stmt) d) rawl) end.
    rewrite (feed_piece stmt d (sn ++ [41]) rawl Hpadl Nn Sn H92 Onn).
    destruct stmt as [|c0 stmt0] eqn:Est; [congruence|]. rewrite <- Est in *. cbv zeta.
    set (full := stmt ++ 32 :: sn ++ [41]) in *.
    assert (Items : items (l0 ++ concat (map fst mid) ++ ln) (s0 ++ concat (map (fun '(_, s) => 32 :: s) mid) ++ 32 :: sn)).
    { rewrite app_assoc. rewrite (app_assoc s0). apply items_app; [now apply mid_items|assumption]. }
    assert (Full : full = k ++ p ++ op ap ++ q ++ 40 :: (s0 ++ concat (map (fun '(_, s) => 32 :: s) mid) ++ 32 :: sn) ++ [41]).
    { unfold full. rewrite Est. rewrite <- Est. unfold stmt. unfold first. rewrite <- ?app_assoc. cbn [List.app]. rewrite <- ?app_assoc. reflexivity. }
    assert (Wr : written (TArr (l0 ++ concat (map fst mid) ++ ln)) (40 :: (s0 ++ concat (map (fun '(_, s) => 32 :: s) mid) ++ 32 :: sn) ++ [41])) by (now constructor).
    unfold statement_complete. rewrite Full, scan_name, scan_blanks, scan_op, scan_blanks by assumption.
    pose proof (proj1 scan_written _ _ Wr [] 0%Z) as Sw. rewrite app_nil_r in Sw. rewrite Sw. cbn [scan Z.eqb negb].
    rewrite (assignment_text k ap _ p q _ Hk Hp Hq Wr); [reflexivity|]. rewrite <- Full. intros Ea. specialize (Q2 Ea). unfold full, stmt. rewrite <- app_assoc. exact Q2.
Qed.

Lemma feed_prose raw d : prose raw -> feed (@pair (bool * str) table (@pair bool str false []) d) raw = Some (Ok (false, [], d)).
Proof.
  intros H. unfold feed, word_is. destruct (str_eqb_spec (map lower (trim raw)) begindata) as [E|_]; [contradiction|].
  destruct (str_eqb _ begintext); reflexivity.
Qed.
Lemma feed_proses txt d : Forall prose txt -> feed_all (@pair (bool * str) table (@pair bool str false []) d) txt = Some (Ok (false, [], d)).
Proof. induction 1 as [|raw txt H _ IH]; [reflexivity|]. cbn [feed_all]. now rewrite feed_prose. Qed.
Lemma feed_opens raw st d : opens raw -> feed (@pair (bool * str) table st d) raw = Some (Ok (ready d)).
Proof. intros H. unfold feed, word_is. destruct st as [b s]. rewrite H. reflexivity. Qed.
Lemma feed_closes raw st d : closes raw -> feed (@pair (bool * str) table st d) raw = Some (Ok (@pair (bool * str) table (@pair bool str false []) d)).
Proof. intros H. unfold feed, word_is. destruct st as [b s]. rewrite H. reflexivity. Qed.
Lemma feed_blank raw d : pad raw -> feed (ready d) raw = Some (Ok (ready d)).
Proof.
  intros H. unfold feed, ready. rewrite trim_all by assumption.
  assert (W : word_is [] begindata = false /\ word_is [] begintext = false) by (apply not_directive; discriminate).
  destruct W as [-> ->]. cbn [starts_with andb].
  assert (St : strip_comments raw = raw).
  { unfold strip_comments. assert (X : split2 47 42 raw = None).
    { apply split2_none. intros (x & y & ->). unfold pad in H. rewrite forallb_app in H. cbn in H. rewrite andb_false_r in H. discriminate. }
    destruct (length raw); cbn [strip_go]; now rewrite X. }
  rewrite St, trim_all by assumption. reflexivity.
Qed.
Lemma ends_with_app a b : ends_with b (a ++ b) = true.
Proof.
  induction a as [|c a IH]; cbn [app].
  - destruct b; cbn [ends_with]; [reflexivity|]. destruct (str_eqb_spec (n :: b) (n :: b)); [reflexivity|contradiction].
  - cbn [ends_with]. rewrite IH. apply orb_true_r.
Qed.
Lemma feed_comment raw c d : trim raw = [47; 42] ++ c ++ [42; 47] -> feed (ready d) raw = Some (Ok (ready d)).
Proof.
  intros H. unfold feed, ready. rewrite H.
  assert (W : word_is ([47; 42] ++ c ++ [42; 47]) begindata = false /\ word_is ([47; 42] ++ c ++ [42; 47]) begintext = false) by (apply not_directive; discriminate).
  destruct W as [-> ->]. rewrite app_assoc, ends_with_app. reflexivity.
Qed.

Lemma feed_data l ls : data_lines l ls -> forall d, exists b, feed_all (ready d) ls = Some (Ok (@pair (bool * str) table (@pair bool str b []) (fold_left exec l d))).
Proof.
  induction 1 as [|raw l ls H _ IH|raw c l ls H _ IH|raw txt raw' l ls H1 H2 H3 _ IH|raw txt H1 H2|a lines raws l ls H1 H2 _ IH]; intros d.
  - exists true. reflexivity.
  - cbn [feed_all]. rewrite feed_blank by assumption. apply IH.
  - cbn [feed_all]. rewrite (feed_comment raw c) by assumption. apply IH.
  - cbn [feed_all]. unfold ready at 1. rewrite feed_closes by assumption. rewrite (feed_app _ _ _ _ (feed_proses txt d H2)). cbn [feed_all].
    match goal with |- context [feed ?st raw'] => change st with (@pair (bool * str) table (@pair bool str false []) d) end.
    rewrite feed_opens by assumption. apply IH.
  - exists false. cbn [feed_all fold_left]. unfold ready. rewrite feed_closes by assumption. exact (feed_proses txt d H2).
  - rewrite (feed_app _ _ _ _ (feed_assign d a lines raws H1 H2)). cbn [fold_left]. apply IH.
Qed.
Theorem kernel_table l ls : kernel_lines l ls -> parse_lines ls = Some (Ok (fold_left exec l [])).
Proof.
  intros H. unfold parse_lines. set (st0 := (false, [], [])). change st0 with (@pair (bool * str) table (@pair bool str false []) []). clear st0.
  destruct H as [txt H|txt raw l ls H1 H2 H3].
  - rewrite (feed_proses txt [] H). reflexivity.
  - rewrite (feed_app _ _ _ _ (feed_proses txt [] H1)). cbn [feed_all].
    match goal with |- context [feed ?st raw] => change st with (@pair (bool * str) table (@pair bool str false []) (@nil (str * tv))) end.
    rewrite feed_opens by assumption. destruct (feed_data l ls H3 []) as (b & ->). reflexivity.
Qed.

(** ** The table *)
Lemma tget_remove d k k' : tget (tremove d k) k' = if str_eqb k k' then None else tget d k'.
Proof.
  induction d as [|[x v] d IH]; cbn [tremove tget]; [now destruct (str_eqb k k')|].
  destruct (str_eqb_spec x k) as [->|N].
  - rewrite IH. destruct (str_eqb_spec k k'); reflexivity.
  - cbn [tget]. rewrite IH. destruct (str_eqb_spec x k') as [->|]; [|reflexivity]. destruct (str_eqb_spec k k'); [congruence|reflexivity].
Qed.
Lemma tget_insert d k v k' : tget (tinsert d k v) k' = if str_eqb k k' then Some v else tget d k'.
Proof. unfold tinsert. cbn [tget]. destruct (str_eqb k k') eqn:E; [reflexivity|]. now rewrite tget_remove, E. Qed.
Lemma tget_exec d a k : tget (exec d a) (map upper k) = if same_name k a then effect (tget d (map upper k)) a else tget d (map upper k).
Proof.
  unfold exec, store_value, same_name, effect. destruct a as [ak ap av]. cbn [a_key a_app a_val].
  destruct (str_eqb_spec (map upper ak) (map upper k)) as [->|N].
  - destruct ap; cbn [negb].
    + destruct (tget d (map upper k)) as [[z|f|s|ex]|]; rewrite tget_insert; destruct (str_eqb_spec (map upper k) (map upper k)) as [_|X]; try contradiction;
        destruct av; reflexivity.
    + rewrite tget_insert. destruct (str_eqb_spec (map upper k) (map upper k)); [reflexivity|contradiction].
  - destruct ap; cbn [negb].
    + destruct (tget d (map upper ak)) as [[z|f|s|ex]|]; rewrite tget_insert; destruct (str_eqb_spec (map upper ak) (map upper k)) as [X|_]; try contradiction;
        try (rewrite tget_remove; destruct (str_eqb_spec (map upper ak) (map upper k)) as [X|_]; [contradiction|reflexivity]). reflexivity.
    + rewrite tget_insert. destruct (str_eqb_spec (map upper ak) (map upper k)); [contradiction|reflexivity].
Qed.
Theorem table_final l k : get (fold_left exec l []) k = final k l.
Proof.
  unfold get, final.
  enough (G : forall d, tget (fold_left exec l d) (map upper k) = fold_left effect (filter (same_name k) l) (tget d (map upper k))) by (rewrite G; reflexivity).
  induction l as [|a l IH]; intros d; [reflexivity|]. cbn [fold_left filter]. rewrite IH, tget_exec. destruct (same_name k a); reflexivity.
Qed.

Lemma split_lines_join ls : Forall (fun l => ~ In 10 l) ls -> ls <> [] ->
  split_lines (concat (map (fun l => l ++ [10]) ls)) = ls ++ [[]].
Proof.
  intros H. induction H as [|l ls Hl H IH]; [congruence|]. intros _. cbn [map concat]. rewrite <- app_assoc. cbn [app].
  rewrite split_lines_app by (exact Hl). destruct ls as [|l' ls]; [reflexivity|]. rewrite IH by discriminate. reflexivity.
Qed.
