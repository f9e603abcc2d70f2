From Coq Require Import Ascii String List NArith ZArith Bool QArith Qabs Qround Lia Lqa.
From Verif Require Import Base Text DecFloat Omm_Proofs Sp3_Model.
Import ListNotations.
Local Open Scope N_scope.
Local Open Scope outcome_scope.

Section Reader.
Variable date_ok : Z -> N -> N -> bool.
Variable utc_ok : civil -> bool.
Notation parse_epoch_line := (parse_epoch_line date_ok utc_ok).
Notation read_loop := (read_loop date_ok utc_ok).
Notation read_sp3 := (read_sp3 date_ok utc_ok).
Notation next_epoch := (next_epoch date_ok utc_ok).
Notation drain := (drain date_ok utc_ok).

Lemma opt_field_no_panic {A} n k (o : option A) : opt_field n k o <> Panic.
Proof. destruct o; discriminate. Qed.
Lemma epoch_line_no_panic l n : parse_epoch_line l n <> Panic.
Proof.
  unfold Sp3_Model.parse_epoch_line. generalize (split_ws (match l with c :: t => if c =? 42 then t else l | [] => [] end)). intros f.
  destruct f as [|a [|b [|c [|d [|e [|s f]]]]]]; try discriminate.
  destruct (parse_int i32_max a), (parse_uint u32_max b), (parse_uint u32_max c), (parse_uint u32_max d), (parse_uint u32_max e), (parse_f64 s);
    cbn [opt_field obind]; try discriminate.
  unfold civil_to_time. destruct (_ && _); [destruct (utc_ok _)|]; discriminate.
Qed.
Lemma p_line_no_panic l n : parse_p_line l n <> Panic.
Proof.
  unfold parse_p_line. destruct (_ <? _)%nat; [discriminate|]. generalize (split_ws (skipn 4 l)). intros f.
  destruct f as [|a [|b [|c [|d f]]]]; try discriminate.
  destruct (parse_f64 a), (parse_f64 b), (parse_f64 c), (parse_f64 d); discriminate.
Qed.
Definition err_line (e : sp3_err) : N := let 'Record_err n _ := e in n.
Lemma epoch_line_err l n e : parse_epoch_line l n = Err e -> err_line e = n.
Proof.
  unfold Sp3_Model.parse_epoch_line. generalize (split_ws (match l with c :: t => if c =? 42 then t else l | [] => [] end)). intros f.
  destruct f as [|a [|b [|c [|d [|g [|s f]]]]]]; try (intros [= <-]; reflexivity).
  destruct (parse_int i32_max a), (parse_uint u32_max b), (parse_uint u32_max c), (parse_uint u32_max d), (parse_uint u32_max g), (parse_f64 s);
    cbn [opt_field obind]; try (intros [= <-]; reflexivity).
  unfold civil_to_time. destruct (_ && _); [destruct (utc_ok _)|]; cbn [obind]; try discriminate; intros [= <-]; reflexivity.
Qed.
Lemma p_line_err l n e : parse_p_line l n = Err e -> err_line e = n.
Proof.
  unfold parse_p_line. destruct (_ <? _)%nat; [intros [= <-]; reflexivity|]. generalize (split_ws (skipn 4 l)). intros f.
  destruct f as [|a [|b [|c [|d f]]]]; try (intros [= <-]; reflexivity).
  destruct (parse_f64 a), (parse_f64 b), (parse_f64 c), (parse_f64 d); cbn [opt_field obind]; try discriminate; intros [= <-]; reflexivity.
Qed.

(** ** The stream and the batch reader *)
Lemma body_spec ls : forall no hd es e,
  match body ls no hd e with
  | (Ok e', s') =>
      s_header s' = hd /\
      match s_pending s' with
      | None => s_finished s' = true /\ read_loop ls no false hd es (Some e) = Ok (Sp3 hd (es ++ [e']))
      | Some (n, l) =>
          s_finished s' = false /\ (S (length (s_rest s')) <= length ls)%nat /\
          read_loop ls no false hd es (Some e) =
            obind (parse_epoch_line l n) (fun e2 => read_loop (s_rest s') (s_no s') false hd (es ++ [e']) (Some e2))
      end
  | (Err x, s') => s_finished s' = false /\ s_pending s' = None /\ read_loop ls no false hd es (Some e) = Err x
  | (Panic, _) => False
  end.
Proof.
  induction ls as [|l t IH]; intros no hd es e.
  - cbn. auto.
  - cbn [body Sp3_Model.read_loop]. rewrite andb_false_l. destruct (is_eof l); [cbn; auto|].
    destruct (star l) eqn:Es; [cbn; repeat split; lia|]. destruct (pline l).
    + destruct (parse_p_line l (no + 1)) eqn:Ep; cbn [obind].
      * specialize (IH (no + 1) hd es (push e a)). destruct (body t (no + 1) hd (push e a)) as [[e'| |] s']; auto.
        destruct IH as (Ih & IH). split; [exact Ih|]. destruct (s_pending s') as [[n l']|]; [|exact IH].
        destruct IH as (F & L & R). split; [exact F|]. split; [cbn [length]; lia|exact R].
      * cbn. auto.
      * exfalso. exact (p_line_no_panic _ _ Ep).
    + specialize (IH (no + 1) hd es e). destruct (body t (no + 1) hd e) as [[e'| |] s']; auto.
      destruct IH as (Ih & IH). split; [exact Ih|]. destruct (s_pending s') as [[n l']|]; [|exact IH].
      destruct IH as (F & L & R). split; [exact F|]. split; [cbn [length]; lia|exact R].
Qed.
Lemma drain_spec n : forall s es no l, s_finished s = false -> s_pending s = Some (no, l) -> (length (s_rest s) < n)%nat ->
  match obind (parse_epoch_line l no) (fun e => read_loop (s_rest s) (s_no s) false (s_header s) es (Some e)) with
  | Ok r => header r = s_header s /\ exists es', epochs r = es ++ es' /\ drain (S n) s = Some (es', Ok tt)
  | Err x => exists es', drain (S n) s = Some (es', Err x)
  | Panic => False
  end.
Proof.
  induction n as [|n IH]; intros s es no l F P L; [lia|].
  remember (S n) as n1. cbn [Sp3_Model.drain]. unfold Sp3_Model.next_epoch. rewrite F, P.
  destruct (parse_epoch_line l no) as [e|x|] eqn:Ee; cbn [obind].
  - pose proof (body_spec (s_rest s) (s_no s) (s_header s) es e) as B.
    destruct (body (s_rest s) (s_no s) (s_header s) e) as [[e'|x|] s'] eqn:Eb; [|destruct B as (B1 & B2 & ->); eauto|contradiction].
    destruct B as (Bh & B). destruct (s_pending s') as [[no2 l2]|] eqn:P2.
    + destruct B as (F2 & L2 & ->). specialize (IH s' (es ++ [e']) no2 l2 F2 P2 ltac:(lia)). rewrite <- Bh. subst n1.
      destruct (obind _ _) as [r|x|] eqn:Er.
      * destruct IH as (Hh & es' & Hes & Hd). split; [exact Hh|]. exists (e' :: es'). rewrite Hd. split; [|reflexivity]. rewrite Hes, <- app_assoc. reflexivity.
      * destruct IH as (es' & Hd). rewrite Hd. eauto.
      * exact IH.
    + destruct B as (F2 & ->). split; [reflexivity|]. exists [e']. split; [reflexivity|].
      subst n1. cbn [Sp3_Model.drain]. unfold Sp3_Model.next_epoch. rewrite F2. reflexivity.
  - eauto.
  - exact (epoch_line_no_panic _ _ Ee).
Qed.
Lemma open_spec ls : forall no hd es,
  let s := open_loop ls no hd in
  s_finished s = false /\
  match s_pending s with
  | None => read_loop ls no true hd es None = Ok (Sp3 (s_header s) es)
  | Some (n, l) => (S (length (s_rest s)) <= length ls)%nat /\
      read_loop ls no true hd es None = obind (parse_epoch_line l n) (fun e => read_loop (s_rest s) (s_no s) false (s_header s) es (Some e))
  end.
Proof.
  induction ls as [|l t IH]; intros no hd es; [cbn; auto|].
  cbn [open_loop Sp3_Model.read_loop]. destruct (is_eof l); [cbn; auto|]. destruct (star l) eqn:Es; cbn [andb negb].
  - cbn. repeat split; lia.
  - specialize (IH (no + 1) (hd ++ [l]) es). cbv zeta in IH. destruct IH as (F & IH). split; [exact F|].
    destruct (s_pending _) as [[n l']|]; [|exact IH]. destruct IH as (L & R). split; [cbn [length]; lia|exact R].
Qed.
Lemma stream_agrees text n : (length (lines text) < n)%nat ->
  match read_sp3 text with
  | Ok r => header r = s_header (open_stream text) /\ drain n (open_stream text) = Some (epochs r, Ok tt)
  | Err x => exists es, drain n (open_stream text) = Some (es, Err x)
  | Panic => False
  end.
Proof.
  intros L. unfold Sp3_Model.read_sp3, open_stream. pose proof (open_spec (lines text) 0 [] []) as O. cbv zeta in O. destruct O as (F & O).
  set (s := open_loop (lines text) 0 []) in *. destruct (s_pending s) as [[no l]|] eqn:P.
  - destruct O as (L2 & ->). destruct n as [|n]; [lia|]. pose proof (drain_spec n s [] no l F P ltac:(lia)) as D.
    destruct (obind _ _) as [r|x|]; auto. destruct D as (Hh & es' & He & Hd). cbn [app] in He. subst es'. auto.
  - rewrite O. cbn [header epochs]. split; [reflexivity|]. destruct n as [|n]; [lia|]. cbn [Sp3_Model.drain].
    unfold Sp3_Model.next_epoch. rewrite F, P. reflexivity.
Qed.
(** After an error the next call reports the end of the file. *)
Lemma after_error s x s' : next_epoch s = (Err x, s') -> exists s'', next_epoch s' = (Ok None, s'').
Proof.
  unfold Sp3_Model.next_epoch. destruct (s_finished s) eqn:F; [discriminate|]. destruct (s_pending s) as [[no l]|] eqn:P; [|discriminate].
  destruct (parse_epoch_line l no) as [e|y|]; [|intros [= <- <-]|discriminate].
  - pose proof (body_spec (s_rest s) (s_no s) (s_header s) [] e) as B.
    destruct (body (s_rest s) (s_no s) (s_header s) e) as [[e'|y|] s1]; [discriminate| |contradiction].
    intros [= <- <-]. destruct B as (F1 & P1 & _). rewrite F1, P1. eauto.
  - cbn. eauto.
Qed.
Lemma after_end s s' : next_epoch s = (Ok None, s') -> next_epoch s' = (Ok None, s').
Proof.
  unfold Sp3_Model.next_epoch. destruct (s_finished s) eqn:F; [intros [= <-]; now rewrite F|].
  destruct (s_pending s) as [[no l]|] eqn:P; [|intros [= <-]; reflexivity].
  destruct (parse_epoch_line l no) as [e|y|]; try discriminate.
  destruct (body _ _ _ _) as [[e'|y|] s1]; discriminate.
Qed.

(** ** What a file contains *)
Fixpoint upto_eof (ls : list str) : list str := match ls with [] => [] | l :: t => if is_eof l then [] else l :: upto_eof t end.
Definition group := (str * list str)%type.
Definition group_lines (g : group) : list str := fst g :: snd g.
(** The positions of a block are its P lines, each at its own line number, in order. *)
Inductive p_lines : N -> list str -> list position -> Prop :=
| pl_nil n : p_lines n [] []
| pl_p n l t p ps : pline l = true -> parse_p_line l (n + 1) = Ok p -> p_lines (n + 1) t ps -> p_lines n (l :: t) (p :: ps)
| pl_skip n l t ps : pline l = false -> p_lines (n + 1) t ps -> p_lines n (l :: t) ps.
Inductive blocks : N -> list group -> list epoch -> Prop :=
| bl_nil n : blocks n [] []
| bl_cons n l t gs e es : star l = true -> Forall (fun x => star x = false) t ->
    parse_epoch_line l (n + 1) = Ok (Epoch (time e) []) -> p_lines (n + 1) t (positions e) ->
    blocks (n + 1 + N.of_nat (length t)) gs es -> blocks n ((l, t) :: gs) (e :: es).

Lemma read_body ls : forall no hd es e r, read_loop ls no false hd es (Some e) = Ok r ->
  exists t gs ps es', upto_eof ls = t ++ flat_map group_lines gs /\ Forall (fun x => star x = false) t /\
    p_lines no t ps /\ blocks (no + N.of_nat (length t)) gs es' /\
    header r = hd /\ epochs r = es ++ Epoch (time e) (positions e ++ ps) :: es'.
Proof.
  induction ls as [|l t IH]; intros no hd es e r H.
  - cbn in H. injection H as <-. exists [], [], [], []. destruct e as [e1 e2]. repeat split; first [reflexivity|cbn; now rewrite app_nil_r|apply Forall_nil|apply pl_nil|apply bl_nil].
  - cbn [Sp3_Model.read_loop upto_eof] in *. rewrite andb_false_l in H. destruct (is_eof l).
    + injection H as <-. exists [], [], [], []. destruct e as [e1 e2]. repeat split; first [reflexivity|cbn; now rewrite app_nil_r|apply Forall_nil|apply pl_nil|apply bl_nil].
    + destruct (star l) eqn:Es.
      * destruct (parse_epoch_line l (no + 1)) as [e2| |] eqn:Ee; [|discriminate|discriminate]. cbn [obind] in H.
        destruct (IH _ _ _ _ _ H) as (t2 & gs & ps & es' & H1 & H2 & H3 & H4 & H5 & H6).
        assert (E2 : e2 = Epoch (time e2) []).
        { unfold Sp3_Model.parse_epoch_line in Ee. revert Ee. generalize (split_ws (match l with c :: t => if c =? 42 then t else l | [] => [] end)).
          intros f. destruct f as [|a [|b [|c [|d [|g [|s f]]]]]]; try discriminate.
          destruct (opt_field (no + 1) 0 _); try discriminate. destruct (opt_field (no + 1) 1 _); try discriminate.
          destruct (opt_field (no + 1) 2 _); try discriminate. destruct (opt_field (no + 1) 3 _); try discriminate.
          destruct (opt_field (no + 1) 4 _); try discriminate. destruct (opt_field (no + 1) 5 _); try discriminate.
          cbn [obind]. destruct (civil_to_time _ _ _ _ _ _ _ _ _); [|discriminate|discriminate]. cbn [obind]. intros [= <-]. reflexivity. }
        exists [], ((l, t2) :: gs), [], (Epoch (time e2) ps :: es'). cbn [app flat_map group_lines fst snd length N.of_nat].
        rewrite N.add_0_r. repeat split; try constructor; auto.
        -- rewrite H1. reflexivity.
        -- cbn [time]. rewrite <- E2. exact Ee.
        -- rewrite H6. rewrite E2. cbn [flush time positions app]. rewrite <- app_assoc, app_nil_r. destruct e. reflexivity.
      * destruct (pline l) eqn:Ep.
        -- destruct (parse_p_line l (no + 1)) as [p| |] eqn:Eq; [|discriminate|discriminate]. cbn [obind] in H.
           destruct (IH _ _ _ _ _ H) as (t2 & gs & ps & es' & H1 & H2 & H3 & H4 & H5 & H6).
           exists (l :: t2), gs, (p :: ps), es'. cbn [app length]. repeat split; auto.
           ++ now rewrite H1.
           ++ now constructor.
           ++ replace (no + N.of_nat (S (length t2))) with (no + 1 + N.of_nat (length t2)) by lia. exact H4.
           ++ rewrite H6. cbn [push time positions]. rewrite <- app_assoc. reflexivity.
        -- destruct (IH _ _ _ _ _ H) as (t2 & gs & ps & es' & H1 & H2 & H3 & H4 & H5 & H6).
           exists (l :: t2), gs, ps, es'. cbn [app length]. repeat split; auto.
           ++ now rewrite H1.
           ++ now apply pl_skip.
           ++ replace (no + N.of_nat (S (length t2))) with (no + 1 + N.of_nat (length t2)) by lia. exact H4.
Qed.
Lemma read_content text r : read_sp3 text = Ok r ->
  exists gs, upto_eof (lines text) = header r ++ flat_map group_lines gs /\ Forall (fun l => star l = false) (header r) /\
    blocks (N.of_nat (length (header r))) gs (epochs r).
Proof.
  unfold Sp3_Model.read_sp3. assert (G : forall ls no hd, N.of_nat (length hd) = no -> Forall (fun l => star l = false) hd ->
    forall r, read_loop ls no true hd [] None = Ok r ->
    exists gs, hd ++ upto_eof ls = header r ++ flat_map group_lines gs /\ Forall (fun l => star l = false) (header r) /\
      blocks (N.of_nat (length (header r))) gs (epochs r)).
  { clear. induction ls as [|l t IH]; intros no hd Hn Hf r H.
    - cbn in H. injection H as <-. exists []. repeat split; auto; apply bl_nil.
    - cbn [Sp3_Model.read_loop upto_eof] in *. destruct (is_eof l).
      + injection H as <-. exists []. repeat split; auto; apply bl_nil.
      + destruct (star l) eqn:Es; cbn [andb negb] in H.
        * destruct (parse_epoch_line l (no + 1)) as [e2| |] eqn:Ee; [|discriminate|discriminate]. cbn [obind flush] in H.
          destruct (read_body _ _ _ _ _ _ H) as (t2 & gs & ps & es' & H1 & H2 & H3 & H4 & H5 & H6).
          assert (E2 : e2 = Epoch (time e2) []).
          { unfold Sp3_Model.parse_epoch_line in Ee. revert Ee. generalize (split_ws (match l with c :: t => if c =? 42 then t else l | [] => [] end)).
            intros f. destruct f as [|a [|b [|c [|d [|g [|s f]]]]]]; try discriminate.
            destruct (opt_field (no + 1) 0 _); try discriminate. destruct (opt_field (no + 1) 1 _); try discriminate.
            destruct (opt_field (no + 1) 2 _); try discriminate. destruct (opt_field (no + 1) 3 _); try discriminate.
            destruct (opt_field (no + 1) 4 _); try discriminate. destruct (opt_field (no + 1) 5 _); try discriminate.
            cbn [obind]. destruct (civil_to_time _ _ _ _ _ _ _ _ _); [|discriminate|discriminate]. cbn [obind]. intros [= <-]. reflexivity. }
          exists ((l, t2) :: gs). rewrite H5. repeat split; auto.
          -- cbn [flat_map group_lines fst snd]. rewrite H1. reflexivity.
          -- rewrite H6, Hn. cbn [app]. constructor; auto; cbn [time positions].
             ++ rewrite <- E2. exact Ee.
             ++ rewrite E2. cbn [positions app]. exact H3.
        * destruct (IH (no + 1) (hd ++ [l])) with (r := r) as (gs & G1 & G2 & G3); auto.
          -- rewrite app_length. cbn [length]. lia.
          -- apply Forall_app. auto.
          -- exists gs. rewrite <- app_assoc in G1. cbn [app] in G1. auto. }
  intros H. destruct (G _ _ _ eq_refl (Forall_nil _) _ H) as (gs & G1 & G2). exists gs. auto.
Qed.
(** Reported line numbers lie in the file; the "P before any epoch" error never occurs. *)
Lemma read_err text x : read_sp3 text = Err x -> 1 <= err_line x <= N.of_nat (length (lines text)) /\ forall n, x <> Record_err n NoEpoch.
Proof.
  assert (P1 : forall l n m, parse_epoch_line l n <> Err (Record_err m NoEpoch)).
  { intros l n m. unfold Sp3_Model.parse_epoch_line. generalize (split_ws (match l with c :: t => if c =? 42 then t else l | [] => [] end)). intros f.
    destruct f as [|a [|b [|c [|d [|g [|s f]]]]]]; try discriminate.
    destruct (parse_int i32_max a), (parse_uint u32_max b), (parse_uint u32_max c), (parse_uint u32_max d), (parse_uint u32_max g), (parse_f64 s);
      cbn [opt_field obind]; try discriminate.
    unfold civil_to_time. destruct (_ && _); [destruct (utc_ok _)|]; cbn [obind]; discriminate. }
  assert (P2 : forall l n m, parse_p_line l n <> Err (Record_err m NoEpoch)).
  { intros l n m. unfold parse_p_line. destruct (_ <? _)%nat; [discriminate|]. generalize (split_ws (skipn 4 l)). intros f.
    destruct f as [|a [|b [|c [|d f]]]]; try discriminate.
    destruct (parse_f64 a), (parse_f64 b), (parse_f64 c), (parse_f64 d); cbn [opt_field obind]; discriminate. }
  unfold Sp3_Model.read_sp3. assert (G : forall ls no ih hd es cur, (ih = false -> cur <> None) -> read_loop ls no ih hd es cur = Err x ->
    no + 1 <= err_line x <= no + N.of_nat (length ls) /\ forall n, x <> Record_err n NoEpoch).
  { induction ls as [|l t IH]; intros no ih hd es cur Hc H; [discriminate|].
    assert (S1 : forall ih hd es cur, (ih = false -> cur <> None) -> read_loop t (no + 1) ih hd es cur = Err x ->
      no + 1 <= err_line x <= no + N.of_nat (length (l :: t)) /\ forall n, x <> Record_err n NoEpoch).
    { intros. destruct (IH _ _ _ _ _ H0 H1) as (B & C). split; [cbn [length]; lia|exact C]. }
    cbn [Sp3_Model.read_loop] in H. destruct (is_eof l); [discriminate|]. destruct ih; destruct (star l) eqn:Es; cbn [andb negb] in H.
    - destruct (parse_epoch_line l (no + 1)) as [e2|y|] eqn:Ee; cbn [obind] in H; [|injection H as ->|discriminate].
      + eapply S1; [|exact H]. discriminate.
      + rewrite (epoch_line_err _ _ _ Ee). split; [cbn [length]; lia|]. intros n ->. exact (P1 _ _ _ Ee).
    - eapply S1; [|exact H]. discriminate.
    - destruct (parse_epoch_line l (no + 1)) as [e2|y|] eqn:Ee; cbn [obind] in H; [|injection H as ->|discriminate].
      + eapply S1; [|exact H]. discriminate.
      + rewrite (epoch_line_err _ _ _ Ee). split; [cbn [length]; lia|]. intros n ->. exact (P1 _ _ _ Ee).
    - destruct (pline l).
      + destruct cur as [e|]; [|now specialize (Hc eq_refl)].
        destruct (parse_p_line l (no + 1)) as [p|y|] eqn:Ee; cbn [obind] in H; [|injection H as ->|discriminate].
        * eapply S1; [|exact H]. discriminate.
        * rewrite (p_line_err _ _ _ Ee). split; [cbn [length]; lia|]. intros n ->. exact (P2 _ _ _ Ee).
      + eapply S1; [|exact H]. exact Hc. }
  intros H. apply G in H; [|discriminate]. exact H.
Qed.
End Reader.
