(** C177: the mission context remembers the last registration of each alias.
    C178: the columnar residual file holds the pushed records. *)
From Coq Require Import List String Bool Lia.
From Verif Require Import Base Mission_Model.
Import ListNotations.
Local Open Scope list_scope.

Section Maps.
  Context {V : Type}.
  Implicit Types m : map V.
  Lemma get_del k a m : get k (del a m) = if String.eqb k a then None else get k m.
  Proof.
    unfold del. induction m as [|[x v] m IH]; cbn; [now destruct (String.eqb k a)|].
    destruct (String.eqb_spec a x) as [->|N]; cbn.
    - rewrite IH. destruct (String.eqb_spec k x) as [->|N']; [reflexivity|]. reflexivity.
    - rewrite IH. destruct (String.eqb_spec k x) as [->|N']; [|reflexivity].
      destruct (String.eqb_spec x a) as [->|]; congruence.
  Qed.
  Lemma get_put k a v m : get k (put a v m) = if String.eqb k a then Some v else get k m.
  Proof. unfold put. cbn. destruct (String.eqb k a) eqn:E; [reflexivity|]. now rewrite get_del, E. Qed.
  Lemma in_del e a m : In e (del a m) <-> In e m /\ a <> fst e.
  Proof.
    unfold del. rewrite filter_In, negb_true_iff. split; intros (A & B); split; auto.
    - now apply String.eqb_neq.
    - now apply String.eqb_neq.
  Qed.
  Lemma nodup_del a m : NoDup (List.map fst m) -> NoDup (List.map fst (del a m)).
  Proof.
    induction m as [|[x v] m IH]; cbn; [constructor|]. rewrite NoDup_cons_iff. intros (A & B).
    destruct (negb (String.eqb a x)); cbn; [|now apply IH]. constructor; [|now apply IH].
    intros C. apply A. apply in_map_iff in C. destruct C as (e & <- & C). apply in_del in C. apply in_map. now destruct C.
  Qed.
  Lemma nodup_put a v m : NoDup (List.map fst m) -> NoDup (List.map fst (put a v m)).
  Proof.
    intros H. unfold put; cbn. constructor; [|now apply nodup_del]. intros C. apply in_map_iff in C.
    destruct C as (e & E & C). apply in_del in C. destruct C as (_ & C). congruence.
  Qed.
  Lemma get_in k v m : NoDup (List.map fst m) -> (In (k, v) m <-> get k m = Some v).
  Proof.
    induction m as [|[x w] m IH]; cbn; [now intuition|]. rewrite NoDup_cons_iff. intros (A & B).
    destruct (String.eqb_spec k x) as [->|N].
    - split; [intros [H|H]|intros H].
      + now injection H as ->.
      + exfalso. apply A. now apply (in_map fst) in H.
      + injection H as ->. now left.
    - rewrite <- (IH B). split; [intros [H|H]|]; auto. injection H as -> ->. congruence.
  Qed.
End Maps.

Section Laws.
  Context {Loc Ins : Type}.
  Notation call := (call Loc Ins).

  (** What the history says about an alias, without any map: the last call
      naming it decides. *)
  Fixpoint last_loc (a : string) (cs : list call) : option Loc :=
    match cs with
    | [] => None
    | c :: r => (* [r] is earlier; the list is newest first *)
        match c with
        | AddLoc b l => if String.eqb a b then Some l else last_loc a r
        | DelLoc b => if String.eqb a b then None else last_loc a r
        | _ => last_loc a r
        end
    end.
  Fixpoint last_ins (a : string) (cs : list call) : option Ins :=
    match cs with
    | [] => None
    | c :: r =>
        match c with
        | AddIns b i => if String.eqb a b then Some i else last_ins a r
        | DelIns b => if String.eqb a b then None else last_ins a r
        | _ => last_ins a r
        end
    end.

  Lemma replay_snoc (cs : list call) c : replay (cs ++ [c]) = apply (replay cs) c.
  Proof. unfold replay. now rewrite fold_left_app. Qed.

  Lemma history (cs : list call) :
    (forall a, location a (replay cs) = last_loc a (rev cs)) /\
    (forall a, instrument a (replay cs) = last_ins a (rev cs)) /\
    NoDup (List.map fst (locations (replay cs))) /\ NoDup (List.map fst (instruments (replay cs))).
  Proof.
    induction cs as [|c cs IH] using rev_ind; [cbn; repeat split; constructor|].
    destruct IH as (A & B & C & D). rewrite replay_snoc, rev_app_distr. cbn [rev app]. unfold location, instrument, locations, instruments in *.
    destruct c as [a l|a i|a|a]; cbn [apply add_location add_instrument remove_location remove_instrument snd m_locs m_inss last_loc last_ins];
      repeat split; try assumption; try (apply nodup_put; assumption); try (apply nodup_del; assumption);
      intros b; rewrite ?get_put, ?get_del; destruct (String.eqb b a); auto.
  Qed.

  (** After any sequence of calls a lookup gives the value of the last
      registration under that alias that was not removed since. Locations and
      instruments do not see each other, even under the same alias. *)
  Theorem C177_lookup : forall (cs : list call) a,
    location a (replay cs) = last_loc a (rev cs) /\ instrument a (replay cs) = last_ins a (rev cs).
  Proof. intros. destruct (history cs) as (A & B & _). now split. Qed.

  (** The listings hold exactly the pairs that lookups find, each alias once. *)
  Theorem C177_listing : forall (cs : list call),
    NoDup (List.map fst (locations (replay cs))) /\ NoDup (List.map fst (instruments (replay cs))) /\
    (forall a l, In (a, l) (locations (replay cs)) <-> last_loc a (rev cs) = Some l) /\
    (forall a i, In (a, i) (instruments (replay cs)) <-> last_ins a (rev cs) = Some i).
  Proof.
    intros. destruct (history cs) as (A & B & C & D). repeat split; try assumption.
    - intros H. rewrite <- A. unfold location. now apply (proj1 (get_in _ _ _ C)).
    - intros H. rewrite <- A in H. now apply (proj2 (get_in _ _ _ C)).
    - intros H. rewrite <- B. unfold instrument. now apply (proj1 (get_in _ _ _ D)).
    - intros H. rewrite <- B in H. now apply (proj2 (get_in _ _ _ D)).
  Qed.

  (** Removal hands back what a lookup would have given and forgets it, and
      nothing else. *)
  Theorem C177_removal : forall (cs : list call) a,
    fst (remove_location a (replay cs)) = last_loc a (rev cs) /\
    fst (remove_instrument a (replay cs)) = last_ins a (rev cs) /\
    (forall b, location b (snd (remove_location a (replay cs))) = if String.eqb b a then None else last_loc b (rev cs)) /\
    (forall b, instrument b (snd (remove_location a (replay cs))) = last_ins b (rev cs)) /\
    (forall b, instrument b (snd (remove_instrument a (replay cs))) = if String.eqb b a then None else last_ins b (rev cs)) /\
    (forall b, location b (snd (remove_instrument a (replay cs))) = last_loc b (rev cs)).
  Proof.
    intros. destruct (history cs) as (A & B & _). unfold location, instrument in *.
    repeat split; cbn [remove_location remove_instrument fst snd m_locs m_inss]; intros; rewrite ?get_del, ?A, ?B; reflexivity.
  Qed.
End Laws.

Local Open Scope string_scope.
Example C177_case :
  let cs := [AddLoc "teide" 1; AddIns "teide" true; AddLoc "teide" 2; AddLoc "paranal" 3; DelLoc "paranal"] in
  location "teide" (replay cs) = Some 2 /\ instrument "teide" (replay cs) = Some true /\
  location "paranal" (replay cs) = None /\ locations (replay cs) = [("teide", 2)].
Proof. repeat split. Qed.

Local Close Scope string_scope.

(** * C178 *)
Section Columns.
  Context {F : Type}.

  (** Row [i] of a file, read through the schema: one value per column. *)
  Inductive cell := VDouble (x : F) | VText (s : string) | VBool (b : bool).
  Definition cell_at (c : column F) (i : nat) : option cell :=
    match c with
    | CDouble l => option_map VDouble (nth_error l i)
    | CText l => option_map VText (nth_error l i)
    | CBool l => option_map VBool (nth_error l i)
    end.
  (** The value a reader expects under a column name. *)
  Definition field (name : string) (r : record F) : option cell :=
    if String.eqb name "epoch_jd_tt"%string then Some (VDouble (epoch_jd_tt r))
    else if String.eqb name "obs_type"%string then Some (VText (obs_type r))
    else if String.eqb name "satellite"%string then Some (VText (satellite r))
    else if String.eqb name "residual_m"%string then Some (VDouble (residual_m r))
    else if String.eqb name "sigma_m"%string then Some (VDouble (sigma_m r))
    else if String.eqb name "rejected"%string then Some (VBool (rejected r)) else None.
  Definition size (c : column F) : nat :=
    match c with CDouble l => List.length l | CText l => List.length l | CBool l => List.length l end.

  (** Pushing records one by one and finishing gives one column per schema
      entry, of the schema's type, one row per record in the order pushed, and
      each cell is the field the schema names. *)
  Theorem C178_columns : forall rs : list (record F),
    let cols := finish (fold_left push rs []) in
    List.map ctype_of cols = List.map snd schema /\
    Forall (fun c => size c = List.length rs) cols /\
    forall i r k name ty col, nth_error rs i = Some r ->
      nth_error schema k = Some (name, ty) -> nth_error cols k = Some col ->
      cell_at col i = field name r /\ field name r <> None.
  Proof.
    intros rs cols.
    assert (W : forall w, fold_left push rs w = w ++ rs).
    { unfold cols; clear cols. induction rs as [|r rs IH]; intros w; cbn; [now rewrite app_nil_r|].
      rewrite IH. unfold push. now rewrite <- app_assoc. }
    unfold cols. rewrite W. cbn [app]. repeat split.
    - repeat constructor; cbn [size]; now rewrite map_length.
    - destruct k as [|[|[|[|[|[|k]]]]]]; cbn [nth_error schema finish] in *; try (destruct k; discriminate);
        injection H0 as <- <-; injection H1 as <-; cbn [cell_at]; rewrite nth_error_map, H; reflexivity.
    - destruct k as [|[|[|[|[|[|k]]]]]]; cbn [nth_error schema] in *; try (destruct k; discriminate); injection H0 as <- <-; discriminate.
  Qed.

  (** So two histories with the same columns are the same history: the file
      loses nothing. *)
  Theorem C178_lossless : forall a b : list (record F),
    finish (fold_left push a []) = finish (fold_left push b []) -> a = b.
  Proof.
    assert (W : forall (rs w : list (record F)), fold_left push rs w = w ++ rs).
    { induction rs as [|r rs IH]; intros w; cbn; [now rewrite app_nil_r|]. rewrite IH. unfold push. now rewrite <- app_assoc. }
    intros a b. rewrite !W. cbn [app]. revert b. induction a as [|x a IH]; intros [|y b] H; try reflexivity; try discriminate.
    unfold finish in H. cbn [List.map] in H. injection H as H1 H2 H3 H4 H5 H6 H7 H8 H9 H10 H11 H12.
    f_equal; [destruct x, y; cbn in *; congruence|]. apply IH. unfold finish. congruence.
  Qed.
End Columns.

Example C178_case :
  nth_error (finish (fold_left push [Rec 1 "C1C"%string "G01"%string 2 3 false; Rec 4 "L1C"%string "G02"%string 5 6 true] [])) 5 = Some (CBool [false; true]).
Proof. reflexivity. Qed.

Print Assumptions C177_lookup.
Print Assumptions C177_listing.
Print Assumptions C177_removal.
Print Assumptions C178_columns.
Print Assumptions C178_lossless.
