(** C54: frame kernels. *)
From Coq Require Import Ascii String List NArith ZArith QArith Qround Bool Lia Sorted.
From Verif Require Import Base Text DecFloat Sort Fnum Omm_Model Tk_Model Sclk_Model Fk_Model Fk_Proofs.
From Verif Require Ik_Proofs.
Import ListNotations.
Local Open Scope string_scope.
Local Open Scope Z_scope.
Local Open Scope list_scope.

(** A kernel is accepted with a list of frames exactly when the list is by strictly growing identifier, names exactly the
    identifiers of the FRAME_<id>_NAME variables, and every frame is what the kernel says about it. *)
Theorem C54_frames d fs : from_table d = Ok fs <->
  StronglySorted Z.lt (map f_id fs) /\ (forall i, In i (map f_id fs) <-> exists k v, In (k, v) d /\ frame_key k = Some i) /\ Forall (frame_in d) fs.
Proof. exact (frames_spec d fs). Qed.
(** Those variables are FRAME_, a number, _NAME. *)
Theorem C54_key k i : frame_key k = Some i <-> exists n, k = lit "FRAME_" ++ n ++ lit "_NAME" /\ parse_int 2147483647 n = Some i.
Proof. exact (Ik_Proofs.frame_key_spec k i). Qed.
Theorem C54_never_panics d : from_table d <> Panic.
Proof. exact (frames_np d). Qed.
(** Lookups by identifier find the only frame of that identifier. *)
Theorem C54_by_id d fs id : from_table d = Ok fs ->
  match frame_by_id fs id with
  | Some f => f_id f = id /\ frame_in d f /\ forall g, In g fs -> f_id g = id -> g = f
  | None => forall k v, In (k, v) d -> frame_key k <> Some id
  end.
Proof.
  intros H. apply frames_spec in H as (S & I & F). rewrite Forall_forall in F. unfold frame_by_id.
  destruct (find (fun f => f_id f =? id) fs) as [f|] eqn:E.
  - apply find_some in E as (In1 & E). apply Z.eqb_eq in E. split; [exact E|]. split; [apply F, In1|].
    clear I F. induction fs as [|g fs IH]; [destruct In1|]. cbn in S. apply StronglySorted_inv in S as (S & D). rewrite Forall_forall in D.
    assert (N : forall h, In h fs -> f_id h <> f_id g) by (intros h Hh; specialize (D (f_id h) (in_map f_id _ _ Hh)); lia).
    intros h [->|Hh] Eh.
    + destruct In1 as [->|In1]; [reflexivity|]. destruct (N f In1). congruence.
    + destruct In1 as [->|In1]; [destruct (N h Hh); congruence|]. now apply IH.
  - intros k v K X. assert (J : In id (map f_id fs)) by (apply I; eauto). apply in_map_iff in J as (f & <- & J).
    apply (find_none _ _ E) in J. now rewrite Z.eqb_refl in J.
Qed.
(** Names are looked up whatever their case. *)
Theorem C54_by_name fs name :
  match frame_by_name fs name with
  | Some f => exists a b, fs = a ++ f :: b /\ f_name f = map upper name /\ forall g, In g a -> f_name g <> map upper name
  | None => forall g, In g fs -> f_name g <> map upper name
  end.
Proof.
  unfold frame_by_name. induction fs as [|g fs IH]; cbn [find]; [intros g []|]. destruct (str_eqb_spec (f_name g) (map upper name)) as [E|N].
  - exists [], fs. split; [reflexivity|]. split; [exact E|]. intros h [].
  - destruct (find _ fs) as [f|].
    + destruct IH as (a & b & -> & E & H). exists (g :: a), b. split; [reflexivity|]. split; [exact E|]. intros h [<-|I]; auto.
    + intros h [<-|I]; auto.
Qed.

(** The numbers of a variable are those written, in order; one level of nesting is opened up. *)
Definition number (v : tv) (x : fnum) : Prop := (exists z, v = TInt z /\ x = Fin (inject_Z z)) \/ v = TFlt x.
Definition numbers (v : tv) (l : list fnum) : Prop := (exists vs, v = TArr vs /\ Forall2 number vs l) \/ exists x, number v x /\ l = [x].
Definition all_numbers (v : tv) (l : list fnum) : Prop :=
  (exists vs ls, v = TArr vs /\ Forall2 numbers vs ls /\ l = concat ls) \/ exists x, number v x /\ l = [x].
Lemma num1_number v x : num1 v = Some x <-> number v x.
Proof.
  unfold number. destruct v as [z|f|t|l]; cbn; split; try discriminate.
  - intros E. injection E as <-. left. eauto.
  - intros [(z' & E & ->)|E]; [injection E as ->; reflexivity|discriminate].
  - intros E. injection E as ->. now right.
  - intros [(z' & E & _)|E]; [discriminate|injection E as ->; reflexivity].
  - intros [(z' & E & _)|E]; discriminate.
  - intros [(z' & E & _)|E]; discriminate.
Qed.
Lemma flat1_numbers vs l : flat1 vs = Some l <-> Forall2 number vs l.
Proof.
  revert l. induction vs as [|v vs IH]; intros l; cbn [flat1].
  - split; [intros E; injection E as <-; constructor|]. intros F. now inversion F.
  - split.
    + destruct (num1 v) as [x|] eqn:E; [|discriminate]. destruct (flat1 vs) as [r|]; [|discriminate]. intros H. injection H as <-. constructor; [now apply num1_number|now apply IH].
    + intros F. inversion F as [|? x ? r A B]; subst. apply num1_number in A. apply IH in B. now rewrite A, B.
Qed.
Lemma flatten_numbers vs l : flatten_f64 vs = Some l <-> exists ls, Forall2 numbers vs ls /\ l = concat ls.
Proof.
  revert l. induction vs as [|v vs IH]; intros l; cbn [flatten_f64].
  - split; [intros E; injection E as <-; exists []; split; [constructor|reflexivity]|]. intros (ls & F & ->). now inversion F.
  - assert (One : forall o, (forall a, o = Some a <-> numbers v a) ->
      match o, flatten_f64 vs with Some a, Some b => Some (a ++ b) | _, _ => None end = Some l <-> exists ls, Forall2 numbers (v :: vs) ls /\ l = concat ls).
    { intros o H. split.
      - destruct o as [a|]; [|discriminate]. destruct (flatten_f64 vs) as [b|]; [|discriminate]. intros E. injection E as <-.
        destruct (proj1 (IH b) eq_refl) as (ls & F & ->). exists (a :: ls). split; [constructor; [now apply H|exact F]|reflexivity].
      - intros (ls & F & ->). inversion F as [|? a ? ls' A B]; subst. apply H in A. rewrite A. rewrite (proj2 (IH (concat ls'))) by eauto. reflexivity. }
    destruct v as [z|f|t|inner].
    + refine (One (Some [Fin (inject_Z z)]) _). intros a. unfold numbers. split.
      * intros E. injection E as <-. right. exists (Fin (inject_Z z)). split; [left; eauto|reflexivity].
      * intros [(vs' & E & _)|(x & N & ->)]; [discriminate|]. apply num1_number in N. cbn in N. congruence.
    + refine (One (Some [f]) _). intros a. unfold numbers. split.
      * intros E. injection E as <-. right. exists f. split; [now right|reflexivity].
      * intros [(vs' & E & _)|(x & N & ->)]; [discriminate|]. apply num1_number in N. cbn in N. congruence.
    + refine (One None _). intros a. unfold numbers. split; [discriminate|]. intros [(vs' & E & _)|(x & N & ->)]; [discriminate|]. now apply num1_number in N.
    + refine (One (flat1 inner) _). intros a. rewrite flat1_numbers. unfold numbers. split; [intros F; left; eauto|].
      intros [(vs' & E & F)|(x & N & _)]; [injection E as ->; exact F|]. now apply num1_number in N.
Qed.
Theorem C54_numbers d k l : get_f64_array d k = Some l <-> exists v, get d k = Some v /\ all_numbers v l.
Proof.
  unfold get_f64_array, all_numbers. destruct (get d k) as [v|]; [|split; [discriminate|intros (v & E & _); discriminate]].
  assert (W : forall P : tv -> Prop, P v <-> exists v', Some v = Some v' /\ P v') by (intros P; split; [intros H; exists v; auto|intros (v' & E & H); injection E as ->; exact H]).
  rewrite <- (W (fun v => _ \/ _)). clear W. destruct v as [z|f|t|vs].
  - cbn. split.
    + intros E. injection E as <-. right. exists (Fin (inject_Z z)). split; [left; eauto|reflexivity].
    + intros [(vs & ls & E & _)|(x & N & ->)]; [discriminate|]. apply num1_number in N. cbn in N. congruence.
  - cbn. split.
    + intros E. injection E as <-. right. exists f. split; [now right|reflexivity].
    + intros [(vs & ls & E & _)|(x & N & ->)]; [discriminate|]. apply num1_number in N. cbn in N. congruence.
  - cbn. split; [discriminate|]. intros [(vs & ls & E & _)|(x & N & ->)]; [discriminate|]. now apply num1_number in N.
  - rewrite flatten_numbers. split.
    + intros (ls & F & E). left. exists vs, ls. auto.
    + intros [(vs' & ls & E & F & ->)|(x & N & _)]; [injection E as ->; eauto|]. now apply num1_number in N.
Qed.
(** A number with a fraction stands for the integer next to it on the side of zero; out of range, for the nearest bound; not a number, for 0. *)
Theorem C54_truncates f : match f with
  | Fin q => (-(2147483649) < q < 2147483648)%Q -> ((0 <= q)%Q -> (inject_Z (f_as_i32 f) <= q < inject_Z (f_as_i32 f) + 1)%Q) /\ ((q <= 0)%Q -> (q <= inject_Z (f_as_i32 f) < q + 1)%Q)
  | Inf neg => f_as_i32 f = if neg then -2147483648 else 2147483647
  | NaN => f_as_i32 f = 0
  end.
Proof.
  destruct f as [q|[]|]; [|reflexivity..]. intros (Lo & Hi). unfold f_as_i32.
  assert (Fl : forall r, (inject_Z (Qfloor r) <= r)%Q /\ (r < inject_Z (Qfloor r) + 1)%Q).
  { intros r. split; [apply Qfloor_le|]. pose proof (Qlt_floor r) as H. now rewrite inject_Z_plus in H. }
  assert (Lt : forall a b : Z, (inject_Z a < inject_Z b)%Q -> a < b) by (intros a b H; now rewrite Zlt_Qlt).
  assert (P : (0 <= q)%Q -> 0 <= Qfloor q <= 2147483647).
  { intros H. destruct (Fl q) as (A & B). split.
    - apply Z.lt_succ_r, Lt. unfold Z.succ. rewrite inject_Z_plus. eapply Qle_lt_trans; [exact H|exact B].
    - apply Z.lt_succ_r, Lt. eapply Qle_lt_trans; [exact A|exact Hi]. }
  assert (M : (q <= 0)%Q -> 0 <= Qfloor (- q) <= 2147483648).
  { intros H. destruct (Fl (- q)%Q) as (A & B). assert (H' : (0 <= - q)%Q) by (apply Qopp_le_compat in H; exact H). split.
    - apply Z.lt_succ_r, Lt. unfold Z.succ. rewrite inject_Z_plus. eapply Qle_lt_trans; [exact H'|exact B].
    - apply Z.lt_succ_r, Lt. eapply Qle_lt_trans; [exact A|]. apply Qopp_lt_compat in Lo. exact Lo. }
  destruct (Qle_bool 0 q) eqn:S.
  - apply Qle_bool_iff in S. specialize (P S). replace (Z.max (-2147483648) (Z.min 2147483647 (Qfloor q))) with (Qfloor q) by lia. split; [intros _; apply Fl|].
    intros H. destruct (Fl q) as (A & B). assert (E : (q == 0)%Q) by (now apply Qle_antisym). assert (F0 : Qfloor q = 0) by (rewrite E; reflexivity). rewrite F0, E. split; [discriminate|reflexivity].
  - assert (S' : (q < 0)%Q). { apply Qnot_le_lt. intros H. apply Qle_bool_iff in H. congruence. }
    assert (S2 : (q <= 0)%Q) by (now apply Qlt_le_weak). specialize (M S2).
    replace (Z.max (-2147483648) (Z.min 2147483647 (- Qfloor (- q)))) with (- Qfloor (- q)) by lia. split.
    + intros H. exfalso. apply (Qlt_not_le _ _ S' H).
    + intros _. destruct (Fl (- q)%Q) as (A & B). rewrite inject_Z_opp. split.
      * apply Qopp_le_compat in A. now rewrite Qopp_involutive in A.
      * apply Qopp_lt_compat in B. rewrite Qopp_involutive in B. apply (Qplus_lt_l _ _ (- (1))). setoid_replace (q + 1 + - (1))%Q with q by ring. setoid_replace (- inject_Z (Qfloor (- q)) + - (1))%Q with (- (inject_Z (Qfloor (- q)) + 1))%Q by ring. exact B.
Qed.

Example C54_numbers_case : get_f64_array [(lit "A", TArr [TInt 1; TArr [TInt 2; TFlt (Fin 3)]; TInt 4])] (lit "A") = Some [Fin 1; Fin 2; Fin 3; Fin 4] /\ f_as_i32 (Fin (-5 # 2)) = -2.
Proof. split; reflexivity. Qed.
Definition sample_fk : table :=
  [(lit "FRAME_-7_NAME", TText (lit "Lander")); (lit "FRAME_-7_CLASS", TInt 4); (lit "FRAME_-7_CLASS_ID", TInt (-7)); (lit "FRAME_-7_CENTER", TFlt (Fin (-7)));
   (lit "TKFRAME_-7_SPEC", TText (lit "MATRIX")); (lit "TKFRAME_-7_MATRIX", TArr [TInt 0; TInt 1; TInt 0; TInt (-1); TInt 0; TInt 0; TInt 0; TInt 0; TInt 1]);
   (lit "TKFRAME_-7_RELATIVE", TText (lit "iau_mars"));
   (lit "FRAME_10014_NAME", TText (lit "IAU_MARS")); (lit "FRAME_10014_CLASS", TInt 2); (lit "FRAME_10014_CLASS_ID", TInt 499); (lit "FRAME_10014_CENTER", TInt 499)].
Example C54_case : exists fs, from_table sample_fk = Ok fs /\ map f_id fs = [-7; 10014] /\ map f_name fs = [lit "LANDER"; lit "IAU_MARS"] /\
  map f_class_id fs = [-7; 499] /\ option_map snd (f_tk (nth 0 fs (Frame 0 [] Inertial 0 0 None))) = Some (lit "IAU_MARS").
Proof. eexists. split; [vm_compute; reflexivity|]. vm_compute. auto. Qed.
(** A padded identifier makes the reader look for variables that are not there, and every frame of the kernel is lost. *)
Theorem C54_padded_refuted : exists d e, from_table (sample_fk ++ d) = Err e /\ forall k v, In (k, v) d -> starts_with (lit "FRAME_0042_") k = true.
Proof.
  exists [(lit "FRAME_0042_NAME", TText (lit "X")); (lit "FRAME_0042_CLASS", TInt 2); (lit "FRAME_0042_CLASS_ID", TInt 42); (lit "FRAME_0042_CENTER", TInt 42)].
  eexists. split; [vm_compute; reflexivity|]. intros k v [E|[E|[E|[E|[]]]]]; injection E as <- <-; reflexivity.
Qed.
(** A frame whose class identifier is written with a fraction gets it cut towards zero without complaint. *)
Theorem C54_fraction_refuted : exists d f, from_table d = Ok [f] /\ get d (lit "FRAME_5_CENTER") = Some (TFlt (Fin (5 # 2))) /\ f_center f = 2.
Proof.
  exists [(lit "FRAME_5_NAME", TText (lit "X")); (lit "FRAME_5_CLASS", TInt 2); (lit "FRAME_5_CLASS_ID", TInt 5); (lit "FRAME_5_CENTER", TFlt (Fin (5 # 2)))].
  eexists. split; [vm_compute; reflexivity|]. split; reflexivity.
Qed.

Print Assumptions C54_frames.
Print Assumptions C54_key.
Print Assumptions C54_never_panics.
Print Assumptions C54_by_id.
Print Assumptions C54_by_name.
Print Assumptions C54_padded_refuted.
Print Assumptions C54_fraction_refuted.
Print Assumptions C54_numbers.
Print Assumptions C54_truncates.
