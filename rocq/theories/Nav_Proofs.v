(** Lemmas about navigation files. *)
From Coq Require Import Ascii String List NArith ZArith Lia Bool QArith Qround Qabs Lqa.
From Coq Require Import ZifyBool ZifyNat ZifyN.
From Verif Require Import Base Text DecFloat Lsk_Spec Sp3_Model Oem_Model Ilrs_Model Nav_Model Nav_Spec.
Import ListNotations.
Local Open Scope N_scope.

Lemma begins_spec l : starts_record l = true <-> begins l.
Proof.
  unfold starts_record, begins, is_digit. rewrite andb_true_iff, Nat.leb_le. destruct l as [|c t]; [split; [intros (_ & H); discriminate|intros (_ & x & y & H & _); discriminate]|].
  split; intros (H & G); (split; [exact H|]).
  - exists c, t. split; [reflexivity|]. lia.
  - destruct G as (x & y & E & G). injection E as -> ->. lia.
Qed.
Lemma begins_not l : starts_record l = false <-> ~ begins l.
Proof. rewrite <- begins_spec. destruct (starts_record l); split; congruence. Qed.
Lemma starts_app p s : starts_with p s = true <-> exists b, s = p ++ b.
Proof.
  revert s. induction p as [|a p IH]; intros s; cbn [starts_with app].
  - split; [now exists s|reflexivity].
  - destruct s as [|x s]; [split; [discriminate|intros (b & E); discriminate]|]. rewrite andb_true_iff, N.eqb_eq, IH. split.
    + intros (-> & b & ->). now exists b.
    + intros (b & E). injection E as -> ->. split; [reflexivity|now exists b].
Qed.
Lemma within_spec l : within end_mark l = true <-> marked l.
Proof.
  unfold marked. change (lit "END OF HEADER") with end_mark. generalize end_mark. intros p. induction l as [|x l IH]; cbn [within]; rewrite orb_true_iff, starts_app.
  - split; [intros [(b & E)|]; [now exists [], b|discriminate]|]. intros (a & b & E). left. destruct a as [|y a]; [now exists b|discriminate].
  - rewrite IH. split.
    + intros [(b & E)|(a & b & E)]; [now exists [], b|exists (x :: a), b; now rewrite E].
    + intros ([|y a] & b & E); [left; now exists b|right]. injection E as _ ->. now exists a, b.
Qed.
Lemma within_not l : within end_mark l = false <-> ~ marked l.
Proof. rewrite <- within_spec. destruct (within end_mark l); split; congruence. Qed.
Lemma after_header_spec ls : forall no rest k, after_header ls no = Some (rest, k) <->
  exists pre mark, ls = pre ++ mark :: rest /\ Forall (fun l => ~ marked l) pre /\ marked mark /\ k = (length pre + 1 + no)%nat.
Proof.
  induction ls as [|l ls IH]; intros no rest k; cbn [after_header].
  - split; [discriminate|]. intros ([|] & m & E & _); discriminate.
  - destruct (within end_mark l) eqn:W.
    + split.
      * intros E. injection E as <- <-. exists [], l. split; [reflexivity|]. split; [constructor|]. split; [now apply within_spec|reflexivity].
      * intros ([|x pre] & m & E & F & M & ->); injection E as -> ->; [reflexivity|]. inversion F as [|? ? A _]; subst. apply within_spec in W. contradiction.
    + rewrite IH. split.
      * intros (pre & m & -> & F & M & ->). exists (l :: pre), m. split; [reflexivity|]. split; [constructor; [now apply within_not|exact F]|]. split; [exact M|cbn [length]; lia].
      * intros ([|x pre] & m & E & F & M & ->); injection E as -> ->; [apply within_not in W; contradiction|]. inversion F; subst. exists pre, m. split; [reflexivity|]. split; [assumption|]. split; [exact M|cbn [length]; lia].
Qed.
Lemma body_spec text ls no : after_header (text_lines text) 1 = Some (ls, no) <-> body_of text ls no.
Proof. rewrite after_header_spec. unfold body_of. split; intros (pre & m & H); exists pre, m; intuition lia. Qed.
Lemma body_none text : after_header (text_lines text) 1 = None <-> Forall (fun l => ~ marked l) (text_lines text).
Proof.
  generalize 1%nat. induction (text_lines text) as [|l ls IH]; intros no; cbn [after_header]; [split; auto|].
  destruct (within end_mark l) eqn:W.
  - split; [discriminate|]. intros F. inversion F as [|? ? A _]; subst. apply within_spec in W. contradiction.
  - rewrite IH. split; [constructor; [now apply within_not|assumption]|intros F; now inversion F].
Qed.

(** ** Cutting into records *)
Lemma blocks_exist n : forall ls no, (length ls <= n)%nat -> exists bs e, blocks ls no bs e.
Proof.
  induction n as [|n IH]; intros ls no L.
  - destruct ls; [|cbn in L; lia]. exists [], None. constructor.
  - destruct ls as [|l0 t]; [exists [], None; constructor|]. cbn [length] in L. destruct (starts_record l0) eqn:S.
    + apply begins_spec in S. destruct t as [|l1 [|l2 [|l3 [|l4 [|l5 [|l6 [|l7 t]]]]]]]; try (exists [], (Some no); apply B_cut; [exact S|cbn [length]; lia]).
      destruct (IH t (no + 8)%nat ltac:(cbn [length] in L; lia)) as (bs & e & B). eexists _, e. apply B_rec; eassumption.
    + apply begins_not in S. destruct (IH t (Datatypes.S no) ltac:(lia)) as (bs & e & B). exists bs, e. now apply B_skip.
Qed.

(** ** One record *)
Lemma parse_d_ok w no v : parse_d w no = Ok v <-> number w v.
Proof. unfold parse_d, number. change (map usual w) with (map d_to_e w). destruct (parse_f64 (map d_to_e w)); split; congruence. Qed.
Lemma parse_d_no_panic w no : parse_d w no <> Panic.
Proof. unfold parse_d. destruct (parse_f64 _); discriminate. Qed.
Lemma floats_ok ws no vs : all_floats ws no = Ok vs <-> Forall2 number ws vs.
Proof.
  revert vs. induction ws as [|w ws IH]; intros vs; cbn [all_floats].
  - split; [intros E; injection E as <-; constructor|intros F; inversion F; reflexivity].
  - destruct (parse_d w no) as [v|e|] eqn:P; cbn [obind].
    + apply parse_d_ok in P. destruct (all_floats ws no) as [us|e|] eqn:A; cbn [obind].
      * split; [intros E; injection E as <-; constructor; [exact P|now apply IH]|]. intros F. inversion F as [|? x ? y N G]; subst. apply IH in G. unfold number in *. congruence.
      * split; [discriminate|]. intros F. inversion F as [|? x ? y N G]; subst. apply IH in G. congruence.
      * split; [discriminate|]. intros F. inversion F as [|? x ? y N G]; subst. apply IH in G. congruence.
    + split; [discriminate|]. intros F. inversion F as [|? x ? y N G]; subst. apply (parse_d_ok w no) in N. congruence.
    + now apply parse_d_no_panic in P.
Qed.
Lemma floats_no_panic ws no : all_floats ws no <> Panic.
Proof.
  induction ws as [|w ws IH]; cbn [all_floats]; [discriminate|]. destruct (parse_d w no) eqn:P; cbn [obind]; [|discriminate|now apply parse_d_no_panic in P].
  destruct (all_floats ws no); cbn [obind]; congruence.
Qed.
Lemma collect_ok l no vs : collect_floats l no = Ok vs <-> numbers l vs.
Proof. apply floats_ok. Qed.
Lemma collect_no_panic l no : collect_floats l no <> Panic.
Proof. apply floats_no_panic. Qed.
Lemma numbers_det l a b : numbers l a -> numbers l b -> a = b.
Proof. intros A B. apply (collect_ok l 0) in A. apply (collect_ok l 0) in B. congruence. Qed.

Definition insideb (c : N) : bool := (128 <=? c) && (c <? 192).
Definition acrossb (l : str) : bool := insideb (nth 3 l 0) || ((nth 0 l 0 =? 71) && insideb (nth 1 l 0)).
Lemma across_spec l : acrossb l = true <-> across l.
Proof. unfold acrossb, across, insideb, inside. lia. Qed.
Lemma boundary_in l i : (i < length l)%nat -> boundary l i = negb (insideb (nth i l 0)).
Proof. intros L. unfold boundary, insideb. destruct (Nat.eqb_spec i (length l)); [lia|]. destruct (Nat.ltb_spec i (length l)); [reflexivity|lia]. Qed.
Lemma slice_eq {E} l a b : (a <= b)%nat -> (b <= length l)%nat -> slice (E:=E) l a b = if boundary l a && boundary l b then Ok (firstn (b - a) (skipn a l)) else Panic.
Proof. intros A B. unfold slice. rewrite (proj2 (Nat.leb_le _ _) A), (proj2 (Nat.leb_le _ _) B). reflexivity. Qed.
Lemma prn_eq l no : begins l -> parse_prn l no = if acrossb l then Panic else
  match parse_uint 255 (trim (prn_text l)) with Some p => if 0 <? p then Ok p else Err (BadPrn no) | None => Err (BadPrn no) end.
Proof.
  intros (L & c & t & E & C). unfold parse_prn, acrossb, prn_text. subst l. cbn [nth]. destruct (N.eqb_spec c 71) as [->|N].
  - rewrite slice_eq by (cbn [length] in *; lia). rewrite !boundary_in by (cbn [length] in *; lia). cbn [nth andb]. 
    destruct (insideb (nth 0 t 0)), (insideb (nth 2 t 0)); cbn [negb andb orb obind]; reflexivity.
  - replace (match c with 71 => 1%nat | _ => 0%nat end) with 0%nat. 2:{ destruct C as [->|C]; [contradiction|]. destruct c as [|p]; [reflexivity|]. do 7 (try (destruct p as [p|p|]; try reflexivity)). exfalso; apply N; reflexivity. }
    rewrite slice_eq by (cbn [length] in *; lia). rewrite !boundary_in by (cbn [length] in *; lia). cbn [nth andb]. unfold insideb at 1. replace ((128 <=? c) && (c <? 192)) with false by lia.
    destruct (insideb (nth 2 t 0)); cbn [negb andb orb obind skipn Nat.sub]; reflexivity.
Qed.
Lemma prn_ok l no p : begins l -> parse_prn l no = Ok p <-> ~ across l /\ parse_uint 255 (trim (prn_text l)) = Some p /\ 0 < p.
Proof.
  intros B. rewrite prn_eq by exact B. rewrite <- across_spec. destruct (acrossb l); [split; [discriminate|intros (H & _); now destruct H]|].
  destruct (parse_uint 255 _) as [q|]; [|split; [discriminate|intros (_ & H & _); discriminate]]. destruct (N.ltb_spec 0 q); split; try discriminate.
  - intros E. injection E as <-. split; [discriminate|]. split; [reflexivity|assumption].
  - intros (_ & E & _). congruence.
  - intros (_ & E & P). injection E as ->. lia.
Qed.
Lemma rest_eq {E} l : begins l -> slice (E:=E) l 3 (length l) = if insideb (nth 3 l 0) then Panic else Ok (skipn 3 l).
Proof.
  intros (L & _). rewrite slice_eq by lia. rewrite boundary_in by lia. assert (B : boundary l (length l) = true) by (unfold boundary; now rewrite Nat.eqb_refl). rewrite B, andb_true_r.
  destruct (insideb _); cbn [negb]; [reflexivity|]. rewrite firstn_all2; [reflexivity|]. rewrite skipn_length. lia.
Qed.

Section Reader.
Variable utc_ok : civil -> bool.
Lemma int_ok w no k z : toc_int w no k = Ok z <-> int w z.
Proof. unfold toc_int, int. destruct (parse_int _ _); split; congruence. Qed.
Lemma toc_no y mo d h mi s no t : build_toc utc_ok y mo d h mi s no = Ok t <-> build_toc utc_ok y mo d h mi s 0 = Ok t.
Proof. unfold build_toc. destruct (_ && _); [reflexivity|split; discriminate]. Qed.
Lemma toc_no_panic y mo d h mi s no : build_toc utc_ok y mo d h mi s no <> Panic.
Proof. unfold build_toc. destruct (_ && _); discriminate. Qed.
Lemma toc_int_no_panic w no k : toc_int w no k <> Panic.
Proof. unfold toc_int. destruct (parse_int _ _); discriminate. Qed.

Ltac step H := match type of H with obind ?x _ = _ => let E := fresh "E" in destruct x eqn:E; cbn [obind] in H; [|discriminate H|discriminate H] end.
Lemma line0_ok l no t a0 a1 a2 : begins l -> ~ across l -> parse_line0 utc_ok l no = Ok (t, a0, a1, a2) <->
  exists wy wmo wd wh wmi ws w0 w1 w2 more y mo d h mi s, split_ws (skipn 3 l) = wy :: wmo :: wd :: wh :: wmi :: ws :: w0 :: w1 :: w2 :: more /\
    int wy y /\ int wmo mo /\ int wd d /\ int wh h /\ int wmi mi /\ number ws s /\ build_toc utc_ok y mo d h mi s 0 = Ok t /\
    number w0 a0 /\ number w1 a1 /\ number w2 a2.
Proof.
  intros B A. unfold parse_line0. rewrite rest_eq by exact B. assert (I : insideb (nth 3 l 0) = false). { destruct (insideb (nth 3 l 0)) eqn:I; [|reflexivity]. exfalso. apply A. left. unfold insideb, inside in *. lia. }
  rewrite I. cbn [obind]. split.
  - intros H. destruct (split_ws (skipn 3 l)) as [|wy [|wmo [|wd [|wh [|wmi [|ws [|w0 [|w1 [|w2 more]]]]]]]]] eqn:W; try discriminate H.
    do 10 step H. apply parse_d_ok in E4, E6, E7, E8. apply int_ok in E, E0, E1, E2, E3. apply toc_no in E5.
    injection H as <- <- <- <-. exists wy, wmo, wd, wh, wmi, ws, w0, w1, w2, more. do 6 eexists. intuition eassumption.
  - intros (wy & wmo & wd & wh & wmi & ws & w0 & w1 & w2 & more & y & mo & d & h & mi & s & -> & Y & Mo & D & H & Mi & S & T & A0 & A1 & A2).
    rewrite (proj2 (int_ok wy no 0 y) Y). cbn [obind]. rewrite (proj2 (int_ok wmo no 1 mo) Mo). cbn [obind]. rewrite (proj2 (int_ok wd no 2 d) D). cbn [obind].
    rewrite (proj2 (int_ok wh no 3 h) H). cbn [obind]. rewrite (proj2 (int_ok wmi no 4 mi) Mi). cbn [obind]. rewrite (proj2 (parse_d_ok ws no s) S). cbn [obind].
    rewrite (proj2 (toc_no _ _ _ _ _ _ no _) T). cbn [obind]. rewrite (proj2 (parse_d_ok w0 no a0) A0). cbn [obind]. rewrite (proj2 (parse_d_ok w1 no a1) A1). cbn [obind]. now rewrite (proj2 (parse_d_ok w2 no a2) A2).
Qed.
Lemma line0_no_panic l no : begins l -> ~ across l -> parse_line0 utc_ok l no <> Panic.
Proof.
  intros B A. unfold parse_line0. rewrite rest_eq by exact B. assert (I : insideb (nth 3 l 0) = false). { destruct (insideb (nth 3 l 0)) eqn:I; [|reflexivity]. exfalso. apply A. left. unfold insideb, inside in *. lia. }
  rewrite I. cbn [obind]. intros H. destruct (split_ws (skipn 3 l)) as [|wy [|wmo [|wd [|wh [|wmi [|ws [|w0 [|w1 [|w2 more]]]]]]]]] eqn:W; try discriminate H.
  repeat match type of H with obind ?x _ = _ => let E := fresh "E" in destruct x eqn:E; cbn [obind] in H;
    [|discriminate H|first [exact (toc_int_no_panic _ _ _ E)|exact (parse_d_no_panic _ _ E)|exact (toc_no_panic _ _ _ _ _ _ _ E)]] end. discriminate H.
Qed.
Lemma head_ok l no p t a0 a1 a2 : begins l -> (parse_prn l no = Ok p /\ parse_line0 utc_ok l no = Ok (t, a0, a1, a2)) <-> head_says utc_ok l p t a0 a1 a2.
Proof.
  intros B. unfold head_says. rewrite prn_ok by exact B. split.
  - intros ((A & P & P0) & H). apply line0_ok in H; auto.
  - intros (A & P & P0 & H). split; [auto|]. apply line0_ok; assumption.
Qed.
Lemma body_strict l no k vs : parse_body Strict l no k = Ok vs <-> numbers l vs /\ (k <= length vs)%nat.
Proof.
  unfold parse_body. rewrite <- (collect_ok l no). destruct (collect_floats l no) as [us|e|]; cbn [obind is_strict].
  - rewrite andb_true_r. destruct (Nat.ltb_spec (length us) k); split; try discriminate.
    + intros (E & L). injection E as ->. lia.
    + intros E. injection E as <-. auto.
    + intros (E & _). exact E.
  - split; [discriminate|intros (E & _); discriminate].
  - split; [discriminate|intros (E & _); discriminate].
Qed.
Lemma body_permissive l no k vs : parse_body Permissive l no k = Ok vs <-> numbers l vs.
Proof. unfold parse_body. rewrite <- (collect_ok l no). destruct (collect_floats l no); cbn [obind is_strict]; [rewrite andb_false_r; reflexivity|split; discriminate|split; discriminate]. Qed.
Lemma body_no_panic m l no k : parse_body m l no k <> Panic.
Proof. unfold parse_body. destruct (collect_floats l no) eqn:C; cbn [obind]; [destruct (_ && _); discriminate|discriminate|now apply collect_no_panic in C]. Qed.
Lemma body_numbers m l no k vs : parse_body m l no k = Ok vs -> numbers l vs.
Proof. destruct m; [intros H; now apply body_strict in H|apply body_permissive]. Qed.

Lemma ix4 {B} (v : list fnum) (f : fnum -> fnum -> fnum -> fnum -> nres B) : 
  obind (at_ix v 0) (fun a => obind (at_ix v 1) (fun b => obind (at_ix v 2) (fun c => obind (at_ix v 3) (fun d => f a b c d)))) =
  match v with a :: b :: c :: d :: _ => f a b c d | _ => Panic end.
Proof. destruct v as [|? [|? [|? [|? v]]]]; reflexivity. Qed.
Lemma record_eq m l0 l1 l2 l3 l4 l5 no : record utc_ok m l0 l1 l2 l3 l4 l5 no =
  obind (parse_prn l0 no) (fun p => obind (parse_line0 utc_ok l0 no) (fun h =>
  obind (parse_body m l1 (no + 1) 4) (fun v1 => obind (parse_body m l2 (no + 2) 4) (fun v2 => obind (parse_body m l3 (no + 3) 4) (fun v3 =>
  obind (parse_body m l4 (no + 4) 4) (fun v4 => obind (parse_body m l5 (no + 5) 1) (fun v5 =>
  let '(t, a0, a1, a2) := h in
  match v1, v2, v3, v4, v5 with
  | x10 :: x11 :: x12 :: x13 :: _, x20 :: x21 :: x22 :: x23 :: _, x30 :: x31 :: x32 :: x33 :: _, x40 :: x41 :: x42 :: x43 :: _, x50 :: _ =>
      Ok (Nav p t a0 a1 a2 x10 x11 x12 x13 x20 x21 x22 x23 x30 x31 x32 x33 x40 x41 x42 x43 x50)
  | _, _, _, _, _ => Panic
  end))))))).
Proof.
  unfold record. destruct (parse_prn l0 no); cbn [obind]; try reflexivity. destruct (parse_line0 utc_ok l0 no) as [h| |]; cbn [obind]; try reflexivity.
  destruct (parse_body m l1 (no + 1) 4) as [v1| |]; cbn [obind]; try reflexivity. destruct (parse_body m l2 (no + 2) 4) as [v2| |]; cbn [obind]; try reflexivity.
  destruct (parse_body m l3 (no + 3) 4) as [v3| |]; cbn [obind]; try reflexivity. destruct (parse_body m l4 (no + 4) 4) as [v4| |]; cbn [obind]; try reflexivity.
  destruct (parse_body m l5 (no + 5) 1) as [v5| |]; cbn [obind]; try reflexivity. destruct h as [[[t a0] a1] a2].
  rewrite ix4. destruct v1 as [|? [|? [|? [|? v1]]]]; try reflexivity. rewrite ix4. destruct v2 as [|? [|? [|? [|? v2]]]]; try reflexivity.
  rewrite ix4. destruct v3 as [|? [|? [|? [|? v3]]]]; try reflexivity. rewrite ix4. destruct v4 as [|? [|? [|? [|? v4]]]]; try reflexivity. destruct v5; reflexivity.
Qed.
Definition rec_of (m : pmode) (b : block) : nres nav := let '(no, (l0, l1, l2, l3, l4, l5)) := b in record utc_ok m l0 l1 l2 l3 l4 l5 no.
Definition starts (b : block) : Prop := let '(_, (l0, _, _, _, _, _)) := b in begins l0.
Definition first_line (b : block) : str := let '(_, (l0, _, _, _, _, _)) := b in l0.
Lemma rec_ok m b r : starts b -> rec_of m b = Ok r <-> says utc_ok b r.
Proof.
  destruct b as (no, (((((l0, l1), l2), l3), l4), l5)). cbn [rec_of starts says]. intros B. rewrite record_eq. split.
  - intros H. do 7 step H. destruct a0 as [[[t c0] c1] c2].
    destruct a1 as [|? [|? [|? [|? v1]]]]; try discriminate H. destruct a2 as [|? [|? [|? [|? v2]]]]; try discriminate H. destruct a3 as [|? [|? [|? [|? v3]]]]; try discriminate H.
    destruct a4 as [|? [|? [|? [|? v4]]]]; try discriminate H. destruct a5 as [|? v5]; try discriminate H. injection H as <-. cbn [prn toc af0 af1 af2 iode crs delta_n m0 cuc ecc cus sqrt_a toe cic omega0 cis i0 crc omega omega_dot idot].
    split; [apply (head_ok l0 no); auto|]. split; [exists v1; eapply body_numbers; eassumption|]. split; [exists v2; eapply body_numbers; eassumption|]. split; [exists v3; eapply body_numbers; eassumption|].
    split; [exists v4; eapply body_numbers; eassumption|exists v5; eapply body_numbers; eassumption].
  - intros (H & (x1 & N1) & (x2 & N2) & (x3 & N3) & (x4 & N4) & (x5 & N5)). apply (head_ok l0 no) in H as (-> & ->); [|exact B]. cbn [obind].
    assert (P : forall l k n vs, numbers l vs -> (k <= length vs)%nat -> parse_body m l n k = Ok vs) by (intros; destruct m; [now apply body_strict|now apply body_permissive]).
    rewrite (P l1 _ _ _ N1), (P l2 _ _ _ N2), (P l3 _ _ _ N3), (P l4 _ _ _ N4), (P l5 _ _ _ N5) by (cbn [length]; lia). cbn [obind]. now destruct r.
Qed.
(** When a record panics *)
Lemma rec_panic_across m b : starts b -> across (first_line b) -> rec_of m b = Panic.
Proof. destruct b as (no, (((((l0, l1), l2), l3), l4), l5)). cbn [rec_of starts first_line]. intros B A. rewrite record_eq, prn_eq by exact B. apply across_spec in A. now rewrite A. Qed.
Lemma rec_panic_strict b : starts b -> rec_of Strict b = Panic -> across (first_line b).
Proof.
  destruct b as (no, (((((l0, l1), l2), l3), l4), l5)). cbn [rec_of starts first_line]. intros B H. rewrite record_eq in H. rewrite <- across_spec. destruct (acrossb l0) eqn:A; [reflexivity|exfalso].
  assert (NA : ~ across l0) by (rewrite <- across_spec; congruence).
  destruct (parse_prn l0 no) eqn:P; cbn [obind] in H; [|discriminate|]. 2:{ rewrite prn_eq, A in P by exact B. destruct (parse_uint _ _) as [q|]; [destruct (0 <? q)|]; discriminate. }
  destruct (parse_line0 utc_ok l0 no) as [h| |] eqn:L; cbn [obind] in H; [|discriminate|exact (line0_no_panic l0 no B NA L)].
  destruct (parse_body Strict l1 (no + 1) 4) as [v1| |] eqn:B1; cbn [obind] in H; [|discriminate|exact (body_no_panic _ _ _ _ B1)].
  destruct (parse_body Strict l2 (no + 2) 4) as [v2| |] eqn:B2; cbn [obind] in H; [|discriminate|exact (body_no_panic _ _ _ _ B2)].
  destruct (parse_body Strict l3 (no + 3) 4) as [v3| |] eqn:B3; cbn [obind] in H; [|discriminate|exact (body_no_panic _ _ _ _ B3)].
  destruct (parse_body Strict l4 (no + 4) 4) as [v4| |] eqn:B4; cbn [obind] in H; [|discriminate|exact (body_no_panic _ _ _ _ B4)].
  destruct (parse_body Strict l5 (no + 5) 1) as [v5| |] eqn:B5; cbn [obind] in H; [|discriminate|exact (body_no_panic _ _ _ _ B5)].
  apply body_strict in B1 as (_ & B1), B2 as (_ & B2), B3 as (_ & B3), B4 as (_ & B4), B5 as (_ & B5). destruct h as [[[t a0] a1] a2].
  destruct v1 as [|? [|? [|? [|? v1]]]]; try (cbn [length] in B1; lia). destruct v2 as [|? [|? [|? [|? v2]]]]; try (cbn [length] in B2; lia). destruct v3 as [|? [|? [|? [|? v3]]]]; try (cbn [length] in B3; lia).
  destruct v4 as [|? [|? [|? [|? v4]]]]; try (cbn [length] in B4; lia). destruct v5 as [|? v5]; try (cbn [length] in B5; lia). discriminate H.
Qed.
Lemma rec_panic_permissive b : starts b -> rec_of Permissive b = Panic <-> across (first_line b) \/ short_of_numbers utc_ok b.
Proof.
  intros B. split.
  - destruct (acrossb (first_line b)) eqn:A; [left; now apply across_spec|]. intros H. right. destruct b as (no, (((((l0, l1), l2), l3), l4), l5)). cbn [rec_of starts first_line short_of_numbers] in *. rewrite record_eq in H.
    assert (NA : ~ across l0) by (rewrite <- across_spec; congruence).
    destruct (parse_prn l0 no) as [p| |] eqn:P; cbn [obind] in H; [|discriminate|]. 2:{ rewrite prn_eq, A in P by exact B. destruct (parse_uint _ _) as [q|]; [destruct (0 <? q)|]; discriminate. }
    destruct (parse_line0 utc_ok l0 no) as [h| |] eqn:L; cbn [obind] in H; [|discriminate|exfalso; exact (line0_no_panic l0 no B NA L)].
    destruct (parse_body Permissive l1 (no + 1) 4) as [v1| |] eqn:B1; cbn [obind] in H; [|discriminate|exfalso; exact (body_no_panic _ _ _ _ B1)].
    destruct (parse_body Permissive l2 (no + 2) 4) as [v2| |] eqn:B2; cbn [obind] in H; [|discriminate|exfalso; exact (body_no_panic _ _ _ _ B2)].
    destruct (parse_body Permissive l3 (no + 3) 4) as [v3| |] eqn:B3; cbn [obind] in H; [|discriminate|exfalso; exact (body_no_panic _ _ _ _ B3)].
    destruct (parse_body Permissive l4 (no + 4) 4) as [v4| |] eqn:B4; cbn [obind] in H; [|discriminate|exfalso; exact (body_no_panic _ _ _ _ B4)].
    destruct (parse_body Permissive l5 (no + 5) 1) as [v5| |] eqn:B5; cbn [obind] in H; [|discriminate|exfalso; exact (body_no_panic _ _ _ _ B5)].
    destruct h as [[[t a0] a1] a2]. split; [exists p, t, a0, a1, a2; apply (head_ok l0 no); auto|]. exists v1, v2, v3, v4, v5. apply body_permissive in B1, B2, B3, B4, B5. do 5 (split; [assumption|]).
    destruct v1 as [|? [|? [|? [|? v1]]]]; try (left; cbn [length]; lia). right. destruct v2 as [|? [|? [|? [|? v2]]]]; try (left; cbn [length]; lia). right. destruct v3 as [|? [|? [|? [|? v3]]]]; try (left; cbn [length]; lia). right.
    destruct v4 as [|? [|? [|? [|? v4]]]]; try (left; cbn [length]; lia). right. destruct v5 as [|? v5]; [cbn [length]; lia|discriminate H].
  - intros [A|S]; [now apply rec_panic_across|]. destruct b as (no, (((((l0, l1), l2), l3), l4), l5)). cbn [rec_of starts first_line short_of_numbers] in *.
    destruct S as ((p & t & a0 & a1 & a2 & H) & v1 & v2 & v3 & v4 & v5 & N1 & N2 & N3 & N4 & N5 & S). rewrite record_eq. apply (head_ok l0 no) in H as (-> & ->); [|exact B]. cbn [obind].
    rewrite (proj2 (body_permissive l1 _ 4 v1) N1), (proj2 (body_permissive l2 _ 4 v2) N2), (proj2 (body_permissive l3 _ 4 v3) N3), (proj2 (body_permissive l4 _ 4 v4) N4), (proj2 (body_permissive l5 _ 1 v5) N5). cbn [obind].
    destruct v1 as [|? [|? [|? [|? v1]]]]; try reflexivity. destruct v2 as [|? [|? [|? [|? v2]]]]; try reflexivity. destruct v3 as [|? [|? [|? [|? v3]]]]; try reflexivity.
    destruct v4 as [|? [|? [|? [|? v4]]]]; try reflexivity. destruct v5; [reflexivity|]. cbn [length] in S. lia.
Qed.

(** ** The loop over the blocks *)
Fixpoint over (m : pmode) (bs : list block) (e : option nat) (acc : list nav) : nres (list nav) :=
  match bs with
  | [] => match e with Some no => if is_strict m then Err (Truncated no) else Ok acc | None => Ok acc end
  | b :: bs => match rec_of m b with
               | Ok r => over m bs e (acc ++ [r])
               | Err x => if is_strict m then Err x else over m bs e acc
               | Panic => Panic
               end
  end.
Lemma loop_over m ls no bs e : blocks ls no bs e -> forall acc, nav_loop utc_ok m ls no acc = over m bs e acc.
Proof.
  induction 1 as [no|l t no bs e N _ IH|l0 l1 l2 l3 l4 l5 l6 l7 t no bs e B _ IH|l0 t no B L]; intros acc; cbn [nav_loop over].
  - reflexivity.
  - apply begins_not in N. rewrite N. cbn [negb]. apply IH.
  - apply begins_spec in B. rewrite B. cbn [negb rec_of]. destruct (record utc_ok m l0 l1 l2 l3 l4 l5 no); [apply IH| |reflexivity]. destruct (is_strict m); [reflexivity|apply IH].
  - apply begins_spec in B. rewrite B. cbn [negb]. destruct t as [|l1 [|l2 [|l3 [|l4 [|l5 [|l6 [|l7 t]]]]]]]; try reflexivity. cbn [length] in L. lia.
Qed.
Lemma blocks_start ls no bs e : blocks ls no bs e -> Forall starts bs.
Proof. induction 1; auto. Qed.
Lemma blocks_det ls no bs e : blocks ls no bs e -> forall bs' e', blocks ls no bs' e' -> bs' = bs /\ e' = e.
Proof.
  induction 1 as [no|l t no bs e N _ IH|l0 l1 l2 l3 l4 l5 l6 l7 t no bs e B _ IH|l0 t no B L]; intros bs' e' H; inversion H; subst; try contradiction; auto.
  - match goal with X : blocks t (no + 8) _ _ |- _ => apply IH in X as (-> & ->) end. auto.
  - cbn [length] in *. lia.
  - cbn [length] in *. lia.
Qed.
Lemma over_strict bs e : Forall starts bs -> forall acc rs, over Strict bs e acc = Ok rs <-> e = None /\ exists rs', rs = acc ++ rs' /\ Forall2 (says utc_ok) bs rs'.
Proof.
  induction 1 as [|b bs B _ IH]; intros acc rs; cbn [over is_strict].
  - destruct e; split; try discriminate.
    + intros (E & _). discriminate.
    + intros E. injection E as <-. split; [reflexivity|]. exists []. rewrite app_nil_r. auto.
    + intros (_ & rs' & -> & F). inversion F. now rewrite app_nil_r.
  - destruct (rec_of Strict b) as [r|x|] eqn:R.
    + rewrite IH. apply rec_ok in R; [|exact B]. split; intros (E & rs' & Q & F); (split; [exact E|]).
      * exists (r :: rs'). rewrite Q, <- app_assoc. split; [reflexivity|now constructor].
      * inversion F as [|? r' ? rs'' S F']; subst. exists rs''. rewrite <- app_assoc. split; [|exact F']. assert (X : Ok r = Ok r' :> nres nav) by (rewrite <- (proj2 (rec_ok Strict b r B) R); apply rec_ok; assumption). injection X as ->. reflexivity.
    + split; [discriminate|]. intros (_ & rs' & _ & F). inversion F as [|? r' ? rs'' S F']; subst. apply (rec_ok Strict) in S; [congruence|exact B].
    + split; [discriminate|]. intros (_ & rs' & _ & F). inversion F as [|? r' ? rs'' S F']; subst. apply (rec_ok Strict) in S; [congruence|exact B].
Qed.
Lemma over_permissive bs e : Forall starts bs -> forall acc,
  (Forall (fun b => ~ across (first_line b) /\ ~ short_of_numbers utc_ok b) bs /\ exists rs, kept utc_ok bs rs /\ over Permissive bs e acc = Ok (acc ++ rs)) \/
  (Exists (fun b => across (first_line b) \/ short_of_numbers utc_ok b) bs /\ over Permissive bs e acc = Panic).
Proof.
  induction 1 as [|b bs B _ IH]; intros acc; cbn [over is_strict].
  - left. split; [constructor|]. exists []. split; [constructor|]. rewrite app_nil_r. now destruct e.
  - destruct (rec_of Permissive b) as [r|x|] eqn:R.
    + assert (NP : ~ across (first_line b) /\ ~ short_of_numbers utc_ok b) by (split; intros X; assert (Y : rec_of Permissive b = Panic) by (apply rec_panic_permissive; auto); congruence).
      apply rec_ok in R; [|exact B]. destruct (IH (acc ++ [r])) as [(F & rs & K & E)|(F & E)]; [left|right; auto]. split; [now constructor|]. exists (r :: rs). split; [now constructor|]. rewrite E, <- app_assoc. reflexivity.
    + assert (NP : ~ across (first_line b) /\ ~ short_of_numbers utc_ok b) by (split; intros X; assert (Y : rec_of Permissive b = Panic) by (apply rec_panic_permissive; auto); congruence).
      destruct (IH acc) as [(F & rs & K & E)|(F & E)]; [left|right; auto]. split; [now constructor|]. exists rs. split; [|exact E]. apply K_drop; [|exact K]. intros r S. apply (rec_ok Permissive) in S; [congruence|exact B].
    + right. split; [|reflexivity]. left. now apply rec_panic_permissive.
Qed.
End Reader.
