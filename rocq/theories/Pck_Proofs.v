From Coq Require Import Ascii String List NArith ZArith QArith Bool Lia Permutation.
From Verif Require Import Base Text DecFloat Sort Fnum Omm_Model Tk_Model Sclk_Model Fk_Model Pck_Model.
Import ListNotations.
Local Open Scope string_scope.
Local Open Scope Z_scope.
Local Open Scope list_scope.
Local Open Scope outcome_scope.

(** the table gives body [id] the constant [suffix] *)
Definition says (d : table) (id : Z) (suffix : str) (v : tv) : Prop := exists k, In (k, v) d /\ body_key k = Some (id, suffix).
(** the numbers of an entry *)
Definition numbers (v : tv) (l : list fnum) : Prop :=
  match v with TArr vs => Forall2 (fun x n => num1 x = Some n) vs l | _ => exists n, num1 v = Some n /\ l = [n] end.
Definition three (v : tv) (r : fnum * fnum * fnum) : Prop :=
  let '(x, y, z) := r in numbers v [x; y; z] \/ (x = y /\ numbers v [x; z]).

Lemma flat1_spec vs l : flat1 vs = Some l <-> Forall2 (fun x n => num1 x = Some n) vs l.
Proof.
  revert l. induction vs as [|v vs IH]; intros l; cbn [flat1].
  - split; [intros E; injection E as <-; constructor|intros F; inversion F; reflexivity].
  - destruct (num1 v) as [x|] eqn:Ev.
    + destruct (flat1 vs) as [r|] eqn:Er.
      * split; [intros E; injection E as <-; constructor; [exact Ev|now apply IH]|]. intros F. inversion F as [|? n ? r' H1 H2]; subst.
        rewrite Ev in H1. injection H1 as ->. apply IH in H2. injection H2 as ->. reflexivity.
      * split; [discriminate|]. intros F. inversion F as [|? n ? r' H1 H2]; subst. apply IH in H2. discriminate.
    + split; [discriminate|]. intros F. inversion F; subst. congruence.
Qed.
Lemma numbers_spec v k l : value_as_f64_array v k = Ok l <-> numbers v l.
Proof.
  unfold value_as_f64_array, numbers. destruct v as [z|f|s|vs]; cbn [num1].
  - split; [intros E; injection E as <-; eauto|]. intros (n & E & ->). injection E as <-. reflexivity.
  - split; [intros E; injection E as <-; eauto|]. intros (n & E & ->). injection E as <-. reflexivity.
  - split; [discriminate|]. intros (n & E & _). discriminate.
  - rewrite <- flat1_spec. destruct (flat1 vs); split; congruence.
Qed.
Lemma numbers_fun v l l' : numbers v l -> numbers v l' -> l = l'.
Proof. intros A B. apply (numbers_spec v []) in A, B. congruence. Qed.
Lemma radii_spec v k r : parse_radii v k = Ok r <-> three v r.
Proof.
  unfold parse_radii, three. destruct r as [[x y] z]. rewrite <- !(numbers_spec v k). destruct (value_as_f64_array v k) as [l|e|]; cbn [obind].
  - destruct l as [|a [|b [|c [|e l]]]].
    + split; [discriminate|intros [E|(_ & E)]; discriminate].
    + split; [discriminate|intros [E|(_ & E)]; discriminate].
    + split; [intros E; injection E as <- <- <-; right; auto|]. intros [E|(-> & E)]; [discriminate|]. injection E as -> ->. reflexivity.
    + split; [intros E; injection E as <- <- <-; left; auto|]. intros [E|(_ & E)]; [|discriminate]. injection E as -> -> ->. reflexivity.
    + split; [discriminate|intros [E|(_ & E)]; discriminate].
  - split; [discriminate|intros [E|(_ & E)]; discriminate].
  - split; [discriminate|intros [E|(_ & E)]; discriminate].
Qed.
Lemma three_fun v r r' : three v r -> three v r' -> r = r'.
Proof. intros A B. apply (radii_spec v []) in A, B. congruence. Qed.

Definition list_of (d : table) (id : Z) (suffix : string) (l : list fnum) : Prop :=
  (exists v, says d id (lit suffix) v /\ numbers v l) \/ ((forall v, ~ says d id (lit suffix) v) /\ l = []).
Definition radii_of (d : table) (id : Z) (o : option (fnum * fnum * fnum)) : Prop :=
  match o with
  | Some r => exists v, says d id (lit "RADII") v /\ three v r
  | None => forall v, ~ says d id (lit "RADII") v
  end.
Definition orients (d : table) (id : Z) (o : orientation) : Prop :=
  list_of d id "POLE_RA" (pole_ra o) /\ list_of d id "POLE_DEC" (pole_dec o) /\ list_of d id "PM" (pm o) /\ radii_of d id (radii o).
Definition bodies_of (d : table) (b : bodies) : Prop := forall id,
  match body b id with
  | None => forall s v, ~ says d id s v
  | Some o => (exists s v, says d id s v) /\ orients d id o
  end.

Lemma body_put b id o id' : body (put b id o) id' = if id =? id' then Some o else body b id'.
Proof.
  unfold body, put. cbn [find fst]. destruct (Z.eqb_spec id id') as [->|N]; [reflexivity|].
  induction b as [|(i, x) b IH]; [reflexivity|]. cbn [filter fst]. destruct (Z.eqb_spec i id) as [->|M]; cbn [negb].
  - cbn [find fst]. destruct (Z.eqb_spec id id'); [contradiction|]. exact IH.
  - cbn [find fst]. destruct (i =? id'); [reflexivity|exact IH].
Qed.
Lemma says_snoc d k v id s w : says (d ++ [(k, v)]) id s w <-> says d id s w \/ (w = v /\ body_key k = Some (id, s)).
Proof.
  unfold says. split.
  - intros (k' & I & B). apply in_app_or in I as [I|[E|[]]]; [left; eauto|]. injection E as -> ->. right. auto.
  - intros [(k' & I & B)|(-> & B)]; [exists k'|exists k]; (split; [apply in_or_app|exact B]); [left; exact I|right; now left].
Qed.
Lemma list_of_other d k v id s suf l : body_key k <> Some (id, lit suf) -> list_of d id suf l -> s = v -> list_of (d ++ [(k, v)]) id suf l.
Proof.
  intros N [(w & S & H)|(S & ->)] _; [left; exists w; split; [apply says_snoc; now left|exact H]|right]. split; [|reflexivity].
  intros w X. apply says_snoc in X as [X|(_ & X)]; [exact (S w X)|contradiction].
Qed.
Lemma list_of_new d k v id suf l : body_key k = Some (id, lit suf) -> numbers v l -> list_of (d ++ [(k, v)]) id suf l.
Proof. intros B H. left. exists v. split; [apply says_snoc; right; auto|exact H]. Qed.
Lemma radii_other d k v id o : body_key k <> Some (id, lit "RADII") -> radii_of d id o -> radii_of (d ++ [(k, v)]) id o.
Proof.
  intros N. destruct o as [r|]; cbn.
  - intros (w & S & H). exists w. split; [apply says_snoc; now left|exact H].
  - intros S w X. apply says_snoc in X as [X|(_ & X)]; [exact (S w X)|contradiction].
Qed.
Lemma blank_orients d id : (forall s v, ~ says d id s v) -> orients d id blank.
Proof. intros H. repeat split; cbn; try (right; split; [intros v; apply H|reflexivity]). intros v. apply H. Qed.
Lemma orients_other d k v id id' s o : body_key k = Some (id', s) -> id' <> id -> orients d id o -> orients (d ++ [(k, v)]) id o.
Proof.
  intros B N (A1 & A2 & A3 & A4). repeat split; first [apply (list_of_other _ _ _ _ v) | apply radii_other]; auto; rewrite B; congruence.
Qed.
Lemma orients_skip d k v id o : body_key k = None -> orients d id o -> orients (d ++ [(k, v)]) id o.
Proof. intros B (A1 & A2 & A3 & A4). repeat split; first [apply (list_of_other _ _ _ _ v) | apply radii_other]; auto; rewrite B; congruence. Qed.
Lemma set_field_orients d k v id s o o' : body_key k = Some (id, s) -> orients d id o -> set_field o s v k = Ok o' -> orients (d ++ [(k, v)]) id o'.
Proof.
  intros B (A1 & A2 & A3 & A4) H. unfold set_field in H.
  assert (L : forall a b : string, str_eqb (lit a) (lit b) = false -> Some (id, lit a) <> Some (id, lit b)).
  { intros a b E X. injection X as X. destruct (str_eqb_spec (lit a) (lit b)); [discriminate|contradiction]. }
  assert (O : forall suf, s <> lit suf -> body_key k <> Some (id, lit suf)) by (intros suf N; rewrite B; congruence).
  assert (K : forall a b : string, str_eqb (lit a) (lit b) = false -> lit a <> lit b) by (intros a b E; destruct (str_eqb_spec (lit a) (lit b)); [discriminate|assumption]).
  destruct (str_eqb_spec s (lit "POLE_RA")) as [->|N1].
  { destruct (value_as_f64_array v k) as [x|e|] eqn:E; cbn in H; try discriminate. injection H as <-. apply numbers_spec in E.
    repeat split; cbn [pole_ra pole_dec pm radii]; first [now apply list_of_new | apply (list_of_other _ _ _ _ v) | apply radii_other]; auto; apply O, K; reflexivity. }
  destruct (str_eqb_spec s (lit "POLE_DEC")) as [->|N2].
  { destruct (value_as_f64_array v k) as [x|e|] eqn:E; cbn in H; try discriminate. injection H as <-. apply numbers_spec in E.
    repeat split; cbn [pole_ra pole_dec pm radii]; first [now apply list_of_new | apply (list_of_other _ _ _ _ v) | apply radii_other]; auto; apply O, K; reflexivity. }
  destruct (str_eqb_spec s (lit "PM")) as [->|N3].
  { destruct (value_as_f64_array v k) as [x|e|] eqn:E; cbn in H; try discriminate. injection H as <-. apply numbers_spec in E.
    repeat split; cbn [pole_ra pole_dec pm radii]; first [now apply list_of_new | apply (list_of_other _ _ _ _ v) | apply radii_other]; auto; apply O, K; reflexivity. }
  destruct (str_eqb_spec s (lit "RADII")) as [->|N4].
  { destruct (parse_radii v k) as [x|e|] eqn:E; cbn in H; try discriminate. injection H as <-. apply radii_spec in E.
    repeat split; cbn [pole_ra pole_dec pm radii]; try (apply (list_of_other _ _ _ _ v); auto; apply O, K; reflexivity).
    exists v. split; [apply says_snoc; right; auto|exact E]. }
  injection H as <-. repeat split; first [apply (list_of_other _ _ _ _ v) | apply radii_other]; auto.
Qed.
Lemma fill_spec d : forall seen b b', bodies_of seen b -> fill d b = Ok b' -> bodies_of (seen ++ d) b'.
Proof.
  induction d as [|(k, v) d IH]; intros seen b b' I H; [cbn in H; injection H as <-; now rewrite app_nil_r|].
  cbn [fill] in H. replace (seen ++ (k, v) :: d) with ((seen ++ [(k, v)]) ++ d) by (now rewrite <- app_assoc).
  destruct (body_key k) as [(id, s)|] eqn:B.
  - destruct (set_field _ s v k) as [o|e|] eqn:E; cbn [obind] in H; try discriminate. apply (IH _ (put b id o)); [|exact H].
    intros id'. rewrite body_put. destruct (Z.eqb_spec id id') as [<-|N].
    + split; [exists s, v; apply says_snoc; right; auto|]. eapply set_field_orients; [exact B| |exact E].
      specialize (I id). destruct (body b id); [exact (proj2 I)|now apply blank_orients].
    + specialize (I id'). destruct (body b id') as [o'|].
      * destruct I as ((s' & w & S) & Or). split; [exists s', w; apply says_snoc; now left|]. eapply orients_other; eauto.
      * intros s' w X. apply says_snoc in X as [X|(_ & X)]; [exact (I s' w X)|]. rewrite B in X. injection X as <- _. contradiction.
  - apply (IH _ b); [|exact H]. intros id. specialize (I id). destruct (body b id) as [o|].
    + destruct I as ((s & w & S) & Or). split; [exists s, w; apply says_snoc; now left|now apply orients_skip].
    + intros s w X. apply says_snoc in X as [X|(_ & X)]; [exact (I s w X)|congruence].
Qed.
Theorem bodies_spec d b : from_table d = Ok b -> bodies_of d b.
Proof. intros H. apply (fill_spec d [] []) in H; [exact H|]. intros id. cbn. intros s v (k & [] & _). Qed.

(** accepted exactly when the constants it uses are numeric *)
Definition usable (d : table) : Prop := forall id s v, says d id s v ->
  (In s [lit "POLE_RA"; lit "POLE_DEC"; lit "PM"] -> exists l, numbers v l) /\ (s = lit "RADII" -> exists r, three v r).
Lemma set_field_ok o s v k : (exists o', set_field o s v k = Ok o') <->
  (In s [lit "POLE_RA"; lit "POLE_DEC"; lit "PM"] -> exists l, numbers v l) /\ (s = lit "RADII" -> exists r, three v r).
Proof.
  unfold set_field.
  assert (V : forall f : list fnum -> orientation, (exists o', (x <- value_as_f64_array v k ;; Ok (f x)) = Ok o') <-> exists l, numbers v l).
  { intros f. destruct (value_as_f64_array v k) as [l|e|] eqn:E; cbn [obind].
    - apply numbers_spec in E. split; eauto.
    - split; [intros (? & ?); discriminate|]. intros (l & X). apply (numbers_spec v k) in X. congruence.
    - split; [intros (? & ?); discriminate|]. intros (l & X). apply (numbers_spec v k) in X. congruence. }
  assert (K : forall a b : string, str_eqb (lit a) (lit b) = false -> lit a <> lit b) by (intros a b E; destruct (str_eqb_spec (lit a) (lit b)); [discriminate|assumption]).
  destruct (str_eqb_spec s (lit "POLE_RA")) as [->|N1].
  { rewrite (V (fun x => Orient x _ _ _)). split; [|intros (H & _); apply H; now left]. intros H. split; [auto|]. intros X. destruct (K "POLE_RA" "RADII" eq_refl X). }
  destruct (str_eqb_spec s (lit "POLE_DEC")) as [->|N2].
  { rewrite (V (fun x => Orient _ x _ _)). split; [|intros (H & _); apply H; right; now left]. intros H. split; [auto|]. intros X. destruct (K "POLE_DEC" "RADII" eq_refl X). }
  destruct (str_eqb_spec s (lit "PM")) as [->|N3].
  { rewrite (V (fun x => Orient _ _ x _)). split; [|intros (H & _); apply H; right; right; now left]. intros H. split; [auto|]. intros X. destruct (K "PM" "RADII" eq_refl X). }
  destruct (str_eqb_spec s (lit "RADII")) as [->|N4].
  { destruct (parse_radii v k) as [r|e|] eqn:E; cbn [obind].
    - apply radii_spec in E. split; [|eauto]. intros _. split; [|eauto]. intros [X|[X|[X|[]]]]; symmetry in X; contradiction.
    - split; [intros (? & ?); discriminate|]. intros (_ & X). destruct (X eq_refl) as (r & Y). apply (radii_spec v k) in Y. congruence.
    - split; [intros (? & ?); discriminate|]. intros (_ & X). destruct (X eq_refl) as (r & Y). apply (radii_spec v k) in Y. congruence. }
  split; [|eauto]. intros _. split; [|contradiction]. intros [X|[X|[X|[]]]]; symmetry in X; contradiction.
Qed.
Lemma fill_ok d : forall b, (exists b', fill d b = Ok b') <-> usable d.
Proof.
  induction d as [|(k, v) d IH]; intros b; [cbn; split; [intros _ id s v (k & [] & _)|eauto]|]. cbn [fill].
  assert (U : usable ((k, v) :: d) <-> (forall id s, body_key k = Some (id, s) ->
     (In s [lit "POLE_RA"; lit "POLE_DEC"; lit "PM"] -> exists l, numbers v l) /\ (s = lit "RADII" -> exists r, three v r)) /\ usable d).
  { split.
    - intros H. split; [intros id s B; apply (H id s v); exists k; split; [now left|exact B]|]. intros id s w (k' & I & B). apply (H id s w). exists k'. split; [now right|exact B].
    - intros (H1 & H2) id s w (k' & [E|I] & B); [injection E as -> ->; exact (H1 id s B)|]. apply (H2 id s w). exists k'. auto. }
  rewrite U. destruct (body_key k) as [(id, s)|] eqn:B.
  - set (o := match body b id with Some o => o | None => blank end). pose proof (set_field_ok o s v k) as F.
    destruct (set_field o s v k) as [o'|e|] eqn:E; cbn [obind].
    + rewrite IH. split; [|tauto]. intros H. split; [|exact H]. intros id' s' X. injection X as <- <-. apply F. eauto.
    + split; [intros (? & ?); discriminate|]. intros (H & _). destruct (proj2 F (H id s eq_refl)) as (? & ?). discriminate.
    + split; [intros (? & ?); discriminate|]. intros (H & _). destruct (proj2 F (H id s eq_refl)) as (? & ?). discriminate.
  - rewrite IH. split; [|tauto]. intros H. split; [discriminate|exact H].
Qed.
Theorem bodies_ok d : (exists b, from_table d = Ok b) <-> usable d.
Proof. apply fill_ok. Qed.
Lemma set_field_np o s v k : set_field o s v k <> Panic.
Proof.
  unfold set_field. assert (A : value_as_f64_array v k <> Panic).
  { unfold value_as_f64_array. destruct v; cbn; try discriminate. destruct (flat1 l); discriminate. }
  assert (R : parse_radii v k <> Panic).
  { unfold parse_radii. destruct (value_as_f64_array v k) as [l| |]; cbn; try congruence; try discriminate. destruct l as [|? [|? [|? [|]]]]; discriminate. }
  destruct (str_eqb _ _); [destruct (value_as_f64_array v k); cbn; congruence|].
  destruct (str_eqb _ _); [destruct (value_as_f64_array v k); cbn; congruence|].
  destruct (str_eqb _ _); [destruct (value_as_f64_array v k); cbn; congruence|].
  destruct (str_eqb _ _); [destruct (parse_radii v k); cbn; congruence|discriminate].
Qed.
Theorem bodies_np d : from_table d <> Panic.
Proof.
  unfold from_table. generalize (@nil (Z * orientation)) as b. induction d as [|(k, v) d IH]; intros b; cbn [fill]; [discriminate|].
  destruct (body_key k) as [(id, s)|]; [|apply IH]. pose proof (set_field_np (match body b id with Some o => o | None => blank end) s v k) as N.
  destruct (set_field _ s v k); cbn [obind]; [apply IH|discriminate|congruence].
Qed.
(** order of the variables *)
Definition one_each (d : table) : Prop := forall id s v v', says d id s v -> says d id s v' -> v = v'.
Lemma says_perm d d' id s v : Permutation d d' -> says d id s v -> says d' id s v.
Proof. intros P (k & I & B). exists k. split; [eapply Permutation_in; eauto|exact B]. Qed.
Lemma orients_fun d d' id o o' : one_each d -> (forall s v, says d id s v <-> says d' id s v) -> orients d id o -> orients d' id o' -> o = o'.
Proof.
  intros U E (A1 & A2 & A3 & A4) (B1 & B2 & B3 & B4).
  assert (L : forall suf l l', list_of d id suf l -> list_of d' id suf l' -> l = l').
  { intros suf l l' [(v & S & H)|(S & ->)] [(v' & S' & H')|(S' & ->)]; try reflexivity.
    - apply E in S'. rewrite (U id _ _ _ S S') in H. exact (numbers_fun _ _ _ H H').
    - destruct (S' v). now apply E.
    - destruct (S v'). now apply E. }
  destruct o as [p1 p2 p3 p4], o' as [q1 q2 q3 q4]. cbn [pole_ra pole_dec pm radii] in *. f_equal; eauto.
  destruct p4 as [r|], q4 as [r'|]; cbn in A4, B4; try reflexivity.
  - destruct A4 as (v & S & H), B4 as (v' & S' & H'). apply E in S'. rewrite (U id _ _ _ S S') in H. f_equal. exact (three_fun _ _ _ H H').
  - destruct A4 as (v & S & _). destruct (B4 v). now apply E.
  - destruct B4 as (v & S & _). destruct (A4 v). now apply E.
Qed.
Theorem order_free d d' b : Permutation d d' -> one_each d -> from_table d = Ok b -> exists b', from_table d' = Ok b' /\ forall id, body b' id = body b id.
Proof.
  intros P U H. assert (E : forall id s v, says d id s v <-> says d' id s v) by (intros; split; apply says_perm; [exact P|now apply Permutation_sym]).
  assert (O : exists b', from_table d' = Ok b').
  { apply bodies_ok. assert (Ud : usable d) by (apply bodies_ok; eauto). intros id s v S. apply (Ud id s v). now apply E. }
  destruct O as (b' & H'). exists b'. split; [exact H'|]. intros id. apply bodies_spec in H, H'. specialize (H id). specialize (H' id).
  destruct (body b id) as [o|], (body b' id) as [o'|]; try reflexivity.
  - f_equal. symmetry. eapply orients_fun; [exact U|intros s v; apply E|apply H|apply H'].
  - destruct H as ((s & v & S) & _). destruct (H' s v). now apply E.
  - destruct H' as ((s & v & S) & _). destruct (H s v). now apply E.
Qed.
