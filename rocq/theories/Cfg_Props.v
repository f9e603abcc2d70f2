(** C145: force configurations. *)
From Coq Require Import Ascii String List Bool QArith Qabs Reals Arith Sorted Permutation Lia Lra.
From Verif Require Import Base Sort Mat3 Geom_Model Geom_Proofs Cfg_Model.
Import ListNotations.
Local Open Scope string_scope.
Local Open Scope list_scope.

(** * C145 Force configurations *)
Section Forces.
Context {V : Type}.
Implicit Types (r : registry V) (f : factory V) (c : config V) (m : fmodel V).
(** what a reader of the configuration expects to act on the satellite *)
Definition configured c m : Prop :=
  match m with
  | TwoBody => c_two_body c = true
  | J2 => c_j2 c = true
  | Geopotential d o => c_harmonics c = Some (d, o)
  | ThirdBody true false => c_sun c = true
  | ThirdBody false true => c_moon c = true
  | ThirdBody _ _ => False
  | Drag cd am => c_drag c = Some (cd, am)
  | Cannonball s cr am => c_srp c = Some (cr, am, s)
  | Relativity => c_relativity c = true
  | Constant x y z => c_constant c = Some (x, y, z)
  | Periodic OncePerRev e p k => c_1cpr c = Some (e, p, k)
  | Periodic TwicePerRev e p k => c_2cpr c = Some (e, p, k)
  end.
Definition rank m : nat :=
  match m with
  | TwoBody => 0 | J2 => 1 | Geopotential _ _ => 2 | ThirdBody true _ => 3 | ThirdBody false _ => 4 | Drag _ _ => 5 | Cannonball _ _ _ => 6
  | Relativity => 7 | Constant _ _ _ => 8 | Periodic OncePerRev _ _ _ => 9 | Periodic TwicePerRev _ _ _ => 10
  end.
Definition flag (b : bool) m : list (fmodel V) := if b then [m] else [].
Definition part {A} (o : option A) (g : A -> fmodel V) : list (fmodel V) := match o with Some a => [g a] | None => [] end.
Definition models c : list (fmodel V) :=
  flag (c_two_body c) TwoBody ++ flag (c_j2 c) J2 ++ part (c_harmonics c) (fun x => Geopotential (fst x) (snd x)) ++ flag (c_sun c) (ThirdBody true false) ++
  flag (c_moon c) (ThirdBody false true) ++ part (c_drag c) (fun x => Drag (fst x) (snd x)) ++ part (c_srp c) (fun x => Cannonball (snd x) (fst (fst x)) (snd (fst x))) ++
  flag (c_relativity c) Relativity ++ part (c_constant c) (fun x => Constant (fst (fst x)) (snd (fst x)) (snd x)) ++
  part (c_1cpr c) (fun x => Periodic OncePerRev (fst (fst x)) (snd (fst x)) (snd x)) ++ part (c_2cpr c) (fun x => Periodic TwicePerRev (fst (fst x)) (snd (fst x)) (snd x)).

Lemma build_onto_app r a b out : build_onto r out (a ++ b) = match build_onto r out a with Ok o => build_onto r o b | Err e => Err e | Panic => Panic end.
Proof. revert out. induction a as [|s a IH]; intros out; cbn; [reflexivity|]. destruct (build_one r s); [apply IH|reflexivity|reflexivity]. Qed.
Lemma build_step r out (b : bool) (s : spec V) m rest : build_one r s = Ok m ->
  build_onto r out ((if b then [s] else []) ++ rest) = build_onto r (out ++ flag b m) rest.
Proof. intros H. destruct b; cbn; [now rewrite H|now rewrite app_nil_r]. Qed.
Lemma build_config c : build with_builtins (to_specs c) = Ok (models c).
Proof.
  unfold build, to_specs, models. destruct c as [c1 c2 c3 c4 c5 c6 c7 c8 c9 c10 c11]. cbn [c_two_body c_j2 c_harmonics c_sun c_moon c_drag c_srp c_relativity c_constant c_1cpr c_2cpr].
  rewrite (build_step _ _ c1 _ TwoBody) by reflexivity. rewrite (build_step _ _ c2 _ J2) by reflexivity.
  assert (P : forall A (o : option A) (g : A -> spec V) (h : A -> fmodel V) out rest, (forall a, build_one with_builtins (g a) = Ok (h a)) ->
    build_onto with_builtins out (match o with Some a => [g a] | None => [] end ++ rest) = build_onto with_builtins (out ++ part o h) rest).
  { intros A o g h out rest H. destruct o; cbn; [now rewrite H|now rewrite app_nil_r]. }
  replace (match c3 with Some (d, o) => [Spec "geopotential" (PGeopotential d o)] | None => [] end) with (match c3 with Some x => [Spec "geopotential" (@PGeopotential V (fst x) (snd x))] | None => [] end) by (now destruct c3 as [[]|]).
  rewrite (P _ c3 _ (fun x => Geopotential (fst x) (snd x))) by reflexivity.
  rewrite (build_step _ _ c4 _ (ThirdBody true false)) by reflexivity. rewrite (build_step _ _ c5 _ (ThirdBody false true)) by reflexivity.
  replace (match c6 with Some (cd, am) => [Spec "drag" (PDrag cd am)] | None => [] end) with (match c6 with Some x => [Spec "drag" (PDrag (fst x) (snd x))] | None => [] end) by (now destruct c6 as [[]|]).
  rewrite (P _ c6 _ (fun x => Drag (fst x) (snd x))) by reflexivity.
  replace (match c7 with Some (cr, am, sh) => [Spec "srp_cannonball" (PSrp cr am sh)] | None => [] end) with (match c7 with Some x => [Spec "srp_cannonball" (PSrp (fst (fst x)) (snd (fst x)) (snd x))] | None => [] end) by (now destruct c7 as [[[] ?]|]).
  rewrite (P _ c7 _ (fun x => Cannonball (snd x) (fst (fst x)) (snd (fst x)))) by reflexivity.
  rewrite (build_step _ _ c8 _ Relativity) by reflexivity.
  replace (match c9 with Some (r, t, n) => [Spec "empirical_constant" (PConstant r t n)] | None => [] end) with (match c9 with Some x => [Spec "empirical_constant" (PConstant (fst (fst x)) (snd (fst x)) (snd x))] | None => [] end) by (now destruct c9 as [[[] ?]|]).
  rewrite (P _ c9 _ (fun x => Constant (fst (fst x)) (snd (fst x)) (snd x))) by reflexivity.
  replace (match c10 with Some (e, p, k) => [Spec "empirical_1cpr" (PPeriodic OncePerRev e p k)] | None => [] end) with (match c10 with Some x => [Spec "empirical_1cpr" (PPeriodic OncePerRev (fst (fst x)) (snd (fst x)) (snd x))] | None => [] end) by (now destruct c10 as [[[] ?]|]).
  rewrite (P _ c10 _ (fun x => Periodic OncePerRev (fst (fst x)) (snd (fst x)) (snd x))) by reflexivity.
  replace (match c11 with Some (e, p, k) => [Spec "empirical_2cpr" (PPeriodic TwicePerRev e p k)] | None => [] end) with (match c11 with Some x => [Spec "empirical_2cpr" (PPeriodic TwicePerRev (fst (fst x)) (snd (fst x)) (snd x))] | None => [] end ++ [])%list by (now destruct c11 as [[[] ?]|]).
  rewrite (P _ c11 _ (fun x => Periodic TwicePerRev (fst (fst x)) (snd (fst x)) (snd x))) by reflexivity.
  cbn [build_onto]. rewrite <- !app_assoc. reflexivity.
Qed.
Lemma in_flag b m x : In x (flag b m) <-> b = true /\ x = m.
Proof. destruct b; cbn; split; [intros [<-|[]]; auto|intros (_ & ->); auto|intros []|intros ([=] & _)]. Qed.
Lemma in_part A (o : option A) g x : In x (part o g) <-> exists a, o = Some a /\ x = g a.
Proof. destruct o as [a|]; cbn; split; [intros [<-|[]]; eauto|intros (a' & [= <-] & ->); auto|intros []|intros (a & [=] & _)]. Qed.
Lemma models_in c m : In m (models c) <-> configured c m.
Proof.
  unfold models. rewrite !in_app_iff, !in_flag, !in_part. destruct c as [c1 c2 c3 c4 c5 c6 c7 c8 c9 c10 c11]. cbn [c_two_body c_j2 c_harmonics c_sun c_moon c_drag c_srp c_relativity c_constant c_1cpr c_2cpr].
  split.
  - intros H. repeat destruct H as [H|H]; try (destruct H as (H & ->); cbn; exact H); destruct H as (a & H & ->); cbn; rewrite H;
      repeat match goal with x : (_ * _)%type |- _ => destruct x end; reflexivity.
  - destruct m as [| |d o|[] []|cd am|s cr am| |x y z|[] e p k]; cbn [configured c_two_body c_j2 c_harmonics c_sun c_moon c_drag c_srp c_relativity c_constant c_1cpr c_2cpr]; intros H.
    + left. auto.
    + right; left. auto.
    + do 2 right; left. exists (d, o). auto.
    + destruct H.
    + do 3 right; left. auto.
    + do 4 right; left. auto.
    + destruct H.
    + do 5 right; left. exists (cd, am). auto.
    + do 6 right; left. exists (cr, am, s). auto.
    + do 7 right; left. auto.
    + do 8 right; left. exists (x, y, z). auto.
    + do 9 right; left. exists (e, p, k). auto.
    + do 10 right. exists (e, p, k). auto.
Qed.
Lemma sorted_flag b m l : StronglySorted lt (map rank l) -> Forall (fun k => rank m < k)%nat (map rank l) -> StronglySorted lt (map rank (flag b m ++ l)).
Proof. intros A B. destruct b; cbn; [now constructor|exact A]. Qed.
Lemma models_sorted c : StronglySorted lt (map rank (models c)).
Proof.
  unfold models. destruct c as [c1 c2 c3 c4 c5 c6 c7 c8 c9 c10 c11]. cbn [c_two_body c_j2 c_harmonics c_sun c_moon c_drag c_srp c_relativity c_constant c_1cpr c_2cpr].
  assert (F : forall (b : bool) m l lo, Forall (fun k => S (rank m) <= k)%nat (map rank l) /\ StronglySorted lt (map rank l) -> (lo <= rank m)%nat ->
    Forall (fun k => lo <= k)%nat (map rank (flag b m ++ l)) /\ StronglySorted lt (map rank (flag b m ++ l))).
  { intros b m l lo (A & B) L. destruct b; cbn.
    - split; constructor; auto. eapply Forall_impl; [|exact A]. cbn. lia.
    - split; [|exact B]. eapply Forall_impl; [|exact A]. cbn. lia. }
  assert (G : forall A (o : option A) g l k lo, (forall a, rank (g a) = k) -> Forall (fun j => S k <= j)%nat (map rank l) /\ StronglySorted lt (map rank l) -> (lo <= k)%nat ->
    Forall (fun j => lo <= j)%nat (map rank (part o g ++ l)) /\ StronglySorted lt (map rank (part o g ++ l))).
  { intros A o g l k lo E (P & Q) L. destruct o as [a|]; cbn.
    - rewrite E. split; constructor; auto. eapply Forall_impl; [|exact P]. cbn. lia.
    - split; [|exact Q]. eapply Forall_impl; [|exact P]. cbn. lia. }
  enough (W : Forall (fun k => 0 <= k)%nat (map rank (models (Config c1 c2 c3 c4 c5 c6 c7 c8 c9 c10 c11))) /\ StronglySorted lt (map rank (models (Config c1 c2 c3 c4 c5 c6 c7 c8 c9 c10 c11)))) by apply W.
  unfold models. cbn [c_two_body c_j2 c_harmonics c_sun c_moon c_drag c_srp c_relativity c_constant c_1cpr c_2cpr].
  apply F; [|cbn; lia]. apply F; [|cbn; lia]. apply (G _ _ _ _ 2%nat); [reflexivity| |cbn; lia]. apply F; [|cbn; lia]. apply F; [|cbn; lia].
  apply (G _ _ _ _ 5%nat); [reflexivity| |cbn; lia]. apply (G _ _ _ _ 6%nat); [reflexivity| |lia]. apply F; [|cbn; lia].
  apply (G _ _ _ _ 8%nat); [reflexivity| |cbn; lia]. apply (G _ _ _ _ 9%nat); [reflexivity| |lia].
  rewrite <- (app_nil_r (part c11 _)). apply (G _ _ _ _ 10%nat); [reflexivity| |lia]. split; constructor.
Qed.
(** every configuration builds, into exactly the models it asks for, each once *)
Theorem C145_config c : exists l, build with_builtins (to_specs c) = Ok l /\ (forall m, In m l <-> configured c m) /\ NoDup l.
Proof.
  exists (models c). split; [apply build_config|]. split; [apply models_in|]. apply (NoDup_map_inv rank).
  pose proof (models_sorted c) as H. induction H as [|k l H IH F]; constructor; [|exact IH]. intros I. rewrite Forall_forall in F. apply F in I. lia.
Qed.
(** a list of specifications builds exactly when each does; otherwise the first that does not gives its error *)
Lemma build_onto_ok r l : forall out ms, build_onto r out l = Ok ms <-> exists t, ms = out ++ t /\ Forall2 (fun s m => build_one r s = Ok m) l t.
Proof.
  induction l as [|s l IH]; intros out ms; cbn.
  - split; [intros [= <-]; exists []; rewrite app_nil_r; auto|]. intros (t & -> & H). inversion H. now rewrite app_nil_r.
  - destruct (build_one r s) as [m|e|] eqn:E.
    + rewrite IH. split; intros (t & -> & H).
      * exists (m :: t). rewrite <- app_assoc. auto.
      * inversion H as [|? m' ? t' A B]; subst. assert (m' = m) by congruence. subst. exists t'. rewrite <- app_assoc. auto.
    + split; [discriminate|]. intros (t & _ & H). inversion H. congruence.
    + split; [discriminate|]. intros (t & _ & H). inversion H. congruence.
Qed.
Theorem C145_build r l : (forall ms, build r l = Ok ms <-> Forall2 (fun s m => build_one r s = Ok m) l ms) /\
  (forall e, build r l = Err e <-> exists pre s post ms, l = pre ++ s :: post /\ build r pre = Ok ms /\ build_one r s = Err e).
Proof.
  unfold build. split; [intros ms; rewrite build_onto_ok; split; [now intros (t & -> & H)|intros H; exists ms; auto]|].
  generalize (@nil (fmodel V)) as out. induction l as [|s l IH]; intros out e; cbn.
  - split; [discriminate|]. intros ([|] & ? & ? & ? & H & _); discriminate.
  - destruct (build_one r s) as [m|e'|] eqn:E.
    + rewrite IH. split.
      * intros (pre & s' & post & ms & -> & A & B). exists (s :: pre), s', post, ms. cbn. now rewrite E.
      * intros ([|s0 pre] & s' & post & ms & H & A & B); cbn in H; injection H as <- ->; [congruence|]. cbn in A. rewrite E in A. exists pre, s', post, ms. auto.
    + split.
      * intros [= <-]. exists [], s, l, out. auto.
      * intros ([|s0 pre] & s' & post & ms & H & A & B); cbn in H; injection H as <- ->; [congruence|]. cbn in A. rewrite E in A. discriminate.
    + split; [discriminate|]. intros ([|s0 pre] & s' & post & ms & H & A & B); cbn in H; injection H as <- ->; [congruence|]. cbn in A. rewrite E in A. discriminate.
Qed.
Lemma compare_refl a : String.compare a a = Eq.
Proof. pose proof (String.compare_antisym a a). destruct (String.compare a a); cbn in *; congruence. Qed.
Lemma eqb_compare a b : String.eqb a b = match String.compare a b with Eq => true | _ => false end.
Proof.
  destruct (String.compare a b) eqn:C.
  - apply String.compare_eq_iff in C. subst. apply String.eqb_refl.
  - apply String.eqb_neq. intros ->. rewrite compare_refl in C. discriminate.
  - apply String.eqb_neq. intros ->. rewrite compare_refl in C. discriminate.
Qed.
(** registering replaces the factory of that name and no other; the names stay in order, without repetition *)
Theorem C145_register name f r : lookup name (register name f r) = Some f /\
  (forall other, other <> name -> lookup other (register name f r) = lookup other r) /\
  (LocallySorted (fun a b => String.compare a b = Lt) (names r) -> LocallySorted (fun a b => String.compare a b = Lt) (names (register name f r))).
Proof.
  split; [|split].
  - induction r as [|(k, g) r IH]; cbn; [now rewrite String.eqb_refl|]. destruct (String.compare name k) eqn:C; cbn; rewrite ?String.eqb_refl; auto. now rewrite eqb_compare, C.
  - intros other N. induction r as [|(k, g) r IH]; cbn.
    + apply String.eqb_neq in N. now rewrite N.
    + destruct (String.compare name k) eqn:C; cbn.
      * apply String.compare_eq_iff in C. subst k. apply String.eqb_neq in N. now rewrite N.
      * apply String.eqb_neq in N. now rewrite N.
      * now rewrite IH.
  - assert (X : forall r lo, (match names r with [] => True | k :: _ => String.compare lo k = Lt end) -> String.compare lo name = Lt -> match names (register name f r) with [] => True | k :: _ => String.compare lo k = Lt end).
    { intros r0 lo A B. destruct r0 as [|(k, g) r0]; cbn; [exact B|]. destruct (String.compare name k); cbn; auto. }
    rewrite <- !Sorted_LocallySorted_iff. induction r as [|(k, g) r IH]; cbn; intros H; [now repeat constructor|].
    inversion H as [|? ? A B]; subst. destruct (String.compare name k) eqn:C; cbn.
    + apply String.compare_eq_iff in C. subst. exact H.
    + constructor; [exact H|]. now constructor.
    + constructor; [now apply IH|]. assert (G : String.compare k name = Lt) by (rewrite String.compare_antisym, C; reflexivity).
      specialize (X r k). fold (names (register name f r)). destruct (names (register name f r)) as [|k' ?]; constructor. apply X; [|exact G].
      fold (names r) in B. destruct (names r); [exact I|]. now inversion B.
Qed.
(** a name nobody registered is reported by name; a built-in model given settings of another kind is refused by its
    own name; nothing else is refused *)
Theorem C145_errors (s : spec V) e : build_one with_builtins s = Err e -> 
  (e = UnknownModel (s_name s) /\ is_registered (s_name s) (@with_builtins V) = false) \/ (e = InvalidParameters (s_name s) /\ is_registered (s_name s) (@with_builtins V) = true).
Proof.
  unfold build_one, is_registered. destruct s as [n p]. cbn [s_name s_params]. destruct (lookup n with_builtins) as [f|] eqn:L; [|intros [= <-]; auto].
  intros H. right. split; [|reflexivity]. cbn in L.
  repeat (match type of L with (if String.eqb n ?k then _ else _) = _ => destruct (String.eqb_spec n k) as [->|_] end;
    [injection L as <-; cbv delta [two_body_factory j2_factory relativity_factory third_sun_factory third_moon_factory third_both_factory] in H; cbn in H; revert H; destruct p as [| | | | |h ? ? ?|]; try destruct h; cbn; congruence|]).
  discriminate.
Qed.
(** the two periodic models take settings of their own harmonic only *)
Theorem C145_harmonic (p : fparams V) :
  (forall m, build_one with_builtins (Spec "empirical_1cpr" p) = Ok m <-> exists e per k, p = PPeriodic OncePerRev e per k /\ m = Periodic OncePerRev e per k) /\
  (forall m, build_one with_builtins (Spec "empirical_2cpr" p) = Ok m <-> exists e per k, p = PPeriodic TwicePerRev e per k /\ m = Periodic TwicePerRev e per k).
Proof.
  split; intros m; (destruct p as [| | | | |h e per k|]; [..|destruct h|]); cbn; split; intros H; try discriminate H;
    try (destruct H as (? & ? & ? & A & B); first [discriminate A|injection A as -> -> ->; now rewrite B]).
  all: injection H as <-; eauto.
Qed.
(** the default is the two-body and oblateness pair, nothing else *)
Theorem C145_default : build with_builtins (to_specs (@default_config V)) = Ok [TwoBody; J2].
Proof. reflexivity. Qed.
End Forces.

(** * The finding about the default *)
Lemma plus_zero (v : vec) : vplus (0, 0, 0)%R v = v. Proof. destruct v as ((x, y), z). cbn. apply vec_eq; ring. Qed.
(** the geopotential already has the central and oblateness terms (the library's own test says that the one of degree
    two and order zero is their sum), so a default configuration with harmonics pulls twice *)
Theorem C145_double_refuted (V : Type) (accel : fmodel V -> vec) d o (rest : vec) :
  accel (Geopotential d o) = vplus (vplus (accel TwoBody) (accel J2)) rest ->
  let c : config V := Config true true (Some (d, o)) false false None None false None None None in
  exists l, build with_builtins (to_specs c) = Ok l /\ total accel l = vplus (scale 2 (vplus (accel TwoBody) (accel J2))) rest.
Proof.
  intros G c. exists [TwoBody; J2; Geopotential d o]. split; [reflexivity|]. unfold total. cbn [fold_left]. rewrite plus_zero, G.
  destruct (accel TwoBody) as ((?, ?), ?), (accel J2) as ((?, ?), ?), rest as ((?, ?), ?). cbn. apply vec_eq; ring.
Qed.
Example C145_case : build (@with_builtins Q) (to_specs (Config true false (Some (4%nat, 4%nat)) true true (Some (2, 1)) None true None None None))
  = Ok [TwoBody; Geopotential 4 4; ThirdBody true false; ThirdBody false true; Drag 2 1; Relativity]
  /\ build (@with_builtins Q) [Spec "two_body" PNone; Spec "drag" PNone] = Err (InvalidParameters "drag").
Proof. split; reflexivity. Qed.
Print Assumptions C145_config.
Print Assumptions C145_build.
Print Assumptions C145_register.
Print Assumptions C145_errors.
Print Assumptions C145_harmonic.
Print Assumptions C145_default.
Print Assumptions C145_double_refuted.
Print Assumptions C145_case.
