From Coq Require Import List NArith ZArith QArith Qround Qabs Bool Lia Lqa Permutation Qfield Setoid.
From Coq Require Import ZifyBool ZifyNat ZifyN.
From Verif Require Import Base DecFloat Fnum Poly Seg_Model Seg_Spec.
Import ListNotations.
Local Open Scope Q_scope.
Local Open Scope outcome_scope.

Lemma qlt_spec a b : reflect (a < b) (qlt a b).
Proof.
  unfold qlt. destruct (Qle_bool b a) eqn:E; cbn; constructor.
  - apply Qle_bool_iff in E. lra.
  - destruct (Qlt_le_dec a b) as [H|H]; [assumption|]. apply Qle_bool_iff in H. congruence.
Qed.
Lemma qle_spec a b : reflect (a <= b) (Qle_bool a b).
Proof. destruct (Qle_bool a b) eqn:E; constructor; [now apply Qle_bool_iff|]. intros H. apply Qle_bool_iff in H. congruence. Qed.

(** ** Lagrange *)
Definition through (others : list Q) : list Q := fold_right pmul_root [1] others.
Definition prod_at (others : list Q) (x : Q) : Q := fold_right (fun r a => (x - r) * a) 1 others.
Lemma peval_through o x : peval (through o) x == prod_at o x.
Proof. unfold through, prod_at. induction o as [|r o IH]; cbn [fold_right]; [cbn; ring|]. rewrite peval_root, IH. reflexivity. Qed.
Lemma through_length o : length (through o) = S (length o).
Proof. unfold through. induction o as [|r o IH]; [reflexivity|]. cbn [fold_right length]. now rewrite pmul_root_length, IH. Qed.
Definition far (a b : Q) : Prop := eps < Qabs (a - b).
Lemma far_ne a b : far a b -> ~ a - b == 0.
Proof. unfold far. intros H E. rewrite E in H. vm_compute in H. discriminate. Qed.
Lemma far_sym a b : far a b -> far b a.
Proof. unfold far. intros H. rewrite Qabs_Qminus. exact H. Qed.
Lemma prod_nz o x : Forall (far x) o -> ~ prod_at o x == 0.
Proof.
  unfold prod_at. induction 1 as [|r o H _ IH]; cbn [fold_right]; [discriminate|]. intros E. apply Qmult_integral in E as [E|E]; [|contradiction].
  now apply (far_ne x r).
Qed.
Lemma prod_zero o x : (exists r, In r o /\ r == x) -> prod_at o x == 0.
Proof.
  intros (r & I & E). unfold prod_at. induction o as [|s o IH]; [contradiction|]. cbn [fold_right]. destruct I as [->|I]; [rewrite E; ring|]. rewrite IH by assumption. ring.
Qed.
Lemma basis_spec xs i j xi x acc : (forall k r, nth_error xs k = Some r -> (j + k)%nat <> i -> far xi r) ->
  exists b, basis xs i j xi x acc = Ok b /\
    b * prod_at (firstn (i - j) xs ++ (if (j <=? i)%nat then skipn (S (i - j)) xs else xs)) xi
      == acc * prod_at (firstn (i - j) xs ++ (if (j <=? i)%nat then skipn (S (i - j)) xs else xs)) x.
Proof.
  revert j acc. induction xs as [|r xs IH]; intros j acc H.
  - exists acc. split; [reflexivity|]. replace (firstn (i - j) [] ++ _) with (@nil Q) by (rewrite firstn_nil, skipn_nil; now destruct (j <=? i)%nat). cbn. ring.
  - cbn [basis]. destruct (Nat.eqb_spec i j) as [->|N].
    + rewrite Nat.sub_diag, Nat.leb_refl. cbn [firstn skipn app]. destruct (IH (S j) acc) as (b & -> & E).
      { intros k q Hk. intros D. apply (H (S k) q Hk). lia. }
      exists b. split; [reflexivity|]. replace (j - S j)%nat with O in E by lia. replace (S j <=? j)%nat with false in E by lia. exact E.
    + assert (F : far xi r) by (apply (H O r eq_refl); lia). unfold far in F.
      destruct (qle_spec (Qabs (xi - r)) eps) as [L|_]; [lra|].
      destruct (IH (S j) (acc * ((x - r) / (xi - r)))) as (b & -> & E).
      { intros k q Hk. intros D. apply (H (S k) q Hk). lia. }
      exists b. split; [reflexivity|].
      assert (G : forall y, prod_at (firstn (i - j) (r :: xs) ++ (if (j <=? i)%nat then skipn (S (i - j)) (r :: xs) else r :: xs)) y
        == (y - r) * prod_at (firstn (i - S j) xs ++ (if (S j <=? i)%nat then skipn (S (i - S j)) xs else xs)) y).
      { intros y. destruct (Nat.leb_spec j i) as [Le|Le].
        - destruct (i - j)%nat as [|m] eqn:M; [lia|]. replace (i - S j)%nat with m by lia. replace (S j <=? i)%nat with true by lia. reflexivity.
        - replace (i - j)%nat with O by lia. replace (i - S j)%nat with O by lia. replace (S j <=? i)%nat with false by lia. reflexivity. }
      rewrite !G. transitivity ((xi - r) * (b * prod_at (firstn (i - S j) xs ++ (if (S j <=? i)%nat then skipn (S (i - S j)) xs else xs)) xi)); [ring|].
      rewrite E. field. now apply far_ne.
Qed.

(** The interpolating polynomial; [pre] are the nodes already passed. *)
Fixpoint lpoly (pre xs ys : list Q) : list Q :=
  match xs, ys with
  | xi :: xt, yi :: yt => padd (pscale (yi / prod_at (pre ++ xt) xi) (through (pre ++ xt))) (lpoly (pre ++ [xi]) xt yt)
  | _, _ => []
  end.
Lemma lpoly_length pre xs ys : (length (lpoly pre xs ys) <= length pre + length xs)%nat.
Proof.
  revert pre ys. induction xs as [|xi xt IH]; intros pre [|yi yt]; cbn [lpoly length]; try lia.
  rewrite padd_length, pscale_length, through_length, app_length. specialize (IH (pre ++ [xi]) yt). rewrite app_length in IH. cbn in IH. lia.
Qed.
Definition pairwise_far (xs : list Q) : Prop := forall i j a b, nth_error xs i = Some a -> nth_error xs j = Some b -> i <> j -> far a b.
Lemma lagrange_sum_spec all pre xs ys x acc : all = pre ++ xs -> pairwise_far all -> length xs = length ys ->
  exists v, lagrange_sum all xs ys (length pre) x acc = Ok v /\ v == acc + peval (lpoly pre xs ys) x.
Proof.
  intros E F. revert pre ys acc E. induction xs as [|xi xt IH]; intros pre [|yi yt] acc E L; try discriminate.
  - exists acc. split; [reflexivity|]. cbn. ring.
  - cbn [lagrange_sum lpoly]. 
    assert (Hi : nth_error all (length pre) = Some xi) by (rewrite E, nth_error_app2, Nat.sub_diag by lia; reflexivity).
    destruct (basis_spec all (length pre) 0 xi x 1) as (b & -> & Hb).
    { intros k r Hk D. apply (F (length pre) k); auto. }
    cbn [obind]. rewrite Nat.sub_0_r in Hb. cbn [Nat.leb] in Hb.
    assert (Sp : firstn (length pre) all ++ skipn (S (length pre)) all = pre ++ xt).
    { rewrite E. rewrite firstn_app, firstn_all, Nat.sub_diag. cbn [firstn]. rewrite app_nil_r. f_equal.
      rewrite skipn_app. replace (S (length pre) - length pre)%nat with 1%nat by lia. rewrite skipn_all2 by lia. reflexivity. }
    rewrite Sp in Hb.
    assert (Fa : Forall (far xi) (pre ++ xt)).
    { apply Forall_forall. intros r R. apply in_app_iff in R as [R|R]; apply In_nth_error in R as (k & Hk).
      - apply (F (length pre) k); auto; [|assert (k < length pre)%nat by (apply nth_error_Some; congruence); lia]. rewrite E, nth_error_app1; [assumption|]. apply nth_error_Some. congruence.
      - apply (F (length pre) (S (length pre) + k)%nat); auto; [|lia]. rewrite E, nth_error_app2 by lia. replace (S (length pre) + k - length pre)%nat with (S k) by lia. exact Hk. }
    pose proof (prod_nz _ _ Fa) as NZ.
    specialize (IH (pre ++ [xi]) yt (acc + yi * b)). rewrite <- app_assoc in IH. cbn [app] in IH. destruct (IH E) as (v & Hv & Ev); [cbn in L; lia|].
    rewrite app_length in Hv. cbn [length] in Hv. rewrite Nat.add_1_r in Hv. rewrite Hv. exists v. split; [reflexivity|].
    rewrite Ev, peval_add, peval_scale, peval_through.
    assert (Eb : b == prod_at (pre ++ xt) x / prod_at (pre ++ xt) xi) by (transitivity (b * prod_at (pre ++ xt) xi / prod_at (pre ++ xt) xi); [field; assumption|rewrite Hb; field; assumption]).
    rewrite Eb. field. assumption.
Qed.
(** At a node the interpolating polynomial takes the value of that node. *)
Lemma lpoly_other pre xs ys a : In a pre -> peval (lpoly pre xs ys) a == 0.
Proof.
  revert pre ys. induction xs as [|xi xt IH]; intros pre [|yi yt] I; cbn [lpoly]; try reflexivity.
  rewrite peval_add, peval_scale, peval_through, IH by (apply in_app_iff; now left). rewrite (prod_zero (pre ++ xt) a); [generalize (yi / prod_at (pre ++ xt) xi); intros; ring|]. exists a. split; [apply in_app_iff; now left|reflexivity].
Qed.
Lemma lpoly_node all pre xs ys k x y : all = pre ++ xs -> pairwise_far all -> length xs = length ys ->
  nth_error xs k = Some x -> nth_error ys k = Some y -> peval (lpoly pre xs ys) x == y.
Proof.
  intros E F. revert pre ys k E. induction xs as [|xi xt IH]; intros pre [|yi yt] k E L Hx Hy; try (destruct k; discriminate).
  cbn [lpoly]. rewrite peval_add, peval_scale, peval_through. destruct k as [|k]; cbn [nth_error] in Hx, Hy.
  - injection Hx as ->. injection Hy as ->. rewrite lpoly_other by (apply in_app_iff; right; now left).
    assert (Fa : Forall (far x) (pre ++ xt)).
    { apply Forall_forall. intros r R. apply in_app_iff in R as [R|R]; apply In_nth_error in R as (k & Hk).
      - apply (F (length pre) k); auto; [rewrite E, nth_error_app2, Nat.sub_diag by lia; reflexivity| |assert (k < length pre)%nat by (apply nth_error_Some; congruence); lia]. rewrite E, nth_error_app1; [assumption|]. apply nth_error_Some. congruence.
      - apply (F (length pre) (S (length pre) + k)%nat); auto; [rewrite E, nth_error_app2, Nat.sub_diag by lia; reflexivity| |lia]. rewrite E, nth_error_app2 by lia. replace (S (length pre) + k - length pre)%nat with (S k) by lia. exact Hk. }
    field. now apply prod_nz.
  - rewrite (prod_zero (pre ++ xt) x).
    + rewrite (IH (pre ++ [xi]) yt k); auto; [generalize (yi / prod_at (pre ++ xt) xi); intros; ring|now rewrite <- app_assoc].
    + exists x. split; [|reflexivity]. apply in_app_iff. right. now apply nth_error_In in Hx.
Qed.
Lemma pairwise_distinct xs : pairwise_far xs -> ForallOrdPairs (fun a b => ~ a == b) xs.
Proof.
  induction xs as [|x xs IH]; intros F; constructor.
  - apply Forall_forall. intros b B E. apply In_nth_error in B as (k & Hk). apply (far_ne x b); [apply (F O (S k)); auto|lra].
  - apply IH. intros i j a b Hi Hj N. apply (F (S i) (S j)); auto.
Qed.
Theorem lagrange_node xs ys k x y : pairwise_far xs -> length xs = length ys -> nth_error xs k = Some x -> nth_error ys k = Some y ->
  exists v, lagrange_value xs ys x = Ok v /\ v == y.
Proof.
  intros F L Hx Hy. unfold lagrange_value. rewrite L, Nat.eqb_refl. assert (length ys <> O) by (destruct ys; [destruct k; discriminate|discriminate]).
  replace (Nat.eqb (length ys) 0) with false by lia. cbn [negb orb].
  destruct (lagrange_sum_spec xs [] xs ys x 0 eq_refl F L) as (v & Hv & E). exists v. split; [exact Hv|]. rewrite E, (lpoly_node xs [] xs ys k x y); auto. ring.
Qed.
Theorem lagrange_exact xs ys p x : pairwise_far xs -> xs <> [] -> Forall2 (fun a y => y == peval p a) xs ys -> (length p <= length xs)%nat ->
  exists v, lagrange_value xs ys x = Ok v /\ v == peval p x.
Proof.
  intros F N Y D. assert (L : length xs = length ys) by (clear - Y; induction Y; cbn; congruence).
  unfold lagrange_value. rewrite L, Nat.eqb_refl. replace (Nat.eqb (length ys) 0) with false by (rewrite <- L; destruct xs; [congruence|reflexivity]). cbn [negb orb].
  destruct (lagrange_sum_spec xs [] xs ys x 0 eq_refl F L) as (v & Hv & E). exists v. split; [exact Hv|]. rewrite E.
  assert (Z : peval (padd (lpoly [] xs ys) (pscale (- (1)) p)) x == 0).
  { apply (peval_roots _ xs); [|now apply pairwise_distinct|].
    - intros a A. apply In_nth_error in A as (k & Hk). assert (G : exists y, nth_error ys k = Some y /\ y == peval p a).
      { clear - Y Hk. revert k Hk. induction Y as [|b y xs ys H Y IH]; intros [|k] Hk; try discriminate; cbn [nth_error] in *; [injection Hk as ->; eauto|auto]. }
      destruct G as (y & Hy & Ey). rewrite peval_add, peval_scale, (lpoly_node xs [] xs ys k a y), Ey; auto. ring.
    - rewrite padd_length, pscale_length. pose proof (lpoly_length [] xs ys). cbn in H. lia. }
  rewrite peval_add, peval_scale in Z. lra.
Qed.

(** ** Hermite *)
Fixpoint good (p m zs row : list Q) : Prop :=
  match zs, row with
  | [], [] => True
  | z :: zt, q :: qt => q == dd p (m ++ [z]) /\ good p (m ++ [z]) zt qt
  | _, _ => False
  end.
Lemma diffs_good p zs : forall m zi lst prev, good p m zs prev -> lst == dd p (zi :: m) -> Forall (far zi) zs ->
  exists es, diffs lst prev zs zi = Ok es /\ good p (zi :: m) zs es.
Proof.
  induction zs as [|z zt IH]; intros m zi lst [|q qt] G L F; try contradiction.
  - exists []. split; [reflexivity|exact I].
  - cbn [good] in G. destruct G as [Hq G]. apply Forall_cons_iff in F as [Fz F]. cbn [diffs].
    assert (Fz' := Fz). unfold far in Fz'. destruct (qle_spec (Qabs (zi - z)) eps) as [X|_]; [lra|].
    assert (E : (lst - q) / (zi - z) == dd p (zi :: m ++ [z])).
    { pose proof (dd_recurrence p zi m z) as R. rewrite <- Hq, <- L in R.
      assert (N : ~ zi - z == 0) by now apply far_ne. transitivity (((z - zi) * dd p (zi :: m ++ [z])) / (z - zi)); [rewrite R|]; field; lra. }
    destruct (IH (m ++ [z]) zi ((lst - q) / (zi - z)) qt G E F) as (es & -> & Ges). exists ((lst - q) / (zi - z) :: es). split; [reflexivity|]. split; [exact E|exact Ges].
Qed.
Lemma good_last p zs : forall m row d, good p m zs row -> zs <> [] -> last row d == dd p (m ++ zs).
Proof.
  induction zs as [|z zt IH]; intros m [|q qt] d G N; try contradiction. destruct G as [Hq G]. destruct zt as [|z' zt].
  - destruct qt; [|contradiction]. exact Hq.
  - destruct qt as [|q' qt]; [contradiction|]. replace (m ++ z :: z' :: zt) with ((m ++ [z]) ++ z' :: zt) by now rewrite <- app_assoc.
    exact (IH (m ++ [z]) (q' :: qt) d G ltac:(discriminate)).
Qed.
Fixpoint ent (p zrev : list Q) (entries : list (Q * Q * Q)) : Prop :=
  match entries with
  | [] => True
  | (z, y, d) :: t => y == peval p z /\ match zrev with [] => True | w :: older => d == dd p [z; w] /\ Forall (far z) older end /\ ent p (z :: zrev) t
  end.
Fixpoint coef (p zrev : list Q) (zc : list (Q * Q)) : Prop :=
  match zc with
  | [] => True
  | (z, c) :: t => c == dd p (z :: zrev) /\ coef p (z :: zrev) t
  end.
Lemma one p z y : y == peval p z -> y == dd p [z].
Proof. intros H. rewrite dd_one. exact H. Qed.
Lemma diagonal_coef p entries : forall row zrev, ent p zrev entries -> good p [] zrev row ->
  exists zc, diagonal entries row zrev = Ok zc /\ coef p zrev zc /\ length zc = length entries.
Proof.
  induction entries as [|[[z y] d] t IH]; intros row zrev E G; [exists []; repeat split|].
  cbn [ent] in E. destruct E as (Hy & Hd & E). cbn [diagonal]. destruct row as [|r0 above], zrev as [|w older]; try contradiction.
  - destruct (IH [y] [z] E) as (zc & -> & C & Lc); [split; [exact (one p z y Hy)|exact I]|].
    exists ((z, y) :: zc). split; [reflexivity|]. split; [split; [exact (one p z y Hy)|exact C]|cbn; now rewrite Lc].
  - destruct Hd as [Hd Hf]. destruct G as [_ G]. cbn [tl]. destruct (diffs_good p older [w] z d above G Hd Hf) as (es & -> & Ges). cbn [obind].
    assert (G' : good p [] (z :: w :: older) (y :: d :: es)).
    { split; [exact (one p z y Hy)|]. split; [exact Hd|exact Ges]. }
    destruct (IH (y :: d :: es) (z :: w :: older) E G') as (zc & -> & C & Lc). cbn [obind].
    exists ((z, last (y :: d :: es) 0) :: zc). split; [reflexivity|]. split; [|cbn; now rewrite Lc]. split; [|exact C].
    exact (good_last p (z :: w :: older) [] _ 0 G' ltac:(discriminate)).
Qed.
Lemma newton_spec p zc : forall zrev x, coef p zrev zc -> zc <> [] -> (length p <= length zrev + length zc)%nat ->
  fst (newton zc x) == dd p (x :: zrev) /\ snd (newton zc x) == dd p (x :: x :: zrev).
Proof.
  induction zc as [|[z c] t IH]; intros zrev x C N L; [congruence|]. cbn [coef] in C. destruct C as [Hc C]. cbn [newton].
  pose proof (dd_step p z x zrev) as S1. pose proof (dd_step p z x (x :: zrev)) as S2.
  destruct t as [|e t].
  - cbn [fst snd]. cbn [length] in L. rewrite (dd_vanish p (z :: x :: zrev)) in S1 by (cbn [length]; lia).
    split; [lra|]. rewrite (dd_vanish p (x :: x :: zrev)) by (cbn [length]; lia). reflexivity.
  - destruct (IH (z :: zrev) x C ltac:(discriminate)) as (Hv & Hd); [cbn [length] in *; lia|].
    destruct (newton (e :: t) x) as [v d]. cbn [fst snd] in *.
    rewrite (dd_swap p z x zrev) in S1. rewrite (dd_perm p (z :: x :: x :: zrev) (x :: x :: z :: zrev)) in S2 by (etransitivity; [apply perm_swap|apply perm_skip, perm_swap]).
    rewrite (dd_swap p z x zrev) in S2. rewrite Hv, Hd, Hc. split; lra.
Qed.

Lemma doubled_ent p xs : forall ys ds prev zrev,
  Forall2 (fun a y => y == peval p a) xs ys -> Forall2 (fun a d => d == pderiv p a) xs ds ->
  pairwise_far xs -> (forall a b, In a xs -> In b zrev -> far a b) ->
  match prev with None => zrev = [] | Some (px, py) => hd_error zrev = Some px /\ py == peval p px end ->
  exists entries, doubled xs ys ds prev = Ok entries /\ ent p zrev entries /\ length entries = (2 * length xs)%nat.
Proof.
  induction xs as [|x xt IH]; intros ys ds prev zrev Y D F Z P; inversion Y as [|? y ? yt Hy Yt]; subst; inversion D as [|? d ? dt Hd Dt]; subst.
  - exists []. repeat split.
  - assert (Ft : pairwise_far xt) by (intros i j a b Hi Hj Nij; apply (F (S i) (S j)); auto).
    assert (Zt : forall a b, In a xt -> In b (x :: x :: zrev) -> far a b).
    { assert (K : forall a, In a xt -> far a x) by (intros a A; apply In_nth_error in A as (k & Hk); apply (F (S k) O); auto).
      intros a b A [<-|[<-|B]]; auto. apply Z; auto. now right. }
    destruct (IH yt dt (Some (x, y)) (x :: x :: zrev) Yt Dt Ft Zt) as (es & He & Ee & Le); [split; [reflexivity|assumption]|].
    cbn [doubled]. destruct prev as [[px py]|].
    + destruct P as [P1 P2]. destruct zrev as [|w older]; [discriminate|]. cbn in P1. injection P1 as ->.
      assert (Fx : far x px) by (apply Z; now left). assert (Fx' := Fx). unfold far in Fx'. destruct (qle_spec (Qabs (x - px)) eps) as [X|_]; [lra|].
      rewrite He. cbn [obind]. eexists. split; [reflexivity|]. split; [|cbn [length]; lia].
      assert (Fo : Forall (far x) older) by (apply Forall_forall; intros b B; apply Z; [now left|now right]).
      split; [exact Hy|]. split; [split; [|exact Fo]|].
      * pose proof (dd_step p x px []) as S. rewrite !dd_one in S. rewrite Hy, P2.
        assert (N : ~ x - px == 0) by now apply far_ne. transitivity (((px - x) * dd p [x; px]) / (px - x)); [rewrite S|]; field; lra.
      * split; [exact Hy|]. split; [split; [rewrite dd_two; exact Hd|]|exact Ee]. constructor; [assumption|exact Fo].
    + subst zrev. rewrite He. cbn [obind]. eexists. split; [reflexivity|]. split; [|cbn [length]; lia].
      split; [exact Hy|]. split; [exact I|]. split; [exact Hy|]. split; [|exact Ee]. split; [rewrite dd_two; exact Hd|constructor].
Qed.
Lemma F2_length {A B} (R : A -> B -> Prop) l m : Forall2 R l m -> length l = length m.
Proof. induction 1; cbn; congruence. Qed.
Theorem hermite_exact xs ys ds p x : pairwise_far xs -> xs <> [] -> Forall2 (fun a y => y == peval p a) xs ys -> Forall2 (fun a d => d == pderiv p a) xs ds ->
  (length p <= 2 * length xs)%nat -> exists v d, hermite xs ys ds x = Ok (v, d) /\ v == peval p x /\ d == pderiv p x.
Proof.
  intros F N Y D L. destruct (doubled_ent p xs ys ds None [] Y D F) as (es & He & Ee & Le); [intros a b _ []|reflexivity|].
  destruct (diagonal_coef p es [] [] Ee I) as (zc & Hz & C & Lz).
  destruct (newton_spec p zc [] x C) as (Hv & Hd); [destruct xs; [congruence|destruct zc; [cbn in *; lia|discriminate]]|cbn [length]; lia|].
  unfold hermite. rewrite <- (F2_length _ _ _ Y), <- (F2_length _ _ _ D), Nat.eqb_refl. replace (Nat.eqb (length xs) 0) with false by (destruct xs; [congruence|reflexivity]). cbn [negb orb].
  rewrite He. cbn [obind]. rewrite Hz. cbn [obind]. exists (fst (newton zc x)), (snd (newton zc x)). split; [now destruct (newton zc x)|]. rewrite dd_one in Hv. rewrite dd_two in Hd. auto.
Qed.

(** Data at distinct nodes always come from a polynomial of degree below twice their number. *)
Definition wpoly (xs : list Q) : list Q := fold_right (fun r a => pmul_root r (pmul_root r a)) [1] xs.
Lemma wpoly_length xs : length (wpoly xs) = S (2 * length xs).
Proof. unfold wpoly. induction xs as [|r xs IH]; [reflexivity|]. cbn [fold_right length]. rewrite !pmul_root_length, IH. lia. Qed.
Lemma wpoly_zero xs a : In a xs -> peval (wpoly xs) a == 0 /\ pderiv (wpoly xs) a == 0.
Proof.
  unfold wpoly. induction xs as [|r xs IH]; [contradiction|]. cbn [fold_right]. rewrite !peval_root, !pderiv_root, !peval_root.
  intros [->|I]; [split; ring|]. destruct (IH I) as [-> ->]. split; ring.
Qed.
Lemma wpoly_nz xs a : Forall (far a) xs -> ~ peval (wpoly xs) a == 0.
Proof.
  unfold wpoly. induction 1 as [|r xs H _ IH]; cbn [fold_right]; [cbn [peval]; intros E; lra|]. rewrite !peval_root.
  intros E. apply Qmult_integral in E as [E|E]; [now apply (far_ne a r)|]. apply Qmult_integral in E as [E|E]; [now apply (far_ne a r)|contradiction].
Qed.
Lemma hermite_poly xs : forall ys ds, pairwise_far xs -> length xs = length ys -> length xs = length ds ->
  exists p, (length p <= 2 * length xs)%nat /\ Forall2 (fun a y => y == peval p a) xs ys /\ Forall2 (fun a d => d == pderiv p a) xs ds.
Proof.
  induction xs as [|x xs IH]; intros [|y ys] [|d ds] F L1 L2; try discriminate; [exists []; repeat split; constructor|].
  assert (Ft : pairwise_far xs) by (intros i j a b Hi Hj Nij; apply (F (S i) (S j)); auto).
  destruct (IH ys ds Ft) as (p & Lp & Y & D); [cbn in L1; lia|cbn in L2; lia|].
  assert (Fx : Forall (far x) xs) by (apply Forall_forall; intros a A; apply In_nth_error in A as (k & Hk); apply (F O (S k)); auto).
  pose proof (wpoly_nz xs x Fx) as NZ. set (W := wpoly xs) in *.
  set (al := (y - peval p x) / peval W x). set (be := (d - pderiv p x - al * pderiv W x) / peval W x).
  set (q := padd p (padd (pscale al W) (pscale be (pmul_root x W)))).
  assert (Eq : forall z, peval q z == peval p z + (al * peval W z + be * ((z - x) * peval W z))) by (intros z; unfold q; rewrite !peval_add, !peval_scale, peval_root; reflexivity).
  assert (Dq : forall z, pderiv q z == pderiv p z + (al * pderiv W z + be * (peval W z + (z - x) * pderiv W z))) by (intros z; unfold q; rewrite !pderiv_add, !pderiv_scale, pderiv_root; reflexivity).
  assert (Old : forall a, In a xs -> peval q a == peval p a /\ pderiv q a == pderiv p a).
  { intros a A. rewrite Eq, Dq. destruct (wpoly_zero xs a A) as [E1 E2]. fold W in E1, E2. rewrite E1, E2. split; ring. }
  exists q. split; [|split].
  - unfold q. rewrite !padd_length, !pscale_length, pmul_root_length. unfold W. rewrite wpoly_length. cbn [length]. lia.
  - constructor; [rewrite Eq; unfold al; field; assumption|]. clear - Y Old. clearbody q. clear - Y Old. induction Y as [|a b xs ys H Y IH]; constructor.
    + rewrite (proj1 (Old a (or_introl eq_refl))). exact H.
    + apply IH. intros c C. apply Old. now right.
  - constructor; [rewrite Dq; setoid_replace (x - x) with 0 by ring; unfold be; field; assumption|]. clear - D Old. clearbody q. clear - D Old. induction D as [|a b xs ds H D IH]; constructor.
    + rewrite (proj2 (Old a (or_introl eq_refl))). exact H.
    + apply IH. intros c C. apply Old. now right.
Qed.
Lemma F2_nth {A B} (R : A -> B -> Prop) l m k a b : Forall2 R l m -> nth_error l k = Some a -> nth_error m k = Some b -> R a b.
Proof. intros H. revert k. induction H as [|x y l m H _ IH]; intros [|k] Ha Hb; try discriminate; cbn in *; [congruence|eauto]. Qed.
Theorem hermite_node xs ys ds k x y d : pairwise_far xs -> length xs = length ys -> length xs = length ds ->
  nth_error xs k = Some x -> nth_error ys k = Some y -> nth_error ds k = Some d ->
  exists v r, hermite xs ys ds x = Ok (v, r) /\ v == y /\ r == d.
Proof.
  intros F L1 L2 Hx Hy Hd. destruct (hermite_poly xs ys ds F L1 L2) as (p & Lp & Y & D).
  destruct (hermite_exact xs ys ds p x F) as (v & r & E & Hv & Hr); auto; [destruct xs; [destruct k; discriminate|discriminate]|].
  exists v, r. split; [exact E|]. rewrite Hv, Hr. pose proof (F2_nth _ _ _ _ _ _ Y Hx Hy). pose proof (F2_nth _ _ _ _ _ _ D Hx Hd). cbn in *. lra.
Qed.

(** ** Windows *)
Lemma search_spec l x i : match search l x i with
  | Hit k => (i <= k < i + length l)%nat /\ nth (k - i) l 0 == x /\ forall j, (j < k - i)%nat -> nth j l 0 < x
  | Miss k => (i <= k <= i + length l)%nat /\ (forall j, (j < k - i)%nat -> nth j l 0 < x) /\ ((k < i + length l)%nat -> x < nth (k - i) l 0)
  end.
Proof.
  revert i. induction l as [|e t IH]; intros i; cbn [search length]; [split; [lia|]; split; [|lia]; intros j Hj; lia|].
  destruct (qlt_spec e x) as [L|L].
  - specialize (IH (S i)). destruct (search t x (S i)) as [k|k].
    + destruct IH as (A & B & C). split; [lia|]. replace (k - i)%nat with (S (k - S i)) by lia. split; [exact B|]. intros [|j] Hj; [exact L|apply C; lia].
    + destruct IH as (A & B & C). split; [lia|]. split.
      * intros [|j] Hj; [exact L|]. apply B. lia.
      * intros K. replace (k - i)%nat with (S (k - S i)) by lia. apply C. lia.
  - destruct (qlt_spec x e) as [M|M]; (split; [lia|]); rewrite Nat.sub_diag; split; cbn [nth]; try lra; intros; try lia; assumption.
Qed.
Lemma last_nth_0 (l : list Q) d : l <> [] -> last l d = nth (length l - 1) l 0.
Proof.
  induction l as [|a [|b t] IH]; intros N; [congruence|reflexivity|]. change (last (a :: b :: t) d) with (last (b :: t) d). rewrite IH by discriminate. cbn [length]. now replace (S (S (length t)) - 1)%nat with (S (S (length t) - 1)) by lia.
Qed.

Theorem window s t count : usable s -> covered s t -> (2 <= count <= di_n s)%nat ->
  (exists i, locate_or_window s (Fin t) count = Ok (Exact i) /\ (i < di_n s)%nat /\ epoch s i == t) \/
  (exists first i, locate_or_window s (Fin t) count = Ok (Window first count) /\ (first + count <= di_n s)%nat /\
     (first <= i /\ S i < first + count)%nat /\ epoch s i < t < epoch s (S i) /\ centred (di_n s) first count (S i - first)).
Proof.
  intros U (N & C1 & C2) Hc. destruct U as [Ue Us Uo _]. unfold locate_or_window, epoch in *.
  destruct (di_epochs s) as [|e0 es] eqn:E; [cbn in Ue; lia|]. rewrite <- E in *.
  replace (Nat.eqb (di_n s) 0) with false by lia. cbn [orb].
  assert (H0 : nth 0 (di_epochs s) 0 = e0) by (rewrite E; reflexivity). rewrite H0 in C1.
  destruct (qlt_spec t e0); [lra|]. cbn [orb]. rewrite last_nth_0, Ue by (rewrite E; discriminate).
  destruct (qlt_spec (nth (di_n s - 1) (di_epochs s) 0) t); [lra|].
  pose proof (search_spec (di_epochs s) t 0) as S. destruct (search (di_epochs s) t 0) as [k|k].
  - left. exists k. destruct S as (A & B & _). rewrite Nat.sub_0_r in B. split; [reflexivity|]. split; [lia|exact B].
  - right. destruct S as (A & B & D). rewrite Nat.sub_0_r in *. replace (Nat.eqb count 0) with false by lia. replace (di_n s <? count)%nat with false by lia. cbn [orb].
    assert (K1 : (0 < k)%nat).
    { destruct k; [|lia]. specialize (D ltac:(lia)). rewrite H0 in D. lra. }
    assert (K2 : (k < di_n s)%nat).
    { destruct (Nat.eq_dec k (di_n s)); [|lia]. subst k. specialize (B (di_n s - 1)%nat ltac:(lia)). lra. }
    set (first := if (di_n s <? k - Nat.div count 2 + count)%nat then (di_n s - count)%nat else (k - Nat.div count 2)%nat).
    assert (Hh : (1 <= Nat.div count 2 /\ Nat.div count 2 < count)%nat) by (split; [apply Nat.div_le_lower_bound|apply Nat.div_lt]; lia).
    assert (Ff : (first <= k - 1 /\ k < first + count /\ first + count <= di_n s)%nat) by (subst first; destruct (Nat.ltb_spec (di_n s) (k - Nat.div count 2 + count)); lia).
    exists first, (k - 1)%nat. split; [reflexivity|]. split; [lia|]. split; [lia|]. split.
    + split; [apply B; lia|]. replace (S (k - 1)) with k by lia. apply D. lia.
    + unfold centred. subst first. destruct (Nat.ltb_spec (di_n s) (k - Nat.div count 2 + count)); lia.
Qed.
Theorem window_outside s t count : usable s -> ~ covered s t -> locate_or_window s (Fin t) count = Err SegCoverage.
Proof.
  intros U C. destruct U as [Ue Us Uo _]. unfold locate_or_window, covered, epoch in *. destruct (di_epochs s) as [|e0 es] eqn:E; [cbn in Ue; rewrite <- Ue; reflexivity|]. rewrite <- E in *.
  assert (H0 : nth 0 (di_epochs s) 0 = e0) by (rewrite E; reflexivity). rewrite H0 in C. rewrite last_nth_0, Ue by (rewrite E; discriminate).
  destruct (Nat.eqb_spec (di_n s) 0); cbn [orb]; [reflexivity|].
  destruct (qlt_spec t e0); cbn [orb]; [reflexivity|]. destruct (qlt_spec (nth (di_n s - 1) (di_epochs s) 0) t); [reflexivity|]. exfalso. apply C. split; [lia|lra].
Qed.

(** ** Evaluation *)
Lemma nth_skipn_firstn {A} (l : list A) (d : A) a k i : (i < k)%nat -> nth i (firstn k (skipn a l)) d = nth (a + i) l d.
Proof.
  intros H. revert a l i H. induction k as [|k IH]; intros a l i H; [lia|].
  destruct (skipn a l) as [|y r] eqn:E.
  - assert (length l <= a)%nat by (destruct (le_lt_dec (length l) a); [assumption|]; assert (X := skipn_length a l); rewrite E in X; cbn in X; lia).
    rewrite (nth_overflow l) by lia. destruct i; reflexivity.
  - assert (Hl : nth a l d = y /\ skipn (S a) l = r).
    { clear - E. revert a E. induction l as [|z l IH]; intros [|a] E; try discriminate; cbn in E |- *; [injection E as -> ->; auto|]. apply IH in E. exact E. }
    destruct Hl as [H1 H2]. destruct i as [|i]; cbn [firstn nth]; [now rewrite Nat.add_0_r|]. rewrite <- H2, IH by lia. f_equal. lia.
Qed.
Lemma gather_spec st first k c : ((first + k) * 6 <= length st)%nat -> (c < 6)%nat ->
  gather st first k c = Ok (map (fun i => nth (i * 6 + c) st 0) (seq first k)).
Proof.
  revert first. induction k as [|k IH]; intros first L C; [reflexivity|]. cbn [gather seq map].
  assert (E : nth_error st (first * 6 + c) = Some (nth (first * 6 + c) st 0)) by (apply nth_error_nth'; lia). rewrite E, IH by lia. reflexivity.
Qed.
Lemma slice_spec s first k : usable s -> (first + k <= di_n s)%nat -> slice_epochs s first k = Ok (map (epoch s) (seq first k)).
Proof.
  intros U L. unfold slice_epochs. rewrite (u_epochs s U). replace (first + k <=? di_n s)%nat with true by lia. f_equal.
  apply (nth_ext _ _ 0 (epoch s 0)).
  - rewrite map_length, seq_length, firstn_length, skipn_length, (u_epochs s U). lia.
  - intros i Hi. rewrite firstn_length, skipn_length, (u_epochs s U) in Hi. rewrite map_nth, seq_nth by lia. unfold epoch. apply nth_skipn_firstn. lia.
Qed.
Lemma window_far s first k : spaced s -> (first + k <= di_n s)%nat -> pairwise_far (map (epoch s) (seq first k)).
Proof.
  intros Sp L i j a b Hi Hj N.
  assert (G : forall i a, nth_error (map (epoch s) (seq first k)) i = Some a -> (i < k)%nat /\ a = epoch s (first + i)).
  { intros m c H. assert (Lm : (m < k)%nat) by (assert (X : (m < length (map (epoch s) (seq first k)))%nat) by (apply nth_error_Some; congruence); now rewrite map_length, seq_length in X).
    split; [assumption|]. apply (nth_error_nth _ _ (epoch s 0)) in H. rewrite map_nth, seq_nth in H by assumption. congruence. }
  destruct (G i a Hi) as [Li ->], (G j b Hj) as [Lj ->]. apply Sp; lia.
Qed.
Lemma F2_map {A B C} (R : B -> C -> Prop) (f : A -> B) (g : A -> C) l : (forall x, In x l -> R (f x) (g x)) -> Forall2 R (map f l) (map g l).
Proof. induction l as [|x l IH]; intros H; cbn [map]; constructor; [apply H; now left|]. apply IH. intros y Y. apply H. now right. Qed.
Lemma record_spec s i : usable s -> (i < di_n s)%nat -> exists out, state_record s i = Ok out /\ length out = 6%nat /\ forall c, (c < 6)%nat -> nth c out 0 = value s i c.
Proof.
  intros U L. unfold state_record. rewrite (u_states s U). replace (i * 6 + 6 <=? di_n s * 6)%nat with true by lia. eexists. split; [reflexivity|].
  split; [rewrite firstn_length, skipn_length, (u_states s U); lia|]. intros c C. now apply nth_skipn_firstn.
Qed.
Lemma lcomponent s p first k t c : usable s -> spaced s -> sampled s p -> (first + k <= di_n s)%nat -> (0 < k)%nat -> (c < 6)%nat -> (length (p c) <= k)%nat ->
  exists v, lagrange_component s (map (epoch s) (seq first k)) first k t c = Ok v /\ v == peval (p c) t.
Proof.
  intros U Sp Sa L K C D. unfold lagrange_component. rewrite gather_spec by (rewrite ?(u_states s U); lia). cbn [obind].
  apply lagrange_exact.
  - now apply window_far.
  - destruct k; [lia|discriminate].
  - apply F2_map. intros i Hi. apply in_seq in Hi. apply Sa; lia.
  - rewrite map_length, seq_length. exact D.
Qed.
Theorem lagrange_segment s p t : usable s -> spaced s -> di_type s = 9%N -> sampled s p -> (forall c, (c < 6)%nat -> (length (p c) <= di_size s + 1)%nat) -> covered s t ->
  exists out, evaluate_lagrange s (Fin t) = Ok out /\ length out = 6%nat /\ forall c, (c < 6)%nat -> nth c out 0 == peval (p c) t.
Proof.
  intros U Sp T Sa D Cv. pose proof (u_size s U) as [Z1 Z2]. rewrite T in Z2. cbn [N.eqb Pos.eqb] in Z2. unfold evaluate_lagrange.
  destruct (window s t (di_size s + 1) U Cv) as [(i & -> & L & E)|(first & i & -> & L & _)]; [lia| |].
  - cbn [obind]. destruct (record_spec s i U L) as (out & -> & Lo & V). exists out. split; [reflexivity|]. split; [assumption|]. intros c C. rewrite (V c C), (Sa i c L C).
    clear - E. induction (p c) as [|a l IH]; [reflexivity|]. cbn [peval]. rewrite IH, E. reflexivity.
  - cbn [obind]. rewrite slice_spec by assumption. cbn [obind].
    destruct (lcomponent s p first (di_size s + 1) t 0) as (v0 & -> & E0); auto; try lia; try (apply D; lia).
    destruct (lcomponent s p first (di_size s + 1) t 1) as (v1 & -> & E1); auto; try lia; try (apply D; lia).
    destruct (lcomponent s p first (di_size s + 1) t 2) as (v2 & -> & E2); auto; try lia; try (apply D; lia).
    destruct (lcomponent s p first (di_size s + 1) t 3) as (v3 & -> & E3); auto; try lia; try (apply D; lia).
    destruct (lcomponent s p first (di_size s + 1) t 4) as (v4 & -> & E4); auto; try lia; try (apply D; lia).
    destruct (lcomponent s p first (di_size s + 1) t 5) as (v5 & -> & E5); auto; try lia; try (apply D; lia).
    cbn [obind]. eexists. split; [reflexivity|]. split; [reflexivity|]. intros c C.
    destruct c as [|[|[|[|[|[|c]]]]]]; try lia; assumption.
Qed.
Lemma haxis s p first k t a : usable s -> spaced s -> sampled_rates s p -> (first + k <= di_n s)%nat -> (0 < k)%nat -> (a < 3)%nat -> (length (p a) <= 2 * k)%nat ->
  exists v d, hermite_axis s (map (epoch s) (seq first k)) first k t a = Ok (v, d) /\ v == peval (p a) t /\ d == pderiv (p a) t.
Proof.
  intros U Sp Sa L K C D. unfold hermite_axis. rewrite !gather_spec by (rewrite ?(u_states s U); lia). cbn [obind].
  apply hermite_exact.
  - now apply window_far.
  - destruct k; [lia|discriminate].
  - apply F2_map. intros i Hi. apply in_seq in Hi. apply (Sa i a); lia.
  - apply F2_map. intros i Hi. apply in_seq in Hi. apply (Sa i a); lia.
  - rewrite map_length, seq_length. exact D.
Qed.
Lemma peval_eq p a b : a == b -> peval p a == peval p b.
Proof. intros E. induction p as [|c l IH]; [reflexivity|]. cbn [peval]. rewrite IH, E. reflexivity. Qed.
Lemma pderiv_eq p a b : a == b -> pderiv p a == pderiv p b.
Proof. intros E. induction p as [|c l IH]; [reflexivity|]. cbn [pderiv]. rewrite IH, (peval_eq l a b E), E. reflexivity. Qed.
Theorem hermite_segment s p t : usable s -> spaced s -> di_type s = 13%N -> sampled_rates s p -> (forall a, (a < 3)%nat -> (length (p a) <= 2 * di_size s)%nat) -> covered s t ->
  exists out, evaluate_hermite s (Fin t) = Ok out /\ length out = 6%nat /\
    forall a, (a < 3)%nat -> nth a out 0 == peval (p a) t /\ nth (a + 3) out 0 == pderiv (p a) t.
Proof.
  intros U Sp T Sa D Cv. pose proof (u_size s U) as [Z1 Z2]. rewrite T in Z2. cbn [N.eqb Pos.eqb] in Z2. unfold evaluate_hermite.
  destruct (window s t (di_size s) U Cv) as [(i & -> & L & E)|(first & i & -> & L & _)]; [lia| |].
  - cbn [obind]. destruct (record_spec s i U L) as (out & -> & Lo & V). exists out. split; [reflexivity|]. split; [assumption|]. intros a A.
    rewrite !V by lia. destruct (Sa i a L A) as [-> ->]. split; [now apply peval_eq|now apply pderiv_eq].
  - cbn [obind]. rewrite slice_spec by assumption. cbn [obind].
    destruct (haxis s p first (di_size s) t 0) as (v0 & d0 & -> & E0 & F0); auto; try lia; try (apply D; lia).
    destruct (haxis s p first (di_size s) t 1) as (v1 & d1 & -> & E1 & F1); auto; try lia; try (apply D; lia).
    destruct (haxis s p first (di_size s) t 2) as (v2 & d2 & -> & E2 & F2); auto; try lia; try (apply D; lia).
    cbn [obind fst snd]. eexists. split; [reflexivity|]. split; [reflexivity|]. intros a A.
    destruct a as [|[|[|a]]]; try lia; cbn [nth Nat.add]; auto.
Qed.

(** ** Readers *)
Lemma read_from_length rd w k l : read_from rd w k = Ok l -> length l = k /\ forall i, (i < k)%nat -> rd (w + N.of_nat i)%N = Some (nth i l NaN).
Proof.
  revert w l. induction k as [|k IH]; intros w l H; cbn [read_from] in H; [injection H as <-; split; [reflexivity|intros; lia]|].
  unfold read in H. destruct (rd w) as [f|] eqn:R; [|discriminate]. cbn [obind] in H. destruct (read_from rd (w + 1) k) as [r| |] eqn:F; try discriminate. cbn [obind] in H. injection H as <-.
  destruct (IH _ _ F) as [L G]. split; [cbn; now rewrite L|]. intros [|i] Hi; [now rewrite N.add_0_r|]. replace (w + N.of_nat (S i))%N with (w + 1 + N.of_nat i)%N by lia. apply G. lia.
Qed.
Lemma finite_spec l r : finite l = Some r <-> l = map Fin r.
Proof.
  split.
  - revert r. induction l as [|[q|b|] l IH]; intros r H; cbn [finite] in H; try discriminate; [injection H as <-; reflexivity|].
    destruct (finite l) as [r'|]; [|discriminate]. injection H as <-. cbn. now rewrite (IH r').
  - intros ->. induction r as [|q r IH]; [reflexivity|]. cbn [map finite]. now rewrite IH.
Qed.
Lemma increasing_nth l i j : increasing l = true -> (i < j < length l)%nat -> nth i l 0 < nth j l 0.
Proof.
  revert i j. induction l as [|a l IH]; intros i j H L; [cbn in L; lia|]. destruct l as [|b t]; [cbn in L; lia|]. cbn [increasing] in H. apply andb_true_iff in H as [H1 H2].
  destruct (qlt_spec a b) as [Hab|]; [|discriminate]. destruct j as [|j]; [lia|]. destruct i as [|i].
  - change (a < nth j (b :: t) 0). destruct j as [|j]; [exact Hab|]. eapply Qlt_trans; [exact Hab|]. apply (IH O (S j) H2). cbn [length] in *. lia.
  - apply (IH i j H2). cbn [length] in *. lia.
Qed.
Lemma usize_inv n m : usize n = Ok m -> m = n /\ (n <= usize_max)%N.
Proof. unfold usize. destruct (N.leb_spec n usize_max); [|discriminate]. intros H'. injection H' as <-. auto. Qed.
Lemma skipn_skipn' {A} (l : list A) a b : skipn a (skipn b l) = skipn (a + b) l.
Proof. revert l. induction b as [|b IH]; intros l; [now rewrite Nat.add_0_r|]. destruct l as [|x l]; [now rewrite !skipn_nil|]. rewrite Nat.add_succ_r. cbn [skipn]. apply IH. Qed.
Theorem discrete_ok words ty s : discrete_of_words words ty = Ok s -> (ty = 9 \/ ty = 13)%N ->
  usable s /\ di_type s = ty /\ exists nq dq, words = map Fin (di_states s ++ di_epochs s ++ di_directory s) ++ [Fin dq; Fin nq] /\
    N.of_nat (di_n s) = as_usize (Fin nq) /\ N.of_nat (di_size s) = (if ty =? 9 then as_usize (Fin dq) else as_usize (Fin dq) + 1)%N.
Proof.
  intros H T. unfold discrete_of_words in H.
  destruct (nth_error words (length words - 1)) as [n_f|] eqn:En; [|discriminate]. destruct (nth_error words (length words - 2)) as [d_f|] eqn:Ed; [|discriminate].
  destruct n_f as [nq| |]; try discriminate. destruct d_f as [dq| |]; try discriminate.
  destruct (qlt nq 1); [discriminate|]. destruct (qlt dq 0); [discriminate|].
  set (n := as_usize (Fin nq)) in *. set (ds := as_usize (Fin dq)) in *.
  assert (An : as_usize (Fin nq) = n) by reflexivity. assert (Ads : as_usize (Fin dq) = ds) by reflexivity. clearbody n ds.
  destruct (N.ltb_spec usize_max (n * 6)); [discriminate|].
  destruct (usize (n * 7)) as [ee| |] eqn:U1; try discriminate. cbn [obind] in H. apply usize_inv in U1 as [-> _].
  destruct (usize (n * 7 + 2)) as [ee| |] eqn:U2; try discriminate. cbn [obind] in H. apply usize_inv in U2 as [-> _].
  destruct (N.ltb_spec (N.of_nat (length words)) (n * 7 + 2)); [discriminate|].
  set (k := N.to_nat n) in *.
  destruct (finite (firstn (k * 6) words)) as [st|] eqn:F1; [|discriminate].
  destruct (finite (firstn k (skipn (k * 6) words))) as [ep|] eqn:F2; [|discriminate].
  destruct (finite (firstn (length words - 2 - k * 7) (skipn (k * 7) words))) as [dir|] eqn:F3; [|discriminate].
  apply finite_spec in F1, F2, F3. destruct (increasing ep) eqn:Inc; [|discriminate]. cbn [negb] in H.
  assert (Lst : length st = (k * 6)%nat) by (apply (f_equal (@length _)) in F1; rewrite map_length, firstn_length in F1; lia).
  assert (Lep : length ep = k) by (apply (f_equal (@length _)) in F2; rewrite map_length, firstn_length, skipn_length in F2; lia).
  assert (W : words = map Fin (st ++ ep ++ dir) ++ [Fin dq; Fin nq]).
  { rewrite !map_app, <- F1, <- F2, <- F3. rewrite <- (firstn_skipn (k * 6) words) at 1. rewrite <- !app_assoc. f_equal.
    rewrite <- (firstn_skipn k (skipn (k * 6) words)) at 1. f_equal. rewrite skipn_skipn'. replace (k + k * 6)%nat with (k * 7)%nat by lia.
    rewrite <- (firstn_skipn (length words - 2 - k * 7) (skipn (k * 7) words)) at 1. f_equal. rewrite skipn_skipn'. replace (length words - 2 - k * 7 + k * 7)%nat with (length words - 2)%nat by lia.
    assert (Lw : length (skipn (length words - 2) words) = 2%nat) by (rewrite skipn_length; lia).
    destruct (skipn (length words - 2) words) as [|x [|y [|]]] eqn:E; try discriminate.
    assert (G : forall i, nth_error words (length words - 2 + i) = nth_error [x; y] i).
    { intros i. rewrite <- E. rewrite <- (firstn_skipn (length words - 2) words) at 1. rewrite nth_error_app2; rewrite firstn_length; [|lia]. f_equal. lia. }
    pose proof (G 0%nat) as G0. pose proof (G 1%nat) as G1. rewrite Nat.add_0_r, Ed in G0. replace (length words - 2 + 1)%nat with (length words - 1)%nat in G1 by lia. rewrite En in G1. cbn in G0, G1. congruence. }
  destruct (N.eqb_spec ty 9) as [->|N9].
  - destruct (N.eqb_spec ds 0); [discriminate|]. destruct (usize (ds + 1)) as [d1| |] eqn:U3; try discriminate. cbn [obind] in H. apply usize_inv in U3 as [-> _].
    destruct ((N.of_nat k <? ds + 1) || (31 <? ds))%N eqn:C; [discriminate|]. rewrite !orb_false_iff, ?N.ltb_ge in C. injection H as <-. cbn [di_type di_n di_states di_epochs di_directory di_size]. split.
    + constructor; cbn [di_type di_n di_states di_epochs di_size]; auto; [|change (9 =? 9)%N with true; cbv iota; lia]. intros i j Hij. unfold epoch; cbn [di_epochs]. apply increasing_nth; [assumption|]. rewrite Lep. exact Hij.
    + split; [reflexivity|]. exists nq, dq. split; [exact W|]. rewrite An, Ads. split; [apply N2Nat.id|]. try change (9 =? 9)%N with true; try change (13 =? 9)%N with false; cbv iota; lia.
  - destruct T as [T|T]; [contradiction|]. subst ty. destruct (usize (ds + 1)) as [d1| |] eqn:U3; try discriminate. cbn [obind] in H. apply usize_inv in U3 as [-> _].
    destruct ((ds + 1 <? 2) || (N.of_nat k <? ds + 1) || (16 <? ds + 1))%N eqn:C; [discriminate|]. rewrite !orb_false_iff, ?N.ltb_ge in C. injection H as <-. cbn [di_type di_n di_states di_epochs di_directory di_size]. split.
    + constructor; cbn [di_type di_n di_states di_epochs di_size]; auto; [|change (13 =? 9)%N with false; cbv iota; lia]. intros i j Hij. unfold epoch; cbn [di_epochs]. apply increasing_nth; [assumption|]. rewrite Lep. exact Hij.
    + split; [reflexivity|]. exists nq, dq. split; [exact W|]. rewrite An, Ads. split; [apply N2Nat.id|]. try change (9 =? 9)%N with true; try change (13 =? 9)%N with false; cbv iota; lia.
Qed.

(** ** Chebyshev records *)
Lemma div_mul a b : 0 < b -> (a / b) * b == a.
Proof. intros H. field. lra. Qed.
Lemma locate_index c (components : N) t : cheb_ok c components -> ch_init c <= t <= edge c (ch_n c) ->
  let idx := Z.to_N (Z.max 0 (Qfloor ((t - ch_init c) / ch_intlen c))) in
  let idx := if (ch_n c <=? idx)%N then (ch_n c - 1)%N else idx in
  (idx < ch_n c)%N /\ edge c idx <= t <= edge c (idx + 1).
Proof.
  intros [Hl Hn Hs Hr] (H1 & H2). cbv zeta. unfold edge in *. set (y := (t - ch_init c) / ch_intlen c).
  assert (Y : y * ch_intlen c == t - ch_init c) by (apply div_mul; assumption).
  assert (Y0 : 0 <= y) by (apply Qle_shift_div_l; [assumption|lra]). clearbody y.
  assert (F0 : (0 <= Qfloor y)%Z) by (change 0%Z with (Qfloor 0); now apply Qfloor_resp_le).
  pose proof (Qfloor_le y) as Fl. pose proof (Qlt_floor y) as Fu. rewrite inject_Z_plus in Fu. change (inject_Z 1) with 1 in Fu.
  rewrite Z.max_r by assumption. destruct (N.leb_spec (ch_n c) (Z.to_N (Qfloor y))) as [L|L].
  - split; [lia|]. replace (ch_n c - 1 + 1)%N with (ch_n c) by lia. split; [|assumption].
    assert (X : inject_Z (Z.of_N (ch_n c - 1)) <= y) by (eapply Qle_trans; [|exact Fl]; rewrite <- Zle_Qle; lia). nra.
  - split; [assumption|]. rewrite Z2N.id by assumption. replace (Z.of_N (Z.to_N (Qfloor y) + 1)) with (Qfloor y + 1)%Z by lia. rewrite inject_Z_plus. change (inject_Z 1) with 1. split; nra.
Qed.
Theorem locate_inside c components t : cheb_ok c components -> ch_init c <= t <= edge c (ch_n c) ->
  exists idx, (idx < ch_n c)%N /\ edge c idx <= t <= edge c (idx + 1) /\
   match record_word c idx 0, record_word c idx 1 with
   | Fin m, Fin r => locate c (Fin t) = if Qle_bool r 0 then Err SegCorrupted else Ok (idx, m, r)
   | _, _ => locate c (Fin t) = Err SegCorrupted
   end.
Proof.
  intros K B. pose proof (locate_index c components t K B) as X. cbv zeta in X. unfold locate. fold (edge c (ch_n c)).
  destruct (qlt_spec t (ch_init c)); [lra|]. destruct (qlt_spec (edge c (ch_n c)) t); [lra|]. cbn [orb]. cbv zeta.
  set (idx := if (ch_n c <=? _)%N then _ else _) in *. clearbody idx. exists idx. destruct X as [I E]. split; [assumption|]. split; [assumption|].
  destruct K as [_ _ Hs Hr]. assert (L : (N.to_nat (idx * ch_rsize c) + 1 < length (ch_records c))%nat) by (rewrite Hr; nia).
  unfold record_word. rewrite (nth_error_nth' _ NaN) by lia. rewrite (nth_error_nth' (ch_records c) NaN (n := S _)) by lia.
  rewrite Nat.add_0_r, Nat.add_1_r. destruct (nth (N.to_nat (idx * ch_rsize c)) (ch_records c) NaN), (nth (S (N.to_nat (idx * ch_rsize c))) (ch_records c) NaN); try reflexivity.
  all: destruct (Qle_bool _ 0); reflexivity.
Qed.
Theorem series_regular c components t : cheb_ok c components -> regular c -> ch_init c <= t <= edge c (ch_n c) ->
  exists idx tau, (idx < ch_n c)%N /\ edge c idx <= t <= edge c (idx + 1) /\ -(1) <= tau <= 1 /\
    t == edge c idx + (tau + 1) / 2 * ch_intlen c /\
    series c (N.to_nat components) (Fin t) = Ok (tau, map (fun i => map (fun j => record_word c idx (2 + i * N.to_nat (ch_ncoeff c) + j)) (seq 0 (N.to_nat (ch_ncoeff c)))) (seq 0 (N.to_nat components))).
Proof.
  intros K R B. destruct (locate_inside c components t K B) as (idx & I & E & L). destruct (R idx I) as (m & r & Hm & Hr & Em & Er). rewrite Hm, Hr in L.
  assert (Pr := k_len c components K). destruct (qle_spec r 0) as [X|X]; [exfalso; assert (0 < ch_intlen c / 2) by (apply Qlt_shift_div_l; lra); lra|].
  assert (Hi : edge c (idx + 1) == edge c idx + ch_intlen c) by (unfold edge; replace (Z.of_N (idx + 1)) with (Z.of_N idx + 1)%Z by lia; rewrite inject_Z_plus; change (inject_Z 1) with 1; ring).
  assert (Em' : m == edge c idx + ch_intlen c / 2) by (rewrite Em, Hi; field).
  assert (Er2 : r * 2 == ch_intlen c) by (rewrite Er; field).
  assert (Tau : ((t - m) / r) * r == t - m) by (apply div_mul; lra). set (tau := (t - m) / r) in *.
  exists idx, tau. split; [assumption|]. split; [assumption|]. rewrite Hi in E. assert (Em2 : 2 * m == 2 * edge c idx + ch_intlen c) by (rewrite Em'; field).
  split; [split; nra|]. split; [transitivity (edge c idx + (tau * (r * 2) + r * 2) / 2); [|rewrite Er2; field]; transitivity (edge c idx + (tau * r + r)); [rewrite Tau; lra|field]|].
  unfold series. rewrite L. cbn [obind]. destruct K as [_ _ Hs Hrec].
  assert (Len : (N.to_nat (idx * ch_rsize c) + 2 + N.to_nat components * N.to_nat (ch_ncoeff c) <= length (ch_records c))%nat) by (rewrite Hrec, Hs; nia).
  replace (_ <=? _)%nat with true by lia. f_equal. f_equal. apply map_ext_in. intros i Hi'. apply in_seq in Hi'.
  apply (nth_ext _ _ NaN (record_word c idx 0)).
  - rewrite map_length, seq_length, firstn_length, skipn_length. nia.
  - intros j Hj. rewrite firstn_length in Hj. rewrite nth_skipn_firstn by lia.
    assert (Hj' : (j < N.to_nat (ch_ncoeff c))%nat) by lia.
    rewrite (nth_indep _ (record_word c idx 0) (record_word c idx (2 + i * N.to_nat (ch_ncoeff c) + 0))) by (rewrite map_length, seq_length; lia).
    rewrite (map_nth (fun j => record_word c idx (2 + i * N.to_nat (ch_ncoeff c) + j)) _ O). rewrite seq_nth by lia. unfold record_word. f_equal. lia.
Qed.
Theorem locate_outside c t : ~ (ch_init c <= t <= edge c (ch_n c)) -> locate c (Fin t) = Err SegCoverage.
Proof.
  intros H. unfold locate. fold (edge c (ch_n c)). destruct (qlt_spec t (ch_init c)); [reflexivity|]. destruct (qlt_spec (edge c (ch_n c)) t); [reflexivity|]. exfalso. apply H. lra.
Qed.
Theorem cheb_read rd a b components c : (components = 3 \/ components = 6)%N -> read_chebyshev rd a b components = Ok c ->
  cheb_ok c components /\ (forall w, (w < N.to_nat (ch_n c * ch_rsize c))%nat -> rd (a + N.of_nat w)%N = Some (nth w (ch_records c) NaN)) /\
  rd (b - 3)%N = Some (Fin (ch_init c)) /\ rd (b - 2)%N = Some (Fin (ch_intlen c)) /\ (a + ch_n c * ch_rsize c <= b + 1)%N.
Proof.
  intros C H. unfold read_chebyshev in H. destruct (N.ltb_spec b 4); [discriminate|].
  unfold read in H. destruct (rd b) as [nf|]; [|discriminate]. cbn [obind] in H. destruct (rd (b - 1)%N) as [rf|]; [|discriminate]. cbn [obind] in H.
  destruct (rd (b - 2)%N) as [il|] eqn:E2; [|discriminate]. cbn [obind] in H. destruct (rd (b - 3)%N) as [i0|] eqn:E3; [|discriminate]. cbn [obind] in H.
  destruct ((5 <=? as_usize rf) && (as_usize rf <=? 4096))%N eqn:R; [|discriminate]. cbn [negb] in H.
  destruct (N.eqb_spec ((as_usize rf - 2) mod components) 0) as [M|]; [|discriminate]. cbn [negb] in H.
  destruct ((as_usize nf =? 0) || (10000000 <? as_usize nf))%N eqn:Nn; [discriminate|].
  destruct il as [il| |], i0 as [i0| |]; try discriminate. destruct (qle_spec il 0); [discriminate|].
  destruct (usize (a + as_usize nf * as_usize rf)) as [l| |] eqn:U; try discriminate. cbn [obind] in H. apply usize_inv in U as [-> _].
  destruct (N.ltb_spec b (a + as_usize nf * as_usize rf - 1)); [discriminate|].
  destruct (read_from rd a (N.to_nat (as_usize nf * as_usize rf))) as [recs| |] eqn:F; try discriminate. cbn [obind] in H. injection H as <-.
  destruct (read_from_length _ _ _ _ F) as [Lr G]. cbn [ch_init ch_intlen ch_rsize ch_ncoeff ch_n ch_records]. split; [constructor; cbn [ch_init ch_intlen ch_rsize ch_ncoeff ch_n ch_records]; [lra|lia| |assumption]|].
  - destruct C as [->| ->]; Z.div_mod_to_equations; nia.
  - split; [intros w W; now apply G|]. repeat split; auto. nia.
Qed.
