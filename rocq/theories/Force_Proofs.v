From Coq Require Import List Reals Lra Bool Lia.
From Verif Require Import Base Mat3 Ang Geom_Model Geom_Proofs Force_Model.
Import ListNotations.
Local Open Scope R_scope.

(** * Third bodies *)
Lemma pow15_sq x : 0 <= x -> pow15 x * pow15 x = x * x * x.
Proof. intros H. unfold pow15. pose proof (sqrt_sqrt x H). transitivity (x * x * (sqrt x * sqrt x)); [ring|rewrite H0; ring]. Qed.
Lemma pow15_pos x : 0 <= x -> 0 <= pow15 x.
Proof. intros H. unfold pow15. apply Rmult_le_pos; [exact H|apply sqrt_pos]. Qed.
Lemma fq_eq q : 0 <= 1 + q -> q * (3 + q * (3 + q)) / (1 + pow15 (1 + q)) = pow15 (1 + q) - 1.
Proof.
  intros H. pose proof (pow15_sq _ H) as S2. pose proof (pow15_pos _ H) as P. set (w := pow15 (1 + q)) in *.
  apply (Rmult_eq_reg_r (1 + w)); [|lra]. unfold Rdiv. rewrite Rmult_assoc, Rinv_l, Rmult_1_r by lra.
  transitivity (w * w - 1); [rewrite S2; ring|ring].
Qed.
Lemma vminus_zero u v : vminus u v = (0, 0, 0) -> u = v.
Proof. destruct u as ((a, b), c), v as ((x, y), z). cbn. intros [= A B C]. apply vec_eq; lra. Qed.
Lemma vminus_self u : vminus u u = (0, 0, 0).
Proof. destruct u as ((a, b), c). cbn. apply vec_eq; ring. Qed.
Lemma norm_minus u v : norm (vminus u v) = norm (vminus v u).
Proof. unfold norm. f_equal. destruct u as ((a, b), c), v as ((x, y), z). cbn. ring. Qed.
Lemma battin_eq rs rb mu : rb <> (0, 0, 0) -> rs <> rb ->
  battin rs rb mu = vminus (scale (mu / norm (vminus rb rs) ^ 3) (vminus rb rs)) (scale (mu / norm rb ^ 3) rb).
Proof.
  intros B D. unfold battin. fold (norm rb). pose proof (norm_pos rb B) as Pb.
  destruct (reqb_r (norm rb) 0) as [Z|_]; [lra|].
  assert (Dn : vminus rb rs <> (0, 0, 0)) by (intros E; apply D; symmetry; now apply vminus_zero).
  pose proof (norm_pos _ Dn) as Pd. pose proof (norm_sq rb) as Sb. pose proof (norm_sq (vminus rb rs)) as Sd.
  destruct rs as ((x, y), z), rb as ((bx, by_), bz). set (nb := norm (bx, by_, bz)) in *. set (nd := norm (vminus (bx, by_, bz) (x, y, z))) in *.
  rewrite <- Sb. set (q := (x * (x - 2 * bx) + y * (y - 2 * by_) + z * (z - 2 * bz)) / (nb * nb)).
  assert (Q : 1 + q = (nd / nb) * (nd / nb)).
  { unfold q. replace ((nd / nb) * (nd / nb)) with ((nd * nd) / (nb * nb)) by (field; lra). rewrite Sd. cbn in Sb. cbn.
    apply (Rmult_eq_reg_r (nb * nb)); [|nra]. field_simplify; [|lra|lra]. rewrite <- !Rsqr_pow2. unfold Rsqr. rewrite Sb. ring. }
  assert (Pr : 0 < nd / nb) by (apply Rdiv_lt_0_compat; assumption).
  assert (Q0 : 0 <= 1 + q) by (rewrite Q; nra).
  rewrite (fq_eq q Q0). assert (W : pow15 (1 + q) = (nd / nb) ^ 3).
  { rewrite Q. unfold pow15. rewrite sqrt_square by lra. ring. }
  rewrite W. replace (nb * (nb * nb) * (1 + ((nd / nb) ^ 3 - 1))) with (nd ^ 3) by (field; lra).
  assert (P3 : 0 < nd ^ 3) by (apply pow_lt; exact Pd).
  destruct (reqb_r (nd ^ 3) 0) as [Z|_]; [lra|]. cbn [vminus scale]. apply vec_eq; field; split; lra.
Qed.
Lemma battin_coincident rb mu : battin rb rb mu = (0, 0, 0).
Proof.
  unfold battin. destruct (reqb_r (sqrt (dot3 rb rb)) 0) as [Z|N]; [reflexivity|]. destruct rb as ((x, y), z). cbn [dot3] in *.
  set (d := x * x + y * y + z * z) in *. assert (Dn : d <> 0). { intros E. apply N. rewrite E. apply sqrt_0. }
  replace ((x * (x - 2 * x) + y * (y - 2 * y) + z * (z - 2 * z)) / d) with (-1). 2: { apply (Rmult_eq_reg_r d); [|exact Dn]. unfold Rdiv. rewrite Rmult_assoc, Rinv_l by exact Dn. unfold d. ring. }
  rewrite (fq_eq (-1)) by lra. unfold pow15. replace (1 + -1) with 0 by ring. rewrite sqrt_0. 
  replace (sqrt d * d * (1 + (0 * 0 - 1))) with 0 by ring. destruct (reqb_r 0 0); [reflexivity|contradiction].
Qed.

(** * Discs *)
Lemma partial_lens rs re th : 0 < rs -> 0 < re -> 0 < th -> partial_factor rs re th = clamp 0 1 (1 - lens rs re th / (PI * rs * rs)).
Proof.
  intros A B C. unfold partial_factor, lens. cbv zeta. do 4 f_equal.
  - f_equal; [f_equal; f_equal; f_equal; field; lra|f_equal; f_equal; f_equal; field; lra].
  - unfold Rdiv. rewrite Rmult_1_l, Rmult_comm. f_equal. f_equal. f_equal. ring.
Qed.
Lemma asin_pos x : 0 < x <= 1 -> 0 < asin x <= PI / 2.
Proof.
  intros H. pose proof (asin_bound x). split; [|lra]. destruct (Rlt_le_dec 0 (asin x)) as [L|L]; [exact L|exfalso].
  pose proof (sin_asin x ltac:(lra)) as E. pose proof (sin_le_0 (- asin x)) as Q. assert (0 <= sin (- asin x)) by (apply sin_ge_0; lra). rewrite sin_neg in *. lra.
Qed.
Lemma Rmin_pos x : 0 < x -> 0 < Rmin x 1 <= 1.
Proof. intros H. unfold Rmin. destruct (Rle_dec x 1); lra. Qed.
Lemma disc_range rs re th : 0 < rs -> 0 < re -> 0 <= th -> 0 <= disc_factor rs re th <= 1.
Proof.
  intros A B C. unfold disc_factor. destruct (rleb_r (rs + re) th); [lra|].
  destruct (rleb_r rs re), (rleb_r th (re - rs)); cbn [andb]; try lra; destruct (rltb_r re rs), (rleb_r th (rs - re)); cbn [andb]; try lra;
    try (apply clamp_range; lra).
  assert (0 < re / rs < 1). { split; [now apply Rdiv_lt_0_compat|]. apply (Rmult_lt_reg_r rs); [assumption|]. unfold Rdiv. rewrite Rmult_assoc, Rinv_l by lra. lra. }
  split; nra.
Qed.

(** * Density *)
Lemma exp_le' x y : x <= y -> exp x <= exp y. Proof. intros [H| ->]; [left; now apply exp_increasing|lra]. Qed.
(** altitudes rise, densities are positive and fall *)
Inductive falling : list (R * R) -> Prop :=
  | falling_one h r : 0 < r -> falling [(h, r)]
  | falling_more h1 r1 h2 r2 t : h1 < h2 -> r2 < r1 -> falling ((h2, r2) :: t) -> falling ((h1, r1) :: (h2, r2) :: t).
Lemma falling_inv h1 r1 h2 r2 t : falling ((h1, r1) :: (h2, r2) :: t) -> h1 < h2 /\ r2 < r1 /\ falling ((h2, r2) :: t).
Proof. inversion 1; subst; auto. Qed.
Lemma falling_pos h r t : falling ((h, r) :: t) -> 0 < r.
Proof. revert h r. induction t as [|(h2, r2) t IH]; intros h r H; [now inversion H|]. destruct (falling_inv _ _ _ _ _ H) as (_ & A & B). specialize (IH _ _ B). lra. Qed.
Lemma falling_least t : forall h2 r2 k v, falling ((h2, r2) :: t) -> In (k, v) ((h2, r2) :: t) -> h2 <= k.
Proof.
  induction t as [|(h3, r3) t IH]; intros h2 r2 k v F [E|I]; try (injection E as <- <-; lra); [contradiction|].
  destruct (falling_inv _ _ _ _ _ F) as (A & _ & B). specialize (IH _ _ _ _ B I). lra.
Qed.
Lemma bracket_anti h1 r1 h2 r2 h h' : h1 < h2 -> 0 < r2 < r1 -> h <= h' -> bracket (h1, r1) (h2, r2) h' <= bracket (h1, r1) (h2, r2) h.
Proof.
  intros A B C. unfold bracket. apply exp_le'. pose proof (ln_increasing r2 r1 ltac:(lra) ltac:(lra)) as L.
  assert (I : 0 < / (h2 - h1)) by (apply Rinv_0_lt_compat; lra).
  assert ((h - h1) / (h2 - h1) <= (h' - h1) / (h2 - h1)) by (unfold Rdiv; apply Rmult_le_compat_r; lra). nra.
Qed.
Lemma bracket_left h1 r1 h2 r2 : h1 < h2 -> 0 < r1 -> bracket (h1, r1) (h2, r2) h1 = r1.
Proof. intros A B. unfold bracket. replace ((h1 - h1) / (h2 - h1)) with 0 by (field; lra). rewrite Rmult_0_l, Rplus_0_r. now apply exp_ln. Qed.
Lemma bracket_right h1 r1 h2 r2 : h1 < h2 -> 0 < r2 -> bracket (h1, r1) (h2, r2) h2 = r2.
Proof. intros A B. unfold bracket. replace ((h2 - h1) / (h2 - h1)) with 1 by (field; lra). replace (ln r1 + 1 * (ln r2 - ln r1)) with (ln r2) by ring. now apply exp_ln. Qed.
Lemma bracket_pos e1 e2 h : 0 < bracket e1 e2 h.
Proof. destruct e1, e2. apply exp_pos. Qed.
Lemma bracket_bounds h1 r1 h2 r2 h : h1 < h2 -> 0 < r2 < r1 -> h1 <= h <= h2 -> r2 <= bracket (h1, r1) (h2, r2) h <= r1.
Proof.
  intros A B C. pose proof (bracket_right h1 r1 h2 r2 A ltac:(lra)) as Q. pose proof (bracket_left h1 r1 h2 r2 A ltac:(lra)) as P.
  pose proof (bracket_anti h1 r1 h2 r2 h h2 A B ltac:(lra)). pose proof (bracket_anti h1 r1 h2 r2 h1 h A B ltac:(lra)). lra.
Qed.
Lemma scan_cons h1 r1 h2 r2 t h : scan ((h1, r1) :: (h2, r2) :: t) h = if rleb h1 h && rleb h h2 then bracket (h1, r1) (h2, r2) h else scan ((h2, r2) :: t) h.
Proof. reflexivity. Qed.
Lemma scan_upper t : forall h0 r0 h, falling ((h0, r0) :: t) -> h0 <= h -> scan ((h0, r0) :: t) h <= r0.
Proof.
  induction t as [|(h2, r2) t IH]; intros h0 r0 h F L; [cbn; lra|]. destruct (falling_inv _ _ _ _ _ F) as (Fh & Fr & H5). pose proof (falling_pos _ _ _ H5). rewrite ?scan_cons.
  destruct (rleb_r h0 h), (rleb_r h h2); cbn [andb]; try lra.
  - apply bracket_bounds; lra.
  - specialize (IH h2 r2 h H5 ltac:(lra)). lra.
Qed.
Lemma scan_lower t : forall h0 r0 h, falling ((h0, r0) :: t) -> snd (last t (h0, r0)) <= scan ((h0, r0) :: t) h.
Proof.
  induction t as [|(h2, r2) t IH]; intros h0 r0 h F; [cbn; lra|]. destruct (falling_inv _ _ _ _ _ F) as (Fh & Fr & H5). pose proof (falling_pos _ _ _ H5). rewrite ?scan_cons.
  replace (last ((h2, r2) :: t) (h0, r0)) with (last t (h2, r2)) by (clear; revert h2 r2 h0 r0; induction t as [|e t IH]; intros; [reflexivity|destruct t; [reflexivity|destruct e; exact (IH _ _ _ _)]]).
  pose proof (IH h2 r2) as Q. destruct (rleb_r h0 h), (rleb_r h h2); cbn [andb]; try (now apply Q).
  pose proof (bracket_bounds h0 r0 h2 r2 h ltac:(lra) ltac:(lra) ltac:(lra)). pose proof (Q h2 H5). pose proof (scan_upper t h2 r2 h2 H5 ltac:(lra)). lra.
Qed.
Lemma scan_anti t : forall h0 r0 h h', falling ((h0, r0) :: t) -> h0 <= h -> h <= h' -> scan ((h0, r0) :: t) h' <= scan ((h0, r0) :: t) h.
Proof.
  induction t as [|(h2, r2) t IH]; intros h0 r0 h h' F L L'; [cbn; lra|]. destruct (falling_inv _ _ _ _ _ F) as (Fh & Fr & H5). pose proof (falling_pos _ _ _ H5). rewrite ?scan_cons.
  destruct (rleb_r h0 h); [|lra]. destruct (rleb_r h0 h'); [|lra]. destruct (rleb_r h h2), (rleb_r h' h2); cbn [andb]; try lra.
  - apply bracket_anti; lra.
  - pose proof (bracket_bounds h0 r0 h2 r2 h ltac:(lra) ltac:(lra) ltac:(lra)). pose proof (scan_upper t h2 r2 h' H5 ltac:(lra)). lra.
  - apply IH; [assumption|lra|lra].
Qed.
(** the node values *)
Lemma scan_node t : forall h0 r0 h r, falling ((h0, r0) :: t) -> In (h, r) ((h0, r0) :: t) -> t <> [] -> scan ((h0, r0) :: t) h = r.
Proof.
  induction t as [|(h2, r2) t IH]; intros h0 r0 h r F I N; [contradiction|]. destruct (falling_inv _ _ _ _ _ F) as (Fh & Fr & H5). pose proof (falling_pos _ _ _ H5) as P2. rewrite ?scan_cons.
  pose proof (fun k v I => falling_least t h2 r2 k v H5 I) as G.
  destruct I as [E|I].
  - injection E as <- <-. destruct (rleb_r h0 h0); [|lra]. destruct (rleb_r h0 h2); [|lra]. cbn [andb]. apply bracket_left; lra.
  - pose proof (G _ _ I). destruct (rleb_r h0 h); [|lra]. destruct (rleb_r h h2) as [L|L]; cbn [andb].
    + assert (h = h2) by lra. subst. assert (r = r2).
      { destruct I as [E|I]; [now injection E|]. exfalso. destruct t as [|(h3, r3) t]; [contradiction|]. destruct (falling_inv _ _ _ _ _ H5) as (A & _ & B). pose proof (falling_least _ _ _ _ _ B I). lra. }
      subst. apply bracket_right; lra.
    + destruct t as [|e t]; [destruct I as [E|[]]; injection E as -> ->; lra|]. apply IH; [assumption|assumption|discriminate].
Qed.
Lemma falling_tail l : forall e t, falling (l ++ e :: t) -> falling (e :: t).
Proof. induction l as [|(a, b) l IH]; intros e t F; [exact F|]. apply IH. destruct l as [|(c, d) l], e; cbn in F; now apply falling_inv in F. Qed.
Lemma table_end {A} (t : list A) e1 e2 rest : rev t = e2 :: e1 :: rest -> t = rev rest ++ [e1; e2].
Proof. intros H. rewrite <- (rev_involutive t), H. cbn. now rewrite <- app_assoc. Qed.
Lemma interpolate_pos table h : falling table -> (2 <= length table)%nat -> 0 < interpolate table h.
Proof.
  intros F L. unfold interpolate. destruct table as [|(h0, r0) t]; [cbn in L; lia|]. pose proof (falling_pos _ _ _ F) as P0.
  destruct (rev ((h0, r0) :: t)) as [|(hn, rn) [|(hm, rm) rest]] eqn:E.
  - apply (f_equal (@length _)) in E. rewrite rev_length in E. cbn in *; lia.
  - apply (f_equal (@length _)) in E. rewrite rev_length in E. cbn in *; lia.
  - destruct (rleb_r h h0); [exact P0|]. destruct (rleb_r hn h); [apply bracket_pos|].
    apply Rlt_le_trans with (2 := scan_lower t h0 r0 h F). assert (F' := F). rewrite (table_end _ _ _ _ E) in F'.
    change ([(hm, rm); (hn, rn)]) with ([(hm, rm)] ++ [(hn, rn)]) in F'. rewrite app_assoc in F'. pose proof (falling_pos _ _ _ (falling_tail _ _ _ F')).
    enough (last t (h0, r0) = (hn, rn)) as -> by assumption. 
    assert (Q : last ((h0, r0) :: t) (h0, r0) = (hn, rn)). { rewrite (table_end _ _ _ _ E). change ([(hm, rm); (hn, rn)]) with ([(hm, rm)] ++ [(hn, rn)]). rewrite app_assoc. apply last_last. }
    destruct t; exact Q.
Qed.
Lemma interpolate_anti table h h' : falling table -> (2 <= length table)%nat -> h <= h' -> interpolate table h' <= interpolate table h.
Proof.
  intros F L LH. unfold interpolate. destruct table as [|(h0, r0) t]; [cbn in L; lia|]. pose proof (falling_pos _ _ _ F) as P0.
  destruct (rev ((h0, r0) :: t)) as [|(hn, rn) [|(hm, rm) rest]] eqn:E.
  - lra.
  - lra.
  - assert (F' := F). rewrite (table_end _ _ _ _ E) in F'. apply falling_tail in F'. destruct (falling_inv _ _ _ _ _ F') as (Hh & Hr & F2). pose proof (falling_pos _ _ _ F2) as Pn.
    assert (Q : last t (h0, r0) = (hn, rn)).
    { assert (Q : last ((h0, r0) :: t) (h0, r0) = (hn, rn)). { rewrite (table_end _ _ _ _ E). change ([(hm, rm); (hn, rn)]) with ([(hm, rm)] ++ [(hn, rn)]). rewrite app_assoc. apply last_last. }
      destruct t; exact Q. }
    assert (Lo : forall k, rn <= scan ((h0, r0) :: t) k) by (intros k; pose proof (scan_lower t h0 r0 k F) as W; rewrite Q in W; exact W).
    assert (Hi : forall k, h0 <= k -> scan ((h0, r0) :: t) k <= r0) by (intros k K; now apply scan_upper).
    pose proof (bracket_right hm rm hn rn Hh Pn) as Br.
    assert (T : forall k, hn <= k -> bracket (hm, rm) (hn, rn) k <= rn) by (intros k K; pose proof (bracket_anti hm rm hn rn hn k Hh ltac:(lra) K); lra).
    destruct (rleb_r h h0), (rleb_r h' h0), (rleb_r hn h), (rleb_r hn h'); try lra;
      try (apply bracket_anti; lra); try (apply scan_anti; [exact F|lra|lra]);
      try (apply Hi; lra); try (pose proof (T h' ltac:(lra)); pose proof (Lo h); lra); pose proof (T h' ltac:(lra)); pose proof (Hi h0 ltac:(lra)); pose proof (Lo h0); lra.
Qed.
Lemma interpolate_node table h r : falling table -> (2 <= length table)%nat -> In (h, r) table -> interpolate table h = r.
Proof.
  intros F L I. unfold interpolate. destruct table as [|(h0, r0) t]; [cbn in L; lia|]. pose proof (falling_pos _ _ _ F) as P0.
  destruct (rev ((h0, r0) :: t)) as [|(hn, rn) [|(hm, rm) rest]] eqn:E.
  - apply (f_equal (@length _)) in E. rewrite rev_length in E. cbn in *; lia.
  - apply (f_equal (@length _)) in E. rewrite rev_length in E. cbn in *; lia.
  - assert (F' := F). rewrite (table_end _ _ _ _ E) in F'. apply falling_tail in F'. destruct (falling_inv _ _ _ _ _ F') as (Hh & Hr & F2). pose proof (falling_pos _ _ _ F2) as Pn.
    assert (N : t <> []) by (destruct t; [cbn in L; lia|discriminate]). pose proof (scan_node t h0 r0 h r F I N) as Sn.
    destruct (rleb_r h h0) as [A|A].
    + pose proof (falling_least _ _ _ _ _ F I). assert (E0 : h = h0) by lra. rewrite E0 in Sn. rewrite <- Sn. symmetry. apply scan_node; [exact F|now left|exact N].
    + destruct (rleb_r hn h) as [B|B]; [|exact Sn].
      assert (M : forall l k v, falling (l ++ [(hn, rn)]) -> In (k, v) (l ++ [(hn, rn)]) -> hn <= k -> (k, v) = (hn, rn)).
      { clear. induction l as [|(a, b) l IH]; intros k v F I K; [destruct I as [<-|[]]; reflexivity|]. destruct I as [J|I].
        - injection J as <- <-. assert (a < hn); [|lra]. clear -F. revert a b F. induction l as [|(c, d) l IH]; intros a b F; [apply falling_inv in F; tauto|].
          cbn in F. apply falling_inv in F. destruct F as (X & _ & Y). specialize (IH _ _ Y). lra.
        - apply IH; [|exact I|exact K]. change (((a, b) :: l) ++ [(hn, rn)]) with ([(a, b)] ++ (l ++ [(hn, rn)])) in F. destruct (l ++ [(hn, rn)]) eqn:Z; [destruct l; discriminate|]. now apply falling_tail in F. }
      assert (Z : (h0, r0) :: t = (rev rest ++ [(hm, rm)]) ++ [(hn, rn)]) by (rewrite (table_end _ _ _ _ E), <- app_assoc; reflexivity).
      rewrite Z in F, I. specialize (M _ _ _ F I B). injection M as -> ->. apply bracket_right; assumption.
Qed.

(** * Geodetic height *)
Section Bowring.
  Variables a f : R.
  Hypothesis A : 0 < a.
  Hypothesis F : 0 <= f < 1.
  Let e2 := 2 * f - f * f.
  Let b := a * (1 - f).
  Let ep2 := (a * a - b * b) / (b * b).
  Definition w phi := sqrt (1 - (2 * f - f * f) * sin phi * sin phi).
  Lemma w_sq phi : w phi * w phi = 1 - (2 * f - f * f) * sin phi * sin phi /\ 0 < w phi.
  Proof.
    pose proof (sc phi). assert (P : 0 < 1 - (2 * f - f * f) * sin phi * sin phi).
    { assert (0 < (1 - f) * (1 - f)) by nra. assert (0 <= sin phi * sin phi) by nra. assert (0 <= cos phi * cos phi) by nra. assert (0 <= 2 * f - f * f) by nra.
      assert ((2 * f - f * f) * (sin phi * sin phi) <= (2 * f - f * f) * 1) by (apply Rmult_le_compat_l; lra). nra. }
    unfold w. split; [apply sqrt_sqrt; lra|now apply sqrt_lt_R0].
  Qed.
  (** east-west and north-south radii of curvature *)
  Definition east_radius phi := a / w phi.
  Definition north_radius phi := a * (1 - (2 * f - f * f)) / w phi ^ 3.
  Lemma atan2_scale k phi : 0 < k -> - PI < phi <= PI -> atan2 (k * sin phi) (k * cos phi) = phi.
  Proof.
    intros K B. assert (N : k * cos phi <> 0 \/ k * sin phi <> 0).
    { destruct (Req_dec (cos phi) 0) as [Z|Z]; [right|left; apply Rmult_integral_contrapositive; lra]. pose proof (sc phi) as T. rewrite Z in T. intros Q. apply Rmult_integral in Q. destruct Q as [Q|Q]; [lra|rewrite Q in T; lra]. }
    destruct (atan2_polar (k * sin phi) (k * cos phi) N) as (X & Y).
    assert (R : sqrt ((k * cos phi)² + (k * sin phi)²) = k).
    { replace ((k * cos phi)² + (k * sin phi)²) with (k * k). 2: { unfold Rsqr. transitivity (k * k * (sin phi * sin phi + cos phi * cos phi)); [rewrite sc; ring|ring]. } apply sqrt_square; lra. }
    rewrite R in X, Y. apply Rmult_eq_reg_l in X; [|lra]. apply Rmult_eq_reg_l in Y; [|lra]. pose proof (atan2_range (k * sin phi) (k * cos phi)).
    apply angle_unique; [|assumption|assumption]. apply Rabs_def1; lra.
  Qed.
  Lemma reduced phi : - PI / 2 <= phi <= PI / 2 -> let beta := atan2 ((1 - f) * sin phi) (cos phi) in
    w phi * cos beta = cos phi /\ w phi * sin beta = (1 - f) * sin phi.
  Proof.
    intros B beta. destruct (w_sq phi) as (W & Wp). pose proof (sc phi) as T.
    assert (N : cos phi <> 0 \/ (1 - f) * sin phi <> 0).
    { destruct (Req_dec (cos phi) 0) as [Z|Z]; [right|now left]. intros Q. apply Rmult_integral in Q. rewrite Z in T. destruct Q as [Q|Q]; [lra|rewrite Q in T; lra]. }
    destruct (atan2_polar ((1 - f) * sin phi) (cos phi) N) as (X & Y). fold beta in X, Y.
    assert (R : sqrt ((cos phi)² + ((1 - f) * sin phi)²) = w phi). { unfold w. f_equal. unfold Rsqr. replace (cos phi * cos phi) with (1 - sin phi * sin phi) by lra. ring. }
    rewrite R in X, Y. tauto.
  Qed.
  (** a point of geodetic latitude phi and height h, in the meridian plane *)
  Definition axis_distance phi h := (east_radius phi + h) * cos phi.
  Definition above_equator phi h := (east_radius phi * (1 - (2 * f - f * f)) + h) * sin phi.
  Lemma pieces phi h beta : w phi * cos beta = cos phi -> w phi * sin beta = (1 - f) * sin phi ->
    axis_distance phi h - e2 * a * cos beta ^ 3 = (north_radius phi + h) * cos phi /\
    above_equator phi h + ep2 * b * sin beta ^ 3 = (north_radius phi + h) * sin phi.
  Proof.
    intros C S'. destruct (w_sq phi) as (W & Wp). pose proof (sc phi) as T.
    assert (Cb : cos beta = cos phi / w phi) by (rewrite <- C; field; lra). assert (Sb : sin beta = (1 - f) * sin phi / w phi) by (rewrite <- S'; field; lra).
    rewrite Cb, Sb. unfold axis_distance, above_equator, east_radius, north_radius, ep2, b, e2. split.
    - apply (Rmult_eq_reg_r (w phi ^ 3)); [|apply pow_nonzero; lra].
      transitivity (cos phi * (a * (w phi * w phi - (2 * f - f * f) * (cos phi * cos phi)) + h * w phi ^ 3)); [field; lra|]. rewrite W.
      replace (cos phi * cos phi) with (1 - sin phi * sin phi) by lra. field. lra.
    - apply (Rmult_eq_reg_r (w phi ^ 3)); [|apply pow_nonzero; lra].
      transitivity (sin phi * (a * (1 - (2 * f - f * f)) * (w phi * w phi + (2 * f - f * f) * (sin phi * sin phi)) + h * w phi ^ 3)). 2: { rewrite W. field. lra. }
      field. split; [lra|split; nra].
  Qed.
  Lemma bowring_exact phi h : - PI / 2 <= phi <= PI / 2 -> 0 < north_radius phi + h -> let beta := atan2 ((1 - f) * sin phi) (cos phi) in
    bowring_phi a f (axis_distance phi h) (above_equator phi h) beta = phi /\ bowring_step a f (axis_distance phi h) (above_equator phi h) beta = beta.
  Proof.
    intros B K beta. destruct (reduced phi B) as (C & S'). fold beta in C, S'. destruct (pieces phi h beta C S') as (P & Q).
    assert (E : bowring_phi a f (axis_distance phi h) (above_equator phi h) beta = phi).
    { unfold bowring_phi. cbv zeta. fold e2 b ep2. rewrite P, Q. pose proof PI_RGT_0. apply atan2_scale; [exact K|lra]. }
    split; [exact E|]. unfold bowring_step. rewrite E. reflexivity.
  Qed.
  (** conversely, an iterate that does not move gives a latitude and a height that put the point back where it is *)
  Lemma bowring_converged p z beta : bowring_step a f p z beta = beta -> let phi := bowring_phi a f p z beta in - PI / 2 <= phi <= PI / 2 ->
    (p - e2 * a * cos beta ^ 3 <> 0 \/ z + ep2 * b * sin beta ^ 3 <> 0) ->
    exists h, p = axis_distance phi h /\ z = above_equator phi h.
  Proof.
    intros S' phi B N. assert (Eb : beta = atan2 ((1 - f) * sin phi) (cos phi)) by (rewrite <- S' at 1; reflexivity).
    destruct (reduced phi B) as (C & Sb). rewrite <- Eb in C, Sb.
    destruct (atan2_polar (z + ep2 * b * sin beta ^ 3) (p - e2 * a * cos beta ^ 3) N) as (X & Y).
    change (atan2 (z + ep2 * b * sin beta ^ 3) (p - e2 * a * cos beta ^ 3)) with phi in X, Y. set (k := sqrt _) in X, Y.
    exists (k - north_radius phi). destruct (pieces phi (k - north_radius phi) beta C Sb) as (P & Q). split.
    - apply (Rplus_eq_reg_r (- (e2 * a * cos beta ^ 3))). transitivity (k * cos phi); [rewrite X; ring|]. unfold Rminus in P at 1. rewrite P. ring.
    - apply (Rplus_eq_reg_r (ep2 * b * sin beta ^ 3)). rewrite Q. rewrite <- Y. ring.
  Qed.
End Bowring.

Lemma atan2_homog k y x : 0 < k -> x <> 0 \/ y <> 0 -> atan2 (k * y) (k * x) = atan2 y x.
Proof.
  intros K N. destruct (atan2_polar y x N) as (X & Y). set (r := sqrt (x² + y²)) in *. assert (R : 0 < r) by now apply hyp_pos.
  rewrite <- X at 1. rewrite <- Y at 1. rewrite <- !Rmult_assoc. pose proof (atan2_range y x). apply atan2_scale; [nra|lra].
Qed.
(** the Earth-fixed point of geodetic longitude, latitude and height *)
Definition geodetic_point (a f lon phi h : R) : vec := (axis_distance a f phi h * cos lon, axis_distance a f phi h * sin lon, above_equator a f phi h).
Lemma height_exact a f lon phi h : 0 < a -> 0 <= f < 1 -> - PI / 2 <= phi <= PI / 2 -> 0 < east_radius a f phi * (1 - (2 * f - f * f)) + h ->
  h = 0 \/ phi = 0 \/ cos phi = 0 -> geodetic_altitude a f (geodetic_point a f lon phi h) = h.
Proof.
  intros A F B H D. pose proof (w_sq f F phi) as (W & Wp). pose proof (sc phi) as T. pose proof PI_RGT_0 as PP.
  assert (E1 : 0 < 1 - (2 * f - f * f)) by nra. assert (N : 0 < east_radius a f phi) by (now apply Rdiv_lt_0_compat).
  assert (C : 0 <= cos phi) by (apply cos_ge_0; lra).
  assert (W1 : w f phi <= 1). { assert (0 <= 2 * f - f * f) by nra. assert (0 <= (2 * f - f * f) * (sin phi * sin phi)) by (apply Rmult_le_pos; nra). apply Rnot_lt_le. intros L. nra. }
  assert (K : 0 < north_radius a f phi + h).
  { enough (east_radius a f phi * (1 - (2 * f - f * f)) <= north_radius a f phi) by lra. unfold east_radius, north_radius.
    apply (Rmult_le_reg_r (w f phi ^ 3)); [now apply pow_lt|]. replace (a / w f phi * (1 - (2 * f - f * f)) * w f phi ^ 3) with (a * (1 - (2 * f - f * f)) * (w f phi * w f phi)) by (field; lra).
    replace (a * (1 - (2 * f - f * f)) / w f phi ^ 3 * w f phi ^ 3) with (a * (1 - (2 * f - f * f)) * 1) by (field; lra). apply Rmult_le_compat_l; nra. }
  assert (Ax : 0 <= axis_distance a f phi h).
  { unfold axis_distance. apply Rmult_le_pos; [|exact C]. assert (east_radius a f phi * (1 - (2 * f - f * f)) <= east_radius a f phi * 1) by (apply Rmult_le_compat_l; nra). lra. }
  unfold geodetic_altitude, geodetic_point. cbv zeta.
  replace (sqrt (_ + _)) with (axis_distance a f phi h).
  2: { symmetry. transitivity (sqrt (axis_distance a f phi h * axis_distance a f phi h)); [f_equal|now apply sqrt_square].
       transitivity (axis_distance a f phi h * axis_distance a f phi h * (sin lon * sin lon + cos lon * cos lon)); [ring|rewrite sc; ring]. }
  assert (I : atan2 (above_equator a f phi h * a) (axis_distance a f phi h * (a * (1 - f))) = atan2 ((1 - f) * sin phi) (cos phi)).
  { assert (Nz : cos phi <> 0 \/ (1 - f) * sin phi <> 0).
    { destruct (Req_dec (cos phi) 0) as [Z|Z]; [right|now left]. intros Q. apply Rmult_integral in Q. rewrite Z in T. destruct Q as [Q|Q]; [lra|rewrite Q in T; lra]. }
    assert (exists k, 0 < k /\ above_equator a f phi h * a = k * ((1 - f) * sin phi) /\ axis_distance a f phi h * (a * (1 - f)) = k * cos phi) as (k & Kp & -> & ->).
    { unfold above_equator, axis_distance. destruct D as [-> | [-> | Z]].
      - exists (east_radius a f phi * a * (1 - f)). repeat split; [|ring|ring]. apply Rmult_lt_0_compat; [nra|lra].
      - exists ((east_radius a f 0 + h) * (a * (1 - f))). rewrite sin_0, cos_0. repeat split; [|ring|ring].
        assert (east_radius a f 0 * (1 - (2 * f - f * f)) <= east_radius a f 0 * 1) by (apply Rmult_le_compat_l; nra). apply Rmult_lt_0_compat; [lra|nra].
      - exists ((east_radius a f phi * (1 - (2 * f - f * f)) + h) * a / (1 - f)). rewrite Z. repeat split; [|field; lra|ring].
        apply Rdiv_lt_0_compat; [nra|lra]. }
    now apply atan2_homog. }
  rewrite I. destruct (bowring_exact a f A F phi h B K) as (P & Q). rewrite !Q, P. fold (w f phi). fold (east_radius a f phi).
  destruct (rltb_r (1 / 10 ^ 10) (Rabs (cos phi))) as [L|L].
  - assert (cos phi <> 0). { intros Z. rewrite Z, Rabs_R0 in L. assert (0 < 1 / 10 ^ 10) by lra. lra. }
    unfold axis_distance. field. assumption.
  - unfold above_equator. rewrite Rabs_mult, (Rabs_right (_ + h)) by lra.
    assert (sin phi <> 0). { intros Z. rewrite Z in T. assert (cos phi = 1) by nra. rewrite H0, Rabs_R1 in L. apply L. lra. }
    field. apply Rabs_no_R0; assumption.
Qed.
