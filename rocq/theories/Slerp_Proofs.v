From Coq Require Import Reals Lra Psatz.
From Verif Require Import Slerp_Model.
Local Open Scope R_scope.

Definition unit (a : quat4) : Prop := dot a a = 1.
(** long enough to be a direction *)
Definition solid (a : quat4) : Prop := eps * eps < dot a a.

Lemma eps_pos : 0 < eps. Proof. unfold eps. apply Rinv_0_lt_compat. lra. Qed.
Lemma eps_lt1 : eps < 1. Proof. unfold eps. apply (Rmult_lt_reg_r 4503599627370496); [lra|]. rewrite Rinv_l; lra. Qed.
Lemma q4_eq a b : q0 a = q0 b -> q1 a = q1 b -> q2 a = q2 b -> q3 a = q3 b -> a = b.
Proof. destruct a, b; cbn. intros; subst; reflexivity. Qed.
Lemma dot_comm a b : dot a b = dot b a. Proof. unfold dot. ring. Qed.
Lemma dot_neg a b : dot a (neg b) = - dot a b. Proof. unfold dot, neg; cbn. ring. Qed.
Lemma dot_scale k a b : dot a (scale k b) = k * dot a b. Proof. unfold dot, scale; cbn. ring. Qed.
Lemma dot_add a b c : dot a (add b c) = dot a b + dot a c. Proof. unfold dot, add; cbn. ring. Qed.
Lemma neg_neg a : neg (neg a) = a. Proof. apply q4_eq; cbn; ring. Qed.
Lemma unit_neg a : unit a -> unit (neg a). Proof. unfold unit, dot, neg; cbn. lra. Qed.
Lemma dot_nonneg a : 0 <= dot a a. Proof. unfold dot. nra. Qed.

Lemma normalize_eq a : solid a -> normalize a = scale (/ sqrt (dot a a)) a /\ 0 < sqrt (dot a a).
Proof.
  intros S. unfold normalize. fold (dot a a). pose proof eps_pos.
  assert (L : eps < sqrt (dot a a)). { rewrite <- (sqrt_square eps) by lra. apply sqrt_lt_1; [nra|apply dot_nonneg|exact S]. }
  destruct (Rle_dec _ _); [lra|]. split; [|lra]. apply q4_eq; cbn; unfold Rdiv; ring.
Qed.
Lemma normalize_unit a : solid a -> unit (normalize a).
Proof.
  intros S. destruct (normalize_eq a S) as (-> & P). unfold unit. rewrite dot_scale, (dot_comm (scale _ _)), dot_scale.
  rewrite <- (sqrt_sqrt (dot a a) (dot_nonneg a)) at 3. field. lra.
Qed.
Lemma unit_solid a : unit a -> solid a.
Proof. unfold unit, solid. intros ->. pose proof eps_pos. pose proof eps_lt1. nra. Qed.
Lemma normalize_id a : unit a -> normalize a = a.
Proof.
  intros U. destruct (normalize_eq a (unit_solid a U)) as (-> & _). rewrite U, sqrt_1. apply q4_eq; cbn; field.
Qed.
Lemma normalize_neg a : normalize (neg a) = neg (normalize a).
Proof.
  unfold normalize. cbn [neg q0 q1 q2 q3].
  replace (- q0 a * - q0 a + - q1 a * - q1 a + - q2 a * - q2 a + - q3 a * - q3 a) with (q0 a * q0 a + q1 a * q1 a + q2 a * q2 a + q3 a * q3 a) by ring.
  destruct (Rle_dec _ _); [reflexivity|]. apply q4_eq; cbn; unfold Rdiv; ring.
Qed.
(** same direction *)
Lemma normalize_dot a b : solid a -> dot b (normalize a) = dot b a / sqrt (dot a a).
Proof. intros S. destruct (normalize_eq a S) as (-> & P). rewrite dot_scale. field. lra. Qed.

Lemma cauchy a b : dot a b * dot a b <= dot a a * dot b b.
Proof.
  unfold dot. destruct a as [a0 a1 a2 a3], b as [b0 b1 b2 b3]; cbn.
  assert (0 <= (a0*b1-a1*b0)*(a0*b1-a1*b0) + (a0*b2-a2*b0)*(a0*b2-a2*b0) + (a0*b3-a3*b0)*(a0*b3-a3*b0)
    + (a1*b2-a2*b1)*(a1*b2-a2*b1) + (a1*b3-a3*b1)*(a1*b3-a3*b1) + (a2*b3-a3*b2)*(a2*b3-a3*b2)) by (repeat apply Rplus_le_le_0_compat; apply Rle_0_sqr).
  lra.
Qed.
Lemma unit_dot a b : unit a -> unit b -> -1 <= dot a b <= 1.
Proof. intros A B. pose proof (cauchy a b). unfold unit in *. rewrite A, B in H. nra. Qed.
Lemma unit_dot1 a b : unit a -> unit b -> 1 <= dot a b -> a = b.
Proof.
  unfold unit. intros A B D. assert (H : dot (add a (neg b)) (add a (neg b)) <= 0).
  { replace (dot (add a (neg b)) (add a (neg b))) with (dot a a - 2 * dot a b + dot b b) by (unfold dot, add, neg; cbn; ring). lra. }
  unfold dot, add, neg in H. cbn in H.
  assert (Z : forall x y z w, x * x + y * y + z * z + w * w <= 0 -> x = 0 /\ y = 0 /\ z = 0 /\ w = 0).
  { intros x y z w K. pose proof (Rle_0_sqr x). pose proof (Rle_0_sqr y). pose proof (Rle_0_sqr z). pose proof (Rle_0_sqr w). unfold Rsqr in *.
    repeat split; apply Rsqr_0_uniq; unfold Rsqr; lra. }
  apply Z in H as (H0 & H1 & H2 & H3). apply q4_eq; lra.
Qed.

(** The interpolation between unit quaternions at most a right angle apart *)
Definition core (l r : quat4) (t : R) : quat4 :=
  let d := dot l r in
  if Rge_dec d 1 then l
  else if Rgt_dec d (9995 / 10000) then normalize (add (scale (1 - t) l) (scale t r))
  else normalize (add (scale (sin ((1 - t) * acos d) / sin (acos d)) l) (scale (sin (t * acos d) / sin (acos d)) r)).
Lemma slerp_core l r t : slerp l r t =
  if Rlt_dec (dot (normalize l) (normalize r)) 0 then core (normalize l) (neg (normalize r)) t else core (normalize l) (normalize r) t.
Proof.
  unfold slerp, core. set (a := normalize l). set (b := normalize r).
  assert (G : forall d b', d = dot a b' -> (if Rge_dec d 1 then a else if Rgt_dec d (9995 / 10000) then
     normalize (Q4 (q0 a + t * (q0 b' - q0 a)) (q1 a + t * (q1 b' - q1 a)) (q2 a + t * (q2 b' - q2 a)) (q3 a + t * (q3 b' - q3 a)))
     else normalize (Q4 (sin ((1 - t) * acos d) / sin (acos d) * q0 a + sin (t * acos d) / sin (acos d) * q0 b')
       (sin ((1 - t) * acos d) / sin (acos d) * q1 a + sin (t * acos d) / sin (acos d) * q1 b')
       (sin ((1 - t) * acos d) / sin (acos d) * q2 a + sin (t * acos d) / sin (acos d) * q2 b')
       (sin ((1 - t) * acos d) / sin (acos d) * q3 a + sin (t * acos d) / sin (acos d) * q3 b'))) = core a b' t).
  { intros d b' ->. unfold core. destruct (Rge_dec _ _); [reflexivity|]. destruct (Rgt_dec _ _); f_equal; apply q4_eq; cbn; ring. }
  destruct (Rlt_dec (dot a b) 0); apply G; [|reflexivity]. rewrite dot_neg. reflexivity.
Qed.

Lemma comb_norm x y a b : dot (add (scale x a) (scale y b)) (add (scale x a) (scale y b)) = x * x * dot a a + 2 * x * y * dot a b + y * y * dot b b.
Proof. unfold dot, add, scale; cbn. ring. Qed.
Lemma comb_dot x y a b c : dot c (add (scale x a) (scale y b)) = x * dot c a + y * dot c b.
Proof. unfold dot, add, scale; cbn. ring. Qed.
Lemma sin_identity x y : sin x * sin x + sin y * sin y + 2 * sin x * sin y * cos (x + y) = sin (x + y) * sin (x + y).
Proof.
  rewrite cos_plus, sin_plus. pose proof (sin2_cos2 x) as A. pose proof (sin2_cos2 y) as B. unfold Rsqr in *.
  replace (sin x * sin x) with (sin x * sin x * (sin y * sin y + cos y * cos y)) at 1 by (rewrite B; ring).
  replace (sin y * sin y + 2 * sin x * sin y * (cos x * cos y - sin x * sin y)) with
    (sin y * sin y * (sin x * sin x + cos x * cos x) + 2 * sin x * sin y * (cos x * cos y - sin x * sin y)) by (rewrite A; ring).
  rewrite Rplus_assoc.
  replace (sin y * sin y) with (sin y * sin y * (sin x * sin x + cos x * cos x)) at 2 by (rewrite A; ring). ring.
Qed.

Section Core.
Variables (l r : quat4) (t : R).
Hypothesis Ul : unit l.
Hypothesis Ur : unit r.
Hypothesis Hd : 0 <= dot l r.
Let d := dot l r.
Lemma lerp_solid : 9995 / 10000 < d -> let v := add (scale (1 - t) l) (scale t r) in
  dot v v = 1 - 2 * t * (1 - t) * (1 - d) /\ 1 / 2 < dot v v /\ solid v.
Proof.
  intros D v. assert (E : dot v v = 1 - 2 * t * (1 - t) * (1 - d)) by (unfold v; rewrite comb_norm, Ul, Ur; unfold d; ring).
  assert (B : d <= 1) by apply (unit_dot l r Ul Ur). assert (H : 1 / 2 < dot v v).
  { rewrite E. assert (K : 0 <= (t - 1 / 2) * (t - 1 / 2)) by apply Rle_0_sqr.
    assert (0 <= (1 / 4 - t * (1 - t)) * (1 - d)) by (apply Rmult_le_pos; lra). lra. }
  split; [exact E|]. split; [exact H|]. unfold solid. pose proof eps_pos. pose proof eps_lt1. assert (eps * eps < 1 / 2); [|fold v; lra].
  assert (eps < 1 / 2). { unfold eps. apply (Rmult_lt_reg_r 4503599627370496); [lra|]. rewrite Rinv_l; lra. } nra.
Qed.
Lemma acos_facts : d < 1 -> 0 < acos d <= PI / 2 /\ cos (acos d) = d /\ 0 < sin (acos d).
Proof.
  intros D. unfold d in *. assert (C : cos (acos (dot l r)) = dot l r) by (apply cos_acos; lra).
  pose proof (acos_bound (dot l r)) as B. pose proof PI_RGT_0.
  assert (P : 0 < acos (dot l r)). { destruct (Req_dec (acos (dot l r)) 0) as [E|E]; [rewrite E, cos_0 in C; lra|lra]. }
  assert (P2 : acos (dot l r) <= PI / 2).
  { destruct (Rle_lt_dec (acos (dot l r)) (PI / 2)) as [|X]; [assumption|]. assert (cos (acos (dot l r)) < 0) by (apply cos_lt_0; lra). lra. }
  split; [lra|]. split; [exact C|]. apply sin_gt_0; lra.
Qed.
Lemma arc_unit : d < 1 -> unit (add (scale (sin ((1 - t) * acos d) / sin (acos d)) l) (scale (sin (t * acos d) / sin (acos d)) r)).
Proof.
  intros D. destruct (acos_facts D) as (_ & C & S). unfold unit. rewrite comb_norm, Ul, Ur. fold d.
  pose proof (sin_identity ((1 - t) * acos d) (t * acos d)) as I. replace ((1 - t) * acos d + t * acos d) with (acos d) in I by ring. rewrite C in I.
  set (x := sin ((1 - t) * acos d)) in *. set (y := sin (t * acos d)) in *. set (s := sin (acos d)) in *. clearbody x y s.
  replace (x / s * (x / s) * 1 + 2 * (x / s) * (y / s) * d + y / s * (y / s) * 1) with ((x * x + y * y + 2 * x * y * d) / (s * s)) by (field; lra).
  rewrite I. field. lra.
Qed.
Lemma core_unit : unit (core l r t).
Proof.
  unfold core. fold d. destruct (Rge_dec d 1); [exact Ul|]. destruct (Rgt_dec d (9995 / 10000)).
  - apply normalize_unit. apply lerp_solid. assumption.
  - apply normalize_unit, unit_solid, arc_unit. lra.
Qed.
(** away from coincidence the angle from the left quaternion is [t] times the whole angle *)
Lemma core_angle : d <= 9995 / 10000 -> dot l (core l r t) = cos (t * acos d) /\ dot r (core l r t) = cos ((1 - t) * acos d).
Proof.
  intros D. assert (D1 : d < 1) by lra. destruct (acos_facts D1) as (_ & C & S). unfold core. fold d. destruct (Rge_dec d 1); [lra|].
  destruct (Rgt_dec d (9995 / 10000)); [lra|]. rewrite normalize_id by (apply arc_unit; exact D1). rewrite !comb_dot, Ul, Ur, (dot_comm r l). fold d.
  assert (X : sin ((1 - t) * acos d) = sin (acos d) * cos (t * acos d) - d * sin (t * acos d)).
  { replace ((1 - t) * acos d) with (acos d - t * acos d) by ring. rewrite sin_minus, C. ring. }
  assert (Y : sin (t * acos d) = sin (acos d) * cos ((1 - t) * acos d) - d * sin ((1 - t) * acos d)).
  { replace (t * acos d) with (acos d - (1 - t) * acos d) by ring. rewrite sin_minus, C. ring. }
  split; [rewrite X|rewrite Y]; field; lra.
Qed.
Lemma core_between : 0 <= t <= 1 -> d <= dot l (core l r t) /\ d <= dot r (core l r t).
Proof.
  intros T. destruct (Rle_lt_dec d (9995 / 10000)) as [D|D].
  - destruct (core_angle D) as (-> & ->). assert (D1 : d < 1) by lra. destruct (acos_facts D1) as (A & C & S). rewrite <- C at 1 3. pose proof PI_RGT_0.
    split; apply cos_decr_1; nra.
  - assert (B : d <= 1) by apply (unit_dot l r Ul Ur). unfold core. fold d. destruct (Rge_dec d 1) as [G|G].
    + split; [unfold unit in Ul; lra|]. rewrite dot_comm. fold d. lra.
    + destruct (Rgt_dec d (9995 / 10000)); [|lra]. destruct (lerp_solid D) as (E & H & S). rewrite !normalize_dot by exact S.
      set (v := add (scale (1 - t) l) (scale t r)) in *. assert (N : sqrt (dot v v) <= 1).
      { rewrite <- sqrt_1. apply sqrt_le_1_alt. rewrite E. assert (0 <= t * (1 - t) * (1 - d)) by (apply Rmult_le_pos; [apply Rmult_le_pos|]; lra). lra. }
      assert (N0 : 0 < sqrt (dot v v)) by (apply sqrt_lt_R0; lra).
      assert (L : dot l v = 1 - t * (1 - d)) by (unfold v; rewrite comb_dot, Ul; unfold d; ring).
      assert (R : dot r v = 1 - (1 - t) * (1 - d)) by (unfold v; rewrite comb_dot, Ur, (dot_comm r l); unfold d; ring).
      rewrite L, R. split; apply (Rmult_le_reg_r (sqrt (dot v v))); try exact N0; unfold Rdiv; rewrite Rmult_assoc, Rinv_l by lra; clear E H S L R; clearbody v;
        set (s := sqrt (dot v v)) in *; clearbody s; assert (0 <= d * (1 - s)) by (apply Rmult_le_pos; lra);
        assert (0 <= (1 - t) * (1 - d)) by (apply Rmult_le_pos; lra); assert (0 <= t * (1 - d)) by (apply Rmult_le_pos; lra); lra.
Qed.
End Core.
Lemma core_0 l r : unit l -> unit r -> 0 <= dot l r -> core l r 0 = l.
Proof.
  intros Ul Ur Hd. unfold core. destruct (Rge_dec _ _); [reflexivity|].
  assert (G : forall x y, x = 1 -> y = 0 -> normalize (add (scale x l) (scale y r)) = l).
  { intros x y -> ->. replace (add (scale 1 l) (scale 0 r)) with l by (apply q4_eq; cbn; ring). now apply normalize_id. }
  destruct (Rgt_dec _ _); apply G; try ring.
  - rewrite Rminus_0_r, Rmult_1_l. field. assert (D : dot l r < 1) by lra. destruct (acos_facts l r Hd D) as (_ & _ & S). lra.
  - rewrite Rmult_0_l, sin_0. unfold Rdiv. ring.
Qed.
Lemma core_1 l r : unit l -> unit r -> 0 <= dot l r -> core l r 1 = r.
Proof.
  intros Ul Ur Hd. unfold core. destruct (Rge_dec _ _); [apply unit_dot1; trivial; lra|].
  assert (G : forall x y, x = 0 -> y = 1 -> normalize (add (scale x l) (scale y r)) = r).
  { intros x y -> ->. replace (add (scale 0 l) (scale 1 r)) with r by (apply q4_eq; cbn; ring). now apply normalize_id. }
  destruct (Rgt_dec _ _); apply G; try ring.
  - replace ((1 - 1) * acos (dot l r)) with 0 by ring. rewrite sin_0. unfold Rdiv. ring.
  - rewrite Rmult_1_l. field. assert (D : dot l r < 1) by lra. destruct (acos_facts l r Hd D) as (_ & _ & S). lra.
Qed.
Lemma core_rev l r t : unit l -> unit r -> 0 <= dot l r -> core r l (1 - t) = core l r t.
Proof.
  intros Ul Ur Hd. unfold core. rewrite (dot_comm r l). destruct (Rge_dec _ _); [symmetry; apply unit_dot1; trivial; lra|].
  replace (1 - (1 - t)) with t by ring. destruct (Rgt_dec _ _); f_equal; apply q4_eq; cbn; ring.
Qed.
Lemma core_neg l r t : core (neg l) (neg r) t = neg (core l r t).
Proof.
  unfold core. replace (dot (neg l) (neg r)) with (dot l r) by (unfold dot, neg; cbn; ring).
  assert (G : forall x y, normalize (add (scale x (neg l)) (scale y (neg r))) = neg (normalize (add (scale x l) (scale y r)))).
  { intros x y. rewrite <- normalize_neg. f_equal. apply q4_eq; cbn; ring. }
  destruct (Rge_dec _ _); [reflexivity|]. destruct (Rgt_dec _ _); apply G.
Qed.

(** ** The code's function *)
Definition near (l r : quat4) : quat4 := if Rlt_dec (dot (normalize l) (normalize r)) 0 then neg (normalize r) else normalize r.
Lemma near_or l r : near l r = normalize r \/ near l r = neg (normalize r).
Proof. unfold near. destruct (Rlt_dec _ _); auto. Qed.
Lemma slerp_near l r t : slerp l r t = core (normalize l) (near l r) t.
Proof. rewrite slerp_core. unfold near. destruct (Rlt_dec _ _); reflexivity. Qed.
Lemma near_unit l r : solid r -> unit (near l r).
Proof. intros S. pose proof (normalize_unit r S). destruct (near_or l r) as [-> | ->]; [assumption|now apply unit_neg]. Qed.
Lemma near_dot l r : dot (normalize l) (near l r) = Rabs (dot (normalize l) (normalize r)).
Proof.
  unfold near. destruct (Rlt_dec _ _); [rewrite dot_neg; symmetry; now apply Rabs_left|symmetry; apply Rabs_pos_eq; lra].
Qed.
Lemma near_pos l r : 0 <= dot (normalize l) (near l r).
Proof. rewrite near_dot. apply Rabs_pos. Qed.
Lemma slerp_unit l r t : solid l -> solid r -> unit (slerp l r t).
Proof. intros A B. rewrite slerp_near. apply core_unit; [now apply normalize_unit|now apply near_unit|apply near_pos]. Qed.
Lemma slerp_start l r : solid l -> solid r -> slerp l r 0 = normalize l.
Proof. intros A B. rewrite slerp_near. apply core_0; [now apply normalize_unit|now apply near_unit|apply near_pos]. Qed.
Lemma slerp_end l r : solid l -> solid r -> slerp l r 1 = normalize r \/ slerp l r 1 = neg (normalize r).
Proof.
  intros A B. rewrite slerp_near, core_1; [apply near_or|now apply normalize_unit|now apply near_unit|apply near_pos].
Qed.
Lemma slerp_angle l r t : solid l -> solid r -> Rabs (dot (normalize l) (normalize r)) <= 9995 / 10000 ->
  let theta := acos (Rabs (dot (normalize l) (normalize r))) in
  dot (normalize l) (slerp l r t) = cos (t * theta) /\
  Rabs (dot (normalize r) (slerp l r t)) = Rabs (cos ((1 - t) * theta)).
Proof.
  intros A B D. rewrite <- near_dot in *. intros th. rewrite slerp_near.
  destruct (core_angle (normalize l) (near l r) t (normalize_unit l A) (near_unit l r B) (near_pos l r) D) as (X & Y).
  split; [exact X|]. unfold th. rewrite <- Y. clear Y X th D. destruct (near_or l r) as [-> | ->]; [reflexivity|].
  rewrite (dot_comm (neg _)), dot_neg, Rabs_Ropp, dot_comm. reflexivity.
Qed.
Lemma slerp_between l r t : solid l -> solid r -> 0 <= t <= 1 -> let d := Rabs (dot (normalize l) (normalize r)) in
  d <= dot (normalize l) (slerp l r t) /\ d <= Rabs (dot (normalize r) (slerp l r t)).
Proof.
  intros A B T d. unfold d. rewrite <- near_dot. rewrite slerp_near.
  destruct (core_between (normalize l) (near l r) t (normalize_unit l A) (near_unit l r B) (near_pos l r) T) as (X & Y).
  split; [exact X|]. eapply Rle_trans; [exact Y|]. destruct (near_or l r) as [-> | ->]; [apply Rle_abs|].
  rewrite (dot_comm (neg _)), dot_neg, (dot_comm (core _ _ _)). rewrite <- Rabs_Ropp. apply Rle_abs.
Qed.
(** The sign of a quaternion does not matter *)
Lemma slerp_sign_r l r t : dot (normalize l) (normalize r) <> 0 -> slerp l (neg r) t = slerp l r t.
Proof.
  intros D. rewrite !slerp_near. f_equal. unfold near. rewrite normalize_neg, dot_neg, neg_neg.
  destruct (Rlt_dec _ _), (Rlt_dec _ _); try reflexivity; lra.
Qed.
Lemma slerp_sign_l l r t : dot (normalize l) (normalize r) <> 0 -> slerp (neg l) r t = neg (slerp l r t).
Proof.
  intros D. rewrite !slerp_near, <- core_neg, <- normalize_neg. f_equal. unfold near. rewrite normalize_neg, (dot_comm (neg _)), dot_neg, dot_comm.
  destruct (Rlt_dec _ _), (Rlt_dec _ _); try reflexivity; try lra. now rewrite neg_neg.
Qed.
Lemma slerp_rev l r t : solid l -> solid r -> slerp r l (1 - t) = slerp l r t \/ slerp r l (1 - t) = neg (slerp l r t).
Proof.
  intros A B. pose proof (normalize_unit l A) as Ul. pose proof (normalize_unit r B) as Ur. rewrite !slerp_near. unfold near. rewrite (dot_comm (normalize r)).
  destruct (Rlt_dec _ _) as [L|L].
  - right. rewrite <- core_neg, neg_neg. rewrite <- (core_rev (neg (normalize l)) (normalize r) t); [reflexivity|now apply unit_neg|exact Ur|].
    rewrite (dot_comm (neg _)), dot_neg, dot_comm. lra.
  - left. apply core_rev; trivial. lra.
Qed.
