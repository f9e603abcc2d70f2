(** Lemmas about the C interface of [Ffi_Model]. *)
From Coq Require Import ZArith Ascii String List Reals Bool Lia Lra.
From Verif Require Import Base Ang Mat3 Geom_Model Conic_Model Ffi_Model.
Import ListNotations.
Local Open Scope R_scope.

(** * Tables *)
Section Table.
Context {A : Type}.
Variable eqb : A -> A -> bool.
Variable eqb_ok : forall a b, eqb a b = true <-> a = b.
Variable t : list (row A).
Variable complete : forall a, In a (map r_variant t).

Lemma from_raw_in raw v : NoDup (map r_code t) -> (from_raw t raw = Some v <-> exists r, In r t /\ r_variant r = v /\ r_code r = raw).
Proof.
  clear. intros N. induction t as [|r u IH]; cbn [from_raw map In] in *.
  - split; [discriminate|]. intros (r & [] & _).
  - inversion N as [|? ? N1 N2]; subst. destruct (Z.eqb_spec raw (r_code r)) as [E|E].
    + split.
      * intros H. exists r. split; [now left|]. split; [congruence|easy].
      * intros (x & [X|X] & V & C). { congruence. } exfalso. apply N1. rewrite <- E, <- C. now apply in_map.
    + rewrite (IH N2). split.
      * intros (x & X & V). exists x. tauto.
      * intros (x & [X|X] & V & C); [subst; easy|]. exists x. tauto.
Qed.

Lemma parse_lower_in s v : NoDup (concat (map r_names t)) -> (parse_lower t s = Some v <-> exists r, In r t /\ r_variant r = v /\ In s (r_names r)).
Proof.
  clear. intros N. induction t as [|r u IH]; cbn [parse_lower map In concat] in *.
  - split; [discriminate|]. intros (r & [] & _).
  - assert (M : existsb (String.eqb s) (r_names r) = true <-> In s (r_names r)).
    { rewrite existsb_exists. split; [intros (x & X & E); apply String.eqb_eq in E; now subst|intros X; exists s; split; [easy|apply String.eqb_refl]]. }
    assert (N2 : NoDup (concat (map r_names u))). { clear - N. induction (r_names r) as [|x l IHl]; [exact N|]. apply IHl. now inversion N. }
    destruct (existsb (String.eqb s) (r_names r)) eqn:E.
    + split.
      * intros H. exists r. split; [now left|]. split; [congruence|now apply M].
      * intros (x & [X|X] & V & C). { congruence. } exfalso.
        assert (In s (concat (map r_names u))). { apply in_concat. exists (r_names x). split; [now apply in_map|easy]. }
        destruct M as (M & _). specialize (M eq_refl). clear - M N H. induction (r_names r) as [|y l IHl]; [easy|].
        cbn in N. inversion N as [|? ? N1 N3]; subst. destruct M as [->|M]; [apply N1, in_or_app; now right|now apply IHl].
    + rewrite (IH N2). split.
      * intros (x & X & V). exists x. tauto.
      * intros (x & [X|X] & V & C); [subst; apply M in C; discriminate|]. exists x. tauto.
Qed.

Lemma as_str_row v : exists r, In r t /\ r_variant r = v /\ as_str eqb t v = hd EmptyString (r_names r).
Proof.
  specialize (complete v). induction t as [|r u IH]; cbn [as_str map In] in *; [easy|].
  destruct (eqb v (r_variant r)) eqn:E.
  - apply eqb_ok in E. exists r. split; [now left|]. split; [easy|reflexivity].
  - destruct complete as [C|C]. { assert (eqb v (r_variant r) = true) by now apply eqb_ok. congruence. }
    destruct (IH C) as (x & X & V). exists x. split; [now right|easy].
Qed.
End Table.

Lemma lower_ascii_idem c : lower_ascii (lower_ascii c) = lower_ascii c.
Proof. destruct c as [[] [] [] [] [] [] [] []]; reflexivity. Qed.
Lemma lower_idem s : lower (lower s) = lower s.
Proof. induction s as [|c s IH]; cbn [lower]; [easy|]. now rewrite lower_ascii_idem, IH. Qed.

(** * Spherical coordinates *)
Lemma rad_deg x : rad (deg x) = x.
Proof. unfold rad, deg. pose proof PI_RGT_0. field. lra. Qed.
Lemma deg_rad x : deg (rad x) = x.
Proof. unfold rad, deg. pose proof PI_RGT_0. field. lra. Qed.

Lemma rem_e_cs x : cos (rem_e x (2 * PI)) = cos x /\ sin (rem_e x (2 * PI)) = sin x.
Proof.
  unfold rem_e. set (k := Int_part (x / (2 * PI))). clearbody k.
  assert (P : forall n y, cos (y - 2 * PI * INR n) = cos y /\ sin (y - 2 * PI * INR n) = sin y).
  { intros n y. split.
    - rewrite <- (cos_period (y - 2 * PI * INR n) n). f_equal. ring.
    - rewrite <- (sin_period (y - 2 * PI * INR n) n). f_equal. ring. }
  destruct (Z_le_gt_dec 0 k) as [H|H].
  - rewrite <- (Z2Nat.id k H), <- INR_IZR_INZ. apply P.
  - replace k with (- Z.of_nat (Z.to_nat (- k)))%Z by lia. rewrite opp_IZR, <- INR_IZR_INZ.
    set (n := Z.to_nat (- k)). clearbody n. split.
    + rewrite <- (cos_period x n). f_equal. ring.
    + rewrite <- (sin_period x n). f_equal. ring.
Qed.

Lemma cart_unit p a : dot3 (cart_of p a) (cart_of p a) = 1.
Proof.
  unfold cart_of, dot3. set (x := rad p). set (y := rad a).
  pose proof (sin2_cos2 x) as X. pose proof (sin2_cos2 y) as Y. unfold Rsqr in *.
  replace (cos x * cos y * (cos x * cos y) + cos x * sin y * (cos x * sin y) + sin x * sin x)
    with (cos x * cos x * (sin y * sin y + cos y * cos y) + sin x * sin x) by ring.
  rewrite Y. lra.
Qed.

(** A unit vector is found again from its spherical coordinates. *)
Lemma cart_sph v : dot3 v v = 1 -> cart_of (fst (sph_of v)) (snd (sph_of v)) = v.
Proof.
  destruct v as [[x y] z]. intros U. unfold dot3 in U. unfold sph_of, cart_of. cbn [fst snd]. rewrite !rad_deg.
  destruct (rem_e_cs (atan2 y x)) as (-> & ->).
  assert (Z : -1 <= z <= 1) by nra.
  rewrite sin_asin by exact Z. rewrite cos_asin by exact Z.
  assert (S : sqrt (1 - z²) = sqrt (x² + y²)) by (f_equal; unfold Rsqr; lra). rewrite S.
  destruct (Req_EM_T x 0) as [X|X]; [destruct (Req_EM_T y 0) as [Y|Y]|].
  - subst. rewrite Rsqr_0, Rplus_0_l, sqrt_0. now rewrite !Rmult_0_l.
  - destruct (atan2_polar y x (or_intror Y)) as (-> & ->). reflexivity.
  - destruct (atan2_polar y x (or_introl X)) as (-> & ->). reflexivity.
Qed.
Lemma sph_range v : let '(p, a) := sph_of v in -90 <= p <= 90 /\ 0 <= a < 360.
Proof.
  destruct v as [[x y] z]. cbn [sph_of]. unfold deg. pose proof PI_RGT_0 as P. pose proof (asin_bound z) as (A & B). split.
  - split.
    + apply (Rmult_le_reg_r (PI / 180)); [lra|]. replace (asin z * 180 / PI * (PI / 180)) with (asin z) by (field; lra). lra.
    + apply (Rmult_le_reg_r (PI / 180)); [lra|]. replace (asin z * 180 / PI * (PI / 180)) with (asin z) by (field; lra). lra.
  - assert (H : 0 <= rem_e (atan2 y x) (2 * PI) < 2 * PI).
    { unfold rem_e. set (q := atan2 y x / (2 * PI)). assert (E : atan2 y x = 2 * PI * q) by (unfold q; field; lra). rewrite E.
      destruct (base_Int_part q) as (C & D). nra. }
    split.
    + apply Rmult_le_pos; [|now apply Rlt_le, Rinv_0_lt_compat]. lra.
    + apply (Rmult_lt_reg_r (PI / 180)); [lra|].
      replace (rem_e (atan2 y x) (2 * PI) * 180 / PI * (PI / 180)) with (rem_e (atan2 y x) (2 * PI)) by (field; lra). lra.
Qed.

(** * Frames *)
Definition turning (m : rotations) : Prop := (forall f t, orthonormal (m f t)) /\ forall t, m ICRS t = identity.

Lemma apply_1 v : apply identity v = v.
Proof. destruct v as [[x y] z]. unfold apply, identity; cbn. f_equal; [f_equal|]; ring. Qed.
Lemma turn_back m f t v : turning m -> apply (transpose (m f t)) (apply (m f t) v) = v.
Proof. intros (O & _). rewrite <- apply_mul. rewrite (O f t : mul (transpose (m f t)) (m f t) = identity). apply apply_1. Qed.
Lemma turn_forth m f t v : turning m -> apply (m f t) (apply (transpose (m f t)) v) = v.
Proof. intros (O & _). rewrite <- apply_mul, (orthonormal_r _ (O f t)). apply apply_1. Qed.

Definition between (m : rotations) (src dst : frame) (t : R) (v : vec) : vec := apply (m dst t) (apply (transpose (m src t)) v).
Lemma between_unit m src dst t v : turning m -> dot3 (between m src dst t v) (between m src dst t v) = dot3 v v.
Proof.
  intros (O & _). unfold between. rewrite orthonormal_dot by apply O. apply orthonormal_dot. now apply orthonormal_transpose.
Qed.
Lemma to_frame_sph_cart m p a src dst t : turning m ->
  let '(p', a') := to_frame_sph m (p, a) src dst t in cart_of p' a' = between m src dst t (cart_of p a) /\ -90 <= p' <= 90 /\ 0 <= a' < 360.
Proof.
  intros T. unfold to_frame_sph. cbn [fst snd]. set (w := into_icrs m src t (cart_of p a)).
  assert (U : dot3 w w = 1).
  { unfold w, into_icrs. rewrite orthonormal_dot; [apply cart_unit|]. apply orthonormal_transpose. apply T. }
  pose proof (cart_sph w U) as W.
  assert (G : forall v, dot3 v v = 1 -> let '(p', a') := sph_of v in cart_of p' a' = v /\ -90 <= p' <= 90 /\ 0 <= a' < 360).
  { intros v V. pose proof (cart_sph v V) as C. pose proof (sph_range v) as S. destruct (sph_of v). cbn [fst snd] in C. tauto. }
  assert (B : apply (m dst t) w = between m src dst t (cart_of p a)) by reflexivity.
  destruct dst; try (rewrite W; unfold from_icrs; rewrite B; apply G; rewrite between_unit by exact T; apply cart_unit).
  specialize (G w U). rewrite <- B. destruct T as (_ & I). rewrite I, apply_1. exact G.
Qed.

(** * The horizon *)
Definition zenith (lst lat : R) : vec := (cos lat * cos lst, cos lat * sin lst, sin lat).
Definition north (lst lat : R) : vec := (- sin lat * cos lst, - sin lat * sin lst, cos lat).
Definition east (lst : R) : vec := (- sin lst, cos lst, 0).

Lemma deg_0 : deg 0 = 0.
Proof. unfold deg. pose proof PI_RGT_0. field. lra. Qed.

Lemma horizontal_axes theta site v : dot3 v v = 1 ->
  let lst := theta + rad (g_lon site) in let lat := rad (g_lat site) in
  horizontal_dir theta site v = (dot3 (north lst lat) v, dot3 (east lst) v, dot3 (zenith lst lat) v).
Proof.
  intros U lst lat. unfold horizontal_dir. pose proof (cart_sph v U) as C. destruct (sph_of v) as [dec ra]. cbn [fst snd] in C.
  rewrite <- C at 1 2 3. clear C U v. unfold alt_az. fold lst. fold lat.
  set (a := rad ra). set (d := rad dec).
  set (x := - cos (lst - a) * cos d * sin lat + sin d * cos lat). set (y := - sin (lst - a) * cos d).
  set (z := cos (lst - a) * cos d * cos lat + sin d * sin lat).
  assert (X : x = dot3 (north lst lat) (cart_of dec ra)). { unfold x, dot3, north, cart_of. fold a. fold d. rewrite cos_minus. ring. }
  assert (Y : y = dot3 (east lst) (cart_of dec ra)). { unfold y, dot3, east, cart_of. fold a. fold d. rewrite sin_minus. ring. }
  assert (Z : z = dot3 (zenith lst lat) (cart_of dec ra)). { unfold z, dot3, zenith, cart_of. fold a. fold d. rewrite cos_minus. ring. }
  assert (N : x * x + y * y + z * z = 1).
  { unfold x, y, z. pose proof (sin2_cos2 d) as D. pose proof (sin2_cos2 lat) as L. pose proof (sin2_cos2 (lst - a)) as H. unfold Rsqr in *.
    set (ch := cos (lst - a)) in *. set (sh := sin (lst - a)) in *. set (cd := cos d) in *. set (sd := sin d) in *. set (cl := cos lat) in *. set (sl := sin lat) in *.
    replace ((- ch * cd * sl + sd * cl) * (- ch * cd * sl + sd * cl) + - sh * cd * (- sh * cd) + (ch * cd * cl + sd * sl) * (ch * cd * cl + sd * sl))
      with ((sl * sl + cl * cl) * (ch * ch * cd * cd + sd * sd) + sh * sh * cd * cd) by ring.
    rewrite L. replace (1 * (ch * ch * cd * cd + sd * sd) + sh * sh * cd * cd) with ((sh * sh + ch * ch) * (cd * cd) + sd * sd) by ring. rewrite H. lra. }
  rewrite <- X, <- Y, <- Z. clear X Y Z. clearbody x y z. set (r := sqrt (x * x + y * y)).
  assert (P : 0 <= x * x + y * y) by nra.
  assert (RR : r * r = x * x + y * y) by (unfold r; now apply sqrt_sqrt).
  assert (ZR : z <> 0 \/ r <> 0).
  { destruct (Req_EM_T r 0) as [E|E]; [left|now right]. intros Z0. rewrite E in RR. nra. }
  unfold cart_of. rewrite !rad_deg. destruct (rem_e_cs (if Req_EM_T r 0 then 0 else atan2 y x)) as (-> & ->).
  assert (ZR' : r <> 0 \/ z <> 0) by tauto.
  destruct (atan2_polar z r ZR') as (CA & SA).
  assert (Q : sqrt (r² + z²) = 1). { rewrite <- sqrt_1. f_equal. unfold Rsqr. lra. }
  rewrite Q, Rmult_1_l in CA, SA. rewrite CA, SA.
  destruct (Req_EM_T r 0) as [E|E].
  - rewrite E, cos_0, sin_0. assert (x = 0) by nra. assert (y = 0) by nra. subst. f_equal. f_equal; ring.
  - assert (XY : x <> 0 \/ y <> 0).
    { destruct (Req_EM_T x 0) as [X|X]; [|now left]. right. intros Y. apply E. unfold r. subst. rewrite Rmult_0_l, Rplus_0_r. apply sqrt_0. }
    destruct (atan2_polar y x XY) as (CX & SY). replace (sqrt (x² + y²)) with r in CX, SY by (unfold r, Rsqr; reflexivity).
    now rewrite CX, SY.
Qed.
Lemma horizontal_unit theta site v : dot3 (horizontal_dir theta site v) (horizontal_dir theta site v) = 1.
Proof. unfold horizontal_dir. destruct (sph_of v). destruct (alt_az _ _ _ _). apply cart_unit. Qed.
