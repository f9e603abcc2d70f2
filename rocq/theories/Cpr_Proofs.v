(** CPR decoding recovers encoded positions. *)
From Coq Require Import ZArith QArith Qround Qabs Lqa Lia Bool.
From Verif Require Import Base Cpr_Model Cpr_Spec.
Local Open Scope Q_scope.

(** ** Floor *)
Lemma Qfloor_unique q n : inject_Z n <= q -> q < inject_Z (n + 1) -> Qfloor q = n.
Proof.
  intros H1 H2. pose proof (Qfloor_le q) as A. pose proof (Qlt_floor q) as B.
  assert (inject_Z (Qfloor q) < inject_Z (n + 1)) by lra.
  assert (inject_Z n < inject_Z (Qfloor q + 1)) by lra.
  rewrite <- Zlt_Qlt in *. lia.
Qed.

Lemma inject_plus a b : inject_Z (a + b) == inject_Z a + inject_Z b.
Proof. now rewrite inject_Z_plus. Qed.
Lemma inject_mul a b : inject_Z (a * b) == inject_Z a * inject_Z b.
Proof. now rewrite inject_Z_mult. Qed.

Ltac push :=
  repeat first [rewrite inject_Z_plus | rewrite inject_Z_mult | rewrite inject_Z_opp
               | unfold Z.sub];
  repeat match goal with
  | |- context [inject_Z (Zpos ?p)] => change (inject_Z (Zpos p)) with (Zpos p # 1)
  | |- context [inject_Z (Zneg ?p)] => change (inject_Z (Zneg p)) with (Zneg p # 1)
  end.

(** Index of the lattice point nearest to [x / d]. *)
Definition idx (u : Q) : Z := Qfloor (131072 * u + (1 # 2)).

Lemma idx_bounds u : 131072 * u - (1 # 2) < inject_Z (idx u) /\ inject_Z (idx u) <= 131072 * u + (1 # 2).
Proof.
  unfold idx. pose proof (Qfloor_le (131072 * u + (1 # 2))). pose proof (Qlt_floor (131072 * u + (1 # 2))) as B.
  rewrite inject_plus in B. change (inject_Z 1) with 1 in B. split; lra.
Qed.

Lemma YZ_idx x d : 0 < d -> (YZ x d + 131072 * Qfloor (x / d) = idx (x / d))%Z.
Proof.
  intros Hd. symmetry. apply Qfloor_unique.
  - unfold YZ. rewrite inject_plus, inject_mul. change (inject_Z 131072) with 131072.
    pose proof (Qfloor_le (131072 * (MOD x d / d) + (1 # 2))) as A.
    assert (E : MOD x d / d == x / d - inject_Z (Qfloor (x / d))) by (unfold MOD; field; lra).
    assert (131072 * (MOD x d / d) == 131072 * (x / d - inject_Z (Qfloor (x / d)))) as E2 by (rewrite E; reflexivity).
    lra.
  - unfold YZ. rewrite !inject_plus, inject_mul. change (inject_Z 131072) with 131072. change (inject_Z 1) with 1.
    pose proof (Qlt_floor (131072 * (MOD x d / d) + (1 # 2))) as A.
    rewrite inject_plus in A. change (inject_Z 1) with 1 in A.
    assert (E : MOD x d / d == x / d - inject_Z (Qfloor (x / d))) by (unfold MOD; field; lra).
    assert (131072 * (MOD x d / d) == 131072 * (x / d - inject_Z (Qfloor (x / d)))) as E2 by (rewrite E; reflexivity).
    lra.
Qed.

Lemma code_idx x d : 0 < d -> code x d = (idx (x / d) mod 131072)%Z.
Proof.
  intros Hd. unfold code. rewrite <- YZ_idx by auto. rewrite Z.mul_comm, Z.mod_add by discriminate. reflexivity.
Qed.

Lemma quantised_idx x d : 0 < d -> quantised x d == d * (inject_Z (idx (x / d)) / 131072).
Proof.
  intros Hd. unfold quantised. rewrite <- YZ_idx by auto. rewrite inject_plus, inject_mul.
  change (inject_Z 131072) with 131072. field.
Qed.

(** Quantisation error is at most half a step. *)
Lemma quantised_error x d : 0 < d ->
  x - d / 262144 < quantised x d /\ quantised x d <= x + d / 262144.
Proof.
  intros Hd. rewrite quantised_idx by auto. destruct (idx_bounds (x / d)) as [A B].
  assert (Ex : x == d * (x / d)) by (field; lra).
  set (u := x / d) in *. set (z := inject_Z (idx u)) in *.
  assert (E : d / 262144 == d * (1 # 262144)) by (field).
  assert (E2 : d * (z / 131072) == d * (z * (1 # 131072))) by field.
  rewrite E, E2, Ex. split.
  - assert (d * (u - (1 # 262144)) < d * (z * (1 # 131072))) by (apply Qmult_lt_l; lra). lra.
  - assert (d * (z * (1 # 131072)) <= d * (u + (1 # 262144))) by (apply Qmult_le_l; lra). lra.
Qed.

(** ** Local decoding: the lattice point nearest the reference *)
Lemma local_index n u :
  u - (1 # 2) < inject_Z n / 131072 -> inject_Z n / 131072 <= u + (1 # 2) ->
  inject_Z (Qfloor (u - inject_Z (n mod 131072) / 131072 + (1 # 2))) + inject_Z (n mod 131072) / 131072
  == inject_Z n / 131072.
Proof.
  intros H1 H2.
  assert (En : inject_Z n / 131072 == inject_Z (n / 131072) + inject_Z (n mod 131072) / 131072).
  { rewrite (Z.div_mod n 131072) at 1 by discriminate. rewrite inject_plus, inject_mul.
    change (inject_Z 131072) with 131072. field. }
  rewrite (Qfloor_unique _ (n / 131072)).
  - now rewrite En.
  - lra.
  - rewrite inject_plus. change (inject_Z 1) with 1. lra.
Qed.

Lemma dlat_Dlat odd : dlat odd == Dlat odd.
Proof. destruct odd; reflexivity. Qed.
Lemma Dlat_pos odd : 0 < Dlat odd.
Proof. destruct odd; reflexivity. Qed.
Lemma Dlat_le odd : Dlat odd <= 7.
Proof. destruct odd; discriminate. Qed.

Lemma lon_zones_pos n odd : (0 < lon_zones n odd)%Z.
Proof. unfold lon_zones. destruct odd; lia. Qed.
Lemma Dlon_pos n odd : 0 < Dlon n odd.
Proof.
  unfold Dlon. apply Qlt_shift_div_l; [|lra].
  change 0 with (inject_Z 0). rewrite <- Zlt_Qlt. apply lon_zones_pos.
Qed.

(** One axis of the local decoder. *)
Lemma local_axis d d' x r : 0 < d -> d' == d ->
  Qabs (x - r) <= d / 2 - d / 262144 ->
  d' * (inject_Z (Qfloor (r / d' - inject_Z (code x d) / two17 + (1 # 2))) + inject_Z (code x d) / two17)
  == quantised x d.
Proof.
  intros Hd Ed Hx. apply Qabs_Qle_condition in Hx as [Hx1 Hx2].
  destruct (quantised_error x d Hd) as [Q1 Q2].
  rewrite code_idx by auto.
  assert (Er : r / d' - inject_Z (idx (x / d) mod 131072) / two17 + (1 # 2) ==
               r / d - inject_Z (idx (x / d) mod 131072) / 131072 + (1 # 2)).
  { rewrite Ed. reflexivity. }
  rewrite (Qfloor_comp _ _ Er). unfold two17.
  rewrite (local_index (idx (x / d)) (r / d)).
  - rewrite Ed. symmetry. now apply quantised_idx.
  - rewrite quantised_idx in Q1 by auto.
    apply (Qmult_lt_l _ _ d Hd).
    assert (d * (r / d - (1 # 2)) == r - d / 2) by (field; lra). lra.
  - rewrite quantised_idx in Q2 by auto.
    apply (Qmult_le_l _ _ d Hd).
    assert (d * (r / d + (1 # 2)) == r + d / 2) by (field; lra). lra.
Qed.

(** Codes repeat with the zone width. *)
Lemma code_shift x d k : 0 < d -> code (x + d * inject_Z k) d = code x d.
Proof.
  intros Hd. rewrite !code_idx by auto.
  assert (E : idx ((x + d * inject_Z k) / d) = (idx (x / d) + k * 131072)%Z).
  { destruct (idx_bounds (x / d)) as [A B]. apply Qfloor_unique.
    - rewrite inject_plus, inject_mul. change (inject_Z 131072) with 131072.
      assert (E : (x + d * inject_Z k) / d == x / d + inject_Z k) by (field; lra). rewrite E. lra.
    - rewrite !inject_plus, inject_mul. change (inject_Z 131072) with 131072. change (inject_Z 1) with 1.
      assert (E : (x + d * inject_Z k) / d == x / d + inject_Z k) by (field; lra).
      assert (E2 : 131072 * ((x + d * inject_Z k) / d) == 131072 * (x / d + inject_Z k)) by (rewrite E; reflexivity).
      lra. }
  rewrite E. rewrite Z.mod_add by discriminate. reflexivity.
Qed.

Lemma full_turn n odd k : 360 * inject_Z k == Dlon n odd * inject_Z (lon_zones n odd * k).
Proof.
  unfold Dlon. rewrite inject_mul. field.
  pose proof (lon_zones_pos n odd) as P. rewrite Zlt_Qlt in P. change (inject_Z 0) with 0 in P. intros E. rewrite E in P. lra.
Qed.

Lemma quantised_small lat odd : -90 <= lat <= 90 -> -91 < quantised lat (Dlat odd) < 91.
Proof.
  intros H. destruct (quantised_error lat (Dlat odd) (Dlat_pos odd)) as [A B].
  pose proof (Dlat_le odd).
  assert (Dlat odd / 262144 <= 7 / 262144).
  { unfold Qdiv. apply Qmult_le_compat_r; [auto|]. discriminate. }
  assert (7 / 262144 < 1) by reflexivity.
  set (q := quantised lat (Dlat odd)) in *. set (e := Dlat odd / 262144) in *. set (w := 7 / 262144) in *. lra.
Qed.

Lemma Qle_bool_false a b : b < a -> Qle_bool a b = false.
Proof.
  intros H. destruct (Qle_bool a b) eqn:E; [|reflexivity]. apply Qle_bool_iff in E. lra.
Qed.
Lemma Qle_bool_case a b : (Qle_bool a b = true /\ a <= b) \/ (Qle_bool a b = false /\ b < a).
Proof.
  destruct (Qle_bool a b) eqn:E; [left; split; [auto|now apply Qle_bool_iff]|right].
  split; [auto|]. apply Qnot_le_lt. intros C. apply Qle_bool_iff in C. congruence.
Qed.

Section Decode.
Variable nl : Q -> Z.
Hypothesis nl_proper : forall a b, a == b -> nl a = nl b.

Lemma local_decode odd lat lon rlat rlon k :
  -90 <= lat <= 90 ->
  Qabs (lat - rlat) <= Dlat odd / 2 - Dlat odd / 262144 ->
  (let n := nl (quantised lat (Dlat odd)) in
   Qabs (lon + 360 * inject_Z k - rlon) <= Dlon n odd / 2 - Dlon n odd / 262144) ->
  let '(c_lat, c_lon) := encode nl odd lat lon in
  let '(lat', lon') := decode_locally nl c_lat c_lon odd rlat rlon in
  let n := nl (quantised lat (Dlat odd)) in
  lat' == quantised lat (Dlat odd) /\ Qabs (lat' - lat) <= Dlat odd / 262144 /\
  exists k', Qabs (lon' - (lon + 360 * inject_Z k')) <= Dlon n odd / 262144.
Proof.
  intros Hlat H1 H2. cbv zeta in H2. unfold encode, decode_locally.
  set (rl := quantised lat (Dlat odd)) in *.
  set (lat1 := dlat odd * (_ + _)).
  assert (E1 : lat1 == rl) by (apply local_axis; [apply Dlat_pos|apply dlat_Dlat|exact H1]).
  assert (B1 : -91 < rl < 91) by now apply quantised_small.
  rewrite (Qle_bool_false 270 lat1) by lra.
  rewrite (nl_proper _ _ E1). set (n := nl rl) in *.
  change (if odd then Z.max (n - 1) 1 else Z.max n 1) with (lon_zones n odd).
  fold (Dlon n odd).
  set (lon1 := Dlon n odd * (_ + _)).
  set (lon2 := lon + 360 * inject_Z k) in *.
  assert (Ec : code lon (Dlon n odd) = code lon2 (Dlon n odd)).
  { assert (E : lon2 == lon + Dlon n odd * inject_Z (lon_zones n odd * k)).
    { unfold lon2. now rewrite full_turn. }
    rewrite <- (code_shift lon (Dlon n odd) (lon_zones n odd * k)) by apply Dlon_pos.
    rewrite !code_idx by apply Dlon_pos. f_equal. unfold idx. apply Qfloor_comp. now rewrite E. }
  assert (E2 : lon1 == quantised lon2 (Dlon n odd)).
  { unfold lon1. rewrite Ec. apply local_axis; [apply Dlon_pos|reflexivity|exact H2]. }
  destruct (quantised_error lat (Dlat odd) (Dlat_pos odd)) as [A1 A2]. fold rl in A1, A2.
  destruct (quantised_error lon2 (Dlon n odd) (Dlon_pos n odd)) as [A3 A4].
  split; [exact E1|]. split; [apply Qabs_Qle_condition; lra|].
  destruct (Qle_bool_case 180 lon1) as [[-> _]|[-> _]].
  - exists (k - 1)%Z. apply Qabs_Qle_condition. unfold Z.sub. rewrite inject_plus.
    change (inject_Z (- (1))) with (- (1)). unfold lon2 in *. lra.
  - exists k. apply Qabs_Qle_condition. unfold lon2 in *. lra.
Qed.

(** ** Global decoding *)
(** The integer [p * n1 - q * n0] is recovered by rounding [q * y0 - p * y1], where
    [n + y] are the two lattice positions of the same point. *)
Lemma zone_index (N : Z) u i0 i1 : (1 <= N <= 60)%Z ->
  (* even axis position [N u], odd axis position [(N-1) u] *)
  i0 = idx (inject_Z N * u) -> i1 = idx ((inject_Z N - 1) * u) ->
  Qfloor ((inject_Z N - 1) * (inject_Z (i0 mod 131072) / 131072)
          - inject_Z N * (inject_Z (i1 mod 131072) / 131072) + (1 # 2))
  = (N * (i1 / 131072) - (N - 1) * (i0 / 131072))%Z.
Proof.
  intros HN -> ->.
  set (i0 := idx (inject_Z N * u)). set (i1 := idx ((inject_Z N - 1) * u)).
  destruct (idx_bounds (inject_Z N * u)) as [A0 B0]. fold i0 in A0, B0.
  destruct (idx_bounds ((inject_Z N - 1) * u)) as [A1 B1]. fold i1 in A1, B1.
  assert (E : forall i, inject_Z (i mod 131072) / 131072 == inject_Z i * (1 # 131072) - inject_Z (i / 131072)).
  { intros i. rewrite (Z.div_mod i 131072) at 2 by discriminate. rewrite inject_plus, inject_mul.
    change (inject_Z 131072) with 131072. field. }
  assert (HNq : 1 <= inject_Z N <= 60).
  { change 1 with (inject_Z 1). change 60 with (inject_Z 60). rewrite <- !Zle_Qle. lia. }
  remember (inject_Z N) as n eqn:Hn. clearbody i0 i1.
  set (e0 := inject_Z i0 - 131072 * (n * u)). set (e1 := inject_Z i1 - 131072 * ((n - 1) * u)).
  assert (Eexp : (n - 1) * (inject_Z (i0 mod 131072) / 131072) - n * (inject_Z (i1 mod 131072) / 131072)
     == (n * inject_Z (i1 / 131072) - (n - 1) * inject_Z (i0 / 131072)) + ((n - 1) * e0 - n * e1) * (1 # 131072)).
  { rewrite !E. unfold e0, e1. ring. }
  assert (He0 : - (1 # 2) < e0 /\ e0 <= 1 # 2) by (unfold e0; lra).
  assert (He1 : - (1 # 2) < e1 /\ e1 <= 1 # 2) by (unfold e1; lra).
  assert (P0 : - 30 <= (n - 1) * e0 /\ (n - 1) * e0 <= 30) by (split; nra).
  assert (P1 : - 30 <= n * e1 /\ n * e1 <= 30) by (split; nra).
  assert (Ez : inject_Z (N * (i1 / 131072) - (N - 1) * (i0 / 131072)) ==
     n * inject_Z (i1 / 131072) - (n - 1) * inject_Z (i0 / 131072)).
  { unfold Z.sub. rewrite inject_plus, inject_Z_opp, !inject_mul, inject_plus, <- Hn.
    change (inject_Z (- (1))) with (- (1)). ring. }
  apply Qfloor_unique.
  - rewrite Ez. lra.
  - rewrite inject_plus. change (inject_Z 1) with 1. rewrite Ez. lra.
Qed.

Lemma zone_mod_even N a b : (0 < N)%Z -> ((N * a - (N - 1) * b) mod N = b mod N)%Z.
Proof.
  intros H. replace (N * a - (N - 1) * b)%Z with (b + (a - b) * N)%Z by ring. apply Z.mod_add. lia.
Qed.
Lemma zone_mod_odd N a b : (1 < N)%Z -> ((N * a - (N - 1) * b) mod (N - 1) = a mod (N - 1))%Z.
Proof.
  intros H. replace (N * a - (N - 1) * b)%Z with (a + (a - b) * (N - 1))%Z by ring. apply Z.mod_add. lia.
Qed.

(** One decoded axis: the lattice point modulo a full turn, in [0, 360). *)
Lemma axis_mod Z0 D i : (0 < Z0)%Z -> D * inject_Z Z0 == 360 ->
  D * (inject_Z ((i / 131072) mod Z0) + inject_Z (i mod 131072) / 131072) ==
    D * (inject_Z i / 131072) - 360 * inject_Z (i / 131072 / Z0) /\
  0 <= D * (inject_Z ((i / 131072) mod Z0) + inject_Z (i mod 131072) / 131072) < 360.
Proof.
  intros HZ HD.
  assert (HZq : 0 < inject_Z Z0) by (change 0 with (inject_Z 0); now rewrite <- Zlt_Qlt).
  assert (HDp : 0 < D).
  { apply (Qmult_lt_r _ _ (inject_Z Z0)); [auto|]. rewrite HD, Qmult_0_l. reflexivity. }
  assert (En : inject_Z i / 131072 == inject_Z (i / 131072) + inject_Z (i mod 131072) / 131072).
  { rewrite (Z.div_mod i 131072) at 1 by discriminate. rewrite inject_plus, inject_mul.
    change (inject_Z 131072) with 131072. field. }
  set (q := (i / 131072)%Z) in *.
  assert (Eq : inject_Z q == inject_Z Z0 * inject_Z (q / Z0) + inject_Z (q mod Z0)).
  { rewrite (Z.div_mod q Z0) at 1 by lia. now rewrite inject_plus, inject_mul. }
  split.
  - rewrite En, Eq, <- HD. ring.
  - assert (Hm : 0 <= inject_Z (q mod Z0) <= inject_Z Z0 - 1).
    { pose proof (Z.mod_pos_bound q Z0 HZ) as P.
      change 1 with (inject_Z 1). change 0 with (inject_Z 0). unfold Qminus. rewrite <- inject_Z_opp, <- inject_Z_plus, <- !Zle_Qle. lia. }
    assert (Hc : 0 <= inject_Z (i mod 131072) <= 131071).
    { pose proof (Z.mod_pos_bound i 131072 eq_refl) as P.
      change 131071 with (inject_Z 131071). change 0 with (inject_Z 0). rewrite <- !Zle_Qle. lia. }
    set (c := inject_Z (i mod 131072)) in *. set (m := inject_Z (q mod Z0)) in *.
    assert (Ec : c / 131072 == c * (1 # 131072)) by field. rewrite Ec.
    assert (B : 0 <= m + c * (1 # 131072) < inject_Z Z0) by lra. split.
    + apply Qmult_le_0_compat; lra.
    + rewrite <- HD. apply Qmult_lt_l; lra.
Qed.

(** Latitude lattice points stay within the poles. *)
Lemma pole_bound odd lat : -90 <= lat <= 90 -> -90 <= quantised lat (Dlat odd) <= 90.
Proof.
  intros H. rewrite quantised_idx by apply Dlat_pos.
  assert (G : forall K D : Q, forall z : Z, 0 < D -> D * K == 90 -> 131072 * K == inject_Z z ->
     D == Dlat odd -> -90 <= Dlat odd * (inject_Z (idx (lat / Dlat odd)) / 131072) <= 90).
  { intros K D z HD HK Hz E.
    set (i := idx (lat / Dlat odd)).
    assert (Eu : D * (lat / Dlat odd) == lat) by (rewrite <- E; field; lra).
    rewrite <- E.
    assert (Bu : - K <= lat / Dlat odd <= K).
    { split; apply (Qmult_le_l _ _ D HD); rewrite Eu; lra. }
    destruct (idx_bounds (lat / Dlat odd)) as [A B]. fold i in A, B.
    assert (Bi : (- z <= i <= z)%Z).
    { assert (inject_Z (- z - 1) < inject_Z i).
      { unfold Z.sub. rewrite inject_plus, inject_Z_opp. change (inject_Z (- (1))) with (- (1)). lra. }
      assert (inject_Z i < inject_Z (z + 1)).
      { rewrite inject_plus. change (inject_Z 1) with 1. lra. }
      rewrite <- Zlt_Qlt in *. lia. }
    destruct Bi as [Bi1 Bi2]. rewrite Zle_Qle in Bi1, Bi2. rewrite inject_Z_opp in Bi1.
    assert (Ei : inject_Z i / 131072 == inject_Z i * (1 # 131072)) by field. rewrite Ei.
    assert (- K <= inject_Z i * (1 # 131072) <= K) by lra.
    assert (D * - K <= D * (inject_Z i * (1 # 131072))) by (apply Qmult_le_l; lra).
    assert (D * (inject_Z i * (1 # 131072)) <= D * K) by (apply Qmult_le_l; lra).
    lra. }
  destruct odd.
  - apply (G (59 # 4) (360 # 59) 1933312%Z); reflexivity.
  - apply (G 15 6 1966080%Z); reflexivity.
Qed.

Lemma wrap_lat a r k : 0 <= a < 360 -> -90 <= r <= 90 -> a == r - 360 * inject_Z k ->
  (if Qle_bool 270 a then a - 360 else a) == r.
Proof.
  intros Ha Hr E.
  assert (K : (-2 < k < 1)%Z).
  { split; rewrite Zlt_Qlt; change (inject_Z (-2)) with (-2); change (inject_Z 1) with 1; lra. }
  assert (k = 0 \/ k = -1)%Z as [-> | ->] by lia.
  - change (inject_Z 0) with 0 in E. rewrite Qle_bool_false by lra. lra.
  - change (inject_Z (-1)) with (-1) in E. destruct (Qle_bool_case 270 a) as [[-> _]|[-> C]]; lra.
Qed.

Lemma wrap_lon a : 0 <= a < 360 ->
  let w := if Qle_bool 180 a then a - 360 else a in
  -180 <= w < 180 /\ (w == a \/ w == a - 360).
Proof.
  intros H. cbv zeta. destruct (Qle_bool_case 180 a) as [[-> C]|[-> C]]; split; lra.
Qed.

Lemma zones_inv n odd : Dlon n odd * inject_Z (lon_zones n odd) == 360.
Proof.
  pose proof (full_turn n odd 1) as F. rewrite Z.mul_1_r in F. rewrite <- F. reflexivity.
Qed.

Lemma idx_comp u v : u == v -> idx u = idx v.
Proof. intros E. unfold idx. apply Qfloor_comp. now rewrite E. Qed.

Lemma global_lats lat : -90 <= lat <= 90 ->
  let y0 := code lat (Dlat false) in
  let y1 := code lat (Dlat true) in
  let j := Qfloor (59 * (inject_Z y0 / two17) - 60 * (inject_Z y1 / two17) + (1 # 2)) in
  let lat_e := dlat false * (inject_Z (j mod 60) + inject_Z y0 / two17) in
  let lat_o := dlat true * (inject_Z (j mod 59) + inject_Z y1 / two17) in
  (if Qle_bool 270 lat_e then lat_e - 360 else lat_e) == quantised lat (Dlat false) /\
  (if Qle_bool 270 lat_o then lat_o - 360 else lat_o) == quantised lat (Dlat true).
Proof.
  intros H. cbv zeta.
  rewrite !code_idx by apply Dlat_pos.
  set (i0 := idx (lat / Dlat false)). set (i1 := idx (lat / Dlat true)).
  assert (Z0 : i0 = idx (inject_Z 60 * (lat / 360))).
  { apply idx_comp. unfold Dlat, lat_zones. change (inject_Z 60) with 60. field. }
  assert (Z1 : i1 = idx ((inject_Z 60 - 1) * (lat / 360))).
  { apply idx_comp. unfold Dlat, lat_zones. change (inject_Z 60) with 60. change (inject_Z 59) with 59. field. }
  pose proof (zone_index 60 (lat / 360) i0 i1) as J. specialize (J ltac:(lia) Z0 Z1).
  assert (EJ : Qfloor (59 * (inject_Z (i0 mod 131072) / two17) - 60 * (inject_Z (i1 mod 131072) / two17) + (1 # 2))
     = (60 * (i1 / 131072) - 59 * (i0 / 131072))%Z).
  { change (60 * (i1 / 131072) - 59 * (i0 / 131072))%Z with (60 * (i1 / 131072) - (60 - 1) * (i0 / 131072))%Z.
    rewrite <- J. apply Qfloor_comp. unfold two17. change (inject_Z 60) with 60.
    assert (E : 60 - 1 == 59) by reflexivity. rewrite E. reflexivity. }
  rewrite EJ.
  pose proof (zone_mod_even 60 (i1 / 131072) (i0 / 131072) eq_refl) as M0.
  change (60 - 1)%Z with 59%Z in M0. rewrite M0.
  pose proof (zone_mod_odd 60 (i1 / 131072) (i0 / 131072) eq_refl) as M1.
  change (60 - 1)%Z with 59%Z in M1. rewrite M1.
  split.
  - destruct (axis_mod 60 (dlat false) i0 eq_refl) as [E B]; [reflexivity|].
    apply (wrap_lat _ _ (i0 / 131072 / 60)); [exact B|now apply pole_bound|].
    rewrite quantised_idx by apply Dlat_pos. fold i0. rewrite <- dlat_Dlat. exact E.
  - destruct (axis_mod 59 (dlat true) i1 eq_refl) as [E B]; [reflexivity|].
    apply (wrap_lat _ _ (i1 / 131072 / 59)); [exact B|now apply pole_bound|].
    rewrite quantised_idx by apply Dlat_pos. fold i1. rewrite <- dlat_Dlat. exact E.
Qed.

Definition lat_of (lat : Q) (odd : bool) : Q := quantised lat (Dlat odd).

Lemma close_turn lon d w a q : 0 < d -> a == quantised lon d - 360 * inject_Z q ->
  (w == a \/ w == a - 360) -> exists k, Qabs (w - (lon + 360 * inject_Z k)) <= d / 262144.
Proof.
  intros Hd E [Hw|Hw]; destruct (quantised_error lon d Hd) as [A B].
  - exists (- q)%Z. apply Qabs_Qle_condition. rewrite inject_Z_opp. lra.
  - exists (- q - 1)%Z. apply Qabs_Qle_condition. unfold Z.sub. rewrite inject_plus, inject_Z_opp.
    change (inject_Z (- (1))) with (- (1)). lra.
Qed.

Lemma global_decode lat lon (odd_latest : bool) :
  (forall x, 1 <= nl x <= 59)%Z ->
  -90 <= lat <= 90 ->
  let re := quantised lat (Dlat false) in
  let ro := quantised lat (Dlat true) in
  let r := if odd_latest then ro else re in
  let '(la0, lo0) := encode nl false lat lon in
  let '(la1, lo1) := encode nl true lat lon in
  (nl re <> nl ro -> decode_globally nl la0 lo0 la1 lo1 odd_latest = Err tt) /\
  (nl re = nl ro -> (odd_latest = true -> (2 <= nl ro)%Z) ->
   exists lat' lon', decode_globally nl la0 lo0 la1 lo1 odd_latest = Ok (lat', Some lon') /\
     lat' == r /\ Qabs (lat' - lat) <= Dlat odd_latest / 262144 /\ -180 <= lon' < 180 /\
     exists k, Qabs (lon' - (lon + 360 * inject_Z k)) <= Dlon (nl r) odd_latest / 262144).
Proof.
  intros Hnl Hlat re ro r. unfold encode. fold re ro.
  destruct (global_lats lat Hlat) as [Ee Eo]. fold re in Ee. fold ro in Eo.
  unfold decode_globally.
  cbv zeta in Ee, Eo |- *.
  match type of Ee with ?x == _ => set (lat_e := x) in * end.
  match type of Eo with ?x == _ => set (lat_o := x) in * end.
  rewrite (nl_proper _ _ Ee), (nl_proper _ _ Eo).
  split.
  { intros Hne. destruct (Z.eqb_spec (nl re) (nl ro)); [congruence|reflexivity]. }
  intros Heq Hodd. rewrite <- Heq, Z.eqb_refl. cbn [negb].
  assert (Elat : (if odd_latest then lat_o else lat_e) == r) by (destruct odd_latest; assumption).
  rewrite (nl_proper _ _ Elat).
  assert (Er : nl r = nl re) by (unfold r; destruct odd_latest; auto).
  rewrite Er. set (N := nl re) in *. pose proof (Hnl re) as HN. fold N in HN.
  assert (Herr : Qabs ((if odd_latest then lat_o else lat_e) - lat) <= Dlat odd_latest / 262144).
  { destruct (quantised_error lat (Dlat odd_latest) (Dlat_pos odd_latest)) as [A B].
    apply Qabs_Qle_condition. rewrite Elat. unfold r. destruct odd_latest; fold re ro in A, B; lra. }
  set (i0 := idx (lon / Dlon N false)). set (i1 := idx (lon / Dlon N true)).
  rewrite !code_idx by apply Dlon_pos. fold i0 i1.
  set (m := Qfloor _).
  assert (Hm : (2 <= N)%Z -> m = (N * (i1 / 131072) - (N - 1) * (i0 / 131072))%Z).
  { intros H2.
    assert (NZ : 2 <= inject_Z N) by (change 2 with (inject_Z 2); now rewrite <- Zle_Qle).
    rewrite <- (zone_index N (lon / 360) i0 i1).
    - unfold m. apply Qfloor_comp. unfold two17. field.
    - lia.
    - apply idx_comp. unfold Dlon, lon_zones. rewrite Z.max_l by lia. field. lra.
    - apply idx_comp. unfold Dlon, lon_zones. rewrite Z.max_l by lia. unfold Z.sub.
      rewrite inject_plus. change (inject_Z (- (1))) with (- (1)). field. lra. }
  destruct odd_latest.
  - (* odd frame last *)
    specialize (Hodd eq_refl). rewrite <- Heq in Hodd. fold N in Hodd.
    assert (NZ : 2 <= inject_Z N) by (change 2 with (inject_Z 2); now rewrite <- Zle_Qle).
    destruct (Z.leb_spec N 1); [lia|].
    unfold rem_euclid. destruct (Z.eqb_spec (N - 1) 0); [lia|].
    rewrite Z.abs_eq by lia. rewrite Hm by auto. rewrite zone_mod_odd by lia.
    set (D := 360 / (inject_Z N - 1)).
    assert (ED : D == Dlon N true).
    { unfold D, Dlon, lon_zones. rewrite Z.max_l by lia. unfold Z.sub. rewrite inject_plus. reflexivity. }
    destruct (axis_mod (N - 1) D i1) as [E B]; [lia| |].
    { unfold D, Z.sub. rewrite inject_plus. change (inject_Z (- (1))) with (- (1)). field. lra. }
    destruct (wrap_lon _ B) as [W1 W2]. cbv zeta in W1, W2.
    eexists. eexists. split; [reflexivity|]. split; [exact Elat|]. split; [exact Herr|].
    split; [exact W1|].
    eapply close_turn; [apply Dlon_pos| |exact W2].
    rewrite E, quantised_idx by apply Dlon_pos. fold i1. rewrite ED. reflexivity.
  - (* even frame last *)
    assert (NZ : 1 <= inject_Z N) by (change 1 with (inject_Z 1); now rewrite <- Zle_Qle).
    destruct (Z.ltb_spec N 1); [lia|].
    unfold rem_euclid. destruct (Z.eqb_spec N 0); [lia|].
    rewrite Z.abs_eq by lia.
    assert (Hmm : (m mod N = (i0 / 131072) mod N)%Z).
    { destruct (Z.eq_dec N 1) as [->|]; [now rewrite !Z.mod_1_r|].
      rewrite Hm by lia. apply zone_mod_even. lia. }
    rewrite Hmm.
    set (D := 360 / inject_Z N).
    assert (ED : D == Dlon N false).
    { unfold D, Dlon, lon_zones. rewrite Z.max_l by lia. reflexivity. }
    destruct (axis_mod N D i0) as [E B]; [lia| |].
    { unfold D. field. lra. }
    destruct (wrap_lon _ B) as [W1 W2]. cbv zeta in W1, W2.
    eexists. eexists. split; [reflexivity|]. split; [exact Elat|]. split; [exact Herr|].
    split; [exact W1|].
    eapply close_turn; [apply Dlon_pos| |exact W2].
    rewrite E, quantised_idx by apply Dlon_pos. fold i0. rewrite ED. reflexivity.
Qed.
End Decode.
