(** Proofs about bracketed root finders. *)
From Coq Require Import List QArith Qabs Qminmax Bool Lqa Qfield Setoid Lia.
From Verif Require Import Qb Root_Model Root_Spec.
Local Open Scope Q_scope.

Lemma same_sign_false a b : same_sign a b = false <-> sign_change a b.
Proof. unfold same_sign, neg, sign_change. destruct (qltb_r a 0), (qltb_r b 0); cbn; split; intros; try discriminate; try reflexivity; lra. Qed.
Lemma same_sign_true a b : same_sign a b = true <-> ~ sign_change a b.
Proof. rewrite <- same_sign_false. destruct (same_sign a b); split; congruence. Qed.
Lemma sign_change_sym a b : sign_change a b -> sign_change b a.
Proof. unfold sign_change. lra. Qed.
Lemma sign_change_other a b c : sign_change a b -> ~ sign_change c b -> sign_change c a.
Proof. unfold sign_change. lra. Qed.

(** ** The interpolation step stays on the near side of the bracket *)
Lemma abs_pos x y : y < Qabs x -> 0 <= y -> ~ x == 0.
Proof. intros H P E. rewrite E in H. cbn in H. change (Qabs 0) with 0 in H. lra. Qed.
Lemma accepted p q m tol : 0 <= p -> p * 2 < m * (3 * q) - Qabs (tol * q) -> exists k, 0 <= k /\ k <= 3 # 2 /\ p / q == k * m.
Proof.
  intros P H. pose proof (Qabs_nonneg (tol * q)) as A.
  assert (MQ : 0 < m * q) by lra.
  assert (Q0 : ~ q == 0) by (intros E; rewrite E in MQ; lra).
  assert (M0 : ~ m == 0) by (intros E; rewrite E in MQ; lra).
  exists (p / (m * q)). split; [|split].
  - apply Qle_shift_div_l; [assumption|]. lra.
  - apply Qle_shift_div_r; [assumption|]. lra.
  - field. auto.
Qed.
Lemma proposal_ok s m tol e d : proposal s m tol = (e, d) -> exists k, 0 <= k /\ k <= 3 # 2 /\ d == k * m.
Proof.
  assert (B : exists k, 0 <= k /\ k <= 3 # 2 /\ m == k * m) by (exists 1; repeat split; lra).
  unfold proposal. destruct s as [a b c fa fb fc d0 e0]. intros H. destruct (qltb (Qabs e0) tol || qleb (Qabs fa) (Qabs fb)); [now injection H as <- <-|].
  set (pq := if qltb (Qabs (a - c)) coincidence_eps then _ else _) in H. destruct pq as [p q].
  destruct (qltb_r 0 p) as [P|P].
  - destruct (qltb_r (p * 2) (m * (3 * - q) - Qabs (tol * - q))) as [A|A]; cbn [andb] in H; [|now injection H as <- <-].
    destruct (qltb p _); [|now injection H as <- <-]. injection H as <- <-. apply (accepted p (- q) m tol); [lra|assumption].
  - destruct (qltb_r (- p * 2) (m * (3 * q) - Qabs (tol * q))) as [A|A]; cbn [andb] in H; [|now injection H as <- <-].
    destruct (qltb (- p) _); [|now injection H as <- <-]. injection H as <- <-. apply (accepted (- p) q m tol); [lra|assumption].
Qed.
Lemma proposal2_ok s m tol e d : proposal2 s m tol = (e, d) -> exists k, 0 <= k /\ k <= 3 # 2 /\ d == k * m.
Proof.
  assert (B : exists k, 0 <= k /\ k <= 3 # 2 /\ m == k * m) by (exists 1; repeat split; lra).
  unfold proposal2. destruct s as [a b c fa fb fc d0 e0]. intros H. destruct (qleb tol (Qabs e0) && qltb (Qabs fb) (Qabs fa)); [|now injection H as <- <-].
  set (pq := if qleb (Qabs (a - c)) epsilon then _ else _) in H. destruct pq as [p q]. set (q' := if qltb 0 p then - q else q) in H.
  destruct (qltb_r (2 * Qabs p) (Qmin (3 * m * q' - Qabs (tol * q')) (Qabs (e0 * q')))) as [A|A]; [|now injection H as <- <-]. injection H as <- <-.
  pose proof (Q.le_min_l (3 * m * q' - Qabs (tol * q')) (Qabs (e0 * q'))). apply (accepted (Qabs p) q' m tol); [apply Qabs_nonneg|lra].
Qed.
(** The tolerance step is shorter than half the bracket. *)
Lemma nudge m tol k d : 0 <= k -> k <= 3 # 2 -> d == k * m -> tol < Qabs m -> exists j, 0 <= j /\ j <= 3 # 2 /\ (if qltb tol (Qabs d) then d else if qltb 0 m then tol else - tol) == j * m.
Proof.
  intros K1 K2 E T. destruct (qltb_r tol (Qabs d)) as [L|L]; [now exists k|]. pose proof (Qabs_nonneg d).
  assert (M0 : ~ m == 0) by (apply (abs_pos m tol); [assumption|lra]).
  destruct (qltb_r 0 m) as [M|M].
  - rewrite Qabs_pos in T by lra. exists (tol / m). split; [apply Qle_shift_div_l; lra|]. split; [apply Qle_shift_div_r; lra|]. field. assumption.
  - assert (m < 0) by lra. rewrite Qabs_neg in T by lra. exists (tol / (- m)). split; [apply Qle_shift_div_l; lra|]. split; [apply Qle_shift_div_r; lra|]. field. lra.
Qed.
Lemma convex L H b c k : L <= b <= H -> L <= c <= H -> 0 <= k -> k <= 3 # 2 -> L <= b + k * ((c - b) * (1 # 2)) <= H.
Proof.
  intros B C K1 K2. set (x := b + k * ((c - b) * (1 # 2))). assert (E : x == b * (1 - k * (1 # 2)) + c * (k * (1 # 2))) by (unfold x; ring).
  assert (P1 : 0 <= 1 - k * (1 # 2)) by lra. assert (P2 : 0 <= k * (1 # 2)) by lra. clearbody x.
  set (u := 1 - k * (1 # 2)) in *. assert (U : k * (1 # 2) == 1 - u) by (unfold u; ring). rewrite U in *. clearbody u. split; rewrite E; nra.
Qed.

(** ** The default finder *)
Section Engine.
Variables (f : Q -> Q) (L H tol : Q).
Record inv (s : bst) : Prop := {
  i_b : L <= bb s <= H; i_c : L <= bc s <= H;
  i_fb : bfb s = f (bb s); i_fc : bfc s = f (bc s); i_sign : sign_change (bfb s) (bfc s) }.
Lemma brent_step_inv s s' : inv s -> brent_step f tol s = inr s' -> inv s'.
Proof.
  intros [Ib Ic Ifb Ifc Is] E. unfold brent_step in E. destruct (qltb_r (Qabs (bfb s)) f_eps) as [|F]; [discriminate|].
  destruct (qleb_r (Qabs ((bc s - bb s) * (1 # 2))) tol) as [|T]; [discriminate|]. cbn [orb] in E.
  destruct (proposal s ((bc s - bb s) * (1 # 2)) tol) as [e d] eqn:P. destruct (proposal_ok _ _ _ _ _ P) as (k & K1 & K2 & Kd).
  destruct (nudge ((bc s - bb s) * (1 # 2)) tol k d K1 K2 Kd) as (j & J1 & J2 & Jd); [lra|].
  set (b := Qred _) in E. assert (B : L <= b <= H) by (unfold b; rewrite Qred_correct, Jd; now apply convex). clearbody b.
  destruct (same_sign (f b) (bfc s)) eqn:S.
  - apply same_sign_true in S. assert (S' : sign_change (f b) (bfb s)) by (now apply (sign_change_other _ (bfc s))).
    destruct (qltb (Qabs (bfb s)) (Qabs (f b))); injection E as <-; constructor; cbn [bb bc bfb bfc]; auto. now apply sign_change_sym.
  - apply same_sign_false in S. destruct (qltb (Qabs (bfc s)) (Qabs (f b))); injection E as <-; constructor; cbn [bb bc bfb bfc]; auto. now apply sign_change_sym.
Qed.
Lemma brent_loop_ok n s : inv s -> exists x, brent_loop f tol n s = x /\ L <= x <= H /\
  (Qabs (f x) < f_eps \/ exists y, L <= y <= H /\ sign_change (f x) (f y) /\
     (Qabs (x - y) <= 2 * tol \/ exists s', passes (brent_step f tol) n s s' /\ bb s' = x)).
Proof.
  revert s. induction n as [|n IH]; intros s I.
  - exists (bb s). split; [reflexivity|]. destruct I as [Ib Ic Ifb Ifc Is]. split; [assumption|]. right. exists (bc s). split; [assumption|]. rewrite <- Ifb, <- Ifc. split; [assumption|]. right. exists s. split; [constructor|reflexivity].
  - cbn [brent_loop]. destruct (brent_step f tol s) as [x|s'] eqn:E.
    + exists x. split; [reflexivity|]. destruct I as [Ib Ic Ifb Ifc Is]. unfold brent_step in E. destruct (qltb_r (Qabs (bfb s)) f_eps) as [F|F].
      * injection E as <-. split; [assumption|]. left. now rewrite <- Ifb.
      * destruct (qleb_r (Qabs ((bc s - bb s) * (1 # 2))) tol) as [T|T]; cbn [orb] in E.
        -- injection E as <-. split; [assumption|]. right. exists (bc s). split; [assumption|]. rewrite <- Ifb, <- Ifc. split; [assumption|]. left.
           rewrite Qabs_Qmult in T. change (Qabs (1 # 2)) with (1 # 2) in T. rewrite Qabs_Qminus. lra.
        -- destruct (proposal s _ tol) as [e d]. destruct (same_sign _ _); discriminate.
    + destruct (IH s' (brent_step_inv s s' I E)) as (x & Hx & R & C). exists x. split; [assumption|]. split; [assumption|].
      destruct C as [C|(y & Y & S & [C|(s'' & P & B)])]; [now left|right; exists y; auto|]. right. exists y. split; [assumption|]. split; [assumption|]. right. exists s''. split; [econstructor; eassumption|assumption].
Qed.
End Engine.

(** The state from which the loop starts. *)
Definition first_state (lo hi f_lo f_hi : Q) : bst :=
  if qltb (Qabs f_lo) (Qabs f_hi) then Bst hi lo hi f_hi f_lo f_hi (lo - hi) (lo - hi) else Bst lo hi lo f_lo f_hi f_lo (hi - lo) (hi - lo).
Lemma between_min lo hi x : between lo hi x <-> Qmin lo hi <= x <= Qmax lo hi.
Proof.
  unfold between. destruct (Q.min_spec lo hi) as [[? ->]|[? ->]], (Q.max_spec lo hi) as [[? ->]|[? ->]]; lra.
Qed.
Theorem engine lo hi f_lo f_hi f tol x : f_lo = f lo -> f_hi = f hi -> brent_engine lo hi f_lo f_hi f tol = Some x ->
  between lo hi x /\
  (Qabs (f x) < f_eps \/ exists y, between lo hi y /\ sign_change (f x) (f y) /\
     (Qabs (x - y) <= 2 * tol \/ exists s', passes (brent_step f tol) 100 (first_state lo hi f_lo f_hi) s' /\ bb s' = x)).
Proof.
  intros E1 E2 H. unfold brent_engine in H. 
  destruct (qltb_r (Qabs f_lo) f_eps) as [|F1]; [injection H as <-; split; [unfold between; destruct (Qlt_le_dec lo hi); lra|left; now rewrite <- E1]|].
  destruct (qltb_r (Qabs f_hi) f_eps) as [|F2]; [injection H as <-; split; [unfold between; destruct (Qlt_le_dec lo hi); lra|left; now rewrite <- E2]|].
  destruct (same_sign f_lo f_hi) eqn:S; [discriminate|]. apply same_sign_false in S.
  assert (Bl : Qmin lo hi <= lo <= Qmax lo hi) by (apply between_min; unfold between; destruct (Qlt_le_dec lo hi); lra).
  assert (Bh : Qmin lo hi <= hi <= Qmax lo hi) by (apply between_min; unfold between; destruct (Qlt_le_dec lo hi); lra).
  assert (I : inv f (Qmin lo hi) (Qmax lo hi) (first_state lo hi f_lo f_hi)).
  { unfold first_state. destruct (qltb (Qabs f_lo) (Qabs f_hi)); constructor; cbn [bb bc bfb bfc]; auto. now apply sign_change_sym. }
  destruct (brent_loop_ok f _ _ tol brent_max_iter _ I) as (x' & Hx & R & C). change brent_max_iter with 100%nat in *.
  assert (X : x' = x) by (unfold first_state in Hx; destruct (qltb (Qabs f_lo) (Qabs f_hi)); injection H as H; rewrite <- Hx, <- H; reflexivity).
  clear Hx. subst x'. split; [rewrite between_min; assumption|]. destruct C as [C|(y & Y & C)]; [now left|]. right. exists y. split; [rewrite between_min; assumption|]. exact C.
Qed.
Theorem engine_none lo hi f_lo f_hi f tol : brent_engine lo hi f_lo f_hi f tol = None <-> f_eps <= Qabs f_lo /\ f_eps <= Qabs f_hi /\ ~ sign_change f_lo f_hi.
Proof.
  unfold brent_engine. destruct (qltb_r (Qabs f_lo) f_eps); [split; [discriminate|lra]|]. destruct (qltb_r (Qabs f_hi) f_eps); [split; [discriminate|lra]|].
  destruct (same_sign f_lo f_hi) eqn:S.
  - apply same_sign_true in S. split; [intros _|reflexivity]. repeat split; try lra. exact S.
  - apply same_sign_false in S. split; [|tauto]. destruct (qltb _ _); discriminate.
Qed.

(** On intervals of time *)
Definition first_offset (start stop f_lo f_hi : Q) : bst := first_state 0 (Qred (stop - start)) f_lo f_hi.
Theorem core start stop f_lo f_hi f tol x : f_lo = f (Qred start) -> f_hi = f (Qred stop) -> brent_core start stop f_lo f_hi f tol = Some x ->
  between start stop x /\
  (Qabs (f x) < f_eps \/ exists y, between start stop y /\ sign_change (f x) (f y) /\
     (Qabs (x - y) <= 2 * tol \/ exists s', passes (brent_step (fun o => f (Qred (start + o))) tol) 100 (first_offset start stop f_lo f_hi) s' /\ x = Qred (start + bb s'))).
Proof.
  intros E1 E2 H. unfold brent_core in H. destruct (brent_engine _ _ _ _ _ _) as [o|] eqn:E; [|discriminate]. injection H as <-.
  assert (B : forall z, between 0 (Qred (stop - start)) z -> between start stop (Qred (start + z))) by (unfold between; intros z Hz; rewrite Qred_correct in *; lra).
  destruct (engine 0 (Qred (stop - start)) f_lo f_hi (fun o => f (Qred (start + o))) tol o) as (R & C).
  - rewrite E1. f_equal. apply Qred_complete. ring.
  - rewrite E2. f_equal. apply Qred_complete. rewrite Qred_correct. ring.
  - exact E.
  - split; [now apply B|]. destruct C as [C|(y & Y & S & C)]; [now left|]. right. exists (Qred (start + y)). split; [now apply B|]. split; [assumption|].
    destruct C as [C|(s' & P & X)]; [left; assert (Z : Qred (start + o) - Qred (start + y) == o - y) by (rewrite !Qred_correct; ring); rewrite Z; assumption|].
    right. exists s'. split; [exact P|]. now rewrite X.
Qed.
Theorem core_none start stop f_lo f_hi f tol : brent_core start stop f_lo f_hi f tol = None <-> f_eps <= Qabs f_lo /\ f_eps <= Qabs f_hi /\ ~ sign_change f_lo f_hi.
Proof. unfold brent_core. rewrite <- (engine_none 0 (Qred (stop - start)) f_lo f_hi (fun o => f (Qred (start + o))) tol). destruct (brent_engine _ _ _ _ _ _); split; congruence. Qed.

(** ** Bisection *)
Lemma ends a b : between a b a /\ between a b b.
Proof. unfold between. destruct (Qlt_le_dec a b); lra. Qed.
Lemma bisect_loop_ok f n a b fa x : fa = f a -> (exists z, sign_change fa (f z) /\ z = b) -> bisect_loop f n a b fa = x ->
  between a b x /\ (Qabs (f x) < f_eps \/ exists u v, between a b u /\ between a b v /\ sign_change (f u) (f v) /\ x == (u + v) / 2 /\
     (Qabs (v - u) < default_tol \/ Qabs (v - u) == Qabs (b - a) / inject_Z (2 ^ Z.of_nat n))).
Proof.
  revert a b fa. induction n as [|n IH]; intros a b fa E (z & Sz & ->) H; cbn [bisect_loop] in H.
  - subst x. assert (M : Qred ((a + b) * (1 # 2)) == (a + b) / 2) by (rewrite Qred_correct; field).
    split; [unfold between; rewrite M; destruct (Qlt_le_dec a b); [left|right]; split; (apply Qle_shift_div_l + apply Qle_shift_div_r); lra|].
    right. exists a, b. rewrite <- E. split; [apply ends|]. split; [apply ends|]. split; [assumption|]. split; [assumption|]. right. change (inject_Z (2 ^ Z.of_nat 0)) with 1. field.
  - set (mid := Qred ((a + b) * (1 # 2))) in *. assert (M : mid * 2 == a + b) by (unfold mid; rewrite Qred_correct; ring). clearbody mid.
    assert (Bm : between a b mid) by (unfold between; destruct (Qlt_le_dec a b); lra).
    destruct (qltb_r (Qabs (f mid)) f_eps) as [F|F]; cbn [orb] in H; [subst x; auto|].
    destruct (qltb_r (Qabs (b - a)) default_tol) as [W|W].
    + subst x. split; [assumption|]. right. exists a, b. rewrite <- E. split; [apply ends|]. split; [apply ends|]. split; [assumption|]. split; [setoid_replace (a + b) with (mid * 2) by lra; field|]. now left.
    + assert (P : forall u v : Q, Qabs (v - u) * 2 == Qabs (b - a) -> Qabs (v - u) / inject_Z (2 ^ Z.of_nat n) == Qabs (b - a) / inject_Z (2 ^ Z.of_nat (S n))).
      { intros u v U. rewrite <- U. rewrite Nat2Z.inj_succ, Z.pow_succ_r by lia. rewrite inject_Z_mult. change (inject_Z 2) with 2. field.
        intros X. apply (eq_sym) in X || idtac. unfold inject_Z, Qeq in X. cbn in X. assert (0 < 2 ^ Z.of_nat n)%Z by (apply Z.pow_pos_nonneg; lia). lia. }
      destruct (same_sign fa (f mid)) eqn:Sg.
      * apply same_sign_true in Sg. destruct (IH mid b (f mid) eq_refl) as (R & C); [exists b; split; [|reflexivity]; destruct (f b); revert Sz Sg; unfold sign_change; lra|exact H|].
        assert (Sub : forall y, between mid b y -> between a b y) by (unfold between; intros; destruct (Qlt_le_dec a b); lra).
        split; [now apply Sub|]. destruct C as [C|(u & v & Bu & Bv & SC & X & C)]; [now left|]. right. exists u, v. repeat split; auto. destruct C as [C|C]; [now left|right]. rewrite C. apply P.
        setoid_replace (b - mid) with ((b - a) * (1 # 2)) by lra. rewrite Qabs_Qmult. change (Qabs (1 # 2)) with (1 # 2). lra.
      * apply same_sign_false in Sg. destruct (IH a mid fa E) as (R & C); [now exists mid|exact H|].
        assert (Sub : forall y, between a mid y -> between a b y) by (unfold between; intros; destruct (Qlt_le_dec a b); lra).
        split; [now apply Sub|]. destruct C as [C|(u & v & Bu & Bv & SC & X & C)]; [now left|]. right. exists u, v. repeat split; auto. destruct C as [C|C]; [now left|right]. rewrite C. apply P.
        setoid_replace (mid - a) with ((b - a) * (1 # 2)) by lra. rewrite Qabs_Qmult. change (Qabs (1 # 2)) with (1 # 2). lra.
Qed.
Lemma some_inj {A} (a b : A) : Some a = Some b -> a = b.
Proof. congruence. Qed.
Theorem bisect lo hi f x : bisection lo hi f = Some x ->
  between lo hi x /\ (Qabs (f x) < f_eps \/ exists u v, between lo hi u /\ between lo hi v /\ sign_change (f u) (f v) /\ x == (u + v) / 2 /\
     (Qabs (v - u) < default_tol \/ Qabs (v - u) == Qabs (hi - lo) / inject_Z (2 ^ 80))).
Proof.
  intros H. unfold bisection in H.
  destruct (qltb_r (Qabs (f lo)) f_eps) as [|F1]; [injection H as <-; split; [unfold between; destruct (Qlt_le_dec lo hi); lra|now left]|].
  destruct (qltb_r (Qabs (f hi)) f_eps) as [|F2]; [injection H as <-; split; [unfold between; destruct (Qlt_le_dec lo hi); lra|now left]|].
  destruct (same_sign (f lo) (f hi)) eqn:S; [discriminate|]. apply same_sign_false in S. apply some_inj in H.
  apply (bisect_loop_ok f bisect_max_iter lo hi (f lo) x); auto. now exists hi.
Qed.
Theorem bisect_none lo hi f : bisection lo hi f = None <-> f_eps <= Qabs (f lo) /\ f_eps <= Qabs (f hi) /\ ~ sign_change (f lo) (f hi).
Proof.
  unfold bisection. destruct (qltb_r (Qabs (f lo)) f_eps); [split; [discriminate|lra]|]. destruct (qltb_r (Qabs (f hi)) f_eps); [split; [discriminate|lra]|].
  destruct (same_sign (f lo) (f hi)) eqn:S.
  - apply same_sign_true in S. split; [intros _|reflexivity]. repeat split; try lra. exact S.
  - apply same_sign_false in S. split; [discriminate|tauto].
Qed.

(** ** The finder of the scan *)
Section Scan.
Variables (f : Q -> Q) (L H tt res : Q).
Hypothesis wide : forall x, L <= x <= H -> 4 * epsilon * Qabs x <= 3 * tt.
Record inv2 (s : bst) : Prop := {
  j_a : L <= ba s <= H; j_b : L <= bb s <= H; j_c : L <= bc s <= H;
  j_fa : bfa s = f (ba s); j_fb : bfb s = f (bb s); j_fc : bfc s = f (bc s); j_sign : sign_change (bfa s) (bfc s) \/ sign_change (bfb s) (bfc s) }.
Lemma rebracket_inv s : inv2 s -> inv f L H (rebracket s).
Proof.
  intros [Ia Ib Ic Ifa Ifb Ifc Is]. destruct s as [a b c fa fb fc d e]. cbn [ba bb bc bfa bfb bfc] in *. unfold rebracket. destruct (same_sign fb fc) eqn:S.
  - apply same_sign_true in S. assert (S' : sign_change fb fa) by (unfold sign_change in *; lra). destruct (qltb (Qabs fa) (Qabs fb)); constructor; cbn; auto. now apply sign_change_sym.
  - apply same_sign_false in S. destruct (qltb (Qabs fc) (Qabs fb)); constructor; cbn; auto. now apply sign_change_sym.
Qed.
Lemma brent2_step_inv s s' : inv2 s -> brent2_step f tt res s = inr s' -> inv2 s'.
Proof.
  intros I E. apply rebracket_inv in I. unfold brent2_step in E. set (r := rebracket s) in *. clearbody r. destruct I as [Ib Ic Ifb Ifc Is].
  set (tol1 := 2 * epsilon * Qabs (bb r) + tt * (1 # 2)) in *. destruct (qleb_r (Qabs ((1 # 2) * (bc r - bb r))) tol1) as [T|T].
  - unfold converged in E. destruct (qleb (Qabs (bfb r)) res); cbn [orb] in E; [discriminate|]. destruct (qleb_r (Qabs (bc r - bb r)) (tt * 4)) as [|W]; [discriminate|]. exfalso.
    rewrite Qabs_Qmult in T. change (Qabs (1 # 2)) with (1 # 2) in T. pose proof (wide (bb r) Ib). unfold tol1 in T. lra.
  - destruct (qleb (Qabs (bfb r)) res); [discriminate|]. destruct (proposal2 r _ tol1) as [e d] eqn:P. destruct (proposal2_ok _ _ _ _ _ P) as (k & K1 & K2 & Kd).
    destruct (nudge ((1 # 2) * (bc r - bb r)) tol1 k d K1 K2 Kd) as (j & J1 & J2 & Jd); [lra|]. pose proof (Qabs_nonneg d).
    assert (M : exists j, 0 <= j /\ j <= 3 # 2 /\ (if qltb tol1 (Qabs d) then d else if qltb ((1 # 2) * (bc r - bb r)) 0 then - tol1 else tol1) == j * ((1 # 2) * (bc r - bb r))).
    { destruct (qltb_r tol1 (Qabs d)); [now exists j|]. exists j. split; [assumption|]. split; [assumption|]. rewrite <- Jd.
      destruct (qltb_r ((1 # 2) * (bc r - bb r)) 0), (qltb_r 0 ((1 # 2) * (bc r - bb r))); try lra. exfalso. apply T. rewrite Qabs_pos by lra. lra. }
    clear j J1 J2 Jd. destruct M as (j & J1 & J2 & Jd). set (b := Qred _) in E.
    assert (B : L <= b <= H) by (unfold b; rewrite Qred_correct, Jd; setoid_replace ((1 # 2) * (bc r - bb r)) with ((bc r - bb r) * (1 # 2)) by ring; now apply convex). clearbody b.
    injection E as <-. constructor; cbn; auto.
Qed.
Lemma brent2_loop_ok n s x : inv2 s -> brent2_loop f tt res n s = Some x -> L <= x <= H /\
  (Qabs (f x) <= res \/ (exists y, L <= y <= H /\ sign_change (f x) (f y) /\ Qabs (x - y) <= 4 * tt) \/
   exists s', passes (brent2_step f tt res) n s s' /\ bb s' = x).
Proof.
  revert s. induction n as [|n IH]; intros s I E.
  - cbn [brent2_loop] in E. destruct (converged _ _ _ _); [|discriminate]. injection E as <-. split; [apply I|]. right. right. exists s. split; [constructor|reflexivity].
  - cbn [brent2_loop] in E. destruct (brent2_step f tt res s) as [y|s'] eqn:St.
    + injection E as ->. apply rebracket_inv in I. unfold brent2_step in St. set (r := rebracket s) in *. clearbody r. destruct I as [Ib Ic Ifb Ifc Is].
      destruct (qleb_r (Qabs ((1 # 2) * (bc r - bb r))) (2 * epsilon * Qabs (bb r) + tt * (1 # 2))) as [T|T].
      * unfold converged in St. destruct (qleb_r (Qabs (bfb r)) res) as [R|R]; cbn [orb] in St.
        -- injection St as <-. split; [assumption|]. left. now rewrite <- Ifb.
        -- destruct (qleb_r (Qabs (bc r - bb r)) (tt * 4)) as [W|W].
           ++ injection St as <-. split; [assumption|]. right. left. exists (bc r). split; [assumption|]. rewrite <- Ifb, <- Ifc. split; [assumption|]. rewrite Qabs_Qminus. lra.
           ++ destruct (proposal2 r _ _); discriminate.
      * destruct (qleb_r (Qabs (bfb r)) res) as [R|R]; [|destruct (proposal2 r _ _); discriminate]. injection St as <-. split; [assumption|]. left. now rewrite <- Ifb.
    + destruct (IH s' (brent2_step_inv s s' I St) E) as (R & C). split; [assumption|]. destruct C as [C|[C|(s'' & P & B)]]; [now left|right; now left|]. right. right. exists s''. split; [econstructor; eassumption|assumption].
Qed.
Lemma brent2_loop_none n s : inv2 s -> brent2_loop f tt res n s = None -> exists s', passes (brent2_step f tt res) n s s' /\ inv2 s' /\ res < Qabs (bfb s').
Proof.
  revert s. induction n as [|n IH]; intros s I E; cbn [brent2_loop] in E.
  - unfold converged in E. destruct (qleb_r (Qabs (bfb s)) res) as [|R]; cbn [orb] in E; [discriminate|]. exists s. split; [constructor|]. split; [assumption|lra].
  - destruct (brent2_step f tt res s) as [|s'] eqn:St; [discriminate|]. destruct (IH s' (brent2_step_inv _ _ I St) E) as (s'' & P & J). exists s''. split; [econstructor; eassumption|assumption].
Qed.
End Scan.
Definition first_state2 (lo hi f_lo f_hi : Q) : bst := Bst lo hi lo f_lo f_hi f_lo (hi - lo) (hi - lo).
Lemma abs_le a b x : a <= x <= b -> Qabs x <= Qmax (Qabs a) (Qabs b).
Proof.
  intros (A & B). pose proof (Q.le_max_l (Qabs a) (Qabs b)). pose proof (Q.le_max_r (Qabs a) (Qabs b)). pose proof (Qle_Qabs b). pose proof (Qle_Qabs (- a)). rewrite Qabs_opp in *.
  apply Qabs_case; intros; lra.
Qed.
Theorem scan_root lo hi f_lo f_hi f tt res x : f_lo = f lo -> f_hi = f hi -> 4 * epsilon * Qmax (Qabs lo) (Qabs hi) <= 3 * tt ->
  brent_f64 lo hi f_lo f_hi f tt res = Some x -> lo <= x <= hi /\
  (Qabs (f x) <= res \/ (exists y, lo <= y <= hi /\ sign_change (f x) (f y) /\ Qabs (x - y) <= 4 * tt) \/
   exists s', passes (brent2_step f tt res) 100 (first_state2 lo hi f_lo f_hi) s' /\ bb s' = x).
Proof.
  intros E1 E2 W E. unfold brent_f64 in E. destruct (qltb_r hi lo); [discriminate|].
  destruct (qleb_r (Qabs f_lo) res) as [|F1]; [injection E as <-; split; [lra|left; now rewrite <- E1]|].
  destruct (qleb_r (Qabs f_hi) res) as [|F2]; [injection E as <-; split; [lra|left; now rewrite <- E2]|].
  destruct (same_sign f_lo f_hi) eqn:S; [discriminate|]. apply same_sign_false in S. fold (first_state2 lo hi f_lo f_hi) in E.
  apply (brent2_loop_ok f lo hi tt res) with (3 := E); [|constructor; cbn; auto; try lra; right; now apply sign_change_sym].
  intros y Y. pose proof (abs_le _ _ _ Y). pose proof (Qabs_nonneg y). assert (0 < epsilon) by reflexivity. unfold epsilon in *. lra.
Qed.
(** With opposite signs at the ends a root is found unless the passes run out. *)
Theorem scan_root_none lo hi f_lo f_hi f tt res : f_lo = f lo -> f_hi = f hi -> 4 * epsilon * Qmax (Qabs lo) (Qabs hi) <= 3 * tt -> lo <= hi ->
  brent_f64 lo hi f_lo f_hi f tt res = None -> ~ sign_change f_lo f_hi \/ exists s', passes (brent2_step f tt res) 100 (first_state2 lo hi f_lo f_hi) s' /\ res < Qabs (bfb s').
Proof.
  intros E1 E2 W O E. unfold brent_f64 in E. destruct (qltb_r hi lo); [lra|].
  destruct (qleb (Qabs f_lo) res); [discriminate|]. destruct (qleb (Qabs f_hi) res); [discriminate|].
  destruct (same_sign f_lo f_hi) eqn:S; [left; now apply same_sign_true|]. right. apply same_sign_false in S. fold (first_state2 lo hi f_lo f_hi) in E.
  destruct (brent2_loop_none f lo hi tt res) with (3 := E) as (s' & P & _ & R); [|constructor; cbn; auto; try lra; right; now apply sign_change_sym|].
  - intros y Y. pose proof (abs_le _ _ _ Y). pose proof (Qabs_nonneg y). unfold epsilon in *. lra.
  - exists s'. auto.
Qed.
