From Coq Require Import List NArith ZArith QArith Qabs Qminmax Qround Bool Lia Lqa.
From Verif Require Import Base Text DecFloat Fnum Lin Fit_Model.
Import ListNotations.
Local Open Scope Q_scope.

Lemma qlt_iff a b : qlt a b = true <-> a < b.
Proof. unfold qlt. rewrite negb_true_iff. split; intros H. - apply Qnot_le_lt. intros L. apply Qle_bool_iff in L. congruence. - destruct (Qle_bool b a) eqn:X; [|reflexivity]. apply Qle_bool_iff in X. lra. Qed.
Lemma flt_fin a b : flt (Fin a) (Fin b) = true <-> a < b.
Proof. unfold flt. cbn. apply qlt_iff. Qed.

(** ** C139: Gauss-Newton *)
(** One iteration: the assembler's equations at [ps] are solved by [sol] and the update is added entry by entry. *)
Definition iteration {E} (assemble : nat -> list Q -> outcome (equations E) E) (it : nat) (ps : list Q) (sol : solution) (ps' : list Q) : Prop :=
  exists ne, assemble it ps = Ok ne /\ q_params ne = length ps /\ q_solve ne = Ok sol /\ (length (w_update sol) <= length ps)%nat /\ length ps' = length ps /\
  forall k, (k < length ps)%nat -> nth k ps' 0 = match nth_error (w_update sol) k with Some d => nth k ps 0 + d | None => nth k ps 0 end.
(** the change of every parameter is below [tol] times its old magnitude, counted as 1 if smaller *)
Definition small_update (ps us : list Q) (tol : Q) : Prop := 0 < tol /\ forall k d, nth_error us k = Some d -> Qabs d < tol * Qmax (Qabs (nth k ps 0)) 1.
Definition settled (before after tol : Q) : Prop := 0 < before /\ Qabs (after - before) < tol * before.
(** the criterion for stopping after a solution, [last] being the reduced chi-square of the iteration before *)
Definition convergent (tol_rel tol_chi2 : fnum) (ps : list Q) (last : option Q) (sol : solution) : Prop :=
  exists tr tc c, tol_rel = Fin tr /\ tol_chi2 = Fin tc /\ small_update ps (w_update sol) tr /\ last = Some c /\ settled c (reduced sol) tc.
(** iterations [it] up to but not including [j], none of which meets the criterion *)
Inductive quiet {E} (assemble : nat -> list Q -> outcome (equations E) E) (tr tc : fnum) : nat -> list Q -> option Q -> nat -> list Q -> option Q -> Prop :=
| quiet_nil it ps last : quiet assemble tr tc it ps last it ps last
| quiet_cons it ps last sol ps' j q l : iteration assemble it ps sol ps' -> ~ convergent tr tc ps last sol -> quiet assemble tr tc (S it) ps' (Some (reduced sol)) j q l ->
  quiet assemble tr tc it ps last j q l.

Lemma qmax_pos p : 0 < Qmax (Qabs p) 1.
Proof. pose proof (Q.le_max_r (Qabs p) 1). lra. Qed.
Lemma div_lt a b c : 0 < b -> (a / b < c <-> a < c * b).
Proof. intros B. split; intros H; [now apply Qlt_shift_div_r in H || (apply (Qmult_lt_r _ _ (/ b)); [now apply Qinv_lt_0_compat|]; unfold Qdiv in H; rewrite <- Qmult_assoc, Qmult_inv_r, Qmult_1_r by lra; exact H)|now apply Qlt_shift_div_r]. Qed.
Lemma update_spec ps us m r : apply_update ps us m = Some r ->
  length (fst r) = length ps /\ (length us <= length ps)%nat /\
  (forall k, (k < length ps)%nat -> nth k (fst r) 0 = match nth_error us k with Some d => nth k ps 0 + d | None => nth k ps 0 end) /\
  forall tol, snd r < tol <-> m < tol /\ forall k d, nth_error us k = Some d -> Qabs d < tol * Qmax (Qabs (nth k ps 0)) 1.
Proof.
  revert ps m r. induction us as [|d us IH]; intros ps m r H.
  - destruct ps; cbn in H; injection H as <-; cbn [fst snd length]; (split; [reflexivity|]); (split; [lia|]); (split; [|]).
    + intros [|k]; reflexivity.
    + intros tol. split; [intros L; split; [exact L|]; intros [|k] d; discriminate|easy].
    + intros [|k]; reflexivity.
    + intros tol. split; [intros L; split; [exact L|]; intros [|k] d; discriminate|easy].
  - destruct ps as [|p ps]; [discriminate|]. cbn [apply_update] in H.
    set (rel := Qabs d / Qmax (Qabs p) 1) in *. set (m' := if qlt m rel then rel else m) in *.
    destruct (apply_update ps us m') as [[ps' mm]|] eqn:R; [|discriminate]. injection H as <-. cbn [fst snd].
    destruct (IH ps m' _ R) as (A & B & C & D). cbn [fst snd] in *. split; [cbn; now rewrite A|]. split; [cbn; lia|]. split.
    + intros [|k] L; [reflexivity|]. cbn. apply C. cbn in L. lia.
    + intros tol. rewrite D. assert (X : m' < tol <-> m < tol /\ rel < tol).
      { unfold m'. destruct (qlt m rel) eqn:Q; [apply qlt_iff in Q; split; [intros; split|intros []]; lra|].
        assert (rel <= m) by (apply Qnot_lt_le; intros Z; apply qlt_iff in Z; congruence). split; [intros; split|intros []]; lra. }
      rewrite X. unfold rel. rewrite (div_lt _ _ tol (qmax_pos p)). split.
      * intros ((M & Z) & F). split; [exact M|]. intros [|k] e; cbn; [intros Y; injection Y as <-; exact Z|apply F].
      * intros (M & F). split; [split; [exact M|apply (F 0%nat d eq_refl)]|]. intros k e Y. apply (F (S k) e Y).
Qed.

Lemma update_total ps us m : (length us <= length ps)%nat -> apply_update ps us m <> None.
Proof.
  revert ps m. induction us as [|d us IH]; intros [|p ps] m L; try discriminate; [cbn in L; lia|]. cbn [apply_update].
  destruct (apply_update ps us _) as [[? ?]|] eqn:R; [discriminate|]. cbn in L. destruct (IH ps _ (le_S_n _ _ L) R).
Qed.
Section GN.
  Context {E : Type} (assemble : nat -> list Q -> outcome (equations E) E) (max_iter : nat) (tr tc : Q).
  Local Notation iterate := (iterate assemble max_iter (Fin tr) (Fin tc)).
  Local Notation quiet := (quiet assemble (Fin tr) (Fin tc)).
  Local Notation convergent := (convergent (Fin tr) (Fin tc)).
  Definition test (last : option Q) (chi m : Q) : bool := flt (Fin m) (Fin tr) && match chi2_change last chi with Some c => flt (Fin c) (Fin tc) | None => false end.
  Lemma test_iff ps us m last sol ps' : us = w_update sol -> apply_update ps us 0 = Some (ps', m) -> (test last (reduced sol) m = true <-> convergent ps last sol).
  Proof.
    intros -> H. destruct (update_spec _ _ _ _ H) as (_ & _ & _ & D). cbn [snd] in D. unfold test. rewrite andb_true_iff, flt_fin, D. split.
    - intros ((M & F) & C). destruct last as [c|]; [|discriminate]. cbn in C. destruct (qlt 0 c) eqn:P; [|discriminate]. apply qlt_iff in P. apply flt_fin, (div_lt _ _ tc P) in C.
      exists tr, tc, c. repeat split; auto.
    - intros (a & b & c & Ea & Eb & (M & F) & -> & (P & C)). injection Ea as <-. injection Eb as <-. split; [split; auto|]. cbn. rewrite (proj2 (qlt_iff 0 c) P). now apply flt_fin, div_lt.
  Qed.
  (** what one iteration does *)
  Lemma iterate_step rest it ps last sol ps' : iteration assemble it ps sol ps' ->
    (convergent ps last sol /\ iterate (S rest) it ps last = Ok (Report ps' sol (S it))) \/ (~ convergent ps last sol /\ iterate (S rest) it ps last = iterate rest (S it) ps' (Some (reduced sol))).
  Proof.
    intros (ne & A1 & A2 & A3 & A4 & A5 & A6). cbn [Fit_Model.iterate]. rewrite A1, A2, Nat.eqb_refl, A3. cbn [negb].
    destruct (apply_update ps (w_update sol) 0) as [[qs m]|] eqn:U; [|now apply update_total in U].
    destruct (update_spec _ _ _ _ U) as (B1 & _ & B2 & _). cbn [fst] in *.
    assert (qs = ps') as ->. { apply (nth_ext qs ps' 0 0); [congruence|]. intros k L. rewrite B1 in L. now rewrite B2, A6 by assumption. }
    fold (test last (reduced sol) m). pose proof (test_iff _ _ _ last sol _ eq_refl U) as T. destruct (test last (reduced sol) m).
    - left. split; [now apply T|]. now rewrite Nat.add_1_r.
    - right. split; [|reflexivity]. intros C. apply T in C. discriminate.
  Qed.
  Lemma iterate_cases rest it ps last : exists j q l, quiet it ps last j q l /\ (it <= j <= it + rest)%nat /\
    ((j = (it + rest)%nat /\ iterate rest it ps last = Err (DidNotConverge max_iter)) \/
     ((j < it + rest)%nat /\
      ((exists sol ps', iteration assemble j q sol ps' /\ convergent q l sol /\ iterate rest it ps last = Ok (Report ps' sol (S j))) \/
       (exists e, assemble j q = Err e /\ iterate rest it ps last = Err (Assembler e)) \/
       (exists ne, assemble j q = Ok ne /\ q_params ne <> length q /\ iterate rest it ps last = Err (WrongCount (q_params ne) (length q))) \/
       (exists ne e, assemble j q = Ok ne /\ q_params ne = length q /\ q_solve ne = Err e /\ iterate rest it ps last = Err (Solver e)) \/
       (iterate rest it ps last = Panic /\ (assemble j q = Panic \/ exists ne, assemble j q = Ok ne /\ q_params ne = length q /\ (q_solve ne = Panic \/ exists sol, q_solve ne = Ok sol /\ (length q < length (w_update sol))%nat)))))).
  Proof.
    revert it ps last. induction rest as [|rest IH]; intros it ps last.
    - exists it, ps, last. split; [constructor|]. split; [lia|]. left. split; [lia|reflexivity].
    - destruct (assemble it ps) as [ne|e|] eqn:A.
      + destruct (Nat.eq_dec (q_params ne) (length ps)) as [L|L].
        * destruct (q_solve ne) as [sol|e|] eqn:W.
          -- destruct (le_lt_dec (length (w_update sol)) (length ps)) as [U|U].
             ++ assert (I : exists ps', iteration assemble it ps sol ps').
                { destruct (apply_update ps (w_update sol) 0) as [[qs m]|] eqn:X; [|now apply update_total in X]. destruct (update_spec _ _ _ _ X) as (B1 & _ & B2 & _). exists qs, ne. auto 10. }
                destruct I as (ps' & I). destruct (iterate_step rest it ps last sol ps' I) as [[C R]|[C R]].
                ** exists it, ps, last. split; [constructor|]. split; [lia|]. right. split; [lia|]. left. eauto.
                ** destruct (IH (S it) ps' (Some (reduced sol))) as (j & q & l & Q & B & R'). exists j, q, l. split; [now apply quiet_cons with sol ps'|]. split; [lia|]. rewrite R.
                   destruct R' as [[-> R']|[B' R']]; [left; split; [lia|exact R']|right; split; [lia|exact R']].
             ++ exists it, ps, last. split; [constructor|]. split; [lia|]. right. split; [lia|]. do 4 right. split; [|right; exists ne; repeat split; auto; right; eauto].
                cbn [Fit_Model.iterate]. rewrite A, L, Nat.eqb_refl, W. cbn [negb]. destruct (apply_update ps (w_update sol) 0) as [r|] eqn:X; [|reflexivity].
                destruct (update_spec _ _ _ _ X) as (_ & B & _). lia.
          -- exists it, ps, last. split; [constructor|]. split; [lia|]. right. split; [lia|]. do 3 right. left. exists ne, e. repeat split; auto. cbn [Fit_Model.iterate]. now rewrite A, L, Nat.eqb_refl, W.
          -- exists it, ps, last. split; [constructor|]. split; [lia|]. right. split; [lia|]. do 4 right. split; [cbn [Fit_Model.iterate]; now rewrite A, L, Nat.eqb_refl, W|]. right. exists ne. auto.
        * exists it, ps, last. split; [constructor|]. split; [lia|]. right. split; [lia|]. do 2 right. left. exists ne. repeat split; auto. cbn [Fit_Model.iterate]. rewrite A. now rewrite (proj2 (Nat.eqb_neq _ _) L).
      + exists it, ps, last. split; [constructor|]. split; [lia|]. right. split; [lia|]. right. left. exists e. split; [exact A|]. cbn [Fit_Model.iterate]. now rewrite A.
      + exists it, ps, last. split; [constructor|]. split; [lia|]. right. split; [lia|]. do 4 right. split; [|now left]. cbn [Fit_Model.iterate]. now rewrite A.
  Qed.
  Lemma iterate_quiet rest it ps last j q l : quiet it ps last j q l -> (j <= it + rest)%nat -> (it <= j)%nat /\ iterate rest it ps last = iterate (it + rest - j) j q l.
  Proof.
    intros Q. revert rest. induction Q as [it ps last|it ps last sol ps' j q l I C Q IH]; intros rest B.
    - split; [lia|]. now replace (it + rest - it)%nat with rest by lia.
    - assert (S it <= j)%nat. { clear -Q. remember (S it) as k. clear Heqk. induction Q; lia. }
      split; [lia|]. destruct rest as [|rest]; [lia|]. destruct (iterate_step rest it ps last sol ps' I) as [[C' _]|[_ R]]; [contradiction|]. rewrite R.
      destruct (IH rest) as [_ IH']; [lia|]. rewrite IH'. f_equal. lia.
  Qed.
End GN.
(** the options and the initial vector are usable *)
Definition usable (max_iter : nat) (tol_rel tol_chi2 : fnum) (initial : list fnum) : Prop :=
  max_iter <> 0%nat /\ (exists t, tol_rel = Fin t /\ 0 <= t) /\ (exists t, tol_chi2 = Fin t /\ 0 <= t) /\ forall v, In v initial -> exists x, v = Fin x.
Lemma usable_run {E} (assemble : nat -> list Q -> outcome (equations E) E) n tr tc init : usable n tr tc init -> gauss_newton assemble n tr tc init = iterate assemble n tr tc n 0 (map value init) None.
Proof.
  intros (N & (t & -> & T) & (u & -> & U) & F). unfold gauss_newton. rewrite (proj2 (Nat.eqb_neq _ _) N). cbn [finite negb orb].
  assert (X : forall x, 0 <= x -> flt (Fin x) (Fin 0) = false) by (intros x P; destruct (flt (Fin x) (Fin 0)) eqn:Z; [apply flt_fin in Z; lra|reflexivity]). rewrite !X by assumption.
  destruct (find _ init) as [v|] eqn:Z; [|reflexivity]. apply find_some in Z as [I Z]. destruct (F v I) as (x & ->). discriminate.
Qed.
(** the statistic that is watched is the chi-square per degree of freedom: observations beyond the parameters, at least one *)
Theorem C139_statistic s : ((Z.of_nat (w_params s) < Z.of_N (w_obs s))%Z -> reduced s * (inject_Z (Z.of_N (w_obs s)) - inject_Z (Z.of_nat (w_params s))) == w_chi2 s) /\
  ((Z.of_N (w_obs s) <= Z.of_nat (w_params s))%Z -> reduced s == w_chi2 s).
Proof.
  unfold reduced. split; intros L.
  - rewrite Z.max_l by lia. unfold Zminus. rewrite inject_Z_plus, inject_Z_opp. field. intros E.
    assert (Q0 : inject_Z (Z.of_N (w_obs s) - Z.of_nat (w_params s)) == inject_Z 0) by (unfold Zminus; rewrite inject_Z_plus, inject_Z_opp; rewrite <- E; ring).
    apply (proj1 (inject_Z_injective _ _)) in Q0. clear E. lia.
  - rewrite Z.max_r by lia. field.
Qed.
(** Success: the iterations before did not meet the criterion, the last one did; it is never the first. *)
Theorem C139_converged {E} (assemble : nat -> list Q -> outcome (equations E) E) n tr tc init ps sol k : usable n tr tc init ->
  (gauss_newton assemble n tr tc init = Ok (Report ps sol k) <->
   exists j q l, k = S j /\ (1 <= j < n)%nat /\ quiet assemble tr tc 0 (map value init) None j q l /\ iteration assemble j q sol ps /\ convergent tr tc q l sol).
Proof.
  intros U. rewrite (usable_run assemble n tr tc init U). destruct U as (N & (t & -> & T) & (u & -> & V) & F). split.
  - intros H. destruct (iterate_cases assemble n t u n 0 (map value init) None) as (j & q & l & Qt & B & [[_ R]|[B' R]]); [congruence|].
    destruct R as [(s & p & I & C & R)|[(e & _ & R)|[(ne & _ & _ & R)|[(ne & e & _ & _ & _ & R)|(R & _)]]]]; try congruence.
    rewrite H in R. injection R as -> -> ->. exists j, q, l. split; [reflexivity|]. split; [|auto]. split; [|lia].
    destruct j as [|j]; [|lia]. inversion Qt as [|? ? ? ? ? ? ? ? ? ? Qt']; subst; [destruct C as (? & ? & ? & _ & _ & _ & L & _); discriminate|].
    exfalso. clear -Qt'. remember 1%nat as a. remember 0%nat as b. assert (Z : (b < a)%nat) by lia. clear Heqa Heqb. induction Qt'; lia.
  - intros (j & q & l & -> & B & Qt & I & C). destruct (iterate_quiet assemble n t u n 0 _ _ _ _ _ Qt) as [_ R]; [lia|]. rewrite R.
    destruct (0 + n - j)%nat as [|r] eqn:X; [lia|]. now destruct (iterate_step assemble n t u r j q l sol ps I) as [[_ R']|[C' _]].
Qed.
(** Running out of iterations *)
Theorem C139_not_converged {E} (assemble : nat -> list Q -> outcome (equations E) E) n tr tc init : usable n tr tc init ->
  (gauss_newton assemble n tr tc init = Err (DidNotConverge n) <-> exists q l, quiet assemble tr tc 0 (map value init) None n q l).
Proof.
  intros U. rewrite (usable_run assemble n tr tc init U). destruct U as (N & (t & -> & T) & (u & -> & V) & F). split.
  - intros H. destruct (iterate_cases assemble n t u n 0 (map value init) None) as (j & q & l & Qt & B & [[-> R]|[B' R]]); [eauto|].
    destruct R as [(s & p & I & C & R)|[(e & _ & R)|[(ne & _ & _ & R)|[(ne & e & _ & _ & _ & R)|(R & _)]]]]; congruence.
  - intros (q & l & Qt). destruct (iterate_quiet assemble n t u n 0 _ _ _ _ _ Qt) as [_ R]; [lia|]. rewrite R. now replace (0 + n - n)%nat with 0%nat by lia.
Qed.
(** Unusable options are reported in a fixed order, before the assembler is asked. *)
Theorem C139_options {E} (assemble assemble' : nat -> list Q -> outcome (equations E) E) n tr tc init : ~ usable n tr tc init ->
  gauss_newton assemble n tr tc init = gauss_newton assemble' n tr tc init /\
  (n = 0%nat -> gauss_newton assemble n tr tc init = Err NoIterations) /\
  (n <> 0%nat -> (forall t, tr = Fin t -> t < 0) -> gauss_newton assemble n tr tc init = Err (BadTolRel tr)) /\
  (n <> 0%nat -> (exists t, tr = Fin t /\ 0 <= t) -> (forall t, tc = Fin t -> t < 0) -> gauss_newton assemble n tr tc init = Err (BadTolChi2 tc)) /\
  (n <> 0%nat -> (exists t, tr = Fin t /\ 0 <= t) -> (exists t, tc = Fin t /\ 0 <= t) -> exists v a b, init = a ++ v :: b /\ (forall x, In x a -> exists y, x = Fin y) /\ (forall x, v <> Fin x) /\
    gauss_newton assemble n tr tc init = Err (BadInitial v)).
Proof.
  intros NU. unfold gauss_newton. destruct (Nat.eqb_spec n 0) as [->|N]; [repeat split; easy|].
  assert (X : forall x, 0 <= x -> flt (Fin x) (Fin 0) = false) by (intros x P; destruct (flt (Fin x) (Fin 0)) eqn:Z; [apply flt_fin in Z; lra|reflexivity]).
  assert (Y : forall v, negb (finite v) || flt v (Fin 0) = true <-> (forall t, v = Fin t -> t < 0)).
  { intros v. split.
    - intros H t ->. cbn in H. now apply flt_fin in H.
    - intros H. destruct v as [t|b|]; try reflexivity. cbn. apply flt_fin. auto. }
  destruct (negb (finite tr) || flt tr (Fin 0)) eqn:A.
  { split; [reflexivity|]. split; [easy|]. split; [reflexivity|]. pose proof (proj1 (Y tr) A) as A'. split; intros _ (t & Z & P); specialize (A' t Z); lra. }
  destruct (negb (finite tc) || flt tc (Fin 0)) eqn:B.
  { split; [reflexivity|]. split; [easy|]. split; [intros _ H; pose proof (proj2 (Y tr) H); congruence|]. split; [reflexivity|]. pose proof (proj1 (Y tc) B) as B'. intros _ _ (t & Z & P). specialize (B' t Z). lra. }
  destruct (find (fun v => negb (finite v)) init) as [v|] eqn:Z.
  - split; [reflexivity|]. split; [easy|]. split; [intros _ H; pose proof (proj2 (Y tr) H); congruence|]. split; [intros _ _ H; pose proof (proj2 (Y tc) H); congruence|]. intros _ _ _.
    clear NU. revert Z. induction init as [|w init IH]; [discriminate|]. cbn [find]. destruct (negb (finite w)) eqn:W.
    + intros H. injection H as ->. exists v, [], init. repeat split; [easy|]. intros x ->. discriminate.
    + intros H. destruct (IH H) as (v' & a & b & -> & Fa & Fv & R). exists v', (w :: a), b. split; [reflexivity|]. split; [|auto].
      intros x [<-|I]; [|auto]. destruct w; try discriminate. eauto.
  - destruct NU. unfold usable. split; [exact N|].
    assert (G : forall v, negb (finite v) || flt v (Fin 0) = false -> exists t, v = Fin t /\ 0 <= t).
    { intros [t|b|] H; try discriminate. exists t. split; [reflexivity|]. apply Qnot_lt_le. intros L. apply flt_fin in L. cbn [finite negb orb] in H. congruence. }
    split; [now apply G|]. split; [now apply G|]. intros v I. pose proof (find_none _ _ Z v I) as F. destruct v; try discriminate. eauto.
Qed.
(** Two surprises. A tolerance of zero passes the checks but cannot be met. *)
Theorem C139_zero_tolerance {E} (assemble : nat -> list Q -> outcome (equations E) E) n tr tc init r : (exists t, (tr = Fin t \/ tc = Fin t) /\ t <= 0) -> gauss_newton assemble n tr tc init <> Ok r.
Proof.
  intros (t & D & T) H. destruct r as [ps sol k]. assert (U : usable n tr tc init \/ ~ usable n tr tc init).
  { destruct (Nat.eq_dec n 0); [right; intros (A & _); easy|].
    assert (G : forall v : fnum, (exists t, v = Fin t /\ 0 <= t) \/ ~ exists t, v = Fin t /\ 0 <= t).
    { intros [x|b|]; [destruct (Qlt_le_dec x 0); [right; intros (? & Z & P); injection Z as <-; lra|left; eauto]|right; intros (? & Z & _); discriminate|right; intros (? & Z & _); discriminate]. }
    destruct (G tr) as [A|A]; [|right; tauto || (intros (_ & B & _); contradiction)]. destruct (G tc) as [B|B]; [|right; intros (_ & _ & C & _); contradiction].
    destruct (find (fun v => negb (finite v)) init) as [v|] eqn:Z.
    - right. intros (_ & _ & _ & F). apply find_some in Z as [I Z]. destruct (F v I) as (x & ->). discriminate.
    - left. split; [assumption|]. split; [assumption|]. split; [assumption|]. intros v I. pose proof (find_none _ _ Z v I) as F. destruct v; try discriminate. eauto. }
  destruct U as [U|U].
  - apply (C139_converged assemble n tr tc init ps sol k U) in H as (j & q & l & _ & _ & _ & _ & (a & b & c & -> & -> & (A & _) & _ & (C & D'))).
    destruct D as [D|D]; injection D as <-; [lra|]. pose proof (Qabs_nonneg (reduced sol - c)). assert (b * c <= 0); [|lra]. setoid_replace (b * c) with (- ((- b) * c)) by ring. assert (0 <= (- b) * c) by (apply Qmult_le_0_compat; lra). lra.
  - pose proof (C139_options assemble (fun _ _ => Panic) n tr tc init U) as (R & _). rewrite R in H. unfold gauss_newton in H.
    destruct (n =? 0)%nat; [discriminate|]. destruct (negb (finite tr) || flt tr (Fin 0)); [discriminate|]. destruct (negb (finite tc) || flt tc (Fin 0)); [discriminate|]. destruct (find _ init); [discriminate|].
    destruct n; discriminate.
Qed.
(** And a fit whose residuals vanish is never accepted, however many iterations are allowed. *)
Theorem C139_exact_fit {E} (assemble : nat -> list Q -> outcome (equations E) E) n tr tc init r : usable n tr tc init ->
  (forall it ps ne sol, assemble it ps = Ok ne -> q_solve ne = Ok sol -> w_chi2 sol == 0) -> gauss_newton assemble n tr tc init <> Ok r.
Proof.
  intros U Z H. destruct r as [ps sol k]. apply (C139_converged assemble n tr tc init ps sol k U) in H as (j & q & l & _ & _ & Qt & _ & (a & b & c & _ & _ & _ & -> & (P & _))).
  assert (G : forall it ps last j q l, quiet assemble tr tc it ps last j q l -> (forall c, last = Some c -> c == 0) -> forall c, l = Some c -> c == 0).
  { clear -Z. induction 1 as [it ps last|it ps last sol ps' j q l I C Q IH]; [auto|]. intros _. apply IH. intros c E'. injection E' as <-. destruct I as (ne & A & _ & B & _). unfold reduced. rewrite (Z _ _ _ _ A B). unfold Qdiv. ring. }
  specialize (G _ _ _ _ _ _ Qt (fun c H => ltac:(discriminate H)) c eq_refl). lra.
Qed.
(** A start at the solution is not recognised by a single iteration. *)
Theorem C139_first_refuted : ~ (forall (assemble : nat -> list Q -> outcome (equations unit) unit) n tr tc init, usable n (Fin tr) (Fin tc) init -> 0 < tr -> 0 < tc ->
  (forall it ps, exists ne sol, assemble it ps = Ok ne /\ q_params ne = length ps /\ q_solve ne = Ok sol /\ Forall (fun d => d == 0) (w_update sol)) -> exists r, gauss_newton assemble n (Fin tr) (Fin tc) init = Ok r).
Proof.
  intros H. destruct (H (fun _ ps => Ok (Equations (length ps) (Ok (Solution [0] 5 3 1)))) 1%nat 1 1 [Fin 2]) as (r & R).
  - split; [easy|]. split; [exists 1; split; [reflexivity|lra]|]. split; [exists 1; split; [reflexivity|lra]|]. intros v [<-|[]]. eauto.
  - lra.
  - lra.
  - intros it ps. do 2 eexists. repeat split. repeat constructor.
  - vm_compute in R. discriminate.
Qed.
(** a linear fit of one parameter: the second iteration has nothing left to change *)
Example C139_case : let assemble := fun (_ : nat) ps => Ok (E := unit) (Equations (length ps) (Ok (Solution (map (fun p => 3 - p) ps) 8 5 1))) in
  exists r, gauss_newton assemble 10 (Fin (1 # 1000)) (Fin (1 # 1000)) [Fin 1] = Ok r /\ p_iterations r = 2%nat /\ Forall2 Qeq (p_parameters r) [3].
Proof. cbv zeta. eexists. split; [vm_compute; reflexivity|]. split; [reflexivity|]. repeat constructor. Qed.
Print Assumptions C139_statistic.
Print Assumptions C139_converged.
Print Assumptions C139_not_converged.
Print Assumptions C139_options.
Print Assumptions C139_zero_tolerance.
Print Assumptions C139_exact_fit.
Print Assumptions C139_first_refuted.
