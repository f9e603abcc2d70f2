(** C39 and C40: twilight classes and Earth-orientation interpolation. *)
From Coq Require Import List NArith ZArith QArith Qfield Bool Lqa Lia Sorting.Sorted.
From Verif Require Import Base Text DecFloat Qb Fnum Eop_Model Eop_Proofs.
Import ListNotations.
Local Open Scope Q_scope.

(** ** C39 *)
Theorem C39_classes q : match twilight (Fin q) with
  | Day => 0 < q | Civil => -6 < q /\ q <= 0 | Nautical => -12 < q /\ q <= -6 | Astronomical => -18 < q /\ q <= -12 | Dark => q <= -18 end.
Proof. exact (twilight_exact q). Qed.
Theorem C39_monotone a b : fle a b = true -> (rank (twilight a) <= rank (twilight b))%nat.
Proof. exact (twilight_mono a b). Qed.
Example C39_case : map (fun q => twilight (Fin q)) [1; 0; -6; -12; -18] = [Day; Civil; Nautical; Astronomical; Dark] /\ fle (Fin (-6)) (Inf false) = true.
Proof. split; vm_compute; reflexivity. Qed.
(** The type documents the opposite: an altitude of exactly 0 as day, exactly -6 as civil. *)
Theorem C39_documented_boundary_refuted : twilight (Fin 0) <> Day /\ twilight (Fin (-6)) <> Civil.
Proof. split; vm_compute; discriminate. Qed.
(** An altitude that is not a number counts as dark. *)
Theorem C39_nan : twilight NaN = Dark.
Proof. reflexivity. Qed.

(** ** C40 *)
Theorem C40_empty t : interpolate [] t = Some None.
Proof. reflexivity. Qed.
Theorem C40_any first l t : let tab := first :: l in
  (t <= mjd first -> interpolate tab t = Some (Some first)) /\
  (mjd first < t -> mjd (last tab first) <= t -> interpolate tab t = Some (Some (last tab first))) /\
  (mjd first < t -> t < mjd (last tab first) -> exists k a b r, interpolate tab t = Some (Some r) /\
     nth_error tab k = Some a /\ nth_error tab (S k) = Some b /\ mjd a <= t /\ t < mjd b /\ on_line t a b r).
Proof. exact (interpolate_any first l t). Qed.
Theorem C40_between l i a b t : increasing l -> nth_error l i = Some a -> nth_error l (S i) = Some b -> mjd a <= t -> t <= mjd b ->
  exists r, interpolate l t = Some (Some r) /\ mjd r == t /\
    Forall2 (fun uv w => w * (mjd b - mjd a) == fst uv * (mjd b - t) + snd uv * (t - mjd a)) (combine (comps (vals a)) (comps (vals b))) (comps (vals r)).
Proof. exact (interpolate_between l i a b t). Qed.
Lemma node_value l i a b : increasing l -> nth_error l i = Some a -> (nth_error l (S i) = Some b \/ exists j, i = S j /\ nth_error l j = Some b) ->
  exists r, interpolate l (mjd a) = Some (Some r) /\ Forall2 Qeq (comps (vals a)) (comps (vals r)).
Proof.
  intros S Na [Nb|(j & -> & Nb)].
  - pose proof (inc_nth _ _ _ _ _ S Na Nb ltac:(lia)) as L. destruct (interpolate_between l i a b (mjd a) S Na Nb ltac:(lra) ltac:(lra)) as (r & E & _ & F). exists r. split; [exact E|].
    assert (G : forall u v w, w * (mjd b - mjd a) == u * (mjd b - mjd a) + v * (mjd a - mjd a) -> u == w) by (intros u v w H; symmetry; apply (scale_eq _ _ (mjd b - mjd a)); [lra|rewrite H; ring]).
    unfold comps in *. cbn [combine] in F. repeat match goal with H : Forall2 _ (_ :: _) _ |- _ => inversion H; subst; clear H end. cbn [fst snd] in *. repeat (constructor; [eapply G; eassumption|]). constructor.
  - pose proof (inc_nth _ _ _ _ _ S Nb Na ltac:(lia)) as L. destruct (interpolate_between l j b a (mjd a) S Nb Na ltac:(lra) ltac:(lra)) as (r & E & _ & F). exists r. split; [exact E|].
    assert (G : forall u v w, w * (mjd a - mjd b) == u * (mjd a - mjd a) + v * (mjd a - mjd b) -> v == w) by (intros u v w H; symmetry; apply (scale_eq _ _ (mjd a - mjd b)); [lra|rewrite H; ring]).
    unfold comps in *. cbn [combine] in F. repeat match goal with H : Forall2 _ (_ :: _) _ |- _ => inversion H; subst; clear H end. cbn [fst snd] in *. repeat (constructor; [eapply G; eassumption|]). constructor.
Qed.
(** A node gives its record. *)
Theorem C40_node l i a : increasing l -> nth_error l i = Some a -> exists r, interpolate l (mjd a) = Some (Some r) /\ Forall2 Qeq (comps (vals a)) (comps (vals r)).
Proof.
  intros S Na. destruct (nth_error l (Datatypes.S i)) as [b|] eqn:Nb; [apply (node_value l i a b S Na); now left|].
  destruct i as [|j]; [|destruct (nth_error l j) as [b|] eqn:Nj; [apply (node_value l (Datatypes.S j) a b S Na); right; now exists j|]].
  - destruct l as [|x l]; [discriminate|]. injection Na as ->. exists a. split; [|repeat constructor; reflexivity]. apply (proj1 (C40_any a l (mjd a))). lra.
  - apply nth_error_None in Nj. assert (nth_error l (Datatypes.S j) <> None) as H by congruence. apply nth_error_Some in H. lia.
Qed.
(** Data on a line are reproduced, and every component stays between its neighbours. *)
Theorem C40_linear l alpha beta t first : increasing (first :: l) -> 
  Forall (fun r => Forall2 (fun ab w => w == fst ab + snd ab * mjd r) (combine alpha beta) (comps (vals r))) (first :: l) ->
  mjd first <= t -> t <= mjd (last (first :: l) first) -> exists r, interpolate (first :: l) t = Some (Some r) /\ Forall2 (fun ab w => w == fst ab + snd ab * t) (combine alpha beta) (comps (vals r)).
Proof.
  intros S F H1 H2. rewrite Forall_forall in F. destruct (C40_any first l t) as (A & B & C).
  assert (End : forall r, In r (first :: l) -> mjd r == t -> Forall2 (fun ab w => w == fst ab + snd ab * t) (combine alpha beta) (comps (vals r))).
  { intros r I E. specialize (F r I). revert F. generalize (combine alpha beta), (comps (vals r)). intros m ws F. induction F as [|x y m ws H F IH]; constructor; [rewrite H, E; reflexivity|assumption]. }
  destruct (Qlt_le_dec (mjd first) t) as [L1|L1]; [|exists first; split; [now apply A|apply End; [now left|lra]]].
  destruct (Qlt_le_dec t (mjd (last (first :: l) first))) as [L2|L2].
  - destruct C as (k & a & b & r & E & Na & Nb & Ha & Hb & _ & Li); [assumption|assumption|]. exists r. split; [exact E|].
    pose proof (F a (nth_error_In _ _ Na)) as Fa. pose proof (F b (nth_error_In _ _ Nb)) as Fb. revert Fa Fb Li. generalize (combine alpha beta), (comps (vals a)), (comps (vals b)), (comps (vals r)). clear - Ha Hb.
    intros m us vs ws Fa. revert vs ws. induction Fa as [|x u m us Hu Fa IH]; intros vs ws Fb Li; inversion Fb; subst; cbn [combine] in Li; inversion Li; subst; constructor; [|eapply IH; eassumption].
    cbn [fst snd] in *. apply (scale_eq _ _ (mjd b - mjd a)); [lra|]. match goal with H : _ * (mjd b - mjd a) == _ |- _ => rewrite H end. rewrite Hu. match goal with H : ?y == fst x + snd x * mjd b |- _ => rewrite H end. ring.
  - exists (last (first :: l) first). split; [now apply B|]. apply End; [apply (nth_error_In _ (length l)), last_nth|lra].
Qed.
Theorem C40_convex l i a b t : increasing l -> nth_error l i = Some a -> nth_error l (S i) = Some b -> mjd a <= t -> t <= mjd b ->
  exists r, interpolate l t = Some (Some r) /\ Forall2 (fun uv w => (fst uv <= w <= snd uv) \/ (snd uv <= w <= fst uv)) (combine (comps (vals a)) (comps (vals b))) (comps (vals r)).
Proof.
  intros S Na Nb Ha Hb. destruct (C40_between l i a b t S Na Nb Ha Hb) as (r & E & _ & F). exists r. split; [exact E|]. pose proof (inc_nth _ _ _ _ _ S Na Nb ltac:(lia)) as L.
  revert F. generalize (combine (comps (vals a)) (comps (vals b))), (comps (vals r)). clear - Ha Hb L. intros m ws F. induction F as [|[u v] w m ws H F IH]; constructor; [|assumption]. cbn [fst snd] in *.
  destruct (Qlt_le_dec u v) as [O|O]; [left|right]; split; (match goal with |- ?x <= ?y => apply (Qmult_le_r x y (mjd b - mjd a)); [lra|]; rewrite H; nra end).
Qed.
Definition sample : list eop_record := [Rec 0 (Eop 1 0 0 0 0 0); Rec 2 (Eop 3 0 0 0 0 0); Rec 3 (Eop 0 0 0 0 0 0); Rec 7 (Eop 8 0 0 0 0 0)].
Example C40_case : increasing sample /\ option_map (option_map (fun r => Qred (dut1 (vals r)))) (interpolate sample 5) = Some (Some 4) /\ option_map (option_map (fun r => Qred (dut1 (vals r)))) (interpolate sample 1) = Some (Some 2).
Proof. split; [repeat constructor|]. split; vm_compute; reflexivity. Qed.
Print Assumptions C39_classes.
Print Assumptions C39_monotone.
Print Assumptions C40_any.
Print Assumptions C40_between.
Print Assumptions C40_node.
Print Assumptions C40_linear.
Print Assumptions C40_convex.
