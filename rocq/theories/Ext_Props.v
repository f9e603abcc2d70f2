(** C38: extremum search. *)
From Coq Require Import List ZArith QArith Qabs Bool Lqa Lia Sorting.Sorted Sorting.Permutation.
From Verif Require Import Qb Root_Model Cross_Model Cross_Spec Cross_Proofs Ext_Model Ext_Spec Ext_Proofs.
Import ListNotations.
Local Open Scope Q_scope.

Theorem C38_inside p f tol : fst p <= snd p ->
  (inside p (fst (minimize_tol p f tol)) /\ snd (minimize_tol p f tol) = f (fst (minimize_tol p f tol))) /\
  (inside p (fst (maximize_tol p f tol)) /\ snd (maximize_tol p f tol) = f (fst (maximize_tol p f tol))).
Proof. intros L. split; [now apply min_inside|now apply max_inside]. Qed.
(** On a strictly unimodal function the answer is within half the tolerance of the extremum, for
    every tolerance down to 1e-13 of the window. *)
Theorem C38_minimum p f tol z : fst p <= snd p -> snd p - fst p <= inject_Z (10 ^ 13) * tol -> valley f p z -> Qabs (fst (minimize_tol p f tol) - z) <= tol / 2.
Proof. exact (min_found p f tol z). Qed.
Theorem C38_maximum p f tol z : fst p <= snd p -> snd p - fst p <= inject_Z (10 ^ 13) * tol -> peak f p z -> Qabs (fst (maximize_tol p f tol) - z) <= tol / 2.
Proof. exact (max_found p f tol z). Qed.
(** The scan reports one settled extremum for each sampled turn and nothing else. *)
Theorem C38_scan fuel p step f tol r : fst p < snd p -> 0 < step -> find_extrema_tol fuel p step f tol = Some r ->
  exists l xs, grid (snd p) step (fst p) l /\ Forall2 (settled f tol) (turns f l) xs /\ Permutation r xs /\ StronglySorted (fun a b => et a <= et b) r.
Proof. exact (extrema_ok fuel p step f tol r). Qed.
(** A lone extremum at least a step away from the ends is found. *)
Theorem C38_single fuel p step f tol r k z : fst p < snd p -> 0 < step -> 2 * step <= inject_Z (10 ^ 13) * tol -> extreme k f p z -> fst p + step <= z -> z + step <= snd p ->
  find_extrema_tol fuel p step f tol = Some r -> exists e, r = [e] /\ ek e = k /\ ev e = f (et e) /\ inside p (et e) /\ Qabs (et e - z) <= tol / 2.
Proof. exact (single_found fuel p step f tol r k z). Qed.
Theorem C38_ends k p step f tol : snd p - fst p <= inject_Z (Z.of_nat k) * step -> exists r, find_extrema_tol (S k) p step f tol = Some r.
Proof.
  intros L. unfold find_extrema_tol. destruct (qleb_r step 0); [eexists; reflexivity|]. destruct (qleb_r (snd p) (fst p)); [eexists; reflexivity|]. cbn [orb]. cbv zeta.
  assert (N : fst p <= next_time (snd p) step (fst p) <= snd p) by (unfold next_time; destruct (qleb_r (fst p + step) (snd p)); [rewrite Qred_correct|]; lra).
  destruct (loop_ends k (snd p) step tol f (fst p) (next_time (snd p) step (fst p)) (f (next_time (snd p) step (fst p))) (qltb (f (fst p)) (f (next_time (snd p) step (fst p))))) as (r & E); [lra|lra|lra|].
  rewrite E. eexists. reflexivity.
Qed.
Theorem C38_guard fuel p step f tol : step <= 0 \/ snd p <= fst p -> find_extrema_tol fuel p step f tol = Some [].
Proof. exact (extrema_empty fuel p step f tol). Qed.
Theorem C38_derivative fuel p step f h r : fst p < snd p -> canon (fst p) -> canon (snd p) -> find_extrema_via_derivative fuel p step f h = Some r ->
  let d := deriv f h in exists l xs, grid (snd p) step (fst p) l /\ Forall2 (marked f d) (filter (fun s => opposite_sign (d (fst s)) (d (snd s))) l) xs /\
    Permutation r xs /\ StronglySorted (fun a b => et a <= et b) r.
Proof. exact (derivative_ok fuel p step f h r). Qed.
(** The central difference is the slope of every quadratic, whatever the step. *)
Theorem C38_slope a b c h t : ~ h == 0 -> deriv (fun t => a * t * t + b * t + c) h t == 2 * a * t + b.
Proof. intros H. unfold deriv. rewrite !Qred_correct. field. intros E. apply H. lra. Qed.
Theorem C38_classify t f k : classify t f = Some k -> match k with
  | Maximum => f (Qred (t - probe_eps)) <= f t /\ f (Qred (t + probe_eps)) <= f t
  | Minimum => f t <= f (Qred (t - probe_eps)) /\ f t <= f (Qred (t + probe_eps)) /\ (f t < f (Qred (t - probe_eps)) \/ f t < f (Qred (t + probe_eps))) end.
Proof. exact (classify_ok t f k). Qed.
Theorem C38_classify_none t f : classify t f = None <-> (f (Qred (t - probe_eps)) < f t /\ f t < f (Qred (t + probe_eps))) \/ (f t < f (Qred (t - probe_eps)) /\ f (Qred (t + probe_eps)) < f t).
Proof. exact (classify_none t f). Qed.

Definition bowl (t : Q) : Q := (t - (5 # 3)) * (t - (5 # 3)).
Example C38_case : valley bowl (0, 4) (5 # 3) /\ 4 - 0 <= inject_Z (10 ^ 13) * ext_tol /\
  (exists e, find_extrema_tol 10 (0, 4) 1 bowl (1 # 100) = Some [e] /\ ek e = Minimum /\ Qabs (et e - (5 # 3)) < 1 # 100).
Proof.
  split; [|split; [vm_compute; discriminate|eexists; split; [vm_compute; reflexivity|split; vm_compute; reflexivity]]].
  split; [unfold inside; cbn; lra|]. unfold bowl. split; intros x y H1 H2 H3; cbn [fst snd] in *; nra.
Qed.
(** An extremum inside the first step is not reported. *)
Theorem C38_first_step_refuted : valley (fun t => (t - (1 # 10)) * (t - (1 # 10))) (0, 3) (1 # 10) /\ find_extrema_tol 10 (0, 3) 1 (fun t => (t - (1 # 10)) * (t - (1 # 10))) ext_tol = Some [].
Proof. split; [|vm_compute; reflexivity]. split; [unfold inside; cbn; lra|]. split; intros x y H1 H2 H3; cbn [fst snd] in *; nra. Qed.
Print Assumptions C38_inside.
Print Assumptions C38_minimum.
Print Assumptions C38_maximum.
Print Assumptions C38_scan.
Print Assumptions C38_single.
Print Assumptions C38_ends.
Print Assumptions C38_derivative.
