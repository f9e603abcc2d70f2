(** C37: bracketed root finders. *)
From Coq Require Import List QArith Qabs Qminmax Bool Lqa.
From Verif Require Import Qb Root_Model Root_Spec Root_Proofs.
Local Open Scope Q_scope.

(** For every function and every pair of ends, a point that is returned lies between the ends, and
    either the function nearly vanishes there, or it changes sign within twice the tolerance, or a
    sign change between it and another point of the bracket remains after all hundred passes. *)
Theorem C37_brent start stop f_lo f_hi f tol x : f_lo = f (Qred start) -> f_hi = f (Qred stop) -> brent_core start stop f_lo f_hi f tol = Some x ->
  between start stop x /\
  (Qabs (f x) < f_eps \/ exists y, between start stop y /\ sign_change (f x) (f y) /\
     (Qabs (x - y) <= 2 * tol \/ exists s', passes (brent_step (fun o => f (Qred (start + o))) tol) 100 (first_offset start stop f_lo f_hi) s' /\ x = Qred (start + bb s'))).
Proof. exact (core start stop f_lo f_hi f tol x). Qed.
Theorem C37_brent_direct lo hi f x : brent lo hi f = Some x ->
  between lo hi x /\ (Qabs (f x) < f_eps \/ exists y, between lo hi y /\ sign_change (f x) (f y) /\
     (Qabs (x - y) <= 2 * default_tol \/ exists s', passes (brent_step f default_tol) 100 (first_state lo hi (f lo) (f hi)) s' /\ bb s' = x)).
Proof. exact (engine lo hi (f lo) (f hi) f default_tol x eq_refl eq_refl). Qed.
(** Nothing is returned exactly when the values at the ends are of the same sign and not small. *)
Theorem C37_brent_none start stop f_lo f_hi f tol : brent_core start stop f_lo f_hi f tol = None <-> f_eps <= Qabs f_lo /\ f_eps <= Qabs f_hi /\ ~ sign_change f_lo f_hi.
Proof. exact (core_none start stop f_lo f_hi f tol). Qed.
(** The bracket keeps opposite signs through every pass. *)
Theorem C37_bracket f lo hi tol n s' : sign_change (f lo) (f hi) -> passes (brent_step f tol) n (first_state lo hi (f lo) (f hi)) s' ->
  between lo hi (bb s') /\ between lo hi (bc s') /\ bfb s' = f (bb s') /\ bfc s' = f (bc s') /\ sign_change (f (bb s')) (f (bc s')).
Proof.
  intros S P. assert (I : inv f (Qmin lo hi) (Qmax lo hi) (first_state lo hi (f lo) (f hi))).
  { pose proof (ends lo hi) as [E1 E2]. rewrite between_min in E1, E2. unfold first_state. destruct (qltb _ _); constructor; cbn [bb bc bfb bfc]; auto. now apply sign_change_sym. }
  assert (J : inv f (Qmin lo hi) (Qmax lo hi) s') by (clear S; induction P as [|n s s1 s2 E P IH]; [assumption|]; apply IH; now apply (brent_step_inv _ _ _ tol s)).
  destruct J as [Ib Ic Ifb Ifc Is]. rewrite !between_min. rewrite <- Ifb, <- Ifc. auto.
Qed.
(** Bisection halves the bracket at every pass: the point returned is the middle of a sign change
    shorter than the tolerance or 2^80 times shorter than the bracket. *)
Theorem C37_bisection lo hi f x : bisection lo hi f = Some x ->
  between lo hi x /\ (Qabs (f x) < f_eps \/ exists u v, between lo hi u /\ between lo hi v /\ sign_change (f u) (f v) /\ x == (u + v) / 2 /\
     (Qabs (v - u) < default_tol \/ Qabs (v - u) == Qabs (hi - lo) / inject_Z (2 ^ 80))).
Proof. exact (bisect lo hi f x). Qed.
Theorem C37_bisection_none lo hi f : bisection lo hi f = None <-> f_eps <= Qabs (f lo) /\ f_eps <= Qabs (f hi) /\ ~ sign_change (f lo) (f hi).
Proof. exact (bisect_none lo hi f). Qed.
(** The finder of the scan, when the tolerance is not below the resolution of the times. *)
Theorem C37_scan lo hi f_lo f_hi f tt res x : f_lo = f lo -> f_hi = f hi -> 4 * epsilon * Qmax (Qabs lo) (Qabs hi) <= 3 * tt ->
  brent_f64 lo hi f_lo f_hi f tt res = Some x -> lo <= x <= hi /\
  (Qabs (f x) <= res \/ (exists y, lo <= y <= hi /\ sign_change (f x) (f y) /\ Qabs (x - y) <= 4 * tt) \/
   exists s', passes (brent2_step f tt res) 100 (first_state2 lo hi f_lo f_hi) s' /\ bb s' = x).
Proof. exact (scan_root lo hi f_lo f_hi f tt res x). Qed.
Theorem C37_scan_found lo hi f_lo f_hi f tt res : f_lo = f lo -> f_hi = f hi -> 4 * epsilon * Qmax (Qabs lo) (Qabs hi) <= 3 * tt -> lo <= hi -> sign_change f_lo f_hi ->
  (exists x, brent_f64 lo hi f_lo f_hi f tt res = Some x) \/ exists s', passes (brent2_step f tt res) 100 (first_state2 lo hi f_lo f_hi) s' /\ res < Qabs (bfb s').
Proof.
  intros E1 E2 W O S. destruct (brent_f64 lo hi f_lo f_hi f tt res) as [x|] eqn:E; [left; now exists x|]. right.
  destruct (scan_root_none lo hi f_lo f_hi f tt res E1 E2 W O E) as [N|P]; [contradiction|exact P].
Qed.

Definition parabola (x : Q) : Q := x * x - 2.
Example C37_case : sign_change (parabola 1) (parabola 2) /\
  (exists x, brent 1 2 parabola = Some x /\ Qabs (parabola x) < 1 # 100000000) /\
  (exists x, bisection 1 2 parabola = Some x /\ Qabs (parabola x) < 1 # 100000000) /\
  exists x, brent_f64 1 2 (parabola 1) (parabola 2) parabola (1 # 1000000) f_eps = Some x /\ Qabs (parabola x) < 1 # 100000.
Proof.
  split; [left; split; vm_compute; congruence|].
  split; [eexists; split; vm_compute; reflexivity|]. split; [eexists; split; vm_compute; reflexivity|]. eexists. split; vm_compute; reflexivity.
Qed.
(** A point may be returned although neither convergence criterion holds: the passes ran out. *)
Definition wide_jump (x : Q) : Q := if qltb x 1 then - (1) else 1.
Theorem C37_unconverged_refuted : exists x, brent 0 (inject_Z (2 ^ 200)) wide_jump = Some x /\ 1 <= Qabs (wide_jump x) /\ inject_Z (2 ^ 90) < Qabs (x - 1).
Proof. eexists. split; [vm_compute; reflexivity|]. split; vm_compute; [discriminate|reflexivity]. Qed.
(** With a tolerance below the resolution of the times the scan finder leaves its interval. *)
Definition late (x : Q) : Q := if qltb x 60000 then 0 else if qleb x 60000 then - (1) else 1.
Theorem C37_scan_leaves_refuted : exists lo hi x, lo < hi /\ brent_f64 lo hi (late lo) (late hi) late epsilon f_eps = Some x /\ x < lo.
Proof.
  exists 60000, (60000 + 30000 * epsilon). eexists. split; [reflexivity|]. split; [vm_compute; reflexivity|]. vm_compute. reflexivity.
Qed.
Print Assumptions C37_brent.
Print Assumptions C37_brent_none.
Print Assumptions C37_bracket.
Print Assumptions C37_bisection.
Print Assumptions C37_scan.
Print Assumptions C37_scan_found.
