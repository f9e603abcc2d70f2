(** Boolean comparisons on rationals with reflection lemmas. *)
From Coq Require Import QArith Qabs Bool Lqa.
Local Open Scope Q_scope.
Definition qltb (a b : Q) : bool := negb (Qle_bool b a).
Definition qleb (a b : Q) : bool := Qle_bool a b.
Lemma qltb_r a b : reflect (a < b) (qltb a b).
Proof.
  unfold qltb. destruct (Qle_bool b a) eqn:E; constructor.
  - apply Qle_bool_iff in E. lra.
  - apply Qnot_le_lt. intros H. apply Qle_bool_iff in H. congruence.
Qed.
Lemma qleb_r a b : reflect (a <= b) (qleb a b).
Proof.
  unfold qleb. destruct (Qle_bool a b) eqn:E; constructor; [now apply Qle_bool_iff|].
  intros H. apply Qle_bool_iff in H. congruence.
Qed.
Lemma qltb_true a b : qltb a b = true <-> a < b.
Proof. destruct (qltb_r a b); split; congruence || tauto. Qed.
Lemma qltb_false a b : qltb a b = false <-> b <= a.
Proof. destruct (qltb_r a b); split; intros; try congruence; try lra; reflexivity. Qed.
Lemma qleb_true a b : qleb a b = true <-> a <= b.
Proof. destruct (qleb_r a b); split; congruence || tauto. Qed.
Lemma qleb_false a b : qleb a b = false <-> b < a.
Proof. destruct (qleb_r a b); split; intros; try congruence; try lra; reflexivity. Qed.
(** [f64::signum] of a finite number other than -0.0: the sign bit. *)
Definition neg (x : Q) : bool := qltb x 0.
