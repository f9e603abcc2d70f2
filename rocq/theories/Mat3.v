(** 3x3 matrices over the real numbers (context.rs:302-324, pck.rs:142-162); rounding is not modelled. *)
From Coq Require Import Reals Lra.
Local Open Scope R_scope.

Record mat := M { a11 : R; a12 : R; a13 : R; a21 : R; a22 : R; a23 : R; a31 : R; a32 : R; a33 : R }.
(** context.rs:302-304 *)
Definition identity : mat := M 1 0 0 0 1 0 0 0 1.
(** context.rs:306-316; pck.rs:152-162 *)
Definition mul (l r : mat) : mat :=
  M (a11 l * a11 r + a12 l * a21 r + a13 l * a31 r) (a11 l * a12 r + a12 l * a22 r + a13 l * a32 r) (a11 l * a13 r + a12 l * a23 r + a13 l * a33 r)
    (a21 l * a11 r + a22 l * a21 r + a23 l * a31 r) (a21 l * a12 r + a22 l * a22 r + a23 l * a32 r) (a21 l * a13 r + a22 l * a23 r + a23 l * a33 r)
    (a31 l * a11 r + a32 l * a21 r + a33 l * a31 r) (a31 l * a12 r + a32 l * a22 r + a33 l * a32 r) (a31 l * a13 r + a32 l * a23 r + a33 l * a33 r).
(** context.rs:318-324 *)
Definition transpose (m : mat) : mat := M (a11 m) (a21 m) (a31 m) (a12 m) (a22 m) (a32 m) (a13 m) (a23 m) (a33 m).
(** pck.rs:142-150 *)
Definition r1 (a : R) : mat := M 1 0 0 0 (cos a) (sin a) 0 (- sin a) (cos a).
Definition r3 (a : R) : mat := M (cos a) (sin a) 0 (- sin a) (cos a) 0 0 0 1.

(** Independent notions *)
Definition vec := (R * R * R)%type.
Definition apply (m : mat) (v : vec) : vec :=
  let '(x, y, z) := v in (a11 m * x + a12 m * y + a13 m * z, a21 m * x + a22 m * y + a23 m * z, a31 m * x + a32 m * y + a33 m * z).
Definition dot3 (u v : vec) : R := let '(a, b, c) := u in let '(x, y, z) := v in a * x + b * y + c * z.
Definition cross (u v : vec) : vec := let '(a, b, c) := u in let '(x, y, z) := v in (b * z - c * y, c * x - a * z, a * y - b * x).
Definition det (m : mat) : R :=
  a11 m * (a22 m * a33 m - a23 m * a32 m) - a12 m * (a21 m * a33 m - a23 m * a31 m) + a13 m * (a21 m * a32 m - a22 m * a31 m).
(** keeps lengths and angles *)
Definition orthonormal (m : mat) : Prop := mul (transpose m) m = identity.

Lemma mat_eq a b : a11 a = a11 b -> a12 a = a12 b -> a13 a = a13 b -> a21 a = a21 b -> a22 a = a22 b -> a23 a = a23 b ->
  a31 a = a31 b -> a32 a = a32 b -> a33 a = a33 b -> a = b.
Proof. destruct a, b; cbn. intros; subst; reflexivity. Qed.
Ltac mat := apply mat_eq; cbn; ring.
Lemma mul_assoc a b c : mul a (mul b c) = mul (mul a b) c. Proof. mat. Qed.
Lemma mul_1_l a : mul identity a = a. Proof. mat. Qed.
Lemma mul_1_r a : mul a identity = a. Proof. mat. Qed.
Lemma transpose_mul a b : transpose (mul a b) = mul (transpose b) (transpose a). Proof. mat. Qed.
Lemma transpose_transpose a : transpose (transpose a) = a. Proof. mat. Qed.
Lemma det_mul a b : det (mul a b) = det a * det b. Proof. unfold det, mul; cbn. ring. Qed.
Lemma det_transpose a : det (transpose a) = det a. Proof. unfold det, transpose; cbn. ring. Qed.
Lemma apply_mul a b v : apply (mul a b) v = apply a (apply b v).
Proof. destruct v as [[x y] z]. cbn. f_equal; [f_equal|]; ring. Qed.

Definition smul (k : R) (m : mat) : mat := M (k * a11 m) (k * a12 m) (k * a13 m) (k * a21 m) (k * a22 m) (k * a23 m) (k * a31 m) (k * a32 m) (k * a33 m).
Definition adj (m : mat) : mat :=
  M (a22 m * a33 m - a23 m * a32 m) (a13 m * a32 m - a12 m * a33 m) (a12 m * a23 m - a13 m * a22 m)
    (a23 m * a31 m - a21 m * a33 m) (a11 m * a33 m - a13 m * a31 m) (a13 m * a21 m - a11 m * a23 m)
    (a21 m * a32 m - a22 m * a31 m) (a12 m * a31 m - a11 m * a32 m) (a11 m * a22 m - a12 m * a21 m).
Lemma adj_r m : mul m (adj m) = smul (det m) identity. Proof. apply mat_eq; unfold det; cbn; ring. Qed.
Lemma orthonormal_r m : orthonormal m -> mul m (transpose m) = identity.
Proof.
  unfold orthonormal. intros H. assert (D : det m * det m = 1).
  { rewrite <- (det_transpose m) at 1. rewrite <- det_mul, H. unfold det; cbn. ring. }
  assert (D0 : det m <> 0) by nra.
  assert (I : transpose m = smul (/ det m) (adj m)).
  { rewrite <- (mul_1_r (transpose m)). replace identity with (mul m (smul (/ det m) (adj m))).
    - rewrite mul_assoc, H. apply mul_1_l.
    - replace (mul m (smul (/ det m) (adj m))) with (smul (/ det m) (mul m (adj m))) by mat. rewrite adj_r. apply mat_eq; cbn; field; exact D0. }
  rewrite I. replace (mul m (smul (/ det m) (adj m))) with (smul (/ det m) (mul m (adj m))) by mat. rewrite adj_r. apply mat_eq; cbn; field; exact D0.
Qed.
Lemma orthonormal_identity : orthonormal identity. Proof. unfold orthonormal. mat. Qed.
Lemma orthonormal_mul a b : orthonormal a -> orthonormal b -> orthonormal (mul a b).
Proof.
  unfold orthonormal. intros A B. rewrite transpose_mul, <- mul_assoc, (mul_assoc (transpose a)), A, mul_1_l. exact B.
Qed.
Lemma orthonormal_transpose a : orthonormal a -> orthonormal (transpose a).
Proof. intros A. unfold orthonormal. rewrite transpose_transpose. now apply orthonormal_r. Qed.
Lemma orthonormal_dot m u v : orthonormal m -> dot3 (apply m u) (apply m v) = dot3 u v.
Proof.
  intros H. assert (E : forall a b, dot3 (apply m a) b = dot3 a (apply (transpose m) b)).
  { intros [[a b] c] [[x y] z]. cbn. ring. }
  rewrite E, <- apply_mul, H. destruct u as [[a b] c], v as [[x y] z]. cbn. ring.
Qed.
Lemma r1_orthonormal a : orthonormal (r1 a) /\ det (r1 a) = 1.
Proof.
  pose proof (sin2_cos2 a) as H. unfold Rsqr in H. split; [unfold orthonormal; apply mat_eq; cbn; lra|unfold det, r1; cbn; lra].
Qed.
Lemma r3_orthonormal a : orthonormal (r3 a) /\ det (r3 a) = 1.
Proof.
  pose proof (sin2_cos2 a) as H. unfold Rsqr in H. split; [unfold orthonormal; apply mat_eq; cbn; lra|unfold det, r3; cbn; lra].
Qed.
