(** Comparisons of floating-point values whose finite part is an exact rational. There is one NaN,
    the positive one, and one zero. *)
From Coq Require Import List NArith ZArith QArith Bool Lia Lqa.
From Verif Require Import Base Text DecFloat Sort.
Import ListNotations.

(** [f64::total_cmp] *)
Definition tleb (a b : fnum) : bool :=
  match a, b with
  | _, NaN => true
  | NaN, _ => false
  | Inf true, _ => true
  | _, Inf true => false
  | _, Inf false => true
  | Inf false, _ => false
  | Fin p, Fin q => Qle_bool p q
  end.
Definition is_nan (a : fnum) : bool := match a with NaN => true | _ => false end.
(** The operators [<=] and [<]. *)
Definition fle (a b : fnum) : bool := negb (is_nan a) && negb (is_nan b) && tleb a b.
Definition flt (a b : fnum) : bool := negb (is_nan a) && negb (is_nan b) && negb (tleb b a).

Lemma tleb_total a b : tleb a b = true \/ tleb b a = true.
Proof.
  destruct a as [p|[|]|], b as [q|[|]|]; cbn; auto. destruct (Qlt_le_dec p q) as [H|H]; [left|right]; apply Qle_bool_iff; lra.
Qed.
Lemma tleb_trans a b c : tleb a b = true -> tleb b c = true -> tleb a c = true.
Proof.
  destruct a as [p|[|]|], b as [q|[|]|], c as [r|[|]|]; cbn; auto; try discriminate.
  rewrite !Qle_bool_iff. lra.
Qed.
Lemma tleb_refl a : tleb a a = true.
Proof. destruct (tleb_total a a); assumption. Qed.
Lemma fle_trans_l a b c : tleb a b = true -> fle b c = true -> fle a c = true.
Proof.
  unfold fle. rewrite !andb_true_iff. intros H ((N1 & N2) & L). repeat split; auto; [|eapply tleb_trans; eauto].
  destruct a as [|[|]|], b as [|[|]|]; cbn in *; auto.
Qed.
Lemma fle_mono a b c : fle a b = true -> fle b c = true -> fle a c = true.
Proof. unfold fle at 1. rewrite !andb_true_iff. intros ((_ & _) & H). now apply fle_trans_l. Qed.
