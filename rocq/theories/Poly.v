(** Polynomials over the rationals as coefficient lists, and their divided differences. *)
From Coq Require Import List ZArith QArith Lqa Lia Permutation Setoid Qfield.
Import ListNotations.
Local Open Scope Q_scope.

(** [peval [c0; c1; ...] x] is [c0 + c1 x + ...]. *)
Fixpoint peval (l : list Q) (x : Q) : Q := match l with [] => 0 | c :: t => c + x * peval t x end.
(** Value of the derivative. *)
Fixpoint pderiv (l : list Q) (x : Q) : Q := match l with [] => 0 | _ :: t => peval t x + x * pderiv t x end.

(** ** Operations *)
Fixpoint padd (a b : list Q) : list Q :=
  match a, b with
  | [], _ => b
  | _, [] => a
  | x :: s, y :: t => (x + y) :: padd s t
  end.
Definition pscale (k : Q) (a : list Q) : list Q := map (Qmult k) a.
(** Product with [x - r]. *)
Definition pmul_root (r : Q) (a : list Q) : list Q := padd (0 :: a) (pscale (- r) a).

Lemma peval_add a b x : peval (padd a b) x == peval a x + peval b x.
Proof. revert b. induction a as [|c a IH]; intros [|d b]; cbn [padd peval]; try ring. rewrite IH. ring. Qed.
Lemma pderiv_add a b x : pderiv (padd a b) x == pderiv a x + pderiv b x.
Proof. revert b. induction a as [|c a IH]; intros [|d b]; cbn [padd pderiv]; try ring. rewrite IH, peval_add. ring. Qed.
Lemma peval_scale k a x : peval (pscale k a) x == k * peval a x.
Proof. unfold pscale. induction a as [|c a IH]; cbn [map peval]; [ring|]. rewrite IH. ring. Qed.
Lemma pderiv_scale k a x : pderiv (pscale k a) x == k * pderiv a x.
Proof. unfold pscale. induction a as [|c a IH]; cbn [map pderiv]; [ring|]. rewrite IH. fold (pscale k a). rewrite peval_scale. ring. Qed.
Lemma peval_root r a x : peval (pmul_root r a) x == (x - r) * peval a x.
Proof. unfold pmul_root. rewrite peval_add, peval_scale. cbn [peval]. ring. Qed.
Lemma pderiv_root r a x : pderiv (pmul_root r a) x == peval a x + (x - r) * pderiv a x.
Proof. unfold pmul_root. rewrite pderiv_add, pderiv_scale. cbn [pderiv]. ring. Qed.
Lemma padd_length a b : length (padd a b) = Nat.max (length a) (length b).
Proof. revert b. induction a as [|c a IH]; intros [|d b]; cbn [padd length]; auto. now rewrite IH. Qed.
Lemma pscale_length k a : length (pscale k a) = length a.
Proof. apply map_length. Qed.
Lemma pmul_root_length r a : length (pmul_root r a) = S (length a).
Proof. unfold pmul_root. rewrite padd_length, pscale_length. cbn [length]. lia. Qed.

(** ** Divided differences *)
Definition here (c : Q) (zs : list Q) : Q := match zs with [] => c | _ => 0 end.
Fixpoint dd (l : list Q) (zs : list Q) : Q :=
  match l with
  | [] => 0
  | c :: t => match zs with [] => 0 | z :: r => here c r + z * dd t (z :: r) + dd t r end
  end.
Lemma dd_nil l : dd l [] = 0.
Proof. destruct l; reflexivity. Qed.
Lemma dd_cons c l z r : dd (c :: l) (z :: r) = here c r + z * dd l (z :: r) + dd l r.
Proof. reflexivity. Qed.
Lemma dd_one l x : dd l [x] == peval l x.
Proof. induction l as [|c l IH]; [reflexivity|]. rewrite dd_cons, dd_nil, IH. cbn [here peval]. ring. Qed.
Lemma dd_two l x : dd l [x; x] == pderiv l x.
Proof. induction l as [|c l IH]; [reflexivity|]. rewrite dd_cons, IH, dd_one. cbn [here pderiv]. ring. Qed.
Lemma dd_step l a b m : (b - a) * dd l (a :: b :: m) == dd l (b :: m) - dd l (a :: m).
Proof.
  revert a b m. induction l as [|c l IH]; intros a b m; [cbn; ring|]. rewrite (dd_cons c l a (b :: m)), (dd_cons c l b m), (dd_cons c l a m). cbn [here].
  pose proof (IH a b m) as H. set (X := dd l (a :: b :: m)) in *. set (Y := dd l (b :: m)) in *. set (Z := dd l (a :: m)) in *.
  transitivity (a * ((b - a) * X) + (b - a) * Y); [ring|]. rewrite H. ring.
Qed.
Lemma dd_swap l a b m : dd l (a :: b :: m) == dd l (b :: a :: m).
Proof.
  revert a b m. induction l as [|c l IH]; intros a b m; [reflexivity|]. rewrite !dd_cons. cbn [here]. rewrite (IH b a m).
  pose proof (dd_step l a b m) as H. set (X := dd l (a :: b :: m)) in *.
  transitivity (a * X + dd l (b :: m)); [ring|]. transitivity (b * X + dd l (a :: m)); [|ring].
  assert (dd l (b :: m) == dd l (a :: m) + (b - a) * X) as -> by (rewrite H; ring). ring.
Qed.
Lemma dd_perm l m m' : Permutation m m' -> dd l m == dd l m'.
Proof.
  intros P. revert l. induction P as [|x m m' P IH|x y m|m m' m'' P1 IH1 P2 IH2]; intros l; [reflexivity| | |now rewrite IH1].
  - induction l as [|c l IHl]; [reflexivity|]. rewrite !dd_cons, IHl, (IH l).
    assert (here c m = here c m') as ->; [|reflexivity]. destruct m, m'; auto; [apply Permutation_nil in P|apply Permutation_sym, Permutation_nil in P]; discriminate.
  - apply dd_swap.
Qed.
(** The textbook recurrence. *)
Lemma dd_recurrence l a m b : (b - a) * dd l (a :: m ++ [b]) == dd l (m ++ [b]) - dd l (a :: m).
Proof.
  rewrite (dd_perm l (a :: m ++ [b]) (a :: b :: m)) by (apply perm_skip, Permutation_sym, Permutation_cons_append).
  rewrite (dd_perm l (m ++ [b]) (b :: m)) by (apply Permutation_sym, Permutation_cons_append). apply dd_step.
Qed.
Lemma dd_vanish l zs : (length l < length zs)%nat -> dd l zs == 0.
Proof.
  revert zs. induction l as [|c l IH]; intros [|z zs] H; cbn [length] in H; try (cbn; ring || lia). rewrite dd_cons.
  rewrite (IH (z :: zs)) by (cbn [length]; lia). rewrite (IH zs) by lia. destruct zs; [cbn in H; lia|]. cbn [here]. ring.
Qed.
(** A polynomial of degree below the number of its roots is zero. *)
Lemma dd_roots l roots zs x : (forall a, In a roots -> dd l (a :: zs) == 0) -> ForallOrdPairs (fun a b => ~ a == b) roots ->
  (length l <= length roots + length zs)%nat -> dd l (x :: zs) == 0.
Proof.
  intros H D. revert zs H. induction D as [|a roots Da D IH]; intros zs H L.
  - apply dd_vanish. cbn [length] in *. lia.
  - assert (E : dd l (x :: a :: zs) == 0).
    { apply IH; [|cbn [length] in *; lia]. intros b B. assert (Ha := H a (or_introl eq_refl)). assert (Hb := H b (or_intror B)).
      pose proof (dd_step l b a zs) as S. rewrite Ha, Hb in S. rewrite Forall_forall in Da. specialize (Da b B).
      assert (N : ~ a - b == 0) by (intros X; apply Da; lra). apply (Qmult_integral_l (a - b)); [exact N|]. rewrite S. ring. }
    pose proof (dd_step l x a zs) as S. rewrite E, (H a (or_introl eq_refl)) in S. lra.
Qed.
Lemma peval_roots l roots x : (forall a, In a roots -> peval l a == 0) -> ForallOrdPairs (fun a b => ~ a == b) roots ->
  (length l <= length roots)%nat -> peval l x == 0.
Proof.
  intros H D L. rewrite <- dd_one. apply (dd_roots l roots []); [|assumption|cbn; lia]. intros a A. rewrite dd_one. auto.
Qed.
