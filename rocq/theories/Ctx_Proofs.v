From Coq Require Import Ascii String List NArith ZArith QArith Qreals Bool Lia Reals Lra.
From Verif Require Import Base Text DecFloat Sort Fnum Omm_Model Tk_Model.
From Verif Require Lsk_Model Sclk_Model Fk_Model Pck_Model Ik_Model.
From Verif Require Import Mat3 Ctx_Model.
Import ListNotations.
Import Fk_Model(frame_spec, f_id, f_name, f_class, f_class_id, f_tk, Frame, Inertial, Pck, Ck, TwoVector, Dynamic).
Import Pck_Model(orientation, pole_ra, pole_dec, pm).
Local Open Scope Z_scope.
Local Open Scope list_scope.

(** ** The last of a list with a property *)
Definition latest {A} (l : list A) (P : A -> Prop) (x : A) : Prop := exists a b, l = a ++ x :: b /\ P x /\ Forall (fun y => ~ P y) b.
Lemma find_rev_latest {A} (p : A -> bool) (P : A -> Prop) l : (forall x, p x = true <-> P x) ->
  match find p (rev l) with Some x => latest l P x | None => Forall (fun y => ~ P y) l end.
Proof.
  intros H. induction l as [|y l IH] using rev_ind; [constructor|]. rewrite rev_app_distr. cbn [rev app find]. destruct (p y) eqn:Py.
  - exists l, []. split; [reflexivity|]. split; [now apply H|constructor].
  - assert (Ny : ~ P y) by (rewrite <- H; congruence). destruct (find p (rev l)) as [x|].
    + destruct IH as (a & b & -> & Px & F). exists a, (b ++ [y]). rewrite <- app_assoc. split; [reflexivity|]. split; [exact Px|]. apply Forall_app. auto.
    + apply Forall_app. auto.
Qed.
Lemma latest_fun {A} l (P : A -> Prop) x y : latest l P x -> latest l P y -> x = y.
Proof.
  revert x y. induction l as [|z l IH] using rev_ind; intros x y (a & b & E & Px & F) (a' & b' & E' & Py & F'); [destruct a; discriminate|].
  assert (S : forall (c : list A) w d, l ++ [z] = c ++ w :: d -> (d = [] /\ w = z /\ c = l) \/ exists d', d = d' ++ [z] /\ l = c ++ w :: d').
  { intros c w d Q. destruct d as [|q d] using rev_ind; [left; apply app_inj_tail in Q as (-> & ->); auto|]. right. exists d.
    replace (c ++ w :: d ++ [q]) with ((c ++ w :: d) ++ [q]) in Q by (rewrite <- app_assoc; reflexivity). apply app_inj_tail in Q as (-> & ->). auto. }
  destruct (S _ _ _ E) as [(-> & -> & ->)|(d & -> & El)], (S _ _ _ E') as [(-> & -> & ->)|(d' & -> & El')]; auto.
  - apply Forall_app in F' as (_ & F'). inversion F'; contradiction.
  - apply Forall_app in F as (_ & F). inversion F; contradiction.
  - apply IH; [exists a, d|exists a', d']; (split; [assumption|]; split; [assumption|]).
    + now apply Forall_app in F as (F & _).
    + now apply Forall_app in F' as (F' & _).
Qed.
Lemma reg_by_id_spec reg id f : reg_by_id reg id = Ok f <-> latest reg (fun g => f_id g = id) f.
Proof.
  unfold reg_by_id. pose proof (find_rev_latest (fun g => f_id g =? id) (fun g => f_id g = id) reg) as H. specialize (H (fun x => Z.eqb_eq _ _)).
  destruct (find _ (rev reg)) as [g|].
  - split; [intros E; injection E as <-; exact H|]. intros L. f_equal. eapply latest_fun; eauto.
  - split; [discriminate|]. intros (a & b & -> & E & _). rewrite Forall_forall in H. destruct (H f); [apply in_or_app; right; now left|exact E].
Qed.
Lemma reg_by_name_spec reg name f : reg_by_name reg name = Ok f <-> latest reg (fun g => f_name g = map upper name) f.
Proof.
  unfold reg_by_name. pose proof (find_rev_latest (fun g => str_eqb (f_name g) (map upper name)) (fun g => f_name g = map upper name) reg) as H.
  assert (X : forall x : frame_spec, str_eqb (f_name x) (map upper name) = true <-> f_name x = map upper name) by (intros x; destruct (str_eqb_spec (f_name x) (map upper name)); split; congruence).
  specialize (H X). destruct (find _ (rev reg)) as [g|].
  - split; [intros E; injection E as <-; exact H|]. intros L. f_equal. eapply latest_fun; eauto.
  - split; [discriminate|]. intros (a & b & -> & E & _). rewrite Forall_forall in H. destruct (H f); [apply in_or_app; right; now left|exact E].
Qed.
Lemma reg_np reg id : reg_by_id reg id <> Panic. Proof. unfold reg_by_id. destruct (find _ _); discriminate. Qed.
Lemma regn_np reg n : reg_by_name reg n <> Panic. Proof. unfold reg_by_name. destruct (find _ _); discriminate. Qed.
Lemma latest_in {A} l (P : A -> Prop) x : latest l P x -> In x l /\ P x.
Proof. intros (a & b & -> & Px & _). split; [apply in_or_app; right; now left|exact Px]. Qed.

Lemma repeats (l : list Z) : ~ NoDup l -> exists a l1 l2 l3, l = l1 ++ a :: l2 ++ a :: l3.
Proof.
  induction l as [|x l IH]; intros N; [destruct N; constructor|]. destruct (in_dec Z.eq_dec x l) as [I|I].
  - apply in_split in I as (l2 & l3 & ->). exists x, [], l2, l3. reflexivity.
  - destruct IH as (a & l1 & l2 & l3 & ->); [intros D; apply N; now constructor|]. exists a, (x :: l1), l2, l3. reflexivity.
Qed.

(** ** Chains of frames defined relative to one another *)
Section Frames.
Variable reg : list frame_spec.
Variable pcks : list Pck_Model.bodies.
Variable t : R.
Notation F k id := (frame_to_j2000 k reg pcks id t).

(** frame [a] is defined relative to frame [b] *)
Definition relative (a b : Z) : Prop := a <> 1 /\ exists s values name r,
  latest reg (fun g => f_id g = a) s /\ f_tk s = Some (values, name) /\ latest reg (fun g => f_name g = map upper name) r /\ f_id r = b.
Definition next (id : Z) : option Z :=
  if id =? 1 then None
  else match reg_by_id reg id with
       | Ok s => match f_tk s with Some (_, name) => match reg_by_name reg name with Ok r => Some (f_id r) | _ => None end | None => None end
       | _ => None
       end.
Lemma next_spec a b : next a = Some b <-> relative a b.
Proof.
  unfold next, relative. destruct (Z.eqb_spec a 1) as [->|N]; [split; [discriminate|intros (H & _); contradiction]|].
  split.
  - destruct (reg_by_id reg a) as [s|e|] eqn:E1; try discriminate. destruct (f_tk s) as [(values, name)|] eqn:E2; [|discriminate].
    destruct (reg_by_name reg name) as [r|e|] eqn:E3; try discriminate. intros X. injection X as <-. split; [exact N|]. apply reg_by_id_spec in E1. apply reg_by_name_spec in E3.
    exists s, values, name, r. auto.
  - intros (_ & s & values & name & r & L1 & E2 & L3 & <-). apply reg_by_id_spec in L1. apply reg_by_name_spec in L3. now rewrite L1, E2, L3.
Qed.
Fixpoint it (n : nat) (id : Z) : option Z :=
  match n with O => Some id | S m => match next id with Some x => it m x | None => None end end.
Lemma none_iff k id : F k id = None <-> exists x, it k id = Some x.
Proof.
  revert id. induction k as [|k IH]; intros id; cbn [frame_to_j2000 it]; [split; [eauto|reflexivity]|]. unfold next.
  destruct (id =? 1); [split; [discriminate|intros (? & ?); discriminate]|].
  destruct (reg_by_id reg id) as [s|e|]; try (split; [discriminate|intros (? & ?); discriminate]).
  destruct (f_tk s) as [(values, name)|].
  - destruct (reg_by_name reg name) as [r|e|]; try (split; [discriminate|intros (? & ?); discriminate]). rewrite <- IH.
    destruct (F k (f_id r)) as [[m|e|]|]; split; congruence.
  - destruct (f_class s); split; try discriminate; intros (? & ?); discriminate.
Qed.
Lemma more k id o : F k id = Some o -> forall j, (k <= j)%nat -> F j id = Some o.
Proof.
  revert id o. induction k as [|k IH]; intros id o H j L; [discriminate|]. destruct j as [|j]; [lia|]. cbn [frame_to_j2000] in *.
  destruct (id =? 1); [exact H|]. destruct (reg_by_id reg id) as [s|e|]; try exact H. destruct (f_tk s) as [(values, name)|]; [|exact H].
  destruct (reg_by_name reg name) as [r|e|]; try exact H. destruct (F k (f_id r)) as [o'|] eqn:E; [|discriminate].
  rewrite (IH _ _ E j) by lia. exact H.
Qed.
Lemma same k j id o o' : F k id = Some o -> F j id = Some o' -> o = o'.
Proof. intros A B. pose proof (more _ _ _ A (k + j) ltac:(lia)) as A'. pose proof (more _ _ _ B (k + j) ltac:(lia)) as B'. congruence. Qed.

Lemma it_add n m id : it (n + m) id = match it n id with Some x => it m x | None => None end.
Proof. revert id. induction n as [|n IH]; intros id; [reflexivity|]. cbn [Nat.add it]. destruct (next id); [apply IH|reflexivity]. Qed.
(** the frames met in [n] steps, each of which has a successor *)
Fixpoint met (n : nat) (id : Z) : list Z :=
  match n with O => [] | S m => match next id with Some x => id :: met m x | None => [] end end.
Lemma met_length n id x : it n id = Some x -> List.length (met n id) = n.
Proof. revert id. induction n as [|n IH]; intros id H; [reflexivity|]. cbn in *. destruct (next id); [cbn; f_equal; now apply IH|discriminate]. Qed.
Lemma met_known n id : incl (met n id) (map f_id reg).
Proof.
  revert id. induction n as [|n IH]; intros id; cbn; [intros x []|]. destruct (next id) as [y|] eqn:E; [|intros x []]. intros x [<-|I]; [|now apply (IH y)].
  apply next_spec in E as (_ & s & v & nm & r & L & _). apply latest_in in L as (L & <-). now apply in_map.
Qed.
Lemma met_nth n id a l1 l2 : met n id = l1 ++ a :: l2 -> it (List.length l1) id = Some a.
Proof.
  revert id l1. induction n as [|n IH]; intros id l1 E; cbn in E; [destruct l1; discriminate|]. destruct (next id) as [y|] eqn:Ny; [|destruct l1; discriminate].
  destruct l1 as [|b l1]; cbn in *; [injection E as <- _; reflexivity|]. injection E as _ E. rewrite Ny. now apply (IH y l1).
Qed.
(** [b] is reached from [a] in one or more steps *)
Inductive leads : Z -> Z -> Prop :=
| leads_one a b : relative a b -> leads a b
| leads_more a b c : relative a b -> leads b c -> leads a c.
Lemma leads_it a b : leads a b <-> exists n, it (S n) a = Some b.
Proof.
  split.
  - intros L. induction L as [a b R|a b c R L (n & IH)]; apply next_spec in R.
    + exists O. cbn. now rewrite R.
    + exists (S n). change (match next a with Some x => it (S n) x | None => None end = Some c). now rewrite R.
  - intros (n & H). revert a H. induction n as [|n IH]; intros a H; cbn in H; destruct (next a) as [y|] eqn:E; try discriminate; apply next_spec in E.
    + injection H as <-. now constructor.
    + apply leads_more with y; [exact E|]. apply IH. exact H.
Qed.
(** a frame from which following the definitions comes back to a frame already met *)
Definition loops (id : Z) : Prop := exists c, (c = id \/ leads id c) /\ leads c c.
Lemma loop_forever id : loops id -> forall k, F k id = None.
Proof.
  intros (c & R & L) k. apply none_iff.
  assert (Rn : exists r, it r id = Some c) by (destruct R as [->|R]; [exists O; reflexivity|apply leads_it in R as (n & E); eauto]). destruct Rn as (r & Er).
  apply leads_it in L as (n & En).
  assert (P : forall j, it (j * S n) c = Some c) by (induction j as [|j IH]; [reflexivity|]; change (S j * S n)%nat with (S n + j * S n)%nat; rewrite it_add, En; exact IH).
  assert (Q : it (k + (r + k * S n - k)) id = Some c) by (replace (k + (r + k * S n - k))%nat with (r + k * S n)%nat by nia; rewrite it_add, Er; apply P).
  rewrite it_add in Q. destruct (it k id) as [x|]; [eauto|discriminate].
Qed.
Lemma long_loops id x : it (S (List.length reg)) id = Some x -> loops id.
Proof.
  intros H. pose proof (met_length _ _ _ H) as Len.
  assert (N : ~ NoDup (met (S (List.length reg)) id)).
  { intros N. pose proof (NoDup_incl_length N (met_known _ id)) as B. rewrite map_length in B. lia. }
  apply repeats in N as (a & l1 & l2 & l3 & E).
  pose proof (met_nth _ _ _ _ _ E) as E1. pose proof (met_nth (S (List.length reg)) id a (l1 ++ a :: l2) l3) as E2. rewrite <- app_assoc in E2. specialize (E2 E).
  rewrite app_length in E2. cbn [List.length] in E2. rewrite it_add, E1 in E2. exists a. split; [|apply leads_it; eauto].
  destruct l1 as [|b l1]; [cbn in E1; injection E1 as <-; now left|right; apply leads_it; exists (List.length l1); exact E1].
Qed.
Theorem ends_iff id : (exists o, F (S (List.length reg)) id = Some o) <-> ~ loops id.
Proof.
  split.
  - intros (o & H) L. rewrite (loop_forever id L) in H. discriminate.
  - intros L. destruct (F (S (List.length reg)) id) as [o|] eqn:E; [eauto|]. apply none_iff in E as (x & E). destruct L. now apply long_loops in E.
Qed.
Theorem ends_any id : (exists k o, F k id = Some o) <-> ~ loops id.
Proof.
  split.
  - intros (k & o & H) L. rewrite (loop_forever id L) in H. discriminate.
  - intros L. apply ends_iff in L as (o & H). eauto.
Qed.

(** ** What the chain is worth *)
Inductive placed : Z -> mat -> Prop :=
| placed_j2000 : placed 1 identity
| placed_relative a b s values name r m : a <> 1 -> latest reg (fun g => f_id g = a) s -> f_tk s = Some (values, name) ->
    latest reg (fun g => f_name g = map upper name) r -> f_id r = b -> placed b m -> placed a (mul m (mat_of values))
| placed_body a s m : a <> 1 -> latest reg (fun g => f_id g = a) s -> f_tk s = None -> f_class s = Pck ->
    iau_body_rotation pcks (f_class_id s) t = Ok m -> placed a m.
Theorem placed_spec id m : (exists k, F k id = Some (Ok m)) <-> placed id m.
Proof.
  split.
  - intros (k & H). revert id m H. induction k as [|k IH]; intros id m H; [discriminate|]. cbn [frame_to_j2000] in H.
    destruct (Z.eqb_spec id 1) as [->|N]; [injection H as <-; constructor|].
    destruct (reg_by_id reg id) as [s|e|] eqn:E1; try discriminate. apply reg_by_id_spec in E1. destruct (f_tk s) as [(values, name)|] eqn:E2.
    + destruct (reg_by_name reg name) as [r|e|] eqn:E3; try discriminate. apply reg_by_name_spec in E3.
      destruct (F k (f_id r)) as [[m'|e|]|] eqn:E4; try discriminate. injection H as <-. eapply placed_relative; eauto.
    + destruct (f_class s) eqn:E3; try discriminate. injection H as H. eapply placed_body; eauto.
  - intros P. induction P as [|a b s values name r m N L1 E2 L3 Eb P (k & IH)|a s m N L1 E2 E3 H].
    + exists 1%nat. reflexivity.
    + exists (S k). cbn [frame_to_j2000]. destruct (Z.eqb_spec a 1); [contradiction|]. apply reg_by_id_spec in L1. apply reg_by_name_spec in L3. rewrite L1, E2, L3, Eb, IH. reflexivity.
    + exists 1%nat. cbn [frame_to_j2000]. destruct (Z.eqb_spec a 1); [contradiction|]. apply reg_by_id_spec in L1. rewrite L1, E2, E3, H. reflexivity.
Qed.
Definition proper (m : mat) : Prop := orthonormal m /\ det m = 1%R.
Lemma body_matrix_proper a d w : proper (body_matrix a d w).
Proof.
  unfold body_matrix. destruct (r3_orthonormal (PI / 2 + a)) as (A & A'), (r1_orthonormal (PI / 2 - d)) as (B & B'), (r3_orthonormal (- w)) as (C & C').
  split; [repeat apply orthonormal_mul; assumption|]. rewrite !det_mul, A', B', C'. lra.
Qed.
Lemma iau_proper id m : iau_body_rotation pcks id t = Ok m -> proper m.
Proof.
  unfold iau_body_rotation, rotation_to_j2000. destruct (first_body _ _) as [o|]; [|discriminate].
  destruct (linear _ _) as [ra|]; [|discriminate]. destruct (linear _ _) as [de|]; [|discriminate]. destruct (linear _ _) as [w|]; [|discriminate].
  intros E. injection E as <-. apply body_matrix_proper.
Qed.
Theorem placed_orthonormal : (forall f values name, In f reg -> f_tk f = Some (values, name) -> orthonormal (mat_of values)) -> forall id m, placed id m -> orthonormal m.
Proof.
  intros H id m P. induction P as [|a b s values name r m N L1 E2 L3 Eb P IH|a s m N L1 E2 E3 Hm].
  - apply orthonormal_identity.
  - apply orthonormal_mul; [exact IH|]. apply latest_in in L1 as (I & _). eapply H; eauto.
  - exact (proj1 (iau_proper _ _ Hm)).
Qed.
Theorem placed_det : (forall f values name, In f reg -> f_tk f = Some (values, name) -> det (mat_of values) = 1%R) -> forall id m, placed id m -> det m = 1%R.
Proof.
  intros H id m P. induction P as [|a b s values name r m N L1 E2 L3 Eb P IH|a s m N L1 E2 E3 Hm].
  - unfold det, identity; cbn. lra.
  - rewrite det_mul, IH. apply latest_in in L1 as (I & _). rewrite (H _ _ _ I E2). lra.
  - exact (proj2 (iau_proper _ _ Hm)).
Qed.

(** ** Rotations between frames *)
Definition rotates (a b : Z) (m : mat) : Prop := exists k, rotation_naif k reg pcks a b t = Some (Ok m).
Lemma rotates_spec a b m : rotates a b m <-> (a = b /\ m = identity) \/ (a <> b /\ exists x y, placed a x /\ placed b y /\ m = mul (transpose y) x).
Proof.
  unfold rotates, rotation_naif. destruct (Z.eqb_spec a b) as [->|N].
  - split; [intros (_ & E); injection E as <-; auto|]. intros [(_ & ->)|(N & _)]; [exists O; reflexivity|contradiction].
  - split.
    + intros (k & H). right. split; [exact N|]. destruct (F k a) as [[x|e|]|] eqn:Ea; try discriminate. destruct (F k b) as [[y|e|]|] eqn:Eb; try discriminate.
      injection H as <-. exists x, y. split; [apply placed_spec; eauto|]. split; [apply placed_spec; eauto|reflexivity].
    + intros [(E & _)|(_ & x & y & Px & Py & ->)]; [contradiction|]. apply placed_spec in Px as (k & Ex), Py as (j & Ey).
      exists (k + j)%nat. rewrite (more _ _ _ Ex (k + j)), (more _ _ _ Ey (k + j)) by lia. reflexivity.
Qed.
Lemma placed_fun id m m' : placed id m -> placed id m' -> m = m'.
Proof. intros A B. apply placed_spec in A as (k & A), B as (j & B). pose proof (same _ _ _ _ _ A B). congruence. Qed.
Theorem rotates_compose a b c m1 m2 :
  (forall f values name, In f reg -> f_tk f = Some (values, name) -> orthonormal (mat_of values)) ->
  rotates a b m1 -> rotates b c m2 -> rotates a c (mul m2 m1).
Proof.
  intros H. rewrite !rotates_spec. intros [(-> & ->)|(N1 & x & y & Px & Py & ->)] [(-> & ->)|(N2 & y' & z & Py' & Pz & ->)].
  - left. split; [reflexivity|apply mul_1_l].
  - right. split; [exact N2|]. exists y', z. rewrite mul_1_r. auto.
  - right. split; [exact N1|]. exists x, y. rewrite mul_1_l. auto.
  - rewrite (placed_fun _ _ _ Py' Py). pose proof (orthonormal_r _ (placed_orthonormal H _ _ Py)) as O. rewrite <- mul_assoc, (mul_assoc y), O, mul_1_l.
    destruct (Z.eq_dec a c) as [->|N].
    + left. split; [reflexivity|]. rewrite (placed_fun _ _ _ Pz Px). exact (placed_orthonormal H _ _ Px).
    + right. split; [exact N|]. exists x, z. auto.
Qed.
Theorem rotates_back a b m : rotates a b m -> rotates b a (transpose m).
Proof.
  rewrite !rotates_spec. intros [(-> & ->)|(N & x & y & Px & Py & ->)]; [left; split; [reflexivity|mat]|].
  right. split; [auto|]. exists y, x. split; [exact Py|]. split; [exact Px|]. now rewrite transpose_mul, transpose_transpose.
Qed.
Theorem rotates_orthonormal a b m :
  (forall f values name, In f reg -> f_tk f = Some (values, name) -> orthonormal (mat_of values)) -> rotates a b m -> orthonormal m.
Proof.
  intros H. rewrite rotates_spec. intros [(-> & ->)|(N & x & y & Px & Py & ->)]; [apply orthonormal_identity|].
  apply orthonormal_mul; [apply orthonormal_transpose|]; eapply placed_orthonormal; eauto.
Qed.
Theorem rotates_det a b m :
  (forall f values name, In f reg -> f_tk f = Some (values, name) -> det (mat_of values) = 1%R) -> rotates a b m -> det m = 1%R.
Proof.
  intros H. rewrite rotates_spec. intros [(-> & ->)|(N & x & y & Px & Py & ->)]; [unfold det, identity; cbn; lra|].
  rewrite det_mul, det_transpose, (placed_det H _ _ Px), (placed_det H _ _ Py). lra.
Qed.
Theorem rotates_fun a b m m' : rotates a b m -> rotates a b m' -> m = m'.
Proof.
  rewrite !rotates_spec. intros [(-> & ->)|(N & x & y & Px & Py & ->)] [(E & ->)|(N' & x' & y' & Px' & Py' & ->)]; try contradiction; auto.
  now rewrite (placed_fun _ _ _ Px Px'), (placed_fun _ _ _ Py Py').
Qed.
(** Panics come from bodies without a pole only *)
Lemma iau_panic id : iau_body_rotation pcks id t = Panic <-> exists o, first_body (rev pcks) id = Some o /\ (pole_ra o = [] \/ pole_dec o = [] \/ pm o = []).
Proof.
  unfold iau_body_rotation, rotation_to_j2000. destruct (first_body (rev pcks) id) as [o|].
  - destruct (pole_ra o) as [|a1 l1] eqn:E1; cbn [linear]; [split; [eauto|reflexivity]|].
    destruct (pole_dec o) as [|a2 l2] eqn:E2; cbn [linear]; [split; [eauto|reflexivity]|].
    destruct (pm o) as [|a3 l3] eqn:E3; cbn [linear]; [split; [eauto 6|reflexivity]|].
    split; [discriminate|]. intros (o' & E & H). injection E as <-. rewrite E1, E2, E3 in H. destruct H as [H|[H|H]]; discriminate.
  - split; [discriminate|]. intros (o & E & _). discriminate.
Qed.
Lemma first_body_spec l id : match first_body (rev l) id with
  | Some o => exists p, latest l (fun q => Pck_Model.body q id <> None) p /\ Pck_Model.body p id = Some o
  | None => forall q, In q l -> Pck_Model.body q id = None
  end.
Proof.
  induction l as [|p l IH] using rev_ind; [intros q []|]. rewrite rev_app_distr. cbn [rev app first_body]. destruct (Pck_Model.body p id) as [o|] eqn:E.
  - exists p. split; [|exact E]. exists l, []. split; [reflexivity|]. split; [congruence|constructor].
  - destruct (first_body (rev l) id) as [o|].
    + destruct IH as (q & (a & b & -> & B & F) & Q). exists q. split; [|exact Q]. exists a, (b ++ [p]). split; [rewrite <- app_assoc; reflexivity|]. split; [exact B|].
      apply Forall_app. split; [exact F|]. constructor; [|constructor]. intros X. contradiction.
    + intros q I. apply in_app_or in I as [I|[<-|[]]]; [now apply IH|exact E].
Qed.
End Frames.

(** ** The orientation of a body *)
Local Open Scope R_scope.
(** the rotation the constants are published for (IAU): the transpose of R3(W) R1(90 - d) R3(90 + a) *)
Definition published (a d w : R) : mat := transpose (mul (mul (r3 w) (r1 (PI / 2 - d))) (r3 (PI / 2 + a))).
Definition pole (a d : R) : vec := (cos d * cos a, cos d * sin a, sin d).
Lemma s_shift x : sin (PI / 2 + x) = cos x. Proof. rewrite sin_plus, sin_PI2, cos_PI2. ring. Qed.
Lemma c_shift x : cos (PI / 2 + x) = - sin x. Proof. rewrite cos_plus, sin_PI2, cos_PI2. ring. Qed.
Lemma s_shift' x : sin (PI / 2 - x) = cos x. Proof. rewrite sin_minus, sin_PI2, cos_PI2. ring. Qed.
Lemma c_shift' x : cos (PI / 2 - x) = sin x. Proof. rewrite cos_minus, sin_PI2, cos_PI2. ring. Qed.
Lemma body_entries a d w : body_matrix a d w =
  M (- sin a * cos w + cos a * sin d * sin w) (sin a * sin w + cos a * sin d * cos w) (cos a * cos d)
    (- cos a * cos w - sin a * sin d * sin w) (cos a * sin w - sin a * sin d * cos w) (- sin a * cos d)
    (- cos d * sin w) (- cos d * cos w) (sin d).
Proof. unfold body_matrix, r3, r1. rewrite s_shift, c_shift, s_shift', c_shift', cos_neg, sin_neg. apply mat_eq; cbn; ring. Qed.
Lemma published_entries a d w : published a d w =
  M (- sin a * cos w - cos a * sin d * sin w) (sin a * sin w - cos a * sin d * cos w) (cos a * cos d)
    (cos a * cos w - sin a * sin d * sin w) (- cos a * sin w - sin a * sin d * cos w) (sin a * cos d)
    (cos d * sin w) (cos d * cos w) (sin d).
Proof. unfold published, r3, r1. rewrite s_shift, c_shift, s_shift', c_shift'. apply mat_eq; cbn; ring. Qed.
Lemma published_pole a d w : apply (published a d w) (0, 0, 1) = pole a d.
Proof. rewrite published_entries. unfold pole. cbn. f_equal; [f_equal|]; ring. Qed.
Lemma body_pole a d w : apply (body_matrix a d w) (0, 0, 1) = (cos d * cos a, - (cos d * sin a), sin d).
Proof. rewrite body_entries. cbn. f_equal; [f_equal|]; ring. Qed.
Lemma body_exact a d w : body_matrix a d w = published a d w <-> cos a = 0 /\ cos d = 0.
Proof.
  rewrite body_entries, published_entries. pose proof (sin2_cos2 w) as W. unfold Rsqr in W. split.
  - intros E. injection E as E1 E2 E4 E5 E6 E7 E8. split.
    + assert (A : cos a * cos w = 0) by lra. assert (B : cos a * sin w = 0) by lra.
      replace (cos a) with (cos a * (sin w * sin w + cos w * cos w)) by (rewrite W; ring).
      replace (cos a * (sin w * sin w + cos w * cos w)) with (cos a * sin w * sin w + cos a * cos w * cos w) by ring. rewrite A, B. ring.
    + assert (A : cos d * cos w = 0) by lra. assert (B : cos d * sin w = 0) by lra.
      replace (cos d) with (cos d * (sin w * sin w + cos w * cos w)) by (rewrite W; ring).
      replace (cos d * (sin w * sin w + cos w * cos w)) with (cos d * sin w * sin w + cos d * cos w * cos w) by ring. rewrite A, B. ring.
  - intros (-> & ->). apply mat_eq; cbn; ring.
Qed.
