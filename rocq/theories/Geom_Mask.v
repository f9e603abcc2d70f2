(** The terrain mask. *)
From Coq Require Import List Reals Lra Lia Bool Sorting.Sorted Sorting.Permutation.
From Verif Require Import Base Ang Sort Geom_Model Geom_Proofs.
Import ListNotations.
Local Open Scope R_scope.

Definition asc (m : list (R * R)) : Prop := StronglySorted (fun a b : R * R => fst a < fst b) m.
Definition in_turn (m : list (R * R)) : Prop := Forall (fun s : R * R => 0 <= fst s < 2 * PI) m.
Definition distinct (m : list (R * R)) : Prop := NoDup (map fst m).

Lemma leb_total : total (fun a b : R * R => rleb (fst a) (fst b)).
Proof. intros x y. destruct (rleb_r (fst x) (fst y)); [auto|]. right. destruct (rleb_r (fst y) (fst x)); [auto|lra]. Qed.
Lemma leb_trans : transitive (fun a b : R * R => rleb (fst a) (fst b)).
Proof. intros x y z. destruct (rleb_r (fst x) (fst y)), (rleb_r (fst y) (fst z)), (rleb_r (fst x) (fst z)); auto; lra. Qed.
Lemma sorted_asc m : distinct m -> asc (isort (fun a b => rleb (fst a) (fst b)) m).
Proof.
  intros D. pose proof (isort_ordered (fun a b : R * R => rleb (fst a) (fst b)) m leb_total leb_trans) as O. pose proof (isort_perm (fun a b : R * R => rleb (fst a) (fst b)) m) as P.
  assert (D' : distinct (isort (fun a b => rleb (fst a) (fst b)) m)) by (unfold distinct; eapply Permutation_NoDup; [apply Permutation_sym, Permutation_map, P|exact D]).
  clear P D. induction O as [|x l O IH F]; [constructor|]. unfold distinct in D'. cbn [map] in D'. inversion D' as [|? ? N D]; subst. constructor; [now apply IH|]. rewrite Forall_forall in *. intros y I. specialize (F y I). cbn beta in F. destruct (rleb_r (fst x) (fst y)) as [[L|E]|L]; [exact L| |discriminate]. exfalso. apply N. rewrite E. now apply in_map.
Qed.
Lemma mask_sorted m : in_turn m -> distinct m -> asc (mask_new m) /\ in_turn (mask_new m) /\ (forall s, In s (mask_new m) <-> In s m).
Proof.
  intros T D. unfold mask_new. set (s := isort _ m). assert (E : map (fun q : R * R => (rem_e (fst q) (2 * PI), snd q)) s = s).
  { assert (Ts : in_turn s) by (unfold in_turn in *; rewrite Forall_forall in *; intros q I; apply T; now apply (isort_in (fun a b : R * R => rleb (fst a) (fst b)))). induction s as [|q s IH]; [reflexivity|]. inversion Ts; subst. cbn [map]. rewrite IH by assumption. rewrite rem_e_small by (pose proof PI_RGT_0; lra). now destruct q. }
  rewrite E. split; [now apply sorted_asc|]. split; [|intros q; apply isort_in]. unfold in_turn in *. rewrite Forall_forall in *. intros q I. apply T. now apply (isort_in (fun a b : R * R => rleb (fst a) (fst b))).
Qed.
Lemma asc_app p q : asc (p ++ q) -> asc p /\ asc q /\ forall x y, In x p -> In y q -> fst x < fst y.
Proof.
  induction p as [|a p IH]; cbn [app]; intros H; [split; [constructor|split; [exact H|intros ? ? []]]|]. inversion H as [|? ? H1 H2]; subst. destruct (IH H1) as (A & B & C). rewrite Forall_forall in H2. split; [constructor; [exact A|]; rewrite Forall_forall; intros; apply H2; apply in_or_app; auto|]. split; [exact B|]. intros x y [<-|I] J; [apply H2; apply in_or_app; auto|auto].
Qed.
Lemma asc_inj m x y : asc m -> In x m -> In y m -> fst x = fst y -> x = y.
Proof.
  intros A. induction A as [|a m A IH F]; intros I J E; [destruct I|]. rewrite Forall_forall in F. destruct I as [->|I], J as [->|J]; auto; [specialize (F y J)|specialize (F x I)]; lra.
Qed.
Lemma between_start a0 e0 a1 e1 : mask_between a0 a0 e0 a1 e1 = e0.
Proof. unfold mask_between. destruct (Req_EM_T a1 a0); [ring|]. replace (a0 - a0) with 0 by ring. unfold Rdiv. ring. Qed.
Lemma between_end a0 e0 a1 e1 : a0 < a1 -> mask_between a1 a0 e0 a1 e1 = e1.
Proof. intros L. unfold mask_between. destruct (Req_EM_T a1 a0); [lra|]. field. lra. Qed.
(** The scan answers for the segment that holds the azimuth; a node shared by two has one value. *)
Lemma scan_segment first p a0 e0 a1 e1 q az : asc (p ++ (a0, e0) :: (a1, e1) :: q) -> a0 <= az <= a1 -> mask_scan first (p ++ (a0, e0) :: (a1, e1) :: q) az = Some (mask_between az a0 e0 a1 e1).
Proof.
  intros S L. induction p as [|(b0, f0) p IH].
  - cbn [app mask_scan]. destruct (rleb_r a0 az); [|lra]. destruct (rleb_r az a1); [|lra]. reflexivity.
  - cbn [app mask_scan]. inversion S as [|? ? S1 S2]; subst. specialize (IH S1). destruct p as [|(b1, f1) p].
    + cbn [app] in *. destruct (rleb_r b0 az) as [B0|B0]; cbn [andb]; [|exact IH]. destruct (rleb_r az a0) as [B1|B1]; [|exact IH]. assert (az = a0) by lra. subst az. rewrite between_start, between_end; [reflexivity|]. inversion S2 as [|? ? X _]; subst. exact X.
    + cbn [app] in *. assert (b1 < a0). { inversion S1 as [|? ? _ F]; subst. rewrite Forall_forall in F. apply (F (a0, e0)). apply in_or_app. right. now left. } destruct (rleb_r b0 az); cbn [andb]; [|exact IH]. destruct (rleb_r az b1); [lra|exact IH].
Qed.
Lemma scan_last first p a0 e0 az : asc (p ++ [(a0, e0)]) -> a0 <= az <= fst first + 2 * PI -> mask_scan first (p ++ [(a0, e0)]) az = Some (mask_between az a0 e0 (fst first + 2 * PI) (snd first)).
Proof.
  intros S L. induction p as [|(b0, f0) p IH].
  - cbn [app mask_scan]. destruct (rleb_r a0 az); [|lra]. destruct (rleb_r az (fst first + 2 * PI)); [|lra]. reflexivity.
  - cbn [app mask_scan]. inversion S as [|? ? S1 S2]; subst. specialize (IH S1). destruct p as [|(b1, f1) p].
    + cbn [app] in *. destruct (rleb_r b0 az) as [B0|B0]; cbn [andb]; [|exact IH]. destruct (rleb_r az a0) as [B1|B1]; [|exact IH]. assert (az = a0) by lra. subst az. rewrite between_start, between_end; [reflexivity|]. inversion S2 as [|? ? X _]; subst. exact X.
    + cbn [app] in *. assert (b1 < a0). { inversion S1 as [|? ? _ F]; subst. rewrite Forall_forall in F. apply (F (a0, e0)). apply in_or_app. right. now left. } destruct (rleb_r b0 az); cbn [andb]; [|exact IH]. destruct (rleb_r az b1); [lra|exact IH].
Qed.
Lemma scan_before first m az : Forall (fun s : R * R => az < fst s) m -> mask_scan first m az = None.
Proof. intros F. induction F as [|(a, e) m H F IH]; [reflexivity|]. cbn [mask_scan]. destruct (match m with [] => _ | s :: _ => s end) as (a1, e1). cbn [fst] in H. destruct (rleb_r a az); [lra|]. exact IH. Qed.
Section Profile.
Variable m : list (R * R).
Hypotheses (A : asc m) (T : in_turn m).
Lemma two_pi : 0 < 2 * PI. Proof. pose proof PI_RGT_0. lra. Qed.
Lemma neighbours a0 e0 a1 e1 az k : In (a0, e0) m -> In (a1, e1) m -> a0 < a1 -> (forall s, In s m -> ~ (a0 < fst s < a1)) -> a0 <= az <= a1 ->
  elevation_at m (az + 2 * PI * IZR k) = e0 + (az - a0) / (a1 - a0) * (e1 - e0).
Proof.
  intros I0 I1 L N H. assert (Ta : forall a e, In (a, e) m -> 0 <= a < 2 * PI) by (intros a e I; unfold in_turn in T; rewrite Forall_forall in T; exact (T _ I)). pose proof (Ta _ _ I0). pose proof (Ta _ _ I1).
  unfold elevation_at. rewrite (rem_e_shift _ _ _ two_pi), rem_e_small by (pose proof two_pi; lra). destruct (in_split _ _ I0) as (p & q & E).
  assert (Hq : exists q', q = (a1, e1) :: q').
  { subst m. destruct (asc_app _ _ A) as (_ & A2 & A3). inversion A2 as [|? ? A4 F]; subst. rewrite Forall_forall in F. apply in_app_or in I1 as [I1|[I1|I1]]; [specialize (A3 _ (a0, e0) I1 (or_introl eq_refl)); cbn in A3; lra|injection I1 as <- <-; lra|].
    destruct q as [|z q']; [destruct I1|]. destruct I1 as [->|I1]; [now exists q'|]. exfalso. apply (N z); [apply in_or_app; right; right; now left|]. split; [apply (F z); now left|]. inversion A4 as [|? ? _ F2]; subst. rewrite Forall_forall in F2. exact (F2 _ I1). }
  destruct Hq as (q' & ->). rewrite E. rewrite E in A. destruct (p ++ (a0, e0) :: (a1, e1) :: q') as [|f l] eqn:Em; [destruct p; discriminate|]. rewrite <- Em. rewrite <- Em in A. rewrite scan_segment by (assumption || lra). unfold mask_between. destruct (Req_EM_T a1 a0); [lra|reflexivity].
Qed.
Lemma around a0 e0 a1 e1 az k : In (a0, e0) m -> In (a1, e1) m -> (forall s, In s m -> a1 <= fst s <= a0) -> a0 <= az <= a1 + 2 * PI ->
  elevation_at m (az + 2 * PI * IZR k) = e0 + (az - a0) / (a1 + 2 * PI - a0) * (e1 - e0).
Proof.
  intros I0 I1 N H. assert (Ta : forall a e, In (a, e) m -> 0 <= a < 2 * PI) by (intros a e I; unfold in_turn in T; rewrite Forall_forall in T; exact (T _ I)). pose proof (Ta _ _ I0) as T0. pose proof (Ta _ _ I1) as T1.
  destruct m as [|f l] eqn:Em; [destruct I0|]. assert (F : f = (a1, e1)). { destruct I1 as [|I1]; [assumption|]. inversion A as [|? ? _ F]; subst. rewrite Forall_forall in F. specialize (F _ I1). specialize (N f (or_introl eq_refl)). cbn in *. lra. } subst f.
  assert (Hl : exists p, (a1, e1) :: l = p ++ [(a0, e0)]).
  { destruct (in_split _ _ I0) as (p & q & E). exists p. rewrite E. destruct q as [|z q]; [reflexivity|]. exfalso. rewrite E in A, N. destruct (asc_app _ _ A) as (_ & A2 & _). inversion A2 as [|? ? _ F]; subst. rewrite Forall_forall in F. specialize (F z (or_introl eq_refl)). specialize (N z ltac:(apply in_or_app; right; right; now left)). cbn in *. lra. }
  destruct Hl as (p & E). rewrite (rem_e_shift az (2 * PI) k two_pi) || idtac. unfold elevation_at. rewrite (rem_e_shift _ _ _ two_pi). destruct (Rlt_dec az (2 * PI)) as [S|S].
  - rewrite rem_e_small by (pose proof two_pi; lra). rewrite E. rewrite scan_last; [|rewrite <- E; exact A|cbn [fst]; lra]. unfold mask_between. cbn [fst snd]. destruct (Req_EM_T (a1 + 2 * PI) a0); [pose proof two_pi; lra|reflexivity].
  - rewrite (rem_e_unique az (2 * PI) (az - 2 * PI) 1) by (pose proof two_pi; cbn; lra). assert (La : last ((a1, e1) :: l) (a1, e1) = (a0, e0)) by (rewrite E; apply last_last).
    destruct (Req_dec (az - 2 * PI) a1) as [Q|Q].
    + assert (Sc : exists v, mask_scan (a1, e1) ((a1, e1) :: l) (az - 2 * PI) = Some v /\ v = e1).
      { destruct l as [|(b, f) l]; cbn [mask_scan fst snd]; (destruct (rleb_r a1 (az - 2 * PI)); [|lra]). - destruct (rleb_r (az - 2 * PI) (a1 + 2 * PI)); [|pose proof two_pi; lra]. cbn [andb]. eexists. split; [reflexivity|]. rewrite Q. apply between_start.
        - destruct (rleb_r (az - 2 * PI) b) as [Lb|Lb]; [|exfalso; inversion A as [|? ? _ F]; subst; inversion F; subst; cbn in *; lra]. cbn [andb]. eexists. split; [reflexivity|]. rewrite Q. apply between_start. }
      destruct Sc as (v & -> & ->). replace az with (a1 + 2 * PI) by lra. field. pose proof two_pi. lra.
    + rewrite scan_before. * rewrite La. unfold mask_between. destruct (Req_EM_T a1 (a0 - 2 * PI)); [pose proof two_pi; lra|]. replace (az - 2 * PI - (a0 - 2 * PI)) with (az - a0) by ring. replace (a1 - (a0 - 2 * PI)) with (a1 + 2 * PI - a0) by ring. reflexivity.
      * rewrite Forall_forall. intros s I. specialize (N s I). lra.
Qed.
End Profile.
(** Every azimuth of the turn lies between two neighbours or around the end. *)
Lemma head_last (m : list (R * R)) : asc m -> m <> [] -> exists lo hi, In lo m /\ In hi m /\ forall s, In s m -> fst lo <= fst s <= fst hi.
Proof.
  intros A N. induction A as [|x m A IH F]; [contradiction|]. destruct m as [|y m]; [exists x, x; repeat split; try (now left); destruct H as [<-|[]]; lra|].
  destruct IH as (lo & hi & I & J & B); [discriminate|]. rewrite Forall_forall in F. exists x, hi. split; [now left|]. split; [now right|]. intros s [<-|K]; [specialize (F hi J); lra|]. specialize (F s K). specialize (B s K). lra.
Qed.
Lemma cover (m : list (R * R)) az : asc m -> (exists lo, In lo m /\ fst lo <= az) -> (exists hi, In hi m /\ az <= fst hi) ->
  exists a b, In a m /\ In b m /\ fst a <= az <= fst b /\ ((a = b /\ m = [a]) \/ (fst a < fst b /\ forall s, In s m -> ~ (fst a < fst s < fst b))).
Proof.
  intros A. induction A as [|x m A IH F]; intros (lo & I & L) (hi & J & H); [destruct I|]. rewrite Forall_forall in F.
  assert (X : fst x <= az) by (destruct I as [->|I]; [exact L|specialize (F lo I); lra]). destruct m as [|y m].
  - destruct J as [->|[]]. exists hi, hi. split; [now left|]. split; [now left|]. split; [lra|]. left. auto.
  - destruct (Rle_lt_dec az (fst y)) as [Ly|Ly].
    + exists x, y. split; [now left|]. split; [right; now left|]. split; [lra|]. right. split; [apply F; now left|]. intros s [<-|[<-|K]]; [lra|lra|]. inversion A as [|? ? _ F2]; subst. rewrite Forall_forall in F2. specialize (F2 s K). lra.
    + destruct IH as (a & b & Ia & Ib & Q & W); [exists y; split; [now left|lra]|exists hi; split; [|exact H]; destruct J as [->|J]; [specialize (F y (or_introl eq_refl)); lra|exact J]|].
      exists a, b. split; [now right|]. split; [now right|]. split; [exact Q|]. destruct W as [(-> & W)|(W1 & W2)]; [injection W as -> ->; lra|]. right. split; [exact W1|]. intros s [<-|K]; [specialize (F a Ia); lra|now apply W2].
Qed.
(** So the mask lies between its lowest and its highest sample, and does not depend on the order in
    which the samples are given. *)
Lemma mix_bounds lo hi e0 e1 t : lo <= e0 <= hi -> lo <= e1 <= hi -> 0 <= t <= 1 -> lo <= e0 + t * (e1 - e0) <= hi.
Proof. intros. split; nra. Qed.
Lemma mask_bounds m lo hi az : asc m -> in_turn m -> m <> [] -> Forall (fun s : R * R => lo <= snd s <= hi) m -> lo <= elevation_at m az <= hi.
Proof.
  intros A T N F. rewrite Forall_forall in F. pose proof (two_pi) as P2. set (r := rem_e az (2 * PI)). pose proof (rem_e_range az (2 * PI) P2) as Rr. fold r in Rr.
  assert (E : exists k, az = r + 2 * PI * IZR k) by (exists (Int_part (az / (2 * PI))); unfold r, rem_e; ring). destruct E as (k & Ek). clearbody r. subst az.
  assert (Tm : forall s, In s m -> 0 <= fst s < 2 * PI) by (unfold in_turn in T; rewrite Forall_forall in T; exact T).
  destruct (head_last m A N) as ((a1, e1) & (a0, e0) & I1 & I0 & B). cbn [fst] in B. pose proof (F _ I0) as F0. pose proof (F _ I1) as F1. pose proof (Tm _ I0) as T0. pose proof (Tm _ I1) as T1. cbn [fst snd] in F0, F1, T0, T1. pose proof (B _ I0) as B0. cbn [fst] in B0.
  assert (D : forall x y, 0 <= x <= y -> 0 < y -> 0 <= x / y <= 1). { intros x y X Y. assert (I : 0 < / y) by (now apply Rinv_0_lt_compat). assert (Z : y * / y = 1) by (field; lra). unfold Rdiv. split; nra. }
  destruct (Rlt_dec r a1) as [L1|L1]; [|destruct (Rlt_dec a0 r) as [L2|L2]].
  - replace (r + 2 * PI * IZR k) with (r + 2 * PI + 2 * PI * IZR (k - 1)) by (rewrite minus_IZR; ring). rewrite (around m A T a0 e0 a1 e1) by (assumption || lra). apply mix_bounds; try assumption. apply D; lra.
  - rewrite (around m A T a0 e0 a1 e1) by (assumption || lra). apply mix_bounds; try assumption. apply D; lra.
  - destruct (cover m r A) as ((a, e) & (b, f) & Ia & Ib & Q & W); [exists (a1, e1); cbn; split; [assumption|lra]|exists (a0, e0); cbn; split; [assumption|lra]|]. cbn [fst] in Q, W. pose proof (F _ Ia) as Fa. pose proof (F _ Ib) as Fb. cbn [snd] in Fa, Fb.
    destruct W as [W|(W1 & W2)].
    + destruct W as (W & Em). assert (a0 = a) by (rewrite Em in I0; destruct I0 as [I0|[]]; congruence). rewrite (around m A T a0 e0 a1 e1) by (assumption || lra). apply mix_bounds; try assumption. apply D; lra.
    + rewrite (neighbours m A T a e b f) by (assumption || lra). apply mix_bounds; try assumption. apply D; lra.
Qed.
Lemma asc_perm m m' : asc m -> asc m' -> (forall s, In s m <-> In s m') -> m = m'.
Proof.
  intros A. revert m'. induction A as [|x m A IH F]; intros m' A' E.
  - destruct m' as [|y m']; [reflexivity|]. exfalso. destruct (proj2 (E y)). now left.
  - destruct A' as [|y m' A' F']; [exfalso; destruct (proj1 (E x)); now left|]. rewrite Forall_forall in F, F'.
    assert (x = y). { destruct (proj1 (E x)) as [|I]; [now left|congruence|]. destruct (proj2 (E y)) as [|J]; [now left|congruence|]. specialize (F y J). specialize (F' x I). lra. } subst y. f_equal. apply IH; [assumption|].
    intros s. split; intros I; [destruct (proj1 (E s)) as [<-|J]; [now right|specialize (F x I); lra|exact J]|destruct (proj2 (E s)) as [<-|J]; [now right|specialize (F' x I); lra|exact J]].
Qed.
