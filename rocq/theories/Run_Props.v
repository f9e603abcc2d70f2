(** C146 - C148: covariance checks, run manifests and residual tables. *)
From Coq Require Import Ascii String List Bool QArith Qabs Arith Sorted Permutation Lia Lqa.
From Verif Require Import Base Sort Cfg_Model.
Import ListNotations.
Local Open Scope nat_scope.

(** * C146 Covariance checks *)
Lemma pairs_in n i j : In (i, j) (pairs n) <-> i < j < n.
Proof.
  unfold pairs. rewrite in_flat_map. split.
  - intros (k & K & H). apply in_map_iff in H as (l & E & L). injection E as <- <-. apply in_seq in K, L. lia.
  - intros H. exists i. split; [apply in_seq; lia|]. apply in_map. apply in_seq. lia.
Qed.
(** pairs are visited row by row *)
Lemma pairs_sorted n : StronglySorted (fun a b => fst a < fst b \/ fst a = fst b /\ snd a < snd b) (pairs n).
Proof.
  unfold pairs. assert (G : forall k s, StronglySorted (fun a b => fst a < fst b \/ fst a = fst b /\ snd a < snd b) (flat_map (fun i => map (fun j => (i, j)) (seq (i + 1) (n - (i + 1)))) (seq s k))); [|apply G].
  induction k as [|k IH]; intros s; cbn [seq flat_map]; [constructor|].
  assert (A : forall m t, StronglySorted (fun a b : nat * nat => fst a < fst b \/ fst a = fst b /\ snd a < snd b) (map (fun j => (s, j)) (seq t m))).
  { induction m as [|m IHm]; intros t; cbn; constructor; auto. apply Forall_forall. intros x X. apply in_map_iff in X as (j & <- & J). apply in_seq in J. cbn. lia. }
  assert (B : Forall (fun x => s < fst x) (flat_map (fun i => map (fun j => (i, j)) (seq (i + 1) (n - (i + 1)))) (seq (S s) k))).
  { apply Forall_forall. intros x X. apply in_flat_map in X as (i & I & X). apply in_map_iff in X as (j & <- & _). apply in_seq in I. cbn. lia. }
  generalize (n - (s + 1)) as m. generalize (s + 1) as t. intros t m. specialize (A m t). revert A. specialize (IH (S s)). revert IH B.
  generalize (flat_map (fun i => map (fun j => (i, j)) (seq (i + 1) (n - (i + 1)))) (seq (S s) k)) as rest. intros rest IH B.
  assert (Q : Forall (fun x => fst x = s) (map (fun j => (s, j)) (seq t m))) by (apply Forall_forall; intros x X; apply in_map_iff in X as (j & <- & _); reflexivity).
  revert Q. generalize (map (fun j => (s, j)) (seq t m)) as l. induction l as [|x l IHl]; intros Q A; cbn; [exact IH|].
  inversion A; subst. inversion Q; subst. constructor; [now apply IHl|]. apply Forall_app. split; [assumption|]. eapply Forall_impl; [|exact B]. cbn. intros y Y. lia.
Qed.
Lemma find_first A (f : A -> bool) (R : A -> A -> Prop) l x : StronglySorted R l -> find f l = Some x -> In x l /\ f x = true /\ forall y, In y l -> f y = true -> y = x \/ R x y.
Proof.
  induction l as [|a l IH]; intros S H; [discriminate|]. inversion S as [|? ? S' F]; subst. cbn in H. destruct (f a) eqn:E.
  - injection H as <-. split; [now left|]. split; [exact E|]. intros y [<-|Y] _; auto. right. rewrite Forall_forall in F. auto.
  - destruct (IH S' H) as (I & T & U). split; [now right|]. split; [exact T|]. intros y [<-|Y] K; [congruence|auto].
Qed.
Lemma find_none_iff A (f : A -> bool) l : find f l = None <-> forall x, In x l -> f x = false.
Proof.
  split; [intros H x X; eapply find_none; eauto|]. induction l as [|a l IH]; intros H; [reflexivity|]. cbn. rewrite (H a) by now left. apply IH. intros x X. apply H. now right.
Qed.
Lemma far_spec a b tol : far a b tol = true <-> exists x y, a = Some x /\ b = Some y /\ (tol < Qabs (x - y))%Q.
Proof.
  unfold far. destruct a as [x|], b as [y|]; try (split; [discriminate|intros (? & ? & ? & ? & _); discriminate]).
  rewrite negb_true_iff, <- not_true_iff_false, Qle_bool_iff. split.
  - intros H. exists x, y. repeat split. now apply Qnot_le_lt.
  - intros (x' & y' & [= <-] & [= <-] & L). now apply Qlt_not_le.
Qed.
(** the symmetry check passes exactly on n by n data whose mirrored entries are no further apart than the tolerance,
    wherever both are numbers; otherwise it names the first pair, row by row, that is *)
Theorem C146_symmetric n data tol : 
  (validate_symmetric n data tol = Ok tt <-> length data = n * n /\
     forall i j x y, i < j < n -> nth (i * n + j) data None = Some x -> nth (j * n + i) data None = Some y -> (Qabs (x - y) <= tol)%Q) /\
  (forall i j, validate_symmetric n data tol = Err (NotSymmetric i j) -> length data = n * n /\ i < j < n /\
     (exists x y, nth (i * n + j) data None = Some x /\ nth (j * n + i) data None = Some y /\ (tol < Qabs (x - y))%Q) /\
     forall k l x y, k < l < n -> (k < i \/ k = i /\ l < j) -> nth (k * n + l) data None = Some x -> nth (l * n + k) data None = Some y -> (Qabs (x - y) <= tol)%Q).
Proof.
  unfold validate_symmetric, validate_dim. destruct (Nat.eqb_spec (length data) (n * n)) as [L|L].
  2:{ split; [split; [discriminate|intros (H & _); contradiction]|discriminate]. }
  set (f := fun ij : nat * nat => far (entry data (fst ij * n + snd ij)) (entry data (snd ij * n + fst ij)) tol).
  assert (FS : forall i j, f (i, j) = true <-> exists x y, nth (i * n + j) data None = Some x /\ nth (j * n + i) data None = Some y /\ (tol < Qabs (x - y))%Q) by (intros; apply far_spec).
  destruct (find f (pairs n)) as [(i0, j0)|] eqn:F.
  - destruct (find_first _ _ _ _ _ (pairs_sorted n) F) as (I & T & U). apply pairs_in in I. split.
    + split; [discriminate|]. intros (_ & H). apply FS in T as (x & y & X & Y & Z). pose proof (H _ _ _ _ I X Y) as W. exfalso. now apply (Qlt_not_le _ _ Z).
    + intros i j E. injection E as <- <-. split; [exact L|]. split; [exact I|]. split; [now apply FS|]. intros k l x y K O X Y.
      apply Qnot_lt_le. intros Z. destruct (U (k, l)) as [E|E]; [now apply pairs_in|apply FS; eauto|injection E as <- <-; lia|cbn in E; lia].
  - split; [|discriminate]. split; [|reflexivity]. intros _. split; [exact L|]. intros i j x y IJ X Y. apply Qnot_lt_le. intros Z.
    pose proof (proj1 (find_none_iff _ f (pairs n)) F (i, j)) as W. rewrite (proj2 (FS i j)) in W by eauto. discriminate W. now apply pairs_in.
Qed.
(** the diagonal check names the first negative variance *)
Theorem C146_diagonal n data :
  (validate_diagonal_nonneg n data = Ok tt <-> length data = n * n /\ forall i x, i < n -> nth (i * n + i) data None = Some x -> (0 <= x)%Q) /\
  (forall i, validate_diagonal_nonneg n data = Err (NotPsdDiagonal i) -> length data = n * n /\ i < n /\ (exists x, nth (i * n + i) data None = Some x /\ (x < 0)%Q) /\
     forall k x, k < i -> nth (k * n + k) data None = Some x -> (0 <= x)%Q).
Proof.
  unfold validate_diagonal_nonneg, validate_dim. destruct (Nat.eqb_spec (length data) (n * n)) as [L|L].
  2:{ split; [split; [discriminate|intros (H & _); contradiction]|discriminate]. }
  set (f := fun i => negative (entry data (i * n + i))).
  assert (FS : forall i, f i = true <-> exists x, nth (i * n + i) data None = Some x /\ (x < 0)%Q).
  { intros i. unfold f, negative, entry. destruct (nth (i * n + i) data None) as [x|]; [|split; [discriminate|intros (? & ? & _); discriminate]].
    rewrite negb_true_iff, <- not_true_iff_false, Qle_bool_iff. split; [intros H; exists x; split; [reflexivity|now apply Qnot_le_lt]|intros (y & [= <-] & H); now apply Qlt_not_le]. }
  assert (SS : forall m, StronglySorted lt (seq 0 m)).
  { intros m. generalize 0. induction m as [|k IH]; intros s; cbn; constructor; auto. apply Forall_forall. intros x X. apply in_seq in X. lia. }
  destruct (find f (seq 0 n)) as [i0|] eqn:F.
  - destruct (find_first _ _ _ _ _ (SS n) F) as (I & T & U). apply in_seq in I. split.
    + split; [discriminate|]. intros (_ & H). apply FS in T as (x & X & Z). pose proof (H i0 x (proj2 I) X) as W. exfalso. now apply (Qlt_not_le _ _ Z).
    + intros i E. injection E as <-. split; [exact L|]. split; [lia|]. split; [now apply FS|]. intros k x K X. apply Qnot_lt_le. intros Z.
      destruct (U k) as [E|E]; [apply in_seq; lia|apply FS; eauto|lia|lia].
  - split; [|discriminate]. split; [|reflexivity]. intros _. split; [exact L|]. intros i x IN X. apply Qnot_lt_le. intros Z.
    pose proof (proj1 (find_none_iff _ f (seq 0 n)) F i) as W. rewrite (proj2 (FS i)) in W by eauto. discriminate W. apply in_seq. lia.
Qed.
(** both checks are wrong-size errors alike *)
Theorem C146_dimension n data tol : length data <> n * n ->
  validate_symmetric n data tol = Err (Dimension n (length data)) /\ validate_diagonal_nonneg n data = Err (Dimension n (length data)).
Proof. intros H. unfold validate_symmetric, validate_diagonal_nonneg, validate_dim. apply Nat.eqb_neq in H. now rewrite H. Qed.
(** passing both is not being a covariance: here is data that passes with tolerance zero and gives a combination of
    the two parameters a negative variance; and data that are not numbers pass *)
Theorem C146_semidefinite_refuted : exists data u v, validate_symmetric 2 data 0 = Ok tt /\ validate_diagonal_nonneg 2 data = Ok tt /\
  exists a b c d, data = [Some a; Some b; Some c; Some d] /\ (u * (a * u + b * v) + v * (c * u + d * v) < 0)%Q.
Proof. exists [Some 1; Some 2; Some 2; Some 1]%Q, 1%Q, (-1)%Q. split; [reflexivity|]. split; [reflexivity|]. exists 1%Q, 2%Q, 2%Q, 1%Q. split; reflexivity. Qed.
Theorem C146_not_numbers n tol : validate_symmetric n (repeat None (n * n)) tol = Ok tt /\ validate_diagonal_nonneg n (repeat None (n * n)) = Ok tt.
Proof.
  assert (N : forall k, nth k (repeat (@None Q) (n * n)) None = None) by (intros k; apply nth_repeat).
  split.
  - apply C146_symmetric. rewrite repeat_length. split; [reflexivity|]. intros i j x y _ X. now rewrite N in X.
  - apply C146_diagonal. rewrite repeat_length. split; [reflexivity|]. intros i x _ X. now rewrite N in X.
Qed.
Example C146_case : validate_symmetric 3 (map Some [1; 2; 3; 2; 1; 4; 3; 5; 1]%Q) (1 # 2) = Err (NotSymmetric 1 2) /\ validate_diagonal_nonneg 2 (map Some [1; 0; 0; -(1)]%Q) = Err (NotPsdDiagonal 1).
Proof. split; reflexivity. Qed.

(** * C147 Manifests *)
Section Manifests.
Context {K : Type} (leb : K -> K -> bool).
Context (TOT : forall a b, leb a b = true \/ leb b a = true) (TRANS : forall a b c, leb a b = true -> leb b c = true -> leb a c = true).
Lemma ds_total : Sort.total (fun a b : @dataset K => leb (d_key a) (d_key b)). Proof. intros x y. apply TOT. Qed.
Lemma ds_trans : Sort.transitive (fun a b : @dataset K => leb (d_key a) (d_key b)). Proof. intros x y z. apply TRANS. Qed.
Lemma sort_id l : sort_datasets leb (sort_datasets leb l) = sort_datasets leb l.
Proof. apply isort_id. apply isort_ordered; [exact ds_total|exact ds_trans]. Qed.
(** writing a manifest reorders its files and changes nothing else; doing it twice is doing it once *)
Theorem C147_canonical (m : @manifest K) :
  Permutation (m_inputs (canonicalize leb m)) (m_inputs m) /\ Permutation (m_outputs (canonicalize leb m)) (m_outputs m) /\
  StronglySorted (fun a b => leb (d_key a) (d_key b) = true) (m_inputs (canonicalize leb m)) /\
  StronglySorted (fun a b => leb (d_key a) (d_key b) = true) (m_outputs (canonicalize leb m)) /\
  m_run (canonicalize leb m) = m_run m /\ m_tool (canonicalize leb m) = m_tool m /\ m_config (canonicalize leb m) = m_config m /\
  m_started (canonicalize leb m) = m_started m /\ m_finished (canonicalize leb m) = m_finished m /\
  canonicalize leb (canonicalize leb m) = canonicalize leb m.
Proof.
  unfold canonicalize. cbn [m_inputs m_outputs m_run m_tool m_config m_started m_finished]. repeat split; try apply isort_perm; try (apply isort_ordered; [exact ds_total|exact ds_trans]). now rewrite !sort_id.
Qed.
Lemma sorted_perm_eq (l l' : list (@dataset K)) : StronglySorted (fun a b => leb (d_key a) (d_key b) = true) l -> StronglySorted (fun a b => leb (d_key a) (d_key b) = true) l' ->
  Permutation l l' -> (forall a b, In a l -> In b l -> leb (d_key a) (d_key b) = true -> leb (d_key b) (d_key a) = true -> a = b) -> l = l'.
Proof.
  revert l'. induction l as [|a l IH]; intros l' A B P U.
  - apply Permutation_nil in P. now subst.
  - destruct l' as [|b l']; [now apply Permutation_sym, Permutation_nil in P|]. inversion A as [|? ? A' FA]; subst. inversion B as [|? ? B' FB]; subst. rewrite Forall_forall in FA, FB.
    assert (E : a = b).
    { assert (IB : In b (a :: l)) by (apply (Permutation_in _ (Permutation_sym P)); now left). assert (IA : In a (b :: l')) by (apply (Permutation_in _ P); now left).
      destruct IB as [|IB]; [assumption|]. destruct IA as [|IA]; [now symmetry|]. apply U; [now left|now right|now apply FA|now apply FB]. }
    subst b. f_equal. apply IH; auto; [now apply Permutation_cons_inv in P|]. intros x y X Y. apply U; now right.
Qed.
(** two runs that list the same files in another order write the same manifest, if no two files have the same kind
    and path *)
Theorem C147_order (l l' : list (@dataset K)) : Permutation l l' -> (forall a b, In a l -> In b l -> leb (d_key a) (d_key b) = true -> leb (d_key b) (d_key a) = true -> a = b) ->
  sort_datasets leb l = sort_datasets leb l'.
Proof.
  intros P U. apply sorted_perm_eq; try (apply isort_ordered; [exact ds_total|exact ds_trans]).
  - unfold sort_datasets. now rewrite !isort_perm.
  - intros a b X Y. apply U; now apply isort_in in X, Y.
Qed.
End Manifests.
(** with a file listed twice with different contents the order still shows *)
Theorem C147_order_refuted : exists l l' : list (@dataset nat), Permutation l l' /\ sort_datasets Nat.leb l <> sort_datasets Nat.leb l'.
Proof.
  exists [Dataset 0 1 "a"; Dataset 0 2 "b"], [Dataset 0 2 "b"; Dataset 0 1 "a"]. split; [apply perm_swap|]. cbn. intros [=].
Qed.
Example C147_case : sort_datasets Nat.leb [Dataset 2 1 "x"; Dataset 0 2 "y"; Dataset 1 3 "z"] = [Dataset 0 2 "y"; Dataset 1 3 "z"; Dataset 2 1 "x"].
Proof. reflexivity. Qed.

(** * C148 Residual tables *)
Section Csv.
Local Open Scope string_scope.
Context (show9 show6 : Q -> string).
Fixpoint has (c : ascii) (s : string) : bool := match s with EmptyString => false | String d s => Ascii.eqb c d || has c s end.
Definition nl : ascii := ascii_of_nat 10.
Definition comma : ascii := ascii_of_nat 44.
Definition plain (s : string) : Prop := has comma s = false /\ has nl s = false.
Lemma has_app c a b : has c (a ++ b) = has c a || has c b.
Proof. induction a as [|d a IH]; cbn; [reflexivity|]. now rewrite IH, orb_assoc. Qed.
(** the text up to a separator it does not contain *)
Lemma cut c a b x y : has c a = false -> has c b = false -> a ++ String c x = b ++ String c y -> a = b /\ x = y.
Proof.
  revert b. induction a as [|d a IH]; intros b A B E; destruct b as [|e b]; cbn in E.
  - now injection E.
  - injection E as -> _. cbn in B. now rewrite Ascii.eqb_refl in B.
  - injection E as -> _. cbn in A. now rewrite Ascii.eqb_refl in A.
  - injection E as -> E. cbn in A, B. apply orb_false_elim in A as (_ & A), B as (_ & B). destruct (IH b A B E) as (-> & ->). auto.
Qed.
Lemma app_assoc_s (a b c : string) : (a ++ b) ++ c = a ++ b ++ c.
Proof. induction a as [|d a IH]; cbn; [reflexivity|]. now rewrite IH. Qed.
Definition good (r : residual) : Prop := plain (r_type r) /\ plain (r_satellite r).
(** what a reader of the table can recover *)
Definition row (r : residual) : string * string * string * string * string * bool := (show9 (r_epoch r), r_type r, r_satellite r, show6 (r_residual r), show6 (r_sigma r), r_rejected r).
Context (P9 : forall x, plain (show9 x)) (P6 : forall x, plain (show6 x)).
Lemma line_inj r r' : good r -> good r' -> record_line show9 show6 r = record_line show9 show6 r' -> row r = row r'.
Proof.
  intros ((A & _) & (B & _)) ((A' & _) & (B' & _)) E. unfold record_line in E. cbn [append] in E.
  apply (cut comma) in E as (E1 & E); [|apply P9|apply P9]. apply (cut comma) in E as (E2 & E); [|exact A|exact A'].
  apply (cut comma) in E as (E3 & E); [|exact B|exact B']. apply (cut comma) in E as (E4 & E); [|apply P6|apply P6]. apply (cut comma) in E as (E5 & E); [|apply P6|apply P6].
  unfold row. rewrite E1, E2, E3, E4, E5. f_equal. destruct (r_rejected r), (r_rejected r'); auto; discriminate.
Qed.
Lemma line_no_nl r : good r -> has nl (record_line show9 show6 r) = false.
Proof.
  intros ((_ & A) & (_ & B)). unfold record_line. rewrite !has_app, A, B, (proj2 (P9 _)), !(proj2 (P6 _)). now destruct (r_rejected r).
Qed.
(** names without commas or line breaks: the table tells its rows apart, one line a row *)
Theorem C148_rows l l' : Forall good l -> Forall good l' -> table show9 show6 l = table show9 show6 l' -> map row l = map row l'.
Proof.
  intros G G' E. unfold table in E.
  assert (I : forall a b c : string, a ++ b = a ++ c -> b = c) by (induction a; cbn; intros b c H; [exact H|injection H as H; auto]).
  apply I in E. apply I in E. clear I. revert l' G' E. induction G as [|r l R G IH]; intros l' G' E; destruct G' as [|r' l' R' G']; cbn [fold_right map] in *; auto.
  - exfalso. destruct (record_line show9 show6 r'); discriminate.
  - exfalso. destruct (record_line show9 show6 r); discriminate.
  - apply (cut nl) in E as (E1 & E2); [|now apply line_no_nl|now apply line_no_nl]. f_equal; [now apply line_inj|]. apply IH; auto.
Qed.
Fixpoint breaks (s : string) : nat := match s with EmptyString => 0 | String d s => (if Ascii.eqb nl d then 1 else 0) + breaks s end.
Lemma breaks_app a b : breaks (a ++ b) = breaks a + breaks b.
Proof. induction a as [|d a IH]; cbn; [reflexivity|]. rewrite IH. lia. Qed.
Lemma breaks_none s : has nl s = false -> breaks s = 0.
Proof. induction s as [|d s IH]; cbn [has breaks]; [reflexivity|]. intros H. apply orb_false_elim in H as (A & B). now rewrite A, IH. Qed.
Theorem C148_lines l : Forall good l -> breaks (table show9 show6 l) = S (length l).
Proof.
  intros G. unfold table. rewrite !breaks_app. change (breaks header + (breaks newline + breaks (fold_right (fun r t => record_line show9 show6 r ++ newline ++ t) "" l)) = S (length l)).
  change (breaks header) with 0. change (breaks newline) with 1. cbn [Nat.add]. f_equal. induction G as [|r l R G IH]; cbn [fold_right length]; [reflexivity|].
  rewrite !breaks_app, (breaks_none _ (line_no_nl r R)), IH. reflexivity.
Qed.
(** the cells of a line, between its commas *)
Fixpoint cells (s : string) : list string :=
  match s with
  | EmptyString => [EmptyString]
  | String c s => if Ascii.eqb comma c then EmptyString :: cells s else match cells s with x :: l => String c x :: l | [] => [String c EmptyString] end
  end.
Lemma cells_cut a s : has comma a = false -> cells (a ++ String comma s) = a :: cells s.
Proof.
  induction a as [|c a IH]; cbn [append has cells]; intros H; [now rewrite Ascii.eqb_refl|]. apply orb_false_elim in H as (A & B). rewrite A, IH; auto.
Qed.
Lemma cells_one a : has comma a = false -> cells a = [a].
Proof. induction a as [|c a IH]; cbn [has cells]; intros H; [reflexivity|]. apply orb_false_elim in H as (A & B). now rewrite A, IH. Qed.
(** the cell under a heading *)
Fixpoint under (name : string) (heads row : list string) : option string :=
  match heads, row with h :: hs, c :: cs => if String.eqb name h then Some c else under name hs cs | _, _ => None end.
(** each value stands under its heading *)
Theorem C148_columns r : good r -> let line := cells (record_line show9 show6 r) in
  length line = length (cells header) /\
  under "epoch_jd_tt" (cells header) line = Some (show9 (r_epoch r)) /\ under "obs_type" (cells header) line = Some (r_type r) /\
  under "satellite" (cells header) line = Some (r_satellite r) /\ under "residual_m" (cells header) line = Some (show6 (r_residual r)) /\
  under "sigma_m" (cells header) line = Some (show6 (r_sigma r)) /\ under "rejected" (cells header) line = Some (if r_rejected r then "true" else "false").
Proof.
  intros ((A & _) & (B & _)). unfold record_line. cbn [append]. change (String "," ?x) with (String comma x).
  rewrite (cells_cut (show9 _)) by apply P9. rewrite (cells_cut (r_type r)) by exact A. rewrite (cells_cut (r_satellite r)) by exact B.
  rewrite !(cells_cut (show6 _)) by apply P6. rewrite cells_one by (now destruct (r_rejected r)). repeat split.
Qed.
(** a name with a comma is not quoted: two different records, the same line *)
Theorem C148_comma_refuted e x y b : exists r r', record_line show9 show6 r = record_line show9 show6 r' /\ r_type r <> r_type r' /\ r_satellite r <> r_satellite r' /\
  r_epoch r = e /\ r_epoch r' = e /\ r_residual r = x /\ r_sigma r = y /\ r_rejected r = b.
Proof.
  exists (Residual e "C1C,G01" "SAT" x y b), (Residual e "C1C" "G01,SAT" x y b). repeat split; try discriminate.
Qed.
End Csv.
Example C148_case : good (Residual 0 "C1C" "G01" 0 1 false) /\ breaks (table (fun _ => "0"%string) (fun _ => "1"%string) [Residual 0 "C1C" "G01" 0 1 false; Residual 1 "P2" "G03" 0 1 true]) = 3.
Proof. split; [repeat split|reflexivity]. Qed.
Print Assumptions C146_symmetric.
Print Assumptions C146_diagonal.
Print Assumptions C146_dimension.
Print Assumptions C146_semidefinite_refuted.
Print Assumptions C146_not_numbers.
Print Assumptions C146_case.
Print Assumptions C147_canonical.
Print Assumptions C147_order.
Print Assumptions C147_order_refuted.
Print Assumptions C147_case.
Print Assumptions C148_rows.
Print Assumptions C148_lines.
Print Assumptions C148_columns.
Print Assumptions C148_comma_refuted.
Print Assumptions C148_case.
