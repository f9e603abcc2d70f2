(** Byte strings and the pieces of Rust's text library the parsers use. A [&str] is the list
    of its UTF-8 bytes. *)
From Coq Require Import Ascii String List NArith ZArith Lia Bool.
From Coq Require Import ZifyBool ZifyNat ZifyN.
From Verif Require Import Base.
Import ListNotations.
Local Open Scope N_scope.

Ltac Zify.zify_post_hook ::= Z.div_mod_to_equations.

Definition str := list N.

(** Literal text. *)
Definition lit (s : string) : str := map N_of_ascii (list_ascii_of_string s).

Definition is_digit (c : N) : bool := (48 <=? c) && (c <=? 57).
Definition is_ascii (c : N) : bool := c <? 128.
(** [char::is_whitespace] on ASCII. Non-ASCII white space is not modelled. *)
Definition is_ws (c : N) : bool := ((9 <=? c) && (c <=? 13)) || (c =? 32).

(** [str::trim_start], [trim_end], [trim] *)
Fixpoint trim_start (s : str) : str :=
  match s with
  | c :: t => if is_ws c then trim_start t else s
  | [] => []
  end.
Definition trim_end (s : str) : str := rev (trim_start (rev s)).
Definition trim (s : str) : str := trim_end (trim_start s).

(** [&s[a..b]]: panics unless [a <= b <= len] and both are character boundaries. *)
Definition boundary (s : str) (i : nat) : bool :=
  (i =? length s)%nat ||
  ((i <? length s)%nat && negb ((128 <=? nth i s 0) && (nth i s 0 <? 192))).
Definition slice {E} (s : str) (a b : nat) : outcome str E :=
  if ((a <=? b)%nat && (b <=? length s)%nat) && (boundary s a && boundary s b)
  then Ok (firstn (b - a) (skipn a s)) else Panic.

(** [str::find(char)] for an ASCII character *)
Fixpoint find_char (c : N) (s : str) : option nat :=
  match s with
  | [] => None
  | x :: t => if x =? c then Some O else option_map S (find_char c t)
  end.

(** [str::starts_with] *)
Fixpoint starts_with (p s : str) : bool :=
  match p, s with
  | [], _ => true
  | a :: p', b :: s' => (a =? b) && starts_with p' s'
  | _, _ => false
  end.

Fixpoint str_eqb (a b : str) : bool :=
  match a, b with
  | [], [] => true
  | x :: a', y :: b' => (x =? y) && str_eqb a' b'
  | _, _ => false
  end.

Lemma str_eqb_spec a b : reflect (a = b) (str_eqb a b).
Proof.
  revert b; induction a as [|x a IH]; intros [|y b]; cbn; try (constructor; congruence).
  destruct (N.eqb_spec x y) as [->|]; cbn; [|constructor; congruence].
  destruct (IH b) as [->|]; constructor; congruence.
Qed.

(** ** Decimal numerals *)
(** The last [k] decimal digits of [n], most significant first. *)
Fixpoint digits (k : nat) (n : N) : str :=
  match k with
  | O => []
  | S k' => digits k' (n / 10) ++ [48 + n mod 10]
  end.
Fixpoint ndig_fuel (fuel : nat) (n : N) : nat :=
  match fuel with
  | O => 1
  | S f => if n <? 10 then 1%nat else S (ndig_fuel f (n / 10))
  end.
(** Number of decimal digits. *)
Definition ndig (n : N) : nat := ndig_fuel (N.size_nat n) n.
(** [{n}] *)
Definition dec (n : N) : str := digits (ndig n) n.
(** [{n:0w}] *)
Definition pad0 (w : nat) (n : N) : str := digits (Nat.max w (ndig n)) n.
(** [{s:>w}] and [{s:<w}] *)
Definition pad_left (w : nat) (s : str) : str := repeat 32 (w - length s) ++ s.
Definition pad_right (w : nat) (s : str) : str := s ++ repeat 32 (w - length s).

(** Value of a digit string. *)
Definition dval (s : str) : N := fold_left (fun a c => 10 * a + (c - 48)) s 0.

(** Optional sign in front of a numeral: (negative, rest). *)
Definition sign_of (s : str) : bool * str :=
  match s with
  | c :: t => if c =? 43 then (false, t) else if c =? 45 then (true, t) else (false, s)
  | [] => (false, [])
  end.

(** [str::parse::<uN>()] with maximum [max]: optional plus, at least one digit, no overflow. *)
Definition parse_uint (max : N) (s : str) : option N :=
  let d := match s with c :: t => if c =? 43 then t else s | [] => s end in
  match d with
  | [] => None
  | _ => if forallb is_digit d then (if dval d <=? max then Some (dval d) else None) else None
  end.
(** [str::parse::<iN>()] with range [-(max+1) .. max]. *)
Definition parse_int (max : N) (s : str) : option Z :=
  let '(neg, d) := sign_of s in
  match d with
  | [] => None
  | _ => if forallb is_digit d then
           (if neg then (if dval d <=? max + 1 then Some (- Z.of_N (dval d))%Z else None)
            else (if dval d <=? max then Some (Z.of_N (dval d)) else None))
         else None
  end.

(** ** Lemmas: numerals *)
Lemma digits_length k n : length (digits k n) = k.
Proof. revert n; induction k as [|k IH]; intros n; cbn; [reflexivity|]. rewrite app_length, IH. cbn. lia. Qed.

Lemma digits_digit k n : forallb is_digit (digits k n) = true.
Proof.
  revert n; induction k as [|k IH]; intros n; cbn [digits]; [reflexivity|].
  rewrite forallb_app, IH. cbn [forallb]. unfold is_digit. lia.
Qed.

Lemma dval_app a b : dval (a ++ b) = dval a * 10 ^ N.of_nat (length b) + dval b.
Proof.
  unfold dval. rewrite fold_left_app. generalize (fold_left (fun a c => 10 * a + (c - 48)) a 0).
  assert (G : forall b x, fold_left (fun a c => 10 * a + (c - 48)) b x
     = x * 10 ^ N.of_nat (length b) + fold_left (fun a c => 10 * a + (c - 48)) b 0).
  { clear. induction b as [|c b IH]; intros x; cbn [fold_left length].
    - cbn. lia.
    - rewrite IH, (IH (10 * 0 + (c - 48))). rewrite Nat2N.inj_succ, N.pow_succ_r'. ring. }
  intros x. apply G.
Qed.

Lemma dval_digits k n : dval (digits k n) = n mod 10 ^ N.of_nat k.
Proof.
  revert n; induction k as [|k IH]; intros n; cbn [digits].
  - cbn. rewrite N.mod_1_r. reflexivity.
  - rewrite dval_app, IH. change (10 ^ N.of_nat (length [48 + n mod 10])) with 10.
    rewrite Nat2N.inj_succ, N.pow_succ_r'.
    replace (dval [48 + n mod 10]) with (n mod 10) by (unfold dval; cbn [fold_left]; lia).
    rewrite N.mod_mul_r by (try lia; apply N.pow_nonzero; lia). lia.
Qed.

Lemma ndig_fuel_spec f n : n < 2 ^ N.of_nat f -> 
  n < 10 ^ N.of_nat (ndig_fuel f n) /\ (1 <= ndig_fuel f n)%nat /\
  (n <> 0 -> 10 ^ N.of_nat (ndig_fuel f n - 1) <= n).
Proof.
  revert n; induction f as [|f IH]; intros n H.
  - cbn in *. assert (n = 0) by lia. subst. cbn. lia.
  - cbn [ndig_fuel]. destruct (N.ltb_spec n 10).
    + cbn. split; [lia|]. split; lia.
    + rewrite Nat2N.inj_succ, N.pow_succ_r' in H.
      destruct (IH (n / 10)) as (A & B & C); [lia|].
      set (d := ndig_fuel f (n / 10)) in *.
      rewrite Nat2N.inj_succ, N.pow_succ_r'. split; [lia|]. split; [lia|]. intros _.
      replace (S d - 1)%nat with (S (d - 1)) by lia. rewrite Nat2N.inj_succ, N.pow_succ_r'.
      specialize (C ltac:(lia)). lia.
Qed.

Lemma size_nat_gt n : n < 2 ^ N.of_nat (N.size_nat n).
Proof. destruct n as [|p]; [cbn; lia|].
  cbn [N.size_nat]. 
  assert (G : forall p, N.pos p < 2 ^ N.of_nat (Pos.size_nat p)).
  { clear. induction p as [p IH|p IH|]; cbn [Pos.size_nat]; rewrite ?Nat2N.inj_succ, ?N.pow_succ_r'.
    - change (N.pos p~1) with (2 * N.pos p + 1). lia.
    - change (N.pos p~0) with (2 * N.pos p). lia.
    - reflexivity. }
  apply G.
Qed.

Lemma ndig_spec n : n < 10 ^ N.of_nat (ndig n) /\ (1 <= ndig n)%nat /\
  (n <> 0 -> 10 ^ N.of_nat (ndig n - 1) <= n).
Proof. apply ndig_fuel_spec, size_nat_gt. Qed.

Lemma ndig_le n k : (1 <= k)%nat -> n < 10 ^ N.of_nat k -> (ndig n <= k)%nat.
Proof.
  intros Hk H. destruct (ndig_spec n) as (_ & B & C).
  destruct (N.eq_dec n 0) as [->|Hn]; [cbn; lia|].
  specialize (C Hn). assert (L : 10 ^ N.of_nat (ndig n - 1) < 10 ^ N.of_nat k) by lia.
  apply N.pow_lt_mono_r_iff in L; lia.
Qed.

Lemma ndig_ge n k : 10 ^ N.of_nat k <= n -> (k < ndig n)%nat.
Proof.
  intros H. destruct (ndig_spec n) as (A & B & C).
  assert (L : 10 ^ N.of_nat k < 10 ^ N.of_nat (ndig n)) by lia.
  apply N.pow_lt_mono_r_iff in L; lia.
Qed.

Lemma dval_dec n : dval (dec n) = n.
Proof. unfold dec. rewrite dval_digits. apply N.mod_small, ndig_spec. Qed.
Lemma dec_digit n : forallb is_digit (dec n) = true.
Proof. apply digits_digit. Qed.
Lemma dec_nonempty n : dec n <> [].
Proof.
  intros E. apply (f_equal (@length N)) in E. unfold dec in E. rewrite digits_length in E. cbn in E.
  pose proof (ndig_spec n). lia.
Qed.

Lemma dval_pad0 w n : dval (pad0 w n) = n.
Proof.
  unfold pad0. rewrite dval_digits. apply N.mod_small.
  destruct (ndig_spec n) as (A & _). eapply N.lt_le_trans; [exact A|]. apply N.pow_le_mono_r; lia.
Qed.
Lemma pad0_digit w n : forallb is_digit (pad0 w n) = true.
Proof. apply digits_digit. Qed.
Lemma pad0_length w n : length (pad0 w n) = Nat.max w (ndig n).
Proof. apply digits_length. Qed.
Lemma pad0_fit w n : (1 <= w)%nat -> n < 10 ^ N.of_nat w -> pad0 w n = digits w n.
Proof. intros H1 H2. unfold pad0. rewrite Nat.max_l; [reflexivity|]. now apply ndig_le. Qed.

(** A digit string is determined by its length and value. *)
Lemma dval_bound s : forallb is_digit s = true -> dval s < 10 ^ N.of_nat (length s).
Proof.
  induction s as [|c s IH] using rev_ind; [cbn; lia|].
  rewrite forallb_app. cbn. intros H. apply andb_prop in H as [H1 H2]. specialize (IH H1).
  rewrite dval_app, app_length. cbn [length]. change (10 ^ N.of_nat 1) with 10.
  replace (length s + 1)%nat with (S (length s)) by lia. rewrite Nat2N.inj_succ, N.pow_succ_r'.
  assert (dval [c] <= 9) by (unfold dval, is_digit in *; cbn; lia). lia.
Qed.

Lemma digits_dval s : forallb is_digit s = true -> digits (length s) (dval s) = s.
Proof.
  induction s as [|c s IH] using rev_ind; [reflexivity|].
  rewrite forallb_app. cbn [forallb]. intros H. apply andb_prop in H as [H1 H2].
  rewrite app_length. cbn [length]. replace (length s + 1)%nat with (S (length s)) by lia.
  cbn [digits]. rewrite dval_app. cbn [length]. change (10 ^ N.of_nat 1) with 10.
  assert (E : dval [c] = c - 48) by (unfold dval; cbn [fold_left]; lia).
  assert (B : 48 <= c <= 57) by (unfold is_digit in H2; lia).
  rewrite E. replace ((dval s * 10 + (c - 48)) / 10) with (dval s) by lia.
  rewrite IH by auto. f_equal. f_equal. lia.
Qed.

Lemma dval_inj a b : forallb is_digit a = true -> forallb is_digit b = true ->
  length a = length b -> dval a = dval b -> a = b.
Proof. intros Ha Hb L V. rewrite <- (digits_dval a), <- (digits_dval b) by auto. now rewrite L, V. Qed.

(** ** Lemmas: numeric parsing *)
Lemma digit_head_not_sign s : forallb is_digit s = true -> s <> [] ->
  exists c t, s = c :: t /\ 48 <= c <= 57.
Proof.
  destruct s as [|c t]; [congruence|]. cbn. intros H _. exists c, t. split; [reflexivity|].
  unfold is_digit in H. lia.
Qed.

Lemma parse_uint_digits max s : forallb is_digit s = true -> s <> [] ->
  parse_uint max s = if dval s <=? max then Some (dval s) else None.
Proof.
  intros H1 H2. destruct (digit_head_not_sign s H1 H2) as (c & t & -> & Hc).
  unfold parse_uint. destruct (N.eqb_spec c 43); [lia|]. rewrite H1. reflexivity.
Qed.

Lemma parse_int_digits max s : forallb is_digit s = true -> s <> [] ->
  parse_int max s = if dval s <=? max then Some (Z.of_N (dval s)) else None.
Proof.
  intros H1 H2. destruct (digit_head_not_sign s H1 H2) as (c & t & -> & Hc).
  unfold parse_int, sign_of. destruct (N.eqb_spec c 43); [lia|]. destruct (N.eqb_spec c 45); [lia|].
  rewrite H1. reflexivity.
Qed.

(** ** Lemmas: trimming *)
Definition solid (s : str) : Prop :=
  s = [] \/ (is_ws (hd 0 s) = false /\ is_ws (last s 0) = false).

Lemma trim_start_id s : is_ws (hd 0 s) = false -> trim_start s = s.
Proof. destruct s as [|c t]; cbn; [reflexivity|]. intros ->. reflexivity. Qed.

Lemma last_rev_hd (s : str) d : last s d = hd d (rev s).
Proof.
  induction s as [|c s IH] using rev_ind; [reflexivity|].
  rewrite last_last, rev_app_distr. reflexivity.
Qed.

Lemma trim_end_id s : is_ws (last s 0) = false -> trim_end s = s.
Proof.
  intros H. unfold trim_end. rewrite trim_start_id by (now rewrite <- last_rev_hd). apply rev_involutive.
Qed.

Lemma trim_solid s : solid s -> trim s = s.
Proof.
  intros [->|[H1 H2]]; [reflexivity|]. unfold trim. rewrite trim_start_id by auto. now apply trim_end_id.
Qed.

Lemma trim_start_spaces n s : trim_start (repeat 32 n ++ s) = trim_start s.
Proof. induction n as [|n IH]; [reflexivity|]. cbn. exact IH. Qed.

Lemma trim_end_spaces n s : trim_end (s ++ repeat 32 n) = trim_end s.
Proof.
  unfold trim_end. rewrite rev_app_distr.
  assert (E : rev (repeat 32 n) = repeat 32 n).
  { clear. induction n as [|n IH]; [reflexivity|]. cbn. rewrite IH.
    clear. induction n; [reflexivity|]. cbn. now rewrite IHn. }
  rewrite E, trim_start_spaces. reflexivity.
Qed.

Lemma trim_pad_left w s : solid s -> trim (pad_left w s) = s.
Proof. intros H. unfold pad_left, trim. rewrite trim_start_spaces. now apply trim_solid. Qed.

Lemma trim_start_app_solid s t : s <> [] -> is_ws (hd 0 s) = false -> trim_start (s ++ t) = s ++ t.
Proof. destruct s; [congruence|]. intros _ H. apply trim_start_id. exact H. Qed.

Lemma trim_pad_right w s : solid s -> trim (pad_right w s) = s.
Proof.
  intros [->|[H1 H2]].
  - unfold pad_right, trim. cbn [app length]. rewrite <- (app_nil_r (repeat _ _)), trim_start_spaces. reflexivity.
  - unfold pad_right, trim. destruct s as [|c s].
    + cbn [app length]. rewrite <- (app_nil_r (repeat _ _)), trim_start_spaces. reflexivity.
    + rewrite trim_start_app_solid by (auto; discriminate). rewrite trim_end_spaces. now apply trim_end_id.
Qed.

Lemma digit_not_ws c : is_digit c = true -> is_ws c = false.
Proof. unfold is_digit, is_ws. lia. Qed.

Lemma forallb_last (f : N -> bool) s d : forallb f s = true -> s <> [] -> f (last s d) = true.
Proof.
  intros H Hn. rewrite forallb_forall in H. apply H.
  destruct (exists_last Hn) as (l & x & ->). rewrite last_last. apply in_or_app. right. now left.
Qed.

Lemma solid_digits s : forallb is_digit s = true -> s <> [] -> solid s.
Proof.
  intros H Hn. right. split; apply digit_not_ws.
  - destruct s; [congruence|]. cbn in *. now apply andb_prop in H as [-> _].
  - now apply forallb_last.
Qed.

Lemma trim_start_suffix s : exists p, s = p ++ trim_start s /\ forallb is_ws p = true.
Proof.
  induction s as [|c s IH]; [exists []; auto|]. cbn. destruct (is_ws c) eqn:E.
  - destruct IH as (p & H & W). exists (c :: p). cbn. rewrite E, W. split; [f_equal; exact H|reflexivity].
  - exists []. auto.
Qed.

Lemma trim_start_hd s : trim_start s <> [] -> is_ws (hd 0 (trim_start s)) = false.
Proof.
  induction s as [|c s IH]; [cbn; congruence|]. cbn. destruct (is_ws c) eqn:E; [exact IH|]. intros _. exact E.
Qed.

Lemma trim_is_solid s : solid (trim s).
Proof.
  unfold trim. set (u := trim_start s).
  destruct (trim_end u) as [|c t] eqn:E; [left; reflexivity|]. right.
  unfold trim_end in E.
  assert (N1 : trim_start (rev u) <> []).
  { intros X. rewrite X in E. discriminate. }
  pose proof (trim_start_hd _ N1) as W.
  split.
  - destruct (trim_start_suffix (rev u)) as (p & H & _).
    assert (Hu : u = (c :: t) ++ rev p).
    { rewrite <- E, <- rev_app_distr, <- H. now rewrite rev_involutive. }
    assert (Nu : u <> []) by (rewrite Hu; discriminate).
    pose proof (trim_start_hd s Nu) as W2. fold u in W2. rewrite Hu in W2. exact W2.
  - rewrite <- E, last_rev_hd, rev_involutive. exact W.
Qed.

Lemma trim_trim s : trim (trim s) = trim s.
Proof. apply trim_solid, trim_is_solid. Qed.

(** ** Lemmas: searching *)
Lemma find_char_app c a b : ~ In c a -> find_char c (a ++ c :: b) = Some (length a).
Proof.
  induction a as [|x a IH]; cbn; intros H.
  - now rewrite N.eqb_refl.
  - destruct (N.eqb_spec x c); [exfalso; apply H; now left|]. rewrite IH by tauto. reflexivity.
Qed.
Lemma find_char_none c s : find_char c s = None <-> ~ In c s.
Proof.
  induction s as [|x s IH]; cbn; [tauto|]. destruct (N.eqb_spec x c) as [->|].
  - split; [discriminate|tauto].
  - destruct (find_char c s); cbn; split; try discriminate; intuition congruence.
Qed.
Lemma find_char_some c s i : find_char c s = Some i ->
  s = firstn i s ++ c :: skipn (S i) s /\ ~ In c (firstn i s) /\ (i < length s)%nat.
Proof.
  revert i; induction s as [|x s IH]; intros i; cbn; [discriminate|].
  destruct (N.eqb_spec x c) as [->|].
  - intros [= <-]. cbn. split; [reflexivity|]. split; [tauto|lia].
  - destruct (find_char c s) as [j|]; [|discriminate]. intros [= <-].
    destruct (IH j eq_refl) as (A & B & C). cbn. split; [f_equal; exact A|].
    split; [|lia]. intros [X|X]; [congruence|contradiction].
Qed.

(** ** Lemmas: slices *)
Lemma slice_ascii {E} s a b : forallb is_ascii s = true -> (a <= b <= length s)%nat ->
  @slice E s a b = Ok (firstn (b - a) (skipn a s)).
Proof.
  intros H L. unfold slice.
  assert (B : forall i, (i <= length s)%nat -> boundary s i = true).
  { intros i Hi. unfold boundary. destruct (Nat.eqb_spec i (length s)); [reflexivity|]. cbn [orb].
    destruct (Nat.ltb_spec i (length s)); [|lia]. cbn [andb].
    assert (is_ascii (nth i s 0) = true).
    { rewrite forallb_forall in H. apply H, nth_In. lia. }
    unfold is_ascii in H1. lia. }
  rewrite !B by lia. destruct (Nat.leb_spec a b); [|lia]. destruct (Nat.leb_spec b (length s)); [|lia]. reflexivity.
Qed.

Lemma slice_mid {E} (x y z : str) : forallb is_ascii (x ++ y ++ z) = true ->
  @slice E (x ++ y ++ z) (length x) (length x + length y) = Ok y.
Proof.
  intros H. rewrite slice_ascii by (auto; rewrite !app_length; lia).
  f_equal. rewrite skipn_app, skipn_all, Nat.sub_diag. cbn [skipn app].
  replace (length x + length y - length x)%nat with (length y) by lia.
  rewrite firstn_app, Nat.sub_diag, firstn_all. cbn. apply app_nil_r.
Qed.

Lemma firstn_app_exact {A} (a b : list A) n : length a = n -> firstn n (a ++ b) = a.
Proof. intros <-. rewrite firstn_app, Nat.sub_diag, firstn_all. cbn. apply app_nil_r. Qed.
Lemma skipn_app_exact {A} (a b : list A) n : length a = n -> skipn n (a ++ b) = b.
Proof. intros <-. rewrite skipn_app, Nat.sub_diag, skipn_all. reflexivity. Qed.
Lemma skipn_app_cons {A} (a b : list A) x n : length a = n -> skipn (S n) (a ++ x :: b) = b.
Proof. intros H. change (x :: b) with ([x] ++ b). rewrite app_assoc. apply skipn_app_exact. rewrite app_length. cbn. lia. Qed.
