(** What the C interface promises for arrays, handles, names, targets and searches. *)
From Coq Require Import ZArith NArith QArith Ascii String List Reals Bool Lia Lra.
From Verif Require Import Base Text DecFloat Fnum Ang Mat3 Geom_Model Conic_Model Ffi_Model Ffi_Proofs Abi_Model.
Import ListNotations.
Local Open Scope nat_scope.

(** ** C134: arrays, handles and names handed to C *)
Section Memory.
Variable V : Type.
Variable fresh : memory V -> N.
Variable dangling : N.
(** Any allocator: the address it picks is free and not null. *)
Hypothesis fresh_free : forall h, h (fresh h) = None.
Hypothesis fresh_not_null : forall h, fresh h <> 0%N.

(** A caller's program: obtain an array, an ephemeris array or a handle, or
    release the [i]-th thing held, with the numbers it was given. *)
Inductive origin := FromVec | FromOem | FromBox.
Record held := Held { hd_origin : origin; hd_tag : nat; hd_addr : N; hd_count : nat; hd_items : list V }.
Inductive call := Give (tag : nat) (l : list V) | GiveOem (tag : nat) (l : list V) | GiveBox (tag : nat) (v : V) | Release (i : nat).
Definition release (h : memory V) (x : held) : option (memory V) :=
  match hd_origin x with
  | FromVec => free_boxed_slice h (hd_tag x) (hd_addr x) (hd_count x)
  | FromOem => oem_free h (hd_tag x) (hd_addr x) (hd_count x)
  | FromBox => free_handle h (hd_tag x) (hd_addr x)
  end.
Fixpoint without (i : nat) (l : list held) : list held :=
  match l, i with [], _ => [] | _ :: l', 0 => l' | x :: l', S j => x :: without j l' end.
Definition step (s : memory V * list held) (c : call) : option (memory V * list held) :=
  let '(h, own) := s in
  match c with
  | Give tag l =>
      match vec_to_c fresh dangling h tag l false false with
      | (_, Some (a, n), h') => Some (h', Held FromVec tag a n l :: own)
      | (_, None, h') => Some (h', own)
      end
  | GiveOem tag l => let '(a, n, h') := oem_to_c fresh dangling h tag l in Some (h', Held FromOem tag a n l :: own)
  | GiveBox tag v => let '(a, h') := new_handle fresh dangling h tag v in Some (h', Held FromBox tag a 1 [v] :: own)
  | Release i =>
      match nth_error own i with
      | None => Some s
      | Some x => match release h x with None => None | Some h' => Some (h', without i own) end
      end
  end.
Fixpoint run (s : memory V * list held) (cs : list call) : option (memory V * list held) :=
  match cs with [] => Some s | c :: cs' => match step s c with None => None | Some s' => run s' cs' end end.

(** What holds between calls: every non-empty thing held sits alone at its
    address with the contents it was given, and the rest of the memory is as
    at the start. *)
Definition full (x : held) : bool := match hd_items x with [] => false | _ => true end.
Definition places (own : list held) : list N := map hd_addr (filter full own).
Definition owned (h0 h : memory V) (own : list held) : Prop :=
  NoDup (places own) /\ (forall x, In x own -> hd_count x = length (hd_items x)
     /\ (full x = true -> h (hd_addr x) = Some (Block (hd_tag x) (hd_items x)) /\ h0 (hd_addr x) = None /\ hd_addr x <> 0%N)
     /\ (hd_origin x = FromBox -> length (hd_items x) = 1))
  /\ (forall a, ~ In a (places own) -> h a = h0 a).

Lemma upd_same (h : memory V) a b : upd h a b a = b. Proof. unfold upd. now rewrite N.eqb_refl. Qed.
Lemma upd_other (h : memory V) a b x : x <> a -> upd h a b x = h x. Proof. intros H. unfold upd. now rewrite (proj2 (N.eqb_neq _ _) H). Qed.
Lemma in_places own x : In x own -> full x = true -> In (hd_addr x) (places own).
Proof. intros I F. unfold places. apply in_map, filter_In. now split. Qed.
Lemma owned_more h0 h own or tag (l : list V) : owned h0 h own -> l <> [] -> (or = FromBox -> length l = 1) ->
  owned h0 (upd h (fresh h) (Some (Block tag l))) (Held or tag (fresh h) (length l) l :: own).
Proof.
  intros (ND & O & R) NE B. assert (F : full (Held or tag (fresh h) (length l) l) = true) by (unfold full; cbn; destruct l; [easy|reflexivity]).
  assert (NI : ~ In (fresh h) (places own)).
  { intros I. unfold places in I. apply in_map_iff in I. destruct I as (y & E & I). apply filter_In in I. destruct I as (I & FY).
    destruct (O y I) as (_ & O2 & _). destruct (O2 FY) as (H & _). rewrite E, fresh_free in H. discriminate. }
  split; [|split].
  - unfold places. cbn [filter]. rewrite F. cbn [map hd_addr]. now constructor.
  - intros x [<-|I].
    + cbn [hd_count hd_items hd_addr hd_tag hd_origin]. split; [reflexivity|]. split; [|exact B]. intros _. rewrite upd_same. split; [reflexivity|]. split; [|apply fresh_not_null].
      rewrite <- (R _ NI). apply fresh_free.
    + destruct (O x I) as (O1 & O2 & O3). split; [exact O1|]. split; [|exact O3]. intros FX. destruct (O2 FX) as (P1 & P2 & P3).
      rewrite upd_other; [tauto|]. intros E. apply NI. rewrite <- E. now apply in_places.
  - intros a NA. unfold places in NA. cbn [filter] in NA. rewrite F in NA. cbn [map hd_addr In] in NA.
    rewrite upd_other by (intros E; apply NA; left; congruence). apply R. tauto.
Qed.
Lemma owned_empty h0 h own or tag a : owned h0 h own -> or <> FromBox -> owned h0 h (Held or tag a 0 [] :: own).
Proof.
  intros (ND & O & R) NB. split; [|split].
  - exact ND.
  - intros x [<-|I]; [|now apply O]. cbn. split; [reflexivity|]. split; [discriminate|easy].
  - exact R.
Qed.
Lemma without_split i own x : nth_error own i = Some x -> exists l1 l2, own = l1 ++ x :: l2 /\ without i own = l1 ++ l2.
Proof.
  revert i. induction own as [|y own IH]; intros [|i] E; cbn in E; try discriminate.
  - injection E as ->. now exists [], own.
  - destruct (IH i E) as (l1 & l2 & A & B). exists (y :: l1), l2. cbn. now rewrite A, <- A, B.
Qed.
Lemma owned_less h0 h l1 x l2 : owned h0 h (l1 ++ x :: l2) -> full x = true -> owned h0 (upd h (hd_addr x) None) (l1 ++ l2).
Proof.
  intros (ND & O & R) F. unfold places in *. rewrite filter_app in ND, R. cbn [filter] in ND, R. rewrite F in ND, R. rewrite map_app in ND, R. cbn [map] in ND, R.
  pose proof (NoDup_remove_1 _ _ _ ND) as N1. pose proof (NoDup_remove_2 _ _ _ ND) as N2.
  assert (P : map hd_addr (filter full (l1 ++ l2)) = map hd_addr (filter full l1) ++ map hd_addr (filter full l2)) by now rewrite filter_app, map_app.
  split; [|split].
  - unfold places. now rewrite P.
  - intros y I. assert (I2 : In y (l1 ++ x :: l2)) by (apply in_app_iff in I; apply in_app_iff; cbn; tauto).
    destruct (O y I2) as (O1 & O2 & O3). split; [exact O1|]. split; [|exact O3]. intros FY. destruct (O2 FY) as (P1 & P2 & P3).
    rewrite upd_other; [tauto|]. intros E. apply N2. rewrite <- P, <- E. now apply in_places.
  - intros a NA. unfold places in NA. rewrite P in NA. destruct (N.eq_dec a (hd_addr x)) as [->|NE].
    + rewrite upd_same. destruct (O x) as (_ & O2 & _); [apply in_app_iff; cbn; tauto|]. destruct (O2 F) as (_ & Z & _). now rewrite Z.
    + rewrite upd_other by exact NE. apply R. rewrite in_app_iff in *. cbn. intros [I|[I|I]]; [apply NA; tauto|congruence|apply NA; tauto].
Qed.
Lemma owned_less_empty h0 h l1 x l2 : owned h0 h (l1 ++ x :: l2) -> full x = false -> owned h0 h (l1 ++ l2).
Proof.
  intros (ND & O & R) F. assert (P : places (l1 ++ x :: l2) = places (l1 ++ l2)) by (unfold places; rewrite !filter_app; cbn; now rewrite F).
  rewrite P in *. split; [exact ND|]. split; [|exact R]. intros y I. apply O. apply in_app_iff in I. apply in_app_iff. cbn. tauto.
Qed.
Lemma release_full h x : hd_count x = length (hd_items x) -> full x = true -> (hd_origin x = FromBox -> length (hd_items x) = 1) ->
  h (hd_addr x) = Some (Block (hd_tag x) (hd_items x)) -> hd_addr x <> 0%N -> release h x = Some (upd h (hd_addr x) None).
Proof.
  intros C F B H NZ. assert (D : drop_raw h (hd_tag x) (hd_addr x) (length (hd_items x)) = Some (upd h (hd_addr x) None)).
  { unfold drop_raw. rewrite H. cbn [b_tag b_items]. now rewrite !Nat.eqb_refl. }
  unfold full in F. destruct (hd_items x) as [|v l] eqn:L; [discriminate|].
  unfold release, free_boxed_slice, oem_free, free_handle. rewrite (proj2 (N.eqb_neq _ _) NZ), C. cbn [negb andb orb length Nat.ltb Nat.leb Nat.eqb].
  destruct (hd_origin x); [exact D|exact D|]. cbn in B. rewrite <- (B eq_refl). exact D.
Qed.
Lemma release_empty h x : hd_count x = length (hd_items x) -> full x = false -> (hd_origin x = FromBox -> length (hd_items x) = 1) -> release h x = Some h.
Proof.
  intros C F B. unfold full in F. destruct (hd_items x) as [|v l] eqn:L; [|discriminate]. unfold release, free_boxed_slice, oem_free. rewrite C. cbn.
  rewrite andb_false_r, orb_true_r. destruct (hd_origin x); try reflexivity. now specialize (B eq_refl).
Qed.
Lemma step_owned h0 h own c : owned h0 h own -> exists h' own', step (h, own) c = Some (h', own') /\ owned h0 h' own'.
Proof.
  intros I. destruct c as [tag l|tag l|tag v|i]; cbn [step].
  - unfold vec_to_c, into_raw. cbn [orb]. destruct l as [|v l].
    + do 2 eexists. split; [reflexivity|]. now apply owned_empty.
    + do 2 eexists. split; [reflexivity|]. now apply (owned_more h0 h own FromVec tag (v :: l)).
  - unfold oem_to_c, into_raw. destruct l as [|v l].
    + do 2 eexists. split; [reflexivity|]. now apply owned_empty.
    + do 2 eexists. split; [reflexivity|]. now apply (owned_more h0 h own FromOem tag (v :: l)).
  - unfold new_handle, into_raw. do 2 eexists. split; [reflexivity|]. now apply (owned_more h0 h own FromBox tag [v]).
  - destruct (nth_error own i) as [x|] eqn:E; [|now exists h, own].
    destruct (without_split i own x E) as (l1 & l2 & A & B). rewrite B. subst own. destruct I as (ND & O & R).
    destruct (O x) as (O1 & O2 & O3); [apply in_app_iff; cbn; tauto|]. destruct (full x) eqn:F.
    + destruct (O2 eq_refl) as (P1 & P2 & P3). rewrite (release_full h x O1 F O3 P1 P3). do 2 eexists. split; [reflexivity|]. now apply owned_less.
    + rewrite (release_empty h x O1 F O3). do 2 eexists. split; [reflexivity|]. now apply (owned_less_empty h0 h l1 x l2).
Qed.
(** Any interleaving of calls is defined, and what is held is intact. *)
Theorem C134_calls h0 cs : exists h own, run (h0, []) cs = Some (h, own) /\ owned h0 h own.
Proof.
  assert (G : forall cs h own, owned h0 h own -> exists h' own', run (h, own) cs = Some (h', own') /\ owned h0 h' own').
  { clear cs. induction cs as [|c cs IH]; intros h own I; [now exists h, own|].
    destruct (step_owned h0 h own c I) as (h1 & own1 & E & I1). cbn [run]. rewrite E. now apply IH. }
  apply G. split; [constructor|]. split; [easy|reflexivity].
Qed.
(** Once everything is released the memory is as it was. *)
Theorem C134_released h0 cs h : run (h0, []) cs = Some (h, []) -> forall a, h a = h0 a.
Proof.
  intros E a. destruct (C134_calls h0 cs) as (h' & own & E' & (_ & _ & R)). assert (h' = h /\ own = []) as (-> & ->) by (split; congruence). now apply R.
Qed.
(** Releasing the same non-empty array twice, or with another count or type,
    is undefined; an empty array can be released at will. *)
Theorem C134_misuse (h : memory V) tag a n : h 0%N = None ->
  (free_boxed_slice h tag a n = None <-> (n > 0)%nat /\ a <> 0%N /\ forall l, h a = Some (Block tag l) -> length l <> n)
  /\ (oem_free h tag a n = None <-> (n > 0)%nat /\ a <> 0%N /\ forall l, h a = Some (Block tag l) -> length l <> n)
  /\ (forall h', free_boxed_slice h tag a n = Some h' -> (n > 0)%nat -> a <> 0%N -> free_boxed_slice h' tag a n = None).
Proof.
  intros Z.
  assert (D : a <> 0%N -> drop_raw h tag a n = None <-> forall l, h a = Some (Block tag l) -> length l <> n).
  { intros A. unfold drop_raw. destruct (h a) as [[t l]|]; [|split; [discriminate|reflexivity]]. cbn [b_tag b_items].
    destruct (Nat.eqb_spec t tag) as [->|NT]; destruct (Nat.eqb_spec (length l) n) as [EL|NL]; cbn [andb].
    - split; [discriminate|]. intros H. now destruct (H l eq_refl).
    - split; [|reflexivity]. intros _ l' E. congruence.
    - split; [|reflexivity]. intros _ l' E. congruence.
    - split; [|reflexivity]. intros _ l' E. congruence. }
  unfold free_boxed_slice, oem_free. destruct (N.eqb_spec a 0) as [->|NA]; destruct (Nat.ltb_spec 0 n) as [L|L]; cbn [negb andb orb].
  - split; [split; [discriminate|intros (_ & H & _); easy]|]. split; [|easy]. split; [discriminate|intros (_ & H & _); easy].
  - split; [split; [discriminate|intros (_ & H & _); easy]|]. split; [|easy]. split; [discriminate|intros (_ & H & _); easy].
  - destruct (Nat.eqb_spec n 0) as [->|NN]; [lia|]. rewrite (D NA). split; [tauto|]. split; [tauto|]. intros h' E _ _. unfold drop_raw in *.
    destruct (h a) as [b|]; [|discriminate]. destruct (Nat.eqb (b_tag b) tag && Nat.eqb (length (b_items b)) n); [|discriminate]. injection E as <-. now rewrite upd_same.
  - assert (n = 0) as -> by lia. cbn [Nat.eqb]. split; [split; [discriminate|lia]|]. split; [split; [discriminate|lia]|]. lia.
Qed.
(** Null outputs: nothing is allocated and nothing is written. *)
Theorem C134_null (h : memory V) tag l no nc : let '(s, r, h') := vec_to_c fresh dangling h tag l no nc in
  (s = SNullPointer <-> no = true \/ nc = true) /\ (s = SOk \/ s = SNullPointer) /\ (r = None <-> s = SNullPointer) /\ (r = None -> h' = h)
  /\ (forall a n, r = Some (a, n) -> n = length l /\ (l <> [] -> h' a = Some (Block tag l) /\ h a = None)).
Proof.
  unfold vec_to_c, into_raw. destruct no, nc; cbn [orb]; try (split; [split; [now (left + right)|reflexivity]|]; split; [now right|]; split; [tauto|]; split; [reflexivity|discriminate]).
  destruct l as [|v l]; (split; [split; [discriminate|intros [H|H]; discriminate]|]); (split; [now left|]); (split; [split; discriminate|]); (split; [discriminate|]);
    intros a n E; injection E as <- <-; (split; [reflexivity|]); intros H; [easy|]. rewrite upd_same. split; [reflexivity|apply fresh_free].
Qed.
End Memory.
Print Assumptions C134_calls.
Print Assumptions C134_released.
Print Assumptions C134_misuse.
Print Assumptions C134_null.
(** Names: what a caller reads from the buffer is the name it gave. *)
Lemma c_str_app s b : Forall (fun c => c <> 0%N) s -> c_str (s ++ 0%N :: b) = s.
Proof. induction s as [|c s IH]; intros F; [reflexivity|]. inversion F as [|? ? C F']; subst. cbn. rewrite (proj2 (N.eqb_neq _ _) C). now rewrite IH. Qed.
Lemma c_str_clean b : Forall (fun c => c <> 0%N) (c_str b).
Proof. induction b as [|c b IH]; [constructor|]. cbn. destruct (N.eqb_spec c 0); constructor; auto. Qed.
Theorem C134_name_back utf8 text name buf nw : created_name utf8 text = inr name -> length name + 1 <= length buf ->
  exists buf' w, star_name name buf (length buf) false false nw = (SOk, buf', w) /\ c_str buf' = c_str text /\ length buf' = length buf
    /\ skipn (length name + 1) buf' = skipn (length name + 1) buf /\ (nw = false -> w = Some (length (c_str text))).
Proof.
  unfold created_name. destruct (utf8 (c_str text)); [|discriminate]. intros E L. injection E as <-. unfold star_name. cbn [orb].
  rewrite (proj2 (Nat.ltb_ge _ _) L). do 2 eexists. split; [reflexivity|]. split; [apply c_str_app, c_str_clean|]. split; [|split].
  - rewrite app_length. cbn [length]. rewrite skipn_length. lia.
  - replace (length (c_str text) + 1) with (length (c_str text ++ [0%N])) at 1 by (rewrite app_length; reflexivity).
    replace (c_str text ++ 0%N :: skipn (length (c_str text) + 1) buf) with ((c_str text ++ [0%N]) ++ skipn (length (c_str text) + 1) buf) by (rewrite <- app_assoc; reflexivity).
    rewrite skipn_app, skipn_all, Nat.sub_diag. reflexivity.
  - now intros ->.
Qed.
Print Assumptions C134_name_back.
(** Otherwise nothing is written, and never past the end of the buffer. *)
Theorem C134_name_status name buf n nh nb nw : n <= length buf -> let '(s, buf', w) := star_name name buf n nh nb nw in
  (s = SNullPointer <-> nh = true \/ nb = true) /\ (s = SInvalidArgument <-> nh = false /\ nb = false /\ n < length name + 1) /\ (s <> SOk -> buf' = buf /\ w = None)
  /\ skipn n buf' = skipn n buf.
Proof.
  intros L. unfold star_name. destruct nh, nb; cbn [orb]; try (split; [split; [auto|reflexivity]|]; split; [split; [discriminate|intros (A & B & _); discriminate]|]; now split).
  destruct (Nat.ltb_spec n (length name + 1)) as [S|S].
  - split; [split; [discriminate|intros [H|H]; discriminate]|]. now split.
  - split; [split; [discriminate|intros [H|H]; discriminate]|]. split; [split; [discriminate|lia]|]. split; [easy|].
    replace (name ++ 0%N :: skipn (length name + 1) buf) with ((name ++ [0%N]) ++ skipn (length name + 1) buf) by (rewrite <- app_assoc; reflexivity).
    rewrite skipn_app. rewrite (skipn_all2 (name ++ [0%N])) by (rewrite app_length; cbn [length]; lia). cbn [app]. rewrite app_length. cbn [length].
    replace buf with (firstn (length name + 1) buf ++ skipn (length name + 1) buf) at 2 by apply firstn_skipn.
    rewrite skipn_app. rewrite (skipn_all2 (firstn (length name + 1) buf)) by (rewrite firstn_length; lia). cbn [app]. rewrite firstn_length. f_equal. lia.
Qed.
Print Assumptions C134_name_status.
(** The catalogue knows its ten stars in any mixture of cases and no other name. *)
Theorem C134_catalog s id : star_catalog s = Some id <->
  upper s = match id with Vega => "VEGA" | Sirius => "SIRIUS" | Polaris => "POLARIS" | Canopus => "CANOPUS" | Arcturus => "ARCTURUS" | Rigel => "RIGEL"
    | Betelgeuse => "BETELGEUSE" | Procyon => "PROCYON" | Aldebaran => "ALDEBARAN" | Altair => "ALTAIR" end%string.
Proof.
  unfold star_catalog. generalize (upper s). intros u. unfold catalog_arms. cbn [find fst snd].
  repeat (match goal with |- context [String.eqb u ?n] => destruct (String.eqb_spec u n) as [->|?] end; [split; [intros E; injection E as <-; reflexivity|destruct id; intros E; try discriminate E; reflexivity]|]).
  split; [discriminate|]. destruct id; intros E; congruence.
Qed.
Print Assumptions C134_catalog.
Example C134_case : run nat (fun h => if h 8%N then 9%N else 8%N) 4%N (fun _ => None, []) [Give nat 1 [7; 7]; Give nat 1 []; Release nat 0; Release nat 0] <> None
  /\ star_name [86; 101]%N [1; 1; 1; 1]%N 4 false false false = (SOk, [86; 101; 0; 1]%N, Some 2) /\ star_catalog "vEGa" = Some Vega.
Proof. split; [discriminate|]. split; reflexivity. Qed.

(** ** C135: searches for subjects *)
Definition regular (a : fnum) : Prop := exists q, a = Fin q.
(** Windows: what is refused and how. Of two bad ends, only a start that compares greater gives the status of a bad period. *)
Theorem C135_window a b : window_from_c a b = 
  match a, b with
  | Fin x, Fin y => if Qlt_le_dec y x then inl SInvalidPeriod else inr (x, y)
  | NaN, _ | _, NaN => inl SInvalidArgument
  | Inf false, Inf false | Inf true, Inf true => inl SInvalidArgument
  | Inf false, _ | _, Inf true => inl SInvalidPeriod
  | Inf true, _ | _, Inf false => inl SInvalidArgument
  end.
Proof.
  unfold window_from_c, flt. destruct a as [x|[|]|], b as [y|[|]|]; cbn; try reflexivity.
  destruct (Qlt_le_dec y x) as [L|L]; destruct (Qle_bool x y) eqn:E; cbn; try reflexivity.
  - apply Qle_bool_iff in E. exfalso. apply (Qlt_irrefl y). now apply Qlt_le_trans with x.
  - apply Qle_bool_iff in L. congruence.
Qed.
Print Assumptions C135_window.
(** Searches: window first, then the tolerance, then the handle, then the
    outputs; nothing is delivered unless all are good. *)
Theorem C135_order {E} (runner : provider -> Q * Q -> Q -> list E) s a b tol no nc : let r := search runner s a b tol no nc in
  let window_ok := exists x y, a = Fin x /\ b = Fin y /\ (x <= y)%Q in
  let tol_ok := exists q, tol = Fin q /\ (0 < q)%Q in
  let handle_ok := (su_kind s = KStar -> su_star s <> None) /\ (su_kind s = KTarget -> su_target s <> None) in
  (fst r = SOk <-> window_ok /\ tol_ok /\ handle_ok /\ no = false /\ nc = false)
  /\ (fst r = SNullPointer <-> window_ok /\ tol_ok /\ ~ (handle_ok /\ no = false /\ nc = false))
  /\ (window_ok -> ~ tol_ok -> fst r = SInvalidArgument) /\ (~ window_ok -> fst r = SInvalidArgument \/ fst r = SInvalidPeriod)
  /\ (snd r <> None <-> fst r = SOk).
Proof.
  cbv zeta. unfold search. 
  assert (W : (exists x y, window_from_c a b = inr (x, y) /\ a = Fin x /\ b = Fin y /\ (x <= y)%Q)
     \/ ((window_from_c a b = inl SInvalidArgument \/ window_from_c a b = inl SInvalidPeriod) /\ ~ exists x y, a = Fin x /\ b = Fin y /\ (x <= y)%Q)).
  { rewrite C135_window. destruct a as [x|[|]|], b as [y|[|]|]; try (right; split; [auto; fail|]; intros (? & ? & E1 & E2 & _); congruence).
    destruct (Qlt_le_dec y x) as [L|L]; [right|left; now exists x, y]. split; [auto|]. intros (x' & y' & E1 & E2 & LE).
    assert (x' = x) by congruence. assert (y' = y) by congruence. subst. apply (Qlt_irrefl y). now apply Qlt_le_trans with x. }
  assert (T : (exists q, search_opts tol = inr q /\ tol = Fin q /\ (0 < q)%Q) \/ (search_opts tol = inl SInvalidArgument /\ ~ exists q, tol = Fin q /\ (0 < q)%Q)).
  { unfold search_opts. destruct tol as [q| |]; try (right; split; [reflexivity|intros (? & ? & _); congruence]).
    destruct (Qle_bool q 0) eqn:L.
    - right. split; [reflexivity|]. intros (q' & E' & P). assert (q' = q) by congruence. subst. apply Qle_bool_iff in L. apply (Qlt_irrefl 0). now apply Qlt_le_trans with q.
    - left. exists q. split; [reflexivity|]. split; [reflexivity|]. apply Qnot_le_lt. intros H. apply Qle_bool_iff in H. congruence. }
  assert (D : (exists p, dispatch s = inr p /\ (su_kind s = KStar -> su_star s <> None) /\ (su_kind s = KTarget -> su_target s <> None))
     \/ (dispatch s = inl SNullPointer /\ ~ ((su_kind s = KStar -> su_star s <> None) /\ (su_kind s = KTarget -> su_target s <> None)))).
  { unfold dispatch. destruct (su_kind s).
    - left. eexists. split; [reflexivity|]. split; discriminate.
    - destruct (su_star s); [left; eexists; split; [reflexivity|]; split; [discriminate|discriminate]|]. right. split; [reflexivity|]. intros (H & _). now apply H.
    - left. eexists. split; [reflexivity|]. split; discriminate.
    - destruct (su_target s); [left; eexists; split; [reflexivity|]; split; [discriminate|discriminate]|]. right. split; [reflexivity|]. intros (_ & H). now apply H. }
  destruct W as [(x & y & W1 & W2)|(W1 & W2)].
  2:{ destruct W1 as [W1|W1]; rewrite W1; cbn [fst snd]; (split; [split; [discriminate|tauto]|]); (split; [split; [discriminate|tauto]|]); (split; [tauto|]); (split; [tauto|]); (split; [easy|discriminate]). }
  rewrite W1. assert (W3 : exists x y, a = Fin x /\ b = Fin y /\ (x <= y)%Q) by now exists x, y.
  destruct T as [(q & T1 & T2)|(T1 & T2)]; rewrite T1.
  2:{ cbn [fst snd]. split; [split; [discriminate|tauto]|]. split; [split; [discriminate|tauto]|]. split; [tauto|]. split; [tauto|]. split; [easy|discriminate]. }
  assert (T3 : exists q, tol = Fin q /\ (0 < q)%Q) by now exists q.
  destruct D as [(p & D1 & D2)|(D1 & D2)]; rewrite D1.
  2:{ cbn [fst snd]. split; [split; [discriminate|tauto]|]. split; [split; [tauto|reflexivity]|]. split; [tauto|]. split; [tauto|]. split; [easy|discriminate]. }
  destruct no, nc; cbn [orb fst snd];
    try (split; [split; [discriminate|intros (_ & _ & _ & A & B); discriminate]|]; split; [split; [intros _; split; [exact W3|]; split; [exact T3|]; intros (_ & A & B); discriminate|reflexivity]|];
         split; [tauto|]; split; [tauto|]; split; [easy|discriminate]).
  split; [split; [intros _; split; [exact W3|]; split; [exact T3|]; split; [exact D2|]; split; reflexivity|reflexivity]|].
  split; [split; [discriminate|intros (_ & _ & H); exfalso; apply H; split; [exact D2|]; split; reflexivity]|]. split; [tauto|]. split; [tauto|]. split; [reflexivity|discriminate].
Qed.
Print Assumptions C135_order.
(** The lunar searches check the window only: a tolerance no other search takes is passed on. *)
Theorem C135_phase_tolerance_refuted {E} (runner : Q * Q -> fnum -> list E) x y tol : (x <= y)%Q ->
  phase_search runner (Fin x) (Fin y) tol false false = (SOk, Some (runner (x, y) tol))
  /\ exists bad, (forall (other : provider -> Q * Q -> Q -> list E) s, fst (search other s (Fin x) (Fin y) bad false false) = SInvalidArgument)
       /\ fst (phase_search runner (Fin x) (Fin y) bad false false) = SOk.
Proof.
  intros L. assert (W : window_from_c (Fin x) (Fin y) = inr (x, y)).
  { rewrite C135_window. destruct (Qlt_le_dec y x) as [H|H]; [|reflexivity]. exfalso. apply (Qlt_irrefl y). now apply Qlt_le_trans with x. }
  split; [unfold phase_search; now rewrite W|]. exists (Fin (-1)). split; [intros other s; unfold search|unfold phase_search]; now rewrite W.
Qed.
Print Assumptions C135_phase_tolerance_refuted.
(** Which place a search is about: proper motion, epoch and distance of a star
    or target, and the frame written beside an ICRS direction, have no part in it. *)
Theorem C135_fixed {E} (runner : provider -> Q * Q -> Q -> list E) a b tol no nc m ra dec dist e pm f body d :
  let by_dir := search runner (Subject KIcrs body None (Sdir dec ra ICRS) None) a b tol no nc in
  search runner (Subject KIcrs body None (Sdir dec ra f) None) a b tol no nc = by_dir
  /\ search runner (Subject KStar body (Some (Star ra dec dist e pm)) d None) a b tol no nc = by_dir
  /\ (exists g, target_icrs m ra dec (Some e) pm false = (SOk, Some g) /\ search runner (Subject KTarget body None d (Some g)) a b tol no nc = by_dir).
Proof. split; [reflexivity|]. split; [reflexivity|]. eexists. split; reflexivity. Qed.
Print Assumptions C135_fixed.
(** So a target with a proper motion is searched where it was at its epoch, not
    where it is: any search that tells two directions apart shows it. *)
Definition moved (ra dec e mu_ra mu_dec t : R) : R * R := (ra + mu_ra * (t - e) / 365.25, dec + mu_dec * (t - e) / 365.25)%R.
Theorem C135_motion_refuted : exists (runner : provider -> Q * Q -> Q -> list (R * R)) m e pm g,
  target_icrs m 0 0 (Some e) (Some pm) false = (SOk, Some g) /\ pm_ra pm <> 0%R
  /\ search runner (Subject KTarget BSun None (Sdir 0 0 ICRS) (Some g)) (Fin 0) (Fin 1) (Fin 1) false false
     <> (SOk, Some [moved 0 0 e (pm_ra pm) (pm_dec pm) (e + 365.25)]).
Proof.
  exists (fun p _ _ => match p with PFixed ra dec => [(ra, dec)] | _ => [] end), (fun _ _ => identity), 0%R, (Motion 1 0 false). eexists.
  split; [reflexivity|]. split; [cbn; lra|]. cbn. intros E. assert (H : Some [(0, 0)%R] = Some [moved 0 0 0 1 0 (0 + 365.25)]) by (apply (f_equal snd) in E; exact E).
  unfold moved in H. assert (H2 : (0 = 0 + 1 * (0 + 365.25 - 0) / 365.25)%R). { assert (X := f_equal (fun o => match o with Some (p :: _) => fst p | _ => 7%R end) H). exact X. }
  lra.
Qed.
Print Assumptions C135_motion_refuted.
(** Single values: output first, then handle, then date. *)
Theorem C135_instant {A} (value : provider -> Q -> A) s mjd null : instant_at value s mjd null =
  if null then (SNullPointer, None) else match dispatch s, mjd with inl _, _ => (SNullPointer, None) | inr p, Fin t => (SOk, Some (value p t)) | _, _ => (SInvalidArgument, None) end.
Proof.
  unfold instant_at. destruct null; [reflexivity|]. unfold dispatch. destruct (su_kind s); try (destruct mjd; reflexivity); [destruct (su_star s)|destruct (su_target s)]; destruct mjd; reflexivity.
Qed.
Print Assumptions C135_instant.
Example C135_case : search (fun p w q => [w]) (Subject KBody BMoon None (Sdir 0 0 ICRS) None) (Fin 60000) (Fin 60001) (Fin (1 # 1000)) false false = (SOk, Some [(60000, 60001)%Q])
  /\ window_from_c (Inf false) (Fin 1) = inl SInvalidPeriod /\ window_from_c NaN (Fin 1) = inl SInvalidArgument.
Proof. repeat split. Qed.

(** ** C136: targets *)
Local Open Scope R_scope.
(** The payload comes back as given. *)
Theorem C136_payload m d g : target_create m d false = (SOk, Some g) -> target_data g = d /\ target_epoch g = td_epoch d /\ Some (tg_epoch g) = td_epoch d /\ tg_motion g = td_motion d.
Proof.
  unfold target_create. destruct (td_epoch d) as [t|] eqn:E; [|discriminate]. intros H.
  destruct (match td_coord d with SphericalDir p a f => _ | SphericalPos _ _ _ _ _ _ => _ | CartesianPos _ _ _ _ _ _ => _ end) as [s|[[p a] f]]; [discriminate|].
  destruct (icrs_direction m p a f t); [discriminate|]. injection H as <-. unfold target_epoch. cbn. now rewrite E.
Qed.
Print Assumptions C136_payload.
(** Which data make a target. *)
Definition usable (c : coord) : Prop :=
  match c with
  | SphericalDir _ _ _ => True
  | SphericalPos lon lat dist _ _ _ => lon <> None /\ lat <> None /\ exists d, dist = Some d /\ 0 < d
  | CartesianPos x y z _ _ _ => exists a b c, x = Some a /\ y = Some b /\ z = Some c /\ epsilon < sqrt (a * a + b * b + c * c)
  end.
Definition coord_frame (c : coord) : frame := match c with SphericalDir _ _ f => f | SphericalPos _ _ _ f _ _ => f | CartesianPos _ _ _ f _ _ => f end.
Theorem C136_status m d null : let r := target_create m d null in
  (fst r = SOk <-> null = false /\ td_epoch d <> None /\ usable (td_coord d) /\ known_pos (coord_frame (td_coord d)) = true)
  /\ (fst r = SInvalidArgument <-> null = false /\ (td_epoch d = None \/ ~ usable (td_coord d)))
  /\ (fst r = SInvalidFrame <-> null = false /\ td_epoch d <> None /\ usable (td_coord d) /\ known_pos (coord_frame (td_coord d)) = false)
  /\ (snd r <> None <-> fst r = SOk).
Proof.
  cbv zeta. unfold target_create. destruct null; [cbn [fst snd]; intuition discriminate|]. destruct (td_epoch d) as [t|]; [|cbn [fst snd]; intuition discriminate].
  assert (K : forall p a f, (exists dir, icrs_direction m p a f t = inr dir /\ known_pos f = true) \/ (icrs_direction m p a f t = inl SInvalidFrame /\ known_pos f = false)).
  { intros p a f. destruct f; cbn; first [left; eexists; split; reflexivity|right; split; reflexivity]. }
  destruct (td_coord d) as [p a f|lon lat dist f c u|x y z f c u]; cbn [coord_frame usable].
  - destruct (K p a f) as [(dir & -> & KF)|(-> & KF)]; rewrite KF; cbn [fst snd]; intuition discriminate.
  - unfold payload_spherical. destruct lon as [lo|], lat as [la|], dist as [di|];
      try (cbn [fst snd]; assert (NU : ~ (forall X : Prop, X)) by (intros H; exact (H False)); intuition (try discriminate; try congruence);
           repeat match goal with H : exists _, _ |- _ => destruct H as (? & ? & ?) end; congruence).
    destruct (Rle_dec di 0) as [L|L].
    + assert (NU : ~ exists d0, Some di = Some d0 /\ 0 < d0) by (intros (d0 & E & P); injection E as <-; lra). cbn [fst snd]. intuition discriminate.
    + assert (U : exists d0, Some di = Some d0 /\ 0 < d0) by (exists di; split; [reflexivity|lra]).
      destruct (K la lo f) as [(dir & -> & KF)|(-> & KF)]; rewrite KF; cbn [fst snd]; intuition discriminate.
  - unfold payload_cartesian. destruct x as [xx|], y as [yy|], z as [zz|];
      try (cbn [fst snd]; assert (NU : ~ (forall X : Prop, X)) by (intros H; exact (H False)); intuition (try discriminate; try congruence);
           repeat match goal with H : exists _, _ |- _ => destruct H end; intuition congruence).
    destruct (Rle_dec (sqrt (xx * xx + yy * yy + zz * zz)) epsilon) as [L|L].
    + assert (NU : ~ exists a b c, Some xx = Some a /\ Some yy = Some b /\ Some zz = Some c /\ epsilon < sqrt (a * a + b * b + c * c)).
      { intros (? & ? & ? & E1 & E2 & E3 & P). injection E1 as <-. injection E2 as <-. injection E3 as <-. lra. }
      cbn [fst snd]. intuition discriminate.
    + assert (U : exists a b c, Some xx = Some a /\ Some yy = Some b /\ Some zz = Some c /\ epsilon < sqrt (a * a + b * b + c * c)).
      { exists xx, yy, zz. split; [reflexivity|]. split; [reflexivity|]. split; [reflexivity|]. lra. }
      destruct (K (deg (atan2 (zz / sqrt (xx * xx + yy * yy + zz * zz)) (sqrt (xx / sqrt (xx * xx + yy * yy + zz * zz) * (xx / sqrt (xx * xx + yy * yy + zz * zz)) + yy / sqrt (xx * xx + yy * yy + zz * zz) * (yy / sqrt (xx * xx + yy * yy + zz * zz))))))
        (rem_e (deg (atan2 (yy / sqrt (xx * xx + yy * yy + zz * zz)) (xx / sqrt (xx * xx + yy * yy + zz * zz)))) 360) f) as [(dir & -> & KF)|(-> & KF)];
        rewrite KF; cbn [fst snd]; intuition discriminate.
Qed.
Print Assumptions C136_status.
(** The direction kept for searches is that of the position, turned into ICRS. *)
Lemma rem_e_turns x : exists k : Z, rem_e x 360 = x - IZR k * 360.
Proof. exists (Int_part (x / 360)). unfold rem_e. ring. Qed.
Lemma cart_wrap p a : cart_of p (rem_e a 360) = cart_of p a.
Proof.
  destruct (rem_e_turns a) as (k & ->). unfold cart_of. replace (rad (a - IZR k * 360)) with (rad a + 2 * IZR (- k) * PI) by (unfold rad; rewrite opp_IZR; field).
  assert (C : cos (rad a + 2 * IZR (- k) * PI) = cos (rad a) /\ sin (rad a + 2 * IZR (- k) * PI) = sin (rad a)).
  { generalize (rad a). generalize (- k)%Z. clear. intros z x. destruct (Z_le_gt_dec 0 z) as [P|P].
    - rewrite <- (Z2Nat.id z P), <- INR_IZR_INZ. split; [apply cos_period|apply sin_period].
    - set (y := x + 2 * IZR z * PI). assert (E : x = y + 2 * INR (Z.to_nat (- z)) * PI).
      { unfold y. rewrite INR_IZR_INZ, Z2Nat.id by lia. rewrite opp_IZR. ring. }
      rewrite E. split; symmetry; [apply cos_period|apply sin_period]. }
  destruct C as (-> & ->). reflexivity.
Qed.
Lemma payload_cart x y z p a : payload_cartesian (Some x) (Some y) (Some z) = inr (p, a) ->
  0 < sqrt (x * x + y * y + z * z) /\ cart_of p a = (x / sqrt (x * x + y * y + z * z), y / sqrt (x * x + y * y + z * z), z / sqrt (x * x + y * y + z * z)).
Proof.
  unfold payload_cartesian. destruct (Rle_dec _ _) as [L|L]; [discriminate|]. intros E.
  assert (EP : 0 < epsilon) by (unfold epsilon; apply Rinv_0_lt_compat, pow_lt; lra).
  assert (N : 0 < sqrt (x * x + y * y + z * z)) by lra. split; [exact N|].
  set (n := sqrt (x * x + y * y + z * z)) in *.
  assert (NN : n * n = x * x + y * y + z * z) by (apply sqrt_sqrt; nra).
  assert (U : x / n * (x / n) + y / n * (y / n) + z / n * (z / n) = 1).
  { replace (x / n * (x / n) + y / n * (y / n) + z / n * (z / n)) with ((x * x + y * y + z * z) / (n * n)) by (field; lra). rewrite <- NN. field. lra. }
  set (a1 := x / n) in *. set (b1 := y / n) in *. set (c1 := z / n) in *. clearbody a1 b1 c1. clear - E U.
  assert (P : deg (atan2 c1 (sqrt (a1 * a1 + b1 * b1))) = p) by congruence. assert (A : rem_e (deg (atan2 b1 a1)) 360 = a) by congruence. subst p a. clear E.
  rewrite cart_wrap. unfold cart_of. rewrite !rad_deg.
  set (r := sqrt (a1 * a1 + b1 * b1)). assert (RR : r * r = a1 * a1 + b1 * b1) by (apply sqrt_sqrt; nra). assert (R0 : 0 <= r) by apply sqrt_pos.
  assert (H1 : sqrt (r² + c1²) = 1). { unfold Rsqr. rewrite RR, <- sqrt_1. f_equal. lra. }
  destruct (atan2_polar c1 r) as (C1 & S1). { destruct (Req_EM_T r 0) as [Z1|Z1]; [|now left]. right. intros Z2. subst c1. rewrite Z1 in RR. nra. }
  rewrite H1 in C1, S1. replace (cos (atan2 c1 r)) with r by lra. replace (sin (atan2 c1 r)) with c1 by lra.
  assert (HR : sqrt (a1² + b1²) = r) by reflexivity.
  destruct (Req_EM_T r 0) as [Z|Z].
  - rewrite Z in *. assert (a1 = 0) by nra. assert (b1 = 0) by nra. subst. f_equal. f_equal; ring.
  - destruct (atan2_polar b1 a1) as (C2 & S2). { destruct (Req_EM_T a1 0) as [Z1|Z1]; [|now left]. right. intros Z2. subst. apply Z. nra. }
    rewrite HR in C2, S2. now rewrite C2, S2.
Qed.
Definition sample_turns : rotations := fun f t => match f with EclipticMeanJ2000 => r1 (rad 23) | EquatorialTrueOfDate => r3 t | _ => identity end.
Lemma sample_turns_ok : turning sample_turns.
Proof. split; [|reflexivity]. intros f t. destruct f; cbn; try apply orthonormal_identity; [apply r1_orthonormal|apply r3_orthonormal]. Qed.
(** The unit vector of a payload in its own frame. *)
Definition payload_vector (c : coord) (v : vec) : Prop :=
  match c with
  | SphericalDir p a _ => v = cart_of p a
  | SphericalPos lon lat _ _ _ _ => exists a p, lon = Some a /\ lat = Some p /\ v = cart_of p a
  | CartesianPos x y z _ _ _ => exists a b c k, x = Some a /\ y = Some b /\ z = Some c /\ 0 < k /\ dot3 v v = 1 /\ (a, b, c) = scale k v
  end.
Theorem C136_direction m d t g : turning m -> td_epoch d = Some t -> target_create m d false = (SOk, Some g) ->
  exists v, payload_vector (td_coord d) v /\ cart_of (fst (tg_dir g)) (snd (tg_dir g)) = apply (transpose (m (coord_frame (td_coord d)) t)) v.
Proof.
  intros T E H. unfold target_create in H. rewrite E in H.
  assert (K : forall p a f dir, icrs_direction m p a f t = inr dir -> cart_of (fst dir) (snd dir) = apply (transpose (m f t)) (cart_of p a)).
  { intros p a f dir. destruct T as (TO & TI).
    assert (G : cart_of (fst (sph_of (into_icrs m f t (cart_of p a)))) (snd (sph_of (into_icrs m f t (cart_of p a)))) = apply (transpose (m f t)) (cart_of p a)).
    { rewrite cart_sph; [reflexivity|]. unfold into_icrs. rewrite orthonormal_dot by apply orthonormal_transpose, TO. apply cart_unit. }
    destruct f; cbn [icrs_direction]; intros D; try discriminate D; try (injection D as <-; exact G).
    injection D as <-. cbn [fst snd]. rewrite TI. change (transpose identity) with identity. now rewrite apply_1. }
  destruct (td_coord d) as [p a f|lon lat dist f c u|x y z f c u]; cbn [coord_frame payload_vector].
  - destruct (icrs_direction m p a f t) as [s|dir] eqn:D; [discriminate|]. injection H as <-. exists (cart_of p a). split; [reflexivity|]. now apply K.
  - unfold payload_spherical in H. destruct lon as [lo|], lat as [la|], dist as [di|]; try discriminate. destruct (Rle_dec di 0); [discriminate|].
    destruct (icrs_direction m la lo f t) as [s|dir] eqn:D; [discriminate|]. injection H as <-. exists (cart_of la lo). split; [now exists lo, la|]. now apply K.
  - destruct (payload_cartesian x y z) as [s|[p a]] eqn:P; [discriminate|]. destruct x as [x|], y as [y|], z as [z|]; try discriminate.
    destruct (payload_cart x y z p a P) as (N & C). destruct (icrs_direction m p a f t) as [s|dir] eqn:D; [discriminate|]. injection H as <-. cbn [tg_dir].
    exists (cart_of p a). split; [|now apply K]. exists x, y, z, (sqrt (x * x + y * y + z * z)). split; [reflexivity|]. split; [reflexivity|]. split; [reflexivity|].
    split; [exact N|]. split; [apply cart_unit|]. rewrite C. cbn [scale]. apply (f_equal2 pair); [apply (f_equal2 pair)|]; field; lra.
Qed.
Print Assumptions C136_direction.
(** The centre, the unit and the distance play no part. *)
Theorem C136_center m e pm f x y z c c' u u' k : 0 < k -> forall g g',
  target_create m (TData (CartesianPos (Some x) (Some y) (Some z) f c u) e pm) false = (SOk, Some g) ->
  target_create m (TData (CartesianPos (Some (k * x)) (Some (k * y)) (Some (k * z)) f c' u') e pm) false = (SOk, Some g') -> tg_dir g = tg_dir g'.
Proof.
  intros KP g g'. unfold target_create. cbn [td_epoch td_coord]. destruct e as [t|]; [|discriminate].
  assert (Q : forall r, payload_cartesian (Some x) (Some y) (Some z) = inr r -> forall r', payload_cartesian (Some (k * x)) (Some (k * y)) (Some (k * z)) = inr r' -> r = r').
  { intros [p a] P [p' a'] P'. destruct (payload_cart _ _ _ _ _ P) as (N & _). revert P P'. unfold payload_cartesian.
    replace (sqrt (k * x * (k * x) + k * y * (k * y) + k * z * (k * z))) with (k * sqrt (x * x + y * y + z * z)).
    2:{ rewrite <- (sqrt_square k) at 1 by lra. rewrite <- sqrt_mult by nra. f_equal. ring. }
    set (n := sqrt (x * x + y * y + z * z)) in *. destruct (Rle_dec n epsilon); [discriminate|]. destruct (Rle_dec (k * n) epsilon); [discriminate|].
    replace (k * x / (k * n)) with (x / n) by (field; lra). replace (k * y / (k * n)) with (y / n) by (field; lra). replace (k * z / (k * n)) with (z / n) by (field; lra).
    intros P P'. congruence. }
  destruct (payload_cartesian (Some x) (Some y) (Some z)) as [s|[p a]] eqn:P; [discriminate|].
  destruct (payload_cartesian (Some (k * x)) (Some (k * y)) (Some (k * z))) as [s|[p' a']] eqn:P'; [discriminate|].
  specialize (Q _ eq_refl _ eq_refl). assert (p' = p) by congruence. assert (a' = a) by congruence. subst p' a'. intros G G'.
  destruct (icrs_direction m p a f t); [discriminate|]. injection G as <-. injection G' as <-. reflexivity.
Qed.
Print Assumptions C136_center.
(** So a place given from the Sun is sought as if it were given from the Earth:
    the direction differs from the one of the same place moved to the geocentre
    by the library's own call. *)
Theorem C136_center_refuted : exists m o q g g', turning m
  /\ target_create m (TData (CartesianPos (Some 1) (Some 1) (Some 0) ICRS Heliocentric UAu) (Some 0) None) false = (SOk, Some g)
  /\ transform_center o (Cpos (1, 1, 0) ICRS Heliocentric UAu) Geocentric (Some 0) false = (SOk, Some q) /\ cp_v q = (1 - 1, 1 - 0, 0 - 0)
  /\ target_create m (TData (CartesianPos (Some (1 - 1)) (Some (1 - 0)) (Some (0 - 0)) ICRS Geocentric UAu) (Some 0) None) false = (SOk, Some g') /\ tg_dir g <> tg_dir g'.
Proof.
  set (m := fun (_ : frame) (_ : R) => identity). assert (T : turning m) by (split; [intros; apply orthonormal_identity|reflexivity]).
  assert (EP : epsilon < 1). { unfold epsilon. rewrite <- Rinv_1. apply Rinv_lt_contravar; [rewrite Rmult_1_l; apply pow_lt; lra|]. change 1 with (2 ^ 0). apply Rlt_pow; [lra|lia]. }
  assert (A : forall x y c, 1 <= x * x + y * y -> exists g, target_create m (TData (CartesianPos (Some x) (Some y) (Some 0) ICRS c UAu) (Some 0) None) false = (SOk, Some g)
      /\ cart_of (fst (tg_dir g)) (snd (tg_dir g)) = (x / sqrt (x * x + y * y + 0 * 0), y / sqrt (x * x + y * y + 0 * 0), 0 / sqrt (x * x + y * y + 0 * 0))).
  { intros x y c L. assert (S1 : 1 <= sqrt (x * x + y * y + 0 * 0)). { rewrite <- sqrt_1 at 1. apply sqrt_le_1_alt. lra. }
    unfold target_create. cbn [td_epoch td_coord]. destruct (payload_cartesian (Some x) (Some y) (Some 0)) as [s|[p a]] eqn:P.
    - exfalso. unfold payload_cartesian in P. destruct (Rle_dec (sqrt (x * x + y * y + 0 * 0)) epsilon); [lra|discriminate].
    - cbn [icrs_direction]. eexists. split; [reflexivity|]. cbn [tg_dir fst snd]. now apply payload_cart. }
  destruct (A 1 1 Heliocentric) as (g & G & CG); [lra|]. destruct (A (1 - 1) (1 - 0) Geocentric) as (g' & G' & CG'); [lra|].
  exists m, (Offsets (fun _ => (0, 0, 0)) (fun _ => (1, 0, 0))), (Cpos (1 - 1, 1 - 0, 0 - 0) ICRS Geocentric UAu), g, g'.
  split; [exact T|]. split; [exact G|]. split; [reflexivity|]. split; [reflexivity|]. replace (0 - 0) with 0 by ring. split; [exact G'|]. intros E. rewrite E, CG' in CG.
  assert (X := f_equal (fun v : vec => fst (fst v)) CG). cbn [fst] in X.
  assert (S1 : 0 < sqrt (1 * 1 + 1 * 1 + 0 * 0)) by (apply sqrt_lt_R0; lra).
  replace ((1 - 1) / sqrt ((1 - 1) * (1 - 1) + (1 - 0) * (1 - 0) + 0 * 0)) with 0 in X by (unfold Rdiv; ring).
  assert (0 < 1 / sqrt (1 * 1 + 1 * 1 + 0 * 0)) by (apply Rmult_lt_0_compat; [lra|now apply Rinv_0_lt_compat]). lra.
Qed.
Print Assumptions C136_center_refuted.
(** Codes taken as plain integers are never refused: an unknown gravity model
    is the default one, an unknown branch the prograde one. *)
Theorem C136_codes c : (sgp4_code (sgp4_of_code c) = c <-> (0 <= c <= 2)%Z) /\ (~ (0 <= c <= 2)%Z -> sgp4_of_code c = Wgs72) /\ (lambert_retrograde c = true <-> c = 1%Z).
Proof.
  unfold sgp4_of_code, lambert_retrograde. destruct (Z.eqb_spec c 1) as [->|N1]; cbn; [split; [lia|]; split; [lia|tauto]|].
  destruct (Z.eqb_spec c 2) as [->|N2]; cbn; [split; [lia|]; split; [lia|]; split; [discriminate|lia]|]. split; [lia|]. split; [reflexivity|]. split; [discriminate|lia].
Qed.
Print Assumptions C136_codes.
Example C136_case : usable (CartesianPos (Some 3) (Some 4) (Some 0) EclipticMeanJ2000 Heliocentric UKm) /\ ~ usable (SphericalPos (Some 1) (Some 1) (Some 0) ICRS Geocentric UAu)
  /\ turning sample_turns /\ fst (target_create sample_turns (TData (SphericalDir 10 20 Galactic) (Some 0) None) false) = SInvalidFrame.
Proof.
  split; [|split].
  - exists 3, 4, 0. split; [reflexivity|]. split; [reflexivity|]. split; [reflexivity|]. replace (3 * 3 + 4 * 4 + 0 * 0) with (5 * 5) by ring. rewrite sqrt_square by lra.
    unfold epsilon. apply Rlt_trans with 1; [|lra]. rewrite <- Rinv_1. apply Rinv_lt_contravar; [rewrite Rmult_1_l; apply pow_lt; lra|]. change 1 with (2 ^ 0). apply Rlt_pow; [lra|lia].
  - intros (_ & _ & d & E & P). injection E as <-. lra.
  - split; [exact sample_turns_ok|]. reflexivity.
Qed.
