From Coq Require Import Ascii String List Arith NArith ZArith Bool Lia.
From Coq Require Import ZifyBool ZifyNat ZifyN.
From Verif Require Import Base Text Daf_Model Sck_Model.
Import ListNotations.
Local Open Scope N_scope.
Local Open Scope outcome_scope.

(** ** The format *)
Fixpoint le_bytes (k : nat) (n : N) : list N := match k with O => [] | S k' => n mod 256 :: le_bytes k' (n / 256) end.
Definition sck_magic : list N := lit "SCKERN01".
(** 8 bytes of magic, six 32-bit numbers, two doubles, 16 bytes unused, then the records *)
Definition sck_image (h : sck_header) (pad : list N) (recs : list N) : list N :=
  sck_magic ++ le_bytes 4 (ncoeff h) ++ le_bytes 4 (record_count h) ++ le_bytes 4 (center_id h) ++ le_bytes 4 (target_id h) ++
  le_bytes 4 (frame_id h) ++ le_bytes 4 (time_scale_id h) ++ le_bytes 8 (valid_from h) ++ le_bytes 8 (valid_to h) ++ pad ++
  flat_map (le_bytes 8) recs.
Definition header_ok (h : sck_header) : Prop :=
  ncoeff h < 2 ^ 32 /\ record_count h < 2 ^ 32 /\ center_id h < 2 ^ 32 /\ target_id h < 2 ^ 32 /\ frame_id h < 2 ^ 32 /\
  time_scale_id h < 2 ^ 32 /\ valid_from h < 2 ^ 64 /\ valid_to h < 2 ^ 64.

Lemma le_bytes_length k n : length (le_bytes k n) = k.
Proof. revert n. induction k as [|k IH]; intros n; [reflexivity|]. cbn. now rewrite IH. Qed.
Lemma le_val_bytes k n : n < 256 ^ N.of_nat k -> le_val (le_bytes k n) = n.
Proof.
  revert n. induction k as [|k IH]; intros n H; [cbn in *; lia|].
  cbn [le_bytes le_val fold_right]. change (fold_right (fun b a => b + 256 * a) 0 ?x) with (le_val x).
  rewrite IH. { pose proof (N.div_mod n 256 ltac:(discriminate)). lia. }
  rewrite Nat2N.inj_succ, N.pow_succ_r' in H. apply N.div_lt_upper_bound; lia.
Qed.
Lemma le_val_bytes4 n : n < 2 ^ 32 -> le_val (le_bytes 4 n) = n.
Proof. intros H. apply le_val_bytes. exact H. Qed.
Lemma le_val_bytes8 n : n < 2 ^ 64 -> le_val (le_bytes 8 n) = n.
Proof. intros H. apply le_val_bytes. exact H. Qed.
Lemma le_bytes_val l : Forall (fun b => b < 256) l -> le_bytes (length l) (le_val l) = l.
Proof.
  induction 1 as [|b l Hb _ IH]; [reflexivity|]. cbn [le_val fold_right length le_bytes].
  change (fold_right (fun b a => b + 256 * a) 0 l) with (le_val l).
  rewrite (N.mul_comm 256), N.mod_add, N.div_add, N.mod_small, N.div_small by (lia || assumption). cbn [N.add]. now rewrite IH.
Qed.

Lemma chunks_flat recs : Forall (fun w => w < 2 ^ 64) recs -> forall n, (length recs <= n)%nat ->
  map le_val (chunks8 n (flat_map (le_bytes 8) recs)) = recs.
Proof.
  induction 1 as [|w recs Hw _ IH]; intros n Hn.
  - destruct n; reflexivity.
  - destruct n as [|n]; [cbn in Hn; lia|]. cbn [chunks8 flat_map].
    destruct (Nat.ltb_spec (length (le_bytes 8 w ++ flat_map (le_bytes 8) recs)) 8) as [X|_]; [rewrite app_length, le_bytes_length in X; lia|].
    rewrite firstn_app_exact, skipn_app_exact by apply le_bytes_length. cbn [map]. rewrite IH by (cbn in Hn; lia). now rewrite le_val_bytes8.
Qed.
Lemma chunks_back n : forall l, (length l <= n)%nat -> (length l mod 8 = 0)%nat -> Forall (fun b => b < 256) l ->
  flat_map (le_bytes 8) (map le_val (chunks8 n l)) = l /\ (8 * length (chunks8 n l) = length l)%nat.
Proof.
  induction n as [|n IH]; intros l L M F; [destruct l; [split; reflexivity|cbn in L; lia]|]. cbn [chunks8].
  destruct (Nat.ltb_spec (length l) 8) as [X|X].
  - rewrite Nat.mod_small in M by exact X. destruct l; [split; reflexivity|discriminate].
  - assert (Fl : length (firstn 8 l) = 8%nat) by (rewrite firstn_length; lia).
    destruct (IH (skipn 8 l)) as (A & B).
    + rewrite skipn_length. lia.
    + rewrite skipn_length. replace (length l) with (length l - 8 + 1 * 8)%nat in M by lia. now rewrite Nat.mod_add in M.
    + rewrite <- (firstn_skipn 8 l) in F. apply Forall_app in F. tauto.
    + cbn [map flat_map length]. split.
      * rewrite A. rewrite <- Fl at 1. rewrite le_bytes_val, firstn_skipn; [reflexivity|].
        rewrite <- (firstn_skipn 8 l) in F. apply Forall_app in F. tauto.
      * rewrite skipn_length in B. lia.
Qed.

(** ** Acceptance *)
Definition words (h : sck_header) : N := record_count h * (2 + 3 * ncoeff h).
Definition size_matches (bytes : list N) : Prop := N.of_nat (length bytes) = 64 + 8 * words (read_header bytes).
Definition magic_matches (bytes : list N) : Prop := firstn 8 bytes = sck_magic.
(** No Rust slice is longer than isize::MAX bytes. *)
Definition slice_len (bytes : list N) : Prop := N.of_nat (length bytes) < 2 ^ 63.

Lemma parse_accept debug bytes : slice_len bytes -> magic_matches bytes -> size_matches bytes ->
  parse_sck debug bytes = Ok (Sck (read_header bytes) (map le_val (chunks8 (length (skipn 64 bytes)) (skipn 64 bytes)))).
Proof.
  intros L M S. unfold size_matches, slice_len, words in *. unfold parse_sck.
  destruct (Nat.ltb_spec (length bytes) 64); [lia|]. destruct (str_eqb_spec (firstn 8 bytes) (lit "SCKERN01")) as [_|X]; [|exfalso; exact (X M)].
  cbn [negb]. cbv zeta. set (h := read_header bytes) in *. rewrite (N.mul_comm (record_count h)) in S.
  set (e := (2 + 3 * ncoeff h) * record_count h) in *.
  assert (E : e * 8 < M64) by (unfold M64; lia).
  destruct (N.ltb_spec e M64); [|lia]. unfold mul. destruct (N.ltb_spec (e * 8) M64); [|lia]. cbn [obind].
  rewrite skipn_length. destruct (N.eqb_spec (N.of_nat (length bytes - 64)) (e * 8)); [|lia]. cbn [negb].
  unfold with_capacity. destruct (N.leb_spec (e * 8) 9223372036854775807); [reflexivity|lia].
Qed.
Lemma parse_ok debug bytes k : parse_sck debug bytes = Ok k -> slice_len bytes ->
  magic_matches bytes /\ size_matches bytes /\ hdr k = read_header bytes /\
  records k = map le_val (chunks8 (length (skipn 64 bytes)) (skipn 64 bytes)).
Proof.
  unfold parse_sck. intros H L. destruct (Nat.ltb_spec (length bytes) 64); [discriminate|].
  destruct (str_eqb_spec (firstn 8 bytes) (lit "SCKERN01")) as [M|X]; [|discriminate]. cbn [negb] in H. cbv zeta in H.
  unfold size_matches, words. set (h := read_header bytes) in *. set (e := (2 + 3 * ncoeff h) * record_count h) in *.
  destruct (N.ltb_spec e M64); [|discriminate]. unfold mul in H. destruct (N.ltb_spec (e * 8) M64) as [Hm|Hm].
  - cbn [obind] in H. destruct (N.eqb_spec (N.of_nat (length (skipn 64 bytes))) (e * 8)) as [E|E]; [|discriminate]. cbn [negb] in H.
    unfold with_capacity in H. destruct (N.leb_spec (e * 8) 9223372036854775807); [|discriminate]. cbn [obind] in H. injection H as <-.
    rewrite skipn_length in E. split; [exact M|]. split; [|split; reflexivity]. rewrite (N.mul_comm (record_count h)). fold e. lia.
  - exfalso. destruct debug; [discriminate|]. cbn [obind] in H. destruct (N.eqb_spec (N.of_nat (length (skipn 64 bytes))) ((e * 8) mod M64)) as [E|E]; [|discriminate].
    cbn [negb] in H. unfold with_capacity in H. destruct (N.leb_spec (e * 8) 9223372036854775807); [unfold M64 in Hm; lia|discriminate].
Qed.
Lemma payload_words debug bytes k : parse_sck debug bytes = Ok k -> slice_len bytes -> N.of_nat (length (records k)) = words (hdr k).
Proof.
  intros H L. destruct (parse_ok _ _ _ H L) as (M & S & -> & ->). rewrite map_length. unfold size_matches in S.
  assert (G : forall n l, (length l <= n)%nat -> forall w, length l = (8 * w)%nat -> length (chunks8 n l) = w).
  { clear. induction n as [|n IH]; intros l L w E; [destruct l; [cbn in *; lia|cbn in L; lia]|]. cbn [chunks8].
    destruct (Nat.ltb_spec (length l) 8) as [X|X]; [cbn; lia|]. cbn [length]. rewrite (IH (skipn 8 l)) with (w := (w - 1)%nat); [lia| |]; rewrite skipn_length; lia. }
  rewrite (G _ _ (Nat.le_refl _) (N.to_nat (words (read_header bytes)))); [lia|]. rewrite skipn_length. lia.
Qed.
Lemma parse_image debug h pad recs : header_ok h -> length pad = 16%nat -> Forall (fun w => w < 2 ^ 64) recs ->
  N.of_nat (length recs) = words h -> slice_len (sck_image h pad recs) -> parse_sck debug (sck_image h pad recs) = Ok (Sck h recs).
Proof.
  intros (H1 & H2 & H3 & H4 & H5 & H6 & H7 & H8) Lp F Lw Ls.
  assert (Lf : length (flat_map (le_bytes 8) recs) = (8 * length recs)%nat).
  { clear. induction recs as [|w r IH]; [reflexivity|]. cbn [flat_map]. rewrite app_length, le_bytes_length, IH. cbn [length]. lia. }
  assert (Hh : read_header (sck_image h pad recs) = h).
  { unfold read_header, sck_image, field. cbn [sck_magic lit list_ascii_of_string map app Nat.sub].
    generalize (flat_map (le_bytes 8) recs). intros tl. cbn [le_bytes app skipn firstn].
    destruct h as [a b c d e f g i]. cbn [ncoeff record_count center_id target_id frame_id time_scale_id valid_from valid_to] in *.
    f_equal; first [apply le_val_bytes4; assumption|apply le_val_bytes8; assumption]. }
  assert (Sk : skipn 64 (sck_image h pad recs) = flat_map (le_bytes 8) recs).
  { unfold sck_image. cbn [sck_magic lit list_ascii_of_string map le_bytes app skipn].
    do 16 (destruct pad as [|? pad]; [discriminate|]). destruct pad; [|discriminate]. reflexivity. }
  assert (Ln : length (sck_image h pad recs) = (64 + 8 * length recs)%nat).
  { unfold sck_image. rewrite !app_length, !le_bytes_length, Lp, Lf. change (length sck_magic) with 8%nat. lia. }
  rewrite parse_accept; [|exact Ls|reflexivity|].
  - rewrite Hh, Sk, chunks_flat by (exact F || lia). reflexivity.
  - unfold size_matches. rewrite Hh, Ln, <- Lw. lia.
Qed.
(** ** Panics *)
Lemma parse_panic debug bytes : slice_len bytes -> (parse_sck debug bytes = Panic <->
  (64 <= length bytes)%nat /\ magic_matches bytes /\
  let w := words (read_header bytes) in w < 2 ^ 64 /\ 2 ^ 64 <= 8 * w /\
  (debug = true \/ N.of_nat (length bytes) - 64 = (8 * w) mod 2 ^ 64)).
Proof.
  intros L. unfold parse_sck. destruct (Nat.ltb_spec (length bytes) 64); [split; [discriminate|intros (X & _); lia]|].
  destruct (str_eqb_spec (firstn 8 bytes) (lit "SCKERN01")) as [M|X]; cbn [negb]; cbv zeta; [|split; [discriminate|intros (_ & Y & _); contradiction]].
  unfold words. set (h := read_header bytes) in *. rewrite (N.mul_comm (record_count h)). set (e := (2 + 3 * ncoeff h) * record_count h) in *.
  rewrite (N.mul_comm 8 e). change (2 ^ 64) with M64. unfold slice_len in L.
  destruct (N.ltb_spec e M64); [|split; [discriminate|intros (_ & _ & Y & _); lia]].
  unfold mul. destruct (N.ltb_spec (e * 8) M64) as [Hm|Hm].
  - cbn [obind]. split; [|intros (_ & _ & _ & Y & _); lia].
    destruct (N.eqb_spec (N.of_nat (length (skipn 64 bytes))) (e * 8)) as [E|E]; [|discriminate]. cbn [negb].
    unfold with_capacity. rewrite skipn_length in E. destruct (N.leb_spec (e * 8) 9223372036854775807); [discriminate|]. change (2 ^ 63) with 9223372036854775808 in L. lia.
  - destruct debug; cbn [obind]; [split; [intros _|reflexivity]; repeat split; auto|].
    destruct (N.eqb_spec (N.of_nat (length (skipn 64 bytes))) ((e * 8) mod M64)) as [E|E]; cbn [negb]; rewrite skipn_length in E.
    + unfold with_capacity. destruct (N.leb_spec (e * 8) 9223372036854775807); [unfold M64 in Hm; lia|]. cbn [obind].
      split; [intros _|reflexivity]. repeat split; auto. right. rewrite <- E. lia.
    + split; [discriminate|]. intros (_ & _ & _ & _ & [Y|Y]); [discriminate|]. exfalso. apply E. rewrite <- Y. lia.
Qed.
(** An accepted buffer is the image of the result. *)
Lemma parse_unique debug bytes k : parse_sck debug bytes = Ok k -> slice_len bytes -> Forall (fun b => b < 256) bytes ->
  bytes = sck_image (hdr k) (firstn 16 (skipn 48 bytes)) (records k).
Proof.
  intros H L F. destruct (parse_ok _ _ _ H L) as (M & S & -> & ->).
  assert (L64 : (64 <= length bytes)%nat) by (unfold size_matches in S; lia).
  unfold sck_image. destruct (chunks_back (length (skipn 64 bytes)) (skipn 64 bytes)) as (-> & _).
  - lia.
  - rewrite skipn_length. unfold size_matches in S. replace (length bytes - 64)%nat with (0 + N.to_nat (words (read_header bytes)) * 8)%nat by lia.
    now rewrite Nat.mod_add.
  - rewrite <- (firstn_skipn 64 bytes) in F. apply Forall_app in F. tauto.
  - rewrite <- M. clear M S H L. unfold read_header, field. cbn [ncoeff record_count center_id target_id frame_id time_scale_id valid_from valid_to].
    assert (Fn : forall a n, Forall (fun b => b < 256) (firstn n (skipn a bytes))).
    { intros a n. rewrite <- (firstn_skipn a bytes) in F. apply Forall_app in F as (_ & F). rewrite <- (firstn_skipn n (skipn a bytes)) in F. apply Forall_app in F. tauto. }
    assert (Bk : forall a b n, (b - a = n)%nat -> (b <= 64)%nat -> (a <= b)%nat -> le_bytes n (le_val (firstn (b - a) (skipn a bytes))) = firstn (b - a) (skipn a bytes)).
    { intros a b n E B A. rewrite <- (le_bytes_val (firstn (b - a) (skipn a bytes)) (Fn _ _)) at 2. f_equal. rewrite firstn_length, skipn_length. lia. }
    rewrite (Bk 8%nat 12%nat 4%nat eq_refl), (Bk 12%nat 16%nat 4%nat eq_refl), (Bk 16%nat 20%nat 4%nat eq_refl), (Bk 20%nat 24%nat 4%nat eq_refl), (Bk 24%nat 28%nat 4%nat eq_refl), (Bk 28%nat 32%nat 4%nat eq_refl), (Bk 32%nat 40%nat 8%nat eq_refl), (Bk 40%nat 48%nat 8%nat eq_refl) by lia. clear Bk Fn F.
    do 64 (destruct bytes as [|? bytes]; [cbn in L64; lia|]). reflexivity.
Qed.
