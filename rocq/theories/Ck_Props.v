(** C32: attitude kernels *)
From Coq Require Import Ascii String List Arith NArith ZArith QArith Qpower Qreals Reals Bool Lia Lqa Lra Psatz Permutation.
From Verif Require Import Base Text DecFloat Sort Fnum Daf_Model Daf_Spec Spk_Model Ck_Model Ck_Proofs Slerp_Model Slerp_Proofs.
Import ListNotations.
Local Open Scope N_scope.

(** C32: a 64-bit pattern is read as IEEE 754 says: sign, power of two biased by 1023, fraction of 52 bits; subnormal
    below, infinite or undefined above *)
Definition bits (neg : bool) (e m : N) : N := (if neg then 2 ^ 63 else 0) + e * 2 ^ 52 + m.
Lemma bits_fields neg e m : e < 2048 -> m < 2 ^ 52 -> f64_neg (bits neg e m) = neg /\ f64_exp (bits neg e m) = e /\ f64_man (bits neg e m) = m.
Proof.
  intros E M. unfold f64_neg, f64_exp, f64_man, bits. change (2 ^ 63) with (2048 * 4503599627370496). change (2 ^ 52) with 4503599627370496 in *.
  assert (D : forall k, (k * 4503599627370496 + e * 4503599627370496 + m) / 4503599627370496 = k + e /\ (k * 4503599627370496 + e * 4503599627370496 + m) mod 4503599627370496 = m).
  { intros k. replace (k * 4503599627370496 + e * 4503599627370496 + m) with (m + (k + e) * 4503599627370496) by lia. rewrite N.div_add, N.mod_add by lia. rewrite N.div_small, N.mod_small by lia. split; [lia|reflexivity]. }
  destruct neg.
  - destruct (D 2048) as (-> & ->). split; [apply N.leb_le; lia|]. split; [|reflexivity]. replace (2048 + e) with (e + 1 * 2048) by lia. rewrite N.mod_add by lia. apply N.mod_small, E.
  - change 0 with (0 * 4503599627370496) at 1 2 3. destruct (D 0) as (-> & ->). split; [apply N.leb_gt; lia|]. split; [|reflexivity]. apply N.mod_small. lia.
Qed.
Theorem C32_value neg e m : e < 2048 -> m < 2 ^ 52 ->
  (0 < e < 2047 -> exists q, f64_num (bits neg e m) = Fin q /\ (q == (if neg then - (1) else 1) * Qpower 2 (Z.of_N e - 1023) * (1 + QofN m / Qpower 2 52))%Q) /\
  (e = 0 -> exists q, f64_num (bits neg e m) = Fin q /\ (q == (if neg then - (1) else 1) * Qpower 2 (-1022) * (QofN m / Qpower 2 52))%Q) /\
  (e = 2047 -> f64_num (bits neg e m) = if m =? 0 then Inf neg else NaN).
Proof.
  intros E M. destruct (bits_fields neg e m E M) as (A & B & C). unfold f64_num. rewrite A, B, C.
  assert (P : forall a, (Qpower 2 (a - 1075) == Qpower 2 (a - 1023) / Qpower 2 52)%Q).
  { intros a. replace (a - 1075)%Z with (a - 1023 + -(52))%Z by lia. rewrite Qpower_plus by discriminate. rewrite (Qpower_opp 2 52). reflexivity. }
  split; [|split].
  - intros H. rewrite (proj2 (N.eqb_neq e 2047)), (proj2 (N.eqb_neq e 0)) by lia. eexists; split; [reflexivity|].
    assert (Q0 : (QofN (m + 4503599627370496) == QofN m + Qpower 2 52)%Q) by (unfold QofN; rewrite N2Z.inj_add, inject_Z_plus; reflexivity).
    unfold qsgn. destruct neg; rewrite Qred_correct, P, Q0; field; discriminate.
  - intros ->. cbn [N.eqb]. eexists; split; [reflexivity|]. unfold qsgn. destruct neg; rewrite Qred_correct, (P 1%Z); change (1 - 1023)%Z with (-1022)%Z; field; discriminate.
  - intros ->. reflexivity.
Qed.
Example C32_value_case : bits false 1023 0 = 4607182418800017408 /\ f64_num (bits true 1024 (2 ^ 51)) = Fin (- (3))%Q.
Proof. split; reflexivity. Qed.
Section Any.
Context {V : Type}.
Variable norm_words : N -> N -> N -> N -> V.
Variable normalize : V -> V.
Variable slerp : V -> V -> fnum -> V.
Variable search : list fnum -> fnum -> nat + nat.
Hypothesis Hs : search_ok search.

(** C32: inside the records, either some record has exactly this tick and the answer is one of them, or the answer is
    the blend of the two neighbours around it. *)
Theorem C32_inside : forall s x first rest, recs s = first :: rest -> ordered by_tick (recs s) ->
  Forall (fun r => is_nan (tick r) = false) (recs s) ->
  fle (tick first) x = true -> fle x (tick (last (recs s) first)) = true ->
  (exists r, In r (recs s) /\ same_tick (tick r) x /\ evaluate V normalize slerp search s x = Ok (normalize (quat r))) \/
  ((forall r, In r (recs s) -> ~ same_tick (tick r) x) /\
   exists a l r b, recs s = a ++ l :: r :: b /\ flt (tick l) x = true /\ flt x (tick r) = true /\
     evaluate V normalize slerp search s x =
       Ok (if tiny (fsub (tick r) (tick l)) then normalize (quat l)
           else slerp (quat l) (quat r) (fdiv (fsub x (tick l)) (fsub (tick r) (tick l))))).
Proof.
  intros s x f rest E O NN A B. destruct (evaluate_inside normalize slerp search Hs s x f rest E O NN A B) as [H|(N & l & r & (a & b & H1 & H2 & H3) & H)].
  - left. exact H.
  - right. split; [exact N|]. exists a, l, r, b. auto.
Qed.
(** C32: when no two records share a tick, an exact hit returns that record. *)
Theorem C32_exact : forall s x first rest r, recs s = first :: rest -> ordered by_tick (recs s) ->
  Forall (fun r => is_nan (tick r) = false) (recs s) ->
  (forall r1 r2, In r1 (recs s) -> In r2 (recs s) -> same_tick (tick r1) (tick r2) -> r1 = r2) ->
  In r (recs s) -> same_tick (tick r) x -> is_nan x = false -> evaluate V normalize slerp search s x = Ok (normalize (quat r)).
Proof.
  intros s x f rest r E O NN D I T Nx.
  assert (B : fle (tick f) x = true /\ fle x (tick (last (recs s) f)) = true).
  { rewrite Forall_forall in NN. destruct T as (T1 & T2). assert (H : forall a, In a (recs s) -> tleb (tick f) (tick a) = true).
    { intros a Ia. rewrite E in Ia, O. destruct Ia as [<-|Ia]; [apply tleb_refl|]. inversion O as [|? ? _ F]; subst. rewrite Forall_forall in F. exact (F a Ia). }
    assert (Ne : recs s <> []) by (rewrite E; discriminate).
    assert (H' : forall a, In a (recs s) -> tleb (tick a) (tick (last (recs s) f)) = true).
    { intros a Ia. destruct (exists_last Ne) as (p & z & Ep). rewrite Ep in *. rewrite last_last. apply in_app_or in Ia as [Ia|[<-|[]]]; [|apply tleb_refl].
      clear - O Ia. induction p as [|y p IH]; [destruct Ia|]. cbn in O. inversion O as [|? ? O' F]; subst. destruct Ia as [<-|Ia]; [|exact (IH O' Ia)].
      rewrite Forall_forall in F. apply F. apply in_or_app. right. now left. }
    unfold fle. rewrite Nx, !andb_true_iff, !negb_true_iff.
    repeat split; try (apply NN; [rewrite E; now left]); try (apply NN; now apply last_in).
    - exact (tleb_trans _ _ _ (H r I) T1).
    - exact (tleb_trans _ _ _ T2 (H' r I)). }
  destruct B as (B1 & B2). destruct (C32_inside s x f rest E O NN B1 B2) as [(r' & I' & T' & ->)|(N & _)]; [|destruct (N r I T)].
  rewrite (D r' r I' I); [reflexivity|]. destruct T, T'. split; eapply tleb_trans; eauto.
Qed.
(** C32: outside, and for NaN, it is refused. *)
Theorem C32_outside : forall s x first rest, recs s = first :: rest -> ordered by_tick (recs s) ->
  Forall (fun r => is_nan (tick r) = false) (recs s) ->
  fle (tick first) x = false \/ fle x (tick (last (recs s) first)) = false ->
  evaluate V normalize slerp search s x = Err (OutOfCoverage (start s) (stop s)).
Proof. exact (evaluate_outside normalize slerp search Hs). Qed.
(** C32: between finite ticks the blending fraction is the tick's position, strictly between 0 and 1. *)
Theorem C32_fraction : forall (l r : record V) x p q, tick l = Fin p -> tick r = Fin q -> flt (tick l) x = true -> flt x (tick r) = true ->
  exists y, x = Fin y /\ (p < y < q)%Q /\
  fdiv (fsub x (tick l)) (fsub (tick r) (tick l)) = Fin ((y + - p) / (q + - p)) /\ (0 < (y + - p) / (q + - p) < 1)%Q.
Proof. exact fraction. Qed.
(** C32: looking an attitude up never panics on sorted records. *)
Theorem C32_evaluate_no_panic : forall s x, ordered by_tick (recs s) -> evaluate V normalize slerp search s x <> Panic.
Proof. exact (evaluate_no_panic normalize slerp search Hs). Qed.
(** C32: the first segment of the instrument whose stated interval holds the tick answers. *)
Theorem C32_segment_choice : forall segs i x,
  match find (fun s => (inst s =? i)%Z && (fle (start s) x && fle x (stop s))) segs with
  | Some s => rotation V normalize slerp search segs i x = evaluate V normalize slerp search s x
  | None => if existsb (fun s => (inst s =? i)%Z) segs then exists a b, rotation V normalize slerp search segs i x = Err (OutOfCoverage a b)
            else rotation V normalize slerp search segs i x = Err NoSegment
  end.
Proof. exact (rotation_spec normalize slerp search). Qed.
(** C32: the interval reported when none does spans the interval of every segment of the instrument. *)
Theorem C32_reported_coverage : forall segs i x, Forall (fun s => is_nan (start s) = false /\ is_nan (stop s) = false) segs ->
  find (fun s => (inst s =? i)%Z && (fle (start s) x && fle x (stop s))) segs = None -> forall a b,
  rotation V normalize slerp search segs i x = Err (OutOfCoverage a b) ->
  Forall (fun s => inst s = i -> tleb a (start s) = true /\ tleb (stop s) b = true) segs.
Proof. exact (rotation_cover normalize slerp search). Qed.

(** C32: an accepted segment holds the records of the file, all of them, in tick order. *)
Theorem C32_read : forall data i f a b sw ew s, 1 <= sw < ew -> ew * 8 <= size data -> size data < M64 ->
  read_segment V norm_words data i f a b sw ew = Ok s ->
  inst s = i /\ frame s = f /\ start s = a /\ stop s = b /\ ordered by_tick (recs s) /\
  exists n, (1 <= n)%nat /\ N.of_nat n = f64_as_usize (dword true data ((ew - 1) * 8)) /\ sw + 5 * N.of_nat n <= ew /\
  Permutation (recs s) (map (fun k => let w j := dword true data ((sw + 5 * N.of_nat k + j - 1) * 8) in
                                      Rec (f64_num (w 0)) (norm_words (w 1) (w 2) (w 3) (w 4))) (seq 0 n)).
Proof.
  intros data i f a b sw ew s H L LM R. destruct (read_segment_ok norm_words (fun v => v) (fun l _ _ => l) data i f a b sw ew s H L LM R) as (A & B & C & D & E & n & F & G & P & Q).
  do 5 (split; [assumption|]). exists n. do 3 (split; [assumption|]). apply Permutation_sym. etransitivity; [|exact Q].
  apply Permutation_refl'. unfold rec_list. apply map_ext. intros k. unfold rec_at, dw. now rewrite N.add_0_r.
Qed.
(** C32: reading a file gives one segment for each type-1 summary, in order; other types are skipped. *)
Theorem C32_load : forall data sums segs, load V norm_words data sums = Ok segs <->
  forallb (fun sm => (2 <=? length (fst sm))%nat && (6 <=? length (snd sm))%nat) sums = true /\
  Forall2 (fun sm s => let is := snd sm in
      read_segment V norm_words data (nth 0 is 0)%Z (nth 1 is 0)%Z (f64_num (nth 0 (fst sm) 0)) (f64_num (nth 1 (fst sm) 0))
        (usize_of_i32 (nth (length is - 2) is 0)%Z) (usize_of_i32 (nth (length is - 1) is 0)%Z) = Ok s)
    (filter (fun sm => (nth 2 (snd sm) 0 =? 1)%Z) sums) segs.
Proof. exact (load_spec norm_words). Qed.
(** C32: reading does panic, exactly when the summary's last word is past the end of the file or its first word is 0. *)
Theorem C32_read_no_panic_refuted : forall data i f a b sw ew, size data < M64 ->
  (read_segment V norm_words data i f a b sw ew = Panic <->
   sw < ew /\ (size data < ew * 8 \/ sw = 0 /\ let w := dword true data ((ew - 1) * 8) in
     f64_finite w = true /\ f64_lt1 w = false /\ 5 * f64_as_usize w <= ew)).
Proof. exact (read_segment_panic norm_words (fun v => v) (fun l _ _ => l)). Qed.
End Any.

(** A file with one segment of two records, out of order: ticks 20 and 10. *)
Definition dbl (hi lo : N) : list N := [0;0;0;0;0;0;lo;hi].
Definition ck_head : list N := lit "DAF/CK  " ++ [2;0;0;0] ++ [6;0;0;0] ++ repeat 32 60 ++ [2;0;0;0] ++ repeat 0 944.
Definition ck_sum (last_word : list N) : list N :=
  repeat 0 8 ++ repeat 0 8 ++ dbl 63 240 ++ dbl 64 36 ++ dbl 64 52 ++ [176;191;254;255] ++ [1;0;0;0] ++ [1;0;0;0] ++ [0;0;0;0]
  ++ [1;1;0;0] ++ last_word ++ repeat 0 960.
Definition ck_file (last_word : list N) : list N := ck_head ++ ck_sum last_word
  ++ dbl 64 52 ++ dbl 63 240 ++ dbl 0 0 ++ dbl 0 0 ++ dbl 0 0
  ++ dbl 64 36 ++ dbl 0 0 ++ dbl 63 240 ++ dbl 0 0 ++ dbl 0 0 ++ dbl 64 0.
Definition words (a b c d : N) : list N := [a; b; c; d].
Definition one : N := 4607182418800017408.
Example C32_case : from_bytes (list N) words 3 (ck_file [11;1;0;0]) =
    Some (Ok [Seg (-82000)%Z 1%Z (Fin 10) (Fin 20) [Rec (Fin 10) [0; one; 0; 0]; Rec (Fin 20) [one; 0; 0; 0]]]) /\
  let s := Seg (-82000)%Z 1%Z (Fin 10) (Fin 20) [Rec (Fin 10) [0; one; 0; 0]; Rec (Fin 20) [one; 0; 0; 0]] in
  ordered by_tick (recs s) /\
  rotation (list N) (fun v => v) (fun l r t => match t with Fin q => [Z.to_N (Qnum (Qred (q * 1000)))] | _ => [] end) scan_search [s] (-82000) (Fin 12) = Ok [200] /\
  rotation (list N) (fun v => v) (fun l r t => []) scan_search [s] (-82000) (Fin 20) = Ok [one; 0; 0; 0] /\
  rotation (list N) (fun v => v) (fun l r t => []) scan_search [s] (-82000) (Fin 21) = Err (OutOfCoverage (Fin 10) (Fin 20)).
Proof. split; [vm_compute; reflexivity|]. cbv zeta. split; [repeat constructor|]. repeat split; vm_compute; reflexivity. Qed.
(** The search contract can be met. *)
Example C32_search : search_ok scan_search.
Proof. exact scan_search_ok. Qed.
(** C32: a file whose summary names a word past its end crashes the reader. *)
Theorem C32_file_panic_refuted : length (ck_file [12;1;0;0]) = 2136%nat /\ from_bytes (list N) words 3 (ck_file [12;1;0;0]) = Some Panic.
Proof. split; vm_compute; reflexivity. Qed.
(** C32: a later segment that could answer is not consulted when the first one's stated interval is too wide. *)
Theorem C32_first_segment_refuted : forall (q : Z), exists s1 s2 : segment Z, exists x,
  ordered by_tick (recs s1) /\ ordered by_tick (recs s2) /\ inst s1 = inst s2 /\
  evaluate Z (fun v => v) (fun l _ _ => l) scan_search s2 x = Ok q /\
  rotation Z (fun v => v) (fun l _ _ => l) scan_search [s1; s2] (inst s1) x = Err (OutOfCoverage (Fin 0) (Fin 10)).
Proof.
  intros q. exists (Seg 1 0 (Fin 0) (Fin 10) [Rec (Fin 0) 5%Z; Rec (Fin 4) 5%Z])%Z, (Seg 1 0 (Fin 0) (Fin 10) [Rec (Fin 5) q; Rec (Fin 9) q])%Z, (Fin 5).
  split; [repeat constructor|]. split; [repeat constructor|]. repeat split; vm_compute; reflexivity.
Qed.

(** C32: the blend of two attitudes, over the reals. *)
Local Open Scope R_scope.
Theorem C32_slerp_unit : forall l r t, solid l -> solid r -> dot (Slerp_Model.slerp l r t) (Slerp_Model.slerp l r t) = 1.
Proof. exact slerp_unit. Qed.
Theorem C32_slerp_ends : forall l r, solid l -> solid r ->
  Slerp_Model.slerp l r 0 = Slerp_Model.normalize l /\
  (Slerp_Model.slerp l r 1 = Slerp_Model.normalize r \/ Slerp_Model.slerp l r 1 = neg (Slerp_Model.normalize r)).
Proof. intros l r A B. split; [now apply slerp_start|now apply slerp_end]. Qed.
(** constant rate, unless the two are within about 1.8 degrees *)
Theorem C32_slerp_rate : forall l r t, solid l -> solid r ->
  Rabs (dot (Slerp_Model.normalize l) (Slerp_Model.normalize r)) <= 9995 / 10000 ->
  let theta := acos (Rabs (dot (Slerp_Model.normalize l) (Slerp_Model.normalize r))) in
  dot (Slerp_Model.normalize l) (Slerp_Model.slerp l r t) = cos (t * theta) /\
  Rabs (dot (Slerp_Model.normalize r) (Slerp_Model.slerp l r t)) = Rabs (cos ((1 - t) * theta)).
Proof. exact slerp_angle. Qed.
(** never further from either end than they are from each other *)
Theorem C32_slerp_between : forall l r t, solid l -> solid r -> 0 <= t <= 1 ->
  let d := Rabs (dot (Slerp_Model.normalize l) (Slerp_Model.normalize r)) in
  d <= dot (Slerp_Model.normalize l) (Slerp_Model.slerp l r t) /\ d <= Rabs (dot (Slerp_Model.normalize r) (Slerp_Model.slerp l r t)).
Proof. exact slerp_between. Qed.
(** the sign with which an attitude is stored does not change the attitude returned, unless they are exactly a half turn apart *)
Theorem C32_slerp_sign : forall l r t, dot (Slerp_Model.normalize l) (Slerp_Model.normalize r) <> 0 ->
  Slerp_Model.slerp l (neg r) t = Slerp_Model.slerp l r t /\ Slerp_Model.slerp (neg l) r t = neg (Slerp_Model.slerp l r t).
Proof. intros l r t H. split; [now apply slerp_sign_r|now apply slerp_sign_l]. Qed.
Theorem C32_slerp_reverse : forall l r t, solid l -> solid r ->
  Slerp_Model.slerp r l (1 - t) = Slerp_Model.slerp l r t \/ Slerp_Model.slerp r l (1 - t) = neg (Slerp_Model.slerp l r t).
Proof. exact slerp_rev. Qed.
Definition qa : quat4 := Q4 2 0 0 0.
Definition qb : quat4 := Q4 (-1) (-1) 0 0.
Example C32_slerp_case : solid qa /\ solid qb /\ dot qa qb < 0.
Proof.
  pose proof eps_pos. pose proof eps_lt1. unfold solid, dot, qa, qb; cbn. repeat split; nra.
Qed.

(** C32: together: inside the records, with finite ticks and usable quaternions, the answer is a unit quaternion lying
    between two neighbouring records. *)
Definition q_slerp (l r : quat4) (t : fnum) : quat4 := match t with Fin q => Slerp_Model.slerp l r (Q2R q) | _ => l end.
Definition toward (a b : quat4) : R := Rabs (dot (Slerp_Model.normalize a) (Slerp_Model.normalize b)).
Theorem C32_attitude : forall search s x first rest, search_ok search -> recs s = first :: rest -> ordered by_tick (recs s) ->
  Forall (fun r => (exists q, tick r = Fin q) /\ solid (quat r)) (recs s) ->
  fle (tick first) x = true -> fle x (tick (last (recs s) first)) = true ->
  exists v, evaluate quat4 Slerp_Model.normalize q_slerp search s x = Ok v /\ dot v v = 1 /\
  exists l r, In l (recs s) /\ In r (recs s) /\ fle (tick l) x = true /\ fle x (tick r) = true /\
    toward (quat l) (quat r) <= Rabs (dot (Slerp_Model.normalize (quat l)) v) /\
    toward (quat l) (quat r) <= Rabs (dot (Slerp_Model.normalize (quat r)) v).
Proof.
  intros search s x f rest Hs E O F A B. rewrite Forall_forall in F.
  assert (NN : Forall (fun r => is_nan (tick r) = false) (recs s)).
  { apply Forall_forall. intros r I. destruct (F r I) as ((q & ->) & _). reflexivity. }
  assert (Nx : is_nan x = false) by (unfold fle in A; destruct x; [reflexivity|reflexivity|rewrite andb_false_r in A; discriminate]).
  destruct (C32_inside Slerp_Model.normalize q_slerp search Hs s x f rest E O NN A B) as [(r & I & (T1 & T2) & ->)|(_ & a & l & r & b & Er & L & R & ->)].
  - destruct (F r I) as ((q & Eq) & S). exists (Slerp_Model.normalize (quat r)). split; [reflexivity|]. split; [now apply normalize_unit|].
    exists r, r. unfold fle. rewrite T1, T2, Nx, Eq. do 4 (split; [assumption || reflexivity|]). split; apply Rle_refl.
  - assert (Il : In l (recs s)) by (rewrite Er; apply in_or_app; right; now left).
    assert (Ir : In r (recs s)) by (rewrite Er; apply in_or_app; right; right; now left).
    destruct (F l Il) as ((p & Ep) & Sl). destruct (F r Ir) as ((q & Eq) & Sr).
    assert (Fl : fle (tick l) x = true /\ fle x (tick r) = true).
    { unfold flt in L, R. rewrite !andb_true_iff, !negb_true_iff in L, R. destruct L as (L0 & L), R as (R0 & R). unfold fle. rewrite Nx in *.
      destruct L0 as (-> & _), R0 as (_ & ->). destruct (tleb_total (tick l) x) as [->|X]; [|congruence]. destruct (tleb_total x (tick r)) as [->|X]; [|congruence]. auto. }
    destruct (fraction l r x p q Ep Eq L R) as (y & -> & Y & Fr & Fb). rewrite Fr. replace (fsub (tick r) (tick l)) with (Fin (q + - p)) by (now rewrite Ep, Eq).
    destruct (tiny (Fin (q + - p))).
    + exists (Slerp_Model.normalize (quat l)). split; [reflexivity|]. split; [now apply normalize_unit|]. exists l, r. do 4 (split; [tauto|]).
      unfold toward. pose proof (normalize_unit _ Sl) as U. pose proof (unit_dot _ _ U (normalize_unit _ Sr)) as D. unfold unit in U. rewrite U.
      split; [rewrite (Rabs_pos_eq 1) by lra; apply Rabs_le; lra|]. rewrite dot_comm. apply Rle_refl.
    + cbn [q_slerp]. set (t := Q2R _). assert (T : 0 <= t <= 1).
      { destruct Fb as (G1 & G2). apply Qlt_Rlt in G1, G2. rewrite RMicromega.Q2R_0 in G1. rewrite RMicromega.Q2R_1 in G2. fold t in G1, G2. lra. }
      exists (Slerp_Model.slerp (quat l) (quat r) t). split; [reflexivity|]. split; [now apply slerp_unit|]. exists l, r. do 4 (split; [tauto|]).
      destruct (slerp_between (quat l) (quat r) t Sl Sr T) as (S1 & S2). unfold toward. split; [|exact S2]. eapply Rle_trans; [exact S1|apply Rle_abs].
Qed.
Example C32_attitude_case : let s := Seg 1 0 (Fin 0) (Fin 10) [Rec (Fin 0) qa; Rec (Fin 8) qb] in ordered by_tick (recs s) /\
  Forall (fun r => (exists q, tick r = Fin q) /\ solid (quat r)) (recs s).
Proof. cbv zeta. split; [repeat constructor|]. destruct C32_slerp_case as (A & B & _). repeat constructor; cbn; eauto. Qed.
Print Assumptions C32_value.
Print Assumptions C32_inside.
Print Assumptions C32_exact.
Print Assumptions C32_outside.
Print Assumptions C32_fraction.
Print Assumptions C32_evaluate_no_panic.
Print Assumptions C32_segment_choice.
Print Assumptions C32_reported_coverage.
Print Assumptions C32_read.
Print Assumptions C32_load.
Print Assumptions C32_read_no_panic_refuted.
Print Assumptions C32_file_panic_refuted.
Print Assumptions C32_first_segment_refuted.
Print Assumptions C32_slerp_unit.
Print Assumptions C32_slerp_ends.
Print Assumptions C32_slerp_rate.
Print Assumptions C32_slerp_between.
Print Assumptions C32_slerp_sign.
Print Assumptions C32_slerp_reverse.
Print Assumptions C32_attitude.
