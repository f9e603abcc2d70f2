From Coq Require Import Ascii String List NArith ZArith QArith Bool Lia Lqa Sorted.
From Coq Require Import ZifyBool ZifyNat ZifyN.
From Verif Require Import Base Text DecFloat Sort Fnum Omm_Model Tk_Model Tk_Proofs Lsk_Model Lsk_Spec.
Import ListNotations.
Local Open Scope string_scope.
Local Open Scope Z_scope.
Local Open Scope list_scope.
Local Open Scope outcome_scope.

(** ** Lookup *)
Definition pleb (x y : fnum * fnum) := tleb (fst x) (fst y).
Lemma pleb_total : total pleb. Proof. intros x y. apply tleb_total. Qed.
Lemma pleb_trans : transitive pleb. Proof. intros x y z. apply tleb_trans. Qed.

Lemma lookup_filter l t best : ordered pleb l ->
  lookup l t best = snd (last (filter (fun p => fle (fst p) t) l) (best, best)).
Proof.
  intros H. revert best. induction H as [|[e o] l H IH Hx]; intros best; [reflexivity|]. cbn [lookup filter fst].
  destruct (fle e t) eqn:E.
  - rewrite IH. destruct (filter _ l) as [|p r] eqn:F; [reflexivity|]. cbn [last]. clear. revert p. induction r as [|q r IH]; intros p; [reflexivity|apply IH].
  - assert (F : filter (fun p => fle (fst p) t) l = []).
    { destruct (filter _ l) as [|p r] eqn:F; [reflexivity|]. assert (P : In p l /\ fle (fst p) t = true) by (apply (filter_In (fun p => fle (fst p) t)); rewrite F; now left).
      destruct P as [P1 P2]. rewrite Forall_forall in Hx. specialize (Hx p P1). unfold pleb in Hx. cbn in Hx. rewrite (fle_trans_l _ _ _ Hx P2) in E. discriminate. }
    now rewrite F.
Qed.
Lemma lookup_sorted l t best : lookup (isort pleb l) t best = snd (last (isort pleb (filter (fun p => fle (fst p) t) l)) (best, best)).
Proof. rewrite lookup_filter by (apply isort_ordered; [apply pleb_total|apply pleb_trans]). now rewrite isort_filter by (apply pleb_total || apply pleb_trans). Qed.
Theorem lookup_governs l t e off best : governs l t e off -> lookup (isort pleb l) t best = off.
Proof.
  intros (a & b & -> & He & Ha & Hb). rewrite lookup_sorted, filter_app. cbn [filter fst]. rewrite He.
  destruct (isort_last pleb (filter (fun p => fle (fst p) t) a) (e, off) (filter (fun p => fle (fst p) t) b)) as (s & ->).
  - apply Forall_forall. intros [e' o'] X. apply filter_In in X as [X1 X2]. exact (Ha _ _ X1 X2).
  - apply Forall_forall. intros [e' o'] X. apply filter_In in X as [X1 X2]. exact (Hb _ _ X1 X2).
  - now rewrite last_last.
Qed.
Theorem lookup_none l t best : (forall e o, In (e, o) l -> fle e t = false) -> lookup (isort pleb l) t best = best.
Proof.
  intros H. rewrite lookup_sorted. replace (filter _ l) with (@nil (fnum * fnum)); [reflexivity|].
  destruct (filter (fun p => fle (fst p) t) l) as [|[e o] r] eqn:F; [reflexivity|].
  assert (P : In (e, o) l /\ fle (fst (e, o)) t = true) by (apply (filter_In (fun p => fle (fst p) t)); rewrite F; now left).
  destruct P as [P1 P2]. cbn [fst] in P2. rewrite (H _ _ P1) in P2. discriminate.
Qed.
Theorem governs_exists l t : (exists e o, In (e, o) l /\ fle e t = true) -> exists e o, governs l t e o.
Proof.
  induction l as [|[e o] l IH]; intros (e0 & o0 & I & L); [contradiction|].
  destruct (existsb (fun p => fle (fst p) t) l) eqn:X.
  - apply existsb_exists in X as ([e1 o1] & I1 & L1). destruct IH as (e2 & o2 & a & b & -> & L2 & Ha & Hb); [now exists e1, o1|].
    destruct (fle e t) eqn:Le; [destruct (tleb e e2) eqn:C|].
    + exists e2, o2, ((e, o) :: a), b. repeat split; auto. intros e' o' [E|E] F; [injection E as <- <-; exact C|eauto].
    + exists e, o, [], (a ++ (e2, o2) :: b). split; [reflexivity|]. split; [assumption|]. split; [intros ? ? []|].
      intros e' o' I' F'. destruct (tleb e e') eqn:C'; [|reflexivity]. exfalso. apply in_app_iff in I' as [I'|[I'|I']].
      * rewrite (tleb_trans _ _ _ C' (Ha _ _ I' F')) in C. discriminate.
      * injection I' as <- <-. congruence.
      * specialize (Hb _ _ I' F'). destruct (tleb_total e2 e') as [W|W]; [congruence|]. rewrite (tleb_trans _ _ _ C' W) in C. discriminate.
    + exists e2, o2, ((e, o) :: a), b. repeat split; auto. intros e' o' [E|E] F; [injection E as <- <-; congruence|eauto].
  - assert (N : forall e' o', In (e', o') l -> fle e' t = false).
    { intros e' o' I'. destruct (fle e' t) eqn:F; [|reflexivity]. exfalso. assert (Y : existsb (fun p => fle (fst p) t) l = true) by (apply existsb_exists; now exists (e', o')). congruence. }
    destruct I as [I|I]; [injection I as -> ->|rewrite (N _ _ I) in L; discriminate].
    exists e0, o0, [], l. split; [reflexivity|]. split; [assumption|]. split; [intros ? ? []|]. intros e' o' I' F. rewrite (N _ _ I') in F. discriminate.
Qed.

(** ** Calendar *)
Lemma upto_S n : upto (S n) = upto n ++ [Z.of_nat n + 1].
Proof. unfold upto. rewrite seq_S, map_app. reflexivity. Qed.
Lemma sum_app a b : sum (a ++ b) = sum a + sum b.
Proof. induction a as [|x a IH]; cbn [sum app fold_right]; [reflexivity|]. fold (sum (a ++ b)). fold (sum a). lia. Qed.
Lemma year_length_eq y : year_length y = if leap_year y then 366 else 365.
Proof. unfold year_length. cbn. destruct (leap_year y); reflexivity. Qed.
Lemma years_before n : sum (map year_length (upto n)) = 365 * Z.of_nat n + Z.of_nat n / 4 - Z.of_nat n / 100 + Z.of_nat n / 400.
Proof.
  induction n as [|n IH]; [reflexivity|]. rewrite upto_S, map_app, sum_app, IH. cbn [map sum fold_right]. rewrite year_length_eq. unfold leap_year.
  set (z := Z.of_nat n). replace (Z.of_nat (S n)) with (z + 1) by (subst z; lia). clear IH. assert (0 <= z) by (subst z; lia). clearbody z.
  destruct (Z.eqb_spec ((z + 1) mod 4) 0), (Z.eqb_spec ((z + 1) mod 100) 0), (Z.eqb_spec ((z + 1) mod 400) 0); cbn [andb orb negb]; Z.div_mod_to_equations; lia.
Qed.
Lemma i32_ok z : -2147483648 <= z <= 2147483647 -> i32 z = Ok z.
Proof. intros H. unfold i32. replace (_ && _) with true by lia. reflexivity. Qed.
Lemma months_before y m : 1 <= m <= 12 ->
  sum (map (month_length y) (upto (Z.to_nat (m - 1)))) = (275 * m) / 9 - 30 - (if m <=? 2 then 0 else if leap_year y then 1 else 2).
Proof.
  intros H. assert (C : m = 1 \/ m = 2 \/ m = 3 \/ m = 4 \/ m = 5 \/ m = 6 \/ m = 7 \/ m = 8 \/ m = 9 \/ m = 10 \/ m = 11 \/ m = 12) by lia.
  clear H. destruct C as [->|[->|[->|[->|[->|[->|[->|[->|[->|[->|[->| ->]]]]]]]]]]]; unfold sum, upto, month_length; destruct (leap_year y); vm_compute; reflexivity.
Qed.
Theorem jd_calendar y m d : in_range y m -> date_ok y m d ->
  exists jd, gregorian_to_jd y m d = Ok jd /\ (jd == inject_Z (day_number y m d - day_number 2000 1 1) + (4903089 # 2))%Q.
Proof.
  intros R (Hm & Hd). assert (Y : 1900 <= y <= 2100) by (unfold in_range in R; lia).
  assert (L : month_length y m <= 31) by (unfold month_length; destruct (m =? 2), (leap_year y), ((m =? 4) || (m =? 6) || (m =? 9) || (m =? 11)); lia).
  set (s := y + Z.quot (m + 9) 12). assert (Hs : y <= s <= y + 1) by (subst s; Z.quot_rem_to_equations; lia).
  assert (Ht : 0 <= Z.quot (7 * s) 4 <= 10000) by (Z.quot_rem_to_equations; lia).
  assert (Hu : 0 <= Z.quot (275 * m) 9 <= 400) by (Z.quot_rem_to_equations; lia).
  unfold gregorian_to_jd. fold s. rewrite (i32_ok (367 * y)) by lia. cbn [obind]. rewrite (i32_ok s) by lia. cbn [obind]. rewrite (i32_ok (7 * s)) by lia. cbn [obind]. cbv zeta.
  rewrite (i32_ok (367 * y - _)) by lia. cbn [obind]. rewrite i32_ok by lia. cbn [obind]. rewrite i32_ok by lia. cbn [obind]. rewrite i32_ok by lia. cbn [obind].
  eexists. split; [reflexivity|]. 
  enough (G : 367 * y - Z.quot (7 * s) 4 + Z.quot (275 * m) 9 + d + 1721013 = day_number y m d - day_number 2000 1 1 + 2451544).
  { rewrite G, inject_Z_plus. change (inject_Z 2451544) with (2451544 # 1)%Q. lra. }
  replace (day_number 2000 1 1) with 730120 by (unfold day_number; rewrite years_before; reflexivity).
  unfold day_number. rewrite years_before. rewrite Z2Nat.id by lia. clear Ht Hu L Hs.
  rewrite months_before by lia.
  assert (Lp : 3 <= m -> y <> 1900 -> leap_year y = (y mod 4 =? 0)).
  { intros M N. unfold leap_year. unfold in_range in R. destruct (Z.eqb_spec (y mod 4) 0); cbn [andb orb].
    - destruct (Z.eqb_spec (y mod 100) 0); [|reflexivity]. cbn [negb orb]. assert (y = 2000 \/ y = 2100) by (Z.div_mod_to_equations; lia).
      destruct H as [->| ->]; [reflexivity|]. exfalso. lia.
    - apply Z.eqb_neq. intros E. apply n. Z.div_mod_to_equations; lia. }
  subst s. rewrite !Z.quot_div_nonneg by (try (rewrite Z.quot_div_nonneg by lia); Z.div_mod_to_equations; lia). 
  destruct (Z.eq_dec y 1900) as [->|N1900].
  - unfold in_range in R. replace (m <=? 2) with false by lia. replace ((m + 9) / 12) with 1 by (Z.div_mod_to_equations; lia). change (leap_year 1900) with false. cbv iota.
    Z.div_mod_to_equations; lia.
  - assert (Cent : (y - 1) / 100 - (y - 1) / 400 = 15).
    { clear - R Y N1900. destruct (Z_le_gt_dec y 2000); [replace ((y - 1) / 100) with 19 by (Z.div_mod_to_equations; lia)|replace ((y - 1) / 100) with 20 by (Z.div_mod_to_equations; lia)]; Z.div_mod_to_equations; lia. }
    set (c100 := (y - 1) / 100) in *. set (c400 := (y - 1) / 400) in *. clearbody c100 c400. set (t := 275 * m / 9). clearbody t.
    destruct (Z.leb_spec m 2).
    + replace ((m + 9) / 12) with 0 by (Z.div_mod_to_equations; lia). Z.div_mod_to_equations; lia.
    + replace ((m + 9) / 12) with 1 by (Z.div_mod_to_equations; lia). rewrite Lp by lia. destruct (Z.eqb_spec (y mod 4) 0); Z.div_mod_to_equations; lia.
Qed.

(** ** Dates in text *)
Lemma split_on_app c a s : ~ In c a -> split_on c (a ++ c :: s) = a :: split_on c s.
Proof.
  induction a as [|x a IH]; intros H; cbn [List.app split_on]; [now rewrite N.eqb_refl|].
  destruct (N.eqb_spec x c) as [->|N]; [exfalso; apply H; now left|]. rewrite IH; [reflexivity|]. intros I. apply H. now right.
Qed.
Lemma split_on_none c a : ~ In c a -> split_on c a = [a].
Proof.
  induction a as [|x a IH]; intros H; [reflexivity|]. cbn [split_on].
  destruct (N.eqb_spec x c) as [->|N]; [exfalso; apply H; now left|]. rewrite IH; [reflexivity|]. intros I. apply H. now right.
Qed.
Lemma digits_no_dash s : forallb is_digit s = true -> ~ In 45%N s.
Proof. intros H I. rewrite forallb_forall in H. specialize (H _ I). discriminate. Qed.
Lemma date_text yt mt dt y m d p q : forallb is_ws p = true -> forallb is_ws q = true ->
  forallb is_digit yt = true -> yt <> [] -> Z.of_N (dval yt) = y -> forallb is_digit dt = true -> dt <> [] -> Z.of_N (dval dt) = d ->
  nth_error months (Z.to_nat (m - 1)) = Some (map upper mt) -> in_range y m -> date_ok y m d ->
  exists x, parse_epoch_text (p ++ [64%N] ++ yt ++ [45%N] ++ mt ++ [45%N] ++ dt ++ q) = Ok (Fin x) /\ (x == seconds_j2000 y m d)%Q.
Proof.
  intros Hp Hq Hy Ny Ey Hd Nd Ed Hm R D.
  assert (Mt : In (map upper mt) months) by (eapply nth_error_In; eauto).
  assert (Dash : ~ In 45%N mt /\ trim mt = mt).
  { assert (U : forall c, is_ws (upper c) = is_ws c /\ (upper c = 45%N -> c = 45%N)).
    { intros c. unfold upper, is_ws. destruct ((97 <=? c) && (c <=? 122))%N eqn:E; split; auto; try lia. }
    assert (F : Forall (fun c => is_ws c = false /\ c <> 45%N) mt).
    { assert (G : Forall (fun c => is_ws c = false /\ c <> 45%N) (map upper mt)).
      { unfold months in Mt. cbn in Mt. repeat (destruct Mt as [<-|Mt]; [repeat constructor; discriminate|]). contradiction. }
      rewrite Forall_map in G. eapply Forall_impl; [|exact G]. intros c (W & K). destruct (U c) as (U1 & U2). split; [congruence|].
      intros ->. now apply K. }
    split; [intros I; rewrite Forall_forall in F; now destruct (F _ I)|].
    apply trim_solid. destruct mt as [|c0 mt0]; [left; reflexivity|]. right. split.
    - apply Forall_inv in F. apply F.
    - assert (L : In (last (c0 :: mt0) 0%N) (c0 :: mt0)).
      { clear. revert c0. induction mt0 as [|x r IH]; intros c0; [now left|]. right. exact (IH x). }
      rewrite Forall_forall in F. now apply F. }
  destruct Dash as (Dm & Tm).
  assert (T : trim (p ++ [64%N] ++ yt ++ [45%N] ++ mt ++ [45%N] ++ dt ++ q) = 64%N :: yt ++ 45%N :: mt ++ 45%N :: dt).
  { cbn [List.app]. replace (p ++ 64%N :: yt ++ 45%N :: mt ++ 45%N :: dt ++ q) with (p ++ (64%N :: yt ++ 45%N :: mt ++ 45%N :: dt) ++ q) by (cbn [List.app]; rewrite <- !app_assoc; cbn [List.app]; rewrite <- !app_assoc; reflexivity).
    apply trim_pad; [assumption|assumption|discriminate|]. right. split; [reflexivity|].
    replace (64%N :: yt ++ 45%N :: mt ++ 45%N :: dt) with ((64%N :: yt ++ 45%N :: mt ++ [45%N]) ++ dt) by (cbn [List.app]; rewrite <- !app_assoc; cbn [List.app]; rewrite <- !app_assoc; reflexivity).
    assert (La : last ((64%N :: yt ++ 45%N :: mt ++ [45%N]) ++ dt) 0%N = last dt 0%N).
    { clear - Nd. generalize (64%N :: yt ++ 45%N :: mt ++ [45%N]). intros l. induction l as [|x l IH]; [reflexivity|]. cbn [List.app]. rewrite <- IH. destruct (l ++ dt) eqn:E; [|reflexivity].
      apply app_eq_nil in E as [_ E]. contradiction. }
    rewrite La. apply digit_not_ws. now apply forallb_last. }
  assert (Big : (y <= 2100 /\ 1 <= d <= 31) /\ 1 <= m <= 12).
  { destruct D as (D1 & D2 & D3). unfold in_range in R. unfold month_length in D3. destruct (m =? 2), (leap_year y), ((m =? 4) || (m =? 6) || (m =? 9) || (m =? 11)); lia. }
  unfold parse_epoch_text. rewrite T. cbn [N.eqb Pos.eqb]. rewrite split_on_app by now apply digits_no_dash. rewrite split_on_app by assumption. rewrite split_on_none by now apply digits_no_dash.
  rewrite parse_int_digits by (auto; lia). replace (dval yt <=? 2147483647)%N with true by lia. unfold month_number. rewrite Tm.
  assert (Po : position (map upper mt) months 1 = Some m).
  { clear - Hm Big. assert (C : m = 1 \/ m = 2 \/ m = 3 \/ m = 4 \/ m = 5 \/ m = 6 \/ m = 7 \/ m = 8 \/ m = 9 \/ m = 10 \/ m = 11 \/ m = 12) by lia.
    destruct C as [->|[->|[->|[->|[->|[->|[->|[->|[->|[->|[->| ->]]]]]]]]]]]; cbn in Hm; injection Hm as <-; vm_compute; reflexivity. }
  rewrite Po. cbn [obind]. rewrite parse_int_digits by (auto; lia). replace (dval dt <=? 2147483647)%N with true by lia. rewrite Ey, Ed.
  destruct (jd_calendar y m d R D) as (jd & -> & E). cbn [obind]. eexists. split; [reflexivity|]. rewrite E. unfold seconds_j2000. lra.
Qed.

(** ** Whole table *)
Lemma read_pairs_spec l ps : Forall2 (fun '(a, b) '(e, o) => scalar_as_f64 a = Ok o /\ epoch_as_j2000_seconds b = Ok e) l ps ->
  read_pairs (flat_map (fun '(a, b) => [a; b]) l) = Ok ps.
Proof.
  induction 1 as [|[a b] [e o] l ps (Ha & Hb) _ IH]; [reflexivity|]. cbn [flat_map List.app read_pairs]. rewrite Ha. cbn [obind]. rewrite Hb. cbn [obind]. rewrite IH. reflexivity.
Qed.
Lemma flat_even (l : list (tv * tv)) : Nat.even (List.length (flat_map (fun '(a, b) => [a; b]) l)) = true.
Proof. induction l as [|[a b] l IH]; [reflexivity|]. cbn [flat_map List.app List.length Nat.even]. exact IH. Qed.
Theorem from_table_spec d v ta l ps : get d (lit "DELTET/DELTA_T_A") = Some v -> scalar_as_f64 v = Ok ta ->
  get d (lit "DELTET/DELTA_AT") = Some (TArr (flat_map (fun '(a, b) => [a; b]) l)) ->
  Forall2 (fun '(a, b) '(e, o) => scalar_as_f64 a = Ok o /\ epoch_as_j2000_seconds b = Ok e) l ps ->
  from_table d = Ok (Lsk ta (isort pleb ps)).
Proof. intros H1 H2 H3 H4. unfold from_table. rewrite H1, H2. cbn [obind]. rewrite H3, flat_even, (read_pairs_spec _ _ H4). reflexivity. Qed.
