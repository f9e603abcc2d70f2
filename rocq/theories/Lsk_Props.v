(** C23: leap-second kernels. *)
From Coq Require Import Ascii String List NArith ZArith QArith Bool Lia Lqa.
From Verif Require Import Base Text DecFloat Sort Fnum Omm_Model Tk_Model Tk_Spec Tk_Proofs Lsk_Model Lsk_Spec Lsk_Proofs.
Import ListNotations.
Local Open Scope string_scope.
Local Open Scope Z_scope.
Local Open Scope list_scope.

(** A kernel listing offsets and epochs answers with the offset of the latest listed epoch at or
    before the query, in whatever order the epochs are listed, and with zero before all of them. *)
Theorem C23_step d v ta l ps : get d (lit "DELTET/DELTA_T_A") = Some v -> scalar_as_f64 v = Ok ta ->
  get d (lit "DELTET/DELTA_AT") = Some (TArr (flat_map (fun '(a, b) => [a; b]) l)) ->
  Forall2 (fun '(a, b) '(e, o) => scalar_as_f64 a = Ok o /\ epoch_as_j2000_seconds b = Ok e) l ps ->
  exists k, from_table d = Ok k /\ delta_t_a k = ta /\
    (forall t e o, governs ps t e o -> tai_minus_utc_at k t = o) /\
    (forall t, (forall e o, In (e, o) ps -> fle e t = false) -> tai_minus_utc_at k t = Fin 0).
Proof.
  intros H1 H2 H3 H4. exists (Lsk ta (isort pleb ps)). split; [now apply (from_table_spec d v ta l ps)|]. split; [reflexivity|]. split.
  - intros t e o G. unfold tai_minus_utc_at. cbn [leap_table]. now apply (lookup_governs ps t e o).
  - intros t G. unfold tai_minus_utc_at. cbn [leap_table]. now apply lookup_none.
Qed.
(** Every query is one of the two cases. *)
Theorem C23_cases ps t : (exists e o, governs ps t e o) \/ (forall e o, In (e, o) ps -> fle e t = false).
Proof.
  destruct (existsb (fun p => fle (fst p) t) ps) eqn:X.
  - left. apply existsb_exists in X as ([e o] & I & L). apply governs_exists. now exists e, o.
  - right. intros e o I. destruct (fle e t) eqn:L; [|reflexivity]. exfalso.
    assert (Y : existsb (fun p => fle (fst p) t) ps = true) by (apply existsb_exists; now exists (e, o)). congruence.
Qed.
(** Later queries never get smaller offsets, if offsets grow with epochs and are not negative. *)
Theorem C23_monotone ta ps t u : (forall e o, In (e, o) ps -> fle (Fin 0) o = true) ->
  (forall e o e' o', In (e, o) ps -> In (e', o') ps -> tleb e e' = true -> fle o o' = true) -> fle t u = true ->
  let k := Lsk ta (isort pleb ps) in fle (tai_minus_utc_at k t) (tai_minus_utc_at k u) = true.
Proof.
  intros Hz Hm Htu k. unfold tai_minus_utc_at, k. cbn [leap_table].
  destruct (C23_cases ps t) as [(e & o & G)|N].
  - rewrite (lookup_governs ps t e o _ G). destruct (C23_cases ps u) as [(e' & o' & G')|N'].
    + rewrite (lookup_governs ps u e' o' _ G').
      destruct G as (a & b & E & L & _). destruct G' as (a' & b' & E' & L' & Ha & Hb).
      assert (I : In (e, o) ps) by (rewrite E; apply in_app_iff; right; now left).
      assert (I' : In (e', o') ps) by (rewrite E'; apply in_app_iff; right; now left).
      apply (Hm e o e' o' I I'). pose proof (fle_mono _ _ _ L Htu) as L2.
      rewrite E' in I. apply in_app_iff in I as [I|[I|I]].
      * now apply (Ha _ _ I).
      * injection I as <- <-. apply tleb_refl.
      * specialize (Hb _ _ I L2). destruct (tleb_total e e'); [assumption|congruence].
    + exfalso. destruct G as (a & b & -> & L & _). specialize (N' e o). rewrite (fle_mono _ _ _ L Htu) in N'.
      assert (true = false) by (apply N', in_app_iff; right; now left). discriminate.
  - rewrite (lookup_none ps t _ N). destruct (C23_cases ps u) as [(e' & o' & G')|N'].
    + rewrite (lookup_governs ps u e' o' _ G'). destruct G' as (a' & b' & -> & _). apply (Hz e' o'). apply in_app_iff; right; now left.
    + rewrite (lookup_none ps u _ N'). reflexivity.
Qed.
(** The day formula counts Gregorian days from 1 March 1900 to 28 February 2100. *)
Theorem C23_calendar y m d : in_range y m -> date_ok y m d ->
  exists jd, gregorian_to_jd y m d = Ok jd /\ (jd == inject_Z (day_number y m d - day_number 2000 1 1) + (4903089 # 2))%Q.
Proof. exact (jd_calendar y m d). Qed.
(** The text [@YEAR-MON-DAY] is the start of that day. *)
Theorem C23_date yt mt dt y m d p q : forallb is_ws p = true -> forallb is_ws q = true ->
  forallb is_digit yt = true -> yt <> [] -> Z.of_N (dval yt) = y -> forallb is_digit dt = true -> dt <> [] -> Z.of_N (dval dt) = d ->
  nth_error (map lit ["JAN"; "FEB"; "MAR"; "APR"; "MAY"; "JUN"; "JUL"; "AUG"; "SEP"; "OCT"; "NOV"; "DEC"]) (Z.to_nat (m - 1)) = Some (map upper mt) -> in_range y m -> date_ok y m d ->
  exists x, parse_epoch_text (p ++ [64%N] ++ yt ++ [45%N] ++ mt ++ [45%N] ++ dt ++ q) = Ok (Fin x) /\ (x == seconds_j2000 y m d)%Q.
Proof. exact (date_text yt mt dt y m d p q). Qed.

Definition sample_kernel : str := concat (map (fun l => lit l ++ [10%N])
  ["\begindata"; "DELTET/DELTA_T_A = 32.184"; "DELTET/DELTA_AT = ( 37, @2017-JAN-1"; "  36, @2015-JUL-1 )"]).
Example C23_case : exists k, from_text sample_kernel = Some (Ok k) /\
  tai_minus_utc_at k (Fin (inject_Z 536500799)) = Fin (inject_Z 36) /\ tai_minus_utc_at k (Fin (inject_Z 536500800)) = Fin (inject_Z 37) /\
  tai_minus_utc_at k (Fin 0) = Fin 0 /\ in_range 2017 1 /\ date_ok 2017 1 1.
Proof. eexists. split; [vm_compute; reflexivity|]. repeat split; try (vm_compute; reflexivity); try (vm_compute; discriminate). left. lia. Qed.

(** After February 2100 the formula is a day off. *)
Theorem C23_century_refuted : exists y m d jd, date_ok y m d /\ gregorian_to_jd y m d = Ok jd /\
  ~ (jd == inject_Z (day_number y m d - day_number 2000 1 1) + (4903089 # 2))%Q.
Proof.
  exists 2100, 3, 1. eexists. split; [repeat split; vm_compute; discriminate|]. split; [vm_compute; reflexivity|].
  unfold day_number. rewrite !years_before. vm_compute. discriminate.
Qed.
(** Days that do not exist are accepted: 31 February is read as 2 or 3 March. *)
Theorem C23_bad_day_refuted : ~ date_ok 2015 2 31 /\
  parse_epoch_text (lit "@2015-FEB-31") = parse_epoch_text (lit "@2015-MAR-3").
Proof. split; [|vm_compute; reflexivity]. intros (_ & _ & H). apply H. vm_compute. reflexivity. Qed.
(** A large year overflows (a panic in a checked build). *)
Theorem C23_overflow_refuted : parse_epoch_text (lit "@9999999-JAN-1") = Panic.
Proof. vm_compute. reflexivity. Qed.
(** The table is listed in UTC but looked up with TDB: shortly before a leap second takes effect
    the new offset is already returned. The TDB time below is 2016-12-31T23:59:00 UTC. *)
Theorem C23_scale_refuted : exists k t, from_text sample_kernel = Some (Ok k) /\ 
  (t == (536500800 - 60) + 36 + (32184 # 1000))%Q /\ tai_minus_utc_at k (Fin t) = Fin (inject_Z 37).
Proof. eexists. exists ((536500740 * 1000 + 68184) # 1000). split; [vm_compute; reflexivity|]. split; vm_compute; reflexivity. Qed.

Print Assumptions C23_step.
Print Assumptions C23_monotone.
Print Assumptions C23_calendar.
Print Assumptions C23_date.
