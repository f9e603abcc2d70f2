(** C41, C53: SP3 files *)
From Coq Require Import Ascii String List NArith ZArith Bool QArith Qabs Qround Lia Lqa.
From Verif Require Import Base Text DecFloat Omm_Proofs Sp3_Model Sp3_Proofs Sp3_Write.
Import ListNotations.
Local Open Scope N_scope.

(** Stand-ins for the external calendar in the examples: any date, any time. *)
Definition all_dates (_ : Z) (_ _ : N) := true.
Definition all_times (_ : civil) := true.
Definition nl : str := [10].
Definition sample : str := lit "#dP2024" ++ nl ++ lit "*  2024  1  1  0  0  0.00000000" ++ nl ++ lit "PG01  15000.000000  20000.000000  -5000.000000      0.000123" ++ nl ++
  lit "VG01 1 2 3 4" ++ nl ++ lit "*  2024  1  1  0 15  0.5" ++ nl ++ lit "EOF" ++ nl ++ lit "junk".
Definition broken : str := lit "#d" ++ nl ++ lit "*  2024  1  1  0  0  0" ++ nl ++ lit "*  2024  1  1  0 15  0" ++ nl ++ lit "PG01 1 2 x 4" ++ nl ++ lit "*  2024  1  1  0 30  0" ++ nl.

(** C41: taking epochs from the stream until the end gives what the batch reader gives. *)
Theorem C41_stream_is_batch : forall date_ok utc_ok text n, (length (lines text) < n)%nat ->
  match read_sp3 date_ok utc_ok text with
  | Ok r => header r = s_header (open_stream text) /\ drain date_ok utc_ok n (open_stream text) = Some (epochs r, Ok tt)
  | Err x => exists es, drain date_ok utc_ok n (open_stream text) = Some (es, Err x)
  | Panic => False
  end.
Proof. exact stream_agrees. Qed.
Example C41_case : (exists r, read_sp3 all_dates all_times sample = Ok r /\ header r = [lit "#dP2024"] /\ map (fun e => length (positions e)) (epochs r) = [1; 0]%nat) /\
  drain all_dates all_times 9 (open_stream broken) = Some ([Epoch (Civil 2024 1 1 0 0 0 0) []], Err (Record_err 4 (BadField 2))).
Proof. split; [eexists; split; [|split]|]; vm_compute; reflexivity. Qed.

(** C41: after the end, or after an error, the stream stays ended: the epochs behind an error are not delivered. *)
Theorem C41_ended : forall date_ok utc_ok s x s', next_epoch date_ok utc_ok s = (Err x, s') \/ next_epoch date_ok utc_ok s = (Ok None, s') ->
  exists s'', next_epoch date_ok utc_ok s' = (Ok None, s'') /\ next_epoch date_ok utc_ok s'' = (Ok None, s'').
Proof.
  intros d u s x s' [H|H].
  - destruct (after_error _ _ _ _ _ H) as (s'' & E). exists s''. split; [exact E|]. exact (after_end _ _ _ _ E).
  - pose proof (after_end _ _ _ _ H) as E. exists s'. auto.
Qed.
Example C41_ended_case : let s1 := snd (next_epoch all_dates all_times (open_stream broken)) in
  exists s2, next_epoch all_dates all_times s1 = (Err (Record_err 4 (BadField 2)), s2) /\ s_rest s2 = [lit "*  2024  1  1  0 30  0"].
Proof. cbv zeta. eexists. split; vm_compute; reflexivity. Qed.

(** C41: a file that is read is its header, then one block per epoch line, up to the end mark; the positions of an
    epoch are the P lines of its block in order, other lines are skipped. *)
Theorem C41_content : forall date_ok utc_ok text r, read_sp3 date_ok utc_ok text = Ok r ->
  exists gs, upto_eof (lines text) = header r ++ flat_map (fun g => fst g :: snd g) gs /\
    Forall (fun l => star l = false) (header r) /\ blocks date_ok utc_ok (N.of_nat (length (header r))) gs (epochs r).
Proof. exact read_content. Qed.
Example C41_content_case : exists r, read_sp3 all_dates all_times sample = Ok r /\ length (upto_eof (lines sample)) = 5%nat.
Proof. eexists. split; vm_compute; reflexivity. Qed.

(** C41: an error names a line of the file, and a position is never found before an epoch. *)
Theorem C41_error_line : forall date_ok utc_ok text n w, read_sp3 date_ok utc_ok text = Err (Record_err n w) ->
  1 <= n <= N.of_nat (length (lines text)) /\ w <> NoEpoch.
Proof.
  intros d u text n w H. destruct (read_err d u text _ H) as (A & B). split; [exact A|]. intros ->. exact (B n eq_refl).
Qed.
Example C41_error_line_case : read_sp3 all_dates all_times broken = Err (Record_err 4 (BadField 2)) /\ length (lines broken) = 5%nat.
Proof. split; vm_compute; reflexivity. Qed.
Print Assumptions C41_stream_is_batch.
Print Assumptions C41_ended.
Print Assumptions C41_content.
Print Assumptions C41_error_line.

(** C53: a written file is read back: the same header, the same epochs to the nearest 10 ns, the same satellites in the
    same order, numbers within half of the last printed digit. *)
Theorem C53_round_trip : forall date_ok utc_ok r, Forall good_line (header r) -> Forall (good_epoch date_ok utc_ok) (epochs r) ->
  exists r', read_sp3 date_ok utc_ok (write_sp3 r) = Ok r' /\ header r' = header r /\ Forall2 same_epoch (epochs r') (epochs r).
Proof. exact write_read. Qed.
Definition rec0 : sp3 := Sp3 [lit "#dP2024"; []; lit "/* note"] [Epoch (Civil 2024 2 29 23 59 59 999999990) [Position (lit "G1") (Fin (1 # 3)) (Fin (-25000)) (Inf true) NaN]; Epoch (Civil (-4713) 11 24 0 0 7 4) []].
Example C53_case : Forall good_line (header rec0) /\ Forall (good_epoch all_dates all_times) (epochs rec0).
Proof.
  split.
  - repeat constructor; try discriminate; vm_compute; intros I; repeat (destruct I as [I|I]; [discriminate|]); exact I.
  - repeat (apply Forall_cons || apply Forall_nil); (split; [|split; [vm_compute; reflexivity|split; [reflexivity|]]]).
    1,3: unfold good_civil, u32_max; cbn [time year month day hour minute second nano]; repeat split; (lia || reflexivity).
    + constructor; [|constructor]. split; [cbn; lia|]. split; [right; split; reflexivity|]. split; [|reflexivity].
      vm_compute. intros I; repeat (destruct I as [I|I]; [discriminate|]); exact I.
    + constructor.
Qed.
(** C53: the epoch is exact when it is a multiple of 10 ns, and else the nearest one. *)
Theorem C53_epoch_exact : forall c, nano c mod 10 = 0 -> nano c < 1000000000 -> rounded c = c.
Proof. exact rounded_exact. Qed.
Theorem C53_epoch_near : forall c, let c' := rounded c in nano c' mod 10 = 0 /\ nano c' < 1000000000 /\
  (Z.abs (Z.of_N (second c' * 1000000000 + nano c') - Z.of_N (second c * 1000000000 + nano c)) <= 5)%Z.
Proof. exact rounded_near. Qed.
Example C53_near_case : rounded (Civil 2024 1 1 0 0 7 999999996) = Civil 2024 1 1 0 0 8 0.
Proof. vm_compute. reflexivity. Qed.

(** C53: an epoch in the last 5 ns of a minute, or in a leap second, is printed with 60 seconds and the whole file is
    then refused. *)
Theorem C53_round_trip_refuted : forall date_ok utc_ok hd a e b, Forall good_line hd -> Forall (good_epoch date_ok utc_ok) a ->
  good_civil date_ok (time e) -> 60 <= ticks (time e) / 100000000 ->
  Forall (fun e => Forall (fun p => good_id (sat p)) (positions e)) (e :: b) ->
  exists n, read_sp3 date_ok utc_ok (write_sp3 (Sp3 hd (a ++ e :: b))) = Err (Record_err n BadDate).
Proof. exact write_unreadable. Qed.
Example C53_refuted_case : 60 <= ticks (Civil 2024 1 1 0 0 59 999999996) / 100000000 /\ 60 <= ticks (Civil 2016 12 31 23 59 59 1500000000) / 100000000 /\
  good_civil all_dates (Civil 2016 12 31 23 59 59 1500000000).
Proof. split; [vm_compute; discriminate|]. split; [vm_compute; discriminate|]. unfold good_civil, u32_max. cbn [year month day hour minute second nano]. repeat split; (lia || reflexivity). Qed.

(** C53: a negative or undefined number of seconds is read as zero seconds. *)
Theorem C53_bad_seconds_refuted : forall date_ok utc_ok y mo d h mi x n, match x with Fin q => (q < 0)%Q | Inf neg => neg = true | NaN => True end ->
  civil_to_time date_ok utc_ok y mo d h mi x n = civil_to_time date_ok utc_ok y mo d h mi (Fin 0) n.
Proof.
  intros dk uk y mo d h mi x n H. unfold civil_to_time.
  assert (A : trunc_u32 x = 0 /\ frac_nanos x = 0).
  { destruct x as [q|[]|]; try (split; reflexivity); [|discriminate].
    assert (F : (Qfloor q < 0)%Z) by (rewrite Zlt_Qlt; eapply Qle_lt_trans; [apply Qfloor_le|exact H]).
    assert (T : trunc_u32 (Fin q) = 0) by (unfold trunc_u32, sat_u32; destruct (Qfloor q); [lia|lia|reflexivity]).
    split; [exact T|]. unfold frac_nanos. rewrite T. unfold sat_u32, round_up.
    assert (G : (Qfloor ((q - inject_Z (Z.of_N 0)) * 1000000000 + (1 # 2)) <= 0)%Z).
    { assert (K : (Qfloor ((q - inject_Z (Z.of_N 0)) * 1000000000 + (1 # 2)) < 1)%Z).
      { rewrite Zlt_Qlt. eapply Qle_lt_trans; [apply Qfloor_le|]. change (inject_Z (Z.of_N 0)) with 0%Q. change (inject_Z 1) with 1%Q. lra. }
      lia. }
    destruct (Qfloor ((q - inject_Z (Z.of_N 0)) * 1000000000 + (1 # 2))); [reflexivity|lia|reflexivity]. }
  destruct A as (-> & ->). reflexivity.
Qed.
Example C53_bad_seconds_case : read_sp3 all_dates all_times (lit "*  2024  1  1  0  0 -17.5") = read_sp3 all_dates all_times (lit "* 2024 1 1 0 0 nan").
Proof. vm_compute. reflexivity. Qed.
Print Assumptions C53_round_trip.
Print Assumptions C53_epoch_exact.
Print Assumptions C53_epoch_near.
Print Assumptions C53_round_trip_refuted.
Print Assumptions C53_bad_seconds_refuted.
