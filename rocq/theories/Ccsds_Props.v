(** C63, C64: orbit parameter messages and tracking data messages. *)
From Coq Require Import Ascii String List NArith ZArith Bool QArith Qabs Lia.
From Verif Require Import Base Text DecFloat Omm_Model Omm_Proofs Pck_Model Ik_Proofs Ctx_Proofs Kvn_Proofs Sp3_Model Sp3_Write Oem_Model Oem_Proofs Oem_Write Opm_Model Opm_Proofs Tdm_Model Tdm_Proofs Tdm_Write.
Import ListNotations.
Local Open Scope N_scope.
Local Open Scope list_scope.

(** ** C63 *)
(** Exactly which texts are read, and as what: every field by the last line about it. *)
Theorem C63_reads text m : read_opm text = Ok m <-> opm_told (split_nl text) m.
Proof. exact (read_opm_spec text m). Qed.
Theorem C63_no_panic text : read_opm text <> Panic.
Proof. exact (read_opm_np text). Qed.
Theorem C63_roundtrip m : opm_good m -> exists m', read_opm (write_opm m) = Ok m' /\ like_opm m' m.
Proof. exact (opm_back m). Qed.
(** Elements are dropped without notice when the semi-major axis is not among them, and refused when anything else is missing. *)
Theorem C63_elements_need_axis text m : read_opm text = Ok m -> (forall s, ~ told_in (split_nl text) (lit "SEMI_MAJOR_AXIS") s) -> o_kepler m = None.
Proof.
  rewrite read_opm_spec. intros (_ & _ & _ & _ & _ & _ & _ & _ & _ & _ & _ & _ & K) N. destruct (o_kepler m) as [k|]; [|reflexivity]. destruct K as ((s & T & _) & _). destruct (N s T).
Qed.
Theorem C63_elements_complete text m k s : told_in (split_nl text) (lit "SEMI_MAJOR_AXIS") s -> In k ["ECCENTRICITY"%string; "INCLINATION"%string; "RA_OF_ASC_NODE"%string; "ARG_OF_PERICENTER"%string; "TRUE_ANOMALY"%string] ->
  (forall v, ~ told_in (split_nl text) (lit k) v) -> read_opm text <> Ok m.
Proof.
  rewrite read_opm_spec. intros T I N (_ & _ & _ & _ & _ & _ & _ & _ & _ & _ & _ & _ & K). destruct (o_kepler m) as [e|]; [|exact (K s T)].
  assert (M : forall v, ~ told_number (split_nl text) k v) by (intros v (w & W & _); exact (N w W)). destruct K as (_ & K1 & K2 & K3 & K4 & K5).
  destruct I as [<-|[<-|[<-|[<-|[<-|[]]]]]]; eapply M; eassumption.
Qed.
Definition opm_case : opm := Opm (Meta [] (lit "ISS = (ZARYA)") (lit "EME2000") (lit "UTC") (lit "EARTH")) (lit "2024-001T12:00:00") (Fin 7000) (Fin (-1 # 3)) (Fin 0) (Fin 0) (Fin (15 # 2)) (Inf true)
  (Some (Kepler (Fin 7000) (Fin (1 # 1000)) (Fin 51) (Fin 247) NaN (Fin 325))).
Example C63_case : opm_good opm_case /\ opm_good (Opm (o_meta opm_case) [] NaN NaN NaN NaN NaN NaN None) /\
  (exists m, read_opm (lit "EPOCH=a" ++ [10] ++ lit "EPOCH = b" ++ [13; 10] ++ lit "OBJECT_NAME=" ++ [10] ++ lit "X=1" ++ [10] ++ lit "Y=inf" ++ [10] ++ lit "Z=3" ++ [10] ++ lit "X_DOT=4" ++ [10] ++ lit "Y_DOT=5" ++ [10] ++ lit "Z_DOT=6" ++ [10] ++ lit "ECCENTRICITY = what") = Ok m
    /\ o_epoch m = lit "b" /\ o_kepler m = None /\ center_name (o_meta m) = lit "EARTH").
Proof.
  split; [|split].
  - split; [|split; [right; split; reflexivity|no_eq]]. unfold good_meta. repeat (constructor; [split; [first [left; reflexivity|right; split; reflexivity]|no_eq]|]). constructor.
  - split; [|split; [left; reflexivity|no_eq]]. unfold good_meta. repeat (constructor; [split; [first [left; reflexivity|right; split; reflexivity]|no_eq]|]). constructor.
  - eexists. split; [vm_compute; reflexivity|]. repeat split.
Qed.

(** ** C64 *)
(** A message made of metadata blocks, data blocks and other lines is read exactly as the lines inside the blocks say: participants in
    order, the other entries by the last line about them, observations in order; and it is refused when the text of an observation
    cannot be split at its last separator into an epoch and a number. *)
Theorem C64_reads ps m : Forall good_piece ps -> (tread (flat_map piece_lines ps) = Ok m <-> tdm_told ps m).
Proof. exact (tread_spec ps m). Qed.
Theorem C64_by_lines text : read_tdm text = tread (split_nl text). Proof. exact (read_tdm_lines text). Qed.
Theorem C64_no_panic text : read_tdm text <> Panic. Proof. exact (read_tdm_np text). Qed.
(** Splitting at the last separator. *)
Theorem C64_last_separator v a b : rsplit (lit " : ") v = Some (a, b) <-> splits_last (lit " : ") v a b.
Proof. apply rsplit_spec. discriminate. Qed.
(** Written messages read back, for every way of printing numbers as words that [same] relates to what they are read as. *)
Theorem C64_roundtrip show same m : (forall f, show f <> [] /\ inked (show f) = true) -> (forall f, exists g, parse_f64 (show f) = Some g /\ same g f) -> good_tdm m ->
  exists m', read_tdm (write_tdm show m) = Ok m' /\ metas m' = metas m /\ Forall2 (like_obs same) (observations m') (observations m).
Proof. intros W B. exact (tdm_back show same W B m). Qed.
(** One observation without an epoch makes the written message unreadable. *)
Theorem C64_no_epoch_refuted show m o : (forall f, show f <> [] /\ inked (show f) = true) -> Forall good_tmeta (metas m) -> Forall written_obs (observations m) ->
  In o (observations m) -> at_ o = [] -> exists e, read_tdm (write_tdm show m) = Err e.
Proof.
  intros W M O I E. pose proof (no_epoch_lost show W m o M O I E) as N. pose proof (read_tdm_np (write_tdm show m)) as P.
  destruct (read_tdm (write_tdm show m)) as [x|e|]; [destruct (N x eq_refl)|now exists e|now destruct P].
Qed.
(** Keywords are not kept: both Doppler keywords are written as the instantaneous one, and one's own keyword equal to a known one comes
    back as the known kind. *)
Theorem C64_keyword_kept_refuted : exists k, keyword (obs_of_keyword k) <> k.
Proof. exists (lit "DOPPLER_INTEGRATED"). discriminate. Qed.
Theorem C64_keyword_kept k : keyword (obs_of_keyword k) = k <-> k <> lit "DOPPLER_INTEGRATED".
Proof.
  split.
  - intros H ->. discriminate H.
  - intros N. pose proof (proj1 (names_of k _) eq_refl) as H. destruct H; try reflexivity. congruence.
Qed.
Theorem C64_type_kept t : obs_of_keyword (keyword t) = t <-> (forall k, t = Other k -> ~ In k [lit "RANGE"; lit "DOPPLER_INSTANTANEOUS"; lit "DOPPLER_INTEGRATED"; lit "ANGLE_1"; lit "ANGLE_2"]).
Proof.
  split.
  - intros H k ->. cbn [keyword] in H. apply names_of in H. now inversion H.
  - intros H. apply names_of. destruct t as [| | | |k]; constructor. now apply H.
Qed.
Definition tdm_case : tdm := Tdm [TMeta [lit "STATION A"; lit "PARTICIPANT_2 = B"] (lit "SEQUENTIAL") [] (lit "UTC"); TMeta [] [] [] []]
  [Obs Range (lit "2024-001T12:00:00 : 5") (Fin (1 # 3)); Obs (Other []) (lit "x") NaN; Obs (Other (lit "CLOCK")) (lit "y") (Inf false)].
Example C64_case : good_tdm tdm_case /\ (forall f, fmt_fixedF 6 f <> [] /\ inked (fmt_fixedF 6 f) = true) /\ (forall f, exists g, parse_f64 (fmt_fixedF 6 f) = Some g /\ near6 g f) /\
  (exists m, read_tdm (write_tdm (fmt_fixedF 6) tdm_case) = Ok m /\ metas m = metas tdm_case /\ map at_ (observations m) = map at_ (observations tdm_case)) /\
  read_tdm (write_tdm (fmt_fixedF 6) (Tdm [] [Obs Range [] (Fin 1)])) = Err NoSeparator.
Proof.
  split; [|split; [|split; [|split]]].
  - split.
    + repeat (constructor; [split; repeat (constructor; [split; [first [left; reflexivity|right; split; reflexivity]|no_eq]|]); constructor|]). constructor.
    + unfold tdm_case. cbn [observations]. constructor; [|constructor; [|constructor; [|constructor]]].
      * split; [exact I|]. split; [split; [right; split; reflexivity|no_eq]|discriminate].
      * split; [|split; [split; [right; split; reflexivity|no_eq]|discriminate]]. cbn [what good_type]. split; [now left|]. split; [intros []|]. split; [intros []|]. split; [reflexivity|]. split; [reflexivity|]. intros H. repeat destruct H as [H|H]; first [discriminate H|exact H].
      * split; [|split; [split; [right; split; reflexivity|no_eq]|discriminate]]. cbn [what good_type]. split; [right; split; reflexivity|]. split; [no_eq|]. split; [no_eq|]. split; [reflexivity|]. split; [reflexivity|]. intros H. repeat destruct H as [H|H]; first [discriminate H|exact H].
  - intros f. split; [apply fixed_nonempty|apply inked_fixed].
  - exact fixed6.
  - eexists. split; [vm_compute; reflexivity|]. split; reflexivity.
  - vm_compute. reflexivity.
Qed.

Print Assumptions C63_reads.
Print Assumptions C63_no_panic.
Print Assumptions C63_roundtrip.
Print Assumptions C63_elements_need_axis.
Print Assumptions C63_elements_complete.
Print Assumptions C64_reads.
Print Assumptions C64_by_lines.
Print Assumptions C64_no_panic.
Print Assumptions C64_last_separator.
Print Assumptions C64_roundtrip.
Print Assumptions C64_no_epoch_refuted.
Print Assumptions C64_keyword_kept_refuted.
Print Assumptions C64_keyword_kept.
Print Assumptions C64_type_kept.
