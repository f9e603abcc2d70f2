(** C15, C51: orbit mean-elements messages. *)
From Coq Require Import Ascii String List NArith ZArith Lia Bool QArith Qabs.
From Verif Require Import Base Text DecFloat Tle_Model Tle_Spec Tle_Proofs Tle_Fields Tle_Roundtrip Tle_Props Omm_Model Omm_Proofs.
Import ListNotations.
Local Open Scope N_scope.

Section Props.
  Context {E : Type} (format_epoch : E -> res str) (parse_epoch : str -> res E).

  (** ** C15 *)
  Theorem C15_catalogue_number (o : omm E) s e' : format_epoch (o_epoch o) = Ok s -> parse_epoch s = Ok e' ->
    good_val (o_name o) -> good_val (o_id o) -> good_val s -> fits_ints o ->
    exists text, kvn_write format_epoch o = Ok text /\
      ((exists o', kvn_read parse_epoch text = Ok o' /\ o_norad o' = o_norad o) <-> o_norad o < 100000).
  Proof.
    intros Fe Pe Gn Gi Gs B. destruct (N.lt_ge_cases (o_norad o) 100000) as [H|H].
    - destruct (kvn_roundtrip _ _ o s e' Fe Pe Gn Gi Gs B H) as (text & o' & W & R & P).
      exists text. split; [exact W|]. split; [auto|]. intros _. exists o'. split; [exact R|]. tauto.
    - destruct (kvn_six_digits _ _ o s e' Fe Pe Gn Gi Gs H) as (text & W & R).
      exists text. split; [exact W|]. split; [|lia]. intros (o' & X & _). congruence.
  Qed.
  (** Every catalogue number the TLE format carries with a letter is written but refused on
      reading. *)
  Theorem C15_alpha5_refuted (o : omm E) s e' : format_epoch (o_epoch o) = Ok s -> parse_epoch s = Ok e' ->
    good_val (o_name o) -> good_val (o_id o) -> good_val s -> 100000 <= o_norad o < 340000 ->
    exists text, kvn_write format_epoch o = Ok text /\ kvn_read parse_epoch text = Err InvalidAlpha5.
  Proof. intros Fe Pe Gn Gi Gs H. exact (kvn_six_digits _ _ o s e' Fe Pe Gn Gi Gs (proj1 H)). Qed.

  (** ** C51 *)
  Theorem C51_kvn_roundtrip (o : omm E) s e' : format_epoch (o_epoch o) = Ok s -> parse_epoch s = Ok e' ->
    good_val (o_name o) -> good_val (o_id o) -> good_val s -> fits_ints o -> o_norad o < 100000 ->
    exists text o', kvn_write format_epoch o = Ok text /\ kvn_read parse_epoch text = Ok o' /\
      o_name o' = o_name o /\ o_id o' = o_id o /\ o_epoch o' = e' /\ o_class o' = o_class o /\
      o_norad o' = o_norad o /\ o_eph o' = o_eph o /\ o_esn o' = o_esn o /\ o_rev o' = o_rev o /\
      near (5 # 1000000000) (o_mm o') (o_mm o) /\ near (5 # 100000000) (o_ecc o') (o_ecc o) /\
      near (5 # 100000) (o_inc o') (o_inc o) /\ near (5 # 100000) (o_raan o') (o_raan o) /\
      near (5 # 100000) (o_argp o') (o_argp o) /\ near (5 # 100000) (o_ma o') (o_ma o) /\
      near_rel (5 # 1000000000) (o_bstar o') (o_bstar o) /\
      near_rel (5 # 1000000000) (o_ndot o') (o_ndot o) /\
      near_rel (5 # 1000000000) (o_nddot o') (o_nddot o).
  Proof. exact (kvn_roundtrip format_epoch parse_epoch o s e'). Qed.
End Props.

Theorem C51_from_to_tle t : forallb is_ascii (t_desig t) = true -> solid (t_desig t) -> t_name t <> None ->
  to_tle (from_tle t) = t.
Proof. exact (tle_omm_tle t). Qed.

(** A toy date codec: the epoch is its text. *)
Definition txt : omm str := {| o_name := lit "ISS (ZARYA)"; o_id := lit "1998-067A";
  o_epoch := lit "2008-09-20T12:25:40.104192"; o_mm := Fin (1572125391 # 100000000); o_ecc := Fin (6703 # 10000000);
  o_inc := Fin (516416 # 10000); o_raan := Fin (2474627 # 10000); o_argp := Fin (1305360 # 10000);
  o_ma := Fin (3250288 # 10000); o_eph := 0; o_class := Unclassified; o_norad := 25544; o_esn := 292;
  o_rev := 56353; o_bstar := Fin (-11606 # 1000000000); o_ndot := Fin (-2182 # 100000000); o_nddot := Fin 0 |}.
Lemma good_val_dec s : str_eqb (trim s) s && forallb (fun c => negb (c =? 10)) s = true -> good_val s.
Proof.
  intros H. apply andb_prop in H as [H1 H2]. split.
  - destruct (str_eqb_spec (trim s) s) as [E|]; [|discriminate]. rewrite <- E. apply trim_is_solid.
  - intros X. rewrite forallb_forall in H2. specialize (H2 10 X). discriminate.
Qed.
Example C15_case : let ok := fun s : str => Ok s : res str in
  ok (o_epoch txt) = Ok (o_epoch txt) /\ good_val (o_name txt) /\ good_val (o_id txt) /\
  good_val (o_epoch txt) /\ fits_ints txt /\ o_norad txt < 100000.
Proof.
  cbv zeta. split; [reflexivity|]. split; [apply good_val_dec; vm_compute; reflexivity|].
  split; [apply good_val_dec; vm_compute; reflexivity|]. split; [apply good_val_dec; vm_compute; reflexivity|].
  split; [vm_compute; repeat split; discriminate|reflexivity].
Qed.
Example C51_case : exists text o', kvn_write (fun s => Ok s) txt = Ok text /\ kvn_read (fun s => Ok s) text = Ok o' /\
  o_name o' = lit "ISS (ZARYA)" /\ o_rev o' = 56353.
Proof.
  do 2 eexists. split; [vm_compute; reflexivity|]. split; [vm_compute; reflexivity|]. split; vm_compute; reflexivity.
Qed.

(** The reader promises an error for a malformed number but reads a malformed drag term as 0. *)
Theorem C51_malformed_refuted : exists text o', kvn_read (fun s : str => Ok s) text = Ok o' /\
  kv_get (kv_parse text) (lit "BSTAR") = Some (lit "1.1606d-5") /\ parse_f64 (lit "1.1606d-5") = None /\
  o_bstar o' = Fin 0.
Proof.
  exists (concat (map kline [(lit "OBJECT_NAME", lit "X"); (lit "OBJECT_ID", lit "1998-067A"); (lit "EPOCH", lit "2008");
    (lit "NORAD_CAT_ID", lit "25544"); (lit "MEAN_MOTION", lit "15.5"); (lit "ECCENTRICITY", lit "0.1");
    (lit "INCLINATION", lit "51.6"); (lit "RA_OF_ASC_NODE", lit "1"); (lit "ARG_OF_PERICENTER", lit "2");
    (lit "MEAN_ANOMALY", lit "3"); (lit "BSTAR", lit "1.1606d-5")])).
  eexists. split; [vm_compute; reflexivity|]. repeat split; vm_compute; reflexivity.
Qed.
(** A satellite name with a line break does not survive. *)
Theorem C51_newline_refuted : exists o text o', o_name o = lit "A" ++ [10] ++ lit "B" /\
  kvn_write (fun s : str => Ok s) o = Ok text /\ kvn_read (fun s => Ok s) text = Ok o' /\ o_name o' = lit "A".
Proof.
  exists {| o_name := lit "A" ++ [10] ++ lit "B"; o_id := lit "1998-067A"; o_epoch := lit "2008"; o_mm := Fin 1;
    o_ecc := Fin 0; o_inc := Fin 1; o_raan := Fin 1; o_argp := Fin 1; o_ma := Fin 1; o_eph := 0;
    o_class := Unclassified; o_norad := 25544; o_esn := 292; o_rev := 56353; o_bstar := Fin 0; o_ndot := Fin 0; o_nddot := Fin 0 |}.
  do 2 eexists. split; [reflexivity|]. split; [vm_compute; reflexivity|]. split; vm_compute; reflexivity.
Qed.

Print Assumptions C15_catalogue_number.
Print Assumptions C15_alpha5_refuted.
Print Assumptions C51_kvn_roundtrip.
Print Assumptions C51_from_to_tle.
