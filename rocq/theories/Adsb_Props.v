(** C03-C06, C47, C48: ADS-B frames. *)
From Coq Require Import List NArith ZArith QArith.
From Verif Require Import Base Adsb_Model Adsb_Spec Adsb_Crc Adsb_Weight Adsb_Proofs.
Import ListNotations.
Local Open Scope N_scope.

(** ** C03 *)
(** The parity routine is the remainder of [message * x^24] by the generator. *)
Theorem C03_crc_is_remainder (data : list N) (r : N) :
  Forall (fun b => b < 256) data ->
  (is_rem (N.shiftl (msg_value data) 24) r <-> r = crc24 data).
Proof. exact (crc24_iff data r). Qed.

(** A message followed by three parity bytes passes exactly when the parity bytes
    are the remainder of the message. *)
Theorem C03_systematic (data p : list N) :
  Forall (fun b => b < 256) (data ++ p) -> length p = 3%nat ->
  (crc24 (data ++ p) = 0 <-> msg_value p = crc24 data).
Proof. exact (crc_systematic data p). Qed.

(** Acceptance by the frame parser, exactly. *)
Theorem C03_accepts_exactly (s f : list N) :
  parse_frame s = Ok f <->
  hextext s f /\ length f = 14%nat /\ G_divides (msg_value f) /\
  (nth 0 f 0 / 8 = 17 \/ nth 0 f 0 / 8 = 18).
Proof. exact (parse_frame_iff s f). Qed.

Theorem C03_never_panics (s : list N) : parse_frame s <> Panic.
Proof. exact (parse_frame_no_panic s). Qed.

(** "8D40621D58C382D690C8AC2863A7" *)
Definition sample_text : list N :=
  [56;68;52;48;54;50;49;68;53;56;67;51;56;50;68;54;57;48;67;56;65;67;50;56;54;51;65;55].
Definition sample_frame : list N :=
  [0x8D;0x40;0x62;0x1D;0x58;0xC3;0x82;0xD6;0x90;0xC8;0xAC;0x28;0x63;0xA7].
Example C03_sample : parse_frame sample_text = Ok sample_frame /\
  crc24 (firstn 11 sample_frame) = 0x2863A7.
Proof. vm_compute. auto. Qed.

(** ** C04 *)
Theorem C04_burst_rejected (s f s' f' : list N) (e k : N) :
  parse_frame s = Ok f -> 0 < e < 2 ^ 24 ->
  hextext s' f' -> length f' = 14%nat ->
  msg_value f' = N.lxor (msg_value f) (N.shiftl e k) ->
  parse_frame s' = Err BadCrc.
Proof. exact (burst_rejected s f s' f' e k). Qed.

(** Any one to five flipped bits, or any odd number, are rejected too. *)
Theorem C04_flips_rejected (s f s' f' : list N) (e : N) :
  parse_frame s = Ok f -> e < 2 ^ 112 ->
  ((1 <= ones 112 e <= 5)%nat \/ Nat.odd (ones 112 e) = true) ->
  hextext s' f' -> length f' = 14%nat ->
  msg_value f' = N.lxor (msg_value f) e ->
  parse_frame s' = Err BadCrc.
Proof. exact (flips_rejected s f s' f' e). Qed.

(** Flipping the 24 bits 40..63 of the sample. *)
Example C04_sample :
  msg_value [0x8D;0x40;0x62;0x1D;0x58;0xC3;0x7D;0x29;0x6F;0xC8;0xAC;0x28;0x63;0xA7] =
  N.lxor (msg_value sample_frame) (N.shiftl 0xFFFFFF 40) /\ 0 < 0xFFFFFF < 2 ^ 24 /\
  parse_frame [56;68;52;48;54;50;49;68;53;56;67;51;55;68;50;57;54;70;67;56;65;67;50;56;54;51;65;55] = Err BadCrc.
Proof. vm_compute. auto. Qed.

(** Detection stops there: adding the 25-bit generator itself keeps a frame valid. *)
Theorem C04_generator_undetected : exists f f',
  msg_value f' = N.lxor (msg_value f) G /\
  crc24 f = 0 /\ crc24 f' = 0 /\ f <> f' /\ length f = 14%nat /\ length f' = 14%nat.
Proof.
  exists sample_frame,
    [0x8D;0x40;0x62;0x1D;0x58;0xC3;0x82;0xD6;0x90;0xC8;0xAD;0xD7;0x97;0xAE].
  vm_compute. repeat split; discriminate.
Qed.

(** ** C05 *)
(** Altitude in metres is [(25 N - 1000) * 0.3048] with [N] the code without its Q bit. *)
Theorem C05_altitude_value (c : N) : c < 4096 ->
  decode_altitude c =
  if N.testbit c 4 then Some (inject_Z (25 * Z.of_N (16 * (c / 32) + c mod 16) - 1000) * (3048 # 10000))%Q
  else None.
Proof. exact (altitude_spec c). Qed.

Theorem C05_altitude_range (c : N) (q : Q) : c < 4096 -> decode_altitude c = Some q ->
  (-1000 * (3048 # 10000) <= q /\ q <= 50175 * (3048 # 10000))%Q.
Proof. exact (altitude_range c q). Qed.

Theorem C05_altitude_injective (c1 c2 : N) (q1 q2 : Q) : c1 < 4096 -> c2 < 4096 ->
  decode_altitude c1 = Some q1 -> decode_altitude c2 = Some q2 -> (q1 == q2)%Q -> c1 = c2.
Proof. exact (altitude_inj c1 c2 q1 q2). Qed.

(** 38000 ft *)
Example C05_sample : exists q, decode_altitude 0xC38 = Some q /\ (q == 38000 * (3048 # 10000))%Q.
Proof. eexists. split; [vm_compute; reflexivity | reflexivity]. Qed.

(** ** C06 *)
(** The decoder returns a callsign exactly when the 48-bit field packs eight legal
    characters, and then returns them without trailing blanks. *)
Theorem C06_callsign_exact (f : list N) (cat : N) (cs : list N) :
  Forall (fun b => b < 256) f -> length f = 14%nat ->
  let M := msg_value f in
  (decode_identification f = Ok (cat, cs) <->
   1 <= field M 75 5 <= 4 /\ cat = field M 72 3 /\
   exists cs8 vs, length cs8 = 8%nat /\ Forall2 sixbit cs8 vs /\
     field M 24 48 = pack6 vs /\ stripped cs8 cs).
Proof. exact (identification_iff f cat cs). Qed.

Theorem C06_never_panics (f : list N) : decode_identification f <> Panic.
Proof. exact (identification_no_panic f). Qed.

(** "KLM1023 " *)
Example C06_sample :
  decode_identification [0x8D;0x48;0x40;0xD6;0x20;0x2C;0xC3;0x71;0xC3;0x2C;0xE0;0x57;0x60;0x98] =
  Ok (0, [75; 76; 77; 49; 48; 50; 51]).
Proof. vm_compute. reflexivity. Qed.

(** ** C47 *)
Theorem C47_header_fields (f : list N) :
  Forall (fun b => b < 256) f -> length f = 14%nat ->
  downlink_format f = field (msg_value f) 107 5 /\ icao24 f = field (msg_value f) 80 24.
Proof. exact (header_fields f). Qed.

Theorem C47_position_fields (f : list N) :
  Forall (fun b => b < 256) f -> length f = 14%nat ->
  let M := msg_value f in
  decode_airborne_position f =
  if (9 <=? field M 75 5) && (field M 75 5 <=? 18) then
    Some {| surveillance_status := field M 73 2; single_antenna := N.testbit M 72;
            encoded_altitude := field M 60 12; cpr_odd := N.testbit M 58;
            cpr_lat := field M 41 17; cpr_lon := field M 24 17 |}
  else None.
Proof. exact (position_fields f). Qed.

Example C47_sample : decode_airborne_position sample_frame =
  Some {| surveillance_status := 0; single_antenna := false; encoded_altitude := 0xC38;
          cpr_odd := false; cpr_lat := 93000; cpr_lon := 51372 |}.
Proof. vm_compute. reflexivity. Qed.

(** ** C48 *)
Theorem C48_velocity_fields (f : list N) :
  Forall (fun b => b < 256) f -> length f = 14%nat ->
  let M := msg_value f in
  decode_airborne_velocity f =
  if negb (field M 75 5 =? 19) then Err (VelTypeCode (field M 75 5))
  else if (field M 72 3 =? 1) || (field M 72 3 =? 2) then
    Ok {| v_east := ((if N.testbit M 66 then -1 else 1) * (Z.of_N (field M 56 10) - 1))%Z;
          v_north := ((if N.testbit M 55 then -1 else 1) * (Z.of_N (field M 45 10) - 1))%Z;
          v_scale := if field M 72 3 =? 2 then 4%Z else 1%Z;
          v_rate_fpm := ((if N.testbit M 43 then -1 else 1) * (Z.of_N (field M 34 9) - 1) * 64)%Z;
          v_has_heading := negb ((field M 56 10 =? 1) && (field M 45 10 =? 1)) |}
  else Err (VelSubType (field M 72 3)).
Proof. exact (velocity_fields f). Qed.

(** DO-260B reserves the value 0 of each speed and rate field for "not available".
    The decoder reports a definite velocity instead: a valid frame with every such field
    zero decodes to one knot west, one knot south, 64 ft/min down. *)
Theorem C48_unavailable_refuted : exists s f v,
  parse_frame s = Ok f /\ field (msg_value f) 56 10 = 0 /\ field (msg_value f) 45 10 = 0 /\
  field (msg_value f) 34 9 = 0 /\
  decode_airborne_velocity f = Ok v /\
  v_east v = (-1)%Z /\ v_north v = (-1)%Z /\ v_rate_fpm v = (-64)%Z /\ v_has_heading v = true.
Proof.
  exists [56;68;52;56;53;48;50;48;57;57;48;48;48;48;48;48;48;48;48;48;48;48;70;50;67;54;69;68], [0x8D;0x48;0x50;0x20;0x99;0x00;0x00;0x00;0x00;0x00;0x00;0xF2;0xC6;0xED]. eexists.
  vm_compute. repeat split.
Qed.

Example C48_sample :
  decode_airborne_velocity [0x8D;0x48;0x50;0x20;0x99;0x44;0x09;0x94;0x08;0x38;0x17;0x5B;0x28;0x4F] =
  Ok {| v_east := (-8)%Z; v_north := (-159)%Z; v_scale := 1%Z; v_rate_fpm := (-832)%Z; v_has_heading := true |}.
Proof. vm_compute. reflexivity. Qed.

Print Assumptions C03_crc_is_remainder.
Print Assumptions C03_systematic.
Print Assumptions C03_accepts_exactly.
Print Assumptions C03_never_panics.
Print Assumptions C04_burst_rejected.
Print Assumptions C04_flips_rejected.
Print Assumptions C04_generator_undetected.
Print Assumptions C05_altitude_value.
Print Assumptions C05_altitude_range.
Print Assumptions C05_altitude_injective.
Print Assumptions C06_callsign_exact.
Print Assumptions C06_never_panics.
Print Assumptions C47_header_fields.
Print Assumptions C47_position_fields.
Print Assumptions C48_velocity_fields.
Print Assumptions C48_unavailable_refuted.
