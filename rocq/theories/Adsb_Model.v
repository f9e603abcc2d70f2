(** Model of /repo/src/formats/adsb/mod.rs (frame validation and payload decoding).
    Bytes are [N] below 256; text is the list of its bytes. *)
From Coq Require Import List NArith ZArith QArith PeanoNat Bool.
From Verif Require Import Base.
Import ListNotations.
Local Open Scope N_scope.

(** mod.rs:106 *)
Definition GENERATOR : N := 0xFFF409.

(** mod.rs:116-121, body of the inner loop on a [u32]: [crc <<= 1] drops the top bit;
    bit 24 is tested and never cleared, as in the code. *)
Definition crc_shift (crc : N) : N :=
  let c := (2 * crc) mod 2 ^ 32 in
  if N.eqb (N.land c 0x1000000) 0 then c else N.lxor c GENERATOR.

(** mod.rs:116-121, one byte. *)
Definition crc_byte (crc b : N) : N :=
  fold_left (fun c _ => crc_shift c) (seq 0 8) (N.lxor crc (N.shiftl b 16)).

(** mod.rs:112-124 [crc24] *)
Definition crc24 (data : list N) : N :=
  N.land (fold_left crc_byte data 0) 0xFFFFFF.

(** mod.rs:206-213 [hex_nibble] *)
Definition nibble (c : N) : option N :=
  if (48 <=? c) && (c <=? 57) then Some (c - 48)
  else if (97 <=? c) && (c <=? 102) then Some (c - 97 + 10)
  else if (65 <=? c) && (c <=? 70) then Some (c - 65 + 10)
  else None.

(** The four ways [parse_frame] fails (mod.rs:162-201); the text of the message is
    reduced to the offending length, offset or format number. *)
Inductive frame_error :=
| BadLength (len : nat)
| BadHex (offset : nat)
| BadCrc
| BadDf (df : N).

(** mod.rs:170-187: decode the pairs; [i] is the pair index. Only called on an even
    number of characters. [(hi << 4) | lo] is on [u8]. *)
Fixpoint hex_bytes (i : nat) (s : list N) : outcome (list N) frame_error :=
  match s with
  | [] => Ok []
  | [_] => Panic
  | h :: l :: t =>
      match nibble h with
      | None => Err (BadHex (i * 2))
      | Some hi =>
          match nibble l with
          | None => Err (BadHex (i * 2 + 1))
          | Some lo =>
              match hex_bytes (S i) t with
              | Ok r => Ok (N.lor (N.shiftl hi 4 mod 256) lo :: r)
              | Err e => Err e
              | Panic => Panic
              end
          end
      end
  end.

(** mod.rs:161-203 [parse_frame]; the frame is its 14 bytes. *)
Definition parse_frame (hex : list N) : outcome (list N) frame_error :=
  if negb (Nat.eqb (length hex) 28) then Err (BadLength (length hex))
  else match hex_bytes 0 hex with
  | Ok bytes =>
      if negb (crc24 bytes =? 0) then Err BadCrc
      else let df := N.shiftr (nth 0 bytes 0) 3 in
           if negb (df =? 17) && negb (df =? 18) then Err (BadDf df)
           else Ok bytes
  | Err e => Err e
  | Panic => Panic
  end.

(** mod.rs:76-78, 82-84, 88-92, 96-98: accessors. *)
Definition downlink_format (f : list N) : N := N.shiftr (nth 0 f 0) 3.
Definition icao24 (f : list N) : N :=
  N.lor (N.lor (N.shiftl (nth 1 f 0) 16) (N.shiftl (nth 2 f 0) 8)) (nth 3 f 0).
Definition me (f : list N) : list N := firstn 7 (skipn 4 f).
Definition type_code (f : list N) : N := N.shiftr (nth 4 f 0) 3.

(** mod.rs:309: the character table; 35 is '#'. *)
Definition CHARSET : list N :=
  [35; 65; 66; 67; 68; 69; 70; 71; 72; 73; 74; 75; 76; 77; 78; 79;
   80; 81; 82; 83; 84; 85; 86; 87; 88; 89; 90; 35; 35; 35; 35; 35;
   32; 35; 35; 35; 35; 35; 35; 35; 35; 35; 35; 35; 35; 35; 35; 35;
   48; 49; 50; 51; 52; 53; 54; 55; 56; 57; 35; 35; 35; 35; 35; 35].

Inductive ident_error :=
| BadTypeCode (tc : N)
| ReservedChar (idx : N) (pos : nat).

(** mod.rs:311-316: the 48-bit word. *)
Definition ident_bits (m : list N) : N :=
  N.lor (N.lor (N.lor (N.lor (N.lor (N.shiftl (nth 1 m 0) 40) (N.shiftl (nth 2 m 0) 32))
     (N.shiftl (nth 3 m 0) 24)) (N.shiftl (nth 4 m 0) 16)) (N.shiftl (nth 5 m 0) 8)) (nth 6 m 0).

(** mod.rs:317-328: the character loop from position [i], [n] characters to go. *)
Fixpoint ident_chars (bits : N) (i n : nat) : outcome (list N) ident_error :=
  match n with
  | O => Ok []
  | S k =>
      let idx := N.land (N.shiftr bits (N.of_nat (42 - i * 6))) 0x3F in
      let ch := nth (N.to_nat idx) CHARSET 35 in
      if ch =? 35 then Err (ReservedChar idx i)
      else match ident_chars bits (S i) k with
           | Ok r => Ok (ch :: r)
           | e => e
           end
  end.

(** [str::trim_end_matches(' ')] *)
Fixpoint trim_end (s : list N) : list N :=
  match s with
  | [] => []
  | c :: t => match trim_end t with
              | [] => if c =? 32 then [] else [c]
              | r => c :: r
              end
  end.

(** mod.rs:297-331 [decode_identification]: category and callsign. *)
Definition decode_identification (f : list N) : outcome (N * list N) ident_error :=
  let tc := type_code f in
  if negb ((1 <=? tc) && (tc <=? 4)) then Err (BadTypeCode tc)
  else
    let m := me f in
    match ident_chars (ident_bits m) 0 8 with
    | Ok cs => Ok (N.land (nth 0 m 0) 7, trim_end cs)
    | Err e => Err e
    | Panic => Panic
    end.

Record position_msg := {
  surveillance_status : N; single_antenna : bool; encoded_altitude : N;
  cpr_odd : bool; cpr_lat : N; cpr_lon : N }.

(** mod.rs:342-366 [decode_airborne_position]; [None] is the type-code error. *)
Definition decode_airborne_position (f : list N) : option position_msg :=
  let tc := type_code f in
  if negb ((9 <=? tc) && (tc <=? 18)) then None
  else
    let m := me f in
    Some {|
      surveillance_status := N.land (N.shiftr (nth 0 m 0) 1) 3;
      single_antenna := negb (N.land (nth 0 m 0) 1 =? 0);
      encoded_altitude := N.lor (N.shiftl (nth 1 m 0) 4) (N.shiftr (nth 2 m 0) 4);
      cpr_odd := negb (N.land (nth 2 m 0) 4 =? 0);
      cpr_lat := N.lor (N.lor (N.shiftl (N.land (nth 2 m 0) 3) 15) (N.shiftl (nth 3 m 0) 7))
                       (N.shiftr (nth 4 m 0) 1);
      cpr_lon := N.lor (N.lor (N.shiftl (N.land (nth 4 m 0) 1) 16) (N.shiftl (nth 5 m 0) 8))
                       (nth 6 m 0) |}.

(** mod.rs:383-397: integer part of the velocity decoder: signed east and north
    components in knots before the scale and unit factors, the scale, and the signed
    vertical rate in feet per minute. The unit factors (0.514444, 0.00508), the square
    root and the arctangent are floating-point and are not modelled. *)
Record velocity_raw := { v_east : Z; v_north : Z; v_scale : Z; v_rate_fpm : Z; v_has_heading : bool }.

Inductive velocity_error := VelTypeCode (tc : N) | VelSubType (st : N).

Definition sgn (b : bool) : Z := if b then (-1)%Z else 1%Z.

(** mod.rs:373-421 [decode_airborne_velocity] *)
Definition decode_airborne_velocity (f : list N) : outcome velocity_raw velocity_error :=
  let tc := type_code f in
  if negb (tc =? 19) then Err (VelTypeCode tc)
  else
    let m := me f in
    let st := N.land (nth 0 m 0) 7 in
    if (st =? 1) || (st =? 2) then
      let sew := sgn (negb (N.land (nth 1 m 0) 4 =? 0)) in
      let vew := (Z.of_N (N.lor (N.shiftl (N.land (nth 1 m 0) 3) 8) (nth 2 m 0))%N - 1)%Z in
      let sns := sgn (negb (N.land (nth 3 m 0) 0x80 =? 0)) in
      let vns := (Z.of_N (N.lor (N.shiftl (N.land (nth 3 m 0) 0x7F) 3) (N.shiftr (nth 4 m 0) 5))%N - 1)%Z in
      let scale := if st =? 2 then 4%Z else 1%Z in
      let srate := sgn (negb (N.land (nth 4 m 0) 8 =? 0)) in
      let rate := (Z.of_N (N.lor (N.shiftl (N.land (nth 4 m 0) 7) 6) (N.shiftr (nth 5 m 0) 2))%N - 1)%Z in
      Ok {| v_east := (sew * vew)%Z; v_north := (sns * vns)%Z; v_scale := scale;
            v_rate_fpm := (srate * rate * 64)%Z;
            v_has_heading := negb ((vew =? 0)%Z && (vns =? 0)%Z) |}
    else Err (VelSubType st).

(** mod.rs:448-464 [decode_altitude]: metres, the product with 0.3048 taken exactly
    (the code multiplies in [f64]). [encoded] is a [u16]. *)
Definition decode_altitude (encoded : N) : option Q :=
  if encoded =? 0 then None
  else if N.land (N.shiftr encoded 4) 1 =? 1 then
    let n := (Z.of_N (N.lor (N.shiftl (N.shiftr encoded 5) 4 mod 65536) (N.land encoded 0x0F))%N * 25 - 1000)%Z in
    Some (inject_Z n * (3048 # 10000))%Q
  else None.
