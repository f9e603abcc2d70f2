(** Model of the TLE parser and formatter (/repo/src/formats/tle) and of the OMM designator and
    KVN code. Strings are byte lists; floating-point values are exact decimals ([DecFloat]). *)
From Coq Require Import Ascii String List NArith ZArith Bool QArith Qround Qabs.
From Verif Require Import Base Text DecFloat.
Import ListNotations.
Local Open Scope N_scope.

(** formats/tle/error.rs, reduced to the distinctions used here. *)
Inductive terr :=
| BadLength (line : N) (got : nat)
| BadChecksum (line stated computed : N)
| BadLeadingChar (line : N)
| InvalidAlpha5
| InvalidNumber
| InvalidClassification
| MismatchedSatelliteNumber (l1 l2 : N)
| InvalidEpoch
| OmmUnsupportedTheory
| OmmMissingField (k : str)
| OmmMalformed.

Definition res A := outcome A terr.
Local Open Scope outcome_scope.

Definition need {A} (o : option A) (e : terr) : res A :=
  match o with Some a => Ok a | None => Err e end.

(** ** Checksums *)
(** parse.rs:75-85 [compute_checksum]; the u32 sum cannot overflow on lines of practical
    length and is taken in [N]. *)
Definition checksum_val (b : N) : N :=
  if is_digit b then b - 48 else if b =? 45 then 1 else 0.
Definition compute_checksum (s : str) : N :=
  fold_left (fun sum b => sum + checksum_val b) s 0 mod 10.

(** parse.rs:27-60 [validate_tle_checksum] *)
Definition line_no (s : str) : N :=
  if starts_with [49] s then 1 else if starts_with [50] s then 2 else 0.
Definition validate_tle_checksum (line : str) : res unit :=
  if negb (length line =? 69)%nat then Err (BadLength (line_no line) (length line))
  else
    let stated_byte := nth 68 line 0 in
    if negb (is_digit stated_byte) then
      p <- slice line 0 68 ;; Err (BadChecksum (line_no line) 0 (compute_checksum p))
    else
      let stated := stated_byte - 48 in
      p <- slice line 0 68 ;;
      let computed := compute_checksum p in
      if negb (stated =? computed) then Err (BadChecksum (line_no line) stated computed)
      else Ok tt.

(** ** Catalogue numbers: tle.rs:46-77, 92-111 *)
Definition u32_max : N := 4294967295.
Definition sat_parse (field : str) : res N :=
  let s := trim_start field in
  match s with
  | [] => Err InvalidAlpha5
  | first :: tail =>
      if (5 <? length s)%nat then Err InvalidAlpha5
      else if is_digit first then need (parse_uint u32_max s) InvalidNumber
      else if negb ((65 <=? first) && (first <=? 90)) || (first =? 73) || (first =? 79)
      then Err InvalidAlpha5
      else
        value <- (if (65 <=? first) && (first <=? 72) then Ok (first - 65 + 10)
                  else if (74 <=? first) && (first <=? 78) then Ok (first - 74 + 18)
                  else if (80 <=? first) && (first <=? 90) then Ok (first - 80 + 23)
                  else Err InvalidAlpha5) ;;
        if negb (length tail =? 4)%nat || negb (forallb is_digit tail) then Err InvalidAlpha5
        else
          tail_n <- need (parse_uint u32_max tail) InvalidAlpha5 ;;
          Ok (value * 10000 + tail_n)
  end.

Definition format_alpha5 (n : N) : res str :=
  if n <? 100000 then Ok (pad0 5 n)
  else if 340000 <=? n then Err InvalidAlpha5
  else
    let high := n / 10000 in
    let tail := n mod 10000 in
    letter <- (if (10 <=? high) && (high <=? 17) then Ok (65 + (high - 10))
               else if (18 <=? high) && (high <=? 22) then Ok (74 + (high - 18))
               else if (23 <=? high) && (high <=? 33) then Ok (80 + (high - 23))
               else Panic) ;;
    Ok (letter :: pad0 4 tail).

(** ** Classification: tle.rs:141-166 *)
Inductive classification := Unclassified | Classified | Secret.
Definition class_of (c : N) : res classification :=
  if c =? 85 then Ok Unclassified
  else if c =? 67 then Ok Classified
  else if c =? 83 then Ok Secret
  else Err InvalidClassification.
Definition class_char (c : classification) : N :=
  match c with Unclassified => 85 | Classified => 67 | Secret => 83 end.

(** ** Numeric fields *)
(** parse.rs:225-231 *)
Definition expand_two_digit_year (yy : Z) : Z := (if 57 <=? yy then 1900 + yy else 2000 + yy)%Z.

(** parse.rs:254-260 *)
Definition i64_max : N := 9223372036854775807.
Definition parse_int_field (raw : str) : res Z := need (parse_int i64_max (trim raw)) InvalidNumber.
(** parse.rs:262-276 (both functions have the same body) *)
Definition parse_float_field (raw : str) : res fnum := need (parse_f64 (trim raw)) InvalidNumber.

(** [str::rfind(['-', '+'])] *)
Fixpoint rfind_sign (s : str) : option nat :=
  match s with
  | [] => None
  | c :: t => match rfind_sign t with
              | Some i => Some (S i)
              | None => if (c =? 45) || (c =? 43) then Some O else None
              end
  end.

(** parse.rs:280-323 [parse_assumed_decimal_exponent]; the products of f64 are exact here. *)
Definition u64_max : N := 18446744073709551615.
Definition i32_max : N := 2147483647.
Definition parse_assumed (raw : str) : res Q :=
  let s := trim raw in
  match s with
  | [] => Ok 0%Q
  | _ =>
    let '(neg, rest) := sign_of s in
    if (length rest <? 2)%nat then Err InvalidNumber
    else
      sep <- need (rfind_sign rest) InvalidNumber ;;
      let mant := firstn sep rest in
      let ex := skipn sep rest in
      if negb (forallb is_digit mant) || (length mant =? 0)%nat then Err InvalidNumber
      else
        m <- need (parse_uint u64_max mant) InvalidNumber ;;
        e <- need (parse_int i32_max ex) InvalidNumber ;;
        Ok (qsgn neg (QofN m * p10 (- Z.of_nat (length mant)) * p10 e)%Q)
  end.

(** builder.rs:428-433 [format_signed_decimal] (finite argument; [as u64] saturates) *)
Definition clamp_u64 (z : Z) : N := N.min u64_max (Z.to_N z).
Definition format_signed_decimal (v : Q) : str :=
  (if Qle_bool 0 v then [32] else [45]) ++ [46] ++ pad0 8 (clamp_u64 (round_up (Qabs v * 100000000))).

(** builder.rs:435-455 [format_assumed_decimal_exponent] (finite argument). The exponent is
    computed with an exact logarithm. *)
Definition format_assumed (v : Q) : str :=
  if Qeq_bool v 0 then lit " 00000-0"
  else
    let sign := if Qle_bool 0 v then 32 else 45 in
    let mag := Qabs v in
    let exp := (log10_floor mag + 1)%Z in
    let mantissa := (mag * p10 (- exp))%Q in
    let scaled := clamp_u64 (round_up (mantissa * 100000)) in
    let '(mantissa, exp) := if 1000000 <=? scaled then ((mantissa / 10)%Q, (exp + 1)%Z) else (mantissa, exp) in
    let scaled := clamp_u64 (round_up (mantissa * 100000)) in
    [sign] ++ pad0 5 scaled ++ (if (exp <? 0)%Z then [45] else [43]) ++ dec (Z.to_N (Z.abs exp)).

(** ** Records: tle.rs:210-245. The epoch is the UTC year, day of year and nanosecond of the
    day; the conversion between chrono and tempoch instants is taken to be lossless. *)
Record epoch := Epoch { ep_year : Z; ep_doy : Z; ep_nanos : Z }.
Record tle := Tle {
  t_name : option str; t_norad : N; t_class : classification; t_desig : str; t_epoch : epoch;
  t_ndot : fnum; t_nddot : Q; t_bstar : Q; t_elset : N; t_rev : N;
  t_inc : fnum; t_raan : fnum; t_ecc : Q; t_argp : fnum; t_ma : fnum; t_mm : fnum }.

Definition leap (y : Z) : bool :=
  ((y mod 4 =? 0) && (negb (y mod 100 =? 0) || (y mod 400 =? 0)))%Z.
Definition days_in_year (y : Z) : Z := if leap y then 366 else 365.

(** parse.rs:233-252 [epoch_from_year_doy]; [NaiveDate::from_yo_opt] exists exactly for the
    days of the year. *)
Definition epoch_from_year_doy (year : Z) (doy : fnum) : res epoch :=
  match doy with
  | Fin d =>
      if Qle_bool 1 d && negb (Qle_bool 367 d) then
        let day_int := Qfloor d in
        let frac := (d - inject_Z day_int)%Q in
        if ((1 <=? day_int) && (day_int <=? days_in_year year))%Z then
          Ok (Epoch year day_int (round_up (frac * 86400 * 1000000000)))
        else Err InvalidEpoch
      else Err InvalidEpoch
  | _ => Err InvalidEpoch
  end.

(** ** parse.rs:129-222 [parse_tle_inner] *)
Definition parse_ecc (f : str) : res Q :=
  let raw := trim f in
  if (length raw =? 0)%nat || negb (forallb is_digit raw) then Err InvalidNumber
  else
    scaled <- need (parse_uint u64_max raw) InvalidNumber ;;
    Ok (QofN scaled * p10 (- Z.of_nat (length raw)))%Q.

Definition parse_tle_inner (name : option str) (line1 line2 : str) : res tle :=
  if negb (length line1 =? 69)%nat then Err (BadLength 1 (length line1))
  else if negb (length line2 =? 69)%nat then Err (BadLength 2 (length line2))
  else if negb (nth 0 line1 0 =? 49) then Err (BadLeadingChar 1)
  else if negb (nth 0 line2 0 =? 50) then Err (BadLeadingChar 2)
  else
    _ <- validate_tle_checksum line1 ;;
    _ <- validate_tle_checksum line2 ;;
    f <- slice line1 2 7 ;; norad1 <- sat_parse f ;;
    cls <- class_of (nth 7 line1 0) ;;
    f <- slice line1 9 17 ;; let desig := trim f in
    f <- slice line1 18 20 ;; yy <- parse_int_field f ;;
    f <- slice line1 20 32 ;; day <- parse_float_field f ;;
    f <- slice line1 33 43 ;; ndot <- parse_float_field f ;;
    f <- slice line1 44 52 ;; nddot <- parse_assumed f ;;
    f <- slice line1 53 61 ;; bstar <- parse_assumed f ;;
    f <- slice line1 64 68 ;; elset <- parse_int_field (trim_start f) ;;
    f <- slice line2 2 7 ;; norad2 <- sat_parse f ;;
    if negb (norad1 =? norad2) then Err (MismatchedSatelliteNumber norad1 norad2)
    else
      f <- slice line2 8 16 ;; inc <- parse_float_field f ;;
      f <- slice line2 17 25 ;; raan <- parse_float_field f ;;
      f <- slice line2 26 33 ;; ecc <- parse_ecc f ;;
      f <- slice line2 34 42 ;; argp <- parse_float_field f ;;
      f <- slice line2 43 51 ;; ma <- parse_float_field f ;;
      f <- slice line2 52 63 ;; mm <- parse_float_field f ;;
      f <- slice line2 63 68 ;; rev <- parse_int_field (trim_start f) ;;
      ep <- epoch_from_year_doy (expand_two_digit_year yy) day ;;
      Ok {| t_name := name; t_norad := norad1; t_class := cls; t_desig := desig; t_epoch := ep;
            t_ndot := ndot; t_nddot := nddot; t_bstar := bstar;
            t_elset := Z.to_N (elset mod 65536); t_rev := Z.to_N (rev mod 4294967296);
            t_inc := inc; t_raan := raan; t_ecc := ecc; t_argp := argp; t_ma := ma; t_mm := mm |}.

(** parse.rs:99-101 *)
Definition parse_tle (line1 line2 : str) : res tle := parse_tle_inner None line1 line2.

(** parse.rs:119-127 *)
Fixpoint strip_zero_blank (fuel : nat) (s : str) : str :=
  match fuel with
  | O => s
  | S f => match s with
           | a :: b :: t => if (a =? 48) && (b =? 32) then strip_zero_blank f t else s
           | _ => s
           end
  end.
Definition parse_3le (name line1 line2 : str) : res tle :=
  let trimmed := trim (strip_zero_blank (length name) name) in
  parse_tle_inner (match trimmed with [] => None | _ => Some trimmed end) line1 line2.

(** ** builder.rs:378-426 [format_tle], release build (the [debug_assert_eq!] on the line
    lengths is not modelled). *)
Definition line1_fields (t : tle) (cat : str) : list str :=
  let yy := (((ep_year (t_epoch t) mod 100) + 100) mod 100)%Z in
  let day_full := (inject_Z (ep_doy (t_epoch t)) + inject_Z (ep_nanos (t_epoch t)) * (1 # 1000000000) / 86400)%Q in
  let day := fmt_fixed 8 day_full in
  [ lit "1 "; cat; [class_char (t_class t)]; [32]; pad_right 8 (t_desig t); [32];
    pad0 2 (Z.to_N yy); repeat 48 (12 - length day) ++ day; [32];
    match t_ndot t with Fin q => format_signed_decimal q | _ => lit " .00000000" end; [32];
    format_assumed (t_nddot t); [32]; format_assumed (t_bstar t); lit " 0 ";
    pad_left 4 (dec (t_elset t)) ].
Definition line2_fields (t : tle) (cat : str) : list str :=
  [ lit "2 "; cat; [32]; pad_left 8 (fmt_fixedF 4 (t_inc t)); [32];
    pad_left 8 (fmt_fixedF 4 (t_raan t)); [32];
    pad0 7 (clamp_u64 (round_up (t_ecc t * 10000000))); [32];
    pad_left 8 (fmt_fixedF 4 (t_argp t)); [32]; pad_left 8 (fmt_fixedF 4 (t_ma t)); [32];
    pad_left 11 (fmt_fixedF 8 (t_mm t)); pad_left 5 (dec (t_rev t)) ].
Definition with_checksum (l : str) : str := l ++ dec (compute_checksum l).
Definition format_tle (t : tle) : res (str * str) :=
  cat <- format_alpha5 (t_norad t) ;;
  Ok (with_checksum (concat (line1_fields t cat)), with_checksum (concat (line2_fields t cat))).

(** ** OMM designators: omm/mod.rs:181-217 *)
Definition expand_intl_designator (field : str) : str :=
  let s := trim field in
  if (length s <? 5)%nat || negb (forallb is_ascii s) then s
  else if negb (is_digit (nth 0 s 0)) || negb (is_digit (nth 1 s 0)) then s
  else
    let yy := match parse_int i32_max (firstn 2 s) with Some v => v | None => 0%Z end in
    let yyyy := expand_two_digit_year yy in
    pad0 4 (Z.to_N yyyy) ++ [45] ++ firstn 3 (skipn 2 s) ++ skipn 5 s.

Definition contract_intl_designator (s0 : str) : str :=
  let s := trim s0 in
  match find_char 45 s with
  | Some dash =>
      let yyyy := firstn dash s in
      let rest := skipn (S dash) s in
      if (length yyyy =? 4)%nat && forallb is_digit yyyy then skipn 2 yyyy ++ rest else s
  | None => s
  end.
