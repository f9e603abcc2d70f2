(** Laser ranging files: predictions (src/formats/ilrs/cpf.rs) read and written, observations
    (src/formats/ilrs/crd.rs) read.

    Text is ASCII bytes, white space that of ASCII. Floating-point values are exact decimals, infinities
    and NaN ([fnum]), so the division by 1000 and the subtraction of the whole seconds carry no rounding
    here. Reading the file from disk and the path inside error values are left out; an error keeps what
    failed and the line number. The calendar crate is represented by the calendar counted year by year
    ([Lsk_Spec]) inside the range of years it accepts, and the time crate by [utc_ok], which says of
    which civil times it makes an instant; an instant is its civil time, as in [Sp3_Model]. *)
From Coq Require Import Ascii String List NArith ZArith Bool QArith Qround.
From Verif Require Import Base Text DecFloat Lsk_Spec Sp3_Model Oem_Model.
Import ListNotations.
Local Open Scope N_scope.
Local Open Scope outcome_scope.

(** error.rs:95-102 *)
Inductive pmode := Strict | Permissive.
Definition is_strict (m : pmode) : bool := match m with Strict => true | Permissive => false end.
(** [NaiveDate::from_ymd_opt]: years -262143 to 262142, months and days of the calendar *)
Definition ymd_ok (y : Z) (m d : N) : bool :=
  ((-262143 <=? y) && (y <=? 262142) && (1 <=? Z.of_N m) && (Z.of_N m <=? 12) && (1 <=? Z.of_N d) && (Z.of_N d <=? month_length y (Z.of_N m)))%Z.
(** [as u32] of an [i64], [as i32] of an [i64] *)
Definition u32_of (z : Z) : N := Z.to_N (z mod 4294967296).
Definition i32_of (z : Z) : Z := ((z + 2147483648) mod 4294967296 - 2147483648)%Z.
Definition i64_max : N := 9223372036854775807.

(** * Predictions *)

(** cpf.rs:104-109, 180-203; the frame and the centre of a position are fixed by its type *)
Record cpf_entry := Entry { e_epoch : civil; e_x : fnum; e_y : fnum; e_z : fnum }.
Record cpf := Cpf { c_source : str; c_version : str; c_target : str; c_cospar : str; c_sic : Z; c_norad : str; c_frame : str;
  c_step : fnum; c_entries : list cpf_entry; c_mode : pmode }.
Inductive cpf_err := NoMjd (line : nat) | NoSod (line : nat) | NoXyz (line : nat) | BadCivil (mjd : Z) | BadInstant (mjd : Z).
Definition cres A := outcome A cpf_err.

(** cpf.rs:462-473: the date of a day, by divisions of [i64] that truncate *)
Definition fliegel (mjd : Z) : Z * Z * Z :=
  (let l := mjd + 2400001 + 68569 in
   let n := Z.quot (4 * l) 146097 in
   let l2 := l - Z.quot (146097 * n + 3) 4 in
   let i := Z.quot (4000 * (l2 + 1)) 1461001 in
   let l3 := l2 - Z.quot (1461 * i) 4 + 31 in
   let j := Z.quot (80 * l3) 2447 in
   let day := l3 - Z.quot (2447 * j) 80 in
   let l4 := Z.quot j 11 in
   (100 * (n - 49) + i + l4, j + 2 - 12 * l4, day))%Z.
(** Overflow of the [i64] arithmetic above, a panic where overflow is checked: [4 * l] is the largest value met *)
Definition overflows (mjd : Z) : bool := (let q := 4 * (mjd + 2400001 + 68569) in (q <? -9223372036854775808) || (9223372036854775807 <? q))%Z.

Section Reader.
Variable utc_ok : civil -> bool.
(** cpf.rs:458-487 [build_epoch_from_mjd_sod] *)
Definition build_epoch (mjd : Z) (sod : fnum) : cres civil :=
  if overflows mjd then Panic
  else
    let '(year, month, day) := fliegel mjd in
    let si := trunc_u32 sod in
    let n := frac_nanos sod in
    let c := Civil (i32_of year) (u32_of month) (u32_of day) (si / 3600) ((si mod 3600) / 60) (si mod 60) n in
    if ymd_ok (Sp3_Model.year c) (Sp3_Model.month c) (Sp3_Model.day c) && hms_ok (hour c) (minute c) (second c) (nano c)
    then (if utc_ok c then Ok c else Err (BadInstant mjd))
    else Err (BadCivil mjd).

Definition word {A} (p : str -> option A) (ws : list str) (k : nat) : option A := match nth_error ws k with Some w => p w | None => None end.
Definition push_entry (f : cpf) (e : cpf_entry) : cpf :=
  Cpf (c_source f) (c_version f) (c_target f) (c_cospar f) (c_sic f) (c_norad f) (c_frame f) (c_step f) (c_entries f ++ [e]) (c_mode f).
(** cpf.rs:358-367 *)
Definition cpf_h1 (f : cpf) (ws : list str) : cpf :=
  Cpf (match nth_error ws 2 with Some s => s | None => c_source f end) (match nth_error ws 1 with Some v => v | None => c_version f end)
    (c_target f) (c_cospar f) (c_sic f) (c_norad f) (c_frame f) (c_step f) (c_entries f) (c_mode f).
(** cpf.rs:368-391 *)
Definition cpf_h2 (f : cpf) (ws : list str) : cpf :=
  Cpf (c_source f) (c_version f)
    (match nth_error ws 0 with Some s => s | None => c_target f end) (match nth_error ws 0 with Some s => s | None => c_cospar f end)
    (match nth_error ws 1 with Some s => (match parse_int i32_max s with Some z => z | None => 0%Z end) | None => c_sic f end)
    (match nth_error ws 2 with Some s => s | None => c_norad f end)
    (match ws with [] => c_frame f | _ => last ws [] end)
    (match nth_error ws 15 with Some s => (match parse_f64 s with Some v => v | None => Fin 0 end) | None => c_step f end)
    (c_entries f) (c_mode f).
(** cpf.rs:392-447 *)
Definition cpf_10 (f : cpf) (ws : list str) (no : nat) : cres cpf :=
  let skip e := if is_strict (c_mode f) then Err e else Ok f in
  match word (parse_int i64_max) ws 1, word parse_f64 ws 2, word parse_f64 ws 4, word parse_f64 ws 5, word parse_f64 ws 6 with
  | Some mjd, Some sod, Some x, Some y, Some z =>
      ep <- build_epoch mjd sod ;; Ok (push_entry f (Entry ep (fover x 1000) (fover y 1000) (fover z 1000)))
  | None, _, _, _, _ => skip (NoMjd no)
  | _, None, _, _, _ => skip (NoSod no)
  | _, _, _, _, _ => skip (NoXyz no)
  end.
(** cpf.rs:345-452, one line after another; [no] is the number of the line, from 1 *)
Fixpoint cpf_loop (f : cpf) (ls : list str) (no : nat) : cres cpf :=
  match ls with
  | [] => Ok f
  | raw :: rest =>
      match split_ws (trim_end raw) with
      | [] => cpf_loop f rest (S no)
      | tag :: ws =>
          if str_eqb tag (lit "H1") then cpf_loop (cpf_h1 f ws) rest (S no)
          else if str_eqb tag (lit "H2") then cpf_loop (cpf_h2 f ws) rest (S no)
          else if str_eqb tag (lit "10") then f' <- cpf_10 f ws no ;; cpf_loop f' rest (S no)
          else if str_eqb tag (lit "99") then Ok f
          else cpf_loop f rest (S no)
      end
  end.
(** cpf.rs:335-343, the default record *)
Definition cpf_empty (m : pmode) : cpf := Cpf [] [] [] [] 0 [] [] (Fin 0) [] m.
Definition parse_cpf_with_mode (text : str) (m : pmode) : cres cpf := cpf_loop (cpf_empty m) (split_nl text) 1.
(** cpf.rs:233-235 *)
Definition parse_cpf (text : str) : cres cpf := parse_cpf_with_mode text Strict.
End Reader.

(** cpf.rs:320-331: whole days since 17 November 1858, and the seconds of the day, a leap second's included *)
Definition mjd_sod (c : civil) : Z * Q :=
  ((day_number (Sp3_Model.year c) (Z.of_N (Sp3_Model.month c)) (Z.of_N (Sp3_Model.day c)) - day_number 1858 11 17)%Z,
   (inject_Z (Z.of_N (hour c * 3600 + minute c * 60 + second c)) + inject_Z (Z.of_N (nano c)) * (1 # 1000000000))%Q).
Definition fmul (f : fnum) (q : Q) : fnum := match f with Fin p => Fin (p * q) | Inf b => Inf b | NaN => NaN end.
Definition fpos (f : fnum) : bool := match f with Fin q => negb (Qle_bool q 0) | Inf neg => negb neg | NaN => false end.
(** [f64 as u64] *)
Definition trunc_u64 (f : fnum) : N := match f with Fin q => N.min 18446744073709551615 (Z.to_N (Qfloor q)) | Inf false => 18446744073709551615 | _ => 0 end.
Definition is_nil (s : str) : bool := match s with [] => true | _ => false end.
Definition sp (ws : list str) : str := match ws with [] => [] | w :: r => w ++ flat_map (fun x => 32 :: x) r end.
(** cpf.rs:278-316 [write_cpf]; failures of the sink are not modelled *)
Definition cpf_line1 (f : cpf) : str := sp [lit "H1 CPF"; c_version f; c_source f; lit "2024 01 01 00 1"].
Definition cpf_line2 (f : cpf) : str :=
  sp [lit "H2"; if is_nil (c_cospar f) then c_target f else c_cospar f; decz (c_sic f); if is_nil (c_norad f) then lit "0" else c_norad f;
      lit "2024 01 01 00 00 00 2024 01 01 01 00 00"; if fpos (c_step f) then dec (trunc_u64 (c_step f)) else lit "60"; lit "0"; c_frame f].
Definition cpf_line10 (e : cpf_entry) : str :=
  let '(mjd, sod) := mjd_sod (e_epoch e) in
  sp [lit "10 1"; decz mjd; fmt_fixed 3 sod; lit "0"; fmt_fixedF 3 (fmul (e_x e) 1000); fmt_fixedF 3 (fmul (e_y e) 1000); fmt_fixedF 3 (fmul (e_z e) 1000)].
Definition cpf_lines (f : cpf) : list str := cpf_line1 f :: cpf_line2 f :: map cpf_line10 (c_entries f) ++ [lit "99"].
Definition write_cpf (f : cpf) : str := unlines (cpf_lines f).

(** * Observations *)

(** crd.rs:60-98, 130-159, 176-201. The satellite's and the station's fields that repeat those of
    [target] and [station] are left out, and so is [bin_size_s], which is never filled. *)
Record station := Station { st_name : str; st_pad : Z; st_sys : Z; st_occ : Z; st_zone : Z }.
Record target := Target { t_name : str; t_sic : Z; t_norad : str; t_flag : Z; t_epoch : Z }.
Record point := Point { p_sod : fnum; p_epoch : option civil; p_tof : fnum; p_range : fnum; p_sys : str; p_event : N; p_filter : N;
  p_quality : N; p_format : N; p_raws : option N; p_rms : option fnum; p_rate : option fnum }.
Record crd := Crd { d_version : str; d_station : station; d_target : target; d_date : option (Z * N * N); d_points : list point; d_mode : pmode }.
Inductive crd_err := NoSeconds (tag : str) (line : nat) | NoFlight (tag : str) (line : nat).
Definition dres A := outcome A crd_err.
Definition c_light : Q := 299792458.

Definition orz (o : option Z) : Z := match o with Some z => z | None => 0%Z end.
Definition orn (o : option N) : N := match o with Some n => n | None => 0 end.
Definition ors (o : option str) : str := match o with Some s => s | None => [] end.
(** [f64 as i64], truncating towards zero *)
Definition trunc_i64 (f : fnum) : Z :=
  match f with
  | Fin q => (let t := if Qle_bool 0 q then Qfloor q else - Qfloor (- q) in Z.max (-9223372036854775808) (Z.min 9223372036854775807 t))%Z
  | Inf false => 9223372036854775807 | Inf true => -9223372036854775808 | NaN => 0
  end.
(** [round() as u32], ties away from zero; what is negative saturates at zero *)
Definition round_u32 (f : fnum) : N := match f with Fin q => sat_u32 (round_up q) | Inf false => u32_max | _ => 0 end.

Section Crd.
Variable utc_ok : civil -> bool.
(** crd.rs:387-397 *)
Definition point_epoch (date : Z * N * N) (sod : fnum) : option civil :=
  let '(y, mo, d) := date in
  let whole := trunc_i64 sod in
  let n := round_u32 (fmul (fplus (- inject_Z whole) sod) 1000000000) in
  let c := Civil y mo d (u32_of (Z.quot whole 3600)) (u32_of (Z.quot (Z.rem whole 3600) 60)) (u32_of (Z.rem whole 60)) n in
  if ymd_ok y mo d && hms_ok (hour c) (minute c) (second c) n then (if utc_ok c then Some c else None) else None.
(** crd.rs:319-334: midnight of the day, when the calendar and the time crate know it *)
Definition session_day (ws : list str) : option (Z * N * N) :=
  let y := orz (word (parse_int i32_max) ws 1) in
  let mo := orn (word (parse_uint u32_max) ws 2) in
  let d := orn (word (parse_uint u32_max) ws 3) in
  if ymd_ok y mo d && utc_ok (Civil y mo d 0 0 0 0) then Some (y, mo, d) else None.
(** crd.rs:284-300, 301-318 *)
Definition station_of (ws : list str) : station :=
  Station (ors (nth_error ws 0)) (orz (word (parse_int i32_max) ws 1)) (orz (word (parse_int i32_max) ws 2))
    (orz (word (parse_int i32_max) ws 3)) (orz (word (parse_int i32_max) ws 4)).
Definition target_of (ws : list str) : target :=
  Target (ors (nth_error ws 0)) (orz (word (parse_int i32_max) ws 1)) (ors (nth_error ws 2))
    (orz (word (parse_int i32_max) ws 3)) (orz (word (parse_int i32_max) ws 4)).
(** crd.rs:384-436, [rest] being the words after the time of flight *)
Definition point_of (date : option (Z * N * N)) (sys : str) (sod tof : fnum) (rest : list str) : point :=
  Point sod (match date with Some d => point_epoch d sod | None => None end) tof (fover (fmul tof c_light) 2)
    (match nth_error rest 0 with Some s => s | None => sys end)
    (orn (word (parse_uint 255) rest 1)) (orn (word (parse_uint 255) rest 2)) (orn (word (parse_uint 255) rest 3)) (orn (word (parse_uint 255) rest 4))
    (word (parse_uint u32_max) rest 5)
    (match word parse_f64 rest 6 with Some ps => Some (fover (fmul (fmul ps (1 # 1000000000000)) c_light) 2) | None => None end)
    (word parse_f64 rest 9).
(** crd.rs:257-442; [sys] is the last configuration named *)
Fixpoint crd_loop (f : crd) (sys : str) (ls : list str) (no : nat) : dres crd :=
  match ls with
  | [] => Ok f
  | raw :: rest =>
      match split_ws (trim_end raw) with
      | [] => crd_loop f sys rest (S no)
      | tag :: ws =>
          if str_eqb tag (lit "H1") then
            crd_loop (Crd (match nth_error ws 1 with Some v => v | None => d_version f end) (d_station f) (d_target f) (d_date f) (d_points f) (d_mode f)) sys rest (S no)
          else if str_eqb tag (lit "H2") then crd_loop (Crd (d_version f) (station_of ws) (d_target f) (d_date f) (d_points f) (d_mode f)) sys rest (S no)
          else if str_eqb tag (lit "H3") then crd_loop (Crd (d_version f) (d_station f) (target_of ws) (d_date f) (d_points f) (d_mode f)) sys rest (S no)
          else if str_eqb tag (lit "H4") then
            crd_loop (Crd (d_version f) (d_station f) (d_target f) (match session_day ws with Some d => Some d | None => d_date f end) (d_points f) (d_mode f)) sys rest (S no)
          else if str_eqb tag (lit "C0") then crd_loop f (match nth_error ws 1 with Some s => s | None => sys end) rest (S no)
          else if str_eqb tag (lit "10") || str_eqb tag (lit "11") then
            match word parse_f64 ws 0, word parse_f64 ws 1 with
            | Some sod, Some tof =>
                crd_loop (if str_eqb tag (lit "11")
                          then Crd (d_version f) (d_station f) (d_target f) (d_date f) (d_points f ++ [point_of (d_date f) sys sod tof (skipn 2 ws)]) (d_mode f)
                          else f) sys rest (S no)
            | None, _ => if is_strict (d_mode f) then Err (NoSeconds tag no) else crd_loop f sys rest (S no)
            | _, None => if is_strict (d_mode f) then Err (NoFlight tag no) else crd_loop f sys rest (S no)
            end
          else crd_loop f sys rest (S no)
      end
  end.
Definition crd_empty (m : pmode) : crd := Crd [] (Station [] 0 0 0 0) (Target [] 0 [] 0 0) None [] m.
Definition parse_crd_with_mode (text : str) (m : pmode) : dres crd := crd_loop (crd_empty m) (lit "std") (split_nl text) 1.
(** crd.rs:228-230 *)
Definition parse_crd (text : str) : dres crd := parse_crd_with_mode text Strict.
End Crd.
