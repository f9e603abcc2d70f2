(** Station solutions (src/formats/igs/sinex.rs), orbit exchange files (src/formats/igs/orbex.rs), antenna offsets
    (src/formats/igs/antex.rs) and beacon observations (src/formats/rinex/doris.rs).

    Text is bytes, a multi-byte character counting as its bytes; white space is that of ASCII and a carriage return
    before the end of a line is taken off. Floating-point values are exact decimals, infinities and NaN ([fnum]): the
    rounding of a decimal to f64 and of the arithmetic on epochs is not modelled. A hash map is a list of pairs in
    which no key occurs twice, its order of iteration not being specified. The calendar crate is represented by the
    calendar counted year by year within its years. Units are those of the numbers read, and reading from the
    underlying source never fails. *)
From Coq Require Import Ascii String List NArith ZArith Bool QArith Qround.
From Verif Require Import Base Text DecFloat Sort Lsk_Spec Sp3_Model Oem_Model Omm_Model Ilrs_Model Nav_Model.
Import ListNotations.
Local Open Scope N_scope.
Local Open Scope outcome_scope.

Definition i32_max : N := 2147483647.
Definition u32_max : N := 4294967295.
Definition or_else {A} (o : option A) (d : A) : A := match o with Some a => a | None => d end.
(** hash maps: the entry of a key, and an insertion that replaces it *)
Fixpoint look {V} (k : str) (m : list (str * V)) : option V :=
  match m with [] => None | (k', v) :: t => if str_eqb k k' then Some v else look k t end.
Fixpoint put {V} (k : str) (v : V) (m : list (str * V)) : list (str * V) :=
  match m with [] => [(k, v)] | (k', v') :: t => if str_eqb k k' then (k, v) :: t else (k', v') :: put k v t end.

(** * Epochs by day of year *)
(** [chrono::NaiveDate::from_yo_opt] and the days from 1858-11-17 *)
Definition yo_ok (y : Z) (doy : N) : bool :=
  ((-262143 <=? y) && (y <=? 262142) && (1 <=? Z.of_N doy) && (Z.of_N doy <=? if leap_year y then 366 else 365))%Z.
Definition yo_mjd (y : Z) (doy : N) : Z := (day_number y 1 1 + Z.of_N doy - 1 - day_number 1858 11 17)%Z.
(** sinex.rs:300-307, orbex.rs:301-309; a year whose sum overflows is out of the calendar's range *)
Definition yo_epoch (y : Z) (doy : N) (sod : fnum) : fnum :=
  let doy := N.max doy 1 in
  if yo_ok y doy then fplus (inject_Z (yo_mjd y doy)) (fover sod 86400) else Fin 0.
(** sinex.rs:285-299 *)
Definition sinex_epoch (s : str) : fnum :=
  match split_on 58 s with
  | [a; b; c] =>
      let yy := or_else (parse_int i32_max a) 0%Z in
      let y := (if yy =? 0 then 2000 else if 80 <=? yy then 1900 + yy else 2000 + yy)%Z in
      yo_epoch y (or_else (parse_uint u32_max b) 1) (or_else (parse_f64 c) (Fin 0))
  | _ => Fin 0
  end.

(** * Station solutions *)
(** sinex.rs:74-110 *)
Record station := Station { s_code : str; s_point : str; s_soln : str; s_epoch : fnum; s_pos : fnum * fnum * fnum; s_vel : option (fnum * fnum * fnum) }.
(** sinex.rs:149-155, the two arrays written out *)
Record est_row := EstRow { r_x : option fnum; r_y : option fnum; r_z : option fnum; r_u : option fnum; r_v : option fnum; r_w : option fnum;
  r_epoch : fnum; r_point : str; r_soln : str }.
Definition empty_row : est_row := EstRow None None None None None None (Fin 0) [] [].
Inductive snx_block := NoBlock | SiteId | Estimate.
Inductive igs_err := FewFields (line : nat) (got : nat) | BadValue (line : nat).
(** sinex.rs:240-253 *)
Definition set_component (ty : str) (v : fnum) (r : est_row) : est_row :=
  let '(EstRow x y z u w q e p s) := r in
  if str_eqb ty (lit "STAX") then EstRow (Some v) y z u w q e p s
  else if str_eqb ty (lit "STAY") then EstRow x (Some v) z u w q e p s
  else if str_eqb ty (lit "STAZ") then EstRow x y (Some v) u w q e p s
  else if str_eqb ty (lit "VELX") then EstRow x y z (Some v) w q e p s
  else if str_eqb ty (lit "VELY") then EstRow x y z u (Some v) q e p s
  else if str_eqb ty (lit "VELZ") then EstRow x y z u w (Some v) e p s
  else r.
Definition add_estimate (ty code pt soln epoch : str) (v : fnum) (m : list (str * est_row)) : list (str * est_row) :=
  let '(EstRow x y z u w q _ _ _) := or_else (look code m) empty_row in
  put code (set_component ty v (EstRow x y z u w q (sinex_epoch epoch) pt soln)) m.
(** sinex.rs:209-255: one line of the block *)
Definition estimate_line (m : pmode) (no : nat) (l : str) (rows : list (str * est_row)) : outcome (list (str * est_row)) igs_err :=
  match split_ws l with
  | _ :: ty :: code :: pt :: soln :: epoch :: _ :: _ :: value :: _ =>
      match parse_f64 value with
      | Some v => Ok (add_estimate ty code pt soln epoch v rows)
      | None => if is_strict m then Err (BadValue no) else Ok rows
      end
  | ws => if is_strict m then Err (FewFields no (length ws)) else Ok rows
  end.
(** sinex.rs:166-258: agency, rows so far, block *)
Fixpoint sinex_loop (m : pmode) (ls : list str) (no : nat) (agency : str) (rows : list (str * est_row)) (b : snx_block) : outcome (str * list (str * est_row)) igs_err :=
  match ls with
  | [] => Ok (agency, rows)
  | l :: t =>
      if starts_with (lit "%=SNX") l then
        sinex_loop m t (S no) (match split_ws l with _ :: _ :: a :: _ => a | _ => agency end) rows b
      else if starts_with (lit "%ENDSNX") l then Ok (agency, rows)
      else match l with
           | 42 :: _ | 37 :: _ => sinex_loop m t (S no) agency rows b
           | 43 :: r => sinex_loop m t (S no) agency rows
                          (if str_eqb (trim r) (lit "SITE/ID") then SiteId else if str_eqb (trim r) (lit "SOLUTION/ESTIMATE") then Estimate else NoBlock)
           | 45 :: _ => sinex_loop m t (S no) agency rows NoBlock
           | _ => match b with
                  | Estimate => rows' <- estimate_line m no l rows ;; sinex_loop m t (S no) agency rows' b
                  | _ => sinex_loop m t (S no) agency rows b
                  end
           end
  end.
(** sinex.rs:261-280 *)
Definition station_of (e : str * est_row) : list station :=
  let '(code, EstRow x y z u v w ep p s) := e in
  match x, y, z with
  | Some x, Some y, Some z => [Station code p s ep (x, y, z) (match u, v, w with Some u, Some v, Some w => Some (u, v, w) | _, _, _ => None end)]
  | _, _, _ => []
  end.
(** sinex.rs:143-283: agency and stations, the description staying empty *)
Definition read_sinex (text : str) (m : pmode) : outcome (str * list station) igs_err :=
  r <- sinex_loop m (text_lines text) 1 [] [] NoBlock ;; Ok (fst r, flat_map station_of (snd r)).

(** * Orbit exchange *)
(** orbex.rs:29-94 *)
Record orb_entry := OrbEntry { o_sat : str; o_epoch : fnum; o_pos : fnum * fnum * fnum; o_vel : option (fnum * fnum * fnum) }.
Record clk_entry := ClkEntry { c_sat : str; c_epoch : fnum; c_bias : fnum }.
Record att_entry := AttEntry { a_sat : str; a_epoch : fnum; a_quat : fnum * fnum * fnum * fnum }.
Record orbex := Orbex { ox_version : str; ox_orbits : list orb_entry; ox_clocks : list clk_entry; ox_attitudes : list att_entry }.
Inductive ox_section := NoSection | Orb | Clk | Att.
(** orbex.rs:287-299: an error in either mode *)
Definition ox_f64 (s : str) (no : nat) : outcome fnum igs_err := match parse_f64 s with Some v => Ok v | None => Err (BadValue no) end.
(** orbex.rs:168-178 *)
Fixpoint trim_hash (s : str) : str := match s with 35 :: t => trim_hash t | _ => s end.
Definition ox_epoch (l : str) (cur : fnum) : fnum :=
  match split_ws (trim (trim_hash l)) with
  | y :: d :: s :: _ => yo_epoch (or_else (parse_int i32_max y) 2000%Z) (or_else (parse_uint u32_max d) 1) (or_else (parse_f64 s) (Fin 0))
  | _ => cur
  end.
(** orbex.rs:208-281: a line of data *)
Definition few (m : pmode) (no : nat) (ws : list str) (p : orbex) : outcome orbex igs_err := if is_strict m then Err (FewFields no (length ws)) else Ok p.
Definition ox_data (m : pmode) (no : nat) (ep : fnum) (sec : ox_section) (ws : list str) (p : orbex) : outcome orbex igs_err :=
  let '(Orbex ver os cs ats) := p in
  match sec with
  | NoSection => Ok p
  | Orb =>
      match ws with
      | sat :: x :: y :: z :: more =>
          x <- ox_f64 x no ;; y <- ox_f64 y no ;; z <- ox_f64 z no ;;
          v <- match more with
               | vx :: vy :: vz :: _ => vx <- ox_f64 vx no ;; vy <- ox_f64 vy no ;; vz <- ox_f64 vz no ;; Ok (Some (vx, vy, vz))
               | _ => Ok None
               end ;;
          Ok (Orbex ver (os ++ [OrbEntry sat ep (x, y, z) v]) cs ats)
      | _ => few m no ws p
      end
  | Clk =>
      match ws with
      | sat :: b :: _ => b <- ox_f64 b no ;; Ok (Orbex ver os (cs ++ [ClkEntry sat ep b]) ats)
      | _ => few m no ws p
      end
  | Att =>
      match ws with
      | sat :: w :: x :: y :: z :: _ =>
          w <- ox_f64 w no ;; x <- ox_f64 x no ;; y <- ox_f64 y no ;; z <- ox_f64 z no ;; Ok (Orbex ver os cs (ats ++ [AttEntry sat ep (w, x, y, z)]))
      | _ => few m no ws p
      end
  end.
(** orbex.rs:145-282 *)
Fixpoint ox_loop (m : pmode) (ls : list str) (no : nat) (ep : fnum) (sec : ox_section) (p : orbex) : outcome orbex igs_err :=
  match ls with
  | [] => Ok p
  | l :: t =>
      if starts_with (lit "%=ORBEX") l then
        ox_loop m t (S no) ep sec (match split_ws l with _ :: v :: _ => Orbex v (ox_orbits p) (ox_clocks p) (ox_attitudes p) | _ => p end)
      else if starts_with (lit "%ENDORBEX") l || starts_with (lit "%EOF") l then Ok p
      else match l with
           | 37 :: _ | 43 :: _ | 45 :: _ => ox_loop m t (S no) ep sec p
           | 35 :: 35 :: _ => ox_loop m t (S no) (ox_epoch l ep) sec p
           | 35 :: _ =>
               ox_loop m t (S no) ep (if starts_with (lit "#ORB") l then Orb else if starts_with (lit "#CLK") l then Clk else if starts_with (lit "#ATT") l then Att else NoSection) p
           | 32 :: _ =>
               match split_ws l with
               | [] => ox_loop m t (S no) ep sec p
               | ws => p' <- ox_data m no ep sec ws p ;; ox_loop m t (S no) ep sec p'
               end
           | _ => ox_loop m t (S no) ep sec p
           end
  end.
(** orbex.rs:130-285 *)
Definition read_orbex (text : str) (m : pmode) : outcome orbex igs_err := ox_loop m (text_lines text) 1 (Fin 0) NoSection (Orbex [] [] [] []).

(** * Antenna offsets *)
(** antex.rs:55-65 *)
Definition pco : Type := fnum * fnum * fnum.
Definition antenna : Type := list (str * pco).
Definition catalog : Type := list (str * antenna).
(** [str::get] *)
Definition get_to (l : str) (n : nat) : str := if (n <=? length l)%nat && boundary l n then firstn n l else [].
Definition get_from (l : str) (n : nat) : str := if (n <=? length l)%nat && boundary l n then skipn n l else [].
Definition floats (ws : list str) : list fnum := flat_map (fun w => match parse_f64 w with Some v => [v] | None => [] end) ws.
Record ant_state := AntState { t_cat : catalog; t_name : option str; t_pcos : antenna; t_freq : option str }.
(** antex.rs:75-111: one line *)
Definition antex_line (st : ant_state) (l : str) : ant_state :=
  let '(AntState c nm ps fr) := st in
  let label := trim (get_from l 60) in
  let body := get_to l 60 in
  if str_eqb label (lit "START OF ANTENNA") then AntState c None [] None
  else if str_eqb label (lit "TYPE / SERIAL NO") then AntState c (Some (trim body)) ps fr
  else if str_eqb label (lit "START OF FREQUENCY") then AntState c nm ps (match split_ws body with w :: _ => Some w | [] => None end)
  else if str_eqb label (lit "NORTH / EAST / UP") then
    match fr with
    | Some f => match floats (split_ws body) with [n; e; u] => AntState c nm (put f (n, e, u) ps) fr | _ => st end
    | None => st
    end
  else if str_eqb label (lit "END OF FREQUENCY") then AntState c nm ps None
  else if str_eqb label (lit "END OF ANTENNA") then
    match nm with Some n => AntState (put n ps c) None [] fr | None => st end
  else st.
(** antex.rs:68-114 *)
Definition read_antex (text : str) : catalog := t_cat (fold_left antex_line (text_lines text) (AntState [] None [] None)).
(** antex.rs:116-119: a body over 60 bytes is cut, a panic inside a character *)
Definition header_line {E} (body label : str) : outcome str E :=
  b <- (if (60 <? length body)%nat then slice body 0 60 else Ok body) ;; Ok (pad_right 60 b ++ label ++ [10]).
(** order of strings: bytes, from the first *)
Fixpoint str_leb (a b : str) : bool :=
  match a, b with [], _ => true | _ :: _, [] => false | x :: a', y :: b' => if x =? y then str_leb a' b' else x <? y end.
Definition by_key {V} (a b : str * V) : bool := str_leb (fst a) (fst b).
(** antex.rs:176-185 *)
Definition num10 (f : fnum) : str := pad_left 10 (fmt_fixedF 2 f).
Definition freq_body (f : str) : str := lit "   " ++ pad_right 3 f.
Definition pco_body (p : pco) : str := let '(n, e, u) := p in num10 n ++ num10 e ++ num10 u.
Definition freq_text {E} (e : str * pco) : outcome str E :=
  a <- header_line (freq_body (fst e)) (lit "START OF FREQUENCY") ;;
  b <- header_line (pco_body (snd e)) (lit "NORTH / EAST / UP") ;;
  c <- header_line (freq_body (fst e)) (lit "END OF FREQUENCY") ;; Ok (a ++ b ++ c).
Fixpoint texts {A E} (f : A -> outcome str E) (l : list A) : outcome str E :=
  match l with [] => Ok [] | x :: t => a <- f x ;; b <- texts f t ;; Ok (a ++ b) end.
(** antex.rs:169-187; the width of [{:<3}] is of characters, here of bytes *)
Definition antenna_text {E} (e : str * antenna) : outcome str E :=
  a <- header_line [] (lit "START OF ANTENNA") ;; b <- header_line (fst e) (lit "TYPE / SERIAL NO") ;;
  c <- texts freq_text (isort by_key (snd e)) ;; d <- header_line [] (lit "END OF ANTENNA") ;; Ok (a ++ b ++ c ++ d).
(** antex.rs:153-188 *)
Definition write_antex {E} (cat : catalog) : outcome str E :=
  a <- header_line (lit "     1.4            G                  ") (lit "ANTEX VERSION / SYST") ;;
  b <- header_line (lit "ANTEX                                                       ") (lit "PCV TYPE / REFANT") ;;
  c <- header_line [] (lit "END OF HEADER") ;;
  d <- texts antenna_text (isort by_key cat) ;; Ok (a ++ b ++ c ++ d).

(** * Beacon observations *)
(** doris.rs:29-77 *)
Record doris_header := DorisHeader { h_version : str; h_program : str; h_agency : str; h_marker : str; h_antenna : str; h_receiver : str }.
Record doris_obs := DorisObs { d_epoch : fnum; d_sat : str; d_raw : str }.
Record doris := Doris { d_header : doris_header; d_obs : list doris_obs; d_unsupported : nat }.
(** doris.rs:157-169; [y - 1] does not overflow. The floors of the code are of f64 products that are exact or, for
    30.6001 times a number below 20, away from the integers by more than the rounding *)
Definition date_to_mjd (y : Z) (mo d h mi : N) (s : fnum) : fnum :=
  let yy := if mo <=? 2 then (y - 1)%Z else y in
  let mm := if mo <=? 2 then mo + 12 else mo in
  let a := Qfloor (inject_Z yy / 100) in
  let b := (2 - a + Qfloor (inject_Z a / 4))%Z in
  let whole := (inject_Z (Qfloor ((1461 # 4) * (inject_Z yy + 4716))) + inject_Z (Qfloor ((306001 # 10000) * (inject_Z (Z.of_N mm) + 1)))
    + inject_Z (Z.of_N d) + inject_Z b - (30490 # 20))%Q in
  fplus (- (48000010 # 20)) (fplus whole (fover (fplus (inject_Z (Z.of_N h) + inject_Z (Z.of_N mi) / 60) (fover s 3600)) 24)).
Fixpoint trim_eol (s : str) : str := match s with [] => [] | c :: t => match trim_eol t with [] => if (c =? 13) || (c =? 10) then [] else [c] | r => c :: r end end.
(** doris.rs:93-113: a line of the header, true at its end *)
Definition doris_header_line (l : str) (h : doris_header) : outcome (doris_header * bool) igs_err :=
  if (length l <? 61)%nat then Ok (h, false) else
  data <- slice l 0 60 ;; rest <- slice l 60 (length l) ;;
  let label := trim rest in
  let '(DorisHeader ver prog ag mark ant rec) := h in
  if str_eqb label (lit "RINEX VERSION / TYPE") then v <- slice data 0 9 ;; Ok (DorisHeader (trim v) prog ag mark ant rec, false)
  else if str_eqb label (lit "PGM / RUN BY / DATE") then p <- slice data 0 20 ;; a <- slice data 20 40 ;; Ok (DorisHeader ver (trim p) (trim a) mark ant rec, false)
  else if str_eqb label (lit "MARKER NAME") then Ok (DorisHeader ver prog ag (trim data) ant rec, false)
  else if str_eqb label (lit "ANT # / TYPE") then a <- slice data 20 60 ;; Ok (DorisHeader ver prog ag mark (trim a) rec, false)
  else if str_eqb label (lit "REC # / TYPE / VERS") then r <- slice data 20 40 ;; Ok (DorisHeader ver prog ag mark ant (trim r), false)
  else Ok (h, str_eqb label (lit "END OF HEADER")).
(** doris.rs:117-131 *)
Definition doris_epoch (rest : str) (cur : option fnum) : option fnum :=
  match split_ws rest with
  | y :: mo :: d :: h :: mi :: s :: _ =>
      let num w := or_else (parse_uint u32_max w) 0 in
      Some (date_to_mjd (or_else (parse_int i32_max y) 0%Z) (num mo) (num d) (num h) (num mi) (or_else (parse_f64 s) (Fin 0)))
  | _ => cur
  end.
(** doris.rs:114-152; [current_sat] is only ever [None] *)
Definition doris_line (l : str) (ep : option fnum) (obs : list doris_obs) (un : nat) : outcome (option fnum * list doris_obs * nat) igs_err :=
  match l with
  | [] => Ok (ep, obs, un)
  | 62 :: rest => Ok (doris_epoch rest ep, obs, un)
  | c :: _ =>
      sat <- (if (3 <=? length l)%nat && (c =? 68) then s <- slice l 0 3 ;; Ok (Some s) else Ok None) ;;
      match ep, sat with
      | Some mjd, Some sat =>
          raw <- (if (3 <? length l)%nat then r <- slice l 3 (length l) ;; Ok (trim r) else Ok []) ;;
          Ok (ep, obs ++ [DorisObs mjd sat raw], match raw with [] => S un | _ => un end)
      | _, _ => Ok (ep, obs, S un)
      end
  end.
(** doris.rs:80-154 *)
Fixpoint doris_loop (ls : list str) (inh : bool) (h : doris_header) (ep : option fnum) (obs : list doris_obs) (un : nat) : outcome doris igs_err :=
  match ls with
  | [] => Ok (Doris h obs un)
  | l :: t =>
      let l := trim_eol l in
      if inh then r <- doris_header_line l h ;; doris_loop t (negb (snd r)) (fst r) ep obs un
      else r <- doris_line l ep obs un ;; let '(ep, obs, un) := r in doris_loop t false h ep obs un
  end.
Definition parse_doris (text : str) : outcome doris igs_err := doris_loop (split_nl text) true (DorisHeader [] [] [] [] [] []) None [] 0.
