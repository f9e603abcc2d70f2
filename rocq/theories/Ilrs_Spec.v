(** What a laser ranging file says, line by line. *)
From Coq Require Import Ascii String List NArith ZArith Bool QArith Qabs Qround.
From Verif Require Import Base Text DecFloat Lsk_Spec Sp3_Model Ilrs_Model.
Import ListNotations.
Local Open Scope N_scope.

(** The day of a civil time counted from 17 November 1858, and the nanoseconds since its midnight *)
Definition day_of (c : civil) : Z :=
  (day_number (Sp3_Model.year c) (Z.of_N (Sp3_Model.month c)) (Z.of_N (Sp3_Model.day c)) - day_number 1858 11 17)%Z.
Definition ns_of (c : civil) : Z := Z.of_N ((hour c * 3600 + minute c * 60 + second c) * 1000000000 + nano c).
Definition dated (c : civil) : Prop := (1 <= Sp3_Model.year c)%Z /\ date_ok (Sp3_Model.year c) (Z.of_N (Sp3_Model.month c)) (Z.of_N (Sp3_Model.day c)).
(** 1 January of year 1 to 31 December 9999 *)
Definition first_mjd : Z := -678575.
Definition last_mjd : Z := 2973483.

(** The first word of a line; the lines before the end mark *)
Definition tagged (k : string) (l : str) : bool := match split_ws l with t :: _ => str_eqb t (lit k) | [] => false end.
Fixpoint before_end (ls : list str) : list str :=
  match ls with [] => [] | l :: t => if tagged "99" l then [] else l :: before_end t end.

(** A complete position record *)
Definition record10 (l : str) (mjd : Z) (sod x y z : fnum) : Prop := exists d mw sw k xw yw zw rest,
  split_ws l = lit "10" :: d :: mw :: sw :: k :: xw :: yw :: zw :: rest /\
  parse_int i64_max mw = Some mjd /\ parse_f64 sw = Some sod /\ parse_f64 xw = Some x /\ parse_f64 yw = Some y /\ parse_f64 zw = Some z.
Definition readable10 (l : str) : bool :=
  tagged "10" l && match split_ws l with
  | _ :: _ :: mw :: sw :: _ :: xw :: yw :: zw :: _ =>
      match parse_int i64_max mw, parse_f64 sw, parse_f64 xw, parse_f64 yw, parse_f64 zw with Some _, Some _, Some _, Some _, Some _ => true | _, _, _, _, _ => false end
  | _ => false
  end.
(** a metre value in kilometres *)
Definition km_of (m k : fnum) : Prop := match m with Fin q => exists r, k = Fin r /\ (r * 1000 == q)%Q | _ => k = m end.
(** The entry a record describes. Its time is claimed for seconds that are not negative and days of the years 1 to 9999. *)
Definition entry_of (l : str) (e : cpf_entry) : Prop := exists mjd sod x y z, record10 l mjd sod x y z /\
  km_of x (e_x e) /\ km_of y (e_y e) /\ km_of z (e_z e) /\
  (forall q, sod = Fin q -> (0 <= q)%Q -> (first_mjd <= mjd <= last_mjd)%Z ->
     (q < 86400)%Q /\ dated (e_epoch e) /\ day_of (e_epoch e) = mjd /\ (Qabs (inject_Z (ns_of (e_epoch e)) - q * 1000000000) <= 1 # 2)%Q).

(** Observation files: the last line of a list with some reading *)
Definition last_with {A} (r : str -> option A) (ls : list str) (o : option A) : Prop :=
  (o = None /\ Forall (fun l => r l = None) ls) \/ exists a l b v, ls = a ++ l :: b /\ r l = Some v /\ o = Some v /\ Forall (fun l' => r l' = None) b.
Definition config_named (l : str) : option str :=
  match split_ws l with t :: _ :: c :: _ => if str_eqb t (lit "C0") then Some c else None | _ => None end.
(** A data line that carries both numbers; the lines with their predecessors *)
Definition flight (l : str) : option (fnum * fnum) :=
  match split_ws l with _ :: a :: b :: _ => match parse_f64 a, parse_f64 b with Some s, Some t => Some (s, t) | _, _ => None end | _ => None end.
Definition normal (l : str) : bool := tagged "11" l && match flight l with Some _ => true | None => false end.
Fixpoint with_before (pre : list str) (ls : list str) : list (list str * str) :=
  match ls with [] => [] | l :: t => (pre, l) :: with_before (pre ++ [l]) t end.
Definition data_line (l : str) : bool := tagged "10" l || tagged "11" l.
Definition broken (l : str) : bool := data_line l && match flight l with Some _ => false | None => true end.

(** The day a session line names, by the calendar crate and the time crate; a year that cannot be read counts as 0 *)
Definition session_on (utc_ok : civil -> bool) (l : str) : option (Z * N * N) :=
  match split_ws l with
  | t :: _ :: yw :: mw :: dw :: _ =>
      if str_eqb t (lit "H4") then
        match parse_uint u32_max mw, parse_uint u32_max dw with
        | Some m, Some d =>
            let y := match parse_int i32_max yw with Some y => y | None => 0%Z end in
            if ymd_ok y m d && utc_ok (Civil y m d 0 0 0 0) then Some (y, m, d) else None
        | _, _ => None
        end
      else None
  | _ => None
  end.
(** The fraction of a second rounds up to a whole one at nine decimals *)
Definition rounds_up (q : Q) : Prop := (1 - (1 # 2000000000) <= q - inject_Z (Qfloor q))%Q.
(** The time of a point on a known day *)
Definition epoch_says (utc_ok : civil -> bool) (day : option (Z * N * N)) (sod : fnum) (ep : option civil) : Prop :=
  match day with
  | None => ep = None
  | Some (y, m, d) => forall q, sod = Fin q -> (0 <= q)%Q ->
      ((86400 <= q)%Q -> (q <= 10000000000000)%Q -> ep = None) /\
      ((q < 86400)%Q -> ~ rounds_up q -> exists c, Sp3_Model.year c = y /\ Sp3_Model.month c = m /\ Sp3_Model.day c = d /\
         (Qabs (inject_Z (ns_of c) - q * 1000000000) <= 1 # 2)%Q /\ ep = if utc_ok c then Some c else None)
  end.
(** Half the light path of a time of flight *)
Definition half_path (t r : fnum) : Prop := match t with Fin q => exists v, r = Fin v /\ (v * 2 == q * 299792458)%Q | _ => r = t end.
Definition flag8 (l : str) (k : nat) : N := match nth_error (split_ws l) k with Some w => match parse_uint 255 w with Some n => n | None => 0 end | None => 0 end.
Definition number (l : str) (k : nat) : option fnum := match nth_error (split_ws l) k with Some w => parse_f64 w | None => None end.
Definition point_says (utc_ok : civil -> bool) (pre : list str) (l : str) (p : point) : Prop :=
  flight l = Some (p_sod p, p_tof p) /\ half_path (p_tof p) (p_range p) /\
  (exists day, last_with (session_on utc_ok) pre day /\ epoch_says utc_ok day (p_sod p) (p_epoch p)) /\
  (exists cfg, last_with config_named pre cfg /\
     p_sys p = match nth_error (split_ws l) 3 with Some w => w | None => match cfg with Some c => c | None => lit "std" end end) /\
  p_event p = flag8 l 4 /\ p_filter p = flag8 l 5 /\ p_quality p = flag8 l 6 /\ p_format p = flag8 l 7 /\
  p_raws p = match nth_error (split_ws l) 8 with Some w => parse_uint u32_max w | None => None end /\
  match number l 9 with
  | Some (Fin ps) => exists r, p_rms p = Some (Fin r) /\ (r * 2 == ps * (1 # 1000000000000) * 299792458)%Q
  | o => p_rms p = o
  end /\
  p_rate p = number l 12.
