(** Broadcast navigation files (src/formats/rinex/nav.rs): reader in its two modes and writer.

    Text is bytes, a multi-byte character counting as its bytes and slices refused inside one; white space is
    that of ASCII, and a carriage return before the end of a line is taken off. Floating-point values are exact
    decimals, infinities and NaN ([fnum]): the rounding of a decimal to f64 and of the fraction of a second is not
    modelled. The calendar crate is represented by the calendar counted year by year within its years ([ymd_ok]) and
    the time crate by [utc_ok], which says of which civil times it makes an instant; an instant is its civil time,
    and the way back from it never fails. Units are those of the numbers read. *)
From Coq Require Import Ascii String List NArith ZArith Bool QArith Qround.
From Verif Require Import Base Text DecFloat Lsk_Spec Sp3_Model Oem_Model Omm_Model Ilrs_Model.
Import ListNotations.
Local Open Scope N_scope.
Local Open Scope outcome_scope.

(** nav.rs:44-89 *)
Record nav := Nav { prn : N; toc : civil; af0 : fnum; af1 : fnum; af2 : fnum;
  iode : fnum; crs : fnum; delta_n : fnum; m0 : fnum;
  cuc : fnum; ecc : fnum; cus : fnum; sqrt_a : fnum;
  toe : fnum; cic : fnum; omega0 : fnum; cis : fnum;
  i0 : fnum; crc : fnum; omega : fnum; omega_dot : fnum; idot : fnum }.
(** What failed; all but the first at a line *)
Inductive nav_err := NoHeader | Truncated (line : nat) | BadPrn (line : nat) | FewTokens (line : nat) (got : nat) | BadInt (line : nat) (k : nat)
  | BadFloat (line : nat) | BadToc (line : nat) | ShortBody (line : nat) (got : nat).
Definition nres A := outcome A nav_err.

(** [str::lines] *)
Definition chop_cr (l : str) : str := match rev l with 13 :: r => rev r | _ => l end.
Definition text_lines (s : str) : list str := map chop_cr (split_nl s).
(** [str::contains] *)
Fixpoint within (p s : str) : bool := starts_with p s || match s with [] => false | _ :: t => within p t end.
Definition end_mark : str := lit "END OF HEADER".

(** nav.rs:434-445: both letters replaced, then read as a float *)
Definition d_to_e (c : N) : N := if c =? 68 then 69 else if c =? 100 then 101 else c.
Definition parse_d (s : str) (no : nat) : nres fnum := match parse_f64 (map d_to_e s) with Some v => Ok v | None => Err (BadFloat no) end.
(** nav.rs:447-451 *)
Fixpoint all_floats (ws : list str) (no : nat) : nres (list fnum) :=
  match ws with [] => Ok [] | w :: r => v <- parse_d w no ;; vs <- all_floats r no ;; Ok (v :: vs) end.
Definition collect_floats (l : str) (no : nat) : nres (list fnum) := all_floats (split_ws l) no.

Section Reader.
Variable utc_ok : civil -> bool.
(** nav.rs:231: long enough and beginning with [G] or a digit *)
Definition starts_record (l : str) : bool := (4 <=? length l)%nat && match l with c :: _ => (c =? 71) || is_digit c | [] => false end.
(** nav.rs:248-267 *)
Definition parse_prn (l0 : str) (no : nat) : nres N :=
  s <- slice l0 (match l0 with 71 :: _ => 1%nat | _ => 0%nat end) 3 ;;
  match parse_uint 255 (trim s) with Some p => if 0 <? p then Ok p else Err (BadPrn no) | None => Err (BadPrn no) end.
(** [s.parse::<i64>()] of the k-th token *)
Definition toc_int (s : str) (no k : nat) : nres Z := match parse_int i64_max s with Some z => Ok z | None => Err (BadInt no k) end.
(** nav.rs:297-299: whole seconds as [u64], the rest as nanoseconds *)
Definition rest_nanos (s : fnum) : N := round_u32 (fmul (fplus (- inject_Z (Z.of_N (trunc_u64 s))) s) 1000000000).
(** nav.rs:297-318, the [as] conversions wrapping *)
Definition build_toc (y mo d h mi : Z) (s : fnum) (no : nat) : nres civil :=
  let c := Civil (i32_of y) (u32_of mo) (u32_of d) (u32_of h) (u32_of mi) (trunc_u64 s mod 4294967296) (rest_nanos s) in
  if ymd_ok (year c) (month c) (day c) && hms_ok (hour c) (minute c) (second c) (nano c) && utc_ok c then Ok c else Err (BadToc no).
(** nav.rs:269-330 *)
Definition parse_line0 (l0 : str) (no : nat) : nres (civil * fnum * fnum * fnum) :=
  rest <- slice l0 3 (length l0) ;;
  match split_ws rest with
  | y :: mo :: d :: h :: mi :: s :: a0 :: a1 :: a2 :: _ =>
      y <- toc_int y no 0 ;; mo <- toc_int mo no 1 ;; d <- toc_int d no 2 ;; h <- toc_int h no 3 ;; mi <- toc_int mi no 4 ;;
      s <- parse_d s no ;; t <- build_toc y mo d h mi s no ;;
      a0 <- parse_d a0 no ;; a1 <- parse_d a1 no ;; a2 <- parse_d a2 no ;; Ok (t, a0, a1, a2)
  | ws => Err (FewTokens no (length ws))
  end.
(** nav.rs:333-347: too few numbers are an error in strict mode only *)
Definition parse_body (m : pmode) (l : str) (no expected : nat) : nres (list fnum) :=
  vs <- collect_floats l no ;;
  if (length vs <? expected)%nat && is_strict m then Err (ShortBody no (length vs)) else Ok vs.
(** [v[i]]: a panic past the end *)
Definition at_ix {A} (v : list A) (i : nat) : nres A := match nth_error v i with Some x => Ok x | None => Panic end.
(** nav.rs:247-424; [no] is the number of the first of the eight lines, from 1; the last two are not looked at *)
Definition record (m : pmode) (l0 l1 l2 l3 l4 l5 : str) (no : nat) : nres nav :=
  p <- parse_prn l0 no ;; h <- parse_line0 l0 no ;;
  v1 <- parse_body m l1 (no + 1) 4 ;; v2 <- parse_body m l2 (no + 2) 4 ;; v3 <- parse_body m l3 (no + 3) 4 ;;
  v4 <- parse_body m l4 (no + 4) 4 ;; v5 <- parse_body m l5 (no + 5) 1 ;;
  let '(t, a0, a1, a2) := h in
  x10 <- at_ix v1 0 ;; x11 <- at_ix v1 1 ;; x12 <- at_ix v1 2 ;; x13 <- at_ix v1 3 ;;
  x20 <- at_ix v2 0 ;; x21 <- at_ix v2 1 ;; x22 <- at_ix v2 2 ;; x23 <- at_ix v2 3 ;;
  x30 <- at_ix v3 0 ;; x31 <- at_ix v3 1 ;; x32 <- at_ix v3 2 ;; x33 <- at_ix v3 3 ;;
  x40 <- at_ix v4 0 ;; x41 <- at_ix v4 1 ;; x42 <- at_ix v4 2 ;; x43 <- at_ix v4 3 ;; x50 <- at_ix v5 0 ;;
  Ok (Nav p t a0 a1 a2 x10 x11 x12 x13 x20 x21 x22 x23 x30 x31 x32 x33 x40 x41 x42 x43 x50).
(** nav.rs:224-428 *)
Fixpoint nav_loop (m : pmode) (ls : list str) (no : nat) (acc : list nav) : nres (list nav) :=
  match ls with
  | [] => Ok acc
  | l0 :: t =>
      if negb (starts_record l0) then nav_loop m t (S no) acc
      else match t with
           | l1 :: l2 :: l3 :: l4 :: l5 :: _ :: _ :: rest =>
               match record m l0 l1 l2 l3 l4 l5 no with
               | Ok r => nav_loop m rest (no + 8) (acc ++ [r])
               | Err e => if is_strict m then Err e else nav_loop m rest (no + 8) acc
               | Panic => Panic
               end
           | _ => if is_strict m then Err (Truncated no) else Ok acc
           end
  end.
(** nav.rs:208-224: the lines after the first with the mark, and how many came before *)
Fixpoint after_header (ls : list str) (no : nat) : option (list str * nat) :=
  match ls with [] => None | l :: t => if within end_mark l then Some (t, S no) else after_header t (S no) end.
Definition parse_nav (text : str) (m : pmode) : nres (list nav) :=
  match after_header (text_lines text) 1 with
  | Some (ls, no) => nav_loop m ls no []
  | None => if is_strict m then Err NoHeader else Ok []
  end.
End Reader.

(** nav.rs:455-461: twelve decimals, the letter [D], right-aligned in 19; what is not finite as a zero of 21 *)
Definition d_word (f : fnum) : str :=
  match f with
  | Fin q => map (fun c => if c =? 101 then 68 else c) (fmt_exp 12 q)
  | _ => lit "0.000000000000000D+00"
  end.
Definition fmt_d (f : fnum) : str := pad_left 19 (d_word f).
(** [{:04}] of a signed number *)
Definition padz (w : nat) (z : Z) : str := if (z <? 0)%Z then 45 :: pad0 (w - 1) (Z.abs_N z) else pad0 w (Z.abs_N z).
(** nav.rs:513-533: the fraction of the second is dropped, a leap second's 60 kept *)
Definition line0 (r : nav) : str :=
  let c := toc r in
  [71] ++ pad0 2 (prn r) ++ [32] ++ padz 4 (year c) ++ [32] ++ pad0 2 (month c) ++ [32] ++ pad0 2 (day c) ++ [32] ++ pad0 2 (hour c) ++ [32]
  ++ pad0 2 (minute c) ++ [32] ++ pad0 2 (trunc_u32 (Fin (seconds c))) ++ fmt_d (af0 r) ++ fmt_d (af1 r) ++ fmt_d (af2 r).
(** nav.rs:534-543 *)
Definition cont (a b c d : fnum) : str := repeat 32 4 ++ fmt_d a ++ fmt_d b ++ fmt_d c ++ fmt_d d.
(** nav.rs:544-566 *)
Definition write_rec (r : nav) : list str :=
  [ line0 r; cont (iode r) (crs r) (delta_n r) (m0 r); cont (cuc r) (ecc r) (cus r) (sqrt_a r); cont (toe r) (cic r) (omega0 r) (cis r);
    cont (i0 r) (crc r) (omega r) (omega_dot r); cont (idot r) (Fin 0) (Fin 0) (Fin 0);
    cont (Fin 0) (Fin 0) (Fin 0) (Fin 0); cont (Fin 0) (Fin 0) (Fin 0) (Fin 0) ].
(** nav.rs:501-569; both header bodies are shorter than sixty *)
Definition nav_header : list str :=
  [ pad_right 60 (lit "     3.04           N: GNSS NAV DATA    M (Mixed)") ++ lit "RINEX VERSION / TYPE"; pad_right 60 [] ++ end_mark ].
Definition write_nav (rs : list nav) : str := flat_map (fun l => l ++ [10]) (nav_header ++ flat_map write_rec rs).
