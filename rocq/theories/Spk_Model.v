(** Model of SPK segment reading (/repo/src/formats/spice/spk.rs). Doubles are bit patterns. *)
From Coq Require Import List NArith ZArith Bool.
From Verif Require Import Base Text Daf_Model.
Import ListNotations.
Local Open Scope N_scope.
Local Open Scope outcome_scope.

(** Predicates on double bit patterns: [is_finite], [x <= 0.0], [x < 0.0], [x.fract() == 0.0]
    (the last for finite [x]). *)
Definition f64_finite (w : N) : bool := negb (f64_exp w =? 2047).
Definition f64_zero (w : N) : bool := (w =? 0) || (w =? 9223372036854775808).
Definition f64_le0 (w : N) : bool := f64_neg w || f64_zero w.
Definition f64_lt0 (w : N) : bool := f64_neg w && negb (f64_zero w).
Definition f64_integral (w : N) : bool :=
  if f64_exp w =? 0 then f64_man w =? 0
  else if 1075 <=? f64_exp w then true
  else (f64_man w + 4503599627370496) mod 2 ^ (1075 - f64_exp w) =? 0.

Inductive seg_err := SegDaf (e : daf_err) | WordZero | WordPastEof (w : N) | NotFinite (w : N)
| BadSpan | BadIntlen | BadCount | BadRsize | BadType (t : Z) | BadShape | Overflow | Overlap | NoSegments.

(** spk.rs:16-30 *)
Record segment_data := SegmentData { g_type : Z; g_init : N; g_intlen : N; g_rsize : N; g_ncoeff : N;
  g_n : N; g_records : list N }.

Section Read.
  Variable data : list N.

  (** spk.rs:79-96 *)
  Definition ensure_word (w : N) : outcome unit seg_err :=
    if w =? 0 then Err WordZero
    else if N.of_nat (length data / 8) <? w then Err (WordPastEof w) else Ok tt.
  (** daf.rs:205-209 *)
  Definition word_at (w : N) : outcome N seg_err :=
    if w =? 0 then Panic else read_f64 true data ((w - 1) * 8).
  (** spk.rs:98-112 *)
  Definition read_trailer (w : N) : outcome N seg_err :=
    _ <- ensure_word w ;; v <- word_at w ;; if f64_finite v then Ok v else Err (NotFinite w).
  (** spk.rs:218-222 *)
  Fixpoint read_words (w : N) (k : nat) : outcome (list N) seg_err :=
    match k with
    | O => Ok []
    | S k' => _ <- ensure_word w ;; v <- word_at w ;; r <- read_words (w + 1) k' ;; Ok (v :: r)
    end.

  (** spk.rs:115-233 [read_segment]; [start + 3] is checked arithmetic (debug build) *)
  Definition read_segment (s : summary) : outcome segment_data seg_err :=
    let st := s_start_word s in
    let en := s_end_word s in
    if (st =? 0) || (en =? 0) then Err BadSpan
    else if en <? st then Err BadSpan
    else if M64 <=? st + 3 then Panic
    else if en <? st + 3 then Err BadSpan
    else
      _ <- ensure_word en ;; _ <- ensure_word (en - 1) ;; _ <- ensure_word (en - 2) ;; _ <- ensure_word (en - 3) ;;
      n_f <- read_trailer en ;; rsize_f <- read_trailer (en - 1) ;;
      intlen <- read_trailer (en - 2) ;; init <- read_trailer (en - 3) ;;
      if f64_le0 intlen then Err BadIntlen
      else if negb (f64_integral n_f) || f64_lt0 n_f then Err BadCount
      else
        let n := f64_as_usize n_f in
        if (n =? 0) || (10000000 <? n) then Err BadCount
        else if negb (f64_integral rsize_f) then Err BadRsize
        else
          let rsize := f64_as_usize rsize_f in
          if negb ((5 <=? rsize) && (rsize <=? 200)) then Err BadRsize
          else
            axes <- (if (s_type s =? 2)%Z then Ok 3 else if (s_type s =? 3)%Z then Ok 6 else Err (BadType (s_type s))) ;;
            let ncoeff := (rsize - 2) / axes in
            if negb (2 + axes * ncoeff =? rsize) then Err BadShape
            else if M64 <=? n * rsize then Err Overflow
            else
              let total := n * rsize in
              if M64 <=? st + total then Err Overflow
              else
                let last := st + total - 1 in
                if en - 4 <? last then Err Overlap
                else
                  _ <- ensure_word last ;;
                  records <- read_words st (N.to_nat total) ;;
                  Ok (SegmentData (s_type s) init intlen rsize ncoeff n records).

  (** spk.rs:248-272 [parse_indexed_segments], after the directory has been parsed *)
  Fixpoint index_segments (l : list summary) : outcome (list (summary * segment_data)) seg_err :=
    match l with
    | [] => Ok []
    | s :: t =>
        if negb (s_frame s =? 1)%Z || (negb (s_type s =? 2)%Z && negb (s_type s =? 3)%Z) then index_segments t
        else d <- read_segment s ;; r <- index_segments t ;; Ok ((s, d) :: r)
    end.
  Definition parse_indexed (l : list summary) : outcome (list (summary * segment_data)) seg_err :=
    r <- index_segments l ;; match r with [] => Err NoSegments | _ => Ok r end.
End Read.
