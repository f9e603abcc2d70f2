(** What a navigation file says, read off its lines, independently of the reader. *)
From Coq Require Import Ascii String List NArith ZArith Bool QArith Qround.
From Verif Require Import Base Text DecFloat Lsk_Spec Sp3_Model Oem_Model Ilrs_Model Nav_Model.
Import ListNotations.
Local Open Scope N_scope.

(** A line that begins a record of the satellites read *)
Definition begins (l : str) : Prop := (4 <= length l)%nat /\ exists c t, l = c :: t /\ (c = 71 \/ 48 <= c <= 57).
(** The lines cut into records: a line that begins one takes the seven after it with it. The flag says that the last one is cut short.
    Of each record its first six lines and the number of the first are kept. *)
Definition block := (nat * (str * str * str * str * str * str))%type.
Inductive blocks : list str -> nat -> list block -> option nat -> Prop :=
| B_nil no : blocks [] no [] None
| B_skip l t no bs e : ~ begins l -> blocks t (S no) bs e -> blocks (l :: t) no bs e
| B_rec l0 l1 l2 l3 l4 l5 l6 l7 t no bs e : begins l0 -> blocks t (no + 8) bs e ->
    blocks (l0 :: l1 :: l2 :: l3 :: l4 :: l5 :: l6 :: l7 :: t) no ((no, (l0, l1, l2, l3, l4, l5)) :: bs) e
| B_cut l0 t no : begins l0 -> (length t < 7)%nat -> blocks (l0 :: t) no [] (Some no).
(** The header ends with the first line that has the mark somewhere. *)
Definition marked (l : str) : Prop := exists a b, l = a ++ lit "END OF HEADER" ++ b.
Definition body_of (text : str) (ls : list str) (no : nat) : Prop :=
  exists pre mark, text_lines text = pre ++ mark :: ls /\ Forall (fun l => ~ marked l) pre /\ marked mark /\ no = (length pre + 2)%nat.

(** A word reads as a number: Fortran's letter for the exponent stands for the usual one. *)
Definition usual (c : N) : N := if c =? 68 then 69 else if c =? 100 then 101 else c.
Definition number (w : str) (v : fnum) : Prop := parse_f64 (map usual w) = Some v.
Definition numbers (l : str) (vs : list fnum) : Prop := Forall2 number (split_ws l) vs.
Definition int (w : str) (z : Z) : Prop := parse_int i64_max w = Some z.
(** A character of several bytes lies across the cut before the fourth byte (or before the second, which no UTF-8 text has after a [G]). *)
Definition inside (c : N) : Prop := 128 <= c < 192.
Definition across (l : str) : Prop := inside (nth 3 l 0) \/ (nth 0 l 0 = 71 /\ inside (nth 1 l 0)).
Definition prn_text (l : str) : str := if nth 0 l 0 =? 71 then firstn 2 (skipn 1 l) else firstn 3 l.
(** The first line says: satellite, time, clock terms. *)
Definition head_says (utc_ok : civil -> bool) (l0 : str) (p : N) (t : civil) (a0 a1 a2 : fnum) : Prop :=
  ~ across l0 /\ parse_uint 255 (trim (prn_text l0)) = Some p /\ 0 < p /\
  exists wy wmo wd wh wmi ws w0 w1 w2 more y mo d h mi s, split_ws (skipn 3 l0) = wy :: wmo :: wd :: wh :: wmi :: ws :: w0 :: w1 :: w2 :: more /\
    int wy y /\ int wmo mo /\ int wd d /\ int wh h /\ int wmi mi /\ number ws s /\ build_toc utc_ok y mo d h mi s 0 = Ok t /\
    number w0 a0 /\ number w1 a1 /\ number w2 a2.
(** The record says: in the order of the format's tables, further numbers of a line disregarded. *)
Definition says (utc_ok : civil -> bool) (b : block) (r : nav) : Prop :=
  let '(_, (l0, l1, l2, l3, l4, l5)) := b in
  head_says utc_ok l0 (prn r) (toc r) (af0 r) (af1 r) (af2 r) /\
  (exists x, numbers l1 (iode r :: crs r :: delta_n r :: m0 r :: x)) /\ (exists x, numbers l2 (cuc r :: ecc r :: cus r :: sqrt_a r :: x)) /\
  (exists x, numbers l3 (toe r :: cic r :: omega0 r :: cis r :: x)) /\ (exists x, numbers l4 (i0 r :: crc r :: omega r :: omega_dot r :: x)) /\
  (exists x, numbers l5 (idot r :: x)).
(** All its words read, but a line has too few. *)
Definition short_of_numbers (utc_ok : civil -> bool) (b : block) : Prop :=
  let '(_, (l0, l1, l2, l3, l4, l5)) := b in
  (exists p t a0 a1 a2, head_says utc_ok l0 p t a0 a1 a2) /\
  exists v1 v2 v3 v4 v5, numbers l1 v1 /\ numbers l2 v2 /\ numbers l3 v3 /\ numbers l4 v4 /\ numbers l5 v5 /\
    (length v1 < 4 \/ length v2 < 4 \/ length v3 < 4 \/ length v4 < 4 \/ length v5 < 1)%nat.
(** The records among the blocks, and those only *)
Inductive kept (utc_ok : civil -> bool) : list block -> list nav -> Prop :=
| K_nil : kept utc_ok [] []
| K_read b r bs rs : says utc_ok b r -> kept utc_ok bs rs -> kept utc_ok (b :: bs) (r :: rs)
| K_drop b bs rs : (forall r, ~ says utc_ok b r) -> kept utc_ok bs rs -> kept utc_ok (b :: bs) rs.
