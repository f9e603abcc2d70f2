(** Model of SPK segments (/repo/src/formats/spice/segment.rs). Finite floats are exact rationals;
    the Chebyshev series evaluation itself lives in an external crate and is not modelled. *)
From Coq Require Import List NArith ZArith QArith Qround Qabs Bool.
From Verif Require Import Base DecFloat Fnum.
Import ListNotations.
Local Open Scope Q_scope.
Local Open Scope outcome_scope.

Inductive segerr := SegParse | SegCorrupted | SegCoverage | SegType.

(** [f64::EPSILON] *)
Definition eps : Q := 1 # 4503599627370496.
Definition qlt (a b : Q) : bool := negb (Qle_bool b a).

(** ** Words of the file *)
(** daf.rs [read_f64_at_word]: word numbers start at one; [None] is a panic *)
Definition reader := N -> option fnum.
Definition read (rd : reader) (w : N) : outcome fnum segerr := match rd w with Some f => Ok f | None => Panic end.
Fixpoint read_from (rd : reader) (w : N) (k : nat) : outcome (list fnum) segerr :=
  match k with
  | O => Ok []
  | S k' => x <- read rd w ;; r <- read_from rd (w + 1)%N k' ;; Ok (x :: r)
  end.
(** [as usize]: towards zero, saturating, NaN to zero *)
Definition usize_max : N := 18446744073709551615.
Definition as_usize (f : fnum) : N :=
  match f with
  | NaN => 0
  | Inf neg => if neg then 0 else usize_max
  | Fin q => N.min usize_max (Z.to_N (Qfloor q))
  end.
Definition usize (n : N) : outcome N segerr := if (n <=? usize_max)%N then Ok n else Panic.

(** ** Chebyshev segments: segment.rs:117-134 *)
Record cheb := Cheb { ch_init : Q; ch_intlen : Q; ch_rsize : N; ch_ncoeff : N; ch_n : N; ch_records : list fnum }.

(** segment.rs:404-481 *)
Definition read_chebyshev (rd : reader) (start_word end_word components : N) : outcome cheb segerr :=
  if (end_word <? 4)%N then Err SegParse else
  n_f <- read rd end_word ;;
  r_f <- read rd (end_word - 1)%N ;;
  intlen <- read rd (end_word - 2)%N ;;
  init <- read rd (end_word - 3)%N ;;
  let n := as_usize n_f in
  let rsize := as_usize r_f in
  if negb ((5 <=? rsize) && (rsize <=? 4096))%N then Err SegParse else
  if negb (((rsize - 2) mod components =? 0)%N) then Err SegParse else
  if ((n =? 0) || (10000000 <? n))%N then Err SegParse else
  match intlen, init with
  | Fin il, Fin i0 =>
      if Qle_bool il 0 then Err SegParse else
      last <- usize (start_word + n * rsize)%N ;;
      if (end_word <? last - 1)%N then Err SegParse else
      records <- read_from rd start_word (N.to_nat (n * rsize)) ;;
      Ok (Cheb i0 il rsize ((rsize - 2) / components) n records)
  | _, _ => Err SegParse
  end.

(** segment.rs:138-173; exact hits of the array ends stay inside *)
Definition locate (c : cheb) (et : fnum) : outcome (N * Q * Q) segerr :=
  match et with
  | Fin t =>
      let end_ := ch_init c + ch_intlen c * inject_Z (Z.of_N (ch_n c)) in
      if qlt t (ch_init c) || qlt end_ t then Err SegCoverage else
      let idx := Z.to_N (Z.max 0 (Qfloor ((t - ch_init c) / ch_intlen c))) in
      let idx := if (ch_n c <=? idx)%N then (ch_n c - 1)%N else idx in
      let off := N.to_nat (idx * ch_rsize c)%N in
      match nth_error (ch_records c) off, nth_error (ch_records c) (S off) with
      | Some mid, Some radius =>
          match radius with
          | Fin r => if Qle_bool r 0 then Err SegCorrupted else
              match mid with Fin m => Ok (idx, m, r) | _ => Err SegCorrupted end
          | _ => Err SegCorrupted
          end
      | _, _ => Panic
      end
  | _ => Err SegCorrupted
  end.
(** segment.rs:176-191, 194-206: the normalised time and the coefficients of each component.
    [locate] above refuses a middle that is not finite; the code carries on with NaN. *)
Definition series (c : cheb) (components : nat) (et : fnum) : outcome (Q * list (list fnum)) segerr :=
  l <- locate c et ;;
  let '(idx, mid, radius) := l in
  match et with
  | Fin t =>
      let off := (N.to_nat (idx * ch_rsize c) + 2)%nat in
      let n := N.to_nat (ch_ncoeff c) in
      if (off + components * n <=? length (ch_records c))%nat
      then Ok ((t - mid) / radius, map (fun i => firstn n (skipn (off + i * n) (ch_records c))) (seq 0 components))
      else Panic
  | _ => Err SegCorrupted
  end.

(** ** Discrete states: segment.rs:211-225 *)
Record discrete := Discrete { di_type : N; di_size : nat; di_n : nat; di_states : list Q; di_epochs : list Q; di_directory : list Q }.

Fixpoint finite (l : list fnum) : option (list Q) :=
  match l with
  | [] => Some []
  | Fin q :: t => match finite t with Some r => Some (q :: r) | None => None end
  | _ => None
  end.
Fixpoint increasing (l : list Q) : bool :=
  match l with
  | a :: t => match t with b :: _ => qlt a b && increasing t | [] => true end
  | [] => true
  end.

(** segment.rs:483-590, after the words are read; [n_words] is their number *)
Definition discrete_of_words (words : list fnum) (data_type : N) : outcome discrete segerr :=
  let n_words := length words in
  match nth_error words (n_words - 1), nth_error words (n_words - 2) with
  | Some n_f, Some d_f =>
      match n_f, d_f with
      | Fin nq, Fin dq =>
          if qlt nq 1 then Err SegParse else
          if qlt dq 0 then Err SegParse else
          let n := as_usize n_f in
          let descriptor := as_usize d_f in
          if (usize_max <? n * 6)%N then Err SegParse else
          epoch_end <- usize (n * 7)%N ;;
          stop <- usize (epoch_end + 2)%N ;;
          if (N.of_nat n_words <? stop)%N then Err SegParse else
          let n := N.to_nat n in
          match finite (firstn (n * 6) words), finite (firstn n (skipn (n * 6) words)), finite (firstn (n_words - 2 - n * 7) (skipn (n * 7) words)) with
          | Some states, Some epochs, Some directory =>
              if negb (increasing epochs) then Err SegParse else
              if (data_type =? 9)%N then
                if (descriptor =? 0)%N then Err SegParse else
                d1 <- usize (descriptor + 1)%N ;;
                if ((N.of_nat n <? d1) || (31 <? descriptor))%N then Err SegParse else
                Ok (Discrete data_type (N.to_nat descriptor) n states epochs directory)
              else
                d1 <- usize (descriptor + 1)%N ;;
                if ((d1 <? 2) || (N.of_nat n <? d1) || (16 <? d1))%N then Err SegParse else
                Ok (Discrete data_type (N.to_nat d1) n states epochs directory)
          | _, _, _ => Err SegCorrupted
          end
      | _, _ => Err SegParse
      end
  | _, _ => Panic
  end.
Definition read_discrete_states (rd : reader) (start_word end_word data_type : N) : outcome discrete segerr :=
  if (end_word <? start_word)%N then Err SegParse else
  let n_words := (end_word - start_word + 1)%N in
  if (usize_max <? n_words)%N then Err SegParse else
  if (n_words <? 9)%N then Err SegParse else
  words <- read_from rd start_word (N.to_nat n_words) ;;
  discrete_of_words words data_type.

(** segment.rs:237-250 *)
Definition state_record (s : discrete) (idx : nat) : outcome (list Q) segerr :=
  if (idx * 6 + 6 <=? length (di_states s))%nat then Ok (firstn 6 (skipn (idx * 6) (di_states s))) else Err SegParse.

(** [binary_search_by] on a strictly increasing slice: the position of the value, or of the first
    larger one *)
Inductive found := Hit (i : nat) | Miss (i : nat).
Fixpoint search (l : list Q) (x : Q) (i : nat) : found :=
  match l with
  | [] => Miss i
  | e :: t => if qlt e x then search t x (S i) else if qlt x e then Miss i else Hit i
  end.
Inductive selection := Exact (i : nat) | Window (first count : nat).
(** segment.rs:252-292 *)
Definition locate_or_window (s : discrete) (et : fnum) (count : nat) : outcome selection segerr :=
  match et with
  | Fin t =>
      match di_epochs s with
      | [] => if Nat.eqb (di_n s) 0 then Err SegCoverage else
              if (Nat.eqb count 0 || (di_n s <? count)%nat) then Err SegParse else Ok (Window 0 count)
      | e0 :: _ =>
          if Nat.eqb (di_n s) 0 || qlt t e0 || qlt (last (di_epochs s) e0) t then Err SegCoverage else
          match search (di_epochs s) t 0 with
          | Hit i => Ok (Exact i)
          | Miss ins =>
              if Nat.eqb count 0 || (di_n s <? count)%nat then Err SegParse else
              let first := (ins - Nat.div count 2)%nat in
              let first := if (di_n s <? first + count)%nat then (di_n s - count)%nat else first in
              Ok (Window first count)
          end
      end
  | _ => Err SegCorrupted
  end.

(** ** Lagrange: segment.rs:592-617 *)
(** the inner loop; [i] and [j] are positions *)
Fixpoint basis (xs : list Q) (i j : nat) (xi x acc : Q) : outcome Q segerr :=
  match xs with
  | [] => Ok acc
  | xj :: t =>
      if Nat.eqb i j then basis t i (S j) xi x acc
      else if Qle_bool (Qabs (xi - xj)) eps then Err SegCorrupted
      else basis t i (S j) xi x (acc * ((x - xj) / (xi - xj)))
  end.
Fixpoint lagrange_sum (all xs ys : list Q) (i : nat) (x acc : Q) : outcome Q segerr :=
  match xs, ys with
  | xi :: xt, yi :: yt => b <- basis all i 0 xi x 1 ;; lagrange_sum all xt yt (S i) x (acc + yi * b)
  | _, _ => Ok acc
  end.
Definition lagrange_value (xs ys : list Q) (x : Q) : outcome Q segerr :=
  if negb (Nat.eqb (length xs) (length ys)) || Nat.eqb (length xs) 0 then Err SegParse
  else lagrange_sum xs xs ys 0 x 0.

(** ** Hermite: segment.rs:619-683 *)
(** segment.rs:636-656: for each doubled node its abscissa, value and first difference; [prev] is
    the previous node *)
Fixpoint doubled (xs ys ds : list Q) (prev : option (Q * Q)) : outcome (list (Q * Q * Q)) segerr :=
  match xs, ys, ds with
  | x :: xt, y :: yt, d :: dt =>
      match prev with
      | None => r <- doubled xt yt dt (Some (x, y)) ;; Ok ((x, y, d) :: (x, y, d) :: r)
      | Some (px, py) =>
          if Qle_bool (Qabs (x - px)) eps then Err SegCorrupted
          else r <- doubled xt yt dt (Some (x, y)) ;; Ok ((x, y, (y - py) / (x - px)) :: (x, y, d) :: r)
      end
  | _, _, _ => Ok []
  end.
(** segment.rs:660-669: the entries [2..=i] of a row; [last] is the entry before, [prev] the
    matching entries of the row above and [zs] the earlier abscissae, latest first. The matrix is
    kept as rows of their used length. *)
Fixpoint diffs (last : Q) (prev zs : list Q) (zi : Q) : outcome (list Q) segerr :=
  match prev, zs with
  | p :: ps, z :: zt =>
      if Qle_bool (Qabs (zi - z)) eps then Err SegCorrupted
      else let e := (last - p) / (zi - z) in r <- diffs e ps zt zi ;; Ok (e :: r)
  | _, _ => Ok []
  end.
(** The diagonal of the table (segment.rs:672) with the abscissae. *)
Fixpoint diagonal (entries : list (Q * Q * Q)) (row zrev : list Q) : outcome (list (Q * Q)) segerr :=
  match entries with
  | [] => Ok []
  | (z, y, d) :: t =>
      match row with
      | [] => r <- diagonal t [y] [z] ;; Ok ((z, y) :: r)
      | _ :: above =>
          es <- diffs d above (tl zrev) z ;;
          let row' := y :: d :: es in
          r <- diagonal t row' (z :: zrev) ;;
          Ok ((z, last row' 0) :: r)
      end
  end.
(** segment.rs:673-680: value and derivative of the Newton form *)
Fixpoint newton (zc : list (Q * Q)) (x : Q) : Q * Q :=
  match zc with
  | [] => (0, 0)
  | (z, c) :: t => match t with
                   | [] => (c, 0)
                   | _ => let '(v, d) := newton t x in (v * (x - z) + c, d * (x - z) + v)
                   end
  end.
Definition hermite (xs ys ds : list Q) (x : Q) : outcome (Q * Q) segerr :=
  if negb (Nat.eqb (length xs) (length ys)) || negb (Nat.eqb (length xs) (length ds)) || Nat.eqb (length xs) 0 then Err SegParse
  else entries <- doubled xs ys ds None ;; zc <- diagonal entries [] [] ;; Ok (newton zc x).

(** ** Evaluation: segment.rs:294-346 *)
Fixpoint gather (states : list Q) (first k component : nat) : outcome (list Q) segerr :=
  match k with
  | O => Ok []
  | S k' => match nth_error states (first * 6 + component) with
            | Some v => r <- gather states (S first) k' component ;; Ok (v :: r)
            | None => Panic
            end
  end.
Definition slice_epochs (s : discrete) (first count : nat) : outcome (list Q) segerr :=
  if (first + count <=? length (di_epochs s))%nat then Ok (firstn count (skipn first (di_epochs s))) else Panic.
Definition lagrange_component (s : discrete) (epochs : list Q) (first count : nat) (t : Q) (c : nat) : outcome Q segerr :=
  vs <- gather (di_states s) first count c ;; lagrange_value epochs vs t.
Definition evaluate_lagrange (s : discrete) (et : fnum) : outcome (list Q) segerr :=
  sel <- locate_or_window s et (di_size s + 1) ;;
  match sel, et with
  | Exact i, _ => state_record s i
  | Window first count, Fin t =>
      epochs <- slice_epochs s first count ;;
      a <- lagrange_component s epochs first count t 0 ;; b <- lagrange_component s epochs first count t 1 ;;
      c <- lagrange_component s epochs first count t 2 ;; d <- lagrange_component s epochs first count t 3 ;;
      e <- lagrange_component s epochs first count t 4 ;; f <- lagrange_component s epochs first count t 5 ;;
      Ok [a; b; c; d; e; f]
  | _, _ => Err SegCorrupted
  end.
Definition hermite_axis (s : discrete) (epochs : list Q) (first count : nat) (t : Q) (axis : nat) : outcome (Q * Q) segerr :=
  ps <- gather (di_states s) first count axis ;; vs <- gather (di_states s) first count (axis + 3) ;; hermite epochs ps vs t.
Definition evaluate_hermite (s : discrete) (et : fnum) : outcome (list Q) segerr :=
  sel <- locate_or_window s et (di_size s) ;;
  match sel, et with
  | Exact i, _ => state_record s i
  | Window first count, Fin t =>
      epochs <- slice_epochs s first count ;;
      a <- hermite_axis s epochs first count t 0 ;; b <- hermite_axis s epochs first count t 1 ;; c <- hermite_axis s epochs first count t 2 ;;
      Ok [fst a; fst b; fst c; snd a; snd b; snd c]
  | _, _ => Err SegCorrupted
  end.
