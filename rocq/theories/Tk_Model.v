(** Model of SPICE text kernels (/repo/src/formats/spice/text.rs). A text is its list of characters;
    only ASCII white space counts as white space. *)
From Coq Require Import Ascii String List NArith ZArith Bool.
From Verif Require Import Base Text DecFloat Omm_Model.
Import ListNotations.
Local Open Scope string_scope.
Local Open Scope N_scope.
Local Notation length := List.length.
Local Infix "++" := app (right associativity, at level 60) : list_scope.
Local Open Scope list_scope.
Local Open Scope outcome_scope.

(** text.rs:28-40 *)
Inductive tv := TInt (z : Z) | TFlt (f : fnum) | TText (s : str) | TArr (l : list tv).
Inductive tkerr := MissingValue | UnterminatedArray | UnterminatedString | EmptyToken | NoEquals | NoKey | Trailing | Unterminated.

(** text.rs:377-385 *)
Definition parse_scalar (t : str) : tv :=
  match parse_int 9223372036854775807 t with
  | Some z => TInt z
  | None => match parse_f64 t with Some f => TFlt f | None => TText t end
  end.

Definition is_delim (c : N) : bool := is_ws c || (c =? 44).
(** text.rs:352-360 *)
Fixpoint skip_delims (s : str) : str :=
  match s with c :: t => if is_delim c then skip_delims t else s | [] => [] end.
(** text.rs:335-350: the token and the rest *)
Fixpoint bare (s : str) : str * str :=
  match s with
  | c :: t => if is_ws c || (c =? 44) || (c =? 41) then ([], s) else let '(a, b) := bare t in (c :: a, b)
  | [] => ([], [])
  end.
Definition parse_bare (s : str) : outcome (tv * str) tkerr :=
  let '(tok, r) := bare s in
  match trim tok with [] => Err EmptyToken | _ => Ok (parse_scalar (trim tok), r) end.
(** text.rs:319-333, after the opening quote *)
Fixpoint parse_string (q : N) (s : str) : outcome (str * str) tkerr :=
  match s with
  | [] => Err UnterminatedString
  | c :: t => if c =? q then Ok ([], t) else r <- parse_string q t ;; let '(a, b) := r in Ok (c :: a, b)
  end.

(** text.rs:284-296 [parse_value] and 298-317 [parse_array] after the opening parenthesis. The fuel
    bounds the recursion; [None] means it ran out (shown impossible for [vfuel]). *)
Fixpoint parse_value (fuel : nat) (s : str) : option (outcome (tv * str) tkerr) :=
  match fuel with
  | O => None
  | S f =>
      match skip_delims s with
      | [] => Some (Err MissingValue)
      | c :: t =>
          if c =? 40 then parse_items f t []
          else if (c =? 39) || (c =? 34) then Some (r <- parse_string c t ;; let '(a, b) := r in Ok (TText a, b))
          else Some (parse_bare (c :: t))
      end
  end
with parse_items (fuel : nat) (s : str) (acc : list tv) : option (outcome (tv * str) tkerr) :=
  match fuel with
  | O => None
  | S f =>
      match skip_delims s with
      | [] => Some (Err UnterminatedArray)
      | c :: t =>
          if c =? 41 then Some (Ok (TArr (rev acc), t))
          else match parse_value f (c :: t) with
               | None => None
               | Some (Ok (v, r)) => parse_items f r (v :: acc)
               | Some e => Some e
               end
      end
  end.
Definition vfuel (s : str) : nat := S (S (2 * length s)).

(** [str::find] for a two-character pattern: the text before and after it. *)
Fixpoint split2 (a b : N) (s : str) : option (str * str) :=
  match s with
  | x :: t => match t with
              | y :: u => if (x =? a) && (y =? b) then Some ([], u)
                          else match split2 a b t with Some (p, r) => Some (x :: p, r) | None => None end
              | [] => None
              end
  | [] => None
  end.
Fixpoint split1 (a : N) (s : str) : option (str * str) :=
  match s with
  | x :: t => if x =? a then Some ([], t) else match split1 a t with Some (p, r) => Some (x :: p, r) | None => None end
  | [] => None
  end.

(** text.rs:136-148; the fuel is the length of the line *)
Fixpoint strip_go (fuel : nat) (line : str) : str :=
  match split2 47 42 line with
  | None => line
  | Some (before, after) =>
      match split2 42 47 after with
      | None => before
      | Some (_, rest) => match fuel with O => before | S f => before ++ strip_go f rest end
      end
  end.
Definition strip_comments (line : str) : str := strip_go (length line) line.

(** text.rs:150-168 *)
Fixpoint scan (s : str) (quote : option N) (depth : Z) : option N * Z :=
  match s with
  | [] => (quote, depth)
  | c :: t =>
      match quote with
      | Some q => scan t (if c =? q then None else quote) depth
      | None => if (c =? 39) || (c =? 34) then scan t (Some c) depth
                else if c =? 40 then scan t None (depth + 1)%Z
                else if c =? 41 then scan t None (depth - 1)%Z
                else scan t None depth
      end
  end.
Definition statement_complete (s : str) : bool :=
  match scan s None 0 with (None, d) => (d =? 0)%Z | _ => false end.

Definition upper (c : N) : N := if (97 <=? c) && (c <=? 122) then c - 32 else c.
(** text.rs:170-198 *)
Definition parse_assignment (st : str) : option (outcome (str * bool * tv) tkerr) :=
  match match split2 43 61 st with
        | Some (k, v) => Some (k, v, true)
        | None => match split1 61 st with Some (k, v) => Some (k, v, false) | None => None end
        end with
  | None => Some (Err NoEquals)
  | Some (k, v, app) =>
      let key := trim k in
      match key with
      | [] => Some (Err NoKey)
      | _ =>
          match parse_value (vfuel (trim v)) (trim v) with
          | None => None
          | Some (Ok (x, r)) => match skip_delims r with
                                | [] => Some (Ok (map upper key, app, x))
                                | _ => Some (Err Trailing)
                                end
          | Some (Err e) => Some (Err e)
          | Some Panic => Some Panic
          end
      end
  end.

(** The variable table: at most one entry per key. *)
Definition table := list (str * tv).
Fixpoint tget (d : table) (k : str) : option tv :=
  match d with [] => None | (k', v) :: t => if str_eqb k' k then Some v else tget t k end.
Fixpoint tremove (d : table) (k : str) : table :=
  match d with [] => [] | (k', v) :: t => if str_eqb k' k then tremove t k else (k', v) :: tremove t k end.
Definition tinsert (d : table) (k : str) (v : tv) : table := (k, v) :: tremove d k.

(** text.rs:200-230 *)
Definition store_value (d : table) (k : str) (append : bool) (v : tv) : table :=
  if negb append then tinsert d k v
  else match tget d k with
       | Some (TArr ex) => tinsert (tremove d k) k (TArr (match v with TArr l => ex ++ l | o => ex ++ [o] end))
       | Some ex => tinsert (tremove d k) k (TArr (match v with TArr l => ex :: l | o => [ex; o] end))
       | None => tinsert d k (match v with TArr l => TArr l | o => TArr [o] end)
       end.

Fixpoint ends_with (suf s : str) : bool :=
  str_eqb s suf || match s with [] => false | _ :: t => ends_with suf t end.
Definition begindata : str := lit "\begindata".
Definition begintext : str := lit "\begintext".

(** text.rs:63-100: one line; state: in a data block, pending statement, table *)
Definition kstate := (bool * str * table)%type.
Definition feed (st : kstate) (raw : str) : option (outcome kstate tkerr) :=
  let '(in_data, stmt, d) := st in
  let t := trim raw in
  if word_is t begindata then Some (Ok (true, [], d))
  else if word_is t begintext then Some (Ok (false, [], d))
  else if negb in_data then Some (Ok st)
  else if starts_with [47; 42] t && ends_with [42; 47] t then Some (Ok st)
  else
    let clean := trim (strip_comments raw) in
    match clean with
    | [] => Some (Ok st)
    | _ =>
        let stmt' := match stmt with [] => clean | _ => stmt ++ 32 :: clean end in
        if negb (statement_complete stmt') then Some (Ok (in_data, stmt', d))
        else match parse_assignment stmt' with
             | None => None
             | Some (Ok (k, app, v)) => Some (Ok (in_data, [], store_value d k app v))
             | Some (Err e) => Some (Err e)
             | Some Panic => Some Panic
             end
    end.
Fixpoint feed_all (st : kstate) (ls : list str) : option (outcome kstate tkerr) :=
  match ls with
  | [] => Some (Ok st)
  | l :: t => match feed st l with Some (Ok st') => feed_all st' t | r => r end
  end.
(** text.rs:58-109 *)
Definition parse_lines (ls : list str) : option (outcome table tkerr) :=
  match feed_all (false, [], []) ls with
  | Some (Ok (_, stmt, d)) => match trim stmt with [] => Some (Ok d) | _ => Some (Err Unterminated) end
  | Some (Err e) => Some (Err e)
  | Some Panic => Some Panic
  | None => None
  end.
Definition parse (src : str) := parse_lines (split_lines src).
(** text.rs:112-114 *)
Definition get (d : table) (k : str) : option tv := tget d (map upper k).
