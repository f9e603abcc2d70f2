(** Written forms of text-kernel values and assignments, and what they add up to. *)
From Coq Require Import Ascii String List NArith ZArith QArith.
From Verif Require Import Base Text DecFloat Tk_Model.
Import ListNotations.
Local Open Scope N_scope.
Local Open Scope list_scope.

(** Separators: white space other than newline, and commas. *)
Definition sep_char (c : N) : Prop := c = 32 \/ c = 9 \/ c = 44.
Definition seps (s : str) : Prop := Forall sep_char s.
Definition blanks (s : str) : Prop := Forall (fun c => c = 32 \/ c = 9) s.

(** Decimal text of an integer. *)
Definition show (z : Z) : str := if (z <? 0)%Z then 45 :: dec (Z.abs_N z) else dec (Z.abs_N z).

(** [written v s]: [s] is a way to write [v]; [items l s]: [s] is a way to write the inside of an
    array holding [l]. Elements need a separator between them only when the first is a number. *)
Inductive written : tv -> str -> Prop :=
| w_int z : (-9223372036854775808 <= z <= 9223372036854775807)%Z -> written (TInt z) (show z)
| w_float (neg : bool) ip fp ex e : forallb is_digit ip = true -> forallb is_digit fp = true -> ip ++ fp <> [] ->
    parse_exp ex = Some e ->
    written (TFlt (Fin (qsgn neg (QofN (dval (ip ++ fp)) * p10 (e - Z.of_nat (length fp))))))
      ((if neg then [45] else []) ++ ip ++ (46 :: fp) ++ ex)
| w_text q t : q = 39 \/ q = 34 -> ~ In q t -> written (TText t) (q :: t ++ [q])
| w_array l s : items l s -> written (TArr l) (40 :: s ++ [41])
with items : list tv -> str -> Prop :=
| i_nil s : seps s -> items [] s
| i_cons p v s l r : seps p -> written v s -> items l r -> (r = [] \/ sep_char (hd 0 r) \/ exists t, v = TText t \/ exists x, v = TArr x) ->
    items (v :: l) (p ++ s ++ r).
Scheme written_mut := Induction for written Sort Prop with items_mut := Induction for items Sort Prop.
Combined Scheme written_items_ind from written_mut, items_mut.

(** Names: non-blank text without quotes, parentheses, equals and plus signs. *)
Definition name_ok (k : str) : Prop :=
  k <> [] /\ solid k /\ Forall (fun c => c <> 39 /\ c <> 34 /\ c <> 40 /\ c <> 41 /\ c <> 61 /\ c <> 43 /\ c <> 92) k.

(** [ab] occurs in [s] *)
Definition occurs2 (a b : N) (s : str) : Prop := exists x y, s = x ++ a :: b :: y.
(** No comment opening; a plain assignment also has no [+=] anywhere. *)
Definition quiet (append : bool) (s : str) : Prop := ~ occurs2 47 42 s /\ (append = false -> ~ occurs2 43 61 s).

Definition op (append : bool) : str := if append then [43; 61] else [61].
Record assignment := Assign { a_key : str; a_app : bool; a_val : tv }.

(** The lines of one assignment: everything on a line, or an array broken between elements. *)
Inductive assign_lines : assignment -> list str -> Prop :=
| al_one k app v p q s : name_ok k -> blanks p -> blanks q -> written v s -> quiet app (k ++ p ++ op app ++ q ++ s) ->
    assign_lines (Assign k app v) [k ++ p ++ op app ++ q ++ s]
| al_many k app p q l0 s0 mid ln sn : name_ok k -> blanks p -> blanks q -> items l0 s0 -> items ln sn ->
    Forall (fun '(l, s) => items l s /\ s <> [] /\ solid s) mid -> solid (40 :: s0) -> solid (sn ++ [41]) ->
    (let text := k ++ p ++ op app ++ q ++ 40 :: s0 ++ 32 :: concat (map (fun '(_, s) => s ++ [32]) mid) ++ sn ++ [41] in quiet app text) ->
    assign_lines (Assign k app (TArr (l0 ++ concat (map fst mid) ++ ln)))
      ((k ++ p ++ op app ++ q ++ 40 :: s0) :: map snd mid ++ [sn ++ [41]]).

(** What a variable holds after a list of assignments. *)
Definition parts (v : tv) : list tv := match v with TArr l => l | _ => [v] end.
Definition effect (cur : option tv) (a : assignment) : option tv :=
  if a_app a then Some (TArr (match cur with None => [] | Some v => parts v end ++ parts (a_val a))) else Some (a_val a).
Definition same_name (k : str) (a : assignment) : bool := str_eqb (map upper (a_key a)) (map upper k).
(** Declarative reading: everything since the last plain assignment. *)
Definition final (k : str) (l : list assignment) : option tv := fold_left effect (filter (same_name k) l) None.

(** A whole kernel. Lines may be indented or end in white space. *)
Definition pad (s : str) : Prop := forallb is_ws s = true.
Definition padded (l raw : str) : Prop := exists p q, pad p /\ pad q /\ raw = p ++ l ++ q.
(** A line of a text block: anything but the opening of a data block. *)
Definition prose (raw : str) : Prop := map lower (trim raw) <> begindata.
Definition opens (raw : str) : Prop := map lower (trim raw) = begindata.
Definition closes (raw : str) : Prop := map lower (trim raw) = begintext.
(** Lines from inside a data block on. *)
Inductive data_lines : list assignment -> list str -> Prop :=
| dl_end : data_lines [] []
| dl_blank raw l ls : pad raw -> data_lines l ls -> data_lines l (raw :: ls)
| dl_comment raw c l ls : trim raw = [47; 42] ++ c ++ [42; 47] -> data_lines l ls -> data_lines l (raw :: ls)
| dl_text raw txt raw' l ls : closes raw -> Forall prose txt -> opens raw' -> data_lines l ls ->
    data_lines l (raw :: txt ++ raw' :: ls)
| dl_last raw txt : closes raw -> Forall prose txt -> data_lines [] (raw :: txt)
| dl_assign a lines raws l ls : assign_lines a lines -> Forall2 padded lines raws -> data_lines l ls ->
    data_lines (a :: l) (raws ++ ls).
Inductive kernel_lines : list assignment -> list str -> Prop :=
| kl_text txt : Forall prose txt -> kernel_lines [] txt
| kl_data txt raw l ls : Forall prose txt -> opens raw -> data_lines l ls -> kernel_lines l (txt ++ raw :: ls).
