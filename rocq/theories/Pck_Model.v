(** Planetary-constant text kernels (/repo/src/formats/spice/pck.rs:21-140). The hash map of variables is walked in the
    order of the table; see the theorems for what depends on that order. *)
From Coq Require Import Ascii String List NArith ZArith QArith Bool.
From Verif Require Import Base Text DecFloat Sort Fnum Omm_Model Tk_Model Sclk_Model Fk_Model.
Import ListNotations.
Local Open Scope string_scope.
Local Open Scope Z_scope.
Local Open Scope list_scope.
Local Open Scope outcome_scope.

Inductive pckerr := PText (e : tkerr) | PNotNumeric (key : str) | PRadii (key : str).
(** pck.rs:27-37 *)
Record orientation := Orient { pole_ra : list fnum; pole_dec : list fnum; pm : list fnum; radii : option (fnum * fnum * fnum) }.
(** pck.rs:87-92 *)
Definition blank : orientation := Orient [] [] [] None.

(** pck.rs:111-129 *)
Definition value_as_f64_array (v : tv) (key : str) : outcome (list fnum) pckerr :=
  match v with
  | TArr l => match flat1 l with Some r => Ok r | None => Err (PNotNumeric key) end
  | _ => match num1 v with Some x => Ok [x] | None => Err (PNotNumeric key) end
  end.
(** pck.rs:131-140 *)
Definition parse_radii (v : tv) (key : str) : outcome (fnum * fnum * fnum) pckerr :=
  values <- value_as_f64_array v key ;;
  match values with
  | [e; p] => Ok (e, e, p)
  | [x; y; z] => Ok (x, y, z)
  | _ => Err (PRadii key)
  end.
(** [str::split_once] on a character *)
Fixpoint split_once (c : N) (s : str) : option (str * str) :=
  match s with
  | [] => None
  | x :: t => if (x =? c)%N then Some ([], t) else match split_once c t with Some (a, b) => Some (x :: a, b) | None => None end
  end.
(** pck.rs:78-86 *)
Definition body_key (k : str) : option (Z * str) :=
  match strip_prefix (lit "BODY") k with
  | None => None
  | Some rest =>
      match split_once 95 rest with
      | None => None
      | Some (id_text, suffix) => match parse_int 2147483647 id_text with Some id => Some (id, suffix) | None => None end
      end
  end.
Definition bodies := list (Z * orientation).
Definition body (b : bodies) (id : Z) : option orientation :=
  match find (fun e => fst e =? id) b with Some e => Some (snd e) | None => None end.
Definition put (b : bodies) (id : Z) (o : orientation) : bodies := (id, o) :: filter (fun e => negb (fst e =? id)) b.
(** pck.rs:93-99 *)
Definition set_field (o : orientation) (suffix : str) (v : tv) (key : str) : outcome orientation pckerr :=
  if str_eqb suffix (lit "POLE_RA") then x <- value_as_f64_array v key ;; Ok (Orient x (pole_dec o) (pm o) (radii o))
  else if str_eqb suffix (lit "POLE_DEC") then x <- value_as_f64_array v key ;; Ok (Orient (pole_ra o) x (pm o) (radii o))
  else if str_eqb suffix (lit "PM") then x <- value_as_f64_array v key ;; Ok (Orient (pole_ra o) (pole_dec o) x (radii o))
  else if str_eqb suffix (lit "RADII") then x <- parse_radii v key ;; Ok (Orient (pole_ra o) (pole_dec o) (pm o) (Some x))
  else Ok o.
(** pck.rs:77-100 *)
Fixpoint fill (d : table) (b : bodies) : outcome bodies pckerr :=
  match d with
  | [] => Ok b
  | (key, v) :: t =>
      match body_key key with
      | None => fill t b
      | Some (id, suffix) =>
          o <- set_field (match body b id with Some o => o | None => blank end) suffix v key ;;
          fill t (put b id o)
      end
  end.
Definition from_table (d : table) : outcome bodies pckerr := fill d [].
