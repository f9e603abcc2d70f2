(** Instrument kernels (/repo/src/formats/spice/ik.rs). Finite floats are exact rationals. *)
From Coq Require Import Ascii String List NArith ZArith QArith Bool.
From Verif Require Import Base Text DecFloat Sort Fnum Omm_Model Tk_Model Sclk_Model Fk_Model Pck_Model.
Import ListNotations.
Local Open Scope string_scope.
Local Open Scope Z_scope.
Local Open Scope list_scope.
Local Open Scope outcome_scope.

Inductive ikerr := IText (e : tkerr) | INotText (key : str) | INotNumeric (key : str) | IBoresight (id : Z).
(** ik.rs:26-54 *)
Inductive fov_shape := Circle | Rectangle | Ellipse | Polygon | Other (s : str).
Record instrument := Inst { i_id : Z; i_shape : option fov_shape; i_frame : option str; i_boresight : option (fnum * fnum * fnum);
  i_ref : option fnum; i_cross : option fnum }.

(** ik.rs:149-166 *)
Definition text_value (v : tv) (key : str) : outcome str ikerr := match v with TText s => Ok s | _ => Err (INotText key) end.
Definition scalar_value (v : tv) (key : str) : outcome fnum ikerr := match num1 v with Some x => Ok x | None => Err (INotNumeric key) end.
(** ik.rs:138-147 *)
Definition parse_shape (v : tv) (id : Z) : outcome fov_shape ikerr :=
  s <- text_value v (key_of "INS" id "_FOV_SHAPE") ;;
  let u := map upper s in
  Ok (if str_eqb u (lit "CIRCLE") then Circle else if str_eqb u (lit "RECTANGLE") then Rectangle
      else if str_eqb u (lit "ELLIPSE") then Ellipse else if str_eqb u (lit "POLYGON") then Polygon else Other u).
(** [Option::map] then [transpose] *)
Definition opt {A B E} (o : option A) (f : A -> outcome B E) : outcome (option B) E :=
  match o with None => Ok None | Some a => x <- f a ;; Ok (Some x) end.
(** ik.rs:68-79 *)
Definition inst_key (k : str) : option Z :=
  match strip_prefix (lit "INS") k with
  | None => None
  | Some rest => match split_once 95 rest with None => None | Some (id_text, _) => parse_int 2147483647 id_text end
  end.
(** ik.rs:84-125, one instrument *)
Definition one_instrument (d : table) (id : Z) : outcome instrument ikerr :=
  shape <- opt (get d (key_of "INS" id "_FOV_SHAPE")) (fun v => parse_shape v id) ;;
  frame <- opt (get d (key_of "INS" id "_FOV_FRAME")) (fun v => s <- text_value v (key_of "INS" id "_FOV_FRAME") ;; Ok (map upper s)) ;;
  bore <- opt (get_f64_array d (key_of "INS" id "_BORESIGHT"))
            (fun l => match l with [x; y; z] => Ok (x, y, z) | _ => Err (IBoresight id) end) ;;
  ra <- opt (get d (key_of "INS" id "_FOV_REF_ANGLE")) (fun v => scalar_value v (key_of "INS" id "_FOV_REF_ANGLE")) ;;
  ca <- opt (get d (key_of "INS" id "_FOV_CROSS_ANGLE")) (fun v => scalar_value v (key_of "INS" id "_FOV_CROSS_ANGLE")) ;;
  Ok (Inst id shape frame bore ra ca).
(** ik.rs:65-128 *)
Definition from_table (d : table) : outcome (list instrument) ikerr :=
  omap (one_instrument d) (dedup (isort Z.leb (collect inst_key (map fst d)))).
(** ik.rs:131-135 *)
Definition instrument_by_id (l : list instrument) (id : Z) : option instrument := find (fun i => i_id i =? id) l.
