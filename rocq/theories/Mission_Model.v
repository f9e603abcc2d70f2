(** The mission context (src/mission/context.rs) and the columnar residual file
    (src/pod/product/residuals_parquet.rs). *)
From Coq Require Import List String Bool QArith.
From Verif Require Import Base.
Import ListNotations.
Local Open Scope list_scope.

(** [HashMap<String, V>]: at most one entry per key, in no particular order.
    [insert], [get] and [remove] follow the standard library. *)
Section Map.
  Context {V : Type}.
  Definition map := list (string * V).
  Definition del (k : string) (m : map) : map := filter (fun e => negb (String.eqb k (fst e))) m.
  Definition put (k : string) (v : V) (m : map) : map := (k, v) :: del k m.
  Fixpoint get (k : string) (m : map) : option V :=
    match m with [] => None | (k', v) :: r => if String.eqb k k' then Some v else get k r end.
End Map.
Arguments map : clear implicits.

Section Context_.
  (** [Location] and [Instrument] (src/mission/site.rs 31-39,
      src/mission/geometry/fov.rs) are opaque values here. *)
  Context {Loc Ins : Type}.

  (** [MissionContext] (context.rs 37-40). *)
  Record mission := Mission { m_locs : map Loc; m_inss : map Ins }.

  (** [MissionContext::new] (context.rs 44-46). *)
  Definition new : mission := Mission [] [].
  (** [add_location], [with_location] (context.rs 49-51, 59-62). *)
  Definition add_location (a : string) (l : Loc) (m : mission) := Mission (put a l (m_locs m)) (m_inss m).
  (** [add_instrument], [with_instrument] (context.rs 54-56, 65-68). *)
  Definition add_instrument (a : string) (i : Ins) (m : mission) := Mission (m_locs m) (put a i (m_inss m)).
  (** [location], [instrument] (context.rs 71-78). *)
  Definition location (a : string) (m : mission) : option Loc := get a (m_locs m).
  Definition instrument (a : string) (m : mission) : option Ins := get a (m_inss m).
  (** [remove_location], [remove_instrument] (context.rs 82-90). *)
  Definition remove_location (a : string) (m : mission) : option Loc * mission :=
    (get a (m_locs m), Mission (del a (m_locs m)) (m_inss m)).
  Definition remove_instrument (a : string) (m : mission) : option Ins * mission :=
    (get a (m_inss m), Mission (m_locs m) (del a (m_inss m))).
  (** [locations], [instruments] (context.rs 93-100). *)
  Definition locations (m : mission) : list (string * Loc) := m_locs m.
  Definition instruments (m : mission) : list (string * Ins) := m_inss m.

  (** One call that changes the context. *)
  Inductive call := AddLoc (a : string) (l : Loc) | AddIns (a : string) (i : Ins) | DelLoc (a : string) | DelIns (a : string).
  Definition apply (m : mission) (c : call) : mission :=
    match c with
    | AddLoc a l => add_location a l m
    | AddIns a i => add_instrument a i m
    | DelLoc a => snd (remove_location a m)
    | DelIns a => snd (remove_instrument a m)
    end.
  Definition replay (cs : list call) : mission := fold_left apply cs new.
End Context_.
Arguments mission : clear implicits.
Arguments call : clear implicits.

(** [ResidualRecord] (src/pod/product/residuals_csv.rs 55-68); [F] stands for
    [f64], written as is. *)
Record record (F : Type) := Rec {
  epoch_jd_tt : F; obs_type : string; satellite : string; residual_m : F; sigma_m : F; rejected : bool }.
Arguments Rec {F}. Arguments epoch_jd_tt {F}. Arguments obs_type {F}. Arguments satellite {F}.
Arguments residual_m {F}. Arguments sigma_m {F}. Arguments rejected {F}.

(** Column types and the schema text (residuals_parquet.rs 147-154). *)
Inductive ctype := Double | Text | Boolean.
Local Open Scope string_scope.
Definition schema : list (string * ctype) :=
  [("epoch_jd_tt", Double); ("obs_type", Text); ("satellite", Text);
   ("residual_m", Double); ("sigma_m", Double); ("rejected", Boolean)].
Local Close Scope string_scope.

(** A column as handed to the column writer. *)
Inductive column (F : Type) := CDouble (l : list F) | CText (l : list string) | CBool (l : list bool).
Arguments CDouble {F}. Arguments CText {F}. Arguments CBool {F}.
Definition ctype_of {F} (c : column F) : ctype :=
  match c with CDouble _ => Double | CText _ => Text | CBool _ => Boolean end.

(** The writer: records pushed so far (residuals_parquet.rs 84-112). *)
Definition writer (F : Type) := list (record F).
Definition push {F} (w : writer F) (r : record F) : writer F := w ++ [r].

(** [finish] (residuals_parquet.rs 168-258): the six columns in order. The
    file format of the parquet crate is not modelled. *)
Definition finish {F} (w : writer F) : list (column F) :=
  [CDouble (List.map epoch_jd_tt w); CText (List.map obs_type w); CText (List.map satellite w);
   CDouble (List.map residual_m w); CDouble (List.map sigma_m w); CBool (List.map rejected w)].
