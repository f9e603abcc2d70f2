(** Tracking data messages (src/formats/ccsds/tdm.rs).

    Text is bytes and white space that of ASCII; text that is not UTF-8 and failures of the stream are
    not modelled. Numbers are exact decimals ([DecFloat]). *)
From Coq Require Import Ascii String List NArith ZArith Bool QArith.
From Verif Require Import Base Text DecFloat Omm_Model Pck_Model Sp3_Model Oem_Model.
From Verif Require Sclk_Model.
Import ListNotations.
Local Open Scope N_scope.
Local Open Scope outcome_scope.

(** tdm.rs:23-34, 50-57, 74-83, 95-100 *)
Inductive obs_type := Range | Doppler | Angle1 | Angle2 | Other (k : str).
Record observation := Obs { what : obs_type; at_ : str; value : fnum }.
Record tdm_meta := TMeta { participants : list str; path_mode : str; path : str; clock : str }.
Record tdm := Tdm { metas : list tdm_meta; observations : list observation }.

(** tdm.rs:214-222 *)
Definition obs_of_keyword (k : str) : obs_type :=
  if str_eqb k (lit "RANGE") then Range
  else if str_eqb k (lit "DOPPLER_INSTANTANEOUS") || str_eqb k (lit "DOPPLER_INTEGRATED") then Doppler
  else if str_eqb k (lit "ANGLE_1") then Angle1
  else if str_eqb k (lit "ANGLE_2") then Angle2
  else Other k.
(** tdm.rs:224-232 *)
Definition keyword (t : obs_type) : str :=
  match t with Range => lit "RANGE" | Doppler => lit "DOPPLER_INSTANTANEOUS" | Angle1 => lit "ANGLE_1" | Angle2 => lit "ANGLE_2" | Other k => k end.
(** [str::rfind] of a text, and the parts before and after it *)
Fixpoint rsplit (sep s : str) : option (str * str) :=
  match s with
  | [] => None
  | a :: t => match rsplit sep t with
              | Some (x, y) => Some (a :: x, y)
              | None => match Sclk_Model.strip_prefix sep s with Some r => Some ([], r) | None => None end
              end
  end.
(** tdm.rs:205-212 *)
Definition new_meta : tdm_meta := TMeta [] [] [] [].
Inductive tdm_err := NoSeparator | NoValue.
Definition tres A := outcome A tdm_err.
Inductive section := SNone | SMeta | SData.
(** tdm.rs:167-177 *)
Definition set_tmeta (m : tdm_meta) (k v : str) : tdm_meta :=
  if starts_with (lit "PARTICIPANT_") k then TMeta (participants m ++ [v]) (path_mode m) (path m) (clock m)
  else if str_eqb k (lit "MODE") then TMeta (participants m) v (path m) (clock m)
  else if str_eqb k (lit "PATH") then TMeta (participants m) (path_mode m) v (clock m)
  else if str_eqb k (lit "TIME_SYSTEM") then TMeta (participants m) (path_mode m) (path m) v
  else m.
(** tdm.rs:178-196 *)
Definition observe (k v : str) : tres observation :=
  match rsplit (lit " : ") v with
  | None => Err NoSeparator
  | Some (e, x) => match parse_f64 (trim x) with Some f => Ok (Obs (obs_of_keyword k) (trim e) f) | None => Err NoValue end
  end.
(** tdm.rs:134-200, one line at a time *)
Record tacc := TAcc { t_metas : list tdm_meta; t_obs : list observation; t_state : section; t_cur : tdm_meta }.
Definition tstep (a : tacc) (raw : str) : tres tacc :=
  let line := trim raw in
  if (match line with [] => true | _ => starts_with (lit "COMMENT") line || starts_with (lit "CCSDS_TDM") line end) then Ok a
  else if str_eqb line (lit "META_START") then Ok (TAcc (t_metas a) (t_obs a) SMeta new_meta)
  else if str_eqb line (lit "META_STOP") then Ok (TAcc (t_metas a ++ [t_cur a]) (t_obs a) SNone new_meta)
  else if str_eqb line (lit "DATA_START") then Ok (TAcc (t_metas a) (t_obs a) SData (t_cur a))
  else if str_eqb line (lit "DATA_STOP") then Ok (TAcc (t_metas a) (t_obs a) SNone (t_cur a))
  else match split_once 61 line with
       | None => Ok a
       | Some (k, v) =>
           match t_state a with
           | SMeta => Ok (TAcc (t_metas a) (t_obs a) SMeta (set_tmeta (t_cur a) (trim k) (trim v)))
           | SData => o <- observe (trim k) (trim v) ;; Ok (TAcc (t_metas a) (t_obs a ++ [o]) SData (t_cur a))
           | SNone => Ok a
           end
       end.
Fixpoint tsteps (a : tacc) (ls : list str) : tres tacc :=
  match ls with [] => Ok a | l :: t => a' <- tstep a l ;; tsteps a' t end.
(** tdm.rs:122-203 [read_tdm] *)
Definition read_tdm (text : str) : tres tdm :=
  a <- tsteps (TAcc [] [] SNone new_meta) (split_nl text) ;; Ok (Tdm (t_metas a) (t_obs a)).

(** tdm.rs:265-300 [write_tdm]; [show] is the text of an [f64] under [{}] *)
Section Writer.
Variable show : fnum -> str.
Fixpoint participant_lines (j : N) (ps : list str) : list str :=
  match ps with [] => [] | p :: t => (lit "PARTICIPANT_" ++ dec j ++ lit " = " ++ p) :: participant_lines (j + 1) t end.
Definition unless_empty (k : string) (v : str) : list str := match v with [] => [] | _ => [lit k ++ v] end.
Definition meta_block (m : tdm_meta) : list str :=
  [lit "META_START"] ++ participant_lines 1 (participants m) ++ unless_empty "MODE             = " (path_mode m) ++
  unless_empty "PATH             = " (path m) ++ unless_empty "TIME_SYSTEM      = " (clock m) ++ [lit "META_STOP"].
Fixpoint meta_blocks (first : bool) (ms : list tdm_meta) : list str :=
  match ms with [] => [] | m :: t => (if first then [] else [[]]) ++ meta_block m ++ meta_blocks false t end.
Definition obs_line (o : observation) : str := keyword (what o) ++ lit " = " ++ at_ o ++ lit " : " ++ show (value o).
Definition tdm_lines (m : tdm) : list str :=
  [lit "CCSDS_TDM_VERS = 1.0"] ++ meta_blocks true (metas m) ++ [[]; lit "DATA_START"] ++ map obs_line (observations m) ++ [lit "DATA_STOP"].
Definition write_tdm (m : tdm) : str := unlines (tdm_lines m).
End Writer.
