(** The kernel context (/repo/src/spice/context.rs, kernel_set.rs, frame_registry.rs). Binary kernels are opaque: [S] and [C]
    are whatever the SPK and CK readers return. Matrices and angles are real numbers; entries of a frame matrix that are
    not finite, which the code keeps, read as zero here. *)
From Coq Require Import Ascii String List NArith ZArith QArith Qreals Reals Bool.
From Verif Require Import Base Text DecFloat Sort Fnum Omm_Model Tk_Model.
From Verif Require Lsk_Model Sclk_Model Fk_Model Pck_Model Ik_Model.
From Verif Require Import Mat3.
Import ListNotations.
Local Open Scope string_scope.
Local Open Scope Z_scope.
Local Open Scope list_scope.
Local Open Scope outcome_scope.
Import Fk_Model(frame_spec, f_id, f_name, f_class, f_class_id, f_tk, Frame, Inertial, Pck, Ck, TwoVector, Dynamic).
Import Pck_Model(orientation, pole_ra, pole_dec, pm).

Inductive ctx_err := KText (e : tkerr) | KLsk (e : Lsk_Model.lskerr) | KFk (e : Fk_Model.fkerr) | KPck (e : Pck_Model.pckerr)
  | KSclk (e : Sclk_Model.sclkerr) | KIk (e : Ik_Model.ikerr) | KBinary | KUnsupported | KNotText
  | UnknownFrameId (id : Z) | UnknownFrameName (name : str) | NoPck (body : Z).

Definition real (f : fnum) : R := match f with Fin q => Q2R q | _ => 0%R end.

(** ** Frames *)
(** frame_registry.rs:16-29 *)
Definition j2000 : frame_spec := Frame 1 (lit "J2000") Inertial 1 0 None.
(** frame_registry.rs:43-63 *)
Definition reg_by_id (reg : list frame_spec) (id : Z) : outcome frame_spec ctx_err :=
  match find (fun f => f_id f =? id) (rev reg) with Some f => Ok f | None => Err (UnknownFrameId id) end.
Definition reg_by_name (reg : list frame_spec) (name : str) : outcome frame_spec ctx_err :=
  match find (fun f => str_eqb (f_name f) (map upper name)) (rev reg) with Some f => Ok f | None => Err (UnknownFrameName name) end.

(** fk.rs:141-145: nine values by rows *)
Definition mat_of (l : list fnum) : mat :=
  let v k := real (nth k l (Fin 0)) in M (v 0%nat) (v 1%nat) (v 2%nat) (v 3%nat) (v 4%nat) (v 5%nat) (v 6%nat) (v 7%nat) (v 8%nat).

(** pck.rs:43-61; [tdb_s] in seconds; the three indexings panic on empty lists *)
Definition rad (deg : R) : R := (deg * (PI / 180))%R.
Definition linear (l : list fnum) (x : R) : option R :=
  match l with [] => None | a :: t => Some (real a + real (nth 0 t (Fin 0)) * x)%R end.
Definition body_matrix (ra dec w : R) : mat := mul (mul (r3 (PI / 2 + ra)) (r1 (PI / 2 - dec))) (r3 (- w)).
Definition rotation_to_j2000 (o : orientation) (tdb_s : R) : outcome mat ctx_err :=
  let t := (tdb_s / (36525 * 86400))%R in
  let d := (tdb_s / 86400)%R in
  match linear (pole_ra o) t, linear (pole_dec o) t, linear (pm o) d with
  | Some ra, Some dec, Some w => Ok (body_matrix (rad ra) (rad dec) (rad w))
  | _, _, _ => Panic
  end.
(** context.rs:269-282 *)
Fixpoint first_body (pcks : list Pck_Model.bodies) (id : Z) : option orientation :=
  match pcks with
  | [] => None
  | p :: t => match Pck_Model.body p id with Some o => Some o | None => first_body t id end
  end.
Definition iau_body_rotation (pcks : list Pck_Model.bodies) (id : Z) (tdb_s : R) : outcome mat ctx_err :=
  match first_body (rev pcks) id with Some o => rotation_to_j2000 o tdb_s | None => Err (NoPck id) end.

(** context.rs:230-267; [None] when the recursion does not end within the fuel *)
Fixpoint frame_to_j2000 (fuel : nat) (reg : list frame_spec) (pcks : list Pck_Model.bodies) (id : Z) (t : R) : option (outcome mat ctx_err) :=
  match fuel with
  | O => None
  | S k =>
      if id =? 1 then Some (Ok identity)
      else match reg_by_id reg id with
      | Err e => Some (Err e)
      | Panic => Some Panic
      | Ok spec =>
          match f_tk spec with
          | Some (values, rel) =>
              match reg_by_name reg rel with
              | Err e => Some (Err e)
              | Panic => Some Panic
              | Ok r => match frame_to_j2000 k reg pcks (f_id r) t with
                        | Some (Ok m) => Some (Ok (mul m (mat_of values)))
                        | o => o
                        end
              end
          | None =>
              match f_class spec with
              | Pck => Some (iau_body_rotation pcks (f_class_id spec) t)
              | _ => Some (Err KUnsupported)
              end
          end
      end
  end.
(** context.rs:158-170 *)
Definition rotation_naif (fuel : nat) (reg : list frame_spec) (pcks : list Pck_Model.bodies) (from to : Z) (t : R) : option (outcome mat ctx_err) :=
  if from =? to then Some (Ok identity)
  else match frame_to_j2000 fuel reg pcks from t with
       | Some (Ok a) => match frame_to_j2000 fuel reg pcks to t with
                        | Some (Ok b) => Some (Ok (mul (transpose b) a))
                        | o => o
                        end
       | o => o
       end.

(** ** Loading *)
(** kernel_set.rs:26-34 and the registry *)
Record ctx (S C : Type) := Ctx {
  spk : list (str * S); ck : list (str * C);
  lsk : option (str * Lsk_Model.lsk);
  fk : list (str * list frame_spec);
  pck : list (str * Pck_Model.bodies);
  sclk : list (str * Sclk_Model.sclk);
  ik : list (str * list Ik_Model.instrument);
  registry : list frame_spec }.
Arguments Ctx {S C}. Arguments spk {S C}. Arguments ck {S C}. Arguments lsk {S C}. Arguments fk {S C}. Arguments pck {S C}.
Arguments sclk {S C}. Arguments ik {S C}. Arguments registry {S C}.

Section Load.
Context {S C : Type}.
Notation ctx := (ctx S C).
(** context.rs:47-52 *)
Definition empty : ctx := Ctx [] [] None [] [] [] [] [j2000].

Fixpoint contains (p s : str) : bool := starts_with p s || match s with [] => false | _ :: t => contains p t end.
(** context.rs:109-121 *)
Definition some {A} (o : option A) : bool := match o with Some _ => true | None => false end.
Definition has_lsk (d : table) : bool := some (get d (lit "DELTET/DELTA_T_A")) || some (get d (lit "DELTET/DELTA_AT")).
Definition has_fk (d : table) : bool := existsb (fun e => starts_with (lit "FRAME_") (fst e)) d.
Definition has_pck (d : table) : bool :=
  existsb (fun e => starts_with (lit "BODY") (fst e) && (contains (lit "_POLE_RA") (fst e) || contains (lit "_RADII") (fst e))) d.
Definition has_sclk (d : table) : bool := existsb (fun e => starts_with (lit "SCLK01_COEFFICIENTS_") (fst e)) d.
Definition has_ik (d : table) : bool := existsb (fun e => starts_with (lit "INS") (fst e) && contains (lit "_FOV") (fst e)) d.

(** The effect of a statement that reads one role: the context after it, and whether it failed *)
Definition step {A E} (wrap : E -> ctx_err) (c : ctx) (has : bool) (r : outcome A E) (store : A -> ctx) (k : ctx -> ctx * outcome unit ctx_err) :=
  if has then match r with
              | Ok a => k (store a)
              | Err e => (c, Err (wrap e))
              | Panic => (c, Panic)
              end
  else k c.
(** context.rs:123-144. Each [from_text] parses the text again and gets the same table. *)
Definition load_table (c : ctx) (alias : str) (d : table) : ctx * outcome unit ctx_err :=
  step KLsk c (has_lsk d) (Lsk_Model.from_table d)
    (fun a => Ctx (spk c) (ck c) (Some (alias, a)) (fk c) (pck c) (sclk c) (ik c) (registry c)) (fun c =>
  step KFk c (has_fk d) (Fk_Model.from_table d)
    (fun a => Ctx (spk c) (ck c) (lsk c) (fk c ++ [(alias, a)]) (pck c) (sclk c) (ik c) (registry c ++ a)) (fun c =>
  step KPck c (has_pck d) (Pck_Model.from_table d)
    (fun a => Ctx (spk c) (ck c) (lsk c) (fk c) (pck c ++ [(alias, a)]) (sclk c) (ik c) (registry c)) (fun c =>
  step KSclk c (has_sclk d) (Sclk_Model.from_table d)
    (fun a => Ctx (spk c) (ck c) (lsk c) (fk c) (pck c) (sclk c ++ map (pair alias) a) (ik c) (registry c)) (fun c =>
  step KIk c (has_ik d) (Ik_Model.from_table d)
    (fun a => Ctx (spk c) (ck c) (lsk c) (fk c) (pck c) (sclk c) (ik c ++ [(alias, a)]) (registry c)) (fun c => (c, Ok tt)))))).
Definition load_text_kernel (c : ctx) (alias : str) (text : str) : option (ctx * outcome unit ctx_err) :=
  match parse text with
  | None => None
  | Some (Ok d) => Some (load_table c alias d)
  | Some (Err e) => Some (c, Err (KText e))
  | Some Panic => Some (c, Panic)
  end.
(** context.rs:63-105. [utf8] decides whether bytes are UTF-8; text is then its bytes. *)
Definition load_bytes (utf8 : list N -> bool) (read_spk : list N -> outcome S unit) (read_ck : list N -> outcome C unit)
    (c : ctx) (alias : str) (bytes : list N) : option (ctx * outcome unit ctx_err) :=
  let locator := if (8 <=? List.length bytes)%nat then map upper (trim (if utf8 (firstn 8 bytes) then firstn 8 bytes else [])) else [] in
  let is s := starts_with (lit s) locator in
  if is "DAF/SPK" then Some match read_spk bytes with
    | Ok k => (Ctx (spk c ++ [(alias, k)]) (ck c) (lsk c) (fk c) (pck c) (sclk c) (ik c) (registry c), Ok tt)
    | Err _ => (c, Err KBinary)
    | Panic => (c, Panic)
    end
  else if is "DAF/CK" then Some match read_ck bytes with
    | Ok k => (Ctx (spk c) (ck c ++ [(alias, k)]) (lsk c) (fk c) (pck c) (sclk c) (ik c) (registry c), Ok tt)
    | Err _ => (c, Err KBinary)
    | Panic => (c, Panic)
    end
  else if is "DAF/PCK" || is "DAF/BPC" then Some (c, Err KUnsupported)
  else if is "DAF/DSK" || is "DAF/EK" then Some (c, Err KUnsupported)
  else if utf8 bytes then load_text_kernel c alias bytes
  else Some (c, Err KNotText).
End Load.
