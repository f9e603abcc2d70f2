(** Model of the stacked SPK kernel set (/repo/src/formats/spice/spk_kernel.rs). The conversion from
    Julian date to ephemeris seconds is left out: times are ephemeris seconds throughout. *)
From Coq Require Import List ZArith QArith Bool.
From Verif Require Import Base Kern_Model.
Import ListNotations.
Local Open Scope Z_scope.

(** spk_kernel.rs:26-40; [EHard]: an ephemeris error other than out-of-range *)
Inductive serr := EMissing (t : Z) | ECycle (t : Z) | ERange | EHard.

Definition fle (a b : fnum) : bool :=
  match a, b with Some x, Some y => Qle_bool x y | _, _ => false end.

Section Set_.
  Variable V : Type.
  Variable vzero : V.
  Variables vadd vsub : V -> V -> V.
  (** multiplication by [1.0 / EARTH_MOON_RATIO] *)
  Variable vmoon : V -> V.

  (** spk_kernel.rs:75-81; the descriptor by its evaluation: a position, out of range, or hard error *)
  Inductive evres := EvOk (v : V) | EvRange | EvHard.
  Record kseg := KSeg { k_target : Z; k_center : Z; k_start : fnum; k_end : fnum; k_pos : fnum -> evres }.
  (** spk_kernel.rs:98-100 (NaN is the only non-finite value here) *)
  Definition covers_et (et : fnum) (s : kseg) : bool :=
    match et with None => false | _ => fle (k_start s) et && fle et (k_end s) end.

  Definition first (o : option serr) (e : serr) : option serr := match o with None => Some e | _ => o end.

  (** spk_kernel.rs:293-319 [try_edge_position_et]; [l]: segments, latest first *)
  Fixpoint edge_loop (et : fnum) (t c : Z) (l : list kseg) (o : option serr) : outcome V serr :=
    match l with
    | [] => Err (match o with None => EMissing t | Some e => e end)
    | s :: l' =>
        if negb ((k_target s =? t) && (k_center s =? c)) then edge_loop et t c l' o
        else if negb (covers_et et s) then edge_loop et t c l' (first o ERange)
        else match k_pos s et with
             | EvOk v => Ok v
             | EvRange => edge_loop et t c l' (first o ERange)
             | EvHard => Err EHard
             end
    end.
  Definition edge (segs : list kseg) (et : fnum) (t c : Z) : outcome V serr := edge_loop et t c (rev segs) None.

  (** spk_kernel.rs:232-261; [rec] is the recursive call with the visited path extended; [inl] the
      returned value, [inr] the remembered error when no segment answered *)
  Fixpoint pos_loop (rec : Z -> option (outcome V serr)) (et : fnum) (t : Z) (l : list kseg) (o : option serr)
    : option (outcome V serr + option serr) :=
    match l with
    | [] => Some (inr o)
    | s :: l' =>
        if negb (k_target s =? t) then pos_loop rec et t l' o
        else if negb (covers_et et s) then pos_loop rec et t l' (first o ERange)
        else match k_pos s et with
             | EvOk off => match rec (k_center s) with
                           | None => None
                           | Some (Ok c) => Some (inl (Ok (vadd c off)))
                           | Some (Err e) => pos_loop rec et t l' (first o e)
                           | Some Panic => Some (inl Panic)
                           end
             | EvRange => pos_loop rec et t l' (first o ERange)
             | EvHard => Some (inl (Err EHard))
             end
    end.

  (** spk_kernel.rs:274-282 *)
  Definition earth_from_emb (rec : Z -> option (outcome V serr)) (segs : list kseg) (et : fnum) : option (outcome V serr) :=
    match rec 3 with
    | None => None
    | Some (Ok emb) => Some (match edge segs et 301 3 with Ok m => Ok (vsub emb (vmoon m)) | Err e => Err e | Panic => Panic end)
    | Some r => Some r
    end.

  (** spk_kernel.rs:218-272; [None]: out of fuel (shown impossible) *)
  Fixpoint pos_ssb (fuel : nat) (segs : list kseg) (et : fnum) (t : Z) (visited : list Z) : option (outcome V serr) :=
    if t =? 0 then Some (Ok vzero)
    else if existsb (Z.eqb t) visited then Some (Err (ECycle t))
    else match fuel with
         | O => None
         | S f =>
             let rec := fun c => pos_ssb f segs et c (t :: visited) in
             match pos_loop rec et t (rev segs) None with
             | None => None
             | Some (inl r) => Some r
             | Some (inr o) =>
                 let e := Err (match o with None => EMissing t | Some e => e end) in
                 if t =? 399 then
                   match earth_from_emb rec segs et with
                   | None => None
                   | Some (Ok v) => Some (Ok v)
                   | Some Panic => Some Panic
                   | Some (Err _) => Some e
                   end
                 else Some e
             end
         end.
  Definition kbound (segs : list kseg) : nat := (length segs + 3)%nat.
  Definition position (segs : list kseg) (et : fnum) (t : Z) := pos_ssb (kbound segs) segs et t [].

  (** spk_kernel.rs:171-180 [try_geometric_state] *)
  Definition geometric (segs : list kseg) (et : fnum) (t o : Z) : option (outcome V serr) :=
    match position segs et t with
    | Some (Ok a) => match position segs et o with Some (Ok b) => Some (Ok (vsub a b)) | r => r end
    | r => r
    end.

  (** spk_kernel.rs:199-216 *)
  Definition fast (segs : list kseg) (et : fnum) (p : Z) : outcome V serr :=
    match edge segs et p 0 with
    | Ok tg => match edge segs et 3 0 with
        | Ok emb => match edge segs et 399 3 with
            | Ok off => Ok (vsub tg (vadd emb off))
            | _ => match edge segs et 301 3 with Ok m => Ok (vsub tg (vsub emb (vmoon m))) | r => r end
            end
        | r => r
        end
    | r => r
    end.
  (** spk_kernel.rs:183-197 for a system barycentre with identifier [p] *)
  Definition barycentre_geocentric (segs : list kseg) (et : fnum) (p : Z) : option (outcome V serr) :=
    match fast segs et p with
    | Err (EMissing _) => geometric segs et p 399
    | r => Some r
    end.
End Set_.
Arguments KSeg {V}. Arguments k_target {V}. Arguments k_center {V}. Arguments k_start {V}. Arguments k_end {V}. Arguments k_pos {V}.
Arguments EvOk {V}. Arguments EvRange {V}. Arguments EvHard {V}.
