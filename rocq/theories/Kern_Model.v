(** Model of SPK state chaining (/repo/src/formats/spice/kernel.rs) and of the kernel stack
    (/repo/src/spice/kernel_set.rs). *)
From Coq Require Import List ZArith QArith Bool.
From Verif Require Import Base Graph.
Import ListNotations.
Local Open Scope Z_scope.
Local Open Scope outcome_scope.

(** Times: rationals or NaN (infinities left out); every comparison with NaN is false. *)
Definition fnum := option Q.
Definition flt (a b : fnum) : bool :=
  match a, b with Some x, Some y => match Qcompare x y with Lt => true | _ => false end | _, _ => false end.

Inductive kerr := KNoChain | KOutOfCoverage | KUnsupported (t : Z) | KOther.

Section Kernel.
  (** States: any type with the operations of [[f64; 6]] addition and subtraction. *)
  Variable V : Type.
  Variable vzero : V.
  Variables vadd vsub : V -> V -> V.

  (** kernel.rs:24-51 [LoadedSegment]; [l_eval] is [segment], by its [evaluate] function. The frame
      identifier is left out: the code never looks at it. *)
  Record lseg := LSeg { l_target : Z; l_center : Z; l_type : Z; l_start : fnum; l_end : fnum;
    l_eval : option (fnum -> outcome V kerr) }.

  Definition enum (segs : list lseg) : list (nat * lseg) := combine (seq 0 (length segs)) segs.
  (** kernel.rs:251, 265: skipped when [epoch < start || epoch > end] *)
  Definition in_cover (t : fnum) (s : lseg) : bool := negb (flt t (l_start s) || flt (l_end s) t).

  (** kernel.rs:247-259; [by_target] (123-126) lists, in order, the indices with that target *)
  Definition fwd (segs : list lseg) (t : fnum) (node : Z) : list (Z * (nat * bool)) :=
    flat_map (fun '(i, s) => if (l_target s =? node) && in_cover t s then [(l_center s, (i, true))] else []) (enum segs).
  (** kernel.rs:260-272 *)
  Definition bwd (segs : list lseg) (t : fnum) (node : Z) : list (Z * (nat * bool)) :=
    flat_map (fun '(i, s) => if (l_center s =? node) && in_cover t s then [(l_target s, (i, false))] else []) (enum segs).
  Definition nbrs_at (segs : list lseg) (t : fnum) (node : Z) := fwd segs t node ++ bwd segs t node.
  (** kernel.rs:315-327 *)
  Definition nbrs_any (segs : list lseg) (node : Z) : list (Z * unit) :=
    flat_map (fun s => if l_target s =? node then [(l_center s, tt)]
                       else if l_center s =? node then [(l_target s, tt)] else []) segs.

  (** Loop bound: one node per segment end, and the start. *)
  Definition bound (segs : list lseg) : nat := S (S (2 * length segs)).

  (** kernel.rs:306-331 *)
  Definition has_chain (segs : list lseg) (a b : Z) : option bool :=
    match bfs (nbrs_any segs) (bound segs) b [(a, (a, tt))] [a] with None => None | Some (_, r) => Some r end.

  (** kernel.rs:226-304; [None]: a loop exceeded the bound (shown impossible) *)
  Definition find_chain (segs : list lseg) (a b : Z) (t : fnum) : option (outcome (list (nat * bool)) kerr) :=
    match bfs (nbrs_at segs t) (bound segs) b [(a, (a, (0%nat, true)))] [a] with
    | None => None
    | Some (v, true) => match recon (length v) v a b [] with None => None | Some p => Some (Ok p) end
    | Some (_, false) =>
        match has_chain segs a b with
        | None => None
        | Some true => Some (Err KOutOfCoverage)
        | Some false => Some (Err KNoChain)
        end
    end.

  (** kernel.rs:183-221; the final comparison is a debug assertion *)
  Fixpoint sum_path (segs : list lseg) (t : fnum) (center : Z) (p : list (nat * bool)) (acc : V) (cur : Z) : outcome V kerr :=
    match p with
    | [] => if cur =? center then Ok acc else Panic
    | (i, forward) :: p' =>
        match nth_error segs i with
        | None => Panic
        | Some s =>
            match l_eval s with
            | None => Err (KUnsupported (l_type s))
            | Some f => v <- f t ;;
                if (forward : bool) then sum_path segs t center p' (vadd acc v) (l_center s)
                else sum_path segs t center p' (vsub acc v) (l_target s)
            end
        end
    end.
  (** kernel.rs:166-222 [state] *)
  Definition state (segs : list lseg) (a b : Z) (t : fnum) : option (outcome V kerr) :=
    if a =? b then Some (Ok vzero)
    else match find_chain segs a b t with
         | None => None
         | Some r => Some (p <- r ;; sum_path segs t b p vzero a)
         end.

  (** src/spice/kernel_set.rs:118-132 [state_naif], kernels latest first *)
  Fixpoint stack_rev (ks : list (list lseg)) (a b : Z) (t : fnum) : option (outcome V kerr) :=
    match ks with
    | [] => Some (Err KNoChain)
    | k :: ks' => match state k a b t with
                  | Some (Err KNoChain) | Some (Err KOutOfCoverage) => stack_rev ks' a b t
                  | r => r
                  end
    end.
  Definition state_naif (ks : list (list lseg)) := stack_rev (rev ks).
End Kernel.
Arguments LSeg {V}. Arguments l_target {V}. Arguments l_center {V}. Arguments l_type {V}.
Arguments l_start {V}. Arguments l_end {V}. Arguments l_eval {V}.
