(** Orbit products (src/pod/product/orbit.rs): SP3 and OEM files from a series of states; the parameter list
    (src/pod/problem/parameter.rs). The conversion of a TT Julian date to a UTC date and time is that of the external
    time crate: [to_utc] stands for it. *)
From Coq Require Import Ascii String List NArith ZArith Bool QArith.
From Verif Require Import Base Text DecFloat Sp3_Model Oem_Model.
Import ListNotations.
Local Open Scope N_scope.

(** src/astro/dynamics/state.rs: epoch as a TT Julian date (kept finite by its type), position and velocity in GCRS *)
Record ostate := OState { o_jd : Q; o_x : fnum; o_y : fnum; o_z : fnum; o_vx : fnum; o_vy : fnum; o_vz : fnum }.

(** orbit.rs:77-93 *)
Definition sp3_header (sat_id : str) (n : nat) : list str :=
  [ lit "#dP2024  1  1  0  0  0.00000000      " ++ pad_left 5 (dec (N.of_nat n)) ++ lit " ORBIT IGS20 HLM  POD";
    lit "##  2295      0.00000000   900.00000000 60310 0.0000000000000";
    lit "+    1   " ++ pad_right 3 sat_id ++ lit "                                                     ";
    lit "++         5                                                                  ";
    lit "%c L  cc GPS ccc cccc cccc cccc cccc ccccc ccccc ccccc ccccc";
    lit "%c cc cc ccc ccc cccc cccc cccc cccc ccccc ccccc ccccc ccccc";
    lit "%f  1.2500000  1.025000000  0.00000000000  0.000000000000000";
    lit "%f  0.0000000  0.000000000  0.00000000000  0.000000000000000";
    lit "%i    0    0    0    0      0      0      0      0         0";
    lit "%i    0    0    0    0      0      0      0      0         0";
    lit "/* siderust orbit product" ].
(** orbit.rs:94-121 *)
Definition sp3_product (to_utc : Q -> civil) (sat_id : str) (ss : list ostate) : str :=
  write_sp3 (Sp3 (sp3_header sat_id (length ss))
    (map (fun s => Sp3_Model.Epoch (to_utc (o_jd s)) [Position sat_id (o_x s) (o_y s) (o_z s) (Fin (999999999999 # 1000000))]) ss)).
(** orbit.rs:148-180 *)
Definition oem_product (bad_date : fnum -> str) (id name : str) (ss : list ostate) : outcome str oem_err :=
  write_oem bad_date (Meta id name (lit "EME2000") (lit "TT") (lit "EARTH"))
    (map (fun s => State (Fin (o_jd s)) (o_x s) (o_y s) (o_z s) (o_vx s) (o_vy s) (o_vz s)) ss).

(** parameter.rs:13-60 *)
Inductive pkind := PosX | PosY | PosZ | VelX | VelY | VelZ | ReceiverClockBias (r : str) | DragScale | SrpScale
  | CarrierAmbiguity (r s g : str) | SlrRangeBias (st : str) | EmpiricalAcceleration (f : str) (c : N) | Custom (n : str).
Definition pkind_eqb (a b : pkind) : bool :=
  match a, b with
  | PosX, PosX | PosY, PosY | PosZ, PosZ | VelX, VelX | VelY, VelY | VelZ, VelZ | DragScale, DragScale | SrpScale, SrpScale => true
  | ReceiverClockBias r, ReceiverClockBias r' => str_eqb r r'
  | CarrierAmbiguity r s g, CarrierAmbiguity r' s' g' => str_eqb r r' && str_eqb s s' && str_eqb g g'
  | SlrRangeBias r, SlrRangeBias r' => str_eqb r r'
  | EmpiricalAcceleration f c, EmpiricalAcceleration f' c' => str_eqb f f' && (c =? c')
  | Custom n, Custom n' => str_eqb n n'
  | _, _ => false
  end.
(** parameter.rs:63-96; only the kinds matter to the order *)
Fixpoint index_of (k : pkind) (ps : list pkind) : option nat :=
  match ps with [] => None | p :: r => if pkind_eqb p k then Some 0%nat else match index_of k r with Some i => Some (S i) | None => None end end.
