(** The standard CPR encoder (RTCA DO-260B A.1.7.3), independent of the decoder model. *)
From Coq Require Import ZArith QArith Qround Qabs.
Local Open Scope Q_scope.

(** Zone counts: 60 (even) or 59 (odd) latitude zones per 360 degrees. *)
Definition lat_zones (odd : bool) : Z := if odd then 59 else 60.
Definition Dlat (odd : bool) : Q := 360 / inject_Z (lat_zones odd).
(** Longitude zones when the zone function gives [n]. *)
Definition lon_zones (n : Z) (odd : bool) : Z := if odd then Z.max (n - 1) 1 else Z.max n 1.
Definition Dlon (n : Z) (odd : bool) : Q := 360 / inject_Z (lon_zones n odd).

(** [MOD(x, y) = x - y * floor(x / y)] *)
Definition MOD (x y : Q) : Q := x - y * inject_Z (Qfloor (x / y)).
(** [floor(2^17 * MOD(x, d) / d + 1/2)] *)
Definition YZ (x d : Q) : Z := Qfloor (131072 * (MOD x d / d) + (1 # 2)).
(** Transmitted 17-bit code. *)
Definition code (x d : Q) : Z := (YZ x d mod 131072)%Z.
(** The position the code stands for: [d * (YZ / 2^17 + floor(x / d))]. *)
Definition quantised (x d : Q) : Q := d * (inject_Z (YZ x d) / 131072 + inject_Z (Qfloor (x / d))).

(** Encoding of a position with zone function [nl]. *)
Definition encode (nl : Q -> Z) (odd : bool) (lat lon : Q) : Z * Z :=
  let rlat := quantised lat (Dlat odd) in
  (code lat (Dlat odd), code lon (Dlon (nl rlat) odd)).
