(** Model of /repo/src/formats/adsb/cpr.rs. [f64] is treated as exact rationals
    (rounding not modelled); the longitude-zone function [nl] (cpr.rs:42-54, cosine and
    arccosine) is a parameter returning an integer. *)
From Coq Require Import ZArith QArith Qround.
From Verif Require Import Base.
Local Open Scope Q_scope.

Definition two17 : Q := 131072.

(** cpr.rs:35-37 *)
Definition dlat (odd : bool) : Q := 360 / (4 * 15 - (if odd then 1 else 0)).

(** [f64::rem_euclid] of an integer-valued dividend by an integer-valued divisor;
    [None] is the NaN obtained for a zero divisor. *)
Definition rem_euclid (a b : Z) : option Z :=
  if (b =? 0)%Z then None else Some (a mod Z.abs b)%Z.

Section Cpr.
Variable nl : Q -> Z.

(** cpr.rs:170-194 [decode_locally] *)
Definition decode_locally (cpr_lat cpr_lon : Z) (odd : bool) (ref_lat ref_lon : Q) : Q * Q :=
  let d_lat := dlat odd in
  let j := Qfloor (ref_lat / d_lat - inject_Z cpr_lat / two17 + (1 # 2)) in
  let lat := d_lat * (inject_Z j + inject_Z cpr_lat / two17) in
  let lat := if Qle_bool 270 lat then lat - 360 else lat in
  let nl_val := nl lat in
  let n_lon := if odd then Z.max (nl_val - 1) 1 else Z.max nl_val 1 in
  let d_lon := 360 / inject_Z n_lon in
  let m := Qfloor (ref_lon / d_lon - inject_Z cpr_lon / two17 + (1 # 2)) in
  let lon := d_lon * (inject_Z m + inject_Z cpr_lon / two17) in
  let lon := if Qle_bool 180 lon then lon - 360 else lon in
  (lat, lon).

(** cpr.rs:87-144 [decode_globally]. The error case is the NL mismatch. A longitude of
    [None] is NaN: every operation and the final comparison propagate it. The latitude
    [rem_euclid] divisors are the constants 60 and 59. [nl_lat <= 1.0] and [< 1.0] are
    comparisons of integers. *)
Definition decode_globally (lat0 lon0 lat1 lon1 : Z) (odd_is_latest : bool)
  : outcome (Q * option Q) unit :=
  let dlat0 := dlat false in
  let dlat1 := dlat true in
  let j := Qfloor (59 * (inject_Z lat0 / two17) - 60 * (inject_Z lat1 / two17) + (1 # 2)) in
  let lat_e := dlat0 * (inject_Z (j mod 60) + inject_Z lat0 / two17) in
  let lat_o := dlat1 * (inject_Z (j mod 59) + inject_Z lat1 / two17) in
  let lat_e := if Qle_bool 270 lat_e then lat_e - 360 else lat_e in
  let lat_o := if Qle_bool 270 lat_o then lat_o - 360 else lat_o in
  if negb (nl lat_e =? nl lat_o)%Z then Err tt
  else
    let lat := if odd_is_latest then lat_o else lat_e in
    let nl_lat := nl lat in
    let m := Qfloor (inject_Z lon0 * (inject_Z nl_lat - 1) / two17
                     - inject_Z lon1 * inject_Z nl_lat / two17 + (1 # 2)) in
    let lon :=
      if odd_is_latest then
        let dlon := if (nl_lat <=? 1)%Z then 360 else 360 / (inject_Z nl_lat - 1) in
        match rem_euclid m (nl_lat - 1) with
        | None => None
        | Some r => Some (dlon * (inject_Z r + inject_Z lon1 / two17))
        end
      else
        let dlon := if (nl_lat <? 1)%Z then 360 else 360 / inject_Z nl_lat in
        match rem_euclid m nl_lat with
        | None => None
        | Some r => Some (dlon * (inject_Z r + inject_Z lon0 / two17))
        end in
    let lon := match lon with
               | None => None
               | Some l => Some (if Qle_bool 180 l then l - 360 else l)
               end in
    Ok (lat, lon).
End Cpr.
