(** The built-in solar system (src/bodies/solar_system.rs, src/bodies/satellite.rs) and which series tables each body
    reads (src/ephemeris/vsop87/vsop87a.rs, vsop87e.rs, vsop87_trait.rs, src/ephemeris/vsop87_backend.rs).

    Exact reals: kilograms, kilometres, astronomical units, degrees; a literal is the decimal number written. *)
From Coq Require Import Reals List String Arith.
From Verif Require Import Base Ang Conic_Model Body_Model Series_Model.
Import ListNotations.
Local Open Scope R_scope.

(** satellite.rs:46-58 *)
Record satellite := Satellite { s_name : string; s_mass : R; s_radius : R; s_orbit : orbit; s_albedo : option R }.
(** satellite.rs:65-78, 91-107: both constructors fill the same fields *)
Definition new_const (n : string) (m r : R) (o : orbit) : satellite := Satellite n m r o None.
(** satellite.rs:85-88 *)
Definition with_albedo (s : satellite) (a : R) : satellite := Satellite (s_name s) (s_mass s) (s_radius s) (s_orbit s) (Some a).

Local Open Scope string_scope.
Local Open Scope R_scope.
(** solar_system.rs:257-270 *)
Definition mercury : planet orbit := Planet (33011 * 10 ^ 19) (24397 / 10 ^ 1)
  {| o_a := 38709893 / 10 ^ 8; o_e := 20563069 / 10 ^ 8; o_inc := 700487 / 10 ^ 5; o_node := 4833167 / 10 ^ 5; o_argp := 2912478 / 10 ^ 5; o_m0 := 17479439 / 10 ^ 5; o_epoch := 2451545 |} (Some (68 / 10 ^ 3)).
(** solar_system.rs:284-297 *)
Definition venus : planet orbit := Planet (48675 * 10 ^ 20) (60518 / 10 ^ 1)
  {| o_a := 72333199 / 10 ^ 8; o_e := 677323 / 10 ^ 8; o_inc := 339471 / 10 ^ 5; o_node := 7668069 / 10 ^ 5; o_argp := 5485229 / 10 ^ 5; o_m0 := 5044675 / 10 ^ 5; o_epoch := 2451545 |} (Some (76 / 10 ^ 2)).
(** solar_system.rs:311-324 *)
Definition earth : planet orbit := Planet (597237 * 10 ^ 19) (6371)
  {| o_a := 100000011 / 10 ^ 8; o_e := 1671022 / 10 ^ 8; o_inc := 5 / 10 ^ 5; o_node := - (1126064 / 10 ^ 5); o_argp := 11420783 / 10 ^ 5; o_m0 := 35751716 / 10 ^ 5; o_epoch := 2451545 |} (Some (306 / 10 ^ 3)).
(** solar_system.rs:338-352 *)
Definition moon : satellite := with_albedo (new_const "Moon" (7346 * 10 ^ 19) (17374 / 10 ^ 1)
  {| o_a := 2566881 / 10 ^ 12; o_e := 549 / 10 ^ 4; o_inc := 5145 / 10 ^ 3; o_node := 12508 / 10 ^ 2; o_argp := 31815 / 10 ^ 2; o_m0 := 13527 / 10 ^ 2; o_epoch := 2451545 |}) (12 / 10 ^ 2).
(** solar_system.rs:366-379 *)
Definition mars : planet orbit := Planet (64171 * 10 ^ 19) (33895 / 10 ^ 1)
  {| o_a := 152366231 / 10 ^ 8; o_e := 9341233 / 10 ^ 8; o_inc := 185061 / 10 ^ 5; o_node := 4957854 / 10 ^ 5; o_argp := 2864623 / 10 ^ 4; o_m0 := 1941248 / 10 ^ 5; o_epoch := 2451545 |} (Some (25 / 10 ^ 2)).
(** solar_system.rs:393-406 *)
Definition jupiter : planet orbit := Planet (18982 * 10 ^ 23) (69911)
  {| o_a := 520336301 / 10 ^ 8; o_e := 4839266 / 10 ^ 8; o_inc := 13053 / 10 ^ 4; o_node := 10055615 / 10 ^ 5; o_argp := 2741977 / 10 ^ 4; o_m0 := 1965053 / 10 ^ 5; o_epoch := 2451545 |} (Some (503 / 10 ^ 3)).
(** solar_system.rs:420-433 *)
Definition saturn : planet orbit := Planet (56834 * 10 ^ 22) (58232)
  {| o_a := 953707032 / 10 ^ 8; o_e := 541506 / 10 ^ 7; o_inc := 248446 / 10 ^ 5; o_node := 11371504 / 10 ^ 5; o_argp := 3387169 / 10 ^ 4; o_m0 := 31751238 / 10 ^ 5; o_epoch := 2451545 |} (Some (342 / 10 ^ 3)).
(** solar_system.rs:447-460 *)
Definition uranus : planet orbit := Planet (8681 * 10 ^ 22) (25362)
  {| o_a := 1919126393 / 10 ^ 8; o_e := 4716771 / 10 ^ 8; o_inc := 76986 / 10 ^ 5; o_node := 7422988 / 10 ^ 5; o_argp := 9673436 / 10 ^ 5; o_m0 := 14226794 / 10 ^ 5; o_epoch := 2451545 |} (Some (3 / 10 ^ 1)).
(** solar_system.rs:474-487 *)
Definition neptune : planet orbit := Planet (102409 * 10 ^ 21) (24622)
  {| o_a := 3006896348 / 10 ^ 8; o_e := 858587 / 10 ^ 8; o_inc := 176917 / 10 ^ 5; o_node := 13172169 / 10 ^ 5; o_argp := 27324966 / 10 ^ 5; o_m0 := 25990868 / 10 ^ 5; o_epoch := 2451545 |} (Some (29 / 10 ^ 2)).
(** solar_system.rs:501-514 *)
Definition pluto : planet orbit := Planet (1303 * 10 ^ 19) (11883 / 10 ^ 1)
  {| o_a := 3948168677 / 10 ^ 8; o_e := 24880766 / 10 ^ 8; o_inc := 1714175 / 10 ^ 5; o_node := 11030347 / 10 ^ 5; o_argp := 11376329 / 10 ^ 5; o_m0 := 1486205 / 10 ^ 5; o_epoch := 2451545 |} (Some (52 / 10 ^ 2)).
(** solar_system.rs:521-534 *)
Definition ceres : planet orbit := Planet (9393 * 10 ^ 17) (473)
  {| o_a := 27675 / 10 ^ 4; o_e := 758 / 10 ^ 4; o_inc := 105941 / 10 ^ 4; o_node := 803055 / 10 ^ 4; o_argp := 735977 / 10 ^ 4; o_m0 := 959892 / 10 ^ 4; o_epoch := 2451545 |} (Some (9 / 10 ^ 2)).
(** solar_system.rs:537-550 *)
Definition haumea : planet orbit := Planet (4006 * 10 ^ 18) (620)
  {| o_a := 43218 / 10 ^ 3; o_e := 195 / 10 ^ 3; o_inc := 2819 / 10 ^ 2; o_node := 1219 / 10 ^ 1; o_argp := 2391 / 10 ^ 1; o_m0 := 2057 / 10 ^ 1; o_epoch := 2451545 |} (Some (8 / 10 ^ 1)).
(** solar_system.rs:553-566 *)
Definition makemake : planet orbit := Planet (31 * 10 ^ 20) (715)
  {| o_a := 45791 / 10 ^ 3; o_e := 159 / 10 ^ 3; o_inc := 2901 / 10 ^ 2; o_node := 793 / 10 ^ 1; o_argp := 2861 / 10 ^ 1; o_m0 := 1598 / 10 ^ 1; o_epoch := 2451545 |} (Some (81 / 10 ^ 2)).
(** solar_system.rs:569-582 *)
Definition eris : planet orbit := Planet (166 * 10 ^ 20) (1163)
  {| o_a := 67864 / 10 ^ 3; o_e := 44177 / 10 ^ 5; o_inc := 4404 / 10 ^ 2; o_node := 3595 / 10 ^ 2; o_argp := 151231 / 10 ^ 3; o_m0 := 20417 / 10 ^ 2; o_epoch := 2451545 |} (Some (96 / 10 ^ 2)).
(** solar_system.rs:592-607 *)
Definition io : satellite := with_albedo (new_const "Io" (89319 * 10 ^ 18) (18216 / 10 ^ 1)
  {| o_a := 2823 / 10 ^ 6; o_e := 41 / 10 ^ 4; o_inc := 36 / 10 ^ 3; o_node := 43977 / 10 ^ 3; o_argp := 84129 / 10 ^ 3; o_m0 := 171016 / 10 ^ 3; o_epoch := 2451545 |}) (62 / 10 ^ 2).
(** solar_system.rs:610-624 *)
Definition europa : satellite := with_albedo (new_const "Europa" (47998 * 10 ^ 18) (15608 / 10 ^ 1)
  {| o_a := 4485 / 10 ^ 6; o_e := 9 / 10 ^ 3; o_inc := 465 / 10 ^ 3; o_node := 219106 / 10 ^ 3; o_argp := 8897 / 10 ^ 2; o_m0 := 324528 / 10 ^ 3; o_epoch := 2451545 |}) (67 / 10 ^ 2).
(** solar_system.rs:627-641 *)
Definition ganymede : satellite := with_albedo (new_const "Ganymede" (14819 * 10 ^ 19) (26341 / 10 ^ 1)
  {| o_a := 7155 / 10 ^ 6; o_e := 13 / 10 ^ 4; o_inc := 177 / 10 ^ 3; o_node := 63552 / 10 ^ 3; o_argp := 192417 / 10 ^ 3; o_m0 := 317654 / 10 ^ 3; o_epoch := 2451545 |}) (43 / 10 ^ 2).
(** solar_system.rs:644-658 *)
Definition callisto : satellite := with_albedo (new_const "Callisto" (10759 * 10 ^ 19) (24103 / 10 ^ 1)
  {| o_a := 12585 / 10 ^ 6; o_e := 74 / 10 ^ 4; o_inc := 192 / 10 ^ 3; o_node := 298848 / 10 ^ 3; o_argp := 52643 / 10 ^ 3; o_m0 := 51483 / 10 ^ 3; o_epoch := 2451545 |}) (17 / 10 ^ 2).
(** solar_system.rs:661-675 *)
Definition titan : satellite := with_albedo (new_const "Titan" (13452 * 10 ^ 19) (257473 / 10 ^ 2)
  {| o_a := 8167 / 10 ^ 6; o_e := 288 / 10 ^ 4; o_inc := 34854 / 10 ^ 5; o_node := 16865 / 10 ^ 2; o_argp := 186585 / 10 ^ 3; o_m0 := 30744 / 10 ^ 3; o_epoch := 2451545 |}) (22 / 10 ^ 2).
(** solar_system.rs:678-692 *)
Definition triton : satellite := with_albedo (new_const "Triton" (214 * 10 ^ 20) (13534 / 10 ^ 1)
  {| o_a := 2371 / 10 ^ 6; o_e := 16 / 10 ^ 6; o_inc := 156865 / 10 ^ 3; o_node := 216732 / 10 ^ 3; o_argp := 185965 / 10 ^ 3; o_m0 := 14496 / 10 ^ 2; o_epoch := 2451545 |}) (76 / 10 ^ 2).

(** solar_system.rs:145-152 *)
Definition mercury_rotation : iau := {| alpha0 := 2810103 / 10 ^ 4; alpha1 := - (328 / 10 ^ 4); delta0 := 614155 / 10 ^ 4; delta1 := - (49 / 10 ^ 4); w0 := 3295988 / 10 ^ 4; w1 := 61385108 / 10 ^ 7 |}.
(** solar_system.rs:153-160 *)
Definition venus_rotation : iau := {| alpha0 := 27276 / 10 ^ 2; alpha1 := 0; delta0 := 6716 / 10 ^ 2; delta1 := 0; w0 := 1602 / 10 ^ 1; w1 := - (14813688 / 10 ^ 7) |}.
(** solar_system.rs:161-168 *)
Definition mars_rotation : iau := {| alpha0 := 317269 / 10 ^ 3; alpha1 := - (10927 / 10 ^ 5); delta0 := 54432 / 10 ^ 3; delta1 := - (5827 / 10 ^ 5); w0 := 176049 / 10 ^ 3; w1 := 350891982443 / 10 ^ 9 |}.
(** solar_system.rs:169-176 *)
Definition moon_rotation : iau := {| alpha0 := 2699949 / 10 ^ 4; alpha1 := 31 / 10 ^ 4; delta0 := 665392 / 10 ^ 4; delta1 := 13 / 10 ^ 3; w0 := 383213 / 10 ^ 4; w1 := 1317635815 / 10 ^ 8 |}.
(** solar_system.rs:177-184 *)
Definition jupiter_rotation : iau := {| alpha0 := 268057 / 10 ^ 3; alpha1 := - (6 / 10 ^ 3); delta0 := 64495 / 10 ^ 3; delta1 := 2 / 10 ^ 3; w0 := 28495 / 10 ^ 2; w1 := 870536 / 10 ^ 3 |}.
(** solar_system.rs:185-192 *)
Definition saturn_rotation : iau := {| alpha0 := 40589 / 10 ^ 3; alpha1 := - (36 / 10 ^ 3); delta0 := 83537 / 10 ^ 3; delta1 := - (4 / 10 ^ 3); w0 := 389 / 10 ^ 1; w1 := 8107939024 / 10 ^ 7 |}.
(** solar_system.rs:193-200 *)
Definition uranus_rotation : iau := {| alpha0 := 257311 / 10 ^ 3; alpha1 := 0; delta0 := - (15175 / 10 ^ 3); delta1 := 0; w0 := 20381 / 10 ^ 2; w1 := - (5011600928 / 10 ^ 7) |}.
(** solar_system.rs:201-208 *)
Definition neptune_rotation : iau := {| alpha0 := 29936 / 10 ^ 2; alpha1 := 0; delta0 := 4346 / 10 ^ 2; delta1 := 0; w0 := 249978 / 10 ^ 3; w1 := 5411397757 / 10 ^ 7 |}.
(** solar_system.rs:209-216 *)
Definition pluto_rotation : iau := {| alpha0 := 132993 / 10 ^ 3; alpha1 := 0; delta0 := - (6163 / 10 ^ 3); delta1 := 0; w0 := 302695 / 10 ^ 3; w1 := 563625225 / 10 ^ 7 |}.

(** solar_system.rs:768-777, 585, 695-703 *)
Definition planets : list (planet orbit) := [mercury; venus; earth; mars; jupiter; saturn; uranus; neptune].
Definition dwarf_planets : list (planet orbit) := [pluto; ceres; haumea; makemake; eris].
Definition major_moons : list satellite := [moon; io; europa; ganymede; callisto; titan; triton].

(** [HourAngles::from_hms(h, m, s).to::<Degree>()]. Both are in the units crate: [k] is the number of degrees it takes
    for one unit of hour angle. The sign of a negative hour count only matters here with no minutes and seconds. *)
Definition from_hms (k h m s : R) : R := k * (h + m / 60 + s / 3600).
(** solar_system.rs:235-240: declination, right ascension in degrees *)
Definition sun_dec (k : R) : R := from_hms k (-23) 0 0.
Definition sun_ra (k : R) : R := from_hms k 18 44 48.
(** the direction of a latitude and a longitude given in degrees *)
Definition direction (lat lon : R) : vec3 := (cos (rad lat) * cos (rad lon), cos (rad lat) * sin (rad lon), sin (rad lat)).
(** a latitude, a longitude and a distance as a vector *)
Definition spherical (lat lon d : R) : vec3 := let '(x, y, z) := direction lat lon in (d * x, d * y, d * z).
(** solar_system.rs:721-729 and 730-738 *)
Definition sun_earth_l1 : vec3 := spherical 0 0 (99 / 100).
Definition sun_earth_l2 : vec3 := spherical 0 180 (101 / 100).

(** * The series each body reads *)
Inductive solution := SolA | SolE.
Inductive named := NSun | NMercury | NVenus | NEarth | NEmb | NMars | NJupiter | NSaturn | NUranus | NNeptune.
Inductive axis := X | Y | Z.
(** the coefficient data of another crate: [st sol body axis power] *)
Definition store : Type := solution -> named -> axis -> nat -> list term.
Definition upto (st : store) (s : solution) (b : named) (a : axis) (n : nat) : list (list term) := map (st s b a) (seq 0 n).
Definition six (st : store) (s : solution) (b : named) : tables := (upto st s b X 6, upto st s b Y 6, upto st s b Z 6).
Definition five (st : store) (s : solution) (b : named) : tables := (upto st s b X 5, upto st s b Y 5, upto st s b Z 4).
Inductive body := BMercury | BVenus | BEarth | BMars | BJupiter | BSaturn | BUranus | BNeptune | BMoon.
(** vsop87a.rs:110-171 *)
Definition tables_a (st : store) (b : body) : tables :=
  match b with
  | BMercury => six st SolA NMercury | BVenus => six st SolA NVenus | BEarth => six st SolA NEarth | BMars => six st SolA NMars
  | BJupiter => six st SolA NJupiter | BSaturn => six st SolA NSaturn | BUranus => five st SolA NUranus | BNeptune => five st SolA NNeptune
  | BMoon => six st SolA NEmb
  end.
(** vsop87e.rs:131-216; there is none for the Moon *)
Definition tables_e (st : store) (b : body) : option tables :=
  match b with
  | BMercury => Some (six st SolE NMercury) | BVenus => Some (six st SolE NVenus) | BEarth => Some (six st SolE NEarth) | BMars => Some (six st SolE NMars)
  | BJupiter => Some (six st SolE NJupiter) | BSaturn => Some (six st SolE NSaturn) | BUranus => Some (five st SolE NUranus) | BNeptune => Some (five st SolE NNeptune)
  | BMoon => None
  end.
(** vsop87a.rs:54-105 *)
Definition vsop87a (st : store) (b : body) (jd : R) : vec3 := position jd (tables_a st b).
Definition vsop87a_vel (st : store) (b : body) (jd : R) : vec3 := velocity jd (tables_a st b).
Definition vsop87a_pos_vel (st : store) (b : body) (jd : R) : vec3 * vec3 := position_velocity jd (tables_a st b).
(** vsop87e.rs:55-126 *)
Definition vsop87e (st : store) (b : body) (jd : R) : option vec3 := option_map (position jd) (tables_e st b).
Definition vsop87e_vel (st : store) (b : body) (jd : R) : option vec3 := option_map (velocity jd) (tables_e st b).
Definition vsop87e_pos_vel (st : store) (b : body) (jd : R) : option (vec3 * vec3) := option_map (position_velocity jd) (tables_e st b).
(** vsop87e.rs:133-152 *)
Definition sun_vsop87e (st : store) (jd : R) : vec3 := position jd (six st SolE NSun).
(** vsop87_trait.rs:54-81: for the eight planets only *)
Definition trait_a (st : store) (b : body) (jd : R) : option vec3 := match b with BMoon => None | _ => Some (vsop87a st b jd) end.
Definition trait_e (st : store) (b : body) (jd : R) : option vec3 := match b with BMoon => None | _ => vsop87e st b jd end.
(** vsop87_backend.rs:28-54 *)
Definition sun_barycentric (st : store) (jd : R) : vec3 := sun_vsop87e st jd.
Definition earth_barycentric (st : store) (jd : R) : vec3 := position jd (six st SolE NEarth).
Definition earth_heliocentric (st : store) (jd : R) : vec3 := vsop87a st BEarth jd.
Definition earth_barycentric_velocity (st : store) (jd : R) : vec3 := velocity jd (six st SolE NEarth).
