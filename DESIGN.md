# Formal model of siderust: design

## 1. Scope and conventions

The model is written in Rocq (Coq 8.16.1) under `rocq/theories/`. Each modelled
Rust function is a total Gallina function whose comment cites the file and
lines in `/repo`. Layout per area:

* `X_Model.v`: the code, function by function (no proofs).
* `X_Spec.v` (when needed): an independent specification, written without the
  model's helpers.
* `X_Proofs.v`: lemmas.
* `X_Props.v`: the property theorems, each one line long (`exact lemma`), with
  an `Example` showing a concrete case that meets the hypotheses, and
  `Print Assumptions`.

Conventions:

* Fallible Rust functions return `outcome A E` = `Ok a | Err e | Panic`.
  `Panic` stands for an index out of range, a slice off a character boundary,
  an arithmetic overflow (debug build), `unwrap` on `None`, or a capacity
  overflow. "Never panics" is therefore a provable statement.
* Unsigned machine integers are `N` or `Z` with the wrap written explicitly
  where the property depends on it.
* Loops become structural recursion, or recursion on explicit fuel with an
  out-of-fuel value that the theorem excludes (and a theorem giving sufficient
  fuel). Non-termination is stated as "no amount of fuel is enough".
* `f64` has three treatments, and each definition says which one is used:
  (a) abstract over an exact ordered field (`Q` or `R`): the algorithm is
  modelled, rounding is not; (b) order only (`Z`/`Q`), where the code only
  compares; (c) bit-exact IEEE binary64 through Flocq or `SpecFloat` where the
  property is about rounding. NaN is modelled only under (c) or where a
  definition says so.
* Text is a list of bytes/characters (`ascii`); Unicode enters only where the
  property concerns character boundaries.
* Functions of absent crates (chrono, tempoch, qtty, affn, faer) are either
  written as their documented effect (constructor, field access, vector sum) or
  are Section variables that the theorem quantifies over.

When the code violates the property as users would state it, the file contains
a `_refuted` theorem (an explicit witness, checked by the kernel) plus the
strongest true version. When a proof covers part of a property, the theorem
name ends in `_partial` and the note in `MANIFEST.json` says what is missing.

## 2. Trusted base

* Coq's kernel (and `vm_compute`), no plugins.
* Axioms: only those of the standard library, as printed by
  `Print Assumptions` under each theorem. Discrete files are axiom-free
  ("Closed under the global context"). Files using `Reals` list the standard
  library's classical real axioms (`ClassicalDedekindReals.sig_forall_dec`,
  `ClassicalDedekindReals.sig_not_dec`, `FunctionalExtensionality.functional_extensionality_dep`)
  and, where Coquelicot/Flocq results are used, `Classical_Prop.classic`.
  Section 4 gives the list.
* The hand translation from Rust to Gallina. Every definition cites its lines.
* The meaning of std library calls (`str::trim`, `split_whitespace`,
  `binary_search_by`, `sort_by`, `from_le_bytes`, float casts), modelled by
  their documented behaviour.

Not modelled:

* Floating-point rounding under treatments (a) and (d). Theorems there are about
  the exact algorithm; each model file says so at its head.
* Numerical tables: VSOP87, ELP, nutation and Lagrange coefficients, passbands,
  star and observatory catalogues, gravity coefficients. The theorems quantify
  over every table of the right shape.
* HTTP download, archive lookup, environment variables, file locks.
* The parquet and JSON encoders. What is handed to them is modelled, the bytes
  they produce are not.
* External crates: affn, qtty, tempoch, chrono, faer, principia, cheby, optica,
  serde. Section 5 lists what is assumed of them.
* Modules with only re-exports, unit aliases, error-message text, build scripts
  and benches.

## 3. Plan per property

| Id | Modelled | Proof idea |
|----|----------|------------|
| C01 | `sha256`, `compress` on `list N` words | spec = pad whole message then fold blocks; show the tail regimes build the same blocks, for all lengths |
| C02 | `hex_nibble`, `hex32`, `to_hex`, comparison | induction on the digest; case analysis on nibbles |
| C03 | `crc24` as shift register on `N` | spec = GF(2) long division over `list bool`; simulation invariant, high bits are a multiple of 2^24 |
| C04 | `parse_frame` acceptance | GF(2) linearity, generator has non-zero constant term, so a burst shorter than its degree is never divisible |
| C05 | `decode_altitude` | bit lemmas lifted from a complete 4096-code sweep |
| C06 | `decode_identification` | shift/mask inverse of packing, per character |
| C07 | `decode_locally` over `Q`/`R`, zone count abstract | floor arithmetic |
| C08 | `decode_globally` index arithmetic over `Q`, zone count abstract | modular arithmetic; polar-band divisor case as refutation |
| C09 | `compute_checksum`, `validate_tle_checksum` | sum modulo 10 difference |
| C10 | `SatelliteNumber::parse`, `format_alpha5` | letter table inverse plus decimal digits |
| C11 | integer core of the assumed-decimal formatter and parser | decimal digit lemmas; carry witness |
| C12 | `format_tle` column assembly | lengths add up; checksum digit is a digit |
| C13 | `expand_two_digit_year` | linear arithmetic |
| C14 | designator expand/contract on text | list splitting |
| C15 | KVN write/read of the catalogue number | decimal printing/parsing; refutation above 99999 |
| C16 | `Daf::parse` record chain on bytes | fuel induction; self-pointing record never terminates |
| C17 | `read_segment` on word arrays, trailer values abstract | bounds arithmetic, `Panic` unreachable |
| C18 | `find_chain` BFS and the signed sum | BFS invariant (queue, visited, predecessor), potential argument |
| C19 | `try_position_from_ssb` DFS | induction on unvisited bodies; path existence |
| C20 | `KernelSet` histories | induction on the load list |
| C21 | `store_value` folds | induction on assignments |
| C22 | `ValueParser` on character lists | fuel bounded by length; printer/parser round trip |
| C23 | `tai_minus_utc_at`, `gregorian_to_jd` | induction on table; day-count recurrence |
| C24 | partition lookup, affine maps over `Q` | order and field arithmetic |
| C25 | window selection | arithmetic on indices |
| C26 | `lagrange_value` over a field | polynomial root counting |
| C27 | `hermite_value_and_derivative` | confluent Newton form |
| C28 | `locate` | floor arithmetic |
| C29 | frame registry, 3x3 matrices over `R`/ring | induction on chain; matrix algebra |
| C30 | `rotation_to_j2000` over `R` | trigonometric identities; witness for the pole sign |
| C31 | `load_text_kernel` roles | state machine; refutation witness |
| C32 | CK sorted records | binary search invariant |
| C33 | `parse_sck` with 64-bit wrap | arithmetic; overflow witness |
| C34, C35 | interval assembly | induction on alternating crossings |
| C36 | scan loops | induction on steps |
| C37 | `brent_engine`, `bisection` over `R`, signal arbitrary | loop invariant |
| C38 | golden section | loop invariant |
| C39 | classification | linear arithmetic |
| C40 | `interpolate` | binary search invariant, affine arithmetic |
| C41 | `read_sp3`, `Sp3Stream` over abstract line classes | simulation |
| C42 | `add_row` | induction over rows, ring arithmetic |
| C43 | `predict`, `update_scalar` over `R`, n-dimensional | quadratic forms |
| C44 | naming helpers | decimal printing lemmas |
| C45 | grid counts | list length |
| C46 | covariance checks | index arithmetic |

C47 and later were added as the model grew. The remark says what is simplified,
left out or refuted.

| Id | Property | Proved in | Remark |
|----|----------|-----------|--------|
| C47 | ADS-B bit fields are read at their published positions | `Adsb_Props` | All payload fields of the position message and the header. |
| C48 | ADS-B velocity decoding respects the coded fields | `Adsb_Props` | Integer part of the velocity decoder; square root, arctangent and unit factors not modelled. The not-available reading of field value 0 is violated by the code: C48_unavailable_refuted gives a valid frame. |
| C49 | CPR longitude-zone count follows the standard transition latitudes | `Cpr_Props` | Over the reals (f64 rounding of cos and acos not modelled). |
| C50 | Element sets round-trip through their text | `Tle_Props` | f64 fields are exact decimals in Q; binary rounding of decimal input and the f64 day fraction are not modelled. C50_year_end_refuted and C50_nan_refuted record defects outside the printable domain. |
| C51 | Keyword-value messages round-trip | `Omm_Props` | Text, integers exact; numbers within half a unit of the last printed digit. The date codec (chrono) is a quantified parameter. C51_malformed_refuted and C51_newline_refuted record defects. |
| C52 | Bracket seeding isolates every sampled sign change | `Cross_Props` | C52_min_step_refuted: a minimum step of zero does not terminate. |
| C53 | SP3 files survive writing and reading | `Ilrs_Props`, `Sp3_Props` | Round trip proved with its exact limits; two defects are stated as _refuted theorems: seconds that round to 60 make the file unreadable, negative or NaN seconds are read as zero. |
| C54 | Frame kernels give exactly the frames they define | `Fk_Props` | Refuted side claims: padded identifiers lose the whole kernel, fractional integers are cut. |
| C55 | Planetary constants are those of the body's variables | `Pck_Props` | C55_spelling_refuted: two spellings of one body make the result depend on hash map order. |
| C56 | Instrument kernels give exactly the instruments they name | `Ik_Props` | C56_boresight_refuted: a non-numeric boresight is silently dropped. |
| C57 | Loading a text kernel adds exactly its roles | `Ctx_Props` | Binary kernels are opaque; the five text readers are the models of C23, C24, C54-C56. |
| C58 | Keyword-value messages are read by their last line about each key | `Xml_Props` | kvn.rs reader: last line wins, exact acceptance condition, no panic; epoch text parser is a parameter (chrono). |
| C59 | XML messages round-trip and cannot be broken by their texts | `Xml_Props` | xml.rs: escape/unescape inverse, no markup, round trip, exact acceptance condition; six-digit catalogue numbers and elements with attributes are refused (refuted theorems). |
| C60 | The JSON record of a message keeps every field | `Xml_Props` | json.rs record conversions; serde text form is out of scope. |
| C61 | Dates of ephemeris messages are calendar dates and read back | `Oem_Props` | Julian dates are exact rationals in the model; f64 rounding of dates is not modelled. C61_ranges_unchecked records that the reader accepts impossible dates. |
| C62 | Ephemeris files read exactly as their blocks say, and written ones read back | `Oem_Props` | C62_blocks_refuted: covariance and manoeuvre blocks lose data on reading; C62_not_finite_refused: the writer writes what its reader refuses. XML form not covered here. |
| C63 | Orbit parameter messages read as their lines say and round-trip | `Ccsds_Props` | Numbers are exact decimals; a missing semi-major axis silently drops the other elements (C63_elements_need_axis). |
| C64 | Tracking data messages read as their blocks say and round-trip | `Ccsds_Props` | The text of numbers is a parameter with what is assumed of it in the theorem. C64_no_epoch_refuted and C64_keyword_kept_refuted record what is not kept. |
| C65 | Process noise is a covariance that composes over steps | `Noise_Props` | Real arithmetic; also shows that variance_after alone accepts steps back in time and returns a negative variance, and that the test lets small indefinite matrices through. |
| C66 | A noise schedule gives the level of the interval that contains the time | `Noise_Props` | Durations and times are finite reals. |
| C67 | Moon phase labels partition the circle and events are the right crossings | `Phase_Props` | Exact reals; the crossing finder and the ephemerides are parameters. The normalising loops are modelled with fuel and shown to end. A non-positive sampling step never ends and this is stated (C67_samples_end). With half-width 0 a full turn's label New Moon and a waxing flag cannot clash, so C67_waxing asks 0 < hw <= 45. |
| C68 | Moon illumination is the geometry of the Earth, Moon and Sun | `Phase_Props` | Exact reals, no rounding. The guard on the distance Moon-Sun (1e-15 au) is a hypothesis where it matters. |
| C69 | Positions on an orbit are where Kepler's equation puts the body | `Conic_Props` | Exact reals. The solver of Kepler's equation belongs to another crate and is a parameter that satisfies the equation (one exists: C69_solvable). At the pole of tan(E/2) the model takes the limit, as the f64 code does in effect. Element validation belongs to another crate and is not modelled. |
| C70 | Motion along an orbit obeys Newton's law | `Conic_Props` | Same model as C69. kepler_position uses the Gaussian year 365.256898326 d and conic positions the constant 0.01720209895; the two strengths are stated separately, they differ in the last digits. |
| C71 | Crossing searches report only verified crossings and miss no sampled sign change | `Sweep_Props` | The Chebyshev fit and the roots of its polynomial are an arbitrary function of the piece. Times and values are exact rationals; NaN is not modelled. C71_touch_refuted records that touching the threshold at a scan node counts as rising. |
| C72 | Events and above-threshold periods agree | `Sweep_Props` | Periods and events are computed from the same labelled crossings. C72_touch_refuted records the period made of a signal that is never above. |
| C73 | The Sun's daily predictor only reports crossings of the precise altitude | `Daily_Props` | The precise and fast altitudes, the day's solution and the Chebyshev fit are arbitrary functions. Exact rationals; values that are not finite and the diagnostics counters are not modelled. C73_empty_refuted and C73_direction_refuted record two limits. |
| C74 | Predicted rising and setting times solve the day's geometry | `Daily_Props` | Exact reals. |
| C75 | Reported passages of a bearing are changes of half circle | `Azim_Props` | Real-valued azimuth, real sine; the sign of the signal reaches the search through any sign-faithful map. The opposite-bearing reports are proved as a refutation of the documented claim. |
| C76 | Azimuth ranges contain exactly the times in the arc; unwrapping follows the body | `Azim_Props` | Periods under the same 'search saw the crossings' condition as C34; ranges over 360 degrees refuted. |
| C77 | Horizontal coordinates point at the body | `Horiz_Props` | Real arithmetic. Precession, nutation and sidereal time are parameters (any orthonormal matrix, any angle). |
| C78 | Azimuth, elevation and range describe the line of sight | `Geom_Props` | Real arithmetic. Coincident points are excluded. |
| C79 | The hidden fraction is the area of overlap; eclipse states follow from it | `Geom_Props` | Real arithmetic, positive radii, distinct points. The shadow and behind-the-target refutations are exact statements about the code's formula. |
| C80 | A line of sight is obstructed exactly when the segment meets the ball | `Geom_Props` | Real arithmetic, radius not negative. |
| C81 | The terrain mask is the periodic piecewise linear profile of its samples | `Geom_Props` | Real arithmetic; distinct azimuths. The order of sorting and reducing is refuted for azimuths outside one turn. |
| C82 | Beta angle, local time and field of view | `Geom_Props` | Real arithmetic. |
| C83 | JPL segments: the right record, the right polynomial, the right slope | `Jpl_Props` | Rounding and overflow of f64 not modelled; the cheby crate is modelled by the three-term recurrence. Records of radius zero are outside the hypotheses of the slope theorem. |
| C84 | JPL segment stacks prefer the last covering segment | `Jpl_Props` | C84_blocked_refuted: an invalid later segment that claims the epoch blocks a valid earlier one. |
| C85 | JPL body chains agree with each other | `Jpl_Props` | Mass ratio, astronomical unit and ecliptic rotation are parameters. C85_gap_refuted: a gap in the Earth segments makes the Earth unavailable though the Moon and barycentre segments would place it. |
| C86 | Terrestrial time to ephemeris time | `Jpl_Props` | Real arithmetic; the sine of f64 is taken as exact. |
| C87 | The Sun-Earth frame and the starting points of the Lagrange points | `Lag_Props` | Frame axes, rate and refusal; seeds of all five points; exact equilibrium of L4/L5; radial motion counterexample (C87_radial_refuted). |
| C88 | The Lagrange solver: exact linear algebra, honest answers | `Lag_Props` | Linear solver for every size; step cap; line search; every answer and failure of the iteration; growth and tolerance counterexamples (C88_growth_refuted, C88_tolerance_refuted). |
| C89 | Fitted Lagrange archives cover their span within the tolerance | `Lag_Props` | Tiling, coverage, agreement at nodes, validation, order selection; validation-grid and quoted-error counterexamples (C89_grid_refuted, C89_best_refuted). |
| C90 | The Moon's cached position follows the ephemeris | `Moon_Props` | Real numbers; the external cheby crate's nodes and fit are modelled by the standard formulas in Cheb.v. |
| C91 | The Moon's cached nutation follows the series | `Moon_Props` | Real numbers; the external cheby crate's nodes and fit are modelled by the standard formulas in Cheb.v. |
| C92 | The Moon's cached altitude is the altitude of the full chain | `Moon_Props` | Real numbers; the external cheby crate's nodes and fit are modelled by the standard formulas in Cheb.v. |
| C93 | Earth rotation angle and its period | `Earth_Props` | Real arithmetic; the external time crate's scale conversions are not modelled. |
| C94 | Sidereal time advances with the Earth rotation angle | `Earth_Props` | Real arithmetic; nutation angles enter as parameters. |
| C95 | Frame rotations form one consistent system | `Earth_Props` | Real arithmetic. C95_offsets_refuted and C95_galactic_refuted are defects of the code; C95_compose is the strongest true form. |
| C96 | The Earth-fixed chain spins the right way about the right pole | `Earth_Props` | Refuted parts: C96_cirs_pole_refuted, C96_sites_spin_refuted, C96_routes_refuted, C96_polar_refuted. affn's rotations are active (assumed; the routes disagreement does not depend on it). |
| C97 | Sites: exact shift, rigid Earth, diurnal motion | `Earth_Props` | C97_velocity_refuted: the reported diurnal velocity is opposite to the derivative of the reported position. |
| C98 | Ecliptic-of-date directions | `Earth_Props` | Real arithmetic. |
| C99 | Third-body perturbation | `Force_Props` | third-body formula, singular cases, rotation, sums and errors; the GCRS label is refuted (axes are those of the mean equator of J2000) |
| C100 | Shadow factor and radiation pressure | `Force_Props` | factor ranges, cylinder and cone geometry, monotone and continuous at contacts, direction and inverse square |
| C101 | Drag, density models and geodetic height | `Force_Props` | drag sign and errors, density models, height fixed points and exact cases; ignored spin components and constant density below ground refuted. Accuracy of three iterations away from equator, poles and surface is not bounded. |
| C102 | Relativistic and empirical accelerations | `Force_Props` | Schwarzschild term, plane, reversal, circular case; empirical components; periodicity |
| C103 | Thrust arcs and propellant ledger | `Force_Props` | ledger invariants over all append sequences; negative thrust accepted |
| C104 | Geopotential in inertial axes | `Force_Props` | turned field, length and radial part, zonal shortcut, whole turns; the spherical harmonic kernel is a parameter (other crate) |
| C105 | Aberration | `Place_Props` | unit, inverse, apex law, plane and side, exact maximum, axes, positions; f64 rounding not modelled |
| C106 | Astrometric and apparent directions | `Place_Props` | exact inverses for vectors and for any conversion between angles and unit vectors; frame independence |
| C107 | Gravitational light deflection | `Place_Props` | exact shift, bound for the inverse; the missing limb cut-off is stated as a refutation |
| C108 | Changes of centre | `Place_Props` | all centres including Pluto, Moon and the Lagrange points; ephemeris values are parameters |
| C109 | Body-centred positions | `Place_Props` | vector law, origin, round trip, routes; the ignored context is refuted |
| C110 | Mean equator of date to horizon | `Place_Props` | rotation, both round trips, exact undefined cases |
| C111 | Reading laser ranging predictions | `Ilrs_Props` | calendar exact for years 1-9999; out-of-range and malformed seconds stated |
| C112 | Predictions written and read back | `Ilrs_Props` | round trip with bounds; four exact exceptions |
| C113 | Reading laser ranging observations | `Ilrs_Props` | line-by-line reading; three defects stated |
| C114 | Strict and permissive laser ranging files | `Ilrs_Props` | modes related for every text |
| C115 | Range corrections | `Obs_Props` | order_refuted: the gravitational delay uses the range as corrected so far, so exchanging it with an offset changes the result. Real arithmetic. |
| C116 | Troposphere and ionosphere delays of satellite navigation | `Obs_Props` | Standard atmosphere constants as in the code; real arithmetic. |
| C117 | Code and phase residuals | `Obs_Props` | inertial_refuted, relativity_refuted: an Earth-fixed rotation term is added to documented inertial positions; relativity term has the opposite sign. The unit of the dependency's constant C is not visible, so C117_unit covers both readings. |
| C118 | Laser range residuals | `Obs_Props` | state_refuted and radial_refuted record deviations from the documentation. |
| C119 | Batches of observations | `Obs_Props` | tolerance_refuted: the 0.5 microsecond tolerance is below the f64 spacing of modern Julian dates; epoch_only_refuted. |
| C120 | Broadcast navigation records | `Nav_Props` | skip_refuted: documentation says permissive reading skips malformed records; it panics on a short line. White space is that of ASCII. |
| C121 | Reference times of navigation records | `Nav_Props` | wrap_refuted, negative_refuted: conversions with as wrap or saturate. |
| C122 | Navigation files written and read back | `Nav_Props` | unreadable, precision_refuted: writer leaves no blank before negative values below 1e-10 in size. |
| C123 | Station solutions: each station once, by its last estimates | `Igs_Props` | text as bytes; hash map order left open; floating-point values as decimals |
| C124 | Epochs by day of year are exact | `Igs_Props` | the rounding of the epoch arithmetic is not modelled; chrono's calendar represented by the day count of Lsk_Spec |
| C125 | Orbit exchange files are read line by line under the last section and epoch | `Igs_Props` | C125_permissive_refuted records where the documented error policy fails |
| C126 | Antenna offsets round-trip to half a hundredth | `Igs_Props` | field widths in bytes: names and frequencies are meant in ASCII; refuted theorems record the inexact cases |
| C127 | Beacon observation files: header by label, records under the last epoch | `Igs_Props` | ASCII text; the floors of the date formula are taken exactly |
| C128 | Planetary series: position is the whole series, velocity its derivative | `Series_Props` | real arithmetic; conversion to TDB and the coefficient tables are outside |
| C129 | Pluto's place from its three tables | `Series_Props` | real arithmetic; the tables are arguments |
| C130 | C interface: codes and names of enumerations | `Ffi_Props` | Rows of the macro are tables; the generated matches are functions over them. |
| C131 | C interface: frame transforms | `Ffi_Props` | Rotations are an arbitrary provider of rotations with ICRS as reference; exact reals. |
| C132 | C interface: horizontal directions come with altitude and azimuth exchanged | `Ffi_Props` | C132_exchanged states exactly what is delivered, C132_altitude_refuted that it is not what the fields say. |
| C133 | C interface: centres and orbits | `Ffi_Props` | Defects stated as C133_unit_refuted, C133_frame_refuted, C133_label_refuted, C133_unknown_center, C133_gravity_refuted; solver and offsets arbitrary. |
| C134 | C interface: arrays, handles and names | `Abi_Props` | Memory is a partial map with an arbitrary allocator; ASCII part of the catalogue look-up only. |
| C135 | C interface: searches for subjects | `Abi_Props` | Search functions arbitrary; defects stated as C135_phase_tolerance_refuted, C135_motion_refuted and the exact C135_fixed. |
| C136 | C interface: targets | `Abi_Props` | Exact reals; squares do not overflow. C136_center_refuted states the ignored centre. |
| C137 | Residual statistics | `Qc_Props` | Exact real arithmetic; NaN, infinities and rounding are not modelled. |
| C138 | Orbit comparison | `Qc_Props` | The local axes of the external crate are a parameter assumed orthonormal; the triad of empirical.rs is proved to be so. By-index pairing is documented; stated as a refuted epoch match. |
| C139 | Gauss-Newton stops where it says | `Fit_Props` | The assembler and the Cholesky solver are arbitrary functions; exact rational arithmetic. |
| C140 | Propagated arcs | `Arc_Props` | propagate_stm of the external crate is an arbitrary step function. |
| C141 | Integration steps and finite differences | `Arc_Props` | External integrators are arbitrary flows; exact rational arithmetic; step counts beyond 2^64 not modelled. |
| C142 | Two-line element states lie on the right ellipse | `Sgp_Props` | Over the reals; the mean motion derivative and drag term are used as the code uses them. Kepler's equation is always solved for eccentricities up to 1/3; above that a solver failure is reported as an error. Finding: positive B* lowers the mean motion before and after the epoch, so the orbit gains energy (C142_drag_refuted). |
| C143 | A star's threshold hour angle bounds exactly the time it is up | `Stareq_Props` | The precession-nutation matrix and sidereal time are parameters; completeness is for the hour angle followed at the mean sidereal rate, which is what the code assumes. |
| C144 | Star crossings are found when the star stays up and down long enough | `Stareq_Props` | The star's altitude follows the sinusoid at the sidereal rate; the root finder is any function. Finding: a star up for less than fifteen minutes a day is missed (C144_short, C144_short_refuted). |
| C145 | A force configuration builds exactly the forces it asks for | `Cfg_Props` | Parameter values are abstract; C145_double_refuted uses the library's own statement that the geopotential of degree two and order zero is the sum of the central and J2 terms. |
| C146 | The covariance checks accept and report exactly what they say | `Run_Props` | Entries are rationals or not a number; infinities are left out. Semidefiniteness is refuted with a witness. |
| C147 | A written manifest does not depend on the order files were added | `Run_Props` | Independence of order needs distinct kinds and paths; refuted otherwise. |
| C148 | A residual table has one line for each residual and tells them apart | `Run_Props` | Injectivity needs names without commas and line breaks; refuted otherwise. |
| C149 | An SP3 product reads back as the states it was made from | `Prod_Props` | to_utc stands for the time crate's TT to UTC conversion. The constant header and long identifiers are stated as refutations. |
| C150 | An OEM product reads back as the states it was made from | `Prod_Props` | As C62; the frame label EME2000 for GCRS states is a constant of the writer. |
| C151 | Each estimated parameter has the column of its first place in the list | `Prod_Props` | Only kinds matter to the order; values and sigmas are carried along. |
| C152 | The standard atmosphere is in balance and its altitude scale inverts | `Air_Props` | Over the reals. |
| C153 | Dead reckoning covers the ground the speed allows | `Air_Props` | The position constructor is external; the angles it is given are modelled. Composition on oblique tracks and the pole are refuted. |
| C154 | Airmass grows to the horizon and the airglow factor is the slant through the shell | `Haze_Props` | Over the reals; arguments finite. |
| C155 | Extinction dims, and redder light less | `Haze_Props` | Over the reals; ozone tables and tabulated phase functions are external (optica). |
| C156 | A cone search of a star catalogue misses nothing; what it returns beyond the cone is bounded | `Cat_Props` | f64 arithmetic taken as real arithmetic; NaN inputs not modelled |
| C157 | A catalogue record moved by its proper motion stays a direction on the sphere | `Cat_Props` | f64 arithmetic taken as real arithmetic; NaN inputs not modelled |
| C158 | A star table is read by column name, and an error names the first unreadable line | `Csv_Props` | decimal texts are read exactly rather than rounded; white space is ASCII; right ascension and declination are compared before conversion to radians |
| C159 | A VLBI side-car header is what its last lines say | `Csv_Props` | input is valid UTF-8 and reading does not fail |
| C160 | Body names resolve to NAIF numbers whatever their spelling | `Csv_Props` | white space is ASCII |
| C161 | Handles of the C dynamics interface are independent | `Dyn_Props` | Addresses are never reused in the model; using a freed or wrong handle is undefined and outside the claim. The integrator is a parameter. |
| C162 | Dynamics errors and callbacks keep their meaning | `Dyn_Props` | Payloads that no translation reads (boxed sources, body names) are dropped. |
| C163 | Spacecraft properties are validated | `Dyn_Props` | Exact real arithmetic: the overflow of an area divided by a tiny mass is not modelled. |
| C164 | Lunar albedo, phase law and reflected radiance | `Dyn_Props` | Exact real arithmetic; infinities and NaN as IEEE gives them. |
| C165 | The short lunar series always gives a possible Moon | `Luna_Props` | over the reals; rounding not modelled |
| C166 | The Sun is opposite the Earth, at the Earth's distance | `Luna_Props` | Earth position and nutation are parameters; C166_bias_refuted records the repeated frame bias |
| C167 | Velocity frame changes are one consistent set of rotations | `Luna_Props` | over the reals |
| C168 | Nutation is the plain sum of its tables | `Nut_Props` | Coefficient tables are parameters; f64 as reals. |
| C169 | Body builders keep the last value given and report the first one missing | `Body_Props` | Numbers as reals, the orbit type is arbitrary. C169_unchecked_refuted: build_unchecked drops the albedo. |
| C170 | Body-fixed frames invert exactly and point at the IAU pole under one Euler convention | `Body_Props` | affn's from_euler_zxz is outside the repository: C170_pole says under which of four conventions the pole is right. It does not say which one affn uses, so no defect is claimed. |
| C171 | Small gravity fields and planet identifiers are unambiguous | `Body_Props` | The coefficient table is a parameter. C171_two_body_refuted: the two-body field answers one at degree 0 for orders that do not exist. |
| C172 | Thrust arcs with different identifiers never share a parameter | `Body_Props` | Instants in seconds as reals; the time-scale types are external. |
| C173 | The built-in solar system holds together at every instant | `Solar_Props` | Constants as exact decimals; Kepler's equation solver is a parameter. The Moon, Sun and Lagrange-point entries are refuted against their own documentation. The units crate's hour angle is a parameter in the Sun's refutation. |
| C174 | Each planet's series functions read that planet's own tables | `Solar_Props` | Coefficient tables are parameters, with the published number of powers per body. C174_moon_refuted: the Moon's function returns the Earth-Moon barycentre. |
| C175 | Changing the azimuth convention never changes where one points | `Bearing_Props` | Degrees::normalize is the real remainder modulo 360; rounding not modelled. Direction::new of the affn crate is not modelled (only positions). |
| C176 | The fixed-step integrator never exceeds its step, never turns round, and refuses impossible steps | `Rk4_Props` | rk4_step and the propagation driver belong to the principia crate and are arbitrary; sums are exact. |
| C177 | The mission context remembers the last registration of each alias | `Mission_Props` | HashMap is an association list with one entry per key. |
| C178 | The columnar residual file holds exactly the pushed records | `Mission_Props` | The parquet crate's file format is not modelled, only the columns handed to it. |
| C179 | Correction policies are sets of stages | `Prov_Props` | Bits of a u8 as N. C179_beyond_refuted: nothing holds the applied set to the request. C179_all_or_nothing: the star functions only distinguish the empty policy. |
| C180 | Altitude and azimuth providers treat a star as its direction | `Prov_Props` | C180_star_azimuth_refuted and C180_star_periods_refuted state the defect (Star keeps the default azimuth_at_with_policy, which ignores the policy); C180_star_azimuth is the strongest true version. Body ephemerides, the matrix and sidereal time of the date are parameters. |
| C181 | An XML ephemeris message reads as what it says, and written ones read back | `OemXml_Props` | The XML crate is outside: the reader is modelled over its events, and how the text of an element is cut into runs is a parameter. C181_not_finite_refuted: the documented error for non-finite numbers is not given. C181_blank_refuted: an empty name is written and then refused. C181_references_refuted: if references are delivered as separate events, only the text after the last escaped character of a name survives. |
| C182 | RINEX observation files come back with every satellite, type and value | `Robs_Props` | The whole-file round trip, the columns of a row, lists of types of any length and the absence of panics on ASCII text are proved; the _refuted theorems give the files that are written but not read back (seconds that print as 60, short satellite names, wide values, long codes) and the texts that panic. |
| C183 | A star moves on a straight line given by its catalogue entry | `Motion_Props` | Over the reals; the unit factors km/s to AU/yr and light-year to AU are parameters and the coordinate crate's constructor, which may fold angles, is not modelled. Refuted: that more knowledge never loses a place. A star at the pole given by its plain rate has a place until its parallax and radial velocity are known, and a parallax that is not positive gives the error of the poles at every declination, with no fallback to the linear motion. |
| C184 | Brackets found from maxima hold a crossing each | `Seed_Props` | Exact rationals; times in lowest terms. The function is assumed to give equal values at equal times. Refuted: that the rise and the set of every pass are bracketed and that overlapping brackets are removed. With two passes a tenth of the remaining window apart the end of the first is in no bracket, and the end of the second is in two overlapping ones. |
| C185 | Culminations are the extrema of the apparent altitude | `Culm_Props` | Exact rationals; the altitude of the target by correction policy and time is a parameter. A provider may override event_culminations; the default is modelled. Extrema nearer than a scan step to the ends of the window may be missed, see C38. |
| C186 | The fused scan reports one correctly labelled crossing per change of sign | `Label_Props` | Exact rationals; negative zero is not modelled. Refuted: that the two searches always agree and that the initial state fits the labels. A signal that rises through the threshold exactly at a sample is found by this search and missed by find_directed_crossings; a signal that begins on the threshold and falls is reported as beginning below and then leaving. |
| C187 | A prepared orbit handle answers for the elements it was made from | `Prep_Props` | Prepared orbit handles; validation, dates, propagation and the allocator are parameters. Panics of the validation or allocator and invalid output pointers are not modelled. |

Floating-point rounding is out of scope for items under treatment (a) or (d), and
this is restated beside each.

## 4. Axioms

Letters used below, all from Coq's standard library:

* F: `FunctionalExtensionality.functional_extensionality_dep`
* D: `ClassicalDedekindReals.sig_forall_dec`
* N: `ClassicalDedekindReals.sig_not_dec`
* C: `Classical_Prop.classic`

These are what `Print Assumptions` lists for each property theorem. No file
declares an axiom. Of 1178 property theorems, 590 use none.

| Axioms | Theorems |
|--------|----------|
| none | every property theorem not named in the rows below (590) |
| CDF | C161_copied, C161_latest, C161_reads_back, C161_survives |
| CDFN | C07_local_recovers, C07_longitude_range_refuted, C08_global_recovers, C08_latitude_range_refuted, C08_polar_nan_refuted, C32_attitude, C32_slerp_between, C32_slerp_ends, C32_slerp_rate, C32_slerp_reverse, C32_slerp_sign, C32_slerp_unit, C49_antitone, C49_north_south, C49_poles, C49_range, C49_transition, C65_covariance, C65_is_psd, C65_longer, C65_steady, C65_variance_refuted, C67_events, C67_exact, C67_named, C67_sound, C68_fraction, C68_geocentric, C68_grows, C68_new_and_full, C68_phase_angle, C68_separation, C68_topocentric, C69_conic_elliptic, C69_conic_hyperbolic, C69_kepler, C69_mean_motion, C69_parabolic, C69_period, C69_prepared, C69_shape, C69_solvable, C69_with_mu, C70_conic_elliptic, C70_conic_hyperbolic, C70_kepler, C70_mean_motion, C70_with_mu, C74_candidates, C74_fast, C74_fast_bound, C77_culmination, C77_east, C77_horizontal, C77_star, C77_topocentric, C77_unique, C78_pointing, C78_range, C78_rate, C78_status_refuted, C79_behind_refuted, C79_chord, C79_eclipse, C79_fraction, C79_monotone, C79_radius_refuted, C79_range, C79_shadow_refuted, C81_unreduced_refuted, C82_beta, C82_radial, C82_rectangle, C83_position, C83_stored_velocity, C84_blocked_refuted, C85_gap_refuted, C86_monotone, C86_solution, C87_collinear, C87_equilibrium, C87_seed_accepted, C87_triangles, C89_near, C90_error, C90_exact, C91_smooth, C92_direct, C92_outside, C92_stable, C92_vertical, C95_all, C95_back, C95_compose, C95_galactic_refuted, C95_offsets_refuted, C95_proper, C95_round_trip, C95_same, C96_cirs_pole_refuted, C96_frames_spin, C96_routes_refuted, C96_sites_spin_refuted, C96_true_pole, C97_origin, C97_rigid, C97_round_trip, C97_speed, C97_velocity_refuted, C98_angles, C98_frame, C98_reported, C98_round_trip, C98_routes, C99_axes, C99_frame_refuted, C100_brighter, C100_cone, C100_contacts, C100_factor_range, C100_penumbra, C101_below, C101_corotating, C101_drag, C101_error, C101_exponential, C101_height_exact, C101_height_fixed, C101_height_only, C101_log_linear, C101_omega_ignored, C101_omega_refuted, C101_table, C103_integral, C103_ledger, C103_negative_thrust, C103_refused, C103_refused_unchanged, C103_rocket_equation, C103_split, C107_away, C107_inverse, C107_limb_refuted, C107_magnitude, C107_shift, C110_axes, C110_back_and_there, C110_rotation, C110_there_and_back, C110_undefined, C115_any_order, C115_bound, C115_displaced, C115_offsets, C115_order_refuted, C115_pipeline, C115_shapiro, C118_delays, C118_state_refuted, C131_agree, C131_compose, C131_round_trip, C131_spherical, C131_status, C132_altitude_refuted, C132_direction, C132_exchanged, C132_status, C133_body_round_trip, C133_gravity_refuted, C133_kepler, C133_label_refuted, C133_unknown_center, C135_fixed, C135_motion_refuted, C136_center, C136_center_refuted, C136_direction, C136_payload, C136_status, C142_accepts, C142_answers, C142_at, C142_drag_refuted, C142_drift, C142_epoch, C142_orbit, C142_phase, C142_wgs72, C143_height, C143_pole, C143_threshold, C144_constant, C144_found, C144_short, C144_short_refuted, C152_altitude_back, C152_falls, C152_hydrostatic, C152_pressure_back, C154_below_refuted, C154_bounded, C154_grows, C154_values, C155_altitude_refuted, C155_brightens_refuted, C155_molecules, C155_redder, C155_transmission, C156_chunked, C156_epoch, C156_finds, C156_inside_refuted, C156_meridian_refuted, C156_order, C156_parallel, C156_returned, C157_back_refuted, C164_distance, C164_nonfinite_refuted, C164_not_a_number, C164_phase, C164_square_refuted, C164_sunlight, C165_declination, C165_equatorial, C165_range, C165_remainders, C165_turns, C166_distance, C166_opposite, C173_clear, C173_moon_refuted, C173_order, C173_pluto, C179_all_or_nothing, C180_bodies, C180_crossings, C180_default, C180_empty, C180_outside, C180_periods, C180_place, C180_search, C180_star_altitude, C180_star_azimuth, C180_star_azimuth_refuted, C180_star_periods_refuted, C183_conventions, C183_distance, C183_epoch, C183_errors, C183_full, C183_linear, C183_more_known_refuted, C183_still, C183_straight |
| D | C81_flat, C108_pairs, C133_status, C137_empty, C138_panics, C162_coefficient, C162_wrap_refuted, C171_table, C171_two_body, C171_two_body_refuted |
| DF | C66_after, C66_before, C66_inside, C66_of_schedule, C66_others, C67_arcs, C67_nominal, C67_samples, C67_samples_end, C67_total, C67_turns, C82_cone, C82_rectangle_narrow, C83_invalid, C83_not_finite, C83_outside, C83_slope, C83_state, C84_absent, C84_chosen, C84_same_segment, C84_single, C84_uncovered, C87_velocity, C88_diagonal, C88_linear, C89_best_refuted, C89_last, C89_order, C89_record, C91_direct, C91_grid, C91_line, C91_total, C95_fk4, C95_galactic_close, C95_galactic_entry, C108_axes, C108_back, C108_detour, C108_identity, C108_same_point, C108_separation, C108_units, C109_context_refuted, C109_origin, C109_round_trip, C109_routes, C109_vector, C117_relativity_refuted, C117_unit, C119_epoch_only_refuted, C119_results, C119_tolerance_refuted, C131_positions, C133_back, C133_shift, C133_through, C133_unit_refuted, C145_double_refuted, C152_geometric, C152_geopotential, C156_filter, C161_accepts, C161_attach, C161_failure, C161_fresh, C161_isolated, C161_null, C161_null_context, C161_propagate, C161_released, C161_sound, C161_verdict, C162_density, C162_unreachable, C162_zero, C163_accepts, C163_first, C163_panics, C164_albedo, C164_redder, C169_unchecked_refuted, C170_rates, C172_arc, C172_distinct, C172_parameters, C172_same_id, C173_sane, C173_spin, C175_flips, C175_range |
| DFN | C29_chain, C29_compose, C29_depth, C29_ends, C29_identity, C29_inverse, C29_lengths, C29_no_reflection, C29_one_answer, C29_orthonormal, C29_self_refuted, C29_unknown_refuted, C30_exact_iff, C30_half_turn_refuted, C30_newest, C30_panic_iff, C30_panic_refuted, C30_pole, C30_pole_iff, C30_pole_refuted, C30_published, C30_rates, C30_rotation, C49_domain, C65_accepts, C65_bad_step, C65_layout, C65_no_panic, C65_test_accepts, C65_test_exact_refuted, C65_test_sound, C65_two_steps, C65_zero_step, C67_sorted, C67_waxing, C69_apsides, C69_node, C71_sine, C74_transit, C75_events, C75_found, C75_opposite_refuted, C75_sides, C76_arc, C76_outside, C76_periods, C76_unwrap, C76_unwrap_refuted, C76_wide_refuted, C77_angle, C80_obstructed, C80_symmetric, C81_around, C81_between, C81_bounds, C81_clears, C81_order, C81_sample, C82_noon, C82_time, C85_barycentre, C85_direct, C85_distance, C85_heliocentric, C85_moon, C85_velocity, C85_velocity_direct, C86_near, C87_frame, C87_radial_refuted, C87_refused, C88_affine, C88_answer, C88_cap, C88_failure, C88_growth_refuted, C88_search, C88_start, C88_tolerance_refuted, C89_covered, C89_ends, C89_grid_refuted, C89_nodes, C89_succeeds, C89_tiles, C89_validated, C89_within, C90_cached, C90_direct, C90_nodes, C90_total, C92_nutation, C93_formula, C93_least, C93_period, C93_range, C93_single, C93_split, C94_advance, C94_apparent, C94_mean, C94_series, C94_small, C96_polar_first_order, C96_polar_refuted, C98_true, C99_centre, C99_first_error, C99_formula, C99_needs_ephemeris, C99_no_singularity, C99_rotation, C99_sum, C100_cylinder, C100_dark, C100_pressure, C102_circular, C102_components, C102_empirical_error, C102_half_period, C102_no_period, C102_period, C102_plane, C102_profile, C102_relativity_error, C102_reversal, C102_schwarzschild, C103_arc, C104_length, C104_turned, C104_turns, C104_zonal, C105_apex, C105_axes, C105_largest, C105_position, C105_rest, C105_round_trip, C105_towards, C105_unit, C106_frames, C106_round_trip, C106_spherical, C107_unmoved, C115_geometry, C116_daily, C116_falls, C116_ionosphere, C116_peak, C116_pierce, C116_troposphere, C117_ambiguity, C117_clocks, C117_code_phase, C117_inertial_refuted, C117_iono_free, C117_sagnac, C118_light_time, C118_radial_refuted, C118_troposphere, C128_both, C128_empty_power, C128_order, C128_position, C128_velocity, C129_distance, C129_place, C129_short, C133_frame_refuted, C137_adds_up, C137_extremes, C137_group_order, C137_groups, C137_order, C137_report, C137_spread, C137_stats, C137_units, C138_by_index_refuted, C138_difference, C138_distance, C138_summary, C138_zero, C143_complete, C143_predicted, C153_legs, C153_legs_refuted, C153_moves, C153_pole_refuted, C153_still, C154_van_rhijn, C157_direction, C157_pole, C157_range, C157_still, C166_bias, C166_bias_refuted, C167_as_positions, C167_routes, C167_speeds, C168_abridged, C168_bounded, C168_full, C168_models, C168_order, C168_rotation, C169_period, C170_declination, C170_lengths, C170_meridian, C170_pole, C170_round_trip, C173_lagrange_refuted, C173_sun_refuted, C174_backend, C174_moon_refuted, C174_own, C174_velocity, C175_compose, C175_flip_twice, C175_points, C175_positions, C175_round_trip, C175_turns, C175_unique |

## 5. Assumptions about code outside the repository

* affn: the elementary rotations `rx`, `ry`, `rz` act on vectors (they do not
  rotate the axes), a rotation's inverse is its transpose, and the spherical
  direction is (cos lat cos lon, cos lat sin lon, sin lat).
* affn's `from_euler_zxz`: its convention is not assumed. C170_pole goes through
  the four possible conventions and says which one makes the pole right.
* affn's local orbital frame is assumed orthonormal. Its ellipsoidal position
  constructor (C153) is outside; the angles given to it are modelled.
* qtty: unit conversion multiplies by the ratio of the units. The unit of the
  constant `C` is not visible, so C117_unit covers both readings.
* tempoch and chrono: time scales are numbers of days or seconds on one axis;
  scale offsets are parameters unless a file says otherwise.
* faer: the solver returns a solution of the system it is given, or fails.
* principia: the force kernels, the two-body kernel and the integrator are
  parameters.
* cheby: nodes and fit are the textbook formulas in `Cheb.v`.
* optica: interpolation tables are parameters.
* quick_xml: a document is handed over as a list of tags and runs of text. How
  the text of one element is cut into runs is a parameter (C181).

## 6. Seeded bugs

`seeded/LOG.jsonl` has one line per wrong program tried. Each was made in a
scratch copy and every file depending on the edited definition was recompiled.
`theorems_failed` names the property theorems in the files that stopped
compiling, found by following which theorems mention the broken lemma.
`theorems_tightened` names theorems added or strengthened because the wrong
program had passed. Runs that failed because of a stale compiled library were
dropped from the log and repeated.
