{
 "claims": [
  {
   "property": "C01",
   "status": "proved",
   "theorems": [
    "C01_sha256_is_fips",
    "C01_constants",
    "C01_prime_table",
    "C01_digest_shape"
   ],
   "note": "Full functional correctness for every byte string below 2^61 bytes; constants proved to be the FIPS root fractions. The const-fn sized-array plumbing is modelled by lists."
  },
  {
   "property": "C02",
   "status": "proved",
   "theorems": [
    "C02_hex_round_trip",
    "C02_hex_decodes_denotation",
    "C02_hex_accepts_exactly",
    "C02_hex_case_insensitive",
    "C02_compare_exact"
   ],
   "note": "Hex codec and comparison characterised exactly for every string; the panic on bad input is modelled as None/false."
  },
  {
   "property": "C03",
   "status": "proved",
   "theorems": [
    "C03_crc_is_remainder",
    "C03_systematic",
    "C03_accepts_exactly",
    "C03_never_panics"
   ],
   "note": "Bit-register CRC proved equal to the GF(2) remainder for every message length; parse_frame acceptance is an iff. Error message text is reduced to its data."
  },
  {
   "property": "C04",
   "status": "proved",
   "theorems": [
    "C04_burst_rejected",
    "C04_flips_rejected",
    "C04_generator_undetected"
   ],
   "note": "Every burst of up to 24 bits, every odd-weight error and every error of one to five bits in a 112-bit frame is reported as a parity error; C04_generator_undetected shows a 25-bit burst that passes."
  },
  {
   "property": "C05",
   "status": "proved",
   "theorems": [
    "C05_altitude_value",
    "C05_altitude_range",
    "C05_altitude_injective"
   ],
   "note": "The product with 0.3048 is taken exactly over Q (f64 rounding not modelled)."
  },
  {
   "property": "C06",
   "status": "proved",
   "theorems": [
    "C06_callsign_exact",
    "C06_never_panics"
   ],
   "note": "Exact characterisation (iff) of accepted identification payloads."
  },
  {
   "property": "C07",
   "status": "proved",
   "theorems": [
    "C07_local_recovers",
    "C07_longitude_range_refuted"
   ],
   "note": "Decoder over exact rationals (f64 rounding not modelled) with the real-valued zone function. The reported longitude can fall below -180: C07_longitude_range_refuted."
  },
  {
   "property": "C08",
   "status": "proved",
   "theorems": [
    "C08_global_recovers",
    "C08_polar_nan_refuted",
    "C08_latitude_range_refuted"
   ],
   "note": "Exact characterisation of consistent even/odd pairs. The positivity of the divisor is violated by the code: C08_polar_nan_refuted shows that every polar pair with the odd frame last yields NaN; C08_latitude_range_refuted shows an accepted latitude above 90."
  },
  {
   "property": "C09",
   "status": "proved",
   "theorems": [
    "C09_accept",
    "C09_digit_change",
    "C09_one_column",
    "C09_sign_lost_refuted",
    "C09_transposition_refuted",
    "C09_non_ascii_refuted"
   ],
   "note": "Acceptance is an iff on every ASCII line; missed one-column changes are characterised exactly. C09_sign_lost_refuted, C09_transposition_refuted and C09_non_ascii_refuted record what the checksum misses and a panic on a multi-byte last character."
  },
  {
   "property": "C10",
   "status": "proved",
   "theorems": [
    "C10_roundtrip",
    "C10_refused",
    "C10_canonical",
    "C10_no_panic"
   ],
   "note": "Every u32 and every five-character text."
  },
  {
   "property": "C11",
   "status": "proved",
   "theorems": [
    "C11_roundtrip",
    "C11_width",
    "C11_close",
    "C11_carry_refuted"
   ],
   "note": "Decimal values over Q (the f64 product and log10 are exact here). Carry to a sixth mantissa digit is a defect: C11_carry_refuted."
  },
  {
   "property": "C12",
   "status": "proved",
   "theorems": [
    "C12_checksum",
    "C12_lines"
   ],
   "note": "For every element set whose fields fit their columns (printable)."
  },
  {
   "property": "C13",
   "status": "proved",
   "theorems": [
    "C13_expand",
    "C13_year",
    "C13_signed_refuted"
   ],
   "note": "Characterised as an iff. The field accepts signed text: C13_signed_refuted."
  },
  {
   "property": "C14",
   "status": "proved",
   "theorems": [
    "C14_roundtrip",
    "C14_century_refuted"
   ],
   "note": "For every ASCII text. The opposite direction loses the century: C14_century_refuted."
  },
  {
   "property": "C15",
   "status": "proved",
   "theorems": [
    "C15_catalogue_number",
    "C15_alpha5_refuted"
   ],
   "note": "Exact iff for every message; the date codec is a quantified parameter assumed to succeed on the epoch. The wish that every TLE number survives is refuted by C15_alpha5_refuted."
  },
  {
   "property": "C16",
   "status": "proved",
   "theorems": [
    "C16_success",
    "C16_raw_success",
    "C16_termination",
    "C16_panic",
    "C16_termination_refuted",
    "C16_no_panic_refuted",
    "C16_word_order_refuted"
   ],
   "note": "Bit-exact doubles. C16_termination_refuted (a record naming itself), C16_no_panic_refuted (negative forward pointer, overflow-checked build) and C16_word_order_refuted (words always little-endian) record defects. The FTP/LOCFMT text test is modelled as a predicate on the header bytes."
  },
  {
   "property": "C17",
   "status": "proved",
   "theorems": [
    "C17_exact",
    "C17_no_panic",
    "C17_inside",
    "C17_indexed",
    "C17_no_panic_refuted"
   ],
   "note": "Bit-exact doubles, exact iff with the words of the file. Requires a start word not within 3 of 2^64: C17_no_panic_refuted shows the overflow panic for a word stored as -1."
  },
  {
   "property": "C18",
   "status": "proved",
   "theorems": [
    "C18_sound",
    "C18_complete",
    "C18_errors",
    "C18_total",
    "C18_value",
    "C18_exchange",
    "C18_stack",
    "C18_unsupported_refuted",
    "C18_exchange_refuted",
    "C18_cross_kernel_refuted"
   ],
   "note": "States in any abelian group (exact arithmetic), segment evaluation abstract; times rational or NaN. C18_unsupported_refuted, C18_exchange_refuted (inconsistent data) and C18_cross_kernel_refuted record limits. C18_stack covers the kernel stack."
  },
  {
   "property": "C19",
   "status": "proved",
   "theorems": [
    "C19_total",
    "C19_sound",
    "C19_complete",
    "C19_latest",
    "C19_value",
    "C19_geometric",
    "C19_shortcut_fallback",
    "C19_shortcut_value",
    "C19_shortcut_refuted",
    "C19_hard_refuted"
   ],
   "note": "Exact arithmetic, segment evaluation abstract. Completeness needs segments that do not fail hard (C19_hard_refuted); the planet-barycentre shortcut may refuse where the general lookup answers (C19_shortcut_refuted)."
  },
  {
   "property": "C20",
   "status": "proved",
   "theorems": [
    "C20_ignored",
    "C20_override",
    "C20_winner",
    "C20_none",
    "C20_unreadable_refuted",
    "C20_coverage_error_refuted"
   ],
   "note": "Exact arithmetic, kernel queries abstract. C20_unreadable_refuted and C20_coverage_error_refuted: a newer kernel that fails with another error, or only reports missing coverage, hides or changes the answer."
  },
  {
   "property": "C21",
   "status": "proved",
   "theorems": [
    "C21_accumulate",
    "C21_accumulate_text",
    "C21_value",
    "C21_appended_only",
    "C21_unfinished_refuted",
    "C21_comment_open",
    "C21_comment_closed",
    "C21_between_comments_refuted",
    "C21_unfinished"
   ],
   "note": "From the lines and from the file text. Lines of an assignment may be split between array elements. C21_unfinished_refuted: an unfinished statement before a text block is silently dropped."
  },
  {
   "property": "C22",
   "status": "proved",
   "theorems": [
    "C22_roundtrip",
    "C22_value",
    "C22_unambiguous",
    "C22_total",
    "C22_parse_total",
    "C22_quoted_plus_refuted",
    "C22_fortran_refuted",
    "C22_quoted_comment_refuted",
    "C22_trailing"
   ],
   "note": "Floats are exact rationals (correctly rounded decimal reading is not modelled). C22_quoted_plus_refuted, C22_quoted_comment_refuted and C22_fortran_refuted record inputs read differently from their meaning. Call-stack depth is not modelled."
  },
  {
   "property": "C23",
   "status": "proved",
   "theorems": [
    "C23_step",
    "C23_cases",
    "C23_monotone",
    "C23_calendar",
    "C23_date",
    "C23_century_refuted",
    "C23_bad_day_refuted",
    "C23_overflow_refuted",
    "C23_scale_refuted"
   ],
   "note": "Refuted parts recorded as theorems: dates from 1 March 2100 are off by a day, impossible days are accepted, large years overflow, and the table in UTC is looked up with TDB."
  },
  {
   "property": "C24",
   "status": "proved",
   "theorems": [
    "C24_select",
    "C24_there_and_back",
    "C24_back_and_there",
    "C24_ticks_monotone",
    "C24_times_monotone",
    "C24_clocks",
    "C24_reset_refuted",
    "C24_name_refuted"
   ],
   "note": "A table whose ticks restart breaks the round trip (C24_reset_refuted); a padded clock identifier spoils the whole kernel (C24_name_refuted)."
  },
  {
   "property": "C25",
   "status": "proved",
   "theorems": [
    "C25_window",
    "C25_outside",
    "C25_read",
    "C25_segment",
    "C25_single_refuted",
    "C25_overflow_refuted"
   ],
   "note": "A window of one record does not bracket; a huge descriptor overflows (refuted parts stated)."
  },
  {
   "property": "C26",
   "status": "proved",
   "theorems": [
    "C26_exact",
    "C26_node",
    "C26_segment",
    "C26_record",
    "C26_close_refuted"
   ],
   "note": "Nodes at least the tolerance (machine epsilon) apart; closer nodes are refused at evaluation (C26_close_refuted). Exact rational arithmetic."
  },
  {
   "property": "C27",
   "status": "proved",
   "theorems": [
    "C27_exact",
    "C27_node",
    "C27_segment"
   ],
   "note": "Nodes at least the tolerance apart. Exact rational arithmetic."
  },
  {
   "property": "C28",
   "status": "proved",
   "theorems": [
    "C28_inside",
    "C28_outside",
    "C28_series",
    "C28_read",
    "C28_short_refuted",
    "C28_trailer_refuted"
   ],
   "note": "The Chebyshev evaluation itself is in an external crate. Short files panic and records may overlap the trailer (refuted parts stated)."
  },
  {
   "property": "C29",
   "status": "proved",
   "theorems": [
    "C29_identity",
    "C29_compose",
    "C29_inverse",
    "C29_orthonormal",
    "C29_lengths",
    "C29_no_reflection",
    "C29_one_answer",
    "C29_chain",
    "C29_ends",
    "C29_depth",
    "C29_newest",
    "C29_unknown_refuted",
    "C29_self_refuted",
    "C29_shadow_refuted"
   ],
   "note": "Matrices over the reals, rounding not modelled. Refused as worded for an unknown frame rotated to itself (C29_unknown_refuted); a kernel with a self-relative frame is accepted and its query never returns (C29_self_refuted, a stack overflow in the code)."
  },
  {
   "property": "C30",
   "status": "proved",
   "theorems": [
    "C30_rotation",
    "C30_pole",
    "C30_pole_iff",
    "C30_published",
    "C30_exact_iff",
    "C30_half_turn_refuted",
    "C30_pole_refuted",
    "C30_newest",
    "C30_rates",
    "C30_panic_iff",
    "C30_panic_refuted"
   ],
   "note": "Angles and matrices over the reals. The original claim that the pole is mapped to the published pole is refuted: C30_pole_refuted, C30_half_turn_refuted; C30_exact_iff says when the code is right."
  },
  {
   "property": "C31",
   "status": "proved",
   "theorems": [
    "C31_syntax",
    "C31_error",
    "C31_one_role",
    "C31_binary",
    "C31_refuted"
   ],
   "note": "The original claim (an error leaves the context unchanged) is refuted by C31_refuted; C31_error gives the exact state after an error."
  },
  {
   "property": "C32",
   "status": "proved",
   "theorems": [
    "C32_value",
    "C32_inside",
    "C32_exact",
    "C32_outside",
    "C32_fraction",
    "C32_evaluate_no_panic",
    "C32_segment_choice",
    "C32_reported_coverage",
    "C32_read",
    "C32_load",
    "C32_read_no_panic_refuted",
    "C32_file_panic_refuted",
    "C32_first_segment_refuted",
    "C32_slerp_unit",
    "C32_slerp_ends",
    "C32_slerp_rate",
    "C32_slerp_between",
    "C32_slerp_sign",
    "C32_slerp_reverse",
    "C32_attitude"
   ],
   "note": "Two expectations fail and are refuted: a summary naming words outside the file panics (C32_read_no_panic_refuted, C32_file_panic_refuted), and a later segment that could answer is not consulted (C32_first_segment_refuted). Interpolation over the reals."
  },
  {
   "property": "C33",
   "status": "proved",
   "theorems": [
    "C33_accepts_iff",
    "C33_reads_image",
    "C33_reads_only_images",
    "C33_no_panic_refuted"
   ],
   "note": "The parser can panic: exactly when the record geometry overflows 64 bits in bytes (C33_no_panic_refuted; a 64-byte crash witness is given)."
  },
  {
   "property": "C34",
   "status": "proved",
   "theorems": [
    "C34_periods",
    "C34_signal",
    "C34_same",
    "C34_found",
    "C34_zero_refuted",
    "C34_merge_refuted"
   ],
   "note": "Assembly for every alternating crossing list; end-to-end theorem with scan and refinement. C34_zero_refuted: a zero exactly on a scan time loses the period. C34_merge_refuted: crossings closer than 1e-8 d merge and a whole tail is reported."
  },
  {
   "property": "C35",
   "status": "proved",
   "theorems": [
    "C35_below",
    "C35_range",
    "C35_directed",
    "C35_contract"
   ],
   "note": "Complement and intersection come from an external crate: their contract is a hypothesis, and C35_contract shows it can be met."
  },
  {
   "property": "C36",
   "status": "proved",
   "theorems": [
    "C36_crossings",
    "C36_directed",
    "C36_merge",
    "C36_labels",
    "C36_cover",
    "C36_ends",
    "C36_stuck",
    "C36_segments_refuted",
    "C36_outside_refuted"
   ],
   "note": "C36_stuck: a non-positive step never terminates. C36_segments_refuted, C36_outside_refuted: the segment variant can miss a crossing and report times outside the window."
  },
  {
   "property": "C37",
   "status": "proved",
   "theorems": [
    "C37_brent",
    "C37_brent_direct",
    "C37_brent_none",
    "C37_bracket",
    "C37_bisection",
    "C37_bisection_none",
    "C37_scan",
    "C37_scan_found",
    "C37_unconverged_refuted",
    "C37_scan_leaves_refuted"
   ],
   "note": "Brent (three entry points) and bisection over every function on rationals. C37_unconverged_refuted: 100 passes do not guarantee convergence. C37_scan_leaves_refuted: the scan finder can step outside the bracket when the tolerance is below the resolution. f64 rounding not modelled."
  },
  {
   "property": "C38",
   "status": "proved",
   "theorems": [
    "C38_inside",
    "C38_minimum",
    "C38_maximum",
    "C38_scan",
    "C38_single",
    "C38_ends",
    "C38_guard",
    "C38_derivative",
    "C38_slope",
    "C38_classify",
    "C38_classify_none",
    "C38_first_step_refuted"
   ],
   "note": "Exact rationals with the f64 literal of the golden ratio; its error is accounted for. C38_first_step_refuted: an extremum inside the first step is not reported."
  },
  {
   "property": "C39",
   "status": "proved",
   "theorems": [
    "C39_classes",
    "C39_monotone",
    "C39_documented_boundary_refuted",
    "C39_nan"
   ],
   "note": "altitudes as exact rationals; the type's own doc puts 0 degrees in Day but the code says Civil (C39_documented_boundary_refuted); NaN altitude classifies as Dark (C39_nan)"
  },
  {
   "property": "C40",
   "status": "proved",
   "theorems": [
    "C40_empty",
    "C40_any",
    "C40_between",
    "C40_node",
    "C40_linear",
    "C40_convex"
   ],
   "note": "exact rationals (no rounding); bracketing holds for any table, values for increasing tables"
  },
  {
   "property": "C41",
   "status": "proved",
   "theorems": [
    "C41_stream_is_batch",
    "C41_ended",
    "C41_content",
    "C41_error_line"
   ],
   "note": "Agreement, contents, error lines and behaviour after an error are all proved; calendar validity is an arbitrary predicate."
  },
  {
   "property": "C42",
   "status": "proved",
   "theorems": [
    "C42_accumulate",
    "C42_reduced",
    "C42_order",
    "C42_accepts",
    "C42_rejected_first",
    "C42_rejected_refuted",
    "C42_index_panics",
    "C42_documented_index_error_refuted",
    "C42_least_squares",
    "C42_psd"
   ],
   "note": "exact arithmetic; the Cholesky solve is external. C42_rejected_refuted: a row rejected at a later entry is left half applied; C42_documented_index_error_refuted: an index out of range after the first entry panics instead of being reported"
  },
  {
   "property": "C43",
   "status": "proved",
   "theorems": [
    "C43_invariant",
    "C43_joseph",
    "C43_shrinks",
    "C43_measured",
    "C43_rejected",
    "C43_accepts",
    "C43_positive_noise"
   ],
   "note": "exact arithmetic, any dimension (6 in the code); covariance container of the external crate taken as the plain matrix"
  },
  {
   "property": "C44",
   "status": "proved",
   "theorems": [
    "C44_token_length",
    "C44_token_value",
    "C44_token_exact",
    "C44_lossy_refuted",
    "C44_short_injective",
    "C44_short_length",
    "C44_before_epoch_refuted",
    "C44_long_injective",
    "C44_igs_fields"
   ],
   "note": "C44_lossy_refuted: rates that are not whole units collide; C44_before_epoch_refuted: dates before the GPS epoch give names with a sign inside; calendar arithmetic is in an external crate"
  },
  {
   "property": "C45",
   "status": "proved",
   "theorems": [
    "C45_length",
    "C45_sorted",
    "C45_altitudes",
    "C45_azimuths",
    "C45_rows",
    "C45_row_area"
   ],
   "note": "cosine and degree-to-radian factor are arbitrary; exact rationals"
  },
  {
   "property": "C46",
   "status": "proved",
   "theorems": [
    "C46_symmetric",
    "C46_diagonal",
    "C46_symmetric_error",
    "C46_diagonal_error",
    "C46_dimension",
    "C46_nan_refuted",
    "C46_psd_refuted"
   ],
   "note": "C46_nan_refuted: NaN entries pass both checks; C46_psd_refuted: passing both does not make the matrix positive semidefinite"
  },
  {
   "property": "C47",
   "status": "proved",
   "theorems": [
    "C47_header_fields",
    "C47_position_fields"
   ],
   "note": "All payload fields of the position message and the header."
  },
  {
   "property": "C48",
   "status": "proved",
   "theorems": [
    "C48_velocity_fields",
    "C48_unavailable_refuted"
   ],
   "note": "Integer part of the velocity decoder; square root, arctangent and unit factors not modelled. The not-available reading of field value 0 is violated by the code: C48_unavailable_refuted gives a valid frame."
  },
  {
   "property": "C49",
   "status": "proved",
   "theorems": [
    "C49_range",
    "C49_antitone",
    "C49_north_south",
    "C49_domain",
    "C49_transition",
    "C49_poles"
   ],
   "note": "Over the reals (f64 rounding of cos and acos not modelled)."
  },
  {
   "property": "C50",
   "status": "proved",
   "theorems": [
    "C50_roundtrip",
    "C50_year_end_refuted",
    "C50_nan_refuted",
    "C50_name",
    "C50_blank",
    "C50_zero_name_refuted"
   ],
   "note": "f64 fields are exact decimals in Q; binary rounding of decimal input and the f64 day fraction are not modelled. C50_year_end_refuted and C50_nan_refuted record defects outside the printable domain."
  },
  {
   "property": "C51",
   "status": "proved",
   "theorems": [
    "C51_kvn_roundtrip",
    "C51_from_to_tle",
    "C51_malformed_refuted",
    "C51_newline_refuted"
   ],
   "note": "Text, integers exact; numbers within half a unit of the last printed digit. The date codec (chrono) is a quantified parameter. C51_malformed_refuted and C51_newline_refuted record defects."
  },
  {
   "property": "C52",
   "status": "proved",
   "theorems": [
    "C52_fixed",
    "C52_sign",
    "C52_adaptive",
    "C52_ends",
    "C52_stuck",
    "C52_min_step_refuted"
   ],
   "note": "C52_min_step_refuted: a minimum step of zero does not terminate."
  },
  {
   "property": "C53",
   "status": "proved",
   "theorems": [
    "C53_seconds",
    "C53_round_trip",
    "C53_epoch_exact",
    "C53_epoch_near",
    "C53_round_trip_refuted",
    "C53_bad_seconds_refuted"
   ],
   "note": "Round trip proved with its exact limits; two defects are stated as _refuted theorems: seconds that round to 60 make the file unreadable, negative or NaN seconds are read as zero."
  },
  {
   "property": "C54",
   "status": "proved",
   "theorems": [
    "C54_frames",
    "C54_key",
    "C54_never_panics",
    "C54_by_id",
    "C54_by_name",
    "C54_numbers",
    "C54_truncates",
    "C54_padded_refuted",
    "C54_fraction_refuted"
   ],
   "note": "Refuted side claims: padded identifiers lose the whole kernel, fractional integers are cut."
  },
  {
   "property": "C55",
   "status": "proved",
   "theorems": [
    "C55_bodies",
    "C55_key",
    "C55_accepted",
    "C55_never_panics",
    "C55_order",
    "C55_spelling_refuted",
    "C55_empty_refuted"
   ],
   "note": "C55_spelling_refuted: two spellings of one body make the result depend on hash map order."
  },
  {
   "property": "C56",
   "status": "proved",
   "theorems": [
    "C56_instruments",
    "C56_key",
    "C56_never_panics",
    "C56_by_id",
    "C56_boresight_refuted",
    "C56_padded_refuted"
   ],
   "note": "C56_boresight_refuted: a non-numeric boresight is silently dropped."
  },
  {
   "property": "C57",
   "status": "proved",
   "theorems": [
    "C57_loaded",
    "C57_accepted",
    "C57_keeps",
    "C57_empty_refuted",
    "C57_roles"
   ],
   "note": "Binary kernels are opaque; the five text readers are the models of C23, C24, C54-C56."
  },
  {
   "property": "C58",
   "status": "proved",
   "theorems": [
    "C58_last_line_counts",
    "C58_reads",
    "C58_no_panic",
    "C58_same_sayings"
   ],
   "note": "kvn.rs reader: last line wins, exact acceptance condition, no panic; epoch text parser is a parameter (chrono)."
  },
  {
   "property": "C59",
   "status": "proved",
   "theorems": [
    "C59_unescape_escape",
    "C59_unescape_meaning",
    "C59_no_markup",
    "C59_xml_roundtrip",
    "C59_catalogue_number_refuted",
    "C59_reads",
    "C59_no_panic",
    "C59_leaf",
    "C59_attributes_refuted"
   ],
   "note": "xml.rs: escape/unescape inverse, no markup, round trip, exact acceptance condition; six-digit catalogue numbers and elements with attributes are refused (refuted theorems)."
  },
  {
   "property": "C60",
   "status": "proved",
   "theorems": [
    "C60_record_roundtrip",
    "C60_record_reads",
    "C60_forms_agree_refuted"
   ],
   "note": "json.rs record conversions; serde text form is out of scope."
  },
  {
   "property": "C61",
   "status": "proved",
   "theorems": [
    "C61_calendar_date",
    "C61_date_back",
    "C61_day_count",
    "C61_date_of_day",
    "C61_ranges_unchecked"
   ],
   "note": "Julian dates are exact rationals in the model; f64 rounding of dates is not modelled. C61_ranges_unchecked records that the reader accepts impossible dates."
  },
  {
   "property": "C62",
   "status": "proved",
   "theorems": [
    "C62_reads_documents",
    "C62_by_lines",
    "C62_roundtrip",
    "C62_needs_states",
    "C62_no_panic",
    "C62_not_finite_refused",
    "C62_blocks_refuted"
   ],
   "note": "C62_blocks_refuted: covariance and manoeuvre blocks lose data on reading; C62_not_finite_refused: the writer writes what its reader refuses. XML form not covered here."
  },
  {
   "property": "C63",
   "status": "proved",
   "theorems": [
    "C63_reads",
    "C63_no_panic",
    "C63_roundtrip",
    "C63_elements_need_axis",
    "C63_elements_complete"
   ],
   "note": "Numbers are exact decimals; a missing semi-major axis silently drops the other elements (C63_elements_need_axis)."
  },
  {
   "property": "C64",
   "status": "proved",
   "theorems": [
    "C64_reads",
    "C64_by_lines",
    "C64_no_panic",
    "C64_last_separator",
    "C64_roundtrip",
    "C64_no_epoch_refuted",
    "C64_keyword_kept_refuted",
    "C64_keyword_kept",
    "C64_type_kept"
   ],
   "note": "The text of numbers is a parameter with what is assumed of it in the theorem. C64_no_epoch_refuted and C64_keyword_kept_refuted record what is not kept."
  },
  {
   "property": "C65",
   "status": "proved",
   "theorems": [
    "C65_accepts",
    "C65_no_panic",
    "C65_bad_step",
    "C65_layout",
    "C65_covariance",
    "C65_two_steps",
    "C65_longer",
    "C65_zero_step",
    "C65_steady",
    "C65_variance_refuted",
    "C65_test_accepts",
    "C65_test_sound",
    "C65_test_exact_refuted",
    "C65_is_psd"
   ],
   "note": "Real arithmetic; also shows that variance_after alone accepts steps back in time and returns a negative variance, and that the test lets small indefinite matrices through."
  },
  {
   "property": "C66",
   "status": "proved",
   "theorems": [
    "C66_inside",
    "C66_after",
    "C66_before",
    "C66_of_schedule",
    "C66_others"
   ],
   "note": "Durations and times are finite reals."
  },
  {
   "property": "C67",
   "status": "proved",
   "theorems": [
    "C67_total",
    "C67_arcs",
    "C67_turns",
    "C67_nominal",
    "C67_waxing",
    "C67_sorted",
    "C67_events",
    "C67_exact",
    "C67_named",
    "C67_sound",
    "C67_samples",
    "C67_samples_end"
   ],
   "note": "Exact reals; the crossing finder and the ephemerides are parameters. The normalising loops are modelled with fuel and shown to end. A non-positive sampling step never ends and this is stated (C67_samples_end). With half-width 0 a full turn's label New Moon and a waxing flag cannot clash, so C67_waxing asks 0 < hw <= 45."
  },
  {
   "property": "C68",
   "status": "proved",
   "theorems": [
    "C68_phase_angle",
    "C68_separation",
    "C68_fraction",
    "C68_new_and_full",
    "C68_grows",
    "C68_geocentric",
    "C68_topocentric"
   ],
   "note": "Exact reals, no rounding. The guard on the distance Moon-Sun (1e-15 au) is a hypothesis where it matters."
  },
  {
   "property": "C69",
   "status": "proved",
   "theorems": [
    "C69_prepared",
    "C69_kepler",
    "C69_with_mu",
    "C69_mean_motion",
    "C69_conic_elliptic",
    "C69_conic_hyperbolic",
    "C69_parabolic",
    "C69_shape",
    "C69_period",
    "C69_apsides",
    "C69_node",
    "C69_solvable"
   ],
   "note": "Exact reals. The solver of Kepler's equation belongs to another crate and is a parameter that satisfies the equation (one exists: C69_solvable). At the pole of tan(E/2) the model takes the limit, as the f64 code does in effect. Element validation belongs to another crate and is not modelled."
  },
  {
   "property": "C70",
   "status": "proved",
   "theorems": [
    "C70_kepler",
    "C70_with_mu",
    "C70_mean_motion",
    "C70_conic_elliptic",
    "C70_conic_hyperbolic"
   ],
   "note": "Same model as C69. kepler_position uses the Gaussian year 365.256898326 d and conic positions the constant 0.01720209895; the two strengths are stated separately, they differ in the last digits."
  },
  {
   "property": "C71",
   "status": "proved",
   "theorems": [
    "C71_sound",
    "C71_order",
    "C71_notices",
    "C71_scan",
    "C71_scan_sound",
    "C71_quarters",
    "C71_ends",
    "C71_sine",
    "C71_touch_refuted"
   ],
   "note": "The Chebyshev fit and the roots of its polynomial are an arbitrary function of the piece. Times and values are exact rationals; NaN is not modelled. C71_touch_refuted records that touching the threshold at a scan node counts as rising."
  },
  {
   "property": "C72",
   "status": "proved",
   "theorems": [
    "C72_edges",
    "C72_order",
    "C72_ends",
    "C72_touch_refuted"
   ],
   "note": "Periods and events are computed from the same labelled crossings. C72_touch_refuted records the period made of a signal that is never above."
  },
  {
   "property": "C73",
   "status": "proved",
   "theorems": [
    "C73_sound",
    "C73_order",
    "C73_batch",
    "C73_cover",
    "C73_day",
    "C73_search",
    "C73_edges",
    "C73_ranges",
    "C73_empty_refuted",
    "C73_direction_refuted"
   ],
   "note": "The precise and fast altitudes, the day's solution and the Chebyshev fit are arbitrary functions. Exact rationals; values that are not finite and the diagnostics counters are not modelled. C73_empty_refuted and C73_direction_refuted record two limits."
  },
  {
   "property": "C74",
   "status": "proved",
   "theorems": [
    "C74_candidates",
    "C74_transit",
    "C74_fast",
    "C74_fast_bound"
   ],
   "note": "Exact reals."
  },
  {
   "property": "C75",
   "status": "proved",
   "theorems": [
    "C75_sides",
    "C75_events",
    "C75_found",
    "C75_opposite_refuted"
   ],
   "note": "Real-valued azimuth, real sine; the sign of the signal reaches the search through any sign-faithful map. The opposite-bearing reports are proved as a refutation of the documented claim."
  },
  {
   "property": "C76",
   "status": "proved",
   "theorems": [
    "C76_arc",
    "C76_periods",
    "C76_outside",
    "C76_wide_refuted",
    "C76_unwrap",
    "C76_unwrap_refuted"
   ],
   "note": "Periods under the same 'search saw the crossings' condition as C34; ranges over 360 degrees refuted."
  },
  {
   "property": "C77",
   "status": "proved",
   "theorems": [
    "C77_horizontal",
    "C77_unique",
    "C77_star",
    "C77_angle",
    "C77_culmination",
    "C77_east",
    "C77_topocentric"
   ],
   "note": "Real arithmetic. Precession, nutation and sidereal time are parameters (any orthonormal matrix, any angle)."
  },
  {
   "property": "C78",
   "status": "proved",
   "theorems": [
    "C78_pointing",
    "C78_range",
    "C78_rate",
    "C78_status_refuted"
   ],
   "note": "Real arithmetic. Coincident points are excluded."
  },
  {
   "property": "C79",
   "status": "proved",
   "theorems": [
    "C79_fraction",
    "C79_range",
    "C79_eclipse",
    "C79_chord",
    "C79_monotone",
    "C79_radius_refuted",
    "C79_shadow_refuted",
    "C79_behind_refuted"
   ],
   "note": "Real arithmetic, positive radii, distinct points. The shadow and behind-the-target refutations are exact statements about the code's formula."
  },
  {
   "property": "C80",
   "status": "proved",
   "theorems": [
    "C80_obstructed",
    "C80_symmetric"
   ],
   "note": "Real arithmetic, radius not negative."
  },
  {
   "property": "C81",
   "status": "proved",
   "theorems": [
    "C81_between",
    "C81_around",
    "C81_sample",
    "C81_bounds",
    "C81_order",
    "C81_flat",
    "C81_clears",
    "C81_unreduced_refuted"
   ],
   "note": "Real arithmetic; distinct azimuths. The order of sorting and reducing is refuted for azimuths outside one turn."
  },
  {
   "property": "C82",
   "status": "proved",
   "theorems": [
    "C82_beta",
    "C82_radial",
    "C82_time",
    "C82_noon",
    "C82_cone",
    "C82_rectangle",
    "C82_rectangle_narrow"
   ],
   "note": "Real arithmetic."
  },
  {
   "property": "C83",
   "status": "proved",
   "theorems": [
    "C83_position",
    "C83_stored_velocity",
    "C83_slope",
    "C83_state",
    "C83_outside",
    "C83_not_finite",
    "C83_invalid"
   ],
   "note": "Rounding and overflow of f64 not modelled; the cheby crate is modelled by the three-term recurrence. Records of radius zero are outside the hypotheses of the slope theorem."
  },
  {
   "property": "C84",
   "status": "proved",
   "theorems": [
    "C84_chosen",
    "C84_same_segment",
    "C84_uncovered",
    "C84_pairs",
    "C84_absent",
    "C84_single",
    "C84_blocked_refuted"
   ],
   "note": "C84_blocked_refuted: an invalid later segment that claims the epoch blocks a valid earlier one."
  },
  {
   "property": "C85",
   "status": "proved",
   "theorems": [
    "C85_barycentre",
    "C85_moon",
    "C85_direct",
    "C85_heliocentric",
    "C85_velocity",
    "C85_velocity_direct",
    "C85_distance",
    "C85_from_file",
    "C85_gap_refuted"
   ],
   "note": "Mass ratio, astronomical unit and ecliptic rotation are parameters. C85_gap_refuted: a gap in the Earth segments makes the Earth unavailable though the Moon and barycentre segments would place it."
  },
  {
   "property": "C86",
   "status": "proved",
   "theorems": [
    "C86_solution",
    "C86_near",
    "C86_monotone"
   ],
   "note": "Real arithmetic; the sine of f64 is taken as exact."
  },
  {
   "property": "C87",
   "status": "proved",
   "theorems": [
    "C87_frame",
    "C87_refused",
    "C87_velocity",
    "C87_collinear",
    "C87_triangles",
    "C87_equilibrium",
    "C87_seed_accepted",
    "C87_radial_refuted"
   ],
   "note": "Frame axes, rate and refusal; seeds of all five points; exact equilibrium of L4/L5; radial motion counterexample (C87_radial_refuted)."
  },
  {
   "property": "C88",
   "status": "proved",
   "theorems": [
    "C88_linear",
    "C88_diagonal",
    "C88_cap",
    "C88_affine",
    "C88_search",
    "C88_growth_refuted",
    "C88_answer",
    "C88_failure",
    "C88_start",
    "C88_tolerance_refuted"
   ],
   "note": "Linear solver for every size; step cap; line search; every answer and failure of the iteration; growth and tolerance counterexamples (C88_growth_refuted, C88_tolerance_refuted)."
  },
  {
   "property": "C89",
   "status": "proved",
   "theorems": [
    "C89_ends",
    "C89_nodes",
    "C89_tiles",
    "C89_covered",
    "C89_validated",
    "C89_succeeds",
    "C89_grid_refuted",
    "C89_record",
    "C89_near",
    "C89_order",
    "C89_within",
    "C89_last",
    "C89_best_refuted",
    "C89_fallback"
   ],
   "note": "Tiling, coverage, agreement at nodes, validation, order selection; validation-grid and quoted-error counterexamples (C89_grid_refuted, C89_best_refuted)."
  },
  {
   "property": "C90",
   "status": "proved",
   "theorems": [
    "C90_total",
    "C90_direct",
    "C90_cached",
    "C90_nodes",
    "C90_error",
    "C90_exact"
   ],
   "note": "Real numbers; the external cheby crate's nodes and fit are modelled by the standard formulas in Cheb.v."
  },
  {
   "property": "C91",
   "status": "proved",
   "theorems": [
    "C91_total",
    "C91_direct",
    "C91_grid",
    "C91_line",
    "C91_smooth"
   ],
   "note": "Real numbers; the external cheby crate's nodes and fit are modelled by the standard formulas in Cheb.v."
  },
  {
   "property": "C92",
   "status": "proved",
   "theorems": [
    "C92_vertical",
    "C92_direct",
    "C92_outside",
    "C92_stable",
    "C92_nutation"
   ],
   "note": "Real numbers; the external cheby crate's nodes and fit are modelled by the standard formulas in Cheb.v."
  },
  {
   "property": "C93",
   "status": "proved",
   "theorems": [
    "C93_range",
    "C93_formula",
    "C93_split",
    "C93_single",
    "C93_period",
    "C93_least"
   ],
   "note": "Real arithmetic; the external time crate's scale conversions are not modelled."
  },
  {
   "property": "C94",
   "status": "proved",
   "theorems": [
    "C94_mean",
    "C94_apparent",
    "C94_advance",
    "C94_series",
    "C94_small"
   ],
   "note": "Real arithmetic; nutation angles enter as parameters."
  },
  {
   "property": "C95",
   "status": "proved",
   "theorems": [
    "C95_proper",
    "C95_back",
    "C95_round_trip",
    "C95_same",
    "C95_compose",
    "C95_all",
    "C95_offsets_refuted",
    "C95_fk4",
    "C95_galactic_refuted",
    "C95_galactic_entry",
    "C95_galactic_close"
   ],
   "note": "Real arithmetic. C95_offsets_refuted and C95_galactic_refuted are defects of the code; C95_compose is the strongest true form."
  },
  {
   "property": "C96",
   "status": "proved",
   "theorems": [
    "C96_true_pole",
    "C96_cirs_pole_refuted",
    "C96_frames_spin",
    "C96_sites_spin_refuted",
    "C96_routes_refuted",
    "C96_polar_first_order",
    "C96_polar_refuted"
   ],
   "note": "Refuted parts: C96_cirs_pole_refuted, C96_sites_spin_refuted, C96_routes_refuted, C96_polar_refuted. affn's rotations are active (assumed; the routes disagreement does not depend on it)."
  },
  {
   "property": "C97",
   "status": "proved",
   "theorems": [
    "C97_round_trip",
    "C97_origin",
    "C97_rigid",
    "C97_speed",
    "C97_velocity_refuted"
   ],
   "note": "C97_velocity_refuted: the reported diurnal velocity is opposite to the derivative of the reported position."
  },
  {
   "property": "C98",
   "status": "proved",
   "theorems": [
    "C98_round_trip",
    "C98_routes",
    "C98_angles",
    "C98_frame",
    "C98_reported",
    "C98_true"
   ],
   "note": "Real arithmetic."
  },
  {
   "property": "C99",
   "status": "proved",
   "theorems": [
    "C99_formula",
    "C99_no_singularity",
    "C99_centre",
    "C99_rotation",
    "C99_sum",
    "C99_first_error",
    "C99_needs_ephemeris",
    "C99_axes",
    "C99_frame_refuted"
   ],
   "note": "third-body formula, singular cases, rotation, sums and errors; the GCRS label is refuted (axes are those of the mean equator of J2000)"
  },
  {
   "property": "C100",
   "status": "proved",
   "theorems": [
    "C100_factor_range",
    "C100_cylinder",
    "C100_cone",
    "C100_brighter",
    "C100_penumbra",
    "C100_contacts",
    "C100_pressure",
    "C100_dark"
   ],
   "note": "factor ranges, cylinder and cone geometry, monotone and continuous at contacts, direction and inverse square"
  },
  {
   "property": "C101",
   "status": "proved",
   "theorems": [
    "C101_drag",
    "C101_corotating",
    "C101_error",
    "C101_omega_ignored",
    "C101_omega_refuted",
    "C101_exponential",
    "C101_below",
    "C101_constant_refuted",
    "C101_table",
    "C101_log_linear",
    "C101_height_fixed",
    "C101_height_only",
    "C101_height_exact"
   ],
   "note": "drag sign and errors, density models, height fixed points and exact cases; ignored spin components and constant density below ground refuted. Accuracy of three iterations away from equator, poles and surface is not bounded."
  },
  {
   "property": "C102",
   "status": "proved",
   "theorems": [
    "C102_relativity_error",
    "C102_schwarzschild",
    "C102_plane",
    "C102_reversal",
    "C102_circular",
    "C102_empirical_error",
    "C102_components",
    "C102_period",
    "C102_half_period",
    "C102_profile",
    "C102_no_period"
   ],
   "note": "Schwarzschild term, plane, reversal, circular case; empirical components; periodicity"
  },
  {
   "property": "C103",
   "status": "proved",
   "theorems": [
    "C103_ledger",
    "C103_refused",
    "C103_refused_unchanged",
    "C103_rocket_equation",
    "C103_split",
    "C103_integral",
    "C103_arc",
    "C103_negative_thrust"
   ],
   "note": "ledger invariants over all append sequences; negative thrust accepted"
  },
  {
   "property": "C104",
   "status": "proved",
   "theorems": [
    "C104_turned",
    "C104_length",
    "C104_zonal",
    "C104_turns"
   ],
   "note": "turned field, length and radial part, zonal shortcut, whole turns; the spherical harmonic kernel is a parameter (other crate)"
  },
  {
   "property": "C105",
   "status": "proved",
   "theorems": [
    "C105_unit",
    "C105_round_trip",
    "C105_apex",
    "C105_towards",
    "C105_largest",
    "C105_rest",
    "C105_axes",
    "C105_position"
   ],
   "note": "unit, inverse, apex law, plane and side, exact maximum, axes, positions; f64 rounding not modelled"
  },
  {
   "property": "C106",
   "status": "proved",
   "theorems": [
    "C106_round_trip",
    "C106_spherical",
    "C106_frames"
   ],
   "note": "exact inverses for vectors and for any conversion between angles and unit vectors; frame independence"
  },
  {
   "property": "C107",
   "status": "proved",
   "theorems": [
    "C107_shift",
    "C107_away",
    "C107_magnitude",
    "C107_unmoved",
    "C107_inverse",
    "C107_limb_refuted"
   ],
   "note": "exact shift, bound for the inverse; the missing limb cut-off is stated as a refutation"
  },
  {
   "property": "C108",
   "status": "proved",
   "theorems": [
    "C108_same_point",
    "C108_pairs",
    "C108_identity",
    "C108_back",
    "C108_detour",
    "C108_separation",
    "C108_axes",
    "C108_units"
   ],
   "note": "all centres including Pluto, Moon and the Lagrange points; ephemeris values are parameters"
  },
  {
   "property": "C109",
   "status": "proved",
   "theorems": [
    "C109_vector",
    "C109_origin",
    "C109_round_trip",
    "C109_routes",
    "C109_context_refuted"
   ],
   "note": "vector law, origin, round trip, routes; the ignored context is refuted"
  },
  {
   "property": "C110",
   "status": "proved",
   "theorems": [
    "C110_axes",
    "C110_rotation",
    "C110_there_and_back",
    "C110_back_and_there",
    "C110_undefined"
   ],
   "note": "rotation, both round trips, exact undefined cases"
  },
  {
   "property": "C111",
   "status": "proved",
   "theorems": [
    "C111_records",
    "C111_epoch",
    "C111_refused",
    "C111_carry",
    "C111_midnight_refuted",
    "C111_wrapped_refuted",
    "C111_overflow"
   ],
   "note": "calendar exact for years 1-9999; out-of-range and malformed seconds stated"
  },
  {
   "property": "C112",
   "status": "proved",
   "theorems": [
    "C112_round_trip",
    "C112_target",
    "C112_day_end_refuted",
    "C112_step_refuted",
    "C112_empty_refuted"
   ],
   "note": "round trip with bounds; four exact exceptions"
  },
  {
   "property": "C113",
   "status": "proved",
   "theorems": [
    "C113_points",
    "C113_rate_refuted",
    "C113_midnight_refuted",
    "C113_late",
    "C113_wrapped_refuted",
    "C113_year_refuted"
   ],
   "note": "line-by-line reading; three defects stated"
  },
  {
   "property": "C114",
   "status": "proved",
   "theorems": [
    "C114_crd_permissive",
    "C114_crd_strict",
    "C114_crd_error",
    "C114_crd_modes",
    "C114_cpf_strict",
    "C114_cpf_error",
    "C114_cpf_modes",
    "C114_cpf_permissive_refuted"
   ],
   "note": "modes related for every text"
  },
  {
   "property": "C115",
   "status": "proved",
   "theorems": [
    "C115_pipeline",
    "C115_offsets",
    "C115_any_order",
    "C115_bound",
    "C115_displaced",
    "C115_shapiro",
    "C115_geometry",
    "C115_order_refuted"
   ],
   "note": "order_refuted: the gravitational delay uses the range as corrected so far, so exchanging it with an offset changes the result. Real arithmetic."
  },
  {
   "property": "C116",
   "status": "proved",
   "theorems": [
    "C116_troposphere",
    "C116_falls",
    "C116_ionosphere",
    "C116_daily",
    "C116_peak",
    "C116_pierce"
   ],
   "note": "Standard atmosphere constants as in the code; real arithmetic."
  },
  {
   "property": "C117",
   "status": "proved",
   "theorems": [
    "C117_code_phase",
    "C117_ambiguity",
    "C117_clocks",
    "C117_iono_free",
    "C117_sagnac",
    "C117_inertial_refuted",
    "C117_relativity_refuted",
    "C117_unit"
   ],
   "note": "inertial_refuted, relativity_refuted: an Earth-fixed rotation term is added to documented inertial positions; relativity term has the opposite sign. The unit of the dependency's constant C is not visible, so C117_unit covers both readings."
  },
  {
   "property": "C118",
   "status": "proved",
   "theorems": [
    "C118_state_refuted",
    "C118_delays",
    "C118_troposphere",
    "C118_light_time",
    "C118_radial_refuted"
   ],
   "note": "state_refuted and radial_refuted record deviations from the documentation."
  },
  {
   "property": "C119",
   "status": "proved",
   "theorems": [
    "C119_results",
    "C119_tolerance_refuted",
    "C119_epoch_only_refuted"
   ],
   "note": "tolerance_refuted: the 0.5 microsecond tolerance is below the f64 spacing of modern Julian dates; epoch_only_refuted."
  },
  {
   "property": "C120",
   "status": "proved",
   "theorems": [
    "C120_cut",
    "C120_strict",
    "C120_permissive",
    "C120_no_error",
    "C120_no_mark",
    "C120_skip_refuted"
   ],
   "note": "skip_refuted: documentation says permissive reading skips malformed records; it panics on a short line. White space is that of ASCII."
  },
  {
   "property": "C121",
   "status": "proved",
   "theorems": [
    "C121_time",
    "C121_wrap_refuted",
    "C121_negative_refuted"
   ],
   "note": "wrap_refuted, negative_refuted: conversions with as wrap or saturate."
  },
  {
   "property": "C122",
   "status": "proved",
   "theorems": [
    "C122_round_trip",
    "C122_precision_refuted",
    "C122_unreadable"
   ],
   "note": "unreadable, precision_refuted: writer leaves no blank before negative values below 1e-10 in size."
  },
  {
   "property": "C123",
   "status": "proved",
   "theorems": [
    "C123_stations",
    "C123_strict",
    "C123_permissive",
    "C123_mixed_refuted"
   ],
   "note": "text as bytes; hash map order left open; floating-point values as decimals"
  },
  {
   "property": "C124",
   "status": "proved",
   "theorems": [
    "C124_sinex",
    "C124_orbex",
    "C124_silent",
    "C124_year_refuted"
   ],
   "note": "the rounding of the epoch arithmetic is not modelled; chrono's calendar represented by the day count of Lsk_Spec"
  },
  {
   "property": "C125",
   "status": "proved",
   "theorems": [
    "C125_entries",
    "C125_readable",
    "C125_velocity",
    "C125_permissive_refuted"
   ],
   "note": "C125_permissive_refuted records where the documented error policy fails"
  },
  {
   "property": "C126",
   "status": "proved",
   "theorems": [
    "C126_round_trip",
    "C126_ignored",
    "C126_exact_refuted",
    "C126_glued_refuted",
    "C126_names_refuted",
    "C126_words_refuted"
   ],
   "note": "field widths in bytes: names and frequencies are meant in ASCII; refuted theorems record the inexact cases"
  },
  {
   "property": "C127",
   "status": "proved",
   "theorems": [
    "C127_epoch",
    "C127_read",
    "C127_continuation_refuted",
    "C127_lines_lost",
    "C127_skipped_refuted",
    "C127_unreadable"
   ],
   "note": "ASCII text; the floors of the date formula are taken exactly"
  },
  {
   "property": "C128",
   "status": "proved",
   "theorems": [
    "C128_position",
    "C128_velocity",
    "C128_both",
    "C128_order",
    "C128_empty_power"
   ],
   "note": "real arithmetic; conversion to TDB and the coefficient tables are outside"
  },
  {
   "property": "C129",
   "status": "proved",
   "theorems": [
    "C129_place",
    "C129_distance",
    "C129_short"
   ],
   "note": "real arithmetic; the tables are arguments"
  },
  {
   "property": "C130",
   "status": "proved",
   "theorems": [
    "C130_frame_codes",
    "C130_other_codes",
    "C130_names_back",
    "C130_names"
   ],
   "note": "Rows of the macro are tables; the generated matches are functions over them."
  },
  {
   "property": "C131",
   "status": "proved",
   "theorems": [
    "C131_status",
    "C131_spherical",
    "C131_round_trip",
    "C131_compose",
    "C131_positions",
    "C131_agree"
   ],
   "note": "Rotations are an arbitrary provider of rotations with ICRS as reference; exact reals."
  },
  {
   "property": "C132",
   "status": "proved",
   "theorems": [
    "C132_direction",
    "C132_exchanged",
    "C132_altitude_refuted",
    "C132_status"
   ],
   "note": "C132_exchanged states exactly what is delivered, C132_altitude_refuted that it is not what the fields say."
  },
  {
   "property": "C133",
   "status": "proved",
   "theorems": [
    "C133_shift",
    "C133_through",
    "C133_back",
    "C133_status",
    "C133_unit_refuted",
    "C133_frame_refuted",
    "C133_body_round_trip",
    "C133_label_refuted",
    "C133_unknown_center",
    "C133_kepler",
    "C133_gravity_refuted"
   ],
   "note": "Defects stated as C133_unit_refuted, C133_frame_refuted, C133_label_refuted, C133_unknown_center, C133_gravity_refuted; solver and offsets arbitrary."
  },
  {
   "property": "C134",
   "status": "proved",
   "theorems": [
    "C134_calls",
    "C134_released",
    "C134_misuse",
    "C134_null",
    "C134_name_back",
    "C134_name_status",
    "C134_catalog"
   ],
   "note": "Memory is a partial map with an arbitrary allocator; ASCII part of the catalogue look-up only."
  },
  {
   "property": "C135",
   "status": "proved",
   "theorems": [
    "C135_window",
    "C135_order",
    "C135_phase_tolerance_refuted",
    "C135_fixed",
    "C135_motion_refuted",
    "C135_instant"
   ],
   "note": "Search functions arbitrary; defects stated as C135_phase_tolerance_refuted, C135_motion_refuted and the exact C135_fixed."
  },
  {
   "property": "C136",
   "status": "proved",
   "theorems": [
    "C136_payload",
    "C136_status",
    "C136_direction",
    "C136_center",
    "C136_center_refuted",
    "C136_codes"
   ],
   "note": "Exact reals; squares do not overflow. C136_center_refuted states the ignored centre."
  },
  {
   "property": "C137",
   "status": "proved",
   "theorems": [
    "C137_stats",
    "C137_extremes",
    "C137_empty",
    "C137_spread",
    "C137_order",
    "C137_units",
    "C137_groups",
    "C137_adds_up",
    "C137_group_order",
    "C137_report"
   ],
   "note": "Exact real arithmetic; NaN, infinities and rounding are not modelled."
  },
  {
   "property": "C138",
   "status": "proved",
   "theorems": [
    "C138_difference",
    "C138_summary",
    "C138_distance",
    "C138_zero",
    "C138_panics",
    "C138_by_index_refuted"
   ],
   "note": "The local axes of the external crate are a parameter assumed orthonormal; the triad of empirical.rs is proved to be so. By-index pairing is documented; stated as a refuted epoch match."
  },
  {
   "property": "C139",
   "status": "proved",
   "theorems": [
    "C139_statistic",
    "C139_converged",
    "C139_not_converged",
    "C139_options",
    "C139_zero_tolerance",
    "C139_exact_fit",
    "C139_first_refuted"
   ],
   "note": "The assembler and the Cholesky solver are arbitrary functions; exact rational arithmetic."
  },
  {
   "property": "C140",
   "status": "proved",
   "theorems": [
    "C140_arc",
    "C140_failure",
    "C140_join",
    "C140_displaced",
    "C140_final"
   ],
   "note": "propagate_stm of the external crate is an arbitrary step function."
  },
  {
   "property": "C141",
   "status": "proved",
   "theorems": [
    "C141_steps",
    "C141_sign",
    "C141_quadratic",
    "C141_failures",
    "C141_difference",
    "C141_predict",
    "C141_spacecraft"
   ],
   "note": "External integrators are arbitrary flows; exact rational arithmetic; step counts beyond 2^64 not modelled."
  },
  {
   "property": "C142",
   "status": "proved",
   "theorems": [
    "C142_accepts",
    "C142_epoch",
    "C142_orbit",
    "C142_phase",
    "C142_drift",
    "C142_at",
    "C142_answers",
    "C142_wgs72",
    "C142_drag_refuted"
   ],
   "note": "Over the reals; the mean motion derivative and drag term are used as the code uses them. Kepler's equation is always solved for eccentricities up to 1/3; above that a solver failure is reported as an error. Finding: positive B* lowers the mean motion before and after the epoch, so the orbit gains energy (C142_drag_refuted)."
  },
  {
   "property": "C143",
   "status": "proved",
   "theorems": [
    "C143_height",
    "C143_threshold",
    "C143_pole",
    "C143_predicted",
    "C143_complete"
   ],
   "note": "The precession-nutation matrix and sidereal time are parameters; completeness is for the hour angle followed at the mean sidereal rate, which is what the code assumes."
  },
  {
   "property": "C144",
   "status": "proved",
   "theorems": [
    "C144_found",
    "C144_short",
    "C144_short_refuted",
    "C144_constant"
   ],
   "note": "The star's altitude follows the sinusoid at the sidereal rate; the root finder is any function. Finding: a star up for less than fifteen minutes a day is missed (C144_short, C144_short_refuted)."
  },
  {
   "property": "C145",
   "status": "proved",
   "theorems": [
    "C145_config",
    "C145_build",
    "C145_register",
    "C145_errors",
    "C145_harmonic",
    "C145_default",
    "C145_double_refuted"
   ],
   "note": "Parameter values are abstract; C145_double_refuted uses the library's own statement that the geopotential of degree two and order zero is the sum of the central and J2 terms."
  },
  {
   "property": "C146",
   "status": "proved",
   "theorems": [
    "C146_symmetric",
    "C146_diagonal",
    "C146_dimension",
    "C146_semidefinite_refuted",
    "C146_not_numbers"
   ],
   "note": "Entries are rationals or not a number; infinities are left out. Semidefiniteness is refuted with a witness."
  },
  {
   "property": "C147",
   "status": "proved",
   "theorems": [
    "C147_canonical",
    "C147_order",
    "C147_order_refuted"
   ],
   "note": "Independence of order needs distinct kinds and paths; refuted otherwise."
  },
  {
   "property": "C148",
   "status": "proved",
   "theorems": [
    "C148_rows",
    "C148_lines",
    "C148_columns",
    "C148_comma_refuted"
   ],
   "note": "Injectivity needs names without commas and line breaks; refuted otherwise."
  },
  {
   "property": "C149",
   "status": "proved",
   "theorems": [
    "C149_reads_back",
    "C149_header",
    "C149_header_refuted",
    "C149_long_identifier",
    "C149_long_refuted"
   ],
   "note": "to_utc stands for the time crate's TT to UTC conversion. The constant header and long identifiers are stated as refutations."
  },
  {
   "property": "C150",
   "status": "proved",
   "theorems": [
    "C150_reads_back",
    "C150_empty"
   ],
   "note": "As C62; the frame label EME2000 for GCRS states is a constant of the writer."
  },
  {
   "property": "C151",
   "status": "proved",
   "theorems": [
    "C151_index",
    "C151_columns"
   ],
   "note": "Only kinds matter to the order; values and sigmas are carried along."
  },
  {
   "property": "C152",
   "status": "proved",
   "theorems": [
    "C152_falls",
    "C152_altitude_back",
    "C152_pressure_back",
    "C152_hydrostatic",
    "C152_geopotential",
    "C152_geometric"
   ],
   "note": "Over the reals."
  },
  {
   "property": "C153",
   "status": "proved",
   "theorems": [
    "C153_moves",
    "C153_still",
    "C153_legs",
    "C153_legs_refuted",
    "C153_pole_refuted"
   ],
   "note": "The position constructor is external; the angles it is given are modelled. Composition on oblique tracks and the pole are refuted."
  },
  {
   "property": "C154",
   "status": "proved",
   "theorems": [
    "C154_grows",
    "C154_values",
    "C154_bounded",
    "C154_below_refuted",
    "C154_van_rhijn"
   ],
   "note": "Over the reals; arguments finite."
  },
  {
   "property": "C155",
   "status": "proved",
   "theorems": [
    "C155_transmission",
    "C155_molecules",
    "C155_brightens_refuted",
    "C155_redder",
    "C155_altitude_refuted"
   ],
   "note": "Over the reals; ozone tables and tabulated phase functions are external (optica)."
  },
  {
   "property": "C156",
   "status": "proved",
   "theorems": [
    "C156_finds",
    "C156_inside_refuted",
    "C156_meridian_refuted",
    "C156_returned",
    "C156_parallel",
    "C156_filter",
    "C156_order",
    "C156_chunked",
    "C156_epoch"
   ],
   "note": "f64 arithmetic taken as real arithmetic; NaN inputs not modelled"
  },
  {
   "property": "C157",
   "status": "proved",
   "theorems": [
    "C157_range",
    "C157_direction",
    "C157_still",
    "C157_pole",
    "C157_back_refuted"
   ],
   "note": "f64 arithmetic taken as real arithmetic; NaN inputs not modelled"
  },
  {
   "property": "C158",
   "status": "proved",
   "theorems": [
    "C158_reads",
    "C158_row",
    "C158_columns",
    "C158_comments",
    "C158_first_error",
    "C158_unchecked_refuted"
   ],
   "note": "decimal texts are read exactly rather than rounded; white space is ASCII; right ascension and declination are compared before conversion to radians"
  },
  {
   "property": "C159",
   "status": "proved",
   "theorems": [
    "C159_latest",
    "C159_accepts",
    "C159_first_error",
    "C159_written"
   ],
   "note": "input is valid UTF-8 and reading does not fail"
  },
  {
   "property": "C160",
   "status": "proved",
   "theorems": [
    "C160_spelling",
    "C160_barycentre",
    "C160_distinct",
    "C160_pluto_refuted",
    "C160_constants"
   ],
   "note": "white space is ASCII"
  },
  {
   "property": "C161",
   "status": "proved",
   "theorems": [
    "C161_failure",
    "C161_sound",
    "C161_fresh",
    "C161_isolated",
    "C161_survives",
    "C161_reads_back",
    "C161_latest",
    "C161_copied",
    "C161_null_context",
    "C161_propagate",
    "C161_released",
    "C161_accepts",
    "C161_attach",
    "C161_null",
    "C161_verdict"
   ],
   "note": "Addresses are never reused in the model; using a freed or wrong handle is undefined and outside the claim. The integrator is a parameter."
  },
  {
   "property": "C162",
   "status": "proved",
   "theorems": [
    "C162_round_trip",
    "C162_surface_refuted",
    "C162_codes",
    "C162_distinct",
    "C162_unreachable",
    "C162_zero",
    "C162_density",
    "C162_coefficient",
    "C162_wrap_refuted"
   ],
   "note": "Payloads that no translation reads (boxed sources, body names) are dropped."
  },
  {
   "property": "C163",
   "status": "proved",
   "theorems": [
    "C163_accepts",
    "C163_first",
    "C163_panics"
   ],
   "note": "Exact real arithmetic: the overflow of an area divided by a tiny mass is not modelled."
  },
  {
   "property": "C164",
   "status": "proved",
   "theorems": [
    "C164_albedo",
    "C164_redder",
    "C164_phase",
    "C164_not_a_number",
    "C164_nonfinite_refuted",
    "C164_distance",
    "C164_sunlight",
    "C164_square_refuted"
   ],
   "note": "Exact real arithmetic; infinities and NaN as IEEE gives them."
  },
  {
   "property": "C165",
   "status": "proved",
   "theorems": [
    "C165_turns",
    "C165_remainders",
    "C165_range",
    "C165_equatorial",
    "C165_declination"
   ],
   "note": "over the reals; rounding not modelled"
  },
  {
   "property": "C166",
   "status": "proved",
   "theorems": [
    "C166_opposite",
    "C166_distance",
    "C166_bias",
    "C166_bias_refuted"
   ],
   "note": "Earth position and nutation are parameters; C166_bias_refuted records the repeated frame bias"
  },
  {
   "property": "C167",
   "status": "proved",
   "theorems": [
    "C167_routes",
    "C167_speeds",
    "C167_as_positions"
   ],
   "note": "over the reals"
  },
  {
   "property": "C168",
   "status": "proved",
   "theorems": [
    "C168_abridged",
    "C168_full",
    "C168_order",
    "C168_bounded",
    "C168_models",
    "C168_rotation"
   ],
   "note": "Coefficient tables are parameters; f64 as reals."
  },
  {
   "property": "C169",
   "status": "proved",
   "theorems": [
    "C169_planet",
    "C169_panics",
    "C169_unchecked",
    "C169_unchecked_refuted",
    "C169_asteroid",
    "C169_comet",
    "C169_period"
   ],
   "note": "Numbers as reals, the orbit type is arbitrary. C169_unchecked_refuted: build_unchecked drops the albedo."
  },
  {
   "property": "C170",
   "status": "proved",
   "theorems": [
    "C170_rates",
    "C170_round_trip",
    "C170_lengths",
    "C170_declination",
    "C170_pole",
    "C170_meridian"
   ],
   "note": "affn's from_euler_zxz is outside the repository: C170_pole says under which of four conventions the pole is right. It does not say which one affn uses, so no defect is claimed."
  },
  {
   "property": "C171",
   "status": "proved",
   "theorems": [
    "C171_table",
    "C171_two_body",
    "C171_two_body_refuted",
    "C171_ids"
   ],
   "note": "The coefficient table is a parameter. C171_two_body_refuted: the two-body field answers one at degree 0 for orders that do not exist."
  },
  {
   "property": "C172",
   "status": "proved",
   "theorems": [
    "C172_parameters",
    "C172_distinct",
    "C172_same_id",
    "C172_arc"
   ],
   "note": "Instants in seconds as reals; the time-scale types are external."
  },
  {
   "property": "C173",
   "status": "proved",
   "theorems": [
    "C173_sane",
    "C173_order",
    "C173_pluto",
    "C173_clear",
    "C173_moon_refuted",
    "C173_sun_refuted",
    "C173_lagrange_refuted",
    "C173_spin"
   ],
   "note": "Constants as exact decimals; Kepler's equation solver is a parameter. The Moon, Sun and Lagrange-point entries are refuted against their own documentation. The units crate's hour angle is a parameter in the Sun's refutation."
  },
  {
   "property": "C174",
   "status": "proved",
   "theorems": [
    "C174_own",
    "C174_velocity",
    "C174_backend",
    "C174_moon_refuted"
   ],
   "note": "Coefficient tables are parameters, with the published number of powers per body. C174_moon_refuted: the Moon's function returns the Earth-Moon barycentre."
  },
  {
   "property": "C175",
   "status": "proved",
   "theorems": [
    "C175_points",
    "C175_unique",
    "C175_range",
    "C175_compose",
    "C175_round_trip",
    "C175_turns",
    "C175_flips",
    "C175_flip_twice",
    "C175_positions"
   ],
   "note": "Degrees::normalize is the real remainder modulo 360; rounding not modelled. Direction::new of the affn crate is not modelled (only positions)."
  },
  {
   "property": "C176",
   "status": "proved",
   "theorems": [
    "C176_refuses",
    "C176_step",
    "C176_cap",
    "C176_run",
    "C176_shrinks",
    "C176_covers",
    "C176_front",
    "C176_events"
   ],
   "note": "rk4_step and the propagation driver belong to the principia crate and are arbitrary; sums are exact."
  },
  {
   "property": "C177",
   "status": "proved",
   "theorems": [
    "C177_lookup",
    "C177_listing",
    "C177_removal"
   ],
   "note": "HashMap is an association list with one entry per key."
  },
  {
   "property": "C178",
   "status": "proved",
   "theorems": [
    "C178_columns",
    "C178_lossless"
   ],
   "note": "The parquet crate's file format is not modelled, only the columns handed to it."
  },
  {
   "property": "C179",
   "status": "proved",
   "theorems": [
    "C179_contains",
    "C179_equal",
    "C179_union",
    "C179_stages",
    "C179_known",
    "C179_record",
    "C179_beyond_refuted",
    "C179_all_or_nothing"
   ],
   "note": "Bits of a u8 as N. C179_beyond_refuted: nothing holds the applied set to the request. C179_all_or_nothing: the star functions only distinguish the empty policy."
  },
  {
   "property": "C180",
   "status": "proved",
   "theorems": [
    "C180_default",
    "C180_place",
    "C180_star_altitude",
    "C180_bodies",
    "C180_star_azimuth_refuted",
    "C180_star_azimuth",
    "C180_periods",
    "C180_search",
    "C180_empty",
    "C180_star_periods_refuted",
    "C180_crossings",
    "C180_outside"
   ],
   "note": "C180_star_azimuth_refuted and C180_star_periods_refuted state the defect (Star keeps the default azimuth_at_with_policy, which ignores the policy); C180_star_azimuth is the strongest true version. Body ephemerides, the matrix and sidereal time of the date are parameters."
  },
  {
   "property": "C181",
   "status": "proved",
   "theorems": [
    "C181_reads",
    "C181_comments",
    "C181_broken",
    "C181_no_panic",
    "C181_escape",
    "C181_markup",
    "C181_whole",
    "C181_roundtrip",
    "C181_needs_states",
    "C181_not_finite_refuted",
    "C181_blank_refuted",
    "C181_references_refuted"
   ],
   "note": "The XML crate is outside: the reader is modelled over its events, and how the text of an element is cut into runs is a parameter. C181_not_finite_refuted: the documented error for non-finite numbers is not given. C181_blank_refuted: an empty name is written and then refused. C181_references_refuted: if references are delivered as separate events, only the text after the last escaped character of a name survives."
  },
  {
   "property": "C182",
   "status": "proved",
   "theorems": [
    "C182_columns",
    "C182_row",
    "C182_types",
    "C182_time",
    "C182_roundtrip",
    "C182_minute_refuted",
    "C182_minute",
    "C182_no_panic",
    "C182_panic_refuted",
    "C182_wide_refuted",
    "C182_name_refuted",
    "C182_long_types_refuted"
   ],
   "note": "The whole-file round trip, the columns of a row, lists of types of any length and the absence of panics on ASCII text are proved; the _refuted theorems give the files that are written but not read back (seconds that print as 60, short satellite names, wide values, long codes) and the texts that panic."
  },
  {
   "property": "C183",
   "status": "proved",
   "theorems": [
    "C183_straight",
    "C183_errors",
    "C183_distance",
    "C183_epoch",
    "C183_conventions",
    "C183_linear",
    "C183_still",
    "C183_full",
    "C183_more_known_refuted"
   ],
   "note": "Over the reals; the unit factors km/s to AU/yr and light-year to AU are parameters and the coordinate crate's constructor, which may fold angles, is not modelled. Refuted: that more knowledge never loses a place. A star at the pole given by its plain rate has a place until its parallax and radial velocity are known, and a parallax that is not positive gives the error of the poles at every declination, with no fallback to the linear motion."
  },
  {
   "property": "C184",
   "status": "proved",
   "theorems": [
    "C184_brackets",
    "C184_found",
    "C184_nearest",
    "C184_sorted",
    "C184_ends",
    "C184_missed_refuted"
   ],
   "note": "Exact rationals; times in lowest terms. The function is assumed to give equal values at equal times. Refuted: that the rise and the set of every pass are bracketed and that overlapping brackets are removed. With two passes a tenth of the remaining window apart the end of the first is in no bracket, and the end of the second is in two overlapping ones."
  },
  {
   "property": "C185",
   "status": "proved",
   "theorems": [
    "C185_events",
    "C185_balance",
    "C185_transit",
    "C185_monotone",
    "C185_ends"
   ],
   "note": "Exact rationals; the altitude of the target by correction policy and time is a parameter. A provider may override event_culminations; the default is modelled. Extrema nearer than a scan step to the ends of the window may be missed, see C38."
  },
  {
   "property": "C186",
   "status": "proved",
   "theorems": [
    "C186_found",
    "C186_same",
    "C186_ends",
    "C186_sample_refuted",
    "C186_start_refuted"
   ],
   "note": "Exact rationals; negative zero is not modelled. Refuted: that the two searches always agree and that the initial state fits the labels. A signal that rises through the threshold exactly at a sample is found by this search and missed by find_directed_crossings; a signal that begins on the threshold and falls is reported as beginning below and then leaving."
  },
  {
   "property": "C187",
   "status": "proved",
   "theorems": [
    "C187_live",
    "C187_fresh",
    "C187_defined",
    "C187_own",
    "C187_failures"
   ],
   "note": "Prepared orbit handles; validation, dates, propagation and the allocator are parameters. Panics of the validation or allocator and invalid output pointers are not modelled."
  }
 ]
}