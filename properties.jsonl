{"id": "C01", "title": "SHA-256 equals FIPS 180-4", "statement": "The checksum helper returns, for every byte string, the FIPS 180-4 SHA-256 digest: same padding, same block schedule, same compression, although the code never materialises the padded message.", "quantifier": "every byte string of length below 2^61", "why_tests_cant": "Known-answer vectors touch a handful of lengths; the padding logic has three regimes (tail shorter than 56, 56..63, multiple of 64) and must agree with the standard for every length and content.", "anchors": ["src/checksum.rs: sha256, compress, H0, K"]}
{"id": "C02", "title": "Digest hex codec round-trips", "statement": "Encoding any digest to hex and decoding it gives the digest back, upper and lower case hex decode alike, decoding accepts exactly the 64-digit strings, and a digest comparison succeeds exactly when the declared hex denotes the digest of the data.", "quantifier": "every 32-byte digest and every string", "why_tests_cant": "The set of strings is infinite; tests sample a few malformed inputs.", "anchors": ["src/checksum.rs: hex32, hex_nibble, to_hex, assert_sha256_eq"]}
{"id": "C03", "title": "ADS-B parity is the generator-polynomial remainder", "statement": "The parity routine equals the remainder of message(x)*x^24 divided by the Mode-S generator over GF(2), for every message length; a frame is accepted exactly when its 24-bit parity field equals that remainder.", "quantifier": "every byte message", "why_tests_cant": "A table of example frames cannot show that the unmasked shift register never leaks high bits into the remainder.", "anchors": ["src/formats/adsb/mod.rs: crc24, parse_frame"]}
{"id": "C04", "title": "ADS-B burst errors are always rejected", "statement": "If a valid frame is altered by a non-zero error confined to 24 consecutive bits, the frame parser reports a parity error; it never returns a decoded frame.", "quantifier": "every valid frame, every burst position and pattern up to 24 bits", "why_tests_cant": "Number of frames times error patterns is about 2^136.", "anchors": ["src/formats/adsb/mod.rs: parse_frame, crc24"]}
{"id": "C05", "title": "ADS-B altitude decoding is exact on 25 ft codes", "statement": "For every 12-bit altitude code with the Q bit set the decoded altitude is 25*N-1000 ft, where N is the code with the Q bit removed; distinct codes give distinct altitudes between -1000 and 50175 ft; with the Q bit clear no altitude is reported.", "quantifier": "every 12-bit code", "why_tests_cant": "Finite but the injectivity/range claim relates all pairs.", "anchors": ["src/formats/adsb/mod.rs: decode_altitude"]}
{"id": "C06", "title": "ADS-B callsign decoding inverts six-bit packing", "statement": "Packing any callsign of up to eight legal characters into the identification message and decoding it returns the callsign without trailing blanks.", "quantifier": "every callsign over the legal character set", "why_tests_cant": "37^8 callsigns.", "anchors": ["src/formats/adsb/mod.rs: decode_identification"]}
{"id": "C07", "title": "CPR local decoding recovers the encoded position", "statement": "For every latitude within half a zone of the reference, local CPR decoding of its standard 17-bit encoding returns a latitude within half a quantisation step of the original, and likewise for longitude when both lie in the same longitude-zone band.", "quantifier": "every position, reference, parity; longitude-zone count abstract", "why_tests_cant": "Continuous inputs; wrap-around and half-zone boundaries are where errors hide.", "anchors": ["src/formats/adsb/cpr.rs: decode_locally, dlat"]}
{"id": "C08", "title": "CPR global decoding never yields an invalid longitude", "statement": "Global CPR decoding of an even/odd pair returns a latitude consistent with both frames; the longitude zone count used as a divisor is positive for every latest-frame choice.", "quantifier": "every pair of 17-bit encodings and every zone count 1..59", "why_tests_cant": "The divisor is zero only at the polar band with the odd frame latest.", "anchors": ["src/formats/adsb/cpr.rs: decode_globally"]}
{"id": "C09", "title": "TLE checksum detects any single-digit change", "statement": "A line is accepted exactly when its 69th character is the modulo-10 sum of the first 68 (digits count their value, minus counts one); changing any one digit of an accepted line to another digit makes it rejected.", "quantifier": "every ASCII line of 69 characters", "why_tests_cant": "10^68 lines.", "anchors": ["src/formats/tle/parse.rs: validate_tle_checksum, compute_checksum"]}
{"id": "C10", "title": "Alpha-5 satellite numbers round-trip", "statement": "Every catalogue number 0..339999 formats to five characters that parse back to the same number; numbers above are refused; two different canonical texts never denote the same number.", "quantifier": "every u32 and every five-character text", "why_tests_cant": "Test vectors cover only a few letters; I and O gaps shift the letter table.", "anchors": ["src/formats/tle/tle.rs: SatelliteNumber::parse, format_alpha5"]}
{"id": "C11", "title": "TLE assumed-decimal field round-trips", "statement": "Formatting the drag-style mantissa/exponent field and parsing it gives back the same decimal value whenever the value is representable in five digits and a one-digit exponent; the field always has eight characters there, and is over-wide exactly where the mantissa rounds up to one or the exponent needs two digits.", "quantifier": "every mantissa and exponent", "why_tests_cant": "The carry case is reached by few values.", "anchors": ["src/formats/tle/builder.rs: format_assumed_decimal_exponent", "src/formats/tle/parse.rs: parse_assumed_decimal_exponent"]}
{"id": "C12", "title": "Formatted TLE lines are accepted by the validator", "statement": "Every pair of lines the builder emits has 69 columns and validates, provided each field fits its column; the checksum digit appended is the one the validator expects.", "quantifier": "every set of field texts of the right widths", "why_tests_cant": "Infinite field combinations.", "anchors": ["src/formats/tle/builder.rs: format_tle", "src/formats/tle/parse.rs: validate_tle_checksum"]}
{"id": "C13", "title": "Two-digit epoch years are unambiguous", "statement": "Expanding a two-digit year and reducing modulo 100 is the identity, every year 1957..2056 survives the round trip, and no other year does.", "quantifier": "every year", "why_tests_cant": "Boundary 56/57.", "anchors": ["src/formats/tle/parse.rs: expand_two_digit_year"]}
{"id": "C14", "title": "International designator expansion round-trips", "statement": "Expanding a TLE designator to the OMM form and contracting it again returns the original for every well-formed designator.", "quantifier": "every six-to-eight character designator", "why_tests_cant": "Unbounded set of texts.", "anchors": ["src/formats/tle/omm/mod.rs: expand_intl_designator, contract_intl_designator"]}
{"id": "C15", "title": "OMM KVN round-trips catalogue numbers", "statement": "Writing an OMM as KVN and reading it back preserves the catalogue number exactly when it has at most five digits; the larger numbers the TLE format carries with a letter are written but refused on reading.", "quantifier": "every catalogue number 0..339999", "why_tests_cant": "Only numbers above 99999 behave differently.", "anchors": ["src/formats/tle/omm/kvn.rs: write, read", "src/formats/tle/tle.rs: SatelliteNumber::parse"]}
{"id": "C16", "title": "DAF directory traversal terminates and returns every summary", "statement": "Parsing a binary kernel whose summary records form a finite chain returns each chain record's summaries in order, and success implies such a chain. The traversal ends within one step more than the file has records, or never, and it panics only on a record number whose byte offset exceeds 64 bits.", "quantifier": "every byte string / record chain", "why_tests_cant": "Requires reasoning on cyclic next-pointers that only hostile or damaged files contain.", "anchors": ["src/formats/spice/daf.rs: Daf::parse, DafRaw::parse"]}
{"id": "C17", "title": "SPK segment reading stays inside the file and before the trailer", "statement": "Reading a Type 2/3 segment never indexes outside the file; on success exactly n_records*rsize coefficients are returned, they are the words starting at the segment's first word, and none overlaps the four-word trailer.", "quantifier": "every file, every summary", "why_tests_cant": "Overflow and off-by-one conditions on hostile summaries.", "anchors": ["src/formats/spice/spk.rs: read_segment"]}
{"id": "C18", "title": "SPK state chaining is sound and complete", "statement": "When the covering segments can be evaluated, a kernel state query succeeds exactly when the two bodies are linked by segments covering the epoch, and otherwise the error tells whether they are linked at all; the answer is the signed sum along a chain, hence target minus centre for any consistent ephemeris, and exchanging the bodies negates it.", "quantifier": "every finite set of segments (including cycles and parallel edges), every pair, every epoch", "why_tests_cant": "Graphs are unbounded.", "anchors": ["src/formats/spice/kernel.rs: state, find_chain"]}
{"id": "C19", "title": "SPK kernel stack resolves to the barycentre whenever a chain exists", "statement": "Position lookup in the stacked kernel set terminates on every segment graph, including centre cycles, succeeds whenever some chain of covering segments leads to the barycentre, and prefers later-loaded segments.", "quantifier": "every segment list, body and epoch", "why_tests_cant": "Backtracking search with a visited path; cycles.", "anchors": ["src/formats/spice/spk_kernel.rs: try_position_from_ssb, try_geometric_state"]}
{"id": "C20", "title": "Last loaded kernel wins", "statement": "A context state query returns the answer of the most recently loaded kernel able to answer; loading a kernel that cannot answer never changes the answer; answers do not depend on kernels older than the winner.", "quantifier": "every load history", "why_tests_cant": "Histories are unbounded.", "anchors": ["src/spice/kernel_set.rs: state_naif, add_spk"]}
{"id": "C21", "title": "Text-kernel assignments accumulate", "statement": "After parsing, a variable holds the concatenation of all values assigned by the last plain assignment and every += after it, in order, independently of other variables.", "quantifier": "every sequence of assignments", "why_tests_cant": "Histories are unbounded.", "anchors": ["src/formats/spice/text.rs: store_value, parse"]}
{"id": "C22", "title": "Text-kernel values round-trip and parsing is total", "statement": "Printing any scalar/array value and parsing it yields the value; on every input the value parser terminates with a value or an error.", "quantifier": "every nested value and every character string", "why_tests_cant": "Unbounded nesting.", "anchors": ["src/formats/spice/text.rs: ValueParser, parse_scalar"]}
{"id": "C23", "title": "Leap-second lookup is the step function of the table", "statement": "TAI-UTC at an epoch is the offset of the last table entry at or before the epoch, zero before the first, monotone when offsets are; the calendar conversion agrees with the Gregorian day count on every date from 1 March 1900 to 28 February 2100.", "quantifier": "every table and epoch; every date", "why_tests_cant": "Day-count agreement ranges over all dates; leap-year exceptions at 1900/2100.", "anchors": ["src/formats/spice/lsk.rs: tai_minus_utc_at, gregorian_to_jd"]}
{"id": "C24", "title": "Spacecraft clock conversions are mutually inverse", "statement": "Converting ephemeris time to ticks and back is the identity at and after the first entry of every correlation table whose pieces do not overlap in ticks, the opposite round trip is the identity when the pieces leave no gap in ticks, and both conversions are strictly increasing there.", "quantifier": "every table with increasing times and ticks, every epoch", "why_tests_cant": "Partition boundaries; continuous inputs.", "anchors": ["src/formats/spice/sclk.rs: et_to_sclkdp, sclkdp_to_et"]}
{"id": "C25", "title": "Interpolation window is valid and contains the epoch", "statement": "For every strictly increasing epoch table, every epoch inside it and every window size of at least two, the interpolation window has the requested size, stays inside the table, and brackets the epoch.", "quantifier": "every table length, window size, epoch", "why_tests_cant": "Clamping at both ends and even/odd window parity.", "anchors": ["src/formats/spice/segment.rs: locate_or_window"]}
{"id": "C26", "title": "Lagrange interpolation is exact on polynomials", "statement": "The interpolator reproduces every polynomial of degree below the number of nodes at every argument, and the node values at the nodes.", "quantifier": "every set of distinct nodes, polynomial, argument", "why_tests_cant": "Infinite families; numerical tests only sample.", "anchors": ["src/formats/spice/segment.rs: lagrange_value"]}
{"id": "C27", "title": "Hermite interpolation reproduces values and derivatives", "statement": "The Hermite interpolator and its reported derivative match node values and rates at nodes and reproduce every polynomial of degree below twice the node count.", "quantifier": "every set of distinct nodes, polynomial, argument", "why_tests_cant": "As above.", "anchors": ["src/formats/spice/segment.rs: hermite_value_and_derivative"]}
{"id": "C28", "title": "Chebyshev record selection covers the segment", "statement": "For every epoch in [start, end] of a Chebyshev segment the selected record index exists and its interval contains the epoch; outside, an error is returned.", "quantifier": "every epoch, record count, interval length", "why_tests_cant": "End-point epoch belongs to the last record.", "anchors": ["src/formats/spice/segment.rs: ChebSegment::locate"]}
{"id": "C29", "title": "Frame rotations compose", "statement": "Frame rotation queries return orthonormal matrices when the frame definitions are orthonormal, rotation from a to a is the identity (even for an unknown a), a->c equals b->c after a->b, and b->a is the transpose of a->b; the newest definition of a frame counts; resolution terminates exactly when following relative frames never comes back to a frame, and a kernel that does come back is accepted.", "quantifier": "every frame registry and frame triple", "why_tests_cant": "Chains of any length and arbitrary matrices.", "anchors": ["src/spice/context.rs: rotation_naif, frame_to_j2000"]}
{"id": "C30", "title": "IAU body rotation maps the body pole to the published pole", "statement": "The body-fixed-to-J2000 rotation is always orthonormal with determinant 1. It sends the body z axis to the published pole (cos d cos a, cos d sin a, sin d) exactly when cos d sin a = 0, and equals the published IAU rotation exactly when cos a = 0 and cos d = 0; elsewhere the second component has the wrong sign. The newest kernel naming the body is used, and a body without pole or prime-meridian constants panics.", "quantifier": "every pole direction and prime-meridian angle", "why_tests_cant": "Test uses only a=0, d=90 and norms.", "anchors": ["src/formats/spice/pck.rs: rotation_to_j2000"]}
{"id": "C31", "title": "Failed kernel loads leave the context unchanged", "statement": "If loading a kernel reports an error, the context is exactly what the roles read before the failing one make of it: unchanged for text that does not parse, for binary or unknown files and for kernels with a single role, but a kernel with several roles leaves its earlier roles behind.", "quantifier": "every kernel text and prior context", "why_tests_cant": "Multi-role kernels where a later section fails.", "anchors": ["src/spice/context.rs: load_text_kernel"]}
{"id": "C32", "title": "Attitude lookup brackets the requested tick", "statement": "For every tick inside a pointing segment the interpolation uses the two adjacent records bracketing it with the tick's fractional position, an exact record hit returns that record, and ticks outside (and NaN) are refused; the answer is a unit quaternion no further from either neighbour than they are from each other; the first segment of the instrument whose interval holds the tick decides. Reading panics only when a summary names word 0 or a word past the end of the file.", "quantifier": "every sorted record list and tick", "why_tests_cant": "Binary search boundary cases.", "anchors": ["src/formats/spice/ck.rs: evaluate, read_type1_segment"]}
{"id": "C33", "title": "SCK kernel parsing accepts exactly well-sized files", "statement": "A buffer is accepted exactly when magic and size match the header geometry; what is returned is the header and the record_count*(2+3*ncoeff) words the buffer holds, and re-encoding it gives the buffer back. The parser panics only on a header whose geometry fits 64 bits in words but not in bytes.", "quantifier": "every byte buffer", "why_tests_cant": "Geometry overflow only for huge header counts.", "anchors": ["src/formats/sck.rs: parse_sck"]}
{"id": "C34", "title": "Threshold periods equal the set of above-threshold times", "statement": "Given the complete labelled crossings of a signal on a window, the assembled periods are disjoint, ordered, inside the window and contain exactly the times at which the signal is above threshold.", "quantifier": "every alternating crossing list and window", "why_tests_cant": "Unbounded number of crossings; boundary labels.", "anchors": ["src/event/search/intervals.rs: build_above_periods_directed", "src/event/search/periods.rs"]}
{"id": "C35", "title": "Below/above/in-range periods partition the window", "statement": "Away from period ends, every time of the window is in exactly one of the above and below periods of the same threshold, and is in an in-range period exactly when it is above the minimum and not above the maximum, for every period algebra that meets the stated contract of complement and intersection.", "quantifier": "every crossing list and window", "why_tests_cant": "Unbounded lists.", "anchors": ["src/event/search/periods.rs"]}
{"id": "C36", "title": "Crossing search finds every sampled sign change", "statement": "The scanning crossing finder reports, inside each scan step whose ends have strictly opposite signs, one crossing; each reported crossing lies in such a step; the scan visits the end of the window and terminates for every positive step.", "quantifier": "every signal, window and positive step", "why_tests_cant": "Any function.", "anchors": ["src/event/search/intervals.rs: find_crossings, find_directed_crossings"]}
{"id": "C37", "title": "Root refinement keeps a valid bracket", "statement": "For every function with opposite signs at the ends, the root refiner returns a point in the closed bracket that is either a root within 1e-12 or an end of a sub-bracket with opposite signs; the sub-bracket is at most twice the tolerance wide unless the pass limit was reached. Bisection halves its bracket at every pass. No root is reported without a sign change.", "quantifier": "every function and bracket", "why_tests_cant": "Arbitrary functions, adversarial interpolation steps.", "anchors": ["src/event/search/root_finding.rs: brent_engine, bisection"]}
{"id": "C38", "title": "Extremum refinement stays in its bracket", "statement": "Golden-section minimisation and maximisation return a point in the bracket for every function, and on strictly unimodal functions a point within half the tolerance of the extremum (tolerance at least 1e-13 of the window). The extremum scan reports exactly one extremum per sampled turn, in order, and finds a lone extremum that is a step away from the window ends.", "quantifier": "every function and bracket", "why_tests_cant": "Arbitrary functions.", "anchors": ["src/event/search/extrema.rs: minimize, maximize"]}
{"id": "C39", "title": "Twilight classification is a monotone partition", "statement": "Each altitude has exactly one class, boundaries belong to the darker class, and a higher Sun never classifies as darker.", "quantifier": "every altitude", "why_tests_cant": "Real-valued domain.", "anchors": ["src/event/solar/classification.rs: twilight_classification"]}
{"id": "C40", "title": "EOP interpolation brackets, clamps and is exact", "statement": "Interpolation of a sorted table returns the nearest end record outside, the record at a node, and otherwise a convex combination of the two adjacent records; it is exact for linear data and total on non-empty tables.", "quantifier": "every strictly increasing table and epoch", "why_tests_cant": "Table length unbounded; binary search.", "anchors": ["src/formats/iers/eop.rs: interpolate"]}
{"id": "C41", "title": "Streaming and batch SP3 readers agree", "statement": "For every file the streaming reader yields the same header, the same epochs with the same positions in the same order, and fails exactly when the batch reader fails, with the same error.", "quantifier": "every sequence of lines", "why_tests_cant": "Arbitrary line sequences.", "anchors": ["src/formats/igs/sp3.rs: read_sp3, Sp3Stream"]}
{"id": "C42", "title": "Normal equations equal the weighted Gram matrix", "statement": "After any sequence of accepted rows the accumulated matrix, right-hand side, chi-square and row count equal the sums of w*h*h^T, w*h*r, w*r^2 and 1 over rows, regardless of row order or repeated indices in a row; any solution of the accumulated system minimises the weighted sum of squares. A row is accepted exactly when every index is in range and every number is finite; a row rejected at its sigma, its residual or its first entry changes nothing.", "quantifier": "every sequence of rows", "why_tests_cant": "Histories unbounded.", "anchors": ["src/pod/estimation/wls.rs: NormalEquations::add_row, solve"]}
{"id": "C43", "title": "Kalman measurement update preserves a valid covariance", "statement": "Starting from a symmetric positive semidefinite covariance every prediction and scalar update yields a symmetric positive semidefinite covariance; an update never increases the variance of any linear combination; a rejected update changes nothing.", "quantifier": "every sequence of predictions and updates", "why_tests_cant": "Histories and matrices unbounded.", "anchors": ["src/pod/estimation/sequential.rs: predict, update_scalar"]}
{"id": "C44", "title": "Product file names are well-formed", "statement": "The sample-rate token has exactly three characters exactly for rates below 100 hours and denotes the rate cut down to whole units; GPS week/day naming is injective for dates on or after the GPS epoch, and the long name is injective in year, day, type, whole-unit rate and version.", "quantifier": "every sample rate and date", "why_tests_cant": "Unbounded.", "anchors": ["src/pod/product/naming.rs: sample_rate_to_lfn, sp3_short_filename"]}
{"id": "C45", "title": "Sky grid length equals the number of cells", "statement": "The announced grid length equals the number of cells iterated and cells are ordered by altitude then azimuth, with altitudes inside the configured range and azimuths in (0, 360]; rows of an equal-area grid close the circle.", "quantifier": "every grid configuration", "why_tests_cant": "Rounding of cell counts.", "anchors": ["src/coordinates/sampling.rs: SkyGrid::len, iter_cells"]}
{"id": "C46", "title": "Covariance validation is exact", "statement": "Over finite data the two checks accept exactly the matrices of the right size that are symmetric within tolerance, respectively have a non-negative diagonal, and an error names the first offending entry.", "quantifier": "every matrix", "why_tests_cant": "Any dimension.", "anchors": ["src/pod/problem/covariance.rs"]}
{"id": "C47", "title": "ADS-B bit fields are read at their published positions", "statement": "Downlink format, aircraft address, type code, altitude code, parity flag and the 17-bit latitude and longitude returned for a frame are exactly the bit fields of the 112-bit frame at the published offsets, whatever the other bits are.", "quantifier": "every 14-byte frame", "why_tests_cant": "2^112 frames; a shift or mask error that drops one bit is invisible on most samples.", "anchors": ["src/formats/adsb/mod.rs: downlink_format, icao24, type_code, decode_airborne_position"]}
{"id": "C48", "title": "ADS-B velocity decoding respects the coded fields", "statement": "For ground-speed messages the decoded components are sign times (field minus one) times the subtype scale, vertical rate likewise in 64 ft/min units; a field value of zero means not available.", "quantifier": "every 14-byte frame", "why_tests_cant": "Interaction of eight bit fields; the reserved code 0 is absent from the tests.", "anchors": ["src/formats/adsb/mod.rs: decode_airborne_velocity"]}
{"id": "C49", "title": "CPR longitude-zone count follows the standard transition latitudes", "statement": "The number of longitude zones is always between 1 and 59, equal for north and south, never grows towards the poles, is at least n exactly below the standard transition latitude for n, is 1 from 87 degrees on, and its arccosine is always evaluated inside its domain.", "quantifier": "every real latitude", "why_tests_cant": "A unit test samples latitudes; the zone boundaries and the domain of the arccosine are statements about every real latitude.", "anchors": ["src/formats/adsb/cpr.rs: nl"]}
{"id": "C50", "title": "Element sets round-trip through their text", "statement": "Every element set whose fields fit their columns formats to two lines that parse back to the same element set: same catalogue number, classification, designator, epoch, drag terms, counters and orbital elements.", "quantifier": "every element set with values on the column grids", "why_tests_cant": "Field widths, signs, assumed decimals, zero padding and epoch rounding interact; only a handful of catalogue samples are tested.", "anchors": ["src/formats/tle/builder.rs: format_tle", "src/formats/tle/parse.rs: parse_tle_inner"]}
{"id": "C51", "title": "Keyword-value messages round-trip", "statement": "Writing a mean-elements message in keyword-value form and reading it back preserves name, designator, epoch text, classification, catalogue number and counters exactly and every number to half a unit of its last printed digit; converting an element set to a message and back is the identity.", "quantifier": "every message with single-line trimmed texts, any numbers including infinities and NaN", "why_tests_cant": "Formatting of signs, exponents, carries and empty values over an infinite domain.", "anchors": ["src/formats/tle/omm/kvn.rs: write, read", "src/formats/tle/omm/mod.rs: from_tle, to_tle"]}
{"id": "C52", "title": "Bracket seeding isolates every sampled sign change", "statement": "Fixed-step seeding returns exactly the scan steps whose ends differ in sign (zero counts as positive), in order. Adaptive seeding returns, sorted, brackets with a sign change no wider than twice the minimum step, each inside a coarse step with a sign change, and at least one in every such coarse step; it terminates for positive steps.", "quantifier": "every signal, window and positive steps", "why_tests_cant": "Stack-driven subdivision of arbitrary functions.", "anchors": ["src/event/search/bracketing.rs: fixed_step_brackets, adaptive_step_brackets"]}
{"id": "C53", "title": "SP3 files survive writing and reading", "statement": "Writing any record whose header lines and satellite names fit the format and reading it back gives the same header, the same epochs rounded to the nearest 10 ns, the same satellites in the same order, and every number within half of its last printed digit. An epoch that rounds up to 60 seconds makes the whole file unreadable, and a negative or undefined seconds field is read as zero.", "quantifier": "every record", "why_tests_cant": "Unbounded records and values.", "anchors": ["src/formats/igs/sp3.rs: write_sp3, read_sp3, civil_to_time_utc"]}
{"id": "C54", "title": "Frame kernels give exactly the frames they define", "statement": "Reading a frame kernel succeeds with a list of frames exactly when the list is in strictly growing identifier order, has the identifiers of the FRAME_<id>_NAME variables and no others, and every frame's name, class, class identifier, centre and fixed rotation are those of its own variables; reading never panics; lookup by identifier or name finds the right frame.", "quantifier": "every variable table", "why_tests_cant": "Any number of frames, any mixture of missing or ill-typed variables.", "anchors": ["src/formats/spice/fk.rs: FrameKernel::from_text, frame_by_id, frame_by_name"]}
{"id": "C55", "title": "Planetary constants are those of the body's variables", "statement": "Reading a text PCK knows a body exactly when some BODY<id>_ variable names it, with pole, prime meridian and radii equal to that body's variables or empty; it succeeds exactly when the constants used are numeric with two or three radii; it never panics; the result does not depend on the hash map's order unless two variables spell the same constant of the same body.", "quantifier": "every variable table and every order of walking it", "why_tests_cant": "Hash map order is random per run; arbitrary tables.", "anchors": ["src/formats/spice/pck.rs: PckKernel::from_text, body"]}
{"id": "C56", "title": "Instrument kernels give exactly the instruments they name", "statement": "Reading an instrument kernel succeeds with a list exactly when the list is in strictly growing identifier order, has the identifiers named by INS<id>_ variables and no others, and each optional field is the value of its own variable, or absent with it; reading never panics.", "quantifier": "every variable table", "why_tests_cant": "Any number of instruments and any mixture of fields.", "anchors": ["src/formats/spice/ik.rs: IkKernel::from_text, instrument_by_id"]}
{"id": "C57", "title": "Loading a text kernel adds exactly its roles", "statement": "A text kernel is accepted exactly when every role its variables call for (leap seconds, frames, constants, clocks, instruments) can be read; it is then added under its alias to those roles and to no other; frames also enter the registry; nothing loaded before is removed, except that leap seconds are replaced.", "quantifier": "every context and every kernel text", "why_tests_cant": "All combinations of roles and prior contexts.", "anchors": ["src/spice/context.rs: load_bytes, load_text_kernel", "src/spice/kernel_set.rs", "src/spice/frame_registry.rs: add_fk"]}
{"id": "C58", "title": "Keyword-value messages are read by their last line about each key", "statement": "In a keyword-value message a key has the value of the last line that says something of it; comments, blank lines, lines without an equals sign and unknown keys change nothing; the text is read exactly when the required fields are present and readable, optional ones defaulting to zero or unclassified, and the reader never panics.", "quantifier": "every text", "why_tests_cant": "Order, duplicates, comments and blanks combine without bound.", "anchors": ["src/formats/tle/omm/kvn.rs: read"]}
{"id": "C59", "title": "XML messages round-trip and cannot be broken by their texts", "statement": "Decoding undoes encoding of every text, encoded text holds no markup, and a message written as XML reads back with names, counters and classification exact and numbers to half a unit of the last printed digit; the reader accepts exactly the texts whose first elements with the required tags are readable.", "quantifier": "every message with trimmed texts, names with any characters and line breaks included; every input text for the reader", "why_tests_cant": "Names with nested references and markup form an infinite domain.", "anchors": ["src/formats/tle/omm/xml.rs: write, read, extract_tag, xml_escape, xml_unescape"]}
{"id": "C60", "title": "The JSON record of a message keeps every field", "statement": "Converting a message to the record behind its JSON form and back gives the same message, catalogue numbers of every size included; absent optional fields become zero or unclassified and a theory other than SGP4 is refused.", "quantifier": "every message and every record; the JSON text itself is not modelled", "why_tests_cant": "Every combination of present and absent fields and values.", "anchors": ["src/formats/tle/omm/json.rs: from_omm, into_omm"]}
{"id": "C61", "title": "Dates of ephemeris messages are calendar dates and read back", "statement": "The text printed for a Julian date is a valid Gregorian date and time of day that together are that instant, seconds rounded to a microsecond, and reading it gives the instant back to half a microsecond; the integer conversions behind it are inverse to each other. Reading does not check ranges.", "quantifier": "every instant from year 1 on whose year fits 32 bits", "why_tests_cant": "Every day of every year and every fraction of a day.", "anchors": ["src/formats/ccsds/oem.rs: jd_to_iso8601, iso8601_to_jd"]}
{"id": "C62", "title": "Ephemeris files read exactly as their blocks say, and written ones read back", "statement": "A file of a header and metadata/data blocks is read exactly when every required entry is told and every row is a date and six finite numbers, and then as those say; a written file reads back with metadata exact, positions to half of 1e-6, velocities to half of 1e-9 and epochs to half a microsecond. States that are not finite are written but refused on reading; a covariance or manoeuvre block loses the states of the segment it follows.", "quantifier": "every metadata with one-line trimmed texts, every list of states, every layout of blocks, comments and blank lines", "why_tests_cant": "Number of segments, rows, comments and their order is unbounded.", "anchors": ["src/formats/ccsds/oem.rs: write_oem, read_oem, parse_data_line"]}
{"id": "C63", "title": "Orbit parameter messages read as their lines say and round-trip", "statement": "A text is read exactly when the name, the epoch and the six coordinates are told and readable, each by the last line about it, with defaults for the other metadata; elements are read exactly when the semi-major axis is told and then all six are required. A written message reads back with texts exact and numbers to half a unit of the last printed digit. The reader never panics.", "quantifier": "every text; every message with one-line trimmed texts", "why_tests_cant": "Order, repetition and absence of lines combine without bound.", "anchors": ["src/formats/ccsds/opm.rs: read_opm, write_opm"]}
{"id": "C64", "title": "Tracking data messages read as their blocks say and round-trip", "statement": "A message of metadata and data blocks is read exactly as the lines inside say: participants in order, other entries by their last line, observations split at the last separator. A written message reads back with metadata, kinds and epochs exact; keywords that repeat a known one are not kept, and an observation without an epoch makes the message unreadable.", "quantifier": "every message with one-line trimmed texts, every number of blocks, participants and observations", "why_tests_cant": "Blocks, participants, observations and separators inside epochs are unbounded.", "anchors": ["src/formats/ccsds/tdm.rs: read_tdm, write_tdm, keyword_to_obs_type, obs_type_to_keyword"]}
{"id": "C65", "title": "Process noise is a covariance that composes over steps", "statement": "ProcessNoiseModel::q_matrix accepts exactly finite non-negative steps, densities and sigmas with positive time constants; the matrix has the published cells and zeros elsewhere, is symmetric and positive semi-definite, and the noise over two steps in a row equals the noise over the whole step (the first carried over the second, plus the second). The semi-definiteness test accepts every positive semi-definite matrix and what it accepts is semi-definite up to its tolerance.", "quantifier": "every model, step and combination of components; every symmetric matrix of every size", "why_tests_cant": "Steps, densities and directions are real numbers; the factorisation test quantifies over all matrices of all sizes.", "anchors": ["src/pod/process/noise.rs: ProcessNoiseModel::{q_matrix,is_psd,dim}, GaussMarkovParams::variance_after, matrix_is_psd"]}
{"id": "C66", "title": "A noise schedule gives the level of the interval that contains the time", "statement": "ProcessNoise::sigma_at returns the sigmas of the interval [sum of earlier durations, that sum plus its own duration) containing the elapsed time, the last level beyond the schedule and the first before it.", "quantifier": "every schedule with non-negative durations, every time", "why_tests_cant": "Schedules have any length and times fall on or between any boundaries.", "anchors": ["src/pod/process/noise.rs: ProcessNoise::sigma_at"]}
{"id": "C67", "title": "Moon phase labels partition the circle and events are the right crossings", "statement": "MoonPhaseLabel::from_elongation always ends, gives the label of the one arc that contains the elongation in whatever turn, and its waxing side agrees with the geometry's waxing flag. find_phase_events returns events in time order; a crossing of a phase's signed function is reported exactly when the Moon is on the side of the target and not opposite to it. Phase samples are the instants start + i*step up to and including the end.", "quantifier": "every elongation, half-width up to 45 degrees, elongation function and list of crossings; every step and window", "why_tests_cant": "Elongations and times are real numbers, and the loop bounds depend on them.", "anchors": ["src/event/lunar/phase.rs: MoonPhaseLabel::{from_elongation,is_waxing,is_waning}, find_phase_events, moon_phase sampling"]}
{"id": "C68", "title": "Moon illumination is the geometry of the Earth, Moon and Sun", "statement": "The phase angle computed from the separation on the sky and the two distances is the angle at the Moon between the directions to the Earth and to the Sun. The separation is symmetric and has the cosine of the angle between the directions. The illuminated fraction stays in [0, 1], is 0 in line with the Sun and 1 opposite to it, and never falls as the Moon moves away from the Sun. The geocentric and topocentric geometries are made of these.", "quantifier": "all directions and distances with the Moon nearer than the Sun", "why_tests_cant": "An identity between trigonometric formulas and vectors over all real directions and distances.", "anchors": ["src/event/lunar/phase.rs: compute_phase_geometry (geocentric, topocentric), MoonPhaseGeometry"]}
{"id": "C69", "title": "Positions on an orbit are where Kepler's equation puts the body", "statement": "KeplerianOrbit::kepler_position, PreparedOrbit::position_at, calculate_orbit_position, position_with_mu, MeanMotionOrbit::position_at and ConicOrbit::position_at all return the point of the oriented ellipse (or hyperbola) whose eccentric anomaly satisfies Kepler's equation at the unreduced mean anomaly: the reduction modulo a turn (truncated or Euclidean), the half-angle formula with its pole, and precomputed trigonometry do not matter. The path lies in its plane, the distances to both foci add up to the long axis, the distance runs from periapsis to apoapsis, and the motion is periodic. Parabolas are refused, and only they.", "quantifier": "every elements set with 0 <= e < 1 (or e > 1), every time, every solver that satisfies Kepler's equation", "why_tests_cant": "Real-valued elements and times; the identity chains half-angle, arctangent and rotation formulas with wrap-around at every turn.", "anchors": ["src/astro/conic_equations.rs: rotate_to_ecliptic, rotate_to_ecliptic_precomputed, elliptic_true_anomaly_and_radius, calculate_{mean_motion,conic,orbit,prepared}_position, calculate_orbit_position_with_mu", "src/astro/orbit.rs: PreparedOrbit::from_validated, OrientationTrig", "src/astro/units.rs: heliocentric_period_days"]}
{"id": "C70", "title": "Motion along an orbit obeys Newton's law", "statement": "As functions of time, the returned positions have a velocity and an acceleration everywhere; the acceleration is -mu r / |r|^3 with the mu the function stands for (Gaussian year, Gaussian constant, the given parameter converted to au^3/d^2, or the one implied by the mean motion); angular momentum is constant along the pole of the orbit and the speed follows the vis-viva law, for ellipses and hyperbolas.", "quantifier": "every valid element set and every time", "why_tests_cant": "A statement about derivatives at every instant.", "anchors": ["src/astro/conic_equations.rs: calculate_{mean_motion,conic,orbit,prepared}_position, calculate_orbit_position_with_mu, mu_to_au3_d2"]}
{"id": "C71", "title": "Crossing searches report only verified crossings and miss no sampled sign change", "statement": "Whatever polynomials the piecewise fit produces, every labelled crossing lies in the window and either is a polynomial root at which the signal itself is within the residual of the threshold and passes it in the reported direction, or was found by a scan of part of the window: at a node where the signal is within the residual, or inside a step over which the signal changes sign. Crossings come in time order, never closer than the deduplication distance. A sign change between the ends of a piece (or of a scan step) is always reported unless a refinement used up all its passes. The search always ends. A signal that merely touches the threshold at a node is reported as rising.", "quantifier": "every window, options, fitted polynomials, signal and threshold", "why_tests_cant": "The signal, the fitted polynomials and the window are arbitrary; the search is a nest of loops with recursive subdivision.", "anchors": ["src/event/search/crossings.rs: find_labelled_crossings, segment_crossings, accept_roots, hidden_sign_change, refine_precise_root, direction_at", "src/event/search/scan_fallback.rs: scan_labelled_crossings, brent_f64", "src/event/altitude/search.rs: InternalSearchConfig, SearchOpts"]}
{"id": "C72", "title": "Events and above-threshold periods agree", "statement": "Every period above a threshold begins at a rising event or at the start of the window with the signal above, and ends at a setting event or at the end of the window; every rising event before the end of the window begins a period; events are in time order; both always come back. A signal that only touches the threshold still makes a period.", "quantifier": "every signal, threshold, window, tolerance and step hint", "why_tests_cant": "Relates the outputs of two public functions over arbitrary signals.", "anchors": ["src/event/altitude/events.rs: generic_crossings, generic_above_threshold", "src/event/search/periods.rs"]}
{"id": "C73", "title": "The Sun's daily predictor only reports crossings of the precise altitude", "statement": "However wrong the day's prediction and the fast altitude are, every crossing reported lies in the window and is one of the precise altitude up to the tolerances; crossings come in time order; asking for several thresholds at once gives what asking for each gives; the days cover the window; on every day either everything the piecewise search finds in the day's part of the window is reported, or the precise altitude confirms the absence of a crossing at three times, or each predicted crossing near the window was refined and reported. Periods above a threshold and within a range are made of these crossings. On a window of no length a period of no length is reported. The direction of a refined crossing is the predicted one.", "quantifier": "every window, threshold list, options, altitude functions and daily solutions", "why_tests_cant": "Quantifies over arbitrary altitude functions and predictions, with nested loops and a secant iteration.", "anchors": ["src/event/solar/daily_events.rs: find_solar_labelled_crossings, find_solar_labelled_crossings_for_thresholds, find_solar_day_crossings, accept_no_crossing_day, refine_solar_candidate, find_candidate_bracket(_fast), day_influence_window", "src/event/solar/periods.rs: solar_above_threshold, solar_altitude_ranges"]}
{"id": "C74", "title": "Predicted rising and setting times solve the day's geometry", "statement": "For a Sun of fixed declination the two predicted times are where the altitude equals the threshold, rising at the first and setting at the second with the slope that starts Newton's method, and within half a day of the transit the Sun is above the threshold exactly between them; beyond the reach of the hour angle it never crosses. The transit lies in the day and has hour angle zero. The fast altitude is exactly the product of the vertical with the Sun's direction, and at most one in size.", "quantifier": "every latitude, declination, threshold, sidereal time, longitude and time", "why_tests_cant": "Trigonometric identities and derivatives over the reals with wrap-around.", "anchors": ["src/event/solar/daily_events.rs: solar_sin_altitude_fast, solar_daily_state, day_case, day_candidates"]}
{"id": "C75", "title": "Reported passages of a bearing are changes of half circle", "statement": "The passages come back for every window and positive step, in order; just before a rising one the azimuth is not in the half circle clockwise of the bearing and just after it is, a setting one the reverse; every scan step over which the azimuth changes half circle has a time in it that is reported, up to merging. Because the signal is a sine, passages of the opposite bearing are reported too, with the direction reversed.", "quantifier": "every azimuth function, bearing, window, step hint and any sign-faithful rounding of the signal", "why_tests_cant": "Quantifies over azimuth histories; the opposite-bearing reports show only in direction semantics.", "anchors": ["src/event/azimuth/events.rs: azimuth_crossings", "src/event/azimuth/provider.rs"]}
{"id": "C76", "title": "Azimuth ranges contain exactly the times in the arc; unwrapping follows the body", "statement": "For a range up to a full turn, also across north, the periods are the times with the azimuth in the arc whenever the search saw the changes of sign. A range of more than a turn loses azimuths. The unwrapped azimuth used for extrema is the true continuous one plus a fixed number of turns for any order of calls so long as consecutive true azimuths differ by less than half a turn, and not otherwise.", "quantifier": "every azimuth function, range, window and sequence of calls", "why_tests_cant": "Wrap-around arithmetic over all reals and call sequences.", "anchors": ["src/event/azimuth/events.rs: azimuth_periods, azimuth_ranges, azimuth_extrema"]}
{"id": "C77", "title": "Horizontal coordinates point at the body", "statement": "Altitude and azimuth computed from right ascension, declination, sidereal time and site reproduce the body's direction in the local north-east-up axes; the azimuth is in [0, 360), the altitude in [-90, 90], and away from the zenith they are the only such angles. The star pipeline does this for the precessed direction, and the separate altitude and azimuth functions used by the searches agree with it. Angles between bodies are preserved, a body is highest on the meridian, and is on the eastern side before it. The topocentric step is the rotated difference of positions.", "quantifier": "every direction, site, sidereal time, rotation and policy", "why_tests_cant": "Trigonometric identities over the reals across three separately written formulas.", "anchors": ["src/event/horizontal.rs", "src/event/stellar/altitude_periods.rs: fixed_star_altitude_rad_with_policy", "src/event/stellar/azimuth.rs"]}
{"id": "C78", "title": "Azimuth, elevation and range describe the line of sight", "statement": "The angles, expressed in the local east-north-up axes, and the range rebuild the vector from observer to target; the azimuth is in [0, 360); the range rate is the derivative of the distance under uniform motion and the light time is the range over c. The status is always Clear, even when the line of sight passes through the Earth.", "quantifier": "every pair of distinct positions, velocities and site", "why_tests_cant": "Identities and a derivative over the reals.", "anchors": ["src/mission/geometry/az_el_range.rs", "src/mission/geometry/local_frame.rs"]}
{"id": "C79", "title": "The hidden fraction is the area of overlap; eclipse states follow from it", "statement": "With the apparent radii the code uses, the fraction is 0 exactly when the discs are apart, 1 exactly when the target is covered, the ratio of areas for a transit, and otherwise the two circular segments cut off by the common chord, shrinking with the separation by the length of that chord; it is always in [0, 1]. Sunlight, penumbra and umbra follow. The apparent radius (an arctangent) is too small, so a satellite from which the Earth hides the whole Sun is reported in sunlight, and a body behind the target hides it.", "quantifier": "every observer, target, occulter and radii", "why_tests_cant": "Areas and derivatives over the reals; the wrong shadow shows only against the exact line of sight.", "anchors": ["src/mission/geometry/occultation.rs: occultation_fraction", "src/mission/geometry/eclipse.rs"]}
{"id": "C80", "title": "A line of sight is obstructed exactly when the segment meets the ball", "statement": "The test returns true if and only if some point of the segment from observer to target is within the body's radius of the origin, also when the two points coincide or the segment is inside the ball, and does not depend on which end looks.", "quantifier": "every pair of points and radius", "why_tests_cant": "An existential over all points of the segment.", "anchors": ["src/mission/geometry/occultation.rs: line_of_sight_obstructed"]}
{"id": "C81", "title": "The terrain mask is the periodic piecewise linear profile of its samples", "statement": "For distinct sample azimuths in [0, 360) the mask is the straight line between neighbours, also around north, repeats every turn, has the sample's elevation at each sample, stays between the lowest and highest sample, and does not depend on the order of the samples. Samples outside [0, 360) are reduced only after sorting, and then the mask is wrong at its own samples.", "quantifier": "every list of samples and azimuth", "why_tests_cant": "Quantifies over all sample lists and orders.", "anchors": ["src/mission/geometry/terrain_mask.rs"]}
{"id": "C82", "title": "Beta angle, local time and field of view", "statement": "The beta angle is the Sun's angle above the orbit plane on the side of the angular momentum, and a radial orbit panics; local solar time is in the day, noon under the Sun and advances a day per turn, and the local time of the node is the same function; a cone accepts exactly up to its half angle and the rectangular test never accepts a direction outside either side.", "quantifier": "every position, velocity, direction, longitude and field of view", "why_tests_cant": "Identities over the reals with wrap-around.", "anchors": ["src/mission/geometry/orbit_relative.rs", "src/mission/geometry/fov.rs"]}
{"id": "C83", "title": "JPL segments: the right record, the right polynomial, the right slope", "statement": "Evaluating a runtime JPL segment at an epoch inside its coverage uses the record whose interval contains the epoch (the last record at the very end) and returns the Chebyshev series of that record; the velocity of a type 2 segment is the time derivative of the position in km per day, that of a type 3 segment is the stored velocity; the combined call equals the two separate calls; epochs outside the coverage, infinite or NaN epochs, and segments without records or with a non-positive length are refused.", "quantifier": "for every well-formed segment (any number of records and coefficients), every epoch and every coefficient", "why_tests_cant": "tests evaluate a handful of epochs of one or two tiny segments; neither every record boundary nor the derivative relation for all coefficients can be sampled", "anchors": ["src/ephemeris/jpl/eval.rs:136-247", "src/ephemeris/jpl/eval.rs:258-422"]}
{"id": "C84", "title": "JPL segment stacks prefer the last covering segment", "statement": "With several segments for the same body, a position comes from the last segment in the file that covers the epoch, later segments being passed over only when they do not cover it; position and velocity come from the same segment; an epoch that no segment covers gives a range error with the dates of the last segment, and a body without segments an invalid-segment error. (An invalid segment that claims the epoch blocks valid earlier ones.)", "quantifier": "for every list of segments and every epoch", "why_tests_cant": "the number and overlap of segments are unbounded; tests use two segments", "anchors": ["src/ephemeris/jpl/eval.rs:428-542"]}
{"id": "C85", "title": "JPL body chains agree with each other", "statement": "Sun, Earth and Moon from a runtime ephemeris fit together: without Earth segments the Earth and the Moon balance about the Earth-Moon barycentre in the ratio of their masses; with or without them the barycentric Earth plus the geocentric Moon is the Moon's place in the file; the heliocentric Earth is barycentric Earth minus barycentric Sun and is available exactly when both are; velocities combine with the same weights. (When the file has Earth segments they alone are used, so a gap in them makes the Earth unavailable.)", "quantifier": "for every file, date, mass ratio, unit length and orientation of the ecliptic", "why_tests_cant": "tests compare a few dates against tolerances; the identities must hold for all files and dates", "anchors": ["src/ephemeris/jpl/bodies.rs:71-313", "src/ephemeris/runtime_backend.rs:78-276"]}
{"id": "C86", "title": "Terrestrial time to ephemeris time", "statement": "The five-step iteration from terrestrial to ephemeris time ends within 1e-21 s of the one solution of the NAIF equation, never moves an epoch by more than 1.657 ms, and keeps the order of dates a picosecond apart.", "quantifier": "for every finite Julian date", "why_tests_cant": "convergence, uniqueness and monotonicity are statements about all real dates", "anchors": ["src/ephemeris/jpl/eval.rs:52-102"]}
{"id": "C87", "title": "The Sun-Earth frame and the starting points of the Lagrange points", "statement": "When Sun and Earth are apart and the Earth moves across the line between them, the rotating frame has orthonormal right-handed axes, the first from Sun to Earth and the second on the side to which the Earth moves, and turns at the rate of that line; coinciding bodies are refused. The starting point of L1 lies between Sun and Earth at the cube-root distance, L2 as far beyond the Earth, L3 behind the Sun; L4 and L5 make equilateral triangles, L4 ahead of the Earth and L5 behind it. On a circular orbit without a Moon L4 and L5 are exact equilibria and the solver returns them at once. (For motion along the line the third axis is made up and need not be square to the first.)", "quantifier": "every position and velocity of the bodies and every pair of gravitational parameters", "why_tests_cant": "Geometric identities over all real positions; which side L4 lies on for every direction of motion cannot be sampled.", "anchors": ["src/ephemeris/lagrange/solver.rs: RotatingFrame::new, relative_velocity, residual, seed"]}
{"id": "C88", "title": "The Lagrange solver: exact linear algebra, honest answers", "statement": "The linear solver returns the one solution of its system. A Newton step is the first of the halvings of the capped correction that does not increase the residual, and lands on the root of an affine residual. Every answer is a visited position with a residual within the tolerance, or the end of a step within the step tolerance, or the visited position of least residual below 1e-6 when the passes run out; lack of convergence is reported only when no visited residual was acceptable and a singular matrix only where the step has none; nothing panics. (When twelve halvings all increase the residual the full step is taken, so the residual can grow by any factor; the answer accepted at the end need not meet the tolerance asked for.)", "quantifier": "every residual function, start, tolerance and number of passes; systems of every size", "why_tests_cant": "Quantifies over arbitrary residual functions and iterations of any length.", "anchors": ["src/ephemeris/lagrange/solver.rs: solve_linear, jacobian, solve_with_sampler"]}
{"id": "C89", "title": "Fitted Lagrange archives cover their span within the tolerance", "statement": "Fitting always ends. The records follow one another without gaps from the first date to the last, agree with the solver at their nodes (and follow it to within 2 n eps where polynomials of n coefficients follow it to within eps over a block), evaluate at every date of the span and refuse every other one quoting the span; at every validation date the error is at most the reported maximum, which for the returned fit is at most the tolerance, and the order is the first of the list that achieves it. (A validation date within a nanosecond after the end makes a valid configuration fail as invalid; failure quotes the error of the last order, not the least one.)", "quantifier": "every solver, node set, span, block length, validation step and tolerance", "why_tests_cant": "Number of blocks and validation dates is unbounded and the boundaries are real numbers.", "anchors": ["src/ephemeris/lagrange/fit.rs: fit_sun_earth_lagrange, fit_with_order, validate_fit, validate_config", "src/ephemeris/lagrange/mod.rs: evaluate_records, fallback_or_solve"]}
{"id": "C90", "title": "The Moon's cached position follows the ephemeris", "statement": "Every date gets a position for every window. Up to a day around the window the answer comes from nine samples of the date's four-day segment alone; it is the ephemeris itself at the sample dates, exact for motions of degree at most eight, and where some polynomial of degree at most eight follows the motion over the segment to within eps it is within 18 eps. Before the window less a day, and from five days after it, the full ephemeris answers.", "quantifier": "every ephemeris, window (also empty or reversed) and date", "why_tests_cant": "The interpolation error is a statement over a continuum of dates and arbitrary motions.", "anchors": ["src/event/lunar/moon_cache.rs: MoonPositionCache::new, get_position_km"]}
{"id": "C91", "title": "The Moon's cached nutation follows the series", "statement": "Every date gets nutation angles. In the window and a day around it they lie on the straight line between the two neighbouring two-hour entries, equal the series at the entries, and differ from it by at most M/48 when the slopes (per day) change by at most M within two hours; before it and from two hours after it the full series answers.", "quantifier": "every series, window and date", "why_tests_cant": "The interpolation error is a statement over a continuum of dates and arbitrary series.", "anchors": ["src/event/lunar/moon_cache.rs: NutationCache::new, get_nutation_rad, nutation_rotation"]}
{"id": "C92", "title": "The Moon's cached altitude is the altitude of the full chain", "statement": "The cached altitude is the elevation above the date's local horizon of the cached position seen from the site, turned by precession and the cached nutation. With the ephemeris' and series' own values it equals the altitude of the uncached chain (parallax, precession, nutation, hour angle, altitude), in particular at every date outside the window; a position off by delta moves its sine by at most 2 delta over the Moon's distance from the site.", "quantifier": "every ephemeris, series, precession and orientation matrix, site, window and date", "why_tests_cant": "Two independently written chains of rotations and trigonometry must agree on a continuum of inputs.", "anchors": ["src/event/lunar/moon_cache.rs: MoonAltitudeContext::new, altitude_rad", "src/event/horizontal.rs: apparent topocentric chain"]}
{"id": "C93", "title": "Earth rotation angle and its period", "statement": "The Earth rotation angle lies in [0, 2 pi), equals the IAU 2000 linear formula modulo a turn, does not depend on how the date is split in two parts, and repeats exactly after one sidereal rotation period and after no shorter positive time.", "quantifier": "all UT1 dates and all splits of a date into two reals", "why_tests_cant": "Tests probe a handful of dates; independence from the split and the minimal period are statements about every date.", "anchors": ["src/astro/earth_rotation.rs", "src/astro/era.rs"]}
{"id": "C94", "title": "Sidereal time advances with the Earth rotation angle", "statement": "Mean sidereal time is the Earth rotation angle plus the published precession polynomial modulo a turn, apparent sidereal time adds the equation of the equinoxes, both lie in [0, 2 pi), both advance exactly as the Earth rotation angle at fixed TT, and the complementary terms stay below the sum of their amplitudes.", "quantifier": "all UT1 and TT dates, all nutation angles", "why_tests_cant": "Tests compare a few epochs to published values and cannot bound the series or the advance at every instant.", "anchors": ["src/astro/sidereal.rs", "src/astro/era.rs"]}
{"id": "C95", "title": "Frame rotations form one consistent system", "statement": "Every rotation between two frames preserves lengths, angles and handedness (catalogue frames excepted), is inverted exactly by the rotation the other way, and any two routes agree when no celestial pole offset applies. With pole offsets the routes to the true equator disagree, and the Galactic matrix is not a rotation at the 1e-10 level because of one entry.", "quantifier": "all pairs and triples of the fifteen frames, all dates, all nutation models and Earth orientation data", "why_tests_cant": "Tests check chosen pairs at chosen dates; consistency is over all pairs, dates and data.", "anchors": ["src/coordinates/transform/providers/frames_inertial.rs", "src/coordinates/transform/providers/frames_catalog.rs", "src/coordinates/transform/providers/frames_earth.rs", "src/coordinates/transform/providers/mod.rs"]}
{"id": "C96", "title": "The Earth-fixed chain spins the right way about the right pole", "statement": "The true equator's axis is the celestial intermediate pole. The intermediate frame sends the pole to twice its distance from its axis. Earth-fixed frames turn eastward with UT1 about an axis in the northern half, while the site chain turns westward, so the two routes from ITRF to the J2000 equator disagree whenever the pole is off the axis. The polar motion factors are in the reverse of the published order.", "quantifier": "all dates, nutation models, Earth orientation data and UT1 conversions", "why_tests_cant": "Tests check orthogonality and magnitudes, which hold for the wrong rotation too; the disagreement is between two code paths no test compares.", "anchors": ["src/astro/cio.rs", "src/astro/polar_motion.rs", "src/coordinates/transform/earth_rotation_provider.rs", "src/coordinates/transform/providers/frames_earth.rs"]}
{"id": "C97", "title": "Sites: exact shift, rigid Earth, diurnal motion", "statement": "Moving the origin between geocentre and site is exact both ways, sites keep their mutual distances at every instant, the diurnal speed is the rotation rate times the distance from the axis and perpendicular to the radius; but the reported velocity points against the site's actual motion as UT1 advances.", "quantifier": "all dates, sites, output frames and Earth orientation data", "why_tests_cant": "Tests check speed magnitudes; the sign relative to the derivative of the position needs a derivative at every instant.", "anchors": ["src/coordinates/transform/centers/position/to_topocentric.rs", "src/coordinates/observation/observer_state.rs"]}
{"id": "C98", "title": "Ecliptic-of-date directions", "statement": "Directions convert between ICRS, the mean equator of date and the ecliptic of date exactly both ways, both routes agree, angles between directions are preserved, the equinox and the ecliptic pole land where they should, and reported longitudes and latitudes are in range and reproduce the direction.", "quantifier": "all unit directions and all dates", "why_tests_cant": "Tests use a few directions; poles, wrap-around and agreement of the routes are over all directions.", "anchors": ["src/coordinates/transform/ecliptic_of_date.rs", "src/astro/precession.rs"]}
{"id": "C99", "title": "Third-body perturbation", "statement": "The acceleration a third body adds is its attraction on the satellite minus its attraction on the Earth, in every geometry; it is zero at the Earth's centre, zero instead of singular when satellite and body coincide or the body sits at the Earth's centre, turns with the frame, and adds up over the configured bodies in order. The first body without a position decides the error; an empty model needs no ephemeris. The Sun's and Moon's vectors are on the mean equator of J2000, not on the GCRS axes the code labels them with (refuted as worded in the docs).", "quantifier": "all satellite and body positions, masses, rotations, body lists", "why_tests_cant": "The cancellation-free Battin form equals the plain difference only through an algebraic identity; tests compare a few vectors. The frame label is never compared with the frame graph.", "anchors": ["src/astro/dynamics/forces/third_body.rs:23", "src/astro/dynamics/forces/third_body.rs:48", "src/astro/dynamics/forces/third_body.rs:180"]}
{"id": "C100", "title": "Shadow factor and radiation pressure", "statement": "Every shadow model answers between 0 and 1. The cylinder is dark exactly behind the Earth and closer than its radius to the Sun line. The cone gives the uncovered share of the Sun's disc for the two apparent radii and the separation: 1 apart, 0 covered, an annulus when the Earth's disc lies inside, the lens formula between, rising with the separation and without a jump at the contacts. The pressure points away from the Sun, is proportional to factor, coefficient and area to mass, and falls with the square of the distance; in the dark it is zero.", "quantifier": "all positions, radii, coefficients and separations", "why_tests_cant": "The branch conditions and the lens area agree only as an analytic fact about all triples of angles; tests sample noon, midnight and one penumbra point.", "anchors": ["src/astro/dynamics/forces/srp.rs:117", "src/astro/dynamics/forces/srp.rs:146", "src/astro/dynamics/forces/srp.rs:208"]}
{"id": "C101", "title": "Drag, density models and geodetic height", "statement": "Drag is opposite to the velocity relative to air turning about z, never adds energy relative to it and vanishes when co-rotating; it fails exactly below the surface or when the density model fails. Exponential density is positive, falling, with its reference value and e-folding height; table density meets every row, is log-linear between rows, positive and falling; both reject negative heights. The height iteration has the true reduced latitude as its fixed point and no others, and is exact on the ellipsoid, over the equator and the poles. Refuted: the x and y spin components of the public field are ignored, and the constant model accepts negative heights.", "quantifier": "all states, coefficients, tables, ellipsoids, latitudes and heights", "why_tests_cant": "Monotonicity, fixed points and energy signs quantify over a continuum of heights and states.", "anchors": ["src/astro/dynamics/forces/drag.rs:75", "src/astro/dynamics/density.rs:103", "src/astro/dynamics/density.rs:237", "src/astro/dynamics/density.rs:291"]}
{"id": "C102", "title": "Relativistic and empirical accelerations", "statement": "The relativistic correction is the Schwarzschild term, in the orbit plane, unchanged when the motion is reversed, outward by 3 GM^2/(c^2 r^3) on a circular orbit, and fails exactly below 100 km. Empirical accelerations have the given components along the radius, the in-plane direction of motion and the orbit normal, with length from the three components, and fail exactly when position and velocity are parallel. Periodic terms repeat each period, reverse (once per revolution) or repeat (twice) each half period, and are constant when no period is given.", "quantifier": "all states, coefficients, epochs and periods", "why_tests_cant": "Symmetries and component identities hold over all states, not at sampled ones.", "anchors": ["src/astro/dynamics/forces/relativity.rs:48", "src/astro/dynamics/forces/empirical.rs:48", "src/pod/force/empirical_periodic.rs:113"]}
{"id": "C103", "title": "Thrust arcs and propellant ledger", "statement": "After any sequence of arcs the mass is positive, mass plus propellant used is the initial mass, totals are the sums over the records and each record starts from the mass the one before left. An arc is refused exactly for a non-positive duration or specific impulse or too little mass, and changes nothing then. With one specific impulse the total is the rocket equation from first to last mass; cutting an arc in two changes no total; the logged change is the integral of thrust over mass. Arcs have unit direction and act from start up to but not at stop. A negative thrust is not refused: mass grows and the velocity change falls.", "quantifier": "all arc sequences, masses, thrusts and times", "why_tests_cant": "Conservation over arbitrary append sequences including refused ones; split invariance needs logarithm laws.", "anchors": ["src/pod/force/low_thrust.rs:141", "src/pod/force/thrust.rs:61", "src/pod/force/thrust.rs:98"]}
{"id": "C104", "title": "Geopotential in inertial axes", "statement": "With tesseral terms the inertial acceleration is the Earth-fixed field at the position turned by the Earth rotation angle, turned back: length and radial part are those of the Earth-fixed field, and whole turns change nothing. For a field symmetric about the axis the shortcut for order zero, which skips the turn, gives the same answer.", "quantifier": "all orders, angles, positions and Earth-fixed fields", "why_tests_cant": "The shortcut is only sound through a symmetry of the kernel; tests compare the two branches at most at one angle.", "anchors": ["src/astro/dynamics/forces/geopotential.rs:57"]}
{"id": "C105", "title": "Aberration", "statement": "For every observer slower than light, applying aberration gives a unit direction in the plane of the velocity, on the same side and never farther from the apex, with the relativistic law for the angle from the apex; removing it restores the direction exactly, both ways round. The shift is largest exactly where the velocity component is c(s-1), and never more than that. A resting observer sees no shift, axes do not matter, and positions keep their distance, including the zero vector.", "quantifier": "all directions, velocities below light speed, rotations and positions", "why_tests_cant": "Exact inverses and the maximum over the sphere are facts about a continuum of directions; tests check a few stars at one speed.", "anchors": ["src/astro/aberration.rs:53", "src/astro/aberration.rs:80", "src/astro/aberration.rs:136"]}
{"id": "C106", "title": "Astrometric and apparent directions", "statement": "In every frame, to_apparent and to_astrometric with the same observer undo each other, for vectors and for angles, and the apparent direction does not depend on the frame it is computed in.", "quantifier": "all frames, observers and directions", "why_tests_cant": "The type wrappers promise an exact inverse; tests check closeness for one frame.", "anchors": ["src/coordinates/observation/observational_direction.rs:111", "src/coordinates/observation/observational_direction.rs:212"]}
{"id": "C107", "title": "Gravitational light deflection", "statement": "Outside the guards the source moves away from the body, in their common plane, by exactly atan(k cot(th/2)), never past the opposite point; the published magnitude is the tangent of that shift. Nothing moves for a massless body, an observer at the body or a source exactly behind it. The inverse misses by at most k^2 cot/(2 sin^2) + (k cot)^3, always outward. There is no cut-off at the limb: a source behind the Sun can be thrown by 26 degrees.", "quantifier": "all sources, distances and masses", "why_tests_cant": "An error bound for the one-step inverse over all elongations cannot be sampled; the missing limb guard only shows within a microradian.", "anchors": ["src/astro/light_deflection.rs:133", "src/astro/light_deflection.rs:258", "src/astro/light_deflection.rs:291"]}
{"id": "C108", "title": "Changes of centre", "statement": "Every available change of centre rewrites the same point of space: identity, inverse and every detour agree, separations are kept, and axes or units may be changed before or after. A pair is available exactly when one side is barycentric, heliocentric or geocentric, or both sides are the same.", "quantifier": "all centres, dates, ephemerides, axes, units and positions", "why_tests_cant": "Seventeen centres with direct, negated and composed impls; agreement of all detours is a law over the whole table.", "anchors": ["src/coordinates/transform/providers/centers_standard.rs:27", "src/coordinates/transform/providers/centers_planetary.rs:40", "src/coordinates/transform/centers/mod.rs:162"]}
{"id": "C109", "title": "Body-centred positions", "statement": "From barycentric, heliocentric or geocentric positions, whatever centre the orbit is given about, the body-centred position is the vector from the body to the point; the body itself is the origin; geocentric positions come back. Routes agree for the default context only: the context passed in is ignored (refuted in general).", "quantifier": "all orbits, centres, frames, units and positions", "why_tests_cant": "Nine combinations of centres times a continuum of positions; the ignored argument only shows with a second ephemeris.", "anchors": ["src/coordinates/transform/centers/position/to_bodycentric.rs:58", "src/coordinates/transform/centers/position/to_bodycentric.rs:230"]}
{"id": "C110", "title": "Mean equator of date to horizon", "statement": "The transform is the proper rotation to north, west and up for the local sidereal time and latitude, keeps lengths and angles, and is undone by its inverse in both orders away from the Earth's poles and the celestial poles. There the inverse has no answer, nor has the zero vector (NaN).", "quantifier": "all sites, times and positions", "why_tests_cant": "Trigonometric formulas equal a rotation only by identities over all angles; the poles are measure zero and not sampled.", "anchors": ["src/coordinates/transform/frames/to_horizontal.rs:70", "src/coordinates/transform/frames/to_horizontal.rs:109", "src/coordinates/transform/frames/to_horizontal.rs:148"]}
{"id": "C111", "title": "Reading laser ranging predictions", "statement": "The entries of a prediction file are its complete type 10 records before the end mark, in order, in kilometres, at the day of the Modified Julian Date and the seconds of the day to half a nanosecond; every day of the years 1 to 9999 is read correctly. Seconds of 86400 or more, or whose fraction rounds up to a whole second, end the reading in either mode; negative or NaN seconds are read as midnight; a day number far out of range is wrapped into an ordinary year or overflows.", "quantifier": "all texts, days, seconds and modes", "why_tests_cant": "The date is computed by truncating divisions whose correctness over all days is an arithmetic theorem; tests use a handful of dates.", "anchors": ["src/formats/ilrs/cpf.rs:335", "src/formats/ilrs/cpf.rs:458"]}
{"id": "C112", "title": "Predictions written and read back", "statement": "A prediction file with one-word names is read back with the same names, the step without its fraction, and the same entries to half a millisecond and half a millimetre. An entry in the last half millisecond of a day or in a leap second makes the written file unreadable; a step that is not positive comes back as 60 s; an empty frame or source comes back as another header field.", "quantifier": "all files, entries and modes", "why_tests_cant": "Rounding to milliseconds interacts with the end of the day for a thin set of times that sampled round trips miss.", "anchors": ["src/formats/ilrs/cpf.rs:278", "src/formats/ilrs/cpf.rs:320", "src/formats/ilrs/cpf.rs:345"]}
{"id": "C113", "title": "Reading laser ranging observations", "statement": "The normal points are the type 11 lines that carry both numbers, in order, each with half the light path as its range, the flags at their places, and the day and configuration of the nearest lines before it. The return rate is taken one field too early; a pass across midnight is dated backwards; seconds counted past midnight leave no epoch, and far larger ones wrap to a time of day.", "quantifier": "all texts and modes", "why_tests_cant": "The day and configuration are carried from earlier lines, so the claim is an invariant over line sequences of any length.", "anchors": ["src/formats/ilrs/crd.rs:257", "src/formats/ilrs/crd.rs:345", "src/formats/ilrs/crd.rs:387"]}
{"id": "C114", "title": "Strict and permissive laser ranging files", "statement": "Observations: permissive reading always succeeds and gives what strict reading gives of the file without its broken lines; strict reading succeeds exactly when no data line is broken and otherwise names the first broken line. Predictions: the same for incomplete position records, but a date the calendar refuses ends the reading in either mode.", "quantifier": "all texts", "why_tests_cant": "Equality of two readers over every text is an induction over lines.", "anchors": ["src/formats/ilrs/crd.rs:257", "src/formats/ilrs/cpf.rs:392"]}
{"id": "C115", "title": "Range corrections", "statement": "Antenna offsets and tidal displacements take the part of their sum along the line of sight off the range, in any order and never by more than their lengths; a displaced receiver's range is right to second order. The gravitational delay is positive, the same both ways and grows with the range; being computed from the range as corrected so far, its place in the list matters.", "quantifier": "all lists of corrections, ranges and positions", "why_tests_cant": "Sums over lists of any length and second-order bounds are not settled by examples.", "anchors": ["src/pod/observation/corrections.rs:157", "src/pod/observation/corrections.rs:300", "src/pod/observation/corrections.rs:385"]}
{"id": "C116", "title": "Troposphere and ionosphere delays of satellite navigation", "statement": "The troposphere delay is 2.42 to 2.43 m at the zenith, grows as the inverse sine of the elevation down to 4 degrees and is then constant. The ionosphere delay lies between its night value and its peak, repeats daily, peaks at 14:00 local time, and the pierce point's longitude never divides by a small cosine.", "quantifier": "all elevations, coefficients, places and times", "why_tests_cant": "Bounds over trigonometric functions for every parameter set.", "anchors": ["src/pod/observation/gnss_obs.rs:157", "src/pod/observation/gnss_obs.rs:169"]}
{"id": "C117", "title": "Code and phase residuals", "statement": "Code and phase see the ionosphere with opposite signs; a cycle is a wavelength; a clock offset common to both ends drops out; the two-frequency combination drops the ionosphere; the rotation term is the first-order change for Earth-fixed positions. It is also added to the inertial positions documented, and the satellite-clock relativity has the sign opposite to the interface specification.", "quantifier": "all observations, frequencies, clocks and positions", "why_tests_cant": "Cancellation laws and derivatives hold for all values or not at all.", "anchors": ["src/pod/observation/gnss_obs.rs:228", "src/pod/observation/gnss_obs.rs:333", "src/pod/observation/gnss_obs.rs:460"]}
{"id": "C118", "title": "Laser range residuals", "statement": "The modelled two-way path exceeds twice the distance by positive delays; the troposphere delay lies between its value over the sine and over the sine plus 0.032 and falls with wavelength. The residual does not depend on the state estimated, and the position given is put back by one light time, which for motion along the line of sight changes the range by exactly the way flown.", "quantifier": "all stations, positions, velocities, elevations and wavelengths", "why_tests_cant": "Inequalities over all elevations and an independence from every state.", "anchors": ["src/pod/observation/slr_obs.rs:66", "src/pod/observation/slr_obs.rs:98", "src/pod/observation/slr_obs.rs:187"]}
{"id": "C119", "title": "Batches of observations", "statement": "The residuals for an epoch are those of exactly the observations matching it, in their order; on the f64 grid of modern Julian dates only equal epochs match; the method given no state reports every match as a light-time failure.", "quantifier": "all batches, epochs and states", "why_tests_cant": "Lists of any length; the tolerance below the grid is invisible at chosen epochs.", "anchors": ["src/pod/observation/batch.rs:109", "src/pod/observation/batch.rs:123", "src/pod/observation/batch.rs:144"]}
{"id": "C120", "title": "Broadcast navigation records", "statement": "After the first line with the end mark, the text is cut into records of eight lines in exactly one way. Strict reading gives exactly the records the text says, in order, and fails otherwise; permissive reading never reports an error and gives the records that say something. It does not skip a record with a line short of numbers: it panics, as it does on a multi-byte character across the fourth byte.", "quantifier": "all texts", "why_tests_cant": "The set of texts is infinite and the panic needs a line that is short but otherwise readable.", "anchors": ["src/formats/rinex/nav.rs:206", "src/formats/rinex/nav.rs:333"]}
{"id": "C121", "title": "Reference times of navigation records", "statement": "A calendar date and time below the last half nanosecond of a second is taken as written, to the nanosecond; numbers off by multiples of 2^32 are read as if they were not, and negative or undefined seconds as zero.", "quantifier": "all dates, times and wrapped numbers", "why_tests_cant": "Wrapping conversions are invisible on ordinary dates.", "anchors": ["src/formats/rinex/nav.rs:292"]}
{"id": "C122", "title": "Navigation files written and read back", "statement": "Records with satellite numbers 1 to 99, no leap second and numbers that leave a blank in their field come back in either mode, the time to the second and the numbers to one part in 2e12. A small negative clock drift fills its field and makes the file unreadable, as do a leap second and satellite number 0; the documented 1e-15 is not met.", "quantifier": "all lists of records", "why_tests_cant": "Round trips over all values, including those whose text is one character longer.", "anchors": ["src/formats/rinex/nav.rs:455", "src/formats/rinex/nav.rs:501"]}
{"id": "C123", "title": "Station solutions: each station once, by its last estimates", "statement": "Reading a station-solution file gives each station code once, exactly when the readable lines of the estimate block give all three coordinates; each coordinate and velocity component is the last value of its type for the code, and the point, solution and epoch are those of the last line about the code. Strict reading succeeds exactly when every line of the block has nine words with a number in the ninth; permissive reading always succeeds. Solutions of one station are mixed rather than kept apart.", "quantifier": "for all texts and both modes", "why_tests_cant": "estimates arrive in any order and number, with blocks opening and closing between them; tests try one small block", "anchors": ["src/formats/igs/sinex.rs:143"]}
{"id": "C124", "title": "Epochs by day of year are exact", "statement": "A year, day of year and second of day in a station-solution or orbit-exchange file give the modified Julian date of that time, for every calendar date of the years covered; two-digit years are 1980 to 2079. Unreadable epochs, days the year does not have and day zero are not refused but replaced, and a four-digit year in a station file is moved by 1900 years.", "quantifier": "for all calendar dates, texts and seconds", "why_tests_cant": "leap years, centuries and pivots make a case for every date; tests check one epoch", "anchors": ["src/formats/igs/sinex.rs:285", "src/formats/igs/orbex.rs:301"]}
{"id": "C125", "title": "Orbit exchange files are read line by line under the last section and epoch", "statement": "The orbits, clocks and attitudes read are exactly those the lines of data say, in order, each under the last section marker and the last epoch line above it, up to the end marker; a velocity is present exactly when six numbers are. Reading succeeds exactly when every number is readable and, in strict mode, no line is short; a bad number is an error in permissive mode too, against the documentation.", "quantifier": "for all texts and both modes", "why_tests_cant": "sections and epochs interleave without bound; tests read one file with each section once", "anchors": ["src/formats/igs/orbex.rs:130"]}
{"id": "C126", "title": "Antenna offsets round-trip to half a hundredth", "statement": "Writing a catalogue and reading it back gives the same antennas and frequencies, and offsets within half a hundredth of a millimetre, for names of at most sixty bytes without outer blanks, one-word frequencies and offsets that leave a blank in their field; lines with other labels have no effect. Exactness, promised in the documentation, fails; wide offsets lose their frequency, long names collide and a two-word frequency is cut.", "quantifier": "for all catalogues", "why_tests_cant": "the catalogue is a map of maps of any size, written in sorted order; tests round-trip one antenna", "anchors": ["src/formats/igs/antex.rs:68", "src/formats/igs/antex.rs:153"]}
{"id": "C127", "title": "Beacon observation files: header by label, records under the last epoch", "statement": "Reading an ASCII beacon file never fails and gives the header fields by label and columns, last occurrence winning, and one observation for every line beginning with D under an epoch, with the epoch of the last epoch line; every other data line is counted. The epoch is the exact modified Julian date of its calendar date. Continuation lines are never joined to their record, a record without a payload is both kept and counted as skipped, and unreadable date fields become zero.", "quantifier": "for all ASCII texts, and all dates from year 1", "why_tests_cant": "files hold any number of epochs and records; tests read two", "anchors": ["src/formats/rinex/doris.rs:80", "src/formats/rinex/doris.rs:157"]}
{"id": "C128", "title": "Planetary series: position is the whole series, velocity its derivative", "statement": "Each coordinate of a planet is the sum over the powers of time of the sums of A cos(B + C T), for any number of powers and of terms, whether summed four at a time or one by one; the velocity is its derivative with respect to the date in days; the combined pass gives the same two; the order of terms and an empty power do not matter.", "quantifier": "for all tables, dates and numbers of terms", "why_tests_cant": "the batched loop, the remainder and the running powers interact for every length of table; tests use tables of one term and compare the passes at one date", "anchors": ["src/ephemeris/vsop87/vsop87_impl.rs:74", "src/ephemeris/vsop87/vsop87_impl.rs:125", "src/ephemeris/vsop87/vsop87_impl.rs:191", "src/ephemeris/vsop87/vsop87_impl.rs:264"]}
{"id": "C129", "title": "Pluto's place from its three tables", "statement": "Pluto's heliocentric place has the longitude, latitude and distance of the three sums, each term taken with the argument of its own row; at every date the distance stays within the amplitudes of its table from the mean; a table shorter than that of the arguments is a panic.", "quantifier": "for all tables and dates", "why_tests_cant": "the bound and the pairing hold at every date; the test checks one", "anchors": ["src/ephemeris/pluto.rs:33"]}
{"id": "C130", "title": "C interface: codes and names of enumerations", "statement": "Each frame, centre, body and length unit has its own code, and a raw code is accepted exactly when it is the code of a variant. A name is read without regard to case and means one variant only; the canonical name of a variant reads back as that variant.", "quantifier": "for all raw codes, all strings and all variants of the frame, centre, orientation-model and twilight enumerations", "why_tests_cant": "Tests read a few names and codes; a name listed under two variants or a code off by one shows only on the pair concerned.", "anchors": ["siderust-ffi/src/ffi_utils.rs:299-409", "siderust-ffi/src/types.rs:78-132", "siderust-ffi/src/twilight.rs:22-34"]}
{"id": "C131", "title": "C interface: frame transforms", "statement": "A direction or position sent from one known frame to another is the rotated vector, labelled with the destination; there and back is the same point, going through a third frame changes nothing, lengths, centre and unit are kept and the spherical and Cartesian calls agree. The status is decided by null pointers, then frames, then date, and nothing is written unless it is Ok.", "quantifier": "for all directions, positions, dates, pairs of frames and rotation providers made of rotations with ICRS as the reference", "why_tests_cant": "Tests compare a few directions with tolerances; consistency over every pair of frames and every error combination is out of their reach.", "anchors": ["siderust-ffi/src/coordinates.rs:78-314", "siderust-ffi/src/coordinates.rs:571-611", "siderust-ffi/src/coordinates.rs:673-858"]}
{"id": "C132", "title": "C interface: horizontal directions come with altitude and azimuth exchanged", "statement": "The horizontal direction has the components along north, east and the zenith of the site at the local sidereal time. The three C calls deliver its azimuth in the polar field and its altitude in the azimuth field, for every direction; so the documented reading is wrong, as a star due east on the horizon shows.", "quantifier": "for all directions, frames, sites, dates and sidereal times", "why_tests_cant": "A test that only checks ranges or finiteness passes; equality of the two fields is accidental at single directions.", "anchors": ["siderust-ffi/src/coordinates.rs:145-154", "siderust-ffi/src/coordinates.rs:321-455", "src/coordinates/transform/horizontal.rs:90-133"]}
{"id": "C133", "title": "C interface: centres and orbits", "statement": "Moving a position between the barycentre, the Sun and the Earth keeps the point, frame and unit; shifts compose and undo each other. To a body and back is the shift to the geocentre for positions in AU. The shift ignores the unit and the frame of the position, an unknown orbit centre is refused by one call and read as heliocentric by another, and an orbit about the Earth moves with the Sun's gravity.", "quantifier": "for all positions, dates, offsets, orbits and centre codes; the four defects by witnesses", "why_tests_cant": "Tests shift single positions in AU in the ecliptic frame, where none of the defects shows.", "anchors": ["siderust-ffi/src/coordinates.rs:948-1104", "siderust-ffi/src/coordinates.rs:1244-1341"]}
{"id": "C134", "title": "C interface: arrays, handles and names", "statement": "For any allocator and any interleaving of calls that hand out arrays, ephemeris arrays and handles and give back each with its own numbers, no call is undefined, everything held keeps its contents, no two non-empty things share an address, and once all is given back the memory is as at the start. Empty arrays need no release; a second release or a wrong count of a non-empty one is undefined. A name given to a star is read back from any buffer it fits in with its end mark; otherwise nothing is written.", "quantifier": "for all allocators, memories, sequences of calls of any length, texts and buffers", "why_tests_cant": "Tests allocate and free one array at a time; no test can show the absence of aliasing or of undefined behaviour over all sequences.", "anchors": ["siderust-ffi/src/ffi_utils.rs:409-456", "siderust-ffi/src/oem.rs:97-140", "siderust-ffi/src/bodies.rs:43-197"]}
{"id": "C135", "title": "C interface: searches for subjects", "statement": "A search checks the window, then the tolerance, then the handle, then the outputs, and delivers an array exactly when all are good; a bad period is reported only when the start compares greater than the end. A search is about a body or a fixed ICRS direction: proper motion, epoch and distance of stars and targets and the frame written beside a direction have no part in it. The lunar searches take any tolerance.", "quantifier": "for all subjects, windows, tolerances (NaN and infinities included), pointers and search functions", "why_tests_cant": "The order of the checks and the ignored fields show only in combinations of inputs that single tests do not try.", "anchors": ["siderust-ffi/src/subject.rs:36-400", "siderust-ffi/src/altitude.rs:17-28", "siderust-ffi/src/phase.rs:47-262", "siderust-ffi/src/ffi_utils.rs:160-197", "siderust-ffi/src/types.rs:734-742", "src/bodies/stars.rs:225-234"]}
{"id": "C136", "title": "C interface: targets", "statement": "A target is made exactly from a finite epoch, a known frame and a usable payload, in that order of checks after the null pointer, and gives its payload back unchanged. The direction kept is that of the payload turned into ICRS. Centre, unit and distance have no part in it, so a place given from the Sun is sought in the wrong direction. Unknown gravity and branch codes are taken as the default.", "quantifier": "for all payloads, frames, epochs, rotation providers and codes", "why_tests_cant": "Tests make a few targets and compare the payload; the direction and the ignored centre are not looked at.", "anchors": ["siderust-ffi/src/target.rs:74-323", "siderust-ffi/src/sgp4.rs:184-235", "siderust-ffi/src/lambert.rs:117-121"]}
{"id": "C137", "title": "Residual statistics", "statement": "The statistics of a list are its count, mean, root mean square, sample standard deviation, smallest and largest value; the squares of the three summary numbers satisfy rms^2 = mean^2 + (n-1)/n std^2; they do not depend on the order of the values and change with the unit and origin as they should. Groups come in ascending key order, one for each key, with the statistics of that key's values, and counts, sums and squares of the groups add up to the overall ones.", "quantifier": "for all lists of residuals, groups, units and origins (exact arithmetic)", "why_tests_cant": "A test checks a few lists; the laws hold between the statistics of every list and any regrouping or reordering of it.", "anchors": ["src/pod/qc/residuals.rs:35-121", "src/pod/qc/slr_validation.rs:53-64"]}
{"id": "C138", "title": "Orbit comparison", "statement": "Orbit differences are taken pair by pair up to the shorter list; each is the position difference in metres along the axes of the reference state and keeps its length. The 3-D number is the root mean square distance of the pairs whatever the axes, bounds each component's number, and is zero exactly when all paired positions agree. A reference state without axes panics. Pairs are made by index, so different epochs are compared silently.", "quantifier": "for all lists of states and all orthonormal local axes", "why_tests_cant": "Tests compare a handful of states; that rotation drops out of the summary and the exact panic condition concern all lists.", "anchors": ["src/pod/qc/orbit_compare.rs:36-124"]}
{"id": "C139", "title": "Gauss-Newton stops where it says", "statement": "An iterated fit succeeds exactly when some iteration after the first, within the allowed number, changes every parameter by less than the tolerance and the reduced chi-square by less than its tolerance; the report is that of the first such iteration, with every update added. It runs out exactly when none does. Unusable options are reported in a fixed order before the assembler is called. Zero tolerances are accepted but can never be met; a fit without residuals and a start at the solution with one iteration are never accepted.", "quantifier": "for all assemblers (stateful or not), options, initial vectors and numbers of iterations (exact arithmetic)", "why_tests_cant": "The result depends on the whole course of the iteration; tests run two or three well-behaved problems.", "anchors": ["src/pod/estimation/nonlinear.rs:93-165", "src/pod/estimation/wls.rs:153-218"]}
{"id": "C140", "title": "Propagated arcs", "statement": "An arc has one entry for each step, with the state after it and the product of the step matrices from the start, later ones to the left. It fails exactly when a step does, with that step's error. Arcs join: the second part started at the end of the first gives the rest, its matrices applied after the first's. Where the steps are affine a displaced start is displaced by the matrix at every step.", "quantifier": "for all step functions, starts and numbers of steps", "why_tests_cant": "The order of the factors shows only with matrices that do not commute and over several steps.", "anchors": ["src/pod/propagation/variational.rs:192-294"]}
{"id": "C141", "title": "Integration steps and finite differences", "statement": "The fixed-step integrator cuts an interval into the least number of equal steps not longer than the given one, of the interval's sign; a zero interval changes nothing. Central differences are exact for dependences of degree two. The relative difference of two columns and the prediction error of a matrix are zero exactly when there is no difference. A propagated spacecraft keeps its properties.", "quantifier": "for all steps, intervals, flows, matrices and displacements (exact arithmetic)", "why_tests_cant": "Tests try one step length and a tolerance; the statements are equalities for every input.", "anchors": ["src/pod/propagation/integrators.rs:95-125", "src/pod/propagation/variational.rs:48-157", "src/pod/propagation/validation.rs:66-151", "src/pod/propagation/adapter.rs:93-109"]}
{"id": "C142", "title": "Two-line element states lie on the right ellipse", "statement": "A TlePropagator is built exactly from elements with an epoch from 1950 on, eccentricity in [0,1) and positive mean motion. Every state it returns has the energy, angular momentum vector and eccentricity vector of the Kepler ellipse whose semi-major axis obeys the third law for the drifted mean motion and whose node and perigee drift at the J2 secular rates; its distance lies between perigee and apogee, and its eccentric anomaly solves Kepler's equation to 1e-26 rad. Asking by instant or by minutes is the same. Up to eccentricity 1/3 only an exhausted mean motion is refused. A positive drag term raises the orbit on both sides of the epoch.", "quantifier": "for all element sets, gravity models and offsets", "why_tests_cant": "The state is a composition of an iterative solver, secular rates and rotations; tests compare a few satellites with tables.", "anchors": ["src/astro/sgp4/propagator.rs", "src/astro/sgp4/elements.rs"]}
{"id": "C143", "title": "A star's threshold hour angle bounds exactly the time it is up", "statement": "The sinusoid cached for a star is its height above the horizon plane at every sidereal time. The threshold answer is 'always' only if the star is never lower, 'never' only if it is never higher, and otherwise an hour angle such that the star is strictly higher exactly within that hour angle of the meridian. The predicted crossings are in time order, inside the period, each at an instant (to 1e-12 day) of rising or setting hour angle, and none inside the period is left out.", "quantifier": "for all directions, sites, thresholds and periods", "why_tests_cant": "Circumpolar, grazing and polar cases, and periods cutting a crossing, form a continuum.", "anchors": ["src/event/stellar/star_equations.rs"]}
{"id": "C144", "title": "Star crossings are found when the star stays up and down long enough", "statement": "If a star is up and down for more than fifteen minutes of each sidereal day, then near every crossing of the threshold inside the period a root is reported, for any root finder that finds roots where the sign changes. A star that is up for less than fifteen minutes a day is never reported, although it rises above the threshold in the period. An 'always' or 'never' answer is trusted only when both ends of the period agree.", "quantifier": "for all stars, sites, thresholds, periods and root finders", "why_tests_cant": "The failing stars form a thin band of declinations that sampled tests miss.", "anchors": ["src/event/stellar/altitude_periods.rs", "src/event/stellar/star_equations.rs"]}
{"id": "C145", "title": "A force configuration builds exactly the forces it asks for", "statement": "Every configuration builds without error into exactly the models its switches ask for, each once. Building a list of specifications succeeds exactly when each specification builds, in order, and otherwise reports the first that fails. Registering a name replaces that name's factory and no other, and the names stay sorted without repetition. An unknown name is reported as unknown and a built-in model given another model's settings is refused under its own name; nothing else is refused. A default configuration with harmonics switched on counts central gravity and oblateness twice.", "quantifier": "for all configurations, registries, specification lists and parameter values", "why_tests_cant": "There are thousands of combinations of switches; tests try a few.", "anchors": ["src/pod/force/registry.rs", "src/pod/force/config.rs"]}
{"id": "C146", "title": "The covariance checks accept and report exactly what they say", "statement": "The symmetry check passes exactly on n by n data whose mirrored numbers are no further apart than the tolerance, and otherwise names the first offending pair, row by row. The diagonal check does the same for negative variances. Wrong sizes are reported by both with the size found. Passing both does not make the data positive semidefinite, and data that are not numbers pass both.", "quantifier": "for all sizes, data and tolerances", "why_tests_cant": "Which entries were compared, and in which order, cannot be seen from a few matrices.", "anchors": ["src/pod/problem/covariance.rs"]}
{"id": "C147", "title": "A written manifest does not depend on the order files were added", "statement": "Writing a manifest only reorders its inputs and outputs, by kind and path, and changes nothing else; doing so twice is doing it once. Two runs that list the same files in another order write the same manifest, provided no kind and path is listed twice with different contents; with such a pair the order still shows.", "quantifier": "for all manifests and all orders of their files", "why_tests_cant": "Tests compare a couple of orders; the law is about all permutations.", "anchors": ["src/pod/run/manifest.rs", "src/pod/run/dataset.rs"]}
{"id": "C148", "title": "A residual table has one line for each residual and tells them apart", "statement": "A residual table has one line more than it has residuals, and two tables with the same text have the same printed rows, provided no name contains a comma or a line break. Names are not quoted: a comma in a name makes two different residuals print the same line.", "quantifier": "for all lists of residuals, and all number printers that print no comma or line break", "why_tests_cant": "Injectivity of a printer is a statement about all pairs of tables.", "anchors": ["src/pod/product/residuals_csv.rs"]}
{"id": "C149", "title": "An SP3 product reads back as the states it was made from", "statement": "An SP3 product written for a satellite identifier of at most three characters reads back as one epoch for each state, in order, with that satellite alone, the UTC epoch to the nearest 10 ns and the position to half a millimetre, and the header gives the number of states. The header's start date, spacing, time system and frame are constants: a file of states in 2020 says it starts in 2024, and in GPS time although epochs are written in UTC. A longer identifier runs into the coordinates: when its tail reads as a number, that number is read as x, x as y and y as z without an error; otherwise the file cannot be read.", "quantifier": "for all state series, identifiers and calendar conversions whose results the format can hold", "why_tests_cant": "The shift happens only for identifiers of four or more characters ending in digits; the header is wrong for all dates but one.", "anchors": ["src/pod/product/orbit.rs", "src/formats/igs/sp3.rs"]}
{"id": "C150", "title": "An OEM product reads back as the states it was made from", "statement": "An OEM product of at least one state reads back as one segment under the names given, centred on the Earth, in TT, with every state in order, instants to half a microsecond, positions to half a millimetre and velocities to half a micrometre a second. For no states the OEM writer refuses and the SP3 writer writes a file of no epochs.", "quantifier": "for all non-empty series of finite states with epochs in the calendar, and all one-line names", "why_tests_cant": "Round trips over all states need the printer and the reader to be inverse to each other.", "anchors": ["src/pod/product/orbit.rs", "src/formats/ccsds/oem.rs"]}
{"id": "C151", "title": "Each estimated parameter has the column of its first place in the list", "statement": "The index of a parameter kind is the first place where that kind occurs, and there is none exactly when it is not in the list. Two kinds never share a column. Every column belongs to a kind exactly when no kind is listed twice.", "quantifier": "for all parameter lists and kinds", "why_tests_cant": "Duplicates among kinds carrying names are rare in tests.", "anchors": ["src/pod/problem/parameter.rs"]}
{"id": "C152", "title": "The standard atmosphere is in balance and its altitude scale inverts", "statement": "Standard pressure is positive and falls strictly with altitude, through the tropopause as elsewhere. Altitude from pressure undoes pressure from altitude at every altitude, and the converse at every positive pressure. At every altitude, the tropopause included, the rate of fall is that of a column of ideal gas at the standard temperature there. Geopotential and geometric altitude undo each other and the first is never the greater.", "quantifier": "for all altitudes and positive pressures", "why_tests_cant": "Inverse functions and derivatives are statements about a continuum; the join at the tropopause is a single point.", "anchors": ["src/bodies/aircraft/isa.rs"]}
{"id": "C153", "title": "Dead reckoning covers the ground the speed allows", "statement": "A reckoned aircraft is where it was at its reference epoch; later or earlier it has moved on the sphere by speed times time in the direction of its track and climbed by rate times time, its speed, track and rate unchanged. Reckoning in two legs gives the same latitude and height as in one, and the same longitude on a parallel or a meridian, but not on an oblique track. A northbound flight passes the pole: the latitude grows beyond 90 degrees.", "quantifier": "for all aircraft states, epochs and times", "why_tests_cant": "The refutations need latitudes and times outside the tested minutes.", "anchors": ["src/bodies/aircraft/inner.rs"]}
{"id": "C154", "title": "Airmass grows to the horizon and the airglow factor is the slant through the shell", "statement": "Each of the airmass formulas grows strictly from the zenith to the horizon, is one at the zenith to a part in a million, and does not exceed the plane-parallel value but for a part in a million; at the horizon the three finite ones are 5, 40 and about 32. Below the horizon the default formula repeats the values above it. The van Rhijn factor is the reciprocal cosine of the angle between the line of sight and the vertical where it meets the emitting shell.", "quantifier": "for all zenith angles, shell heights and radii", "why_tests_cant": "Monotonicity over a continuum cannot be sampled.", "anchors": ["src/atmosphere/airmass.rs", "src/atmosphere/airglow.rs"]}
{"id": "C155", "title": "Extinction dims, and redder light less", "statement": "Transmissions multiply as depths or airmasses add and are fractions when neither is negative. Molecular depth is positive from 119 nm and the depth of a site falls with wavelength from 119 nm to 25 micrometres when its aerosol exponent is negative. At 117 nm and below the molecular formula is negative and transmits more light than arrives. Altitude is counted twice: the depth is scaled by the site's own pressure and again by the altitude, although it is proportional to pressure alone.", "quantifier": "for all wavelengths, pressures, altitudes, airmasses and site profiles", "why_tests_cant": "The sign change lies outside tested wavelengths, and a double correction of thirty per cent is within the tolerance of the tests.", "anchors": ["src/atmosphere/rayleigh.rs", "src/atmosphere/mie.rs", "src/atmosphere/profile.rs", "src/atmosphere/extinction.rs"]}
{"id": "C156", "title": "A cone search of a star catalogue misses nothing; what it returns beyond the cone is bounded", "statement": "LargeStarCatalog::cone_search returns, in catalogue order, every record that passes the filter and whose angular distance from the centre is at most the radius. It may return more: the haversine uses the sine of the declination difference where half of it belongs, so a star at one pole is returned for a cone of no size about the other, and a cone of sixty degrees contains its whole meridian. Anything returned has a separation whose sine is at most twice the sine of half the radius, and on the parallel of the centre the test is exact. Searching in chunks of any size and joining the answers is the same search; searching at the record's own epoch, or a record without proper motion, is too.", "quantifier": "all catalogues, centres, radii, filters and chunk sizes", "why_tests_cant": "the shipped tests search small cones near the equator where the two formulas agree; the faulty returns lie half a sky away", "anchors": ["src/catalogs/record.rs:82-114", "src/catalogs/catalog.rs:54-110"]}
{"id": "C157", "title": "A catalogue record moved by its proper motion stays a direction on the sphere", "statement": "CatalogRecord::propagate_to gives a right ascension in [0, 2 pi) and a declination between the poles for any move of at most half a turn; folding over a pole does not change the direction; without both components nothing moves; at the catalogue epoch the direction is the catalogue's; at a pole the motion in right ascension is dropped. Going back over the same time does not undo the motion.", "quantifier": "all records and target epochs", "why_tests_cant": "a pole is crossed only for particular declinations and motions, and the direction is a statement about all of them", "anchors": ["src/catalogs/record.rs:47-70"]}
{"id": "C158", "title": "A star table is read by column name, and an error names the first unreadable line", "statement": "parse_csv_chunk reads a comma-separated table row by row, an entry being looked up under its column name whatever its letter case, surrounding space or position: any reordering of the columns gives the same records. A row is a record exactly when source_id, ra, dec and epoch are there and are numbers and every other known entry is absent or a number; quality is good when absent or 1, true or ok. Blank lines and # lines change nothing. An error carries the number of the first line that cannot be read, all lines before it being readable. Ranges are not checked and required columns are not missed until there is a row.", "quantifier": "all tables, any number of rows and columns, and all line lists", "why_tests_cant": "the claim ranges over every column order and every placement of comments", "anchors": ["src/catalogs/ingest.rs:45-121"]}
{"id": "C159", "title": "A VLBI side-car header is what its last lines say", "statement": "read_vgosdb_sidecar succeeds exactly when every line is blank, a comment or key=value with one of three keys; each field is then the value on the last line giving its key, the stations being the non-empty parts between commas; otherwise the error names the first offending line, and its key. A header written in any line order is read back.", "quantifier": "all files", "why_tests_cant": "the quantification is over all sequences of lines", "anchors": ["src/formats/vlbi/vgosdb.rs:88-123"]}
{"id": "C160", "title": "Body names resolve to NAIF numbers whatever their spelling", "statement": "naif_id_for_name ignores letter case and surrounding space; a known planet's barycentre is known under the name followed by BARYCENTER and its number is the planet's without the final 99; names of two different bodies from 10 up have different numbers; the exported constants are the numbers of their names. Pluto has the number of its barycentre.", "quantifier": "all strings", "why_tests_cant": "case and space variants are unbounded", "anchors": ["src/formats/spice/naif.rs:24-74"]}
{"id": "C161", "title": "Handles of the C dynamics interface are independent", "statement": "In any program of calls to the dynamics functions, a call that reports a failure changes nothing and writes nothing; a handle that comes back is non-null and was not in use; a box that is neither freed nor attached to keeps its contents; an orbit state reads back the numbers it was made from, through any later calls that do not free it; each provider slot of a context holds what the last successful call put there, and keeps the ephemeris after the handle it was copied from is freed; a null context propagates like an empty one; a propagation leaves its inputs as they were.", "quantifier": "for all heaps, all sequences of calls of any length, all handles, all provider tables and any integrator", "why_tests_cant": "a test runs one script of calls; the claim is about every interleaving of calls over every handle", "anchors": ["siderust-ffi/src/dynamics.rs:321-433", "siderust-ffi/src/dynamics.rs:458-560", "siderust-ffi/src/dynamics.rs:582-712"]}
{"id": "C162", "title": "Dynamics errors and callbacks keep their meaning", "statement": "Every class of dynamics error has a status code of its own, different from success, null pointer and panic, and the code is zero exactly when a handle was written. An error passes through the integrator unchanged, except 'altitude below surface', which comes back as a degenerate geometry, so that status 5 is never reported by a propagation. The density callback's value is passed on when it is a number not below zero, means below the surface when negative, and is a provider error otherwise. The coefficient callback is asked for, and the error names, the requested degree and order while both are below 65536; beyond that they wrap.", "quantifier": "for all errors, all callbacks, all altitudes, degrees and orders, and any integrator", "why_tests_cant": "tests check single variants; the unreachable status and the wrap need every error and every degree", "anchors": ["src/astro/dynamics/errors.rs:64-130", "siderust-ffi/src/dynamics.rs:106-153", "siderust-ffi/src/dynamics.rs:229-293"]}
{"id": "C163", "title": "Spacecraft properties are validated", "statement": "The checked constructor accepts exactly a finite mass above zero with finite areas and coefficients not below zero, stores what it was given, and each stored ratio times the mass is its area. Its error names the first bad value in the order mass, drag area, radiation area, drag coefficient, radiation coefficient. The other constructor panics exactly where the checked one reports an error.", "quantifier": "for all five inputs, including infinities and NaN", "why_tests_cant": "tests try one bad value at a time; the exact boundary and the order of the checks need all combinations", "anchors": ["src/astro/dynamics/state.rs:66-152"]}
{"id": "C164", "title": "Lunar albedo, phase law and reflected radiance", "statement": "The full-Moon albedo stays between 0.075 and 0.14 and never falls with the wavelength. The phase attenuation is one at full Moon, even in the phase angle, strictly falling as the angle opens and positive. The reflected radiance is proportional to the sunlight; it is NaN exactly for a non-finite irradiance or distance, a distance not above zero, or a NaN wavelength or phase, so an infinite phase or wavelength gives a number although the documentation promises NaN. It falls with the fourth power of the distance, not the square.", "quantifier": "for all irradiances, wavelengths, phase angles and distances, including infinities and NaN", "why_tests_cant": "tests sample a few angles and one distance; monotony and the power law are statements about all of them", "anchors": ["src/event/lunar/photometry.rs:58-138"]}
{"id": "C165", "title": "The short lunar series always gives a possible Moon", "statement": "For every instant the Chapter 47 position has longitude and right ascension within one turn, ecliptic latitude within 5.859654 degrees, declination within a right angle and a distance between 356 870.201 and 413 130.919 km. Reducing the mean elements by whole turns changes nothing. The equatorial direction is exactly the ecliptic direction turned by the mean obliquity of date, so the declination never exceeds the obliquity plus the latitude.", "quantifier": "all Julian dates; all whole-turn changes of the five elements", "why_tests_cant": "Tests compare a few dates with almanac values; they cannot bound the series or show the two coordinate pairs agree at every date.", "anchors": ["src/event/lunar/meeus_ch47.rs:57-122"]}
{"id": "C166", "title": "The Sun is opposite the Earth, at the Earth's distance", "statement": "The Sun's geocentric ecliptic longitude differs by half a turn from the heliocentric longitude of the Earth, and its apparent distance equals the Earth's heliocentric distance for every date and nutation. The matrix applied contains the frame bias although the vector is already in the mean J2000 frame, so at J2000 without nutation the apparent place is the mean place turned by the bias (refuted: it is not the mean place).", "quantifier": "all Earth positions, dates and nutation angles", "why_tests_cant": "Tests check approximate solar positions to an arc minute; the repeated bias is 20 milliarcseconds and the distance law holds for all rotations.", "anchors": ["src/event/solar/sun_equations.rs:80-101", "src/event/solar/sun_equations.rs:185-195"]}
{"id": "C167", "title": "Velocity frame changes are one consistent set of rotations", "statement": "Between the mean ecliptic, the mean equator and ICRS every route gives the same velocity, a route back to the start is the identity, speeds and angles between velocities are kept, and the rotation is the one used for positions.", "quantifier": "all velocities and all pairs and triples of the three frames", "why_tests_cant": "Tests try single vectors and one round trip with a tolerance.", "anchors": ["src/coordinates/transform/frames/velocity.rs:34-106"]}
{"id": "C168", "title": "Nutation is the plain sum of its tables", "statement": "Each nutation model returns the sum over its table of every row's contribution at the row's unreduced argument; reducing the arguments and the order of the rows change nothing, no date gives more than the amplitudes together, the four models share the mean obliquity, and the nutation matrix is a proper rotation.", "quantifier": "all coefficient tables, models and dates", "why_tests_cant": "Tests compare a few dates with published values; they cannot show that argument reduction or table order never matters.", "anchors": ["src/astro/nutation/mod.rs:154-346", "src/astro/nutation/nut00a.rs:225-332"]}
{"id": "C169", "title": "Body builders keep the last value given and report the first one missing", "statement": "However a planet, asteroid or comet builder is called, each field holds the last value given for it; a planet is built exactly when mass, radius and orbit were given and otherwise names the first one missing; asteroids and comets panic exactly when a required field is missing and otherwise use the documented defaults. build_unchecked agrees with build only when no albedo was given. A comet's period squared is its semi-major axis cubed.", "quantifier": "all finite sequences of setter calls and all semi-major axes that are not negative", "why_tests_cant": "Tests run one or two call sequences; the law is about every sequence, with repetitions.", "anchors": ["src/bodies/planets.rs:112-231", "src/bodies/asteroid.rs:104-167", "src/bodies/comet.rs:79-155"]}
{"id": "C170", "title": "Body-fixed frames invert exactly and point at the IAU pole under one Euler convention", "statement": "The rotation between a body-fixed frame and ICRS, or another inertial frame through ICRS, is proper, keeps lengths and angles and is undone exactly by its reverse. The body's pole gets the IAU declination always, and the IAU right ascension for every body and date exactly when the external Euler constructor uses passive rotations with the first angle applied first; then the prime meridian is W past the node.", "quantifier": "all rotation parameters, dates and vectors, and the four conventions of the external constructor", "why_tests_cant": "Tests check frame names and single round trips; they do not look at the pole for all parameters.", "anchors": ["src/astro/orientation.rs:60-90", "src/coordinates/transform/providers/mod.rs:148-171", "src/coordinates/transform/providers/mod.rs:446-462", "src/coordinates/transform/providers/frames_planetary.rs:19-71"]}
{"id": "C171", "title": "Small gravity fields and planet identifiers are unambiguous", "statement": "The degree-four field returns the first table entry of a degree and order, zero for anything absent or outside the triangle, and one for the monopole; the two-body field agrees with an empty table at every order that exists. A planet's centre is body 99 of its system and no two planet points share an identifier.", "quantifier": "all coefficient tables, degrees, orders, planets and points", "why_tests_cant": "Tests look up a handful of coefficients and identifiers.", "anchors": ["src/astro/dynamics/gravity/egm_low_degree.rs:22-98", "src/ephemeris/mod.rs:130-192"]}
{"id": "C172", "title": "Thrust arcs with different identifiers never share a parameter", "statement": "A thrust arc contributes exactly the parameters its switches ask for, with the documented starting values and deviations; any list of arcs with distinct identifiers contributes names without repetition, and arcs that share an identifier and a switch collide. An arc is valid exactly when its duration is not negative.", "quantifier": "all lists of thrust arcs, with any text as identifier, and all arcs", "why_tests_cant": "Tests use one arc with a plain identifier; brackets inside identifiers could make two names equal.", "anchors": ["src/pod/force/thrust_arc.rs:11-48", "src/pod/problem/arc.rs:96-152"]}
{"id": "C173", "title": "The built-in solar system holds together at every instant", "statement": "Every built-in planet, dwarf planet and moon has a positive mass, radius and orbit, an elliptic eccentricity and an albedo in [0,1]. Propagated to any two instants, each planet of the list is nearer the Sun than every later one; Pluto comes nearer than Neptune ever does. Every moon but the Moon stays clear of its planet at all times. Refuted as documented: the Moon's orbit is a thousand times too small and lies inside the Earth at every instant, the Sun's declination is read as hours, and the two Lagrange points lie on opposite sides of the Sun.", "quantifier": "every instant, every solver of Kepler's equation, every entry of the catalogue", "why_tests_cant": "A test reads the constants back or samples some dates; the claims are about all dates and about pairs of dates.", "anchors": ["src/bodies/solar_system.rs: PLANETS, DWARF_PLANETS, MAJOR_MOONS, SUN, MOON, LAGRANGE_POINTS, *_ROTATION", "src/bodies/satellite.rs: Satellite::new_const, with_albedo"]}
{"id": "C174", "title": "Each planet's series functions read that planet's own tables", "statement": "For every planet the heliocentric and barycentric functions sum every term of that planet's own tables of that solution, the velocity is the derivative of the position, the single pass gives both, and the ephemeris backend's Earth velocity is the derivative of its Earth position. Refuted for the Moon: its heliocentric function reads the tables of the Earth-Moon barycentre, so it is the Moon's place only where the Earth would be at the same place.", "quantifier": "every coefficient table, planet and date", "why_tests_cant": "Swapping two tables or leaving out a power changes results by amounts a tolerance-based test at one date can miss.", "anchors": ["src/ephemeris/vsop87/vsop87a.rs: impl_vsop87a", "src/ephemeris/vsop87/vsop87e.rs: impl_vsop87e, sun_vsop87e", "src/ephemeris/vsop87/vsop87_trait.rs", "src/ephemeris/vsop87_backend.rs: Vsop87Ephemeris"]}
{"id": "C175", "title": "Changing the azimuth convention never changes where one points", "statement": "For every azimuth and every pair of conventions (north, south, east or west origin; clockwise or counter-clockwise), convert_azimuth returns the unique azimuth in [0, 360) that, read in the target convention, points in the same compass direction as the input read in the source convention. Conversions compose, undo each other on normalised azimuths and ignore whole turns; flip_north_south and flip_sense equal the conversions they name and are involutions; positions keep site, altitude and distance, and going through the native convention equals converting directly.", "quantifier": "For all real azimuths, all 64 pairs of conventions, all positions.", "why_tests_cant": "The claim ranges over a continuum of angles and all convention pairs, and mixes two signs and two offsets; a test fixes a handful of cardinal points where several wrong formulas agree.", "anchors": ["src/coordinates/horizontal.rs:78-162", "src/coordinates/horizontal.rs:178-246", "src/coordinates/horizontal.rs:280-434", "src/coordinates/horizontal.rs:466-495"]}
{"id": "C176", "title": "The fixed-step integrator never exceeds its step, never turns round, and refuses impossible steps", "statement": "FixedRk4Adapter::step calls the integrator only when the request is finite and the configured size finite and non-zero, with the matching error otherwise. The step taken is the request when shorter than the configured size and the configured size in the request's direction otherwise. Over a run every step stays within the configured size; asking for the remaining span covers the span exactly; and because the suggestion handed back is the step just taken, a driver that obeys suggestions never takes a longer step than its first request. Propagator::propagate asks the driver for the span from the state's epoch to dt later with the configured limit and tolerances and a 30 s first step, and returns the driver's last sample or its error.", "quantifier": "For all integrators, states, request sequences, spans and drivers.", "why_tests_cant": "Runs have unbounded length and the drivers are arbitrary; a test follows one driver.", "anchors": ["src/astro/dynamics/propagation/propagator.rs:55-98", "src/astro/dynamics/propagation/propagator.rs:186-235"]}
{"id": "C177", "title": "The mission context remembers the last registration of each alias", "statement": "After any sequence of registrations and removals, a lookup returns the value last registered under that alias and not removed since; listings hold exactly those pairs with each alias once; removal returns what a lookup would have returned and forgets only that; locations and instruments are independent even under equal aliases.", "quantifier": "For all histories of calls and all aliases.", "why_tests_cant": "The property quantifies over call histories of any length.", "anchors": ["src/mission/context.rs:37-100"]}
{"id": "C178", "title": "The columnar residual file holds exactly the pushed records", "statement": "Finishing a residual table after any sequence of pushes writes one column per schema entry, of the schema's type, with one row per record in push order, each cell being the field the schema names; two different histories never give the same columns.", "quantifier": "For all record sequences.", "why_tests_cant": "Six columns are filled by six separate passes; a swap of two like-typed columns or a dropped row survives a test that reads one record or one column.", "anchors": ["src/pod/product/residuals_parquet.rs:84-112", "src/pod/product/residuals_parquet.rs:147-258"]}
{"id": "C179", "title": "Correction policies are sets of stages", "statement": "Correction policies behave as sets of stages: contains is inclusion, union is the least policy containing both, the apparent policy is exactly the four documented stages in their order, a policy of documented stages is known by which it contains, and after any run of records the applied set is exactly what was recorded with the request untouched (nothing holds it to the request). The star functions know only two policies: anything but the empty one is answered as the apparent one.", "quantifier": "For all policies, all runs of records, all directions, skies and instants.", "why_tests_cant": "256 policies and unbounded record runs; a test checks that each stage is in APPARENT and one accumulation.", "anchors": ["src/astro/apparent.rs", "src/event/horizontal.rs:245-295", "src/event/stellar/altitude_periods.rs:87-140"]}
{"id": "C180", "title": "Altitude and azimuth providers treat a star as its direction", "statement": "Asking any body for its altitude or azimuth without a policy is asking for the apparent place, which for a star or a direction is where its catalogue direction turned by the matrix of the date stands over the horizon; the Sun, the Moon and the planets answer all policies alike; a star's altitude and its periods inside an arc are its direction's under every policy; crossings and outside-arc queries search the same azimuth. A star's azimuth under an explicit policy is NOT its direction's: it ignores the policy, so the geometric periods of a star are not those of the azimuth it reports.", "quantifier": "For all skies, sites, bodies, policies, instants, windows and arcs.", "why_tests_cant": "Two traits with defaults, five kinds of implementor and overridden methods: tests compare a star with its direction only without a policy.", "anchors": ["src/event/altitude/provider.rs:25-330", "src/event/azimuth/provider.rs:69-390", "src/event/azimuth/events.rs:66-137", "src/event/azimuth/events.rs:182-212"]}
{"id": "C181", "title": "An XML ephemeris message reads as what it says, and written ones read back", "statement": "Reading an XML orbit ephemeris message yields, for every segment in order, each metadata name and each state-vector entry by the last text standing under that tag, whatever namespace prefix the tags carry and wherever comments stand; a missing name, a missing or unreadable vector entry, a broken document or a document without segments is an error and never a panic. Escaping of names is reversible and leaves no markup character, and a document written by write_oem_xml reads back with the same names and with dates and numbers to the digits written.", "quantifier": "for all prefixes, attribute lists, header, metadata and vector elements, for all metadata and lists of states with dates in the calendar, and for all ways the XML crate cuts text into runs", "why_tests_cant": "The existing test writes and reads one plain message; names with markup characters, repeated or prefixed tags, blank names, texts delivered in pieces and non-finite values are unbounded combinations.", "anchors": ["src/formats/ccsds/oem.rs:450 write_oem_xml", "src/formats/ccsds/oem.rs:530 xml_escape", "src/formats/ccsds/oem.rs:568 read_oem_xml"]}
{"id": "C182", "title": "RINEX observation files come back with every satellite, type and value", "statement": "For every observation file whose marker is ASCII text of at most 60 bytes, whose observation codes have one to three characters, whose satellites have three-character names and whose values fit their fourteen columns, write_rinex_obs followed by read_rinex_obs gives the same marker, the same lists of observation types (of any length, thirteen to a header line), the same epochs to the nearest 100 ns and the same satellites, each with exactly the declared observations it had, to half a unit of the last printed place. A value is read from its own sixteen columns and from no others; missing observations stay missing. Reading never panics on ASCII text. Outside those conditions the writer accepts files it cannot read back: an epoch within 50 ns of the next minute, a satellite name of two characters, a value of more than fourteen columns, thirteen codes of four characters.", "quantifier": "all observation files, all lengths of the lists of types, all numbers of epochs and satellites, all texts", "why_tests_cant": "The repository writes and reads one small file; column positions depend on the number of types, the width of each value and the continuation of header lines, which no finite set of files covers.", "anchors": ["src/formats/rinex/obs.rs"]}
{"id": "C183", "title": "A star moves on a straight line given by its catalogue entry", "statement": "When propagate_space_motion succeeds, the returned place is exactly the point reached from the catalogue direction at distance one over the parallax by moving for the elapsed Julian years with a constant velocity whose outward, eastward and northward components are the radial velocity and the two proper motions times that distance; its distance follows the closed form, right ascension lies in [0,360) and declination in [-90,90], and at the epoch itself the catalogue place is returned. It is refused exactly at a pole, for a parallax that is not positive, or when the line passes through the origin at that date. Star::position_at uses that motion when proper motion, parallax and radial velocity are all known, otherwise the linear change of both angles, otherwise the catalogue place; and both conventions for the motion in right ascension give the same place.", "quantifier": "for all catalogue places, motions, parallaxes, radial velocities, epochs and dates, over the reals", "why_tests_cant": "tests check a few stars over a few decades to a tolerance; that the path is straight for every motion and date, that every component reaches the right axis and that the set of refused inputs is exactly the stated one are statements over all inputs", "anchors": ["src/astro/proper_motion.rs:128", "src/astro/proper_motion.rs:189", "src/astro/proper_motion.rs:290", "src/bodies/stars.rs:164"]}
{"id": "C184", "title": "Brackets found from maxima hold a crossing each", "statement": "Every interval returned by extrema_based_brackets lies in the window, has positive length and holds a crossing of the threshold: it either ends at or before a maximum found above the threshold and rises through it, or begins at or after one and falls through it. Each search walks away from its maximum in steps of a tenth of its range and takes the first change of sign among the samples; it reports nothing only if the end of the window is at or above the threshold. So a window that begins or ends below the threshold has a bracket on that side of every such maximum. The list is sorted by start, and the search always ends.", "quantifier": "for all windows, steps, thresholds and functions of time, and every maximum found, over exact rationals", "why_tests_cant": "tests use one sine wave and count brackets; that each returned interval of every function brackets a crossing of the stated direction, and that a side is left out only when the window's end is above the threshold, are statements over all functions", "anchors": ["src/event/search/bracketing.rs:183", "src/event/search/bracketing.rs:229", "src/event/search/bracketing.rs:285"]}
{"id": "C185", "title": "Culminations are the extrema of the apparent altitude", "statement": "Every event returned by culminations lies in the window and carries the target's apparent altitude at that very time in degrees; events are in order of time and the numbers of upper and lower ones differ by at most one. A target with a single transit (or a single low point) at least one scan step from the ends of the window yields exactly one event, of that kind and within half the time tolerance of it; a target that only climbs or never climbs in the window yields none; and the search always ends. The scan step is the target's hint, or twenty minutes.", "quantifier": "for all targets given by their altitude as a function of policy and time, all windows, tolerances and hints, over exact rationals", "why_tests_cant": "tests compare a few transits of a few bodies; that no event is reported for a monotone altitude, that kinds balance and that the reported altitude is always the one at the reported time quantify over all altitude functions and windows", "anchors": ["src/event/altitude/events.rs:197", "src/event/altitude/events.rs:214"]}
{"id": "C186", "title": "The fused scan reports one correctly labelled crossing per change of sign", "statement": "find_and_label_crossings returns, for each step of the scan whose two samples lie on different sides of the threshold (a sample on it counts as above), one root refined inside that step and labelled +1 if the step begins below and -1 otherwise; before close roots are merged the list is in order of time and its labels alternate, starting from the side of the first sample; roots closer than 1e-8 days are merged and no other is lost. Whenever no instant of the window is exactly on the threshold it returns the same crossings and the same initial state as find_directed_crossings. It always ends for a positive step.", "quantifier": "for all windows, positive steps, thresholds and functions of time, over exact rationals", "why_tests_cant": "tests run one sine wave; equality with the other search for every signal off the threshold, alternation of the labels and the loss of no root quantify over all signals and step counts", "anchors": ["src/event/lunar/moon_cache.rs:514", "src/event/search/intervals.rs:129"]}
{"id": "C187", "title": "A prepared orbit handle answers for the elements it was made from", "statement": "After any sequence of prepared-orbit create, position and destroy calls the live boxes are exactly the handles the caller was given and has not given back, each once, none of them null; a new handle is never one in use; a further call is defined exactly when it passes null or a handle still live; as long as its own handle is not destroyed, siderust_prepared_orbit_position gives the position of the elements that handle was created from, labelled ecliptic of J2000, heliocentric and in astronomical units, whatever was done with other handles; a call that does not return Ok writes nothing and frees or allocates nothing, with NullPointer for null arguments and InvalidArgument for elements or dates that do not validate.", "quantifier": "for all call sequences of any length, elements, dates, and every allocator that returns non-null addresses not in use", "why_tests_cant": "tests create one orbit, ask it and free it; independence from every interleaving of other handles quantifies over all call sequences and allocators", "anchors": ["siderust-ffi/src/coordinates.rs:1049", "siderust-ffi/src/coordinates.rs:1169", "siderust-ffi/src/coordinates.rs:1201", "siderust-ffi/src/coordinates.rs:1221"]}
