{
 "claims": [
  {
   "property": "C01",
   "status": "partial",
   "theorems": [
    "C01_packet_containment_partial",
    "C01_packet_containment_without_three_opcodes",
    "C01_lent_blocks",
    "C01_refuted_padding",
    "C01_refuted_optional_enum",
    "C01_refuted_computed_field"
   ],
   "note": "Proved for every run in which no ALIGN_PAD skips past the end while decoding, no ENUM_CHECK lacks bytes before it and no EMIT is mid-byte; the unrestricted property is refuted by three witnesses. That what is lent to the host lies in the packet holds for every program."
  },
  {
   "property": "C02",
   "status": "proved",
   "theorems": [
    "C02_stacks_bounded",
    "C02_no_access_outside_stacks",
    "C02_underflow_is_reported",
    "C02_overflow_is_reported"
   ],
   "note": "Unrestricted."
  },
  {
   "property": "C03",
   "status": "partial",
   "theorems": [
    "C03_decode_keeps_packet_partial",
    "C03_refuted_const_write"
   ],
   "note": "Decoding leaves the packet unchanged for every program without CONST_WRITE and every host that only reads; refuted for CONST_WRITE."
  },
  {
   "property": "C04",
   "status": "partial",
   "theorems": [
    "C04_nothing_beyond_end",
    "C04_completed_bytes_are_final",
    "C04_emitted_bits_are_final_partial",
    "C04_refuted_mid_byte_switch",
    "C04_refuted_computed_field"
   ],
   "note": "Bytes beyond the reported end are untouched and completed bytes are final; emitted bits are final unless the byte order changes mid-byte or a computed field starts mid-byte (both refuted)."
  },
  {
   "property": "C05",
   "status": "partial",
   "theorems": [
    "C05_termination_partial",
    "C05_refuted_empty_element"
   ],
   "note": "Runs end for programs whose jumps only lead forward and whose read-to-end loops consume input in every lap; refuted for an empty element in a read-to-end array, which never ends."
  },
  {
   "property": "C06",
   "status": "partial",
   "theorems": [
    "C06_bytecode_containment_partial",
    "C06_refuted_dense_switch"
   ],
   "note": "Unrestricted except for SWITCH_TABLE whose table claims 2^61 or more entries, which is refuted."
  },
  {
   "property": "C07",
   "status": "proved",
   "theorems": [
    "C07_refusal_ends_run"
   ],
   "note": ""
  },
  {
   "property": "C08",
   "status": "partial",
   "theorems": [
    "C08_position_never_decreases",
    "C08_position_inside_partial",
    "C08_refuted_padding",
    "C08_refuted_computed_field"
   ],
   "note": "Monotone for all programs; inside the buffer under the C01 side conditions, refuted without them."
  },
  {
   "property": "C09",
   "status": "proved",
   "theorems": [
    "C09_store_layout",
    "C09_load_value",
    "C09_round_trip",
    "C09_signed_round_trip",
    "C09_field_encode",
    "C09_field_decode",
    "C09_field_too_short",
    "C09_field_round_trip",
    "C09_byte_order"
   ],
   "note": "Layout, load value and round trip of the store/load helpers for all widths and byte orders, and of the integer field instruction (any position, any host)."
  },
  {
   "property": "C10",
   "status": "proved",
   "theorems": [
    "C10_bits_round_trip",
    "C10_field_round_trip",
    "C10_field_encode",
    "C10_padding"
   ],
   "note": "Round trip of write_bits/read_bits for widths 0..64 at any bit position when the field fits the buffer, neighbours untouched, and the same for the bit-field instruction. Fields that do not fit are cut silently by the program; that is outside the claim."
  },
  {
   "property": "C11",
   "status": "proved",
   "theorems": [
    "C11_fast_write",
    "C11_fast_read"
   ],
   "note": "Wherever the fast path applies it gives the same buffer, position and value as the bit loop."
  },
  {
   "property": "C12",
   "status": "partial",
   "theorems": [
    "C12_decoding_reports_what_was_encoded_partial",
    "C12_decoding_the_encoded_bytes_partial",
    "C12_replayed_partial",
    "C12_refuted_cut_off_bits",
    "C12_refuted_skipped_string"
   ],
   "note": "For every program, host and buffer: a successful encode followed by decode of the result (or of just the bytes produced) succeeds, ends at the same position and tells the same values at the same calls. Excluded: mid-byte EMIT or byte-order change, bit fields cut off at the end of the buffer (refuted), computed values too big for their field, transforms whose value cannot be converted back, strings the host declined (refuted for optional strings)."
  },
  {
   "property": "C13",
   "status": "partial",
   "theorems": [
    "C13_unread_bytes_do_not_matter_partial",
    "C13_prefix_suffices_partial",
    "C13_refuted_for_failing_decodes"
   ],
   "note": "Proved for decodes that succeed (same length, and truncation to the consumed bytes when nothing reads to the end). For decodes that fail the end position excludes the field that was refused, so the property as worded is false of them: C13_refuted_for_failing_decodes."
  },
  {
   "property": "C14",
   "status": "proved",
   "theorems": [
    "C14_null_terminated",
    "C14_length_prefixed"
   ],
   "note": "NUL-terminated and length-prefixed strings: stored bytes and report of any packet holding them."
  },
  {
   "property": "C15",
   "status": "proved",
   "theorems": [
    "C15_signed_bitfield",
    "C15_in_range_unchanged"
   ],
   "note": "The decoded value is the low n bits sign-extended, which is the value itself when in range."
  },
  {
   "property": "C16",
   "status": "proved",
   "theorems": [
    "C16_round_trip",
    "C16_encode",
    "C16_overflow",
    "C16_decode",
    "C16_setup"
   ],
   "note": "Exact round trip when stored number and engineering value are in range; also exactly when the C arithmetic overflows (undefined behaviour)."
  },
  {
   "property": "C17",
   "status": "proved",
   "theorems": [
    "C17_field_then_range",
    "C17_range_check",
    "C17_range_check_float"
   ],
   "note": "Field followed by check in both modes, the check alone on any state, and the float checks."
  },
  {
   "property": "C18",
   "status": "proved",
   "theorems": [
    "C18_field_then_enum"
   ],
   "note": "Field followed by check, both modes, any member list."
  },
  {
   "property": "C19",
   "status": "proved",
   "theorems": [
    "C19_encode",
    "C19_decode",
    "C19_const_write"
   ],
   "note": "CONST_CHECK in both modes and CONST_WRITE."
  },
  {
   "property": "C20",
   "status": "proved",
   "theorems": [
    "C20_encode",
    "C20_decode"
   ],
   "note": "Both directions, whole behaviour of the instruction."
  },
  {
   "property": "C21",
   "status": "proved",
   "theorems": [
    "C21_burst",
    "C21_single_bit",
    "C21_corrupted_packet_refused"
   ],
   "note": "All burst and single-bit errors, both widths, every odd polynomial, all other parameters; at the instruction: corrupted packets are refused with CND_ERR_CRC_MISMATCH."
  },
  {
   "property": "C22",
   "status": "proved",
   "theorems": [
    "C22_bit_serial",
    "C22_table_equals_bitwise",
    "C22_custom_init"
   ],
   "note": "Interpreter's CRC equals the bit-serial definition; table path agrees with the bitwise path iff init is its own bit reversal (always for the standard init)."
  },
  {
   "property": "C23",
   "status": "proved",
   "theorems": [
    "C23_encode",
    "C23_decode",
    "C23_sealed_packet_verifies"
   ],
   "note": "Instruction level, all parameters and byte orders."
  },
  {
   "property": "C24",
   "status": "partial",
   "theorems": [
    "C24_body_runs_count_times_partial",
    "C24_not_fewer_partial",
    "C24_zero_skips_body_partial",
    "C24_refuted_key_byte",
    "C24_refuted_largest_count"
   ],
   "note": "Exactly count executions for counts 1..2^32-2; count 0 skips the body when loop opcodes nest bytewise in it. Refuted: operand bytes that look like ARR_END mislead the skip; count 2^32-1 is treated as read-to-end."
  },
  {
   "property": "C25",
   "status": "proved",
   "theorems": [
    "C25_encode",
    "C25_decode"
   ],
   "note": "Bulk and element-wise transfers reach the same state (the pending-optional flag, if set, is cleared only element-wise)."
  },
  {
   "property": "C26",
   "status": "partial",
   "theorems": [
    "C26_reads_to_end",
    "C26_not_fewer",
    "C26_empty_partial",
    "C26_refuted_frame_left"
   ],
   "note": "m>0 elements of k>0 bytes: exactly m executions, position at end, loop stack restored. Refuted: with no bytes left the loop frame stays on the stack."
  },
  {
   "property": "C27",
   "status": "partial",
   "theorems": [
    "C27_missing_is_zero_partial",
    "C27_refuted_range",
    "C27_refuted_transform"
   ],
   "note": "Proved for the field instruction. That attached validation is skipped too is false: witnesses for @range (previous field's byte is checked) and for a transform leaking to the next field."
  },
  {
   "property": "C28",
   "status": "proved",
   "theorems": [
    "C28_list_switch",
    "C28_dense_switch"
   ],
   "note": "List and dense form each equal the first-match specification for all tables inside the bytecode."
  },
  {
   "property": "C29",
   "status": "proved",
   "theorems": [
    "C29_expressions"
   ],
   "note": "All integer expressions within the 8-slot stack, by induction on the expression; C-undefined shifts and negation identified."
  },
  {
   "property": "C30",
   "status": "proved",
   "theorems": [
    "C30_total",
    "C30_accepts_good_programs",
    "C30_reports_first_fault"
   ],
   "note": "For bytecode shorter than 2^32-32 bytes: the verifier always returns, accepts exactly the programs whose instructions, jump targets and tables are inside, and otherwise reports the first fault; it never reads outside the bytecode."
  },
  {
   "property": "C31",
   "status": "partial",
   "theorems": [
    "C31_checked_jumps_partial",
    "C31_plain_programs_partial",
    "C31_refuted_unopened_loop",
    "C31_refuted_sizes_differ",
    "C31_refuted_table_before_switch",
    "C31_refuted_read_outside",
    "C31_refuted_endless"
   ],
   "note": "Every jump taken from a verified program stays inside (partial), and verified programs that agree with the VM on instruction sizes, keep tables after their switch and lead every loop to its end run on instruction boundaries, never reach an unknown state and never read outside the bytecode. The unrestricted claim is refuted by five accepted programs."
  },
  {
   "property": "C32",
   "status": "partial",
   "theorems": [
    "C32_small_packets_partial",
    "C32_refuted_eight_fields",
    "C32_refuted_fields",
    "C32_refuted_control"
   ],
   "note": "Accepted for packets of at most five plain fields. Refuted: eight plain fields, ranges, constants, enumerations, checksums, a conditional at the end, a switch."
  },
  {
   "property": "C33",
   "status": "proved",
   "theorems": [
    "C33_written_image_loads",
    "C33_written_image_loads_cli"
   ],
   "note": "Strings without NUL, at most 65535 of them, string table ending below 2^32; both loaders (library and command line tool)."
  },
  {
   "property": "C34",
   "status": "proved",
   "theorems": [
    "C34_names_and_identifiers",
    "C34_first_occurrence"
   ],
   "note": "For every image written by the compiler; with repeated names the first occurrence counts."
  },
  {
   "property": "C35",
   "status": "partial",
   "theorems": [
    "C35_loader_accepts_exactly",
    "C35_lookups_inside_partial",
    "C35_written_images_inside",
    "C35_refuted_unterminated",
    "C35_refuted_cli"
   ],
   "note": "Acceptance condition exact for every image. Lookups stay inside for every compiler-written image and for every image with enough NUL bytes after the string table start; refuted for a 16-byte image announcing strings it does not hold."
  },
  {
   "property": "C36",
   "status": "partial",
   "theorems": [
    "C36_u32",
    "C36_i64_partial",
    "C36_fits",
    "C36_refuted_min",
    "C36_refuted_u32_sign"
   ],
   "note": "Literals of any length. Refuted: -9223372036854775808 overflows in the 64-bit parser; the 32-bit parser ignores a leading minus."
  },
  {
   "property": "C37",
   "status": "proved",
   "theorems": [
    "C37_interning",
    "C37_stable"
   ],
   "note": "All sequences of NUL-free names with at most 65536 different ones."
  },
  {
   "property": "C38",
   "status": "partial",
   "theorems": [
    "C38_tokens",
    "C38_lines_partial",
    "C38_refuted_lines"
   ],
   "note": "Termination, tiling of the text by maximal lexemes, white space and comments, positions: all texts. Lines: all texts whose string literals stay on one line; refuted otherwise (newlines inside strings are not counted)."
  },
  {
   "property": "C39",
   "status": "partial",
   "theorems": [
    "C39_postfix_partial",
    "C39_integers",
    "C39_sequences",
    "C39_refuted_unary",
    "C39_refuted_double",
    "C39_refuted_parentheses",
    "C39_refuted_skipped",
    "C39_refuted_hexadecimal",
    "C39_refuted_minus",
    "C39_refuted_comment"
   ],
   "note": "For every expression of binary operators (any nesting of levels), integer and fractional literals, true/false/self, plain and dotted names and calls, the parser emits the postfix code of the level-directed parse, with no error; every operand/operator sequence has one. Refuted: unary operators, parentheses, hexadecimal literals with digit e, a-1 without space, doc comments inside expressions."
  },
  {
   "property": "C40",
   "status": "proved",
   "theorems": [
    "C40_layout",
    "C40_branches",
    "C40_then",
    "C40_else",
    "C40_sequences",
    "C40_conditions"
   ],
   "note": "Layout for every if parsed (any condition, blocks, else-if chains); execution for all conditions and branches that run from start to end, closed under sequence and nesting. Bytecode shorter than 2^31 (jump distances are 32-bit)."
  },
  {
   "property": "C41",
   "status": "partial",
   "theorems": [
    "C41_layout_partial",
    "C41_dispatch"
   ],
   "note": "Dispatch proved for list and dense form, all values, any default. Layout for every accepted switch with fewer than 65536 cases (the count field is 16 bits wide) and bytecode shorter than 2^31."
  },
  {
   "property": "C42",
   "status": "partial",
   "theorems": [
    "C42_renaming_partial",
    "C42_nothing_lost",
    "C42_refuted_emit",
    "C42_refuted_push",
    "C42_refuted_poly",
    "C42_refuted_switch"
   ],
   "note": "Proved for programs made of instructions the optimiser reads as written (C42_partial names); C42_nothing_lost: for every code, whenever no name was removed the code is unchanged. Refuted for the field after a computed (@expr) one, pushed constants such as 19, polynomial coefficients and switch tables."
  },
  {
   "property": "C43",
   "status": "partial",
   "theorems": [
    "C43_refuted_switch",
    "C43_prefix_partial",
    "C43_refuted_range",
    "C43_refuted_count",
    "C43_refuted_long"
   ],
   "note": "Proved for structures made of fixed-length instructions with at most one name. Refuted: after a range, constant, enum or checksum the rest is copied unprefixed; the count of a dynamic array keeps the bare name; qualified names of 512 characters or more are undefined behaviour; the table of a switch is changed as if it were instructions."
  },
  {
   "property": "C44",
   "status": "partial",
   "theorems": [
    "C44_tokens_partial",
    "C44_ends",
    "C44_refuted_open_string",
    "C44_refuted_block_comment"
   ],
   "note": "Same token kinds and texts before and after formatting for every text whose strings are closed, whose line comments hold a carriage return only at their end and whose block comments hold neither quotes nor double slashes; refuted for open strings and for quotes in block comments. Termination on every text."
  },
  {
   "property": "C45",
   "status": "partial",
   "theorems": [
    "C45_second_pass_partial",
    "C45_refuted",
    "C45_refuted_open_string"
   ],
   "note": "Refuted for a single pass (a break after ; becomes an empty line on the second pass). Proved: the second pass is a fixed point for every text with closed strings."
  },
  {
   "property": "C46",
   "status": "partial",
   "theorems": [
    "C46_own_order_partial",
    "C46_big_endian_partial",
    "C46_refuted_own_order",
    "C46_refuted_file_order",
    "C46_refuted_following",
    "C46_refuted_top"
   ],
   "note": "Packets of plain fields: each field in its own order where the file does not set big endian; all big endian where the file sets it and no field repeats it. The documented scoping is refuted four ways (@le in a big-endian file, fields after @be in a big-endian file, following fields, top-level @be)."
  },
  {
   "property": "C47",
   "status": "proved",
   "theorems": [
    "C47_setup",
    "C47_decode",
    "C47_encode",
    "C47_overflow",
    "C47_integers_decode",
    "C47_integers_encode",
    "C47_identity_decode",
    "C47_identity_encode",
    "C47_exact_round_trip",
    "C47_rounding_loses"
   ],
   "note": "In terms of real numbers (Flocq rounding to nearest even): decode reports RN(RN(RN raw * factor) + offset), encode stores the truncation of RN(RN(value - offset) / factor), undefined when that does not fit the field. Identity for factor 1/offset 0 on every integer a double holds; exact for integer factors within 2^53; exact round trip when nothing rounds; C47_rounding_loses is a witness that with rounding decode-then-encode may change the stored value (0.1, 43 -> 42). Integer fields only. Rests on the standard Reals axioms."
  },
  {
   "property": "C48",
   "status": "partial",
   "theorems": [
    "C48_encode",
    "C48_verifies_partial",
    "C48_refuted_negative"
   ],
   "note": "Encode and decode of integer computed fields at byte boundaries; mismatch reported exactly when the unsigned value does not fit. Refuted for negative values of signed types."
  },
  {
   "property": "C49",
   "status": "partial",
   "theorems": [
    "C49_compiles",
    "C49_source_to_wire_partial",
    "C49_refuted_empty_array"
   ],
   "note": "Compilation, loading, encoding and decoding for every packet of plain fields: integers, floats, booleans, fixed and counted arrays (element by element or at once), strings, byte-order decorators; any host, any values. Arrays of 2^32-1 elements are excluded (C24), and empty arrays need at most 52 names: beyond that refuted (an empty array makes the encoder drop the rest of the packet)."
  },
  {
   "property": "C50",
   "status": "proved",
   "theorems": [
    "C50_compilation_ends"
   ],
   "note": "Every set of finitely many readable files, any import graph; the answer may be an image, a refusal or one of the undefined behaviours of the compiler. C recursion depth (stack exhaustion) is not modelled."
  },
  {
   "property": "C51",
   "status": "partial",
   "theorems": [
    "C51_round_trip_partial",
    "C51_document_describes",
    "C51_refuted_u32",
    "C51_refuted_empty_array",
    "C51_refuted_byte_array",
    "C51_refuted_long_string",
    "C51_refuted_case",
    "C51_refuted_u64",
    "C51_refuted_too_large"
   ],
   "note": "Packets of plain fields, messages of at most 1024 bytes, 32-bit unsigned numbers below 2^31, 64-bit numbers up to 2^53, finite floats, arrays that are neither empty nor of u8/i8, no big-endian strings with 32-bit length. Refuted for the excluded values: saturation, misplaced fields after empty and byte arrays, undefined behaviour for big-endian 32-bit lengths, names that differ in case only. Parsing and printing of JSON text (cJSON) is not modelled. Also refuted: 64-bit numbers above 2^53 (altered, or a conversion that is undefined) and numbers too large for their field (cut off, not refused)."
  },
  {
   "property": "C52",
   "status": "partial",
   "theorems": [
    "C52_compiled_meaning_partial",
    "C52_refuted_range",
    "C52_refuted_enum",
    "C52_refuted_bool"
   ],
   "note": "Sources of enumerations and one packet: scalar and enumeration fields with @be/@le, @const/@match, @range, nested if/else/else if; conditions are integer expressions with literals below 256 other than 19, 23 and 25 (C42), of at most 8 values at once. No strings, arrays, structs, transforms in this theorem (plain arrays and strings: C49; switches and computed fields: C54). Values outside the field's type are excluded and refuted: truncated ranges and enumerations, ranges on bool."
  },
  {
   "property": "C53",
   "status": "proved",
   "theorems": [
    "C53_sent_received"
   ],
   "note": "For the sources of C52. Code of at least 2^31 bytes excluded (jump offsets)."
  },
  {
   "property": "C54",
   "status": "partial",
   "theorems": [
    "C54_computed_and_switches_partial",
    "C54_refuted_collision",
    "C54_refuted_case",
    "C54_refuted_fraction"
   ],
   "note": "The sources of C52 with any integer literals, computed fields (@expr) and switches, provided that the loaded program has all names of the source. Without that condition refuted (the name removal of C42): the field behind a computed field shares its number with the next one, and case values change. Outside (fractions in expressions) refuted: a condition that compares a field with a fraction never holds."
  },
  {
   "property": "C55",
   "status": "proved",
   "theorems": [
    "C55_sent_received"
   ],
   "note": "For the sources of C54, under its condition on names; computed fields, switches and conditions refer to fields in front of them."
  },
  {
   "property": "C56",
   "status": "proved",
   "theorems": [
    "C56_accepted_schema",
    "C56_distinct_names"
   ],
   "note": "Acceptance implies the grammar of SpecGrammar.v, for every text. Not in the grammar: bit counts of bit-packed structures being multiples of 8, the order of floating point limits. The word the compiler skips in expressions (C39_refuted_paren) may be anything."
  },
  {
   "property": "C57",
   "status": "partial",
   "theorems": [
    "C57_compiles",
    "C57_source_to_wire_partial",
    "C57_refuted_long_names",
    "C57_refuted_nine_deep",
    "C57_refuted_skipped"
   ],
   "note": "Compilation, loading, encoding and decoding for every schema of structures and one packet with plain, structure and structure-array fields. Limits needed and refuted without: names of at most 255 characters, arrays at most 8 deep, empty arrays only with at most 52 names and no loop-like bytes in the skipped code. Structures with computed or conditional members, bit fields and transforms are not in this language."
  },
  {
   "property": "C58",
   "status": "partial",
   "theorems": [
    "C58_round_trip_partial",
    "C58_back_partial",
    "C58_refuted_32_deep",
    "C58_refuted_empty_array",
    "C58_refuted_empty_inside"
   ],
   "note": "Schemas of structures, plain fields and arrays of structures; names up to 255 characters, arrays 8 deep, structures 31 deep, messages of at most 1024 bytes when encoding, values as in C51 and no empty arrays. Refuted outside: 32 nested structures overflow the stack of objects (undefined behaviour), empty arrays misplace what follows. Parsing and printing of JSON text (cJSON) is not modelled."
  },
  {
   "property": "C59",
   "status": "partial",
   "theorems": [
    "C59_compiles",
    "C59_source_to_wire_partial",
    "C59_refuted_part_of_byte",
    "C59_refuted_reflection"
   ],
   "note": "Compilation, loading, encoding, decoding and refusal for every file of structures and one packet with members as in C57, runs of bit fields, numbers with conversions or @optional, and checksums. Converted numbers are integers on the wire; a missing number has no conversion (refuted in C68). Runs fill whole bytes (refuted without: bits of no field keep the old contents of the buffer); bit fields and checksums are fields of the packet, not of structures; integer bit fields only (bool bit fields are not in this language). Limits of C57 on names and nesting."
  },
  {
   "property": "C60",
   "status": "partial",
   "theorems": [
    "C60_reads_partial",
    "C60_unique",
    "C60_exclusive",
    "C60_refuted_text",
    "C60_refuted_wide_counter"
   ],
   "note": "Every byte string, for every schema of C57 whose arrays have fixed lengths or counters of one or two bytes and whose strings have a length in front. Refuted for NUL-terminated strings and four-byte counters. The host accepts everything and changes nothing. Arrays that can be empty need at most 52 names (refuted in C57 without). Structures and limits as in C57."
  },
  {
   "property": "C61",
   "status": "partial",
   "theorems": [
    "C61_layout",
    "C61_formatting_partial",
    "C61_refuted_block_comment"
   ],
   "note": "Layout independence is proved in full. For the formatter: files that are tidy in the sense of C44; refuted for a file with a quote inside a block comment."
  },
  {
   "property": "C62",
   "status": "partial",
   "theorems": [
    "C62_one_file",
    "C62_success_partial",
    "C62_journey_partial",
    "C62_back_partial",
    "C62_fmt_in_place_partial",
    "C62_refuted_unwritten"
   ],
   "note": "Exit codes and frame condition proved for every argument list of the modelled commands (lsp is not). Success: where the output can be opened; refuted otherwise (encode and decode exit 0 though nothing was written). Sessions: schemas of C57/C58 within their limits; cJSON printing then parsing is a hypothesis of the last step. Formatting in place: tidy texts."
  },
  {
   "property": "C63",
   "status": "partial",
   "theorems": [
    "C63_listing_partial",
    "C63_lossless_partial",
    "C63_names",
    "C63_compiled_partial",
    "C63_any_file",
    "C63_command",
    "C63_refuted_bit_bool",
    "C63_refuted_eof",
    "C63_refuted_range",
    "C63_refuted_switch",
    "C63_refuted_table"
   ],
   "note": "Proved for all programs of well-formed instructions the inspector reads as written (inspector_reads), that the listing is exact and lossless (but for float range bounds, which are not shown); for all compiled packets of C59; and for arbitrary files: refusal, termination, exact condition of reading past the buffer. Refuted with compiled schemas: bit booleans, eof arrays, switch tables, ranges when printf arguments are evaluated right to left; and a loadable file whose name table ends outside it. The printed text is modelled as labelled numbers."
  },
  {
   "property": "C64",
   "status": "partial",
   "theorems": [
    "C64_same_partial",
    "C64_collected",
    "C64_digits",
    "C64_refuted_byte_array",
    "C64_refuted_words"
   ],
   "note": "Every image and input: same result as without --hex when the bytecode has nothing that is or passes for an array of bytes (a decidable condition). The callback turns a recognised array into the digits of its bytes, which stand for exactly these. Refuted with compiled schemas: a byte array loses its bytes and the fields behind it; an array of 16-bit numbers is taken for bytes and lost."
  },
  {
   "property": "C65",
   "status": "partial",
   "theorems": [
    "C65_told",
    "C65_strings_partial",
    "C65_refuted_terminator"
   ],
   "note": "Every program, direction, packet and callback: the type told is that of the payload, and strings are whole. Refuted: a NUL-terminated string of the greatest length allowed need not be followed by a NUL; the byte behind it is skipped."
  },
  {
   "property": "C66",
   "status": "partial",
   "theorems": [
    "C66_execute_partial",
    "C66_load",
    "C66_load_bytecode",
    "C66_closed",
    "C66_refuted_longest_string",
    "C66_refuted_empty_packet",
    "C66_refuted_cut_image",
    "C66_refuted_nul_in_string",
    "C66_refuted_large_packet"
   ],
   "note": "Every callback, program and direction, packets of 1 to 2^31-1 bytes, when no decoded NUL-terminated string has the greatest length allowed; loading and names for every written image. Refuted: that string length (String reads too far), empty packets (always an error), an image cut in its header (taken for bytecode), NULs inside strings (cut), packets of 2^31 bytes or more (panic)."
  },
  {
   "property": "C67",
   "status": "partial",
   "theorems": [
    "C67_session_partial",
    "C67_framing",
    "C67_framing_sent",
    "C67_ends",
    "C67_uri",
    "C67_uri_back_partial",
    "C67_edit_partial",
    "C67_refuted_format",
    "C67_refuted_close",
    "C67_refuted_unknown",
    "C67_refuted_bad_json",
    "C67_refuted_length",
    "C67_refuted_hover",
    "C67_refuted_params",
    "C67_refuted_uri_back",
    "C67_refuted_edit"
   ],
   "note": "Every conversation in every framing, with files changing in between, when texts are saved before formatting or listing symbols, opened texts are not closed, requests are known and hovers take less than 4096 bytes; the analysis behind the answers is a parameter. Framing, URIs and the end of the server for all inputs; URIs of definitions for plain absolute paths; edits for texts of at most 999999 lines. Refuted: each of the excluded cases, unparsable messages (the server ends), Content-Length: -1 (write outside memory), missing parameters (null pointer)."
  },
  {
   "property": "C68",
   "status": "partial",
   "theorems": [
    "C68_evolution_partial",
    "C68_refuted_conversion",
    "C68_refuted_cut"
   ],
   "note": "Numbers added at the end of the packet of C59, without conversion; optional strings, arrays and structures are not in the language. Refuted for converted numbers and for messages cut inside a number."
  },
  {
   "property": "C69",
   "status": "partial",
   "theorems": [
    "C69_round_trip_partial",
    "C69_refuted_product",
    "C69_refuted_range"
   ],
   "note": "Packets of numbers only; @scale, @offset excluded (floating point; what is stored and reported is in C59). Refuted for remainders of @mul and for numbers outside the type."
  },
  {
   "property": "C70",
   "status": "proved",
   "theorems": [
    "C70_every_image_loads",
    "C70_small_images_load"
   ],
   "note": ""
  },
  {
   "property": "C71",
   "status": "partial",
   "theorems": [
    "C71_editor_and_compiler_agree",
    "C71_analysis_ends",
    "C71_refuted_cycle",
    "C71_unsaved"
   ],
   "note": "Refuted for files that import each other (C71_refuted_cycle); proved whenever the file is not reached by its own imports. Messages are not modelled."
  },
  {
   "property": "C72",
   "status": "partial",
   "theorems": [
    "C72_diagnostics_partial",
    "C72_document",
    "C72_refuted_imports"
   ],
   "note": "Refuted for errors of imported files (C72_refuted_imports), which are published for the document. Proved in full for documents without imports (C72_document). Texts with multi-line string literals or lone carriage returns excluded (see C38_refuted_lines)."
  },
  {
   "property": "C73",
   "status": "partial",
   "theorems": [
    "C73_all_symbols",
    "C73_definition_partial",
    "C73_symbols_partial",
    "C73_refuted_symbols",
    "C73_refuted_decorator",
    "C73_refuted_errors",
    "C73_every_use"
   ],
   "note": "Answers lead to definitions; in a document without errors a definition is found from every use (C73_every_use) and all structures and enumerations are listed (C73_all_symbols). Texts with multi-line string literals or lone carriage returns excluded. Refuted: decorators at their first character, symbols of imported files, more than 1024 errors."
  },
  {
   "property": "C74",
   "status": "partial",
   "theorems": [
    "C74_compiles",
    "C74_source_to_wire_partial",
    "C74_refuted_longer_buffer",
    "C74_refuted_counting_field"
   ],
   "note": "C74_compiles in full. C74_source_to_wire_partial: empty arrays only with at most 52 names, arrays to the end only as the last field and, encoding, with a buffer of exactly the message; C74_refuted_longer_buffer and C74_refuted_counting_field show what the code does otherwise."
  },
  {
   "property": "C75",
   "status": "partial",
   "theorems": [
    "C75_no_overflow",
    "C75_no_overflow_bits",
    "C75_never_undefined_partial",
    "C75_refuted_doc_comment",
    "C75_refuted_least_number",
    "C75_refuted_greatest_value",
    "C75_refuted_bit_count",
    "C75_refuted_long_names"
   ],
   "note": "No signed overflow for every project within the stated limits (numbers of 18 digits; 4 digits and 30000 tokens with unaligned structures), valid or not. No undefined behaviour at all without doc comments and structures. Refuted in general by five schemas: doc comment in an expression, INT64_MIN literal, enum value INT64_MAX, bit count past INT_MAX, nested names of 512 characters."
  },
  {
   "property": "C76",
   "status": "partial",
   "theorems": [
    "C76_proposals_partial",
    "C76_broken_document",
    "C76_refuted_packet",
    "C76_refuted_repeated",
    "C76_refuted_missing",
    "C76_refuted_unusable",
    "C76_refuted_letter",
    "C76_fields_partial"
   ],
   "note": "Which list is proposed at every cursor position, its functions, words, decorators, structures, enumerations and members. For files with one structure of plain fields and counted arrays: the fields in front of the first counted array are proposed. Missing: which fields are known of other structures. Refuted: no fields in packets, repeated fields, members only directly behind the dot. Fields may be missing behind a computed field, and a proposed path into a structure is not accepted where it is proposed (both refuted by witnesses)."
  },
  {
   "property": "C77",
   "status": "partial",
   "theorems": [
    "C77_session_partial"
   ],
   "note": "The whole server, bytes in to bytes out, with its own analysis. Missing: texts whose analysis is undefined, with 1024 errors or more, or imported by their own imports (C71_refuted_cycle), non-canonical paths, string literals over several lines. Error messages, documentation comments and details of proposals are left open (any texts)."
  },
  {
   "property": "C78",
   "status": "partial",
   "theorems": [
    "C78_constants_partial",
    "C78_names_apart",
    "C78_refuted_names",
    "C78_refuted_first_value",
    "C78_refuted_lines",
    "C78_refuted_overrun",
    "C78_refusals"
   ],
   "note": "Headers of opcode definitions, enumerations that start with a value (one entry per line, decimal or hexadecimal literals) and other lines, within the sizes of the arrays of the generator. Refuted outside: first entry without a value, several entries on a line, computed values, block comments, names that collide, overruns."
  },
  {
   "property": "C79",
   "status": "partial",
   "theorems": [
    "C79_reads_partial",
    "C79_unique",
    "C79_exclusive",
    "C79_refuted_cut_bits",
    "C79_refuted_padding",
    "C79_refuted_pad_past_end"
   ],
   "note": "Every byte string, for every packet of C59 whose bit fields fill whole bytes, without padding, and are followed by a part that takes a byte, whose numbers are not optional and can all be shown, and whose members are those of C60. Refuted outside: bit fields cut off at the end of a packet and missing padding are not noticed, padding bits are not checked. Refuted in C60: NUL-terminated strings and four-byte counters. The host accepts everything and changes nothing."
  },
  {
   "property": "C80",
   "status": "partial",
   "theorems": [
    "C80_contained_partial",
    "C80_contained_lists_partial",
    "C80_contained_source_partial",
    "C80_refuted_optional_enum",
    "C80_refuted_padding_string",
    "C80_refuted_padding_crc",
    "C80_refuted_computed",
    "C80_refuted_number_run"
   ],
   "note": "Any bytes, any host, both directions, for the packets of C59 and C74; decoding only without padding; with arrays only if there are at most 56 names and no operand byte 0x38, because an empty array is skipped by scanning raw bytes for its end. The instructions are assumed shorter than 2^62 bytes. Refuted outside: a number in the schema run as instructions when an array is empty, optional enumerations, padding before strings and checksums, computed fields behind bit fields. For the packets of C52 and C54 (switches, conditions, computed fields, ranges, constants, enumerations) without these conditions, if every name is in the table. Missing: all of these in one packet."
  },
  {
   "property": "C81",
   "status": "partial",
   "theorems": [
    "C81_ends_partial",
    "C81_ends_lists_partial",
    "C81_ends_source_partial",
    "C81_refuted_empty_structure",
    "C81_refuted_counter"
   ],
   "note": "Any bytes, any host, both directions, for the packets of C59 and C74, with an explicit bound on the number of instructions. With arrays only under the conditions of C80, without optional numbers, and if the structures in arrays begin with a number or a string. Refuted outside: arrays of structures without fields, up to the end or with a four-byte counter. For the packets of C52 and C54 (switches, conditions, computed fields, ranges, constants, enumerations) without these conditions, within as many instructions as the code has bytes, if every name is in the table. Missing: all of these in one packet."
  }
 ]
}