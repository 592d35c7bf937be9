{"id": "C01", "title": "Packet buffer containment", "statement": "cnd_execute never reads or writes a byte outside the data buffer [0, data_len) it was given.", "quantifier": "every bytecode image, every data buffer and length, both modes, every host callback behaviour, every number of steps", "why_tests_cant": "The offending accesses need particular combinations of opcode order, cursor position and buffer length; a test fixes one of each.", "anchors": ["src/vm/vm_exec.c: cnd_execute, CHECK_RANGE, CHECK_ENUM, OP_STR_NULL, OP_ALIGN_PAD, calc_crc", "src/vm/vm_internal.h: read_bits, write_bits"]}
{"id": "C02", "title": "Fixed-size stacks never overflow", "statement": "The expression stack never holds more than 8 values and the loop stack never more than 8 frames; a program that would exceed either, or pop an empty stack, stops with an error code instead of touching memory outside the stacks.", "quantifier": "every bytecode image, data, mode, host and number of steps", "why_tests_cant": "Needs an invariant over all instruction sequences, including malformed ones.", "anchors": ["src/vm/vm_exec.c: stack_push, stack_pop, loop_push, loop_pop, OP_ARR_EOF, OP_ARR_END, OP_DUP"]}
{"id": "C03", "title": "Decoding does not modify the packet", "statement": "After a decode run (successful or not) every byte of the input buffer has its original value, provided the host callback does not write through the pointers it is lent.", "quantifier": "every bytecode image, every input buffer, every host that does not write through lent pointers", "why_tests_cant": "A test compares one packet; the claim is about every instruction in every order.", "anchors": ["src/vm/vm_exec.c: cnd_execute (decode paths), OP_CONST_WRITE"]}
{"id": "C04", "title": "Encoding writes only the reported output", "statement": "An encode run changes no byte at or beyond the end it reports (cursor, rounded up when bit_offset is non-zero), and a byte or bit once emitted is never changed again by a later instruction.", "quantifier": "every bytecode image, buffer, host and number of steps", "why_tests_cant": "Frame condition over all instruction sequences.", "anchors": ["src/vm/vm_exec.c: cnd_execute (encode paths)", "src/vm/vm_internal.h: write_bits, write_u8, write_u16, write_u32, write_u64"]}
{"id": "C05", "title": "Execution terminates", "statement": "cnd_execute returns after finitely many instructions.", "quantifier": "every bytecode image without backward jumps, every buffer and host; loops as deep and as long as counts allow", "why_tests_cant": "Non-termination cannot be observed by a test, and loop nesting and counts are unbounded.", "anchors": ["src/vm/vm_exec.c: cnd_execute, OP_ARR_END, OP_ARR_EOF, OP_JUMP, skip_loop_body"]}
{"id": "C06", "title": "Bytecode containment", "statement": "The interpreter never reads a byte outside the bytecode section, whatever the instruction operands, jump offsets and switch tables contain.", "quantifier": "every bytecode image, host and number of steps", "why_tests_cant": "Depends on arithmetic on attacker-chosen 32- and 64-bit operands, including wrap-around.", "anchors": ["src/vm/vm_exec.c: FETCH_IL_*, OP_SWITCH, OP_SWITCH_TABLE, OP_JUMP, OP_JUMP_IF_NOT", "src/vm/vm_internal.h: read_il_*, peek_il_u32"]}
{"id": "C07", "title": "Host refusal stops the run", "statement": "If the host callback returns an error the run stops with CND_ERR_CALLBACK and the host is not called again; the only exceptions are a string marked optional while encoding (skipped) and a bulk byte-array offer (falls back to element-by-element).", "quantifier": "every bytecode image, buffer, mode and host, at every callback of the run", "why_tests_cant": "Quantifies over the failing callback's position in an arbitrary run.", "anchors": ["src/vm/vm_exec.c: io_callback call sites, try_optimize_byte_array, HANDLE_STRING_PRE"]}
{"id": "C08", "title": "Cursor only moves forward and stays in the buffer", "statement": "During a run the position (cursor, bit_offset) never decreases; bit_offset stays in 0..7; and on return the cursor is at most data_len.", "quantifier": "every bytecode image, buffer, mode, host and number of steps", "why_tests_cant": "Invariant over all instruction sequences.", "anchors": ["src/vm/vm_exec.c: cnd_execute", "src/vm/vm_internal.h: read_bits, write_bits"]}
{"id": "C09", "title": "Integer wire format and round trip", "statement": "An 8/16/32/64-bit integer written in little (big) endian order occupies exactly 1/2/4/8 bytes, least (most) significant byte first, and reading those bytes back in the same order yields the value modulo 2^n; signed types yield the two's-complement value.", "quantifier": "all values, both byte orders, all buffer contents and positions", "why_tests_cant": "2^64 values per type.", "anchors": ["src/vm/vm_internal.h: read_u8..read_u64, write_u8..write_u64"]}
{"id": "C10", "title": "Bitfield round trip without disturbing neighbours", "statement": "Writing the low n bits of a value (n <= 64) at any bit position and reading n bits at that position returns exactly those bits; every other bit of the buffer is unchanged and both operations advance by n bits.", "quantifier": "all values, widths 0..64, bit offsets 0..7, positions, buffers with room, both byte orders", "why_tests_cant": "The space of offset, width, value and surrounding bits cannot be enumerated.", "anchors": ["src/vm/vm_internal.h: read_bits, write_bits"]}
{"id": "C11", "title": "Aligned bitfield fast path equals the bit-by-bit layout", "statement": "The byte-aligned shortcut for 8/16/32/64-bit bitfields produces the same buffer, value and position as the bit-by-bit loop.", "quantifier": "all values, positions, buffers, both byte orders", "why_tests_cant": "2^64 values and every buffer position.", "anchors": ["src/vm/vm_internal.h: read_bits, write_bits"]}
{"id": "C12", "title": "Encode then decode reports the same values", "statement": "If encoding with a program succeeds without filling the buffer, decoding the produced bytes with the same program calls the host with the same keys in the same order and reports the value that was supplied, normalised to what the field's type can carry, and also ends successfully at the same position.", "quantifier": "every bytecode image in the supported instruction set, every sequence of host-supplied values, every buffer size", "why_tests_cant": "Quantifies over all schemas and all messages; tests check a handful of each.", "anchors": ["src/vm/vm_exec.c: cnd_execute", "src/vm/vm_internal.h: read_*, write_*"]}
{"id": "C13", "title": "Decoding depends only on the bytes it consumed", "statement": "If a decode of a buffer ends at position c, then changing bytes after c (keeping the length) changes neither the result, nor the values reported, nor the position.", "quantifier": "every bytecode image, host, pair of buffers agreeing up to the end position", "why_tests_cant": "Non-interference over all inputs.", "anchors": ["src/vm/vm_exec.c: cnd_execute (decode paths)"]}
{"id": "C14", "title": "String round trip", "statement": "A NUL-free string supplied while encoding is reported unchanged when decoding: for NUL-terminated fields if it is not longer than max, for length-prefixed fields if its length fits the prefix; longer strings are cut to exactly that limit.", "quantifier": "all NUL-free strings of any length, all limits, positions and buffers with room", "why_tests_cant": "Unbounded strings and boundary lengths for three prefix widths.", "anchors": ["src/vm/vm_exec.c: OP_STR_NULL, HANDLE_STRING_PRE"]}
{"id": "C15", "title": "Signed bitfields keep their value", "statement": "A signed value in [-2^(n-1), 2^(n-1)) written to an n-bit signed bitfield is reported unchanged on decode; any other value is reported as its low n bits sign-extended.", "quantifier": "all 64-bit values, widths 1..64", "why_tests_cant": "2^64 x 64 cases.", "anchors": ["src/vm/vm_exec.c: sign_extend, OP_IO_BIT_I"]}
{"id": "C16", "title": "Integer transforms are inverse", "statement": "For @add/@sub/@mul/@div the engineering value reported on decode equals the one supplied on encode whenever the raw value fits the field (and, for @mul/@div, division was exact); values for which the C arithmetic overflows are identified.", "quantifier": "all 64-bit engineering values, all transform constants, all integer field types", "why_tests_cant": "2^128 pairs.", "anchors": ["src/vm/vm_exec.c: vm_math_int_to_eng, vm_math_int_to_raw, HANDLE_PRIMITIVE"]}
{"id": "C17", "title": "Range checks accept exactly the declared interval", "statement": "A field followed by a range check lets a run continue if and only if the value just processed lies in [min, max] in the field's own (signed or unsigned) order; otherwise the run ends with CND_ERR_VALIDATION.", "quantifier": "all eight integer types, all values, all bounds, both byte orders, both modes", "why_tests_cant": "Every value and bound for eight types.", "anchors": ["src/vm/vm_exec.c: CHECK_RANGE, OP_RANGE_CHECK", "src/compiler/cnd_parser.c: emit_range_check"]}
{"id": "C18", "title": "Enum checks accept exactly the declared members", "statement": "A field followed by an enum check lets a run continue, at the instruction after the member list, if and only if the value just processed is one of the listed members; otherwise the run ends with CND_ERR_VALIDATION.", "quantifier": "all member lists, values, integer types, byte orders, modes", "why_tests_cant": "Lists of any length and any values.", "anchors": ["src/vm/vm_exec.c: CHECK_ENUM, OP_ENUM_CHECK"]}
{"id": "C19", "title": "Constant fields", "statement": "Encoding a constant field writes exactly the declared constant; decoding succeeds past it if and only if the bytes equal the constant, and then reports it.", "quantifier": "all integer types, constants, byte orders and buffers", "why_tests_cant": "All constants and buffer contents.", "anchors": ["src/vm/vm_exec.c: OP_CONST_CHECK, OP_CONST_WRITE"]}
{"id": "C20", "title": "Booleans are 0 or 1", "statement": "A byte boolean accepts exactly 0 and 1 in both directions and anything else ends the run with CND_ERR_VALIDATION before the host (decode) or the buffer (encode) sees it.", "quantifier": "all byte values, positions, hosts", "why_tests_cant": "Stated over any state of the run.", "anchors": ["src/vm/vm_exec.c: OP_IO_BOOL, OP_IO_BIT_BOOL"]}
{"id": "C21", "title": "CRC detects every single-bit error and every short burst", "statement": "Flipping any single bit, or any non-empty pattern of bits confined to a window of at most 16 (CRC-16) or 32 (CRC-32) consecutive bits, of the protected bytes changes the checksum, for every polynomial with a constant term, every init/xor value and every reflection setting.", "quantifier": "messages of any length, all error positions and patterns, all parameters", "why_tests_cant": "Error patterns times messages are unbounded.", "anchors": ["src/vm/vm_exec.c: calc_crc"]}
{"id": "C22", "title": "CRC-32 table shortcut equals the bitwise definition", "statement": "For the standard CRC-32 parameters the table-driven path returns the same checksum as the generic bit-by-bit path for every message; for a custom init the two agree exactly when the init is its own bit reversal.", "quantifier": "messages of any length, all init and xor values", "why_tests_cant": "Unbounded messages.", "anchors": ["src/vm/vm_exec.c: calc_crc, crc32_table, reflect"]}
{"id": "C23", "title": "CRC sealed packets verify", "statement": "A checksum field written while encoding always verifies when decoding the same bytes, and decoding fails with CND_ERR_CRC_MISMATCH exactly when the stored checksum differs from the checksum of the preceding bytes.", "quantifier": "all prefixes, parameters, byte orders", "why_tests_cant": "All packets.", "anchors": ["src/vm/vm_exec.c: OP_CRC_16, OP_CRC_32"]}
{"id": "C24", "title": "Counted arrays run their body exactly count times", "statement": "For fixed, prefixed and dynamic arrays the element code is executed exactly count times; for count 0 the element code is skipped entirely and execution continues after the array.", "quantifier": "all counts 0..2^32-1, all element code, nesting up to 8", "why_tests_cant": "Counts up to 2^32-1 and arbitrary bodies.", "anchors": ["src/vm/vm_exec.c: HANDLE_ARRAY_PRE, OP_ARR_FIXED, OP_ARR_DYNAMIC, OP_ARR_END, skip_loop_body"]}
{"id": "C25", "title": "Bulk byte arrays behave like element-by-element arrays", "statement": "Transferring a u8/i8 array in one bulk callback produces the same bytes, position and next instruction as transferring its elements one at a time.", "quantifier": "all counts, contents, positions", "why_tests_cant": "All array lengths and contents.", "anchors": ["src/vm/vm_exec.c: try_optimize_byte_array"]}
{"id": "C26", "title": "Read-to-end arrays consume exactly the rest of the packet", "statement": "A read-to-end array of fixed-size elements reports every remaining element exactly once and leaves the position at the end of the packet; with no bytes left it reports no element and leaves the loop stack as it was.", "quantifier": "all packet lengths and contents", "why_tests_cant": "All lengths.", "anchors": ["src/vm/vm_exec.c: OP_ARR_EOF, OP_ARR_END"]}
{"id": "C27", "title": "Missing optional trailing fields decode to zero", "statement": "Decoding an optional scalar with too few bytes left reports 0 for it, consumes nothing, and the run continues as if validation of that field had been skipped.", "quantifier": "all scalar types, packets, following validations", "why_tests_cant": "All positions and packet contents.", "anchors": ["src/vm/vm_exec.c: HANDLE_PRIMITIVE, OP_MARK_OPTIONAL, OP_ENUM_CHECK, OP_RANGE_CHECK"]}
{"id": "C28", "title": "Switch dispatch", "statement": "A switch continues at the code of the first case whose value equals the discriminator, or at the default code if none does; the dense-table form and the list form of the same cases dispatch identically.", "quantifier": "all case lists, offsets and 64-bit discriminators", "why_tests_cant": "2^64 discriminators and all tables.", "anchors": ["src/vm/vm_exec.c: OP_SWITCH, OP_SWITCH_TABLE", "src/compiler/cnd_parser.c: parse_switch"]}
{"id": "C29", "title": "Expressions compute modulo 2^64", "statement": "Running the code compiled from an integer expression pushes exactly one value, the expression's value in 64-bit unsigned arithmetic; a division or modulo by zero ends the run with CND_ERR_ARITHMETIC.", "quantifier": "all integer expressions within the stack limit, all field values", "why_tests_cant": "Expressions are unbounded trees.", "anchors": ["src/vm/vm_exec.c: BINARY_OP, UNARY_OP, OP_DIV, OP_MOD", "src/compiler/cnd_parser.c: parse_precedence, parse_binary, parse_unary"]}
{"id": "C30", "title": "Verifier is total and memory safe", "statement": "cnd_verify_program returns on every byte string, reads only inside it, and returns one of OK, OOB, INVALID_OP, VALIDATION.", "quantifier": "every byte string shorter than 2^32 - 32", "why_tests_cant": "Every byte string.", "anchors": ["src/vm/vm_verify.c: cnd_verify_program"]}
{"id": "C31", "title": "Verified programs run safely", "statement": "If cnd_verify_program accepts a program, cnd_execute never ends with a bytecode-caused error (unknown opcode, jump outside the code) and never reads outside the bytecode.", "quantifier": "every accepted program, all data and hosts", "why_tests_cant": "Soundness over all accepted programs.", "anchors": ["src/vm/vm_verify.c: cnd_verify_program", "src/vm/vm_exec.c: cnd_execute"]}
{"id": "C32", "title": "Verifier accepts compiler output", "statement": "Every program the compiler produces is accepted by cnd_verify_program.", "quantifier": "every schema the compiler accepts", "why_tests_cant": "All schemas.", "anchors": ["src/vm/vm_verify.c: cnd_verify_program", "src/compiler/cnd_parser.c: parse_field, parse_switch"]}
{"id": "C33", "title": "Compiled image loads back unchanged", "statement": "The image the compiler writes for a string table and bytecode is accepted by cnd_program_load_il and yields exactly that bytecode and string table.", "quantifier": "all string tables (NUL-free strings, at most 65535 entries) and bytecodes with total size below 2^32", "why_tests_cant": "All tables and programs.", "anchors": ["src/compiler/cndc.c: cnd_compile_file", "src/vm/vm_exec.c: cnd_program_load_il"]}
{"id": "C34", "title": "Key names and key ids are inverse", "statement": "For a loaded compiler image, looking up the id of the i-th name returns i (names distinct), looking up the name of id i returns the i-th name, and absent names yield 0xFFFF.", "quantifier": "all tables of distinct NUL-free names, all queries", "why_tests_cant": "All tables and all query strings.", "anchors": ["src/vm/vm_exec.c: cnd_get_key_name, cnd_get_key_id"]}
{"id": "C35", "title": "Loader rejects malformed images and lookups stay inside the image", "statement": "cnd_program_load_il accepts exactly images of at least 16 bytes with the magic, version 1 and both section offsets inside the image; after a successful load, key lookups read only inside the image.", "quantifier": "every byte string, every query", "why_tests_cant": "Every byte string.", "anchors": ["src/vm/vm_exec.c: cnd_program_load_il, cnd_get_key_name, cnd_get_key_id"]}
{"id": "C36", "title": "Numeric literals", "statement": "A decimal or hexadecimal literal denotes its mathematical value when it fits the target width; larger literals denote the value modulo 2^32 or 2^64; a leading minus negates.", "quantifier": "all literals of any length", "why_tests_cant": "Unbounded digit strings.", "anchors": ["src/compiler/cnd_utils.c: parse_number_u32, parse_number_i64, hex_char_to_int"]}
{"id": "C37", "title": "String interning", "statement": "Interning a name returns an id under which that exact name is stored; interning the same name again returns the same id and leaves the table unchanged; different names get different ids; existing ids keep their names - up to 65536 names.", "quantifier": "all sequences of names", "why_tests_cant": "All histories of insertions.", "anchors": ["src/compiler/cnd_utils.c: strtab_add"]}
{"id": "C38", "title": "Lexing is total, loses nothing and counts lines", "statement": "Repeated lexing of any NUL-terminated text reaches end-of-file; every token is a contiguous non-overlapping slice in order; skipped text is only whitespace and comments; each token's line is one plus the number of newlines before it.", "quantifier": "all texts", "why_tests_cant": "All byte strings.", "anchors": ["src/compiler/cnd_lexer.c: lexer_next, check_keyword"]}
{"id": "C39", "title": "Operator precedence and associativity", "statement": "An expression is compiled to the postfix code of its conventional parse: C-like precedence, left associative, with unary operators and parentheses.", "quantifier": "all token sequences that are well-formed expressions", "why_tests_cant": "Unbounded expressions.", "anchors": ["src/compiler/cnd_parser.c: parse_precedence, parse_binary, parse_unary, parse_grouping, rules"]}
{"id": "C40", "title": "If/else executes exactly one branch", "statement": "The code emitted for if/else executes the then-code when the condition value is non-zero and the else-code otherwise, and both continue at the same point after it.", "quantifier": "all conditions and branch code (nested arbitrarily)", "why_tests_cant": "All nestings and code sizes.", "anchors": ["src/compiler/cnd_parser.c: parse_if", "src/vm/vm_exec.c: OP_JUMP_IF_NOT, OP_JUMP"]}
{"id": "C41", "title": "Switch compilation", "statement": "The dispatch code emitted for a switch (list form or dense-table form) selects, for every discriminator, the body of the matching case, else the default body, else the end of the switch; every body continues after the tables.", "quantifier": "all case sets with distinct values, bodies, presence or absence of default", "why_tests_cant": "All case sets and all 2^64 discriminators.", "anchors": ["src/compiler/cnd_parser.c: parse_switch", "src/vm/vm_exec.c: OP_SWITCH, OP_SWITCH_TABLE"]}
{"id": "C42", "title": "Unused-name removal preserves field names", "statement": "Removing unused names from the string table and renumbering leaves every instruction referring to the same name as before and changes nothing else in the bytecode.", "quantifier": "all programs and string tables the compiler can produce", "why_tests_cant": "All programs.", "anchors": ["src/compiler/cndc.c: optimize_strings"]}
{"id": "C43", "title": "Nested struct fields get qualified names", "statement": "Using a struct as a field makes every field of the struct appear under the name 'field.name' in the emitted code, with the rest of the code unchanged.", "quantifier": "all struct bodies and field names", "why_tests_cant": "All struct bodies.", "anchors": ["src/compiler/cnd_utils.c: buf_append_with_prefix, get_opcode_size_and_keyid_offset"]}
{"id": "C44", "title": "Formatting preserves the program", "statement": "Formatting a source text preserves its token sequence.", "quantifier": "all texts", "why_tests_cant": "All texts.", "anchors": ["src/compiler/cnd_fmt.c: cnd_format_source, fmt_next"]}
{"id": "C45", "title": "Formatting is idempotent", "statement": "Formatting an already formatted text returns it unchanged.", "quantifier": "all texts", "why_tests_cant": "All texts.", "anchors": ["src/compiler/cnd_fmt.c: cnd_format_source, fmt_next"]}
{"id": "C46", "title": "Byte order scoping", "statement": "A byte-order decorator on a field selects the byte order of that field; the byte order in force for other fields is as documented.", "quantifier": "all field sequences", "why_tests_cant": "All sequences.", "anchors": ["src/compiler/cnd_parser.c: parse_field", "src/vm/vm_exec.c: OP_SET_ENDIAN_LE, OP_SET_ENDIAN_BE"]}
{"id": "C47", "title": "Linear scaling", "statement": "With factor 1 and offset 0, scaling is the identity on every integer that a double can hold exactly; decode applies value*factor+offset and encode its inverse with truncation.", "quantifier": "all raw values, factors and offsets", "why_tests_cant": "All doubles.", "anchors": ["src/vm/vm_exec.c: HANDLE_PRIMITIVE (CND_TRANS_SCALE_F64)"]}
{"id": "C48", "title": "Computed fields", "statement": "A computed field written while encoding verifies when decoding with the same inputs; when its value does not fit the declared type the mismatch is reported.", "quantifier": "all values and integer types", "why_tests_cant": "All 64-bit values.", "anchors": ["src/vm/vm_exec.c: OP_EMIT"]}
{"id": "C49", "title": "Compiled packets mean what the schema says", "statement": "Compiling a schema with a packet of plain fields succeeds, and encoding with the resulting image asks the host for exactly the declared fields, by their names and in order, and writes their values one after another in the declared widths; decoding reports the same fields and values.", "quantifier": "every packet (any number of fields, names, types), every host and all values", "why_tests_cant": "All schemas, hosts and values; spans compiler, image and interpreter.", "anchors": ["src/compiler/cnd_parser.c: parse_field, parse_packet, parse_top_level", "src/compiler/cndc.c: cnd_compile_file", "src/vm/vm_exec.c: cnd_execute, cnd_program_load_il"]}
{"id": "C50", "title": "Compilation terminates", "statement": "Compiling any schema ends with an answer, however its files import one another (cycles and self-imports included), and the answer is determined by the files.", "quantifier": "all source texts, all finite sets of files and import graphs", "why_tests_cant": "Unbounded sources and import graphs; a hang is not observable by a finite test.", "anchors": ["src/compiler/cnd_parser.c: parse_top_level, parse_import, parse_field, parse_block, parse_precedence", "src/compiler/cndc.c: cnd_compile_file", "src/compiler/cnd_utils.c: optimize_strings"]}
{"id": "C51", "title": "JSON through the command line tool", "statement": "Encoding a JSON document with the command line tool writes the message of the document's values, and decoding that message gives a JSON document with the same values for the schema's fields.", "quantifier": "every schema, every document with the fields' values (any order, extra members), all values", "why_tests_cant": "All schemas, documents and values; spans compiler, image, interpreter and the JSON binding.", "anchors": ["src/cli/json_binding.c: json_io_callback", "src/cli/cmd_encode.c: cmd_encode", "src/cli/cmd_decode.c: cmd_decode"]}
{"id": "C52", "title": "Compiled programs do what the source says", "statement": "A schema with enumerations and a packet of fields with byte orders, constants, ranges and enumeration types, nested in if/else, compiles and loads; encoding and decoding with it then do exactly what the source says: which fields are asked for or reported, in which order, which values are refused, with which error, and which bytes are written.", "quantifier": "every such source text, every host, mode, buffer and state of the host", "why_tests_cant": "Unbounded nesting of conditionals, all expressions, all values and hosts; spans lexer, parser, optimiser, image and interpreter.", "anchors": ["src/compiler/cnd_parser.c: parse_field, parse_block, parse_enum, parse_if", "src/compiler/cndc.c: cnd_compile_file", "src/vm/vm_exec.c: cnd_execute"]}
{"id": "C53", "title": "What one end sends, the other end receives", "statement": "With a schema as in C52 whose conditions are about earlier fields: whenever encoding succeeds, decoding the message (with anything behind it) succeeds, ends where the message ends, and delivers the value of every field of the message and of no other field.", "quantifier": "every such source text, all values of its fields, anything behind the message, any earlier state of the receiver", "why_tests_cant": "All schemas with nested conditionals and all values; agreement of two runs with different hosts.", "anchors": ["src/compiler/cnd_parser.c: parse_field, parse_if", "src/vm/vm_exec.c: cnd_execute", "src/vm/vm_io.c: cnd_read_*, cnd_write_*"]}
{"id": "C54", "title": "Computed fields and switches do what the source says", "statement": "A schema whose packet also has fields computed from others (@expr) and switches over a field, with cases given by numbers or enumeration members and a default, compiles and loads; encoding and decoding with it do exactly what the source says: the computed value is written when encoding and compared with the value on the wire when decoding, and of a switch the body of the matching case is done, else of the default, else none.", "quantifier": "every such source text, every host, mode, buffer and state of the host", "why_tests_cant": "Unbounded nesting of switches and conditionals, dense and sparse tables of any size, all expressions and values.", "anchors": ["src/compiler/cnd_parser.c: parse_field, parse_switch, parse_if", "src/compiler/cndc.c: optimize_strings", "src/vm/vm_exec.c: cnd_execute"]}
{"id": "C55", "title": "What one end sends, the other end receives, with computed fields and switches", "statement": "With a schema as in C54 whose conditions, switches and computed fields are about earlier fields: whenever encoding succeeds with values where computed fields have the computed value, decoding the message (with anything behind it) succeeds, ends where the message ends, and delivers the value of every field of the message and of no other field.", "quantifier": "every such source text, all values of its fields, anything behind the message, any earlier state of the receiver", "why_tests_cant": "All schemas with nested switches and all values; agreement of two runs with different hosts.", "anchors": ["src/compiler/cnd_parser.c: parse_field, parse_switch", "src/vm/vm_exec.c: cnd_execute"]}
{"id": "C56", "title": "Only well-formed schemas are accepted", "statement": "If the compiler makes an image of a file, then the file and the files it imports are schemas: every statement and definition has its form; every type a field names is a basic type or was defined before, and no structure contains itself; no field name occurs twice in a structure or packet, in whatever blocks; no structure, enumeration or enumeration member is defined twice, and no enumeration value or case label occurs twice; constants fit their types; limits are in order; checksum fields have the width the checksum needs; transforms, widths, prefixes and bounds stand only where they can; one packet is defined.", "quantifier": "every file text and every set of imported files the compiler accepts", "why_tests_cant": "All texts: a test of refused texts cannot show that no ill-formed text at all is accepted.", "anchors": ["src/compiler/cnd_parser.c: parse_field, parse_switch, parse_if, parse_enum, parse_struct, parse_packet, parse_import, parse_top_level, parse_expression", "src/compiler/cndc.c: cnd_compile_file"]}
{"id": "C57", "title": "Structures as fields mean what the schema says", "statement": "A schema of structures and a packet whose fields are plain, of a structure type, or fixed or counted arrays of structures, nested in any way, compiles and loads; its names are the fields' names with the members' names written out behind a dot. Encoding goes through the fields in order, announces the beginning and end of each structure and the number of copies, asks for the members' values under their written-out names, and writes their bytes one after another; decoding the message reports exactly these values and stops at its end.", "quantifier": "every such source text (structures within structures, byte-order decorators anywhere), all values of the members, all array lengths, any host, anything behind the message", "why_tests_cant": "All nestings of structures and arrays and all values; the parser copies compiled code with renamed names, which must stay correct through every level.", "anchors": ["src/compiler/cnd_parser.c: parse_struct, parse_field, parse_packet", "src/compiler/cnd_utils.c: strtab_add", "src/vm/vm_exec.c: cnd_execute"]}
{"id": "C58", "title": "JSON documents with structures survive the command line tool", "statement": "For a schema of structures and a packet of plain fields, structures and arrays of structures, the encode command turns a JSON document whose objects and arrays mirror the schema into exactly the message of its values, whatever the order of the members of an object and whatever other members it has; the decode command turns that message into the document with the same values, members in schema order; and encoding what decode printed gives the message again.", "quantifier": "every such schema (structures up to 31 deep, arrays up to 8 deep), all values the tool manages, all documents that present them", "why_tests_cant": "All nestings of objects and arrays and all values: the callback keeps two stacks whose depths decide where each value is looked up.", "anchors": ["src/cli/json_binding.c: json_io_callback, handle_array_start, handle_primitive", "src/cli/cmd_encode.c: cmd_encode", "src/cli/cmd_decode.c: cmd_decode", "src/vm/vm_exec.c: cnd_execute"]}
{"id": "C59", "title": "Bit fields and checksums mean what the schema says", "statement": "A packet whose fields are members as in C57, runs of bit fields with padding and filling, numbers with @scale, @offset, @add, @sub, @mul, @div or @optional, and checksum fields is compiled to a program that loads under the fields' names. Encoding asks for the values in order, packs the bits of each run in the byte order at hand, and writes in place of each checksum that of all bytes before it, with the parameters its decorators give, without asking; decoding such a message reports the same values. Bytes that hold anything but the checksum in its place are refused there, and so is every damage to the bytes before it that is confined to as many successive bits as the checksum has, if the polynomial has a constant term.", "quantifier": "every such source text, all values, all hosts that play along, all bytes around the message", "why_tests_cant": "All sequences of bit widths, signs, paddings, byte orders and checksum parameters, and all damages within the window: each run of bits meets the position left by all before it.", "anchors": ["src/compiler/cnd_parser.c: parse_field", "src/compiler/cnd_compiler.c: cnd_compile_file", "src/vm/vm_exec.c: cnd_execute", "src/vm/vm_exec.c: write_bits, read_bits"]}
{"id": "C60", "title": "Every received byte string is read as one message, or refused", "statement": "Whatever bytes arrive, decoding them with the program compiled for a packet comes to an end in one of three ways: it reports, member by member, a message with which the bytes begin, and stands right behind it; or it stops with 'out of bounds', and the bytes are the beginning of a message and need more to be one; or it stops with 'validation', and no continuation of the bytes begins with a message. No two messages begin alike, so the three exclude each other and what is reported is determined by the bytes.", "quantifier": "every such source text, every finite sequence of bytes, every host that accepts what it is told", "why_tests_cant": "Arbitrary bytes from the network: truncations at every position, counters that promise more than there is, and wrong booleans at any depth of nested arrays; tests feed a few of them.", "anchors": ["src/compiler/cnd_compiler.c: cnd_compile_file", "src/vm/vm_exec.c: cnd_execute", "include/concordia.h: cnd_error_t"]}
{"id": "C61", "title": "Layout, comments and formatting do not change the compiled schema", "statement": "Compiling a schema depends on its files only through their tokens: two sets of files (the root file and every imported one) with the same tokens, kind by kind and text by text, compile to the same image byte for byte, or are refused alike, whatever their white space, comments and line breaks. So running `cnd fmt` over any of the files of a schema, root or imported, does not change the image.", "quantifier": "all sets of source files, all import graphs, all layouts, all subsets of files formatted", "why_tests_cant": "The compiler has dozens of parsing functions, each of which may look at a position or a line, and layouts are unbounded; only a relational argument over every parsing function covers them.", "anchors": ["src/compiler/cnd_parser.c: parse_top_level, parse_field, parse_import", "src/compiler/cnd_lexer.c: lexer_next", "src/compiler/cnd_fmt.c: cnd_format_source", "src/compiler/cndc.c: cnd_compile_file"]}
{"id": "C62", "title": "The command line tool changes only its output file, and its commands compose", "statement": "Every `cnd` command that ends exits with code 0 or 1; it changes no file but the one named as its output, and no file at all when it exits with 1; when it exits with 0 the output file holds the result asked for. A session compile, encode, decode on a schema and a document with values for its fields exits with 0 throughout, leaves the message of those values in the message file and a document showing them in the output file, and changes no other file; encoding that document again gives the same message. Formatting a file of a schema in place does not change what any schema compiles to.", "quantifier": "all argument lists, all file systems (names may be aliases of one file, files may be unreadable or unwritable), all schemas, documents and values, all behaviours of the JSON library within its contract", "why_tests_cant": "Combinations of aliasing names, unreadable and unwritable files, argument lists and documents are unbounded, and the frame condition (nothing else changes) is a statement about all files.", "anchors": ["src/cli/main.c: main", "src/cli/cmd_compile.c: cmd_compile", "src/cli/cmd_fmt.c: cmd_fmt", "src/cli/cmd_encode.c: cmd_encode", "src/cli/cmd_decode.c: cmd_decode", "src/cli/cli_helpers.c: read_file_bytes, read_file_text, write_file_bytes, write_file_text, load_il", "src/compiler/cnd_fmt.c: cnd_format_file", "src/compiler/cndc.c: cnd_compile_file"]}
{"id": "C63", "title": "The inspector shows the program that is in the file", "statement": "`cnd inspect` of a compiled image prints the header, the names in order, and one line per instruction of the program, at the instruction's offset, with its operands as numbers; so different programs have different listings. For any other file it ends: refused if it does not begin like an image, else a listing whose lines stand at increasing offsets and name the byte found there. It never changes a file.", "quantifier": "all programs of well-formed instructions, all compiled packets with structures, bit fields and checksums, all files up to 4 GiB, both orders of evaluating printf arguments", "why_tests_cant": "tests list a few schemas; whether every operand of every instruction is skipped by its right length, whether two programs can share a listing, and whether some file makes the tool loop or read past its buffer need all programs and all files", "anchors": ["src/cli/cmd_inspect.c: cmd_inspect, get_opcode_name, read_u8/read_u16/read_u32/read_u64", "include/concordia.h: opcodes", "src/compiler/cndc.c: image writer"]}
{"id": "C64", "title": "Hexadecimal decoding", "statement": "`cnd decode --hex` writes the same document as `cnd decode`, except that an array of bytes is a string of two upper-case hexadecimal digits per byte, from which the bytes can be read back.", "quantifier": "all images, all input files, all arrays of bytes", "why_tests_cant": "a test decodes a few messages; whether the option leaves every other value alone depends on how each program's bytecode looks to the tool, for all programs and inputs", "anchors": ["src/cli/json_binding.c: handle_array_start, append_hex_byte, json_io_callback", "src/cli/cmd_decode.c: cmd_decode", "src/vm/vm_exec.c: HANDLE_ARRAY_PRE, OP_ARR_FIXED, OP_ARR_DYNAMIC, try_optimize_byte_array"]}
{"id": "C65", "title": "The callback is told what its pointer points to", "statement": "In every call of the callback the type determines what the pointer points to: a number of the size of the type, a string pointer to fill in, bytes inside the packet, or nothing. A string pointed to while decoding is the whole string in the packet: its length stands right in front of it in the byte order in force, or it has no NUL and is followed by one.", "quantifier": "all bytecode, well formed or not, both directions, all packets, all callbacks", "why_tests_cant": "a callback casts the pointer by the type; a test sees the types of a few schemas, while transforms, bulk arrays and hostile bytecode combine types and directions without bound", "anchors": ["include/concordia.h: cnd_io_cb, opcodes", "src/vm/vm_exec.c: cnd_execute, HANDLE_PRIMITIVE, HANDLE_FLOAT, HANDLE_STRING_PRE, HANDLE_ARRAY_PRE, try_optimize_byte_array"]}
{"id": "C66", "title": "The Go package does what the interpreter does", "statement": "Loading an image in Go gives its bytecode, names and identifiers. A callback written with the accessors of the Go package, chosen by the type it is told, makes Execute return the error, leave the packet bytes and see the values that the interpreter gives the callback its author meant; after Close nothing runs.", "quantifier": "all programs, packets, directions and callbacks, all tables of names", "why_tests_cant": "the accessors read and write raw memory whose size and surroundings depend on the program, the byte order and the packet; a test covers a few of the combinations", "anchors": ["go/concordia.go: LoadProgram, Execute, go_io_callback_gateway, Value.String, Value.SetString, Value.Uint8, Value.SetUint8, Program.GetKeyName, Program.GetKeyID, Program.Close", "go/bridge.c"]}
{"id": "C67", "title": "The language server answers about the text the client has", "statement": "In any conversation framed as the protocol allows, the language server sends one response to each question, with its identifier, in order, about the text as last opened or changed (otherwise the file), and diagnostics for each changed text; its messages are framed the same way. File URIs name the file whose path they spell. A formatting edit replaces the whole text. No input makes the server hang or misbehave.", "quantifier": "all conversations of openings, changes, saves, closings and questions, all texts, URIs, header lines and files that change in between; all input bytes for the end of the server", "why_tests_cant": "the answer depends on the whole history of the conversation and on how the bytes are cut into messages", "anchors": ["src/cli/cmd_lsp.c: cmd_lsp, read_json, send_json, send_response, doc_update, doc_get, url_decode, file_uri_to_path, handle_initialize, handle_definition, handle_hover, handle_completion, handle_formatting, handle_document_symbol, handle_didOpen, handle_didChange, handle_didSave"]}
{"id": "C68", "title": "Optional fields let a packet grow", "statement": "If a schema is changed only by adding numbers marked @optional at the end of its packet, programs compiled from the two schemas read each other's messages: a message of the old schema is accepted by the new program, which reports the same values and then, of each number added, that it is missing; a message of the new schema is the message of the old one with bytes behind it, and is accepted by the old program, which reports the same values. The bytes are left as they are.", "quantifier": "all pairs of such source texts, all values, any number of numbers added, all hosts that play along", "why_tests_cant": "two independently compiled programs must agree about every message of either, whatever fields, byte orders and checksums come before", "anchors": ["src/compiler/cnd_parser.c: parse_field", "src/vm/vm_exec.c: HANDLE_PRIMITIVE, HANDLE_FLOAT, OP_IO_BOOL, OP_MARK_OPTIONAL", "include/concordia.h: cnd_execute"]}
{"id": "C69", "title": "Converted numbers come back", "statement": "In a packet of numbers with @add, @sub, @mul or @div in the source, if the converted value of each is a number of its field's type and no division leaves a remainder, the values given to the encoder are the values the decoder reports, and the message has the length of the fields.", "quantifier": "all such source texts, all lists of values that can be stored, all hosts that play along, all buffers", "why_tests_cant": "the conversion is chosen by decorators in the text, travels through the compiled operands and must be undone for each of up to 2^64 values with every type, sign and byte order", "anchors": ["src/compiler/cnd_parser.c: parse_field", "src/vm/vm_exec.c: HANDLE_PRIMITIVE, OP_TRANS_ADD, OP_TRANS_SUB, OP_TRANS_MUL, OP_TRANS_DIV"]}
{"id": "C70", "title": "Every schema the compiler accepts gives an image that loads", "statement": "If the compiler writes an image at all, the image consists of the header, the names, each ended by a NUL, and the code; the names are qualified identifiers, all different, and everything is bytes. With at most 65535 names and less than 4 GiB, both loaders accept it, find exactly that code and those names, and looking up a name by number and a number by name are each other's inverse; looking up any other name or number finds nothing.", "quantifier": "all schema texts, all file systems behind imports, all paths", "why_tests_cant": "the language of schemas is infinite, and the names pass through nested structures, prefixes, dotted paths and the optimiser before they are written", "anchors": ["src/compiler/cndc.c: cnd_compile_file, optimize_strings", "src/compiler/cnd_parser.c: parse_top_level", "src/compiler/cnd_utils.c: strtab_add, buf_append_with_prefix", "src/vm/vm_exec.c: cnd_program_load_il, cnd_get_key_id, cnd_get_key_name", "src/cli/cli_helpers.c: load_il"]}
{"id": "C71", "title": "The editor shows errors exactly when the compiler refuses", "statement": "When the language server is given the text of a schema file and no import leads back to that file, it publishes no diagnostics exactly if the compiler makes an image of the file, and publishes some exactly if the compiler refuses it. The analysis ends for every text, however files import one another. (Files that import each other are the exception: the compiler accepts them, the server shows errors.)", "quantifier": "all schema texts, all file systems behind imports, all paths", "why_tests_cant": "two programs must agree on every text of an infinite language, and on every set of files behind the imports", "anchors": ["src/cli/cmd_lsp.c: publish_diagnostics", "src/compiler/cndc.c: cnd_compile_file", "src/compiler/cnd_parser.c: parse_top_level, parse_import, parser_error"]}
{"id": "C72", "title": "Diagnostics point into the text", "statement": "Every diagnostic the language server publishes for a document is the line and character of the start of a token (or of the end) of the document or of a file its imports opened; of the document when it has no imports. At most 1024 are published. Holds for texts whose string literals do not span lines and whose carriage returns stand before newlines. (Errors of an imported file are published as if they were in the document, at lines it may not have.)", "quantifier": "all schema texts, paths and file systems behind imports", "why_tests_cant": "positions must be right for every error the parser can report in any text, whatever precedes it", "anchors": ["src/cli/cmd_lsp.c: publish_diagnostics", "src/compiler/cnd_parser.c: parser_error, advance"]}
{"id": "C73", "title": "Going to a definition leads to it", "statement": "When the language server answers a position with a definition, the position touches an identifier of the document, and in the text of the file it names, on the line it names, that identifier follows the keyword struct or enum (enum if it lists members). Every document symbol listed is defined on its line in the document or an imported file, and all structures and enumerations of a document without errors are listed. In a document without errors a definition is found from every use of its name. (Exceptions: at the first character of a decorator's name nothing is found; symbols of imported files are listed under the document; with more than 1024 errors memory past the errors kept is read.)", "quantifier": "all schema texts, positions, paths and file systems behind imports", "why_tests_cant": "every position of every text, with definitions spread over any set of files", "anchors": ["src/cli/cmd_lsp.c: analyze_source, handle_document_symbol", "src/compiler/cnd_parser.c: parse_struct, parse_enum, parse_import"]}
{"id": "C74", "title": "Counted arrays and arrays to the end travel intact", "statement": "A schema with one packet of plain fields, arrays counted by another field (@count/@len) and a last array to the end of the message (@eof) compiles to an image that loads under the names of the packet. Encoding asks the host for the value of the counting field, then for exactly that many elements, and the elements are written without a counter of their own; the array to the end takes elements to the end of the buffer. Decoding the message reports exactly the values encoded. (An array to the end fills whatever buffer it is encoded into; a counting field that does not exist is not noticed by the compiler; empty arrays need at most 52 names.)", "quantifier": "all such schema texts and names, all values and array lengths below 2^32 - 1, all hosts that play the conversation", "why_tests_cant": "array lengths, element types, byte orders, names and the placement of arrays in packets are unbounded", "anchors": ["src/compiler/cnd_parser.c: parse_field, parse_decorators", "src/vm/vm_exec.c: OP_ARR_DYNAMIC, OP_ARR_EOF, OP_ARR_END"]}
{"id": "C75", "title": "When the compiler is free of undefined behaviour", "statement": "Compiling a schema never performs a signed overflow and never reads outside its own tables, whatever the files say, however wrong they are and however they import one another. For the code as written this holds when numbers have at most 18 digits and no structure is unaligned (or at most 4 digits and 30000 tokens per file with unaligned structures), and, for reads outside a table, when no doc comment is in an expression and flattened names fit their buffer; each condition is shown to be needed by a schema that breaks the rule.", "quantifier": "all files, all import graphs, all valid and invalid schemas meeting the limits, any amount of fuel", "why_tests_cant": "The schemas which overflow are a handful among infinitely many; a sanitizer only sees those somebody thought of, and the absence of undefined behaviour on all invalid inputs cannot be sampled.", "anchors": ["src/compiler/cnd_parser.c: get_rule, parse_field, parse_enum, parse_struct", "src/compiler/cnd_utils.c: parse_number_i64, buf_append_with_prefix", "src/compiler/cndc.c: cnd_compile_file"]}
{"id": "C76", "title": "Completions propose what is defined", "statement": "At every cursor position of a document without errors the language server proposes: behind the name of an enumeration and a dot, the members of that enumeration in their order; in the arguments of @expr, the functions and the fields of the structure around the cursor; in those of @count and @len, its fields; anywhere else the words of the language, the decorators, and all structures and enumerations that the document and its imports define, and no other names. Of a document with errors every structure or enumeration proposed is defined in it or in a file it imports. (Exceptions: fields of packets are not proposed, fields of structures are proposed repeatedly, and the members of an enumeration are proposed only directly behind the dot.)", "quantifier": "all schema texts, cursor positions, paths and file systems behind imports", "why_tests_cant": "every cursor position of every text, with brackets open or closed in any way before it and definitions spread over any set of files", "anchors": ["src/cli/cmd_lsp.c: handle_completion, skip_instruction", "src/compiler/cnd_parser.c: parse_struct, parse_enum, parse_import"]}
{"id": "C77", "title": "The editor shows what the compiler says", "statement": "Whatever the client of the language server opens, changes, saves, closes and asks, in any order, the bytes it gets back are well-formed messages in order: for every text it opens, changes or saves one list of problems of exactly that text, empty exactly when the compiler would accept the file with that text saved, each problem at the start of a token; for every question one response with its identifier, about the text as the client has it: a definition leads to where the name at the position is defined (and in an accepted text every name leads somewhere), completions propose what is defined, the outline lists the definitions, a hover names the definition and the members of an enumeration, and formatting gives an edit that does not change what the text compiles to.", "quantifier": "all conversations, framings, file systems that change meanwhile, texts (saved or not) whose analysis is defined, positions", "why_tests_cant": "Tests drive single requests on saved files; the claim ties every message of an arbitrary conversation about unsaved texts to the compiler's verdict on them.", "anchors": ["src/cli/cmd_lsp.c:cmd_lsp", "src/cli/cmd_lsp.c:publish_diagnostics", "src/cli/cmd_lsp.c:handle_definition", "src/cli/cmd_lsp.c:handle_completion", "src/cli/cmd_lsp.c:handle_document_symbol", "src/compiler/cndc.c:cnd_compile_file"]}
{"id": "C78", "title": "The bindings have the constants of the C header", "statement": "Whatever opcodes, error codes, modes, transforms and byte orders the C header defines, the files the binding generator prints for Go, Python and TypeScript declare exactly these constants, in the order of the header, under their names in PascalCase and with the values a C compiler gives them; different names stay different; an unknown language or an unreadable header is refused without output.", "quantifier": "all headers of opcode definitions, enumerations (with and without written values) and other lines, with any spacing and comments; all three languages", "why_tests_cant": "The repository only compares the generated Go file with the one committed; the claim is about every future header, including implicit values and colliding names.", "anchors": ["src/tools/gen_bindings.c:process_line", "src/tools/gen_bindings.c:to_pascal_case", "src/tools/gen_bindings.c:generate_go", "src/tools/gen_bindings.c:main", "include/concordia.h", "go/consts.go"]}
{"id": "C79", "title": "Every received byte string is read as one frame, or refused", "statement": "Decoding any byte string with a compiled packet that has bit fields, checksums and converted numbers comes to an end: it reports a message with which the bytes begin, part by part and with every checksum right, and reads nothing behind it; or it stops with out-of-bounds on bytes that are cut off, with a validation error on bytes that no continuation makes begin with a message, or with a checksum error on bytes that hold something else in place of a checksum. No two messages begin alike, and bytes that begin with a message are never refused.", "quantifier": "all packets of the language of C59 whose parts can be told apart, all byte strings, all hosts that accept what they are told", "why_tests_cant": "Received bytes are anybody's; a test or a fuzzer sees some of them and cannot tell that every accepted string is a message and every refused one is not.", "anchors": ["src/vm/vm_exec.c: cnd_execute", "src/vm/vm_internal.h: read_bits", "src/compiler/cnd_compiler.c: cnd_compile_file", "include/concordia.h: cnd_error_t"]}
{"id": "C80", "title": "A packet from anybody cannot take a compiled schema out of its memory", "statement": "Running a compiled packet that has structures, arrays, strings, bit fields, checksums and converted numbers, or conditions, switches, computed and checked fields, on any bytes, in either direction and whatever the host answers, never reads or writes outside the given data, never reads outside the instructions and never overruns the stack; and every block lent to the host lies within the data.", "quantifier": "all packets of the languages of C52 and C54 (constants, ranges, enumerations, conditions, computed fields, switches) and of those of C59 and C74 (without padding when decoding; without arrays, or with few names and no operand byte that looks like the end of an array), all byte strings, all hosts, both directions, runs of any length", "why_tests_cant": "The bytes are chosen by an attacker and the answers by any host; a fuzzer tries some for a few schemas and cannot exclude the rest.", "anchors": ["src/vm/vm_exec.c: cnd_execute", "src/vm/vm_internal.h: read_bits", "src/compiler/cnd_compiler.c: cnd_compile_file"]}
{"id": "C81", "title": "A packet from anybody cannot make a compiled schema run for ever", "statement": "Running a compiled packet that has structures, arrays, strings, bit fields, checksums and converted numbers, or conditions, switches, computed and checked fields, on any bytes, in either direction and whatever the host answers, comes to an end within a number of instructions that depends only on the lengths of the code and of the data.", "quantifier": "all packets of the languages of C52 and C54 (constants, ranges, enumerations, conditions, computed fields, switches) and of those of C59 and C74 (without arrays; or with few names, no operand byte that looks like the end of an array, no optional numbers, and no array of structures that begin with something other than a field), all byte strings, all hosts, both directions", "why_tests_cant": "A run that does not end cannot be observed, and the bytes and the answers are chosen by others; a count of four bytes already outlasts any test.", "anchors": ["src/vm/vm_exec.c: cnd_execute, OP_ARR_END, OP_ARR_EOF", "src/compiler/cnd_compiler.c: cnd_compile_file"]}
