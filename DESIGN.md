# Formal model of concordia in Rocq (Coq 8.16.1)

## What is modelled

The C sources under `/repo/src/vm` (interpreter, verifier, loader), `/repo/src/compiler` and the
encode and decode commands of `/repo/src/cli` are transcribed function by function into Gallina.
Every definition cites the file and lines it models.  Nothing in `/repo` was built or run; the tie
between model and code is the transcription only.

| Model file | Code |
| --- | --- |
| `ModelWord`, `ModelBits`, `ModelCrc`, `ModelTrans`, `ModelFloat`, `ModelVM` | vm_exec.c, vm_internal.h (C's floating-point operations as IEEE 754 functions) |
| `ModelVerify` | vm_verify.c |
| `ModelImage` | cndc.c (image writer), vm_exec.c (loader and key lookup), cli_helpers.c (loader) |
| `ModelText` | cnd_utils.c (numbers, string table), cnd_lexer.c |
| `ModelNames` | cnd_utils.c and cndc.c (prefixing of names, removal of unused names) |
| `ModelParse`, `ModelSchema` | cnd_parser.c, cndc.c: the whole schema compiler from files (with imports) to image |
| `ModelFmt` | cnd_fmt.c |
| `ModelTool` | main.c, cmd_compile.c, cmd_fmt.c, cmd_encode.c, cmd_decode.c and the file functions of cli_helpers.c, over a file system |
| `ModelInspect` | cmd_inspect.c |
| `ModelHex` | decode --hex: the byte arrays of json_binding.c |
| `ModelGo` | go/concordia.go (loader, accessors, gateway, Execute) |
| `ModelLsp` | src/cli/cmd_lsp.c (framing, loop, open documents, URIs, handlers) |
| `ModelDiag` | src/cli/cmd_lsp.c: publish_diagnostics, analyze_source, document symbols (positions; not messages and doc comments) |
| `ModelComplete` | src/cli/cmd_lsp.c: handle_completion, skip_instruction (labels and kinds) |
| `ModelSession` | src/cli/cmd_lsp.c: the JSON items of diagnostics, definitions, completions and symbols (error messages, documentation comments and details open) |
| `ModelBindings` | src/tools/gen_bindings.c |
| `ModelJson` | json_binding.c, cmd_encode.c, cmd_decode.c (without --hex); the cJSON library's trees, not its text |

Not modelled: the detail and documentation texts of completions, documentation comments, src/tools/hexview.c and vm_fuzzer.c, the text of diagnostics. `ModelLsp` takes what the analysis finds as a parameter; `ModelDiag` models the analysis itself.

### Interpreter (`ModelVM.v`)

* `step : libm -> bytecode -> st -> act` models one iteration of the `while` loop of
  `cnd_execute`.  `act` is a resumption tree: `Cont s` (go on), `Halt e s` (return `e`),
  `Undef u` (the C program has undefined behaviour of kind `u`), or `Ask rq k` (the host
  callback is called with request `rq`; `k` takes the reply).  The host is therefore completely
  arbitrary: safety theorems quantify over every reply at every call.
* A reply says whether the callback returned `CND_ERR_OK`, what it stored through the pointer
  (integer, string pointer, or bytes through a pointer into the packet buffer).
* Data and bytecode reads and writes are explicit partial operations: outside the buffer they
  give `Undef`.  So do shifts by 64 or more, signed overflow, `INT64_MIN / -1`, out-of-range
  float-to-int conversion and access outside the two fixed-size stacks.
* Doubles and floats are bit patterns (`N`).  Arithmetic decodes them to the standard library's
  `SpecFloat` (axiom free), operates and encodes; all NaNs produced by arithmetic are one
  canonical NaN.  `sin cos tan log pow` are a record of arbitrary functions over which theorems quantify.
* `run fuel` iterates `step` against a host function and records the trace of requests and
  replies; running out of fuel is a distinct outcome.

### Assumptions and simplifications

* `data_len` passed to `cnd_init` is the true buffer length; buffers and bytecode are shorter
  than 2^63 bytes, so sums such as `cursor + size` do not wrap (they are unbounded `N` in the
  model).  Where the code can wrap with realistic inputs the wrap is modelled: `remaining =
  data_len - cursor`, the dense switch table's `index * 4` and `offset_loc + 4`, the verifier's
  32-bit arithmetic, the compiler's 16/32-bit truncations.
* The callback does not modify the context, the program or the buffer except through the pointer
  it is given and within the size of what it points to.
* Treated as defined: `byte << 24` and `1 << 31` on `int`, conversion of out-of-range values to
  signed types (two's complement), forming a pointer past the end of the bytecode,
  `memcpy(dst, NULL, 0)`.  Little-endian host for `memcpy` of doubles out of the bytecode.
* `NULL` arguments to API functions (early returns) are not modelled.
* `malloc`/`realloc` failure and file I/O errors are not modelled; reading a file is a function from
  canonical paths to contents over which theorems quantify.  Depth of C recursion is not limited.
* Length bounds appear as hypotheses where a theorem needs them: bytecode shorter than 2^62 (runs),
  2^31 (jump offsets, C40, C41), 2^32-32 (verifier); at most 65535 names.

## Trusted base

Coq's kernel (coqc 8.16.1, checked once with coqchk), the transcription, and for each theorem what
`Print Assumptions` prints beneath it in the property files.  That is nothing ("Closed under the
global context") except for the theorems of `PropScale.v` and `PropJson.v`, which speak of real numbers and rest on the
standard library's axioms of the reals: `ClassicalDedekindReals.sig_forall_dec`,
`ClassicalDedekindReals.sig_not_dec`, `FunctionalExtensionality.functional_extensionality_dep` and, for some, `Classical_Prop.classic`
(Flocq is used for the definitions and theorems of rounding; it adds no axioms of its own).

## Seeded wrong programs (`seeded/LOG.jsonl`)

Each line is one edit of the model made in a scratch copy.

* `failed_lemmas` is observed: the lemmas, theorems and examples whose own proofs stopped compiling. A failing proof is assumed while checking the rest, so that each failure is found separately.
* `failed_theorems` is derived, not observed: the property theorems that reach a failed lemma through the names used in their statements and proofs. Lemmas of the same name in different files are not told apart, so this list can be too long. It is computed when the line is added and not afterwards.

## Per-property plan
* **C01 Packet buffer containment** - all_act invariant over `step` for every reply; data reads/writes return an explicit UB outcome when outside the buffer. Full statement is expected to be refutable (decode of padding, enum check without preceding bytes): prove it for the instruction set minus those two with witnesses for the failures.
* **C02 Fixed-size stacks never overflow** - invariant `length stk <= 8 /\ length loops <= 8` plus `UB UStack` unreachable, induction over steps.
* **C03 Decoding does not modify the packet** - decode step leaves `buf` unchanged for every instruction except CONST_WRITE (never emitted by the compiler); refutation witness for CONST_WRITE.
* **C04 Encoding writes only the reported output** - bit-level frame: a step changes only bits in [pos before, pos after); lifted over runs. Byte-order switch in mid-byte is the expected exception (witness).
* **C05 Execution terminates** - lexicographic measure over (loop frames, ip) for programs without backward jumps or read-to-end loops; refutation witnesses for the rest.
* **C06 Bytecode containment** - every bytecode read returns explicit UB outside; invariant shows it unreachable except dense switch tables whose index arithmetic wraps (witness); theorem under `length < 2^62`-style conditions.
* **C07 Host refusal stops the run** - tree shape: after a refusing reply the only continuation is Halt CALLBACK, except the two documented families.
* **C08 Cursor only moves forward and stays in the buffer** - step invariant: position monotone, bit offset < 8, cursor <= data_len; decode padding is the exception (witness).
* **C09 Integer wire format and round trip** - explicit shift/or definitions proved equal to a positional byte-list specification; round trip from it.
* **C10 Bitfield round trip without disturbing neighbours** - bit-stream specification (list of booleans of the buffer in each order); write/read as splice/slice of that list.
* **C11 Aligned bitfield fast path equals the bit-by-bit layout** - corollary of C10's refinement for both paths.
* **C12 Encode then decode reports the same values** - lock-step simulation between encode run and decode run of the produced buffer, for all programs.
* **C13 Decoding depends only on the bytes it consumed** - two decode runs on buffers equal up to the final position, simulation.
* **C14 String round trip** - instruction-level theorems over the step tree for the four string instructions.
* **C15 Signed bitfields keep their value** - Z-level theorem for sign_extend after truncation.
* **C16 Integer transforms are inverse** - Z-level inverse laws with int64 overflow as explicit UB.
* **C17 Range checks accept exactly the declared interval** - instruction-level iff over all states.
* **C18 Enum checks accept exactly the declared members** - instruction-level iff over all states, induction over the member list.
* **C19 Constant fields** - instruction-level theorems.
* **C20 Booleans are 0 or 1** - instruction-level theorems.
* **C21 CRC detects every single-bit error and every short burst** - linearity of the bitwise CRC over xor and injectivity of the shift register step.
* **C22 CRC-32 table shortcut equals the bitwise definition** - 256-entry table checked by computation and lifted; induction over the message.
* **C23 CRC sealed packets verify** - instruction-level theorem over calc_crc.
* **C24 Counted arrays run their body exactly count times** - big-step theorem for loop frames: body executed count times, for a body that returns to its end.
* **C25 Bulk byte arrays behave like element-by-element arrays** - relation of the bulk path's result and the loop's result.
* **C26 Read-to-end arrays consume exactly the rest of the packet** - as C24 for the EOF frame; frame leak on empty input is the expected refutation.
* **C27 Missing optional trailing fields decode to zero** - instruction level; validation after a missing optional field is the expected refutation.
* **C28 Switch dispatch** - table lookup specification over association lists; both instruction forms refine it.
* **C29 Expressions compute modulo 2^64** - compile expression trees to stack code and run them; evaluation modulo 2^64 with division errors.
* **C30 Verifier is total and memory safe** - verifier modelled with explicit UB reads; structural measure; theorem for all byte lists.
* **C31 Verified programs run safely** - verified programs: jump targets inside code, no bytecode OOB; refutations where lengths disagree.
* **C32 Verifier accepts compiler output** - refuted by concrete compiler output (enum and transform opcodes unknown to the verifier); partial theorem for the accepted subset.
* **C33 Compiled image loads back unchanged** - image writer and loader as functions; round trip.
* **C34 Key names and key ids are inverse** - string-table walk as function on bytes with UB outside; inverse laws.
* **C35 Loader rejects malformed images and lookups stay inside the image** - iff for the loader; lookups outside are refuted (string count unchecked).
* **C36 Numeric literals** - digit-list semantics, induction.
* **C37 String interning** - strtab as list; invariants by induction over additions.
* **C38 Lexing is total, loses nothing and counts lines** - lexer as function on byte lists, progress and slice theorems.
* **C39 Operator precedence and associativity** - Pratt parser model; grammar-directed specification; unary/grouping refutation witnesses.
* **C40 If/else executes exactly one branch** - emission of jumps modelled; execution theorem by composing with the VM.
* **C41 Switch compilation** - emission of the switch tables modelled; dispatch theorem by composing with the VM.
* **C42 Unused-name removal preserves field names** - optimize_strings modelled on bytecode; theorem for the instruction subset whose length it knows; for every code, if no name is removed the code is unchanged (C42_nothing_lost); refutations otherwise.
* **C43 Nested struct fields get qualified names** - buf_append_with_prefix modelled; theorem for the subset it knows; refutations otherwise.
* **C44 Formatting preserves the program** - formatter modelled on byte lists.
* **C45 Formatting is idempotent** - formatter modelled on byte lists.
* **C46 Byte order scoping** - field emission modelled; documented scoping refuted or proved.
* **C47 Linear scaling** - SpecFloat arithmetic on bit patterns, related by Flocq to real numbers rounded to nearest even; `SpecReal.v` gives the real value of a pattern and the rounding.
* **C48 Computed fields** - instruction-level theorems for EMIT.
* **C49 Compiled packets mean what the schema says** - token-level grammar of packets of plain fields; the compiler model on every such file gives the packet's instructions; image loading and execution composed with it: scalars, arrays and strings on the wire, the host's side given as a conversation (SpecMessage).
* **C50 Compilation terminates** - fuel proportional to the words of the files not yet imported suffices (a measure decreasing through every loop of the parser), and more fuel never changes the answer.
* **C51 JSON through the command line tool** - JSON trees and the tool's callback modelled; the callback plays the conversation of C49, so that encoding a document and decoding the message compose with the compiled packet; refutations for the values the binding distorts.
* **C52 Compiled programs do what the source says** - grammar and meaning of decorated fields, enumerations and conditionals in `SpecSource.v`: the meaning is a function on places (byte order, bytes behind, bytes ahead) and the host's state; the compiler model gives the program's instructions for every such file (`LemCompile.v`), and running them agrees with the meaning by induction on the program (`LemMeaning.v`). Values that do not fit the type are excluded and refuted.
* **C53 What one end sends, the other end receives** - by induction on the meaning of C52, with hosts that keep values by key; carried over to runs of compiled code (`LemRound.v`).
* **C54 Computed fields and switches do what the source says** - the language of `SpecSource.v` with computed fields and switches: the meaning of a switch is a choice by the bit pattern of the value; the compiler's tables, dense or listed, are those of C41, and their dispatch agrees with the choice. The compiler's last pass leaves code alone when no name is lost (C42), which is a condition of the theorem; programs where it is not met are refuted.
* **C55 What one end sends, the other end receives, with computed fields and switches** - as C53, by mutual induction on programs and cases.
* **C56 Only well-formed schemas are accepted** - an attribute grammar of the whole schema language in `SpecGrammar.v` (words, names in scope, values); a run of the parser model that ends without the error flag reads words the grammar derives, by induction on fuel through every parsing function (the error flag never goes away, `LemErr.v`; `LemGrammar*.v`). The grammar says nothing of what the compiler does not look at: the word it skips behind a parenthesis or a sign (C39), and it leaves out the bit count of bit-packed structures and the order of limits of floating point fields.
* **C57 Structures as fields mean what the schema says** - schemas, value trees, the bytes of a tree (the byte order at hand passed on) and the conversation about it in `SpecNest.v`; the parser keeps the compiled code of a structure and copies it with prefixed names, shown to be the members' instructions in place by induction over nesting (`LemNest*.v`); execution by induction over the conversation, for both directions at once (`LemNestRun.v`); refutations for long names, nine nested arrays and skipped code that looks like loops.
* **C58 JSON documents with structures survive the command line tool** - what it means for a document to present a tree of values in `SpecNestJson.v`; by induction over the document the callback plays the conversation of C57 and returns to the same pair of stacks, and when decoding it fills a document with one hole (`LemNestJson.v`); the tool's run follows the one of C57 (`LemNestCli.v`). Refutations for structures 32 deep (undefined behaviour) and for empty arrays.
* **C59 Bit fields and checksums mean what the schema says** - parts of a packet, their words, the stream of bits of a run, its bytes and the checksum of what precedes in `SpecParts.v`; numbers with conversions and @optional are parts too (running them: `LemPartsNum.v`); the parser on each part and on the file (`LemParts.v`, `LemPartsFile.v`, `LemPartsWire.v`); a run of bit instructions lays the stream down bit by bit (`LemPartsBits.v`), execution by induction over the conversation as for C57, refusal at a checksum and detection of bursts from C22 (`LemPartsRun.v`). Refutations for runs that do not fill whole bytes (old bits stay) and for decorators before @crc.
* **C60 Every received byte string is read as one message, or refused** - what it means for bytes to be incomplete or malformed in `SpecRead.v`; two messages that begin alike are equal, and bytes that are cut off can be completed (`LemReadBytes.v`); single instructions on too few bytes or a wrong boolean stop (`LemReadVM.v`); by induction over the members each one is read, short or bad, and in the first case the conversation of C57 takes place (`LemRead.v`). Refutations for NUL-terminated strings (the byte in the terminator's place is not looked at) and four-byte counters (the largest count means 'to the end').
* **C61 Layout, comments and formatting do not change the compiled schema** - `same_sources` (SpecAlike) relates two environments whose
  files have the same tokens (kind and text). LemAlike proves, function by function through the whole parser model, that related states
  go to related states with the same output, so that `compile_file` gives the same result (`C61_layout`, with no other hypothesis). With
  C44 this gives `C61_formatting_partial`: formatting any tidy files keeps the image; `C61_refuted_block_comment` shows an untidy one
  (a quote in a block comment) whose formatted version is refused by the compiler.
* **C62 The command line tool changes only its output file, and its commands compose** - `ModelTool.main` runs the commands over a file
  system: contents by file identity, with an arbitrary map from paths to files (so names may be aliases), arbitrary sets of readable
  and writable paths, and cJSON's text functions as arbitrary functions. `C62_one_file` (exit codes and frame) and
  `C62_success_partial` (the output holds what `asked_for` in SpecTool says) are proved for every argument list; the latter fails for
  outputs that cannot be opened, because encode and decode ignore the result of writing (`C62_refuted_unwritten`).
  `C62_journey_partial` and `C62_back_partial` lift C58 to whole sessions; `C62_fmt_in_place_partial` lifts C61.
* **C63 The inspector shows the program that is in the file** - `ModelInspect` follows cmd_inspect.c: reads that return 0 without advancing at the end of the file, the switch over opcodes, the walk over the names; lines are labelled numbers, not text; `rtl` is the unspecified order of calls within a printf. `SpecInspect` gives the lines an instruction should have by a table of operand layouts. Proved: exact listing of images (induction over the program), injectivity of listings, compiled packets of C59, and for arbitrary files termination and the exact condition for reading past the buffer; refutations by compiled schemas.
* **C64 Hexadecimal decoding** - `ModelHex` puts the hex mode on top of `ModelJson`: the byte of the bytecode looked at, the flag, the buffer, the strings entered. A string with children (cJSON allows it, the printer ignores them) is an array remembered as a string. `C64_same_partial` is a simulation over all runs, from a static condition on the bytecode; `C64_collected` and `C64_digits` are about the callback; the refutations are compiled schemas.
* **C65 The callback is told what its pointer points to** - `SpecHost.told` is the table of types and sizes. `C65_told`: each instruction only makes requests of the right kind, by cases over the opcodes, lifted to whole runs with the invariant of C01. `C65_strings_partial`: the strings of the decoding instructions, at every reachable state. `C65_refuted_terminator`: a string of the greatest length is accepted without its NUL and the next byte is skipped.
* **C66 The Go package does what the interpreter does** - `ModelGo` models the loader, the gateway, the accessors as reads and writes of the memory behind the pointer, and Execute. `SpecGo` has a callback as its author thinks of it, the host it amounts to, and the same callback written with the package. `C66_execute_partial` is a simulation using C65 (types and strings told). `C66_load` follows from C33 and C34. Refuted: longest NUL-terminated strings, empty packets, cut images, NULs in strings, packets of 2^31 bytes.
* **C67 The language server** - `ModelLsp` models the bytes read and written, the store of open texts, URIs and every handler over JSON trees; the analysis and the cJSON library are parameters. `SpecLsp` says how the protocol frames messages and what a conversation of openings, changes, saves, closings and questions should be answered with. `C67_session_partial` is an invariant between the store and the history of the conversation, through the framing. Refuted: formatting of unsaved text, closed texts, unknown requests, bad JSON, a negative length, long hovers, missing parameters, escapes in paths, texts of a million lines.
* **C68 Optional fields let a packet grow** - `SpecParts` has numbers with decorators, present or missing, in the language of C59; `LemPartsNum` runs them (mark, conversion, byte order, field), `LemPartsRun` the packet. `SpecEvolve.extends` says what may be added. `C68_evolution_partial` splits a conversation at the end of the old fields (`LemEvolve.said_size`), where nothing is left of an old message. Refuted: the conversion of a missing number is applied to the next, and the bytes of a number cut short are given to the next.
* **C69 Converted numbers come back** - `SpecEvolve.storable` says, in whole numbers, which values a converted field can hold; `SpecParts.stores`/`reports` are the two directions. `C69_round_trip_partial` goes from the source text through both runs. @scale and @offset are in C59 (what is stored and reported) but not here: see C47 for rounding. Refuted: remainders of @mul are lost, numbers too large for the type are cut without an error.
* **C70 Every schema the compiler accepts gives an image that loads** - an invariant of the whole parser (`LemLoad.inv`: identifiers are identifiers, names qualified and different, code and stored code are bytes), carried through every parsing function of `ModelParse` and `ModelSchema` for runs without errors (`kp`, with the stickiness of errors from `LemErr`), then through the optimiser; C33 and C34 give the loaders. No premise about the texts or the file system.
* **C71 The editor shows errors exactly when the compiler refuses** - `ModelDiag` sets the compiler's parser up as the server does; only `parse_import` looks at the list of imports (`LemDiag.frame`, a traversal of every parsing function), so the two runs correspond as long as the file itself is not asked for (`follow`). Termination as in C50. Refuted by evaluation for two files importing each other, which the compiler accepts.
* **C72 Diagnostics point into the text** - the parser's state remembers, per error, the file and token (`ModelParse.p_errs`); `LemSite.inv`, an invariant carried through every parsing function, says that each is a token of the document or of an opened file. `SpecDiag.position` counts lines and characters; `LemPlace` relates it to the column loops, given C38. Refuted for imported files, whose errors are published for the document.
* **C73 Going to a definition leads to it** - the same invariant: each definition remembered (`p_sites`) follows its keyword in the text of its file. `token_at` is the scan for the token at a position. `LemUses` shows the converse: the scan finds the token whose characters the position is in, and its definition is remembered. Refuted by evaluation: decorators at their first character, symbols of imported files, 1025 errors.
* **C74 Counted arrays and arrays to the end** - `SpecArrays` gives the grammar of the items, their instructions, bytes and conversations, on top of C49's plain fields. The parser is followed token by token to the image (`LemArrays`); the loops of `OP_ARR_DYNAMIC` and `OP_ARR_EOF` are run by induction on the elements (`LemArraysRun`). Partial: an array to the end must be last and, encoding, fill the buffer; two refutations show the rest.
* **C75 Compiler undefined behaviour** - no new model. SpecCalm says what a modest text is (digits, token counts, keywords), LemCalm walks the whole parser once more with an invariant that does not assume the absence of errors: tokens are readable numbers, the bit count of an unaligned structure is paid for by the tokens passed (65536 bits each), the next enum value by the names passed. Proved: no signed overflow under the limits; no undefined behaviour at all without doc comments and structures, and then (with C50) an image or a refusal. Refuted in general by five schemas. Missing: structures whose flattened names stay below 512 characters, doc comments outside expressions.
* **C76 Completions propose what is defined** - `ModelComplete` models handle_completion: the offset of the cursor, the scan of the tokens before it, the reading of fields out of bytecode, the list. `SpecComplete` says from the tokens alone what the cursor is inside of (a last opening that nothing has closed) and what is proposed there. Proved by induction over the tokens from the end, for decorators and structures at once; the definitions come from the grammar of C56, applied to the editor's own start state. A traversal of the parser shows that the registered names are those with remembered places, which also gives the completeness of document symbols in C73. `LemFields` follows the parser through a file with one structure (the items of C74) to the code the editor keeps of it, and reads the fields out of the code again: those in front of the first counted array are all found.
* **C77 The editor shows what the compiler says** - `ModelSession` closes the server of C67 with the analysis of C71-C73 and C76: the JSON items of diagnostics, definitions, proposals and symbols. `SpecSession` says for each message what may be sent (`reacts`), in terms of the compiler's verdict on the files with the text saved. `LemUnsaved` shows by a traversal of the parser that the analysis of a text does not depend on the contents of files it does not open, so C71 holds for unsaved texts; the rest combines C67, C71, C72, C73 and C76.
* **C78 The bindings have the constants of the C header** - `ModelBindings` models the generator byte by byte: fgets, sscanf, strtol, the tables and the three printers, with overruns of the arrays and ctype calls on negative characters as distinct outcomes. `SpecBindings` describes headers as definitions, enumerations and other lines, gives their constants by the rules of C, and says how names and files of the bindings look. Proved by induction over the header, one line at a time; names are decoded uniquely from PascalCase (`LemPascal`). Refuted: an enumeration whose first entry has no value, entries sharing a line, computed values, block comments, colliding names, overruns.
* **C79 Every received byte string is read as one frame, or refused** - C60 for the packets of C59. `SpecFrames` says which packets are read without ambiguity and what bytes are: complete, incomplete, malformed, damaged (something else in place of a checksum) or broken off (at a checksum). Proved by induction over the parts: the bytes of two values of a part never begin alike (`LemFrameBits` for bits), and the decoder's step on any bytes either finds the value or fails as it should; bit fields are read as far as there are bits, so that the part behind them notices the end. Refuted: bit fields or padding cut off at the end of a packet are accepted, padding bits are not looked at.
* **C80 A packet from anybody cannot take a compiled schema out of its memory** - No new model. `LemHostile` proves for any program made of well-formed instructions without jumps, ranges, constants or enumerations that execution stays on the boundaries of instructions (also when an empty array is skipped by scanning bytes), so that the containment lemmas of C01 apply, for any host, direction and data. `LemHostileFile` and `LemHostileLists` show that the code compiled from the packets of C59 and C74 is such a program; `SpecHostile` says which packets. Refuted with accepted schemas: an optional enumeration, padding before a string or a checksum, a computed field behind a bit field, and a number in the schema that is run as instructions when an array is empty all read outside the data. `LemHostileSource` adds the packets of C52 and C54: the proof of their meaning (`LemMeaning`) also tells why a run can be undefined, which is only a shift by 64 or more or the negation of the least number, and that every run ends.
* **C81 A packet from anybody cannot make a compiled schema run for ever** - No new model. `LemHalts` strengthens the invariant of C80: an array whose number of elements is open has a body that begins with an instruction that consumes input, so each of its rounds moves the cursor forward or ends the run; a measure made of the remaining bits, the open loops and the distance to the end of the code then decreases with every instruction. A program without arrays just runs forward. `LemHaltsFile` shows that the code compiled from the packets of C59 and C74 meets this; `SpecHalts` says which packets. Refuted with accepted schemas: a structure without fields repeated up to the end, and the same behind a four-byte counter of 2^32 - 1, which the machine takes for "up to the end": each decodes one message for ever.
