{"id": "C01", "title": "Multi-word addition, subtraction and negation are exact two's-complement arithmetic", "statement": "For bit vectors of any equal number of words, the library's add, subtract, negate, increment and decrement leave the vector holding exactly the sum, difference or negation modulo 2^bits, return the true carry/borrow, and set the signed-overflow flag exactly when the signed result is not representable.", "quantifier": "all vector lengths, all contents, both carry-in values", "why_tests_cant": "the operand space is 2^256 x 2^256 per operation; word-boundary carry chains cannot be enumerated", "anchors": ["libyasm/bitvect.c:BitVector_compute", "libyasm/bitvect.c:BitVector_Negate", "libyasm/bitvect.c:BitVector_increment", "libyasm/bitvect.c:BitVector_decrement"]}
{"id": "C02", "title": "Multi-word multiplication and division are exact signed arithmetic", "statement": "Multiplying two bit vectors of width n yields the exact signed product without error when its magnitude is below 2^(n-1) and reports overflow when its magnitude exceeds 2^(n-1); at magnitude exactly 2^(n-1) overflow is reported unless one factor is the most negative value and the other 1 or -1, which pass unreported with the product wrapped (so 'overflow exactly when unrepresentable' is false in both directions there). Dividing by a nonzero value gives a remainder with the dividend's sign and smaller than the divisor, and dividend = quotient*divisor + remainder, except that the most negative value divided by -1 wraps to itself; dividing by zero is reported.", "quantifier": "all operand values of any common width", "why_tests_cant": "carry, sign and shift-subtract interactions over a 2^512 input space", "anchors": ["libyasm/bitvect.c:BitVector_Mul_Pos", "libyasm/bitvect.c:BitVector_Multiply", "libyasm/bitvect.c:BitVector_Div_Pos", "libyasm/bitvect.c:BitVector_Divide"]}
{"id": "C03", "title": "Hexadecimal, octal and binary literals denote their mathematical value", "statement": "Parsing a digit string in base 16, 8 or 2 (underscores ignored) stores exactly the positional value of the string modulo 2^bits, for strings of every length; an error is reported exactly when an invalid character occurs among the digits looked at, which are the last ones as many as the vector's words hold.", "quantifier": "all strings, all vector widths", "why_tests_cant": "digits straddle word boundaries (octal) at unboundedly many alignments", "anchors": ["libyasm/bitvect.c:BitVector_from_Hex", "libyasm/bitvect.c:BitVector_from_Oct", "libyasm/bitvect.c:BitVector_from_Bin"]}
{"id": "C04", "title": "Assembly-time integer operations agree with 256-bit two's-complement arithmetic", "statement": "For every arithmetic, bitwise, shift, comparison and logical operator, evaluating it on two assembler integers whose stored representation is canonical gives the mathematically expected value reduced to a signed 256-bit integer, again in canonical representation, without error: / and // truncate, % and %% take the dividend's sign, right shifts are arithmetic. Two exceptions are characterised: a product of magnitude 2^255 or more may be wrong with no error reported, and a right shift by 2^31 or more (or any shift by a negative count) gives 0 even for negative numbers. Division or modulus by zero and a missing operand are reported and leave the accumulator unchanged; SEG, WRT and ':' set an error but return success and overwrite the accumulator with a stale result.", "quantifier": "all operators, all pairs of canonical integers", "why_tests_cant": "values of up to 256 bits; representation switches between machine integers and bit vectors", "anchors": ["libyasm/intnum.c:yasm_intnum_calc", "libyasm/intnum.c:intnum_tobv", "libyasm/intnum.c:intnum_frombv"]}
{"id": "C05", "title": "Machine integers outside the 32-bit range lose bits (64-bit hosts)", "statement": "On LP64 hosts the API contract that an integer created from a (unsigned) long keeps its value is false. Creating from an unsigned long u and reading back gives u exactly for u < 2^63 (u mod 2^32 beyond); any arithmetic on it sees u mod 2^32, and on one created from a signed long the low 32 bits of the magnitude, so it is exact precisely below 2^32 in magnitude. Reading a canonical integer as unsigned is exact in [0, 2^32), silently drops bit 32 in [2^32, 2^33), saturates above and gives 0 for negatives; reading as signed is exact strictly within 2^31 and saturates outside. The range test truncates its bounds to 32 bits. Setting an existing wide integer to u >= 2^63 keeps its high bits.", "quantifier": "all long and unsigned long inputs, all canonical integers", "why_tests_cant": "a characterisation of all safe inputs, not one sample", "anchors": ["libyasm/intnum.c:yasm_intnum_create_uint", "libyasm/intnum.c:intnum_tobv", "libyasm/intnum.c:yasm_intnum_get_uint"]}
{"id": "C06", "title": "Variable-length (LEB128) encoding round-trips and its advertised size is exact", "statement": "Encoding a canonical integer as LEB128 and decoding it by the DWARF rules returns the same integer (unsigned: modulo 2^256; signed: except values <= -2^251, which decode 2^256 too high); the bytes written equal the size query. No shorter encoding decodes to the same value, except for signed -2^(7m-1), written one byte too long. The helpers taking machine integers encode only the low 32 bits of the magnitude and, when these are zero but the value is not, write without bound.", "quantifier": "all canonical integers, all longs, both signednesses, any following bytes", "why_tests_cant": "unbounded integer domain; minimality quantifies over all byte strings", "anchors": ["libyasm/intnum.c:yasm_intnum_get_leb128", "libyasm/intnum.c:yasm_intnum_size_leb128", "libyasm/intnum.c:yasm_get_sleb128", "libyasm/intnum.c:yasm_get_uleb128"]}
{"id": "C07", "title": "Writing a sized integer field changes exactly that field", "statement": "Storing a canonical integer into a little-endian byte buffer at a bit offset and bit width makes that field equal to the integer's low bits and leaves every other bit of the buffer unchanged; with a negative shift the field starts at bit 0 and holds the integer shifted right. A warning is issued exactly when the value does not fit the field in the requested signedness, or non-zero bits are shifted out. (The argument, although const, is left shifted right when it is stored as a wide vector.)", "quantifier": "all buffer contents up to 256 bits, all widths, shifts, warning modes and canonical values", "why_tests_cant": "frame condition over all surrounding bits", "anchors": ["libyasm/intnum.c:yasm_intnum_get_sized"]}
{"id": "C08", "title": "Range check used for overflow warnings is exact", "statement": "The size check answers yes exactly when the value, after the requested right shift, lies in [0, 2^size) (unsigned), [-2^(size-1), 2^(size-1)) (signed) or [-2^(size-1), 2^size) (either), for sizes 1 to 255; size 0 accepts 0 (and -1 in the signed modes), sizes from 256 accept everything.", "quantifier": "all canonical integers, all sizes, all shifts, all modes", "why_tests_cant": "boundary values exist at every bit size", "anchors": ["libyasm/intnum.c:yasm_intnum_check_size"]}
{"id": "C09", "title": "The symbol hash table behaves as a finite map from names to records", "statement": "After any sequence of insertions (replacing or not) a search returns the record most recently stored for that name under the stated replace policy, never a record of another name, and nothing for absent names.", "quantifier": "all insertion histories that return, all names", "why_tests_cant": "trie depth and re-hash levels depend on colliding hash bits; histories are unbounded", "anchors": ["libyasm/hamt.c:HAMT_insert", "libyasm/hamt.c:HAMT_search"]}
{"id": "C10", "title": "Symbol table traversal visits every name once in first-insertion order", "statement": "Traversing the table calls the callback once per distinct name, in the order in which the names were first inserted, and stops at the first non-zero callback result, which it returns.", "quantifier": "all histories, all callbacks", "why_tests_cant": "order over unbounded histories", "anchors": ["libyasm/hamt.c:HAMT_traverse", "libyasm/hamt.c:HAMT_insert"]}
{"id": "C11", "title": "Inserting a name is not guaranteed to return", "statement": "There exist two different names for which inserting the second after the first never terminates; insertion terminates whenever the two names' hash values differ at some examined level.", "quantifier": "all pairs of names", "why_tests_cant": "the failing pair is adversarial and non-termination is not observable by a test", "anchors": ["libyasm/hamt.c:HAMT_insert", "libyasm/hamt.c:ReHashKey"]}
{"id": "C12", "title": "Source-line lookup returns the governing mapping", "statement": "For every history of line mappings recorded at non-decreasing virtual lines, looking up a virtual line yields the file of the last mapping at or before that line, and physical line = mapped line + increment*(distance); before any mapping it yields file unknown/line 0.", "quantifier": "all histories and all virtual lines", "why_tests_cant": "binary search over unbounded arrays", "anchors": ["libyasm/linemap.c:yasm_linemap_set", "libyasm/linemap.c:yasm_linemap_lookup"]}
{"id": "C13", "title": "Out-of-order line mappings can be lost to lookup", "statement": "If mappings are recorded at decreasing virtual lines, lookup may return an earlier-recorded mapping that is not the governing one; a concrete history exhibits it, and ordered histories are exactly safe.", "quantifier": "histories", "why_tests_cant": "existence of an adversarial history, and the universal converse", "anchors": ["libyasm/linemap.c:yasm_linemap_set", "libyasm/linemap.c:yasm_linemap_lookup"]}
{"id": "C14", "title": "Poking a line: what it changes and what it fails to restore", "statement": "Overriding the origin of one virtual line makes that line read as the poked file and line and leaves every earlier covered line as it was; but, contrary to the documentation (\"restoring the original physical location relationship\"), the lines after it do not return to the mapping in force before the poke: a concrete history exhibits it.", "quantifier": "all ordered histories", "why_tests_cant": "frame property over all lines", "anchors": ["libyasm/linemap.c:yasm_linemap_poke"]}
{"id": "C15", "title": "Interval enumeration reports exactly the overlapping intervals", "statement": "After any sequence of insertions into an interval tree, enumerating a query interval reports each stored interval that intersects it exactly as often as it was inserted and no other, and the enumeration always ends. The ends must be in order and fit an int: with ends in reverse order or a query from the least long an intersecting interval is missed, and with ends beyond an int a disjoint one is reported.", "quantifier": "all insertion sequences of intervals within int, all queries within int", "why_tests_cant": "tree shape and cached maxima depend on rotations over unbounded histories", "anchors": ["libyasm/inttree.c:IT_insert", "libyasm/inttree.c:IT_enumerate"]}
{"id": "C16", "title": "The interval tree stays balanced", "statement": "Every insertion succeeds (no rotation goes through a sentinel), and after any sequence of insertions the tree is a valid red-black tree holding that many nodes, so its height is at most 2*log2(n+1).", "quantifier": "all insertion sequences", "why_tests_cant": "logarithmic bound for all n", "anchors": ["libyasm/inttree.c:IT_insert"]}
{"id": "C17", "title": "Stable merge sort sorts stably", "statement": "Sorting returns a permutation of the input, ordered by the comparison, with equal elements in their original order.", "quantifier": "all arrays, all total-preorder comparisons", "why_tests_cant": "stability and permutation over unbounded arrays", "anchors": ["libyasm/mergesort.c:yasm__mergesort"]}
{"id": "C18", "title": "Diagnostics are reported in line order, stably", "statement": "After any sequence of propagated errors and warnings the report lists them in non-decreasing line order, and diagnostics for the same line appear in the order raised.", "quantifier": "all sequences of diagnostics and lines", "why_tests_cant": "insertion position is cached between calls; histories unbounded", "anchors": ["libyasm/errwarn.c:errwarn_data_new", "libyasm/errwarn.c:yasm_errwarn_propagate", "libyasm/errwarn.c:yasm_errwarns_output_all"]}
{"id": "C19", "title": "A parser error can swallow an unrelated later diagnostic", "statement": "The documented rule that only a parser error on the same line may be replaced is violated: there is a history in which an error on one line is overwritten by an error of another line; in histories without parse-class errors every error raised is reported.", "quantifier": "histories of diagnostics", "why_tests_cant": "needs the exact history and a universal statement for the safe ones", "anchors": ["libyasm/errwarn.c:errwarn_data_new", "libyasm/errwarn.h"]}
{"id": "C20", "title": "Only the first pending error is kept; warnings are FIFO and filtered by class", "statement": "Setting an error while another is pending has no effect until it is fetched or cleared; warnings are fetched in the order set, and a warning whose class is disabled at set time is never fetched.", "quantifier": "all interleavings of set/fetch/clear/enable/disable calls", "why_tests_cant": "arbitrary interleavings", "anchors": ["libyasm/errwarn.c:yasm_error_set", "libyasm/errwarn.c:yasm_warn_set", "libyasm/errwarn.c:yasm_warn_fetch", "libyasm/errwarn.c:yasm_error_fetch"]}
{"id": "C21", "title": "A symbol keeps its first definition", "statement": "In any sequence of symbol-table operations a symbol once defined keeps that definition; every later definition attempt is reported as an error naming the first definition's line; declarations of conflicting visibility are rejected.", "quantifier": "all operation sequences", "why_tests_cant": "arbitrary histories over names", "anchors": ["libyasm/symrec.c:symtab_define", "libyasm/symrec.c:yasm_symtab_declare", "libyasm/symrec.c:yasm_symrec_declare"]}
{"id": "C22", "title": "Every used-but-undefined symbol is diagnosed exactly once", "statement": "At finalization, if undefined symbols are not external by policy, an error is recorded for each symbol used but neither defined nor declared external/common, at its first use, in first-seen order; otherwise every such symbol becomes external.", "quantifier": "all symbol tables", "why_tests_cant": "all histories", "anchors": ["libyasm/symrec.c:yasm_symtab_parser_finalize", "libyasm/symrec.c:symtab_parser_finalize_checksym"]}
{"id": "C23", "title": "A pending error makes a label definition incomplete", "statement": "Defining a label or constant while an unrelated error is pending marks the name as defined but stores no location/value, so the name can neither be resolved nor redefined; without a pending error a successful definition always has its value.", "quantifier": "all symbol-table states", "why_tests_cant": "existential history plus universal safe case", "anchors": ["libyasm/symrec.c:yasm_symtab_define_label", "libyasm/symrec.c:yasm_symtab_define_equ"]}
{"id": "C24", "title": "Alignment padding is minimal", "statement": "An alignment directive pads to the next multiple of the boundary (a power of two) with the least number of bytes, or emits nothing when that exceeds the maximum skip. The bytes written are exactly that many. Moving the directive up to the threshold it reports leaves its end in place (or still emits nothing), and a skipped alignment takes effect from the first offset past the threshold.", "quantifier": "all offsets below 2^63, boundaries 2^k below 2^32, fill values and skip limits below 2^32", "why_tests_cant": "all offsets", "anchors": ["libyasm/bc-align.c:bc_align_expand", "libyasm/bc-align.c:bc_align_tobytes"]}
{"id": "C25", "title": "ORG pads exactly to the target or is rejected", "statement": "An origin directive advances the section offset exactly to the requested value when it is not below the current offset, writing that many fill bytes, and otherwise reports an error and writes nothing.", "quantifier": "all 64-bit offsets and targets", "why_tests_cant": "all offsets", "anchors": ["libyasm/bc-org.c:bc_org_expand", "libyasm/bc-org.c:bc_org_tobytes"]}
{"id": "C26", "title": "Data directives emit exactly their elements in order", "statement": "For any list of data values (integers, strings, expressions left to the object format, reserved space, LEB128) with repeat counts from 1 on, element size and optional zero terminator after each element, the two passes over the list agree (no memory error), the emitted bytes are the concatenation of the repeated elements' encodings (constants little endian cut to the element size, strings padded with zeros to a multiple of it), and their number equals the length computed before layout. A value that is not constant in 256-bit data however emits nothing at all; a count of zero emits one copy, a repeated empty string at the end follows a null pointer, and a string in a LEB128 directive divides by zero.", "quantifier": "all element lists, sizes 1 to 32 (below 32 for values that are not constant; 0 for LEB128), counts 1 to 2^32-1, any object format; the counterexamples beyond", "why_tests_cant": "two-pass buffering with merged runs over unbounded lists", "anchors": ["libyasm/bc-data.c:yasm_bc_create_data", "libyasm/bc-data.c:bc_data_calc_len", "libyasm/bc-data.c:bc_data_tobytes"]}
{"id": "C27", "title": "Output of a bytecode is exactly length times multiple bytes", "statement": "Converting a bytecode to bytes writes its calculated length once per repetition, the k-th part being what the bytecode wrote the k-th time; reserved space reports length times repetitions times items and writes nothing; a count of zero, negative or not constant writes nothing; a bytecode that writes another number of bytes without reporting an error is never accepted. Counts from 2^31 on are read as the greatest long instead.", "quantifier": "all bytecodes, lengths and counts below 2^31; the counterexample for 2^31", "why_tests_cant": "all lengths and buffer sizes", "anchors": ["libyasm/bytecode.c:yasm_bc_tobytes", "libyasm/bytecode.c:yasm_bc_calc_len"]}
{"id": "C28", "title": "The size optimiser leaves a consistent layout, and ends if nothing is counted", "statement": "Whenever the optimiser succeeds: every bytecode's offset is the sum of the sizes before it in its section, every bytecode has the length of the form chosen for its spans, every span is within the limits of that form, every ALIGN or ORG has the length its offset demands, and every TIMES has the count its expression has in the final layout. For programs without computed TIMES whose sizes do not shrink when a span expands, it ends after a number of steps bounded by the number of forms and spans, with success or an error. With TIMES counts that depend on each other in a cycle of three, it runs for ever.", "quantifier": "all programs: any number of sections, bytecodes, spans, terms and offset setters; all value functions and limits", "why_tests_cant": "all finite programs; cascades of expansions", "anchors": ["libyasm/section.c:yasm_object_optimize", "libyasm/section.c:update_all_bc_offsets", "libyasm/section.c:check_cycle"]}
{"id": "C29", "title": "Optimisation never expands more than necessary, except across alignment", "statement": "For programs whose spans are distances from their own bytecode (jumps), without offset setters or counts, and with a distance of zero acceptable to every form: the result is the least layout \u2014 no consistent layout gives any instruction a shorter form \u2014 and if a consistent layout exists the optimiser finds it instead of reporting an error. Across an ALIGN this fails: a jump is made long although a layout exists in which it is short and no other jump is longer.", "quantifier": "all such programs, all consistent layouts", "why_tests_cant": "least fixpoint over all assignments", "anchors": ["libyasm/section.c:yasm_object_optimize"]}
{"id": "C30", "title": "Expression simplification preserves value", "statement": "Whenever simplifying an expression finishes, the result has the original's value under every assignment of its symbols and registers that agrees with the named constants and, when label distances are folded, with the labels' positions; values are 256-bit signed integers or segment:offset pairs, products must not overflow and operands of && and || must be 0 or 1 (see C31, C04). The result is well formed with at most one integer per associative node, mentions no symbol or register that was not there, and no constant unless a circular definition was reported. An integer read from an expression equals its value, and an expression made of integers and constants always reads as one.", "quantifier": "all expression trees, all symbol tables of constants and labels, all environments", "why_tests_cant": "unbounded trees and environments", "anchors": ["libyasm/expr.c:yasm_expr__level_tree", "libyasm/expr.c:expr_simplify_identity", "libyasm/expr.c:expr_level_op"]}
{"id": "C31", "title": "Logical identities are simplified to a different value", "statement": "Simplifying (n && x) with n non-zero, or (0 || x), yields x rather than its truth value, for every such n and every symbol x; so the value changes whenever x is neither 0 nor 1.", "quantifier": "all canonical integers, all symbols", "why_tests_cant": "existential with exact characterisation", "anchors": ["libyasm/expr.c:expr_can_destroy_int_left", "libyasm/expr.c:expr_can_destroy_int_right"]}
{"id": "C32", "title": "Circular constant definitions are detected", "statement": "Expanding named constants inside an expression terminates for every symbol table and reports an error exactly when a constant's definition depends on itself.", "quantifier": "all symbol tables of constants", "why_tests_cant": "cycles of any length through any sharing", "anchors": ["libyasm/expr.c:expr_expand_equ", "libyasm/expr.c:yasm_expr__level_tree"]}
{"id": "C33", "title": "x86 effective-address encoding denotes the requested address", "statement": "For every instruction with an effective address (any expression of registers, multipliers, constants and one symbol; 16/32/64-bit, VSIB, RIP-relative or DEFAULT REL, any requested displacement size), the emitted bytes are: segment override, address-size prefix, legacy prefixes, REX or VEX with opcode, ModRM, SIB, displacement, immediate. Read back by the processor's rules in the address size the prefixes select, the reg field is the one asked for, and base + index*scale + displacement (+ next instruction) equals the requested address modulo the address size, provided the displacement is as wide as an address, absent, chosen by the assembler without a pending span, or able to hold the value needed. A register operand decodes to the register asked for, with AH..BH never under REX. One thing does not hold without a bound: multipliers of 2^31 and more are truncated, so [rax*2147483648+rax*2] is encoded as [rax].", "quantifier": "all expressions, registers, modes, displacement sizes, span expansions and symbol addresses", "why_tests_cant": "large combinational space plus all displacement values", "anchors": ["modules/arch/x86/x86expr.c:yasm_x86__expr_checkea", "modules/arch/x86/x86expr.c:x86_checkea_calc_displen", "modules/arch/x86/x86expr.c:x86_expr_checkea_getregusage", "modules/arch/x86/x86expr.c:x86_expr_checkea_distcheck_reg", "modules/arch/x86/x86bc.c:x86_bc_insn_tobytes"]}
{"id": "C34", "title": "x86 instruction length prediction equals bytes emitted", "statement": "For every instruction or relative jump descriptor, the length computed before layout, after any sequence of span expansions, equals the number of bytes of each emitted copy; neither expansion nor emission ends in an internal error for descriptors the parser can produce (modes 16/32/64, REX only in 64-bit mode, finalized values).", "quantifier": "all descriptors, all expansions", "why_tests_cant": "product of all optional parts", "anchors": ["modules/arch/x86/x86bc.c:x86_bc_insn_calc_len", "modules/arch/x86/x86bc.c:x86_bc_insn_tobytes", "modules/arch/x86/x86bc.c:x86_bc_insn_expand", "modules/arch/x86/x86bc.c:x86_bc_jmp_calc_len", "modules/arch/x86/x86bc.c:x86_bc_jmp_expand", "modules/arch/x86/x86bc.c:x86_bc_jmp_tobytes"]}
{"id": "C35", "title": "x86 relative jumps land on their target", "statement": "For short, near-16 and near-32/64 jumps to a symbol in the same section, and every copy under TIMES, adding the emitted displacement to the address after that copy gives the target address modulo the size of the displacement field, and exactly the target if the distance fits the field. A short form is used only when its span was not exceeded, and the span is exactly a signed byte counted from the end of the jump. One thing does not hold: under TIMES only the first copy is checked, so a later copy of a short jump can wrap and land elsewhere.", "quantifier": "all distances and opcode lengths", "why_tests_cant": "all distances", "anchors": ["modules/arch/x86/x86bc.c:x86_bc_jmp_calc_len", "modules/arch/x86/x86bc.c:x86_bc_jmp_tobytes"]}
{"id": "C36", "title": "Code-alignment filler has the requested length and does nothing", "statement": "In every processor mode and no-op style, the x86 filler of n bytes occupies exactly n bytes for every n > 0, and executing it from its start runs through to its end by instructions that change no register, flag or memory. The LC-3b filler does so for exactly the even n and reports an error for odd n.", "quantifier": "all n > 0, all modes and no-op styles", "why_tests_cant": "unbounded n", "anchors": ["modules/arch/x86/x86arch.c:x86_get_fill", "libyasm/bc-align.c:bc_align_tobytes"]}
{"id": "C37", "title": "Flat-binary sections are placed aligned, in order and without overlap", "statement": "Every section of a flat binary gets a load address that is a multiple of its alignment: with an explicit start the first such address not below it, with follows the first not below the end of the section named, otherwise the first not below the origin and the ends of all sections placed before it; sections without start are placed in source order, nobits ones last, those with start by their start. Two sections that have a byte in common are reported, and nothing else is; sections without explicit starts that follow one another in chains never overlap. The number of bytes reported can be wrong.", "quantifier": "all section graphs: any number of sections below 4 GiB, alignments that are powers of two up to 2^31, addresses up to 2^200", "why_tests_cant": "arbitrary trees of sections", "anchors": ["modules/objfmts/bin/bin-objfmt.c:group_assign_start_recurse", "modules/objfmts/bin/bin-objfmt.c:check_lma_overlap"]}
{"id": "C38", "title": "DWARF line programs decode to the intended rows", "statement": "For a section whose first row's .loc directive directly follows a label, running the emitted line-number operations through the DWARF state machine yields, in order, for each recorded location (of several at one offset, for the last, their flags adding up) a row with its address, file, line, column and flags, ending with an end-sequence row at the section's end. Without such a label all addresses are displaced by the distance back to the last label; a .loc behind the last bytecode, and a step of 2^32 lines, make the writer misbehave.", "quantifier": "all sections, bytecodes, labels and sequences of locations with any address and line deltas below 2^32", "why_tests_cant": "special-opcode selection boundaries over unbounded sequences", "anchors": ["modules/dbgfmts/dwarf2/dwarf2-line.c:dwarf2_dbgfmt_gen_line_op", "modules/dbgfmts/dwarf2/dwarf2-line.c:dwarf2_dbgfmt_generate_line_section"]}
{"id": "C39", "title": "DWARF line tables can be displaced when a label follows the first instruction", "statement": "With assembler-source line info the written .debug_line reads back, section by section, as one row for each bytecode with an offset of its own, at its address, with its source line and a file number standing for its source path, then the end of the sequence; but if a label directly follows the first such bytecode of a section, all addresses of the section are shifted by that bytecode's length.", "quantifier": "all sections, bytecodes, labels and line maps", "why_tests_cant": "existential program plus safe universal case", "anchors": ["modules/dbgfmts/dwarf2/dwarf2-line.c:dwarf2_dbgfmt_generate_line_bc"]}
{"id": "C40", "title": "Path splitting drops part of directory names ending in a dot", "statement": "Splitting a Unix path into head and tail returns the text after the last slash as tail, always. If no directory name ends in a single dot (\".\" itself is fine), the head names the same directories, is absolute when the path is, and does not end in a slash unless it is \"/\". For directory names ending in a single dot this fails: \"a./b\" has head \"a\".", "quantifier": "all paths", "why_tests_cant": "all strings", "anchors": ["libyasm/file.c:yasm__splitpath_unix"]}
{"id": "C41", "title": "Combining paths resolves relative names lexically", "statement": "Combining a base path and another path always ends, yields a path that never contains a doubled slash and fits its buffer. If the base has no name ending in a single dot and no \".\" component apart from a final run of \"./\" (or the other path does not begin by climbing), the result denotes the place reached by walking the other path's components from the base directory. With \".\" inside the base and a climbing path this fails: \"./b/x\" with \"../../y\" gives \"y\".", "quantifier": "all pairs of paths", "why_tests_cant": "all strings", "anchors": ["libyasm/file.c:yasm__combpath_unix"]}
{"id": "C42", "title": "String unescaping never grows and inverts escaping", "statement": "Unescaping a C-style string gives the documented meaning of its escapes, never produces more bytes than it consumes, works when reading and overwriting one buffer, and inverts the canonical escaping of every byte string.", "quantifier": "all byte strings", "why_tests_cant": "all strings", "anchors": ["libyasm/file.c:yasm_unescape_cstring"]}
{"id": "C43", "title": "Float output rounds the internal value to nearest", "statement": "Converting the internal 80-bit float to IEEE half, single, double or x87 extended format yields the sign, exponent and mantissa of the internal value rounded to nearest (ties away from zero). If that is too large for the format the result is infinity with an overflow indication, in the extended format however the pattern without integer bit, which x87 processors reject. If it is below the normal range the result is zero with an underflow indication; there are no subnormal results.", "quantifier": "all internal values, all formats", "why_tests_cant": "2^97 internal values", "anchors": ["libyasm/floatnum.c:floatnum_get_common", "libyasm/floatnum.c:yasm_floatnum_get_sized"]}
{"id": "C44", "title": "ELF string table offsets point at their strings", "statement": "After any sequence of appends and renames, the recorded index of each string is the offset at which that string is found, NUL-terminated, in the emitted table, and the emitted size is the sum of the parts.", "quantifier": "all sequences of operations and strings", "why_tests_cant": "all histories", "anchors": ["modules/objfmts/elf/elf.c:elf_strtab_append_str", "modules/objfmts/elf/elf.c:elf_strtab_entry_set_str", "modules/objfmts/elf/elf.c:elf_strtab_output_to_file"]}
{"id": "C45", "title": "ELF local symbols precede the others and are counted", "statement": "For every sequence of weak, type and size directives followed by a traversal that visits each symbol once, the symbol table starts with the null and the file entry, holds no entry twice, numbers its entries consecutively, has all local entries before all others, and the number reported for the section header is the number of local entries.", "quantifier": "all sequences of directives, all sets of symbols, all configurations", "why_tests_cant": "all histories", "anchors": ["modules/objfmts/elf/elf.c:elf_symtab_insert_local_sym", "modules/objfmts/elf/elf.c:elf_symtab_assign_indices", "modules/objfmts/elf/elf-objfmt.c:elf_objfmt_build_symtab"]}
{"id": "C46", "title": "Preprocessor expressions parse with the documented precedence", "statement": "The expression evaluator of the NASM and GAS preprocessors reads exactly the documented grammar (ten levels of left-associative binary operators, unary operators binding tightest; relational and logical ones only where allowed, also inside parentheses). Every text of the grammar followed by a token that cannot continue it is read up to there, with exactly the errors of the unsupported operands, and the expression built has the value of the tree the grammar gives (an integer if the operands are); in every other case NULL is returned and an error was reported. In particular the text of any tree with the fewest parentheses reads back as that tree. It always terminates.", "quantifier": "all token sequences, symbol tables and expression trees", "why_tests_cant": "unbounded nesting", "anchors": ["modules/preprocs/nasm/nasm-eval.c:nasm_evaluate", "modules/preprocs/gas/gas-eval.c:evaluate"]}
{"id": "C47", "title": "Associated data holds one value per key", "statement": "Attaching data under a callback key replaces (and destroys exactly once) earlier data of that key, leaves other keys alone, and lookups return the latest.", "quantifier": "all operation sequences", "why_tests_cant": "all histories", "anchors": ["libyasm/assocdat.c:yasm__assoc_data_add", "libyasm/assocdat.c:yasm__assoc_data_get"]}
{"id": "C48", "title": "Recorded source text is recalled exactly", "statement": "After any history of line advances and recorded source lines, asking for the source of a virtual line returns the bytecode and text most recently recorded for that line, and nothing if none was recorded.", "quantifier": "all histories without counter wrap-around, all lines", "why_tests_cant": "the growing table and its index arithmetic interact with arbitrarily long histories", "anchors": ["libyasm/linemap.c:yasm_linemap_add_source", "libyasm/linemap.c:yasm_linemap_get_source"]}
{"id": "C49", "title": "A name is never both defined and common", "statement": "A symbol that has been declared COMMON cannot later become DEFINED as a label or EQU without a diagnostic (the state table in yasm_symrec_declare lists common+defined as impossible).  The faithful model refutes this: declaring a name COMMON and then defining it leaves it both, with no error and no warning.", "quantifier": "all call sequences (refuted by a witness sequence)", "why_tests_cant": "the combination is accepted silently, so no test that looks for a diagnostic notices it", "anchors": ["libyasm/symrec.c:293-316", "libyasm/symrec.c:376-401"]}
{"id": "C50", "title": "Names are matched by spelling, modulo case when asked", "statement": "The record a symbol-table call returns is found again under exactly the spellings that count as the same name: equal strings in case-sensitive mode, strings equal up to ASCII case in case-insensitive mode.", "quantifier": "all call histories, all pairs of names", "why_tests_cant": "pairs of names and hash collisions are unbounded", "anchors": ["libyasm/symrec.c:160-199", "libyasm/symrec.c:277-291"]}
{"id": "C51", "title": "The scanner buffer shows the lexer the input stream", "statement": "For every interleaving of buffer refills and lexer moves, the text from the current token onward in the buffer is that of the input stream, cursor and marker keep their distance from the token, and refills (including the newline stored at end of input) never write beyond the allocated buffer; only the very first fill reports being first.", "quantifier": "all sequences of refills with blocks of any size up to the block size and lexer moves", "why_tests_cant": "tokens spanning any number of blocks and refills at any offset", "anchors": ["libyasm/file.c:yasm_fill_helper", "libyasm/file.c:yasm_scanner_initialize"]}
{"id": "C52", "title": "Decimal literals are exact or reported, but leading zeros can overflow", "statement": "Reading a decimal digit string into a vector of n >= 32 bits stores exactly its value and succeeds when the value is below 2^n and the weight of the leading nine-digit block (10^(9*((length-1)/9))) is too; otherwise overflow is reported; a string containing a non-digit is never accepted. Without leading zeros the result is therefore exact or reported as overflow exactly when the value is not below 2^n; with enough leading zeros even the value 1 is reported as overflow.", "quantifier": "all strings, all widths of at least 32 bits", "why_tests_cant": "the digit strings are unbounded and the carry chains across words cannot be enumerated", "anchors": ["libyasm/bitvect.c:BitVector_from_Dec_static"]}
{"id": "C53", "title": "Bit vector logic, shifts, chunk and block access touch exactly the bits they name", "statement": "Union, intersection, symmetric difference and complement act on the signed values as the integer bitwise operators; left moves multiply modulo 2^bits and the one-bit right shift divides, with the true bit shifted out; storing a chunk at a bit offset replaces exactly the bits of the chunk that lie inside the vector and leaves every other bit alone, reading a chunk returns exactly those bits; byte blocks are little endian in both directions. No operation sets a bit beyond the vector's width.", "quantifier": "all vectors of every width, all offsets and chunk sizes, all buffers", "why_tests_cant": "frame condition over every other bit, for widths that are and are not a multiple of the word", "anchors": ["libyasm/bitvect.c:Set_Union", "libyasm/bitvect.c:Set_Complement", "libyasm/bitvect.c:BitVector_Move_Left", "libyasm/bitvect.c:BitVector_shift_right", "libyasm/bitvect.c:BitVector_Chunk_Store", "libyasm/bitvect.c:BitVector_Chunk_Read", "libyasm/bitvect.c:BitVector_Block_Store", "libyasm/bitvect.c:BitVector_Block_Read"]}
{"id": "C54", "title": "Integers are created with the value their text or bytes denote", "statement": "Hexadecimal, octal and binary literals (underscores ignored, any length) and decimal literals below 2^256 without leading zeros become canonical integers with the literal's value reduced to a signed 256-bit integer; a decimal literal of 2^256 or more is reported. Character constants take the first character as least (NASM) or most (TASM) significant byte, with overflow reported beyond 32 characters; from four characters on the number is always a wide vector, which other queries misread ('abcd' reads as LONG_MAX). Reading LEB128 data gives the DWARF value and consumes exactly its bytes for up to 36 bytes, and reports overflow beyond; reading a sized little-endian integer gives its signed or unsigned value.", "quantifier": "all digit strings, all character strings, all byte sequences", "why_tests_cant": "unbounded strings; carry and sign-extension chains across words cannot be enumerated", "anchors": ["libyasm/intnum.c:yasm_intnum_create_dec", "libyasm/intnum.c:yasm_intnum_create_hex", "libyasm/intnum.c:yasm_intnum_create_charconst_nasm", "libyasm/intnum.c:yasm_intnum_create_charconst_tasm", "libyasm/intnum.c:yasm_intnum_create_leb128", "libyasm/intnum.c:yasm_intnum_create_sized"]}
{"id": "C55", "title": "Building an expression succeeds and keeps its meaning", "statement": "Creating an expression from well-formed operands always succeeds, gives a well-formed expression, and its value is the operator applied to the operands' values. Simplifying such an expression later can however destroy a subexpression twice: a*b*(c/3) with constants a = 0 and b = 2.", "quantifier": "all operators, all well-formed operand trees, all environments", "why_tests_cant": "folding works in place over arrays of unbounded length; the double destruction needs constants that fold only after expansion", "anchors": ["libyasm/expr.c:yasm_expr_create", "libyasm/expr.c:expr_simplify_identity", "libyasm/expr.c:expr_level_op"]}
{"id": "C56", "title": "Substituting recorded label distances back is sound", "statement": "Replacing differences of labels in an expression by numbered placeholders records one pair per placeholder; substituting for each placeholder the distance between its two labels gives an expression with the original's value, and no placeholder refers outside the recorded pairs.", "quantifier": "all expression trees and label tables, all environments", "why_tests_cant": "distances may appear at any depth and be merged by levelling around them", "anchors": ["libyasm/expr.c:yasm_expr__bc_dist_subst", "libyasm/expr.c:expr_xform_bc_dist_base", "libyasm/expr.c:yasm_expr__subst"]}
{"id": "C57", "title": "Included binary files contribute exactly the requested slice", "statement": "An incbin directive with a start offset and a maximum length writes exactly the bytes of the file from the start on, at most the maximum, and its length computed before layout is that number; a start past the end gives no bytes and a warning. A maximum of zero however is taken as none and includes the whole rest.", "quantifier": "all files, starts and lengths below 2^32", "why_tests_cant": "Files and offsets are unbounded; the zero case depends on value finalisation elsewhere.", "anchors": ["libyasm/bc-incbin.c:bc_incbin_finalize", "libyasm/bc-incbin.c:bc_incbin_calc_len", "libyasm/bc-incbin.c:bc_incbin_tobytes"]}
{"id": "C58", "title": "Offsets and label distances are exact", "statement": "The offset after a bytecode is its offset plus length times count, and the distance between two positions of one section is the difference of their offsets, negative when going back; positions in different sections have no distance. Backward distances of 2^32 and more lose their upper bits.", "quantifier": "all offsets, distances below 2^32; the counterexample beyond", "why_tests_cant": "Offsets are 64-bit and no test assembles sections beyond 4 GB.", "anchors": ["libyasm/bytecode.c:yasm_calc_bc_dist", "libyasm/bytecode.c:yasm_bc_next_offset"]}
{"id": "C59", "title": "Contents of the ELF symbol table", "statement": "The symbol table holds exactly the symbols that are external, common with a valid alignment, weak, or defined here (EQUs only when global). Each is bound as declared, a defined label has its section and offset, and the name read from the emitted string table is the declared one with the global prefix and suffix; local names are there only on request, never for section symbols. Two things differ from what is declared: a weak symbol that is also external or common is emitted as global, and a symbol first mentioned in a type or size directive loses the prefix and suffix.", "quantifier": "all sequences of directives, all sets of symbols, all configurations", "why_tests_cant": "The order of directives and symbols is unbounded and the defects need particular orders.", "anchors": ["modules/objfmts/elf/elf-objfmt.c:elf_objfmt_build_symtab", "modules/objfmts/elf/elf-objfmt.c:build_extern", "modules/objfmts/elf/elf-objfmt.c:build_global", "modules/objfmts/elf/elf.c:elf_symtab_write_to_file"]}
{"id": "C60", "title": "An ELF object file reads back as what was written", "statement": "An ELF reader that follows the headers of a written object file (32-bit REL or 64-bit RELA) finds each section with its name, type, flags, size, alignment, entry size and bytes, its relocations in a section named after it whose info and link fields point to it and to the symbol table, and each symbol with name, value, size, binding, type, visibility and section index. Stored sections do not overlap, lie between the ELF header and the section headers, respect their alignment, and the section headers end the file. A file is written exactly when each stored section's alignment is zero or a power of two. One thing does not hold: the 64-bit symbol table announces alignment 8, but its offset is only a multiple of 4.", "quantifier": "all lists of sections, string tables and symbols, both ELF classes", "why_tests_cant": "Offsets, indices and names depend on all sections before; a wrong link shows only in particular combinations of sections, relocations and sizes.", "anchors": ["modules/objfmts/elf/elf-objfmt.c:elf_objfmt_output", "modules/objfmts/elf/elf-objfmt.c:elf_objfmt_output_section", "modules/objfmts/elf/elf-objfmt.c:elf_objfmt_output_secthead", "modules/objfmts/elf/elf.c:elf_secthead_write_relocs_to_file", "modules/objfmts/elf/elf-x86-amd64.c", "modules/objfmts/elf/elf-x86-x86.c"]}
{"id": "C61", "title": "Float multiplication and the powers of ten are accurate", "statement": "Multiplying two normal internal floats gives their exact product cut to 80 significant bits (relative error below 2^-79, never too large) with the sign of the product; overflow is marked only from 2^32768 and underflow only below 2^-32765. Every entry of the two tables of powers of ten is within a fraction 2^-80 of the power of ten it stands for.", "quantifier": "all pairs of normal internal values; all table entries", "why_tests_cant": "2^194 pairs of operands", "anchors": ["libyasm/floatnum.c:floatnum_mul", "libyasm/floatnum.c:POT_TableN_Source", "libyasm/floatnum.c:POT_TableP_Source"]}
{"id": "C62", "title": "Decimal floating point literals are encoded accurately", "statement": "A decimal literal (optional sign, any number of digits, optional fraction and exponent) written in half, single, double or extended format gives the number of the format nearest to some number that differs from the denoted one by at most a fraction 2^-73 (2^-59 if it has more than 19 significant digits, or 24 for integers); signed zero for zero; overflow and underflow are indicated only if the denoted number is, up to that fraction, outside the normal range after rounding. A literal that denotes a normal number of the half, single or double format gives exactly that number, whatever its length; in the extended format this holds for few digits and fails for long literals. The conversion never fails or reads outside the tables.", "quantifier": "all literals whose exponent and length fit an int, all four formats", "why_tests_cant": "literals of any length and exponent; error accumulation over up to 16 multiplications", "anchors": ["libyasm/floatnum.c:yasm_floatnum_create", "libyasm/floatnum.c:yasm_floatnum_get_sized"]}
{"id": "C63", "title": "A .debug_line unit reads back", "statement": "With .file directives for paths with names, giving every number up to the greatest, the written .debug_line is a DWARF 2 unit of the length it says, whatever bytes follow; its header has the constants the operations use, its directory and file tables give every file number the path last given to it, and its rows are those of the sections in order. A path without a name cuts the file table short.", "quantifier": "all lists of .file directives and sections (unit below 2^32 bytes)", "why_tests_cant": "lengths of tables of any size; round trip through an independent reader", "anchors": ["modules/dbgfmts/dwarf2/dwarf2-line.c:yasm_dwarf2__generate_line", "modules/dbgfmts/dwarf2/dwarf2-line.c:dwarf2_spp_bc_tobytes"]}
{"id": "C64", "title": "File numbers stand for the paths given to them", "statement": "After a directive .file n path the number n stands for the path (directory and name as the path splits), all other numbers keep their paths; source files get numbers that stand for their paths; looking a path up gives a number that stands for it, whichever was used last; a number left out is an error.", "quantifier": "all sequences of .file directives and source names", "why_tests_cant": "sequences of any length; reuse of directories and slots", "anchors": ["modules/dbgfmts/dwarf2/dwarf2-line.c:dwarf2_dbgfmt_add_file", "modules/dbgfmts/dwarf2/dwarf2-line.c:dwarf2_filename_equals", "modules/dbgfmts/dwarf2/dwarf2-line.c:yasm_dwarf2__dir_file"]}
{"id": "C65", "title": "A .loc directive records its options, but inverts is_stmt", "statement": "A .loc directive with file, line, an optional column and any options in any order and both spellings (name value, name=value, any letter case) records what they ask for, the last of each kind counting and flags adding up - except that is_stmt 1 is recorded as \"not a statement\" and is_stmt 0 as \"statement\".", "quantifier": "all lists of options", "why_tests_cant": "any number and order of options; the inversion shows only in the decoded rows", "anchors": ["modules/dbgfmts/dwarf2/dwarf2-line.c:yasm_dwarf2__dir_loc"]}
{"id": "C66", "title": "Flat-binary virtual addresses follow vstart, vfollows and valign", "statement": "Every section gets a virtual address that is a multiple of its virtual alignment: with vstart the first such address not below it (an error if it is another one), with vfollows the first not below the virtual end of the section named; the others keep the distance to their load addresses, which starts at zero and grows where a valign demands it. If valign is used only beside vstart or vfollows, sections without virtual attributes have equal addresses; otherwise the program can crash on a section that has none.", "quantifier": "all section graphs as in C37", "why_tests_cant": "depends on trees of sections and a running offset", "anchors": ["modules/objfmts/bin/bin-objfmt.c:group_assign_vstart_recurse", "modules/objfmts/bin/bin-objfmt.c:group_assign_start_recurse"]}
{"id": "C67", "title": "Exactly the unplaceable flat-binary layouts are refused", "statement": "The layout is refused if and only if a start or vstart is not constant or some section's chain of follows or vfollows ends in an unknown name or never ends; the error names such a section. The whole output is refused only for that reason or for an overlap.", "quantifier": "all section graphs", "why_tests_cant": "loops of any length in any order of the source", "anchors": ["modules/objfmts/bin/bin-objfmt.c:bin_objfmt_output", "modules/objfmts/bin/bin-objfmt.c:bin_lma_create_group", "modules/objfmts/bin/bin-objfmt.c:find_group_by_name"]}
{"id": "C68", "title": "A flat binary contains each section's bytes at its address", "statement": "When a flat binary is written without errors, every byte of every progbits section lies in the file at the section's load address less the origin, all bytes between are zero, nobits sections take no space, what the file held before is kept and the file ends with the last byte of a section. This happens whenever the layout has no error and each section lies less than 2 GiB behind the origin; a section before the origin is an error, one further behind ends the program.", "quantifier": "all section graphs and contents, any initial file", "why_tests_cant": "arbitrary placements, gaps and order of writes", "anchors": ["modules/objfmts/bin/bin-objfmt.c:bin_objfmt_output_section", "modules/objfmts/bin/bin-objfmt.c:bin_objfmt_output_bytecode"]}
{"id": "C69", "title": "Section attributes accumulate over directives and are checked", "statement": "After any sequence of section directives for one name each attribute has the value given last, and start never comes with follows nor vstart with vfollows. Powers of two are accepted as alignments; besides these only numbers up to zero, 2^32 and 2^32 plus a power of two are, and a section with alignment 0 is placed at address 0 over others.", "quantifier": "all sequences of directives, all 256-bit alignments", "why_tests_cant": "sequences are unbounded", "anchors": ["modules/objfmts/bin/bin-objfmt.c:bin_objfmt_section_switch"]}
{"id": "C70", "title": "Splitting an expression into absolute part and relocation keeps its value", "statement": "When yasm_value_finalize_expr accepts an expression, the resulting value - absolute part plus relative symbol (its segment, shifted, with respect to a symbol or relative to the current position) - stands for the number the expression denotes, modulo 2^256, or modulo 2^size when a mask of all ones was dropped; the size is kept and no unrelated flag is set. This holds for expressions in which symbols are shifted right only by numbers from 0 to 2^31-1 and WRT with a symbol stands only at the top or in a sum, provided each current-position symbol in it means the position of the value itself. It fails otherwise: the symbol of an earlier position is taken for the current one, a shift by a negative number is dropped, and WRT inside a product is applied to the whole.", "quantifier": "all expressions, symbol tables, EQUs, sizes, positions, symbol values", "why_tests_cant": "expressions are unbounded trees and the meaning depends on every assignment of addresses", "anchors": ["libyasm/value.c:value_finalize_scan", "libyasm/value.c:yasm_value_finalize_expr"]}
{"id": "C71", "title": "A sum of symbols is relocatable exactly if its symbols cancel down to one", "statement": "A sum whose subtracted symbols are neither the current position nor labels of the current section is refused exactly if some subtracted symbol has no added partner (a label of the same section, or the same symbol) or more than one added symbol is left; otherwise the relative part is the added symbol that is left, if any. With a label of the current section subtracted, acceptance depends on the order of the terms.", "quantifier": "all sums of up to 32 terms of symbols, negated symbols, numbers, registers and symbol-free operators", "why_tests_cant": "matching is over arbitrary interleavings of added and subtracted symbols", "anchors": ["libyasm/value.c:value_finalize_scan"]}
{"id": "C72", "title": "Numbers written without a relocation are the value of the expression", "statement": "Whenever yasm_value_output_basic writes a number, or yasm_value_get_intnum returns one, for a finalized expression in its place in a section, the number is the value of the expression there, modulo 2^256 (modulo 2^size under a dropped mask). A value with a relative symbol is left to a relocation unless it is the distance from the current position of a label of the same section without WRT, SEG or section-relative mark. A number with respect to a symbol is written as if WRT were not there.", "quantifier": "all expressions, layouts, positions below 2^31", "why_tests_cant": "the claim is about every placement of sections and labels", "anchors": ["libyasm/value.c:yasm_value_output_basic", "libyasm/value.c:yasm_value_get_intnum"]}
{"id": "C73", "title": "Linked ELF fields hold the value of their expression", "statement": "For ELF objects (x86, amd64, x32): when an expression is finalized and elf_objfmt_output_value writes its field, then applying the emitted relocation (type, symbol, addend, place) by the formulas of the psABI gives the value of the expression modulo 2^size, and the relocation is at the place of the field; without a relocation the written bytes are that value. This holds for expressions without WRT or with WRT ..sym. For _GLOBAL_OFFSET_TABLE_ itself (32 or 64 bits) the field holds the distance of the table from the field or from its bytecode as stated exactly; on x86 a distance from the current position written inside a bytecode is too large by the offset of the field.", "quantifier": "all expressions, placements of sections, symbol addresses, field sizes and offsets below 2^31", "why_tests_cant": "the value exists only after a linker has placed the sections; every placement is quantified over", "anchors": ["modules/objfmts/elf/elf-objfmt.c:elf_objfmt_output_value", "modules/objfmts/elf/elf-x86-x86.c", "modules/objfmts/elf/elf-x86-amd64.c", "modules/objfmts/elf/elf-x86-x32.c", "libyasm/value.c:yasm_value_finalize_expr"]}
{"id": "C74", "title": "ELF special symbols select the relocation the ABI defines", "statement": "For a 32-bit value with respect to one of the special symbols (..plt, ..got, ..gotoff, ..gotpc, ..gotpcrel, ..tlsgd and the other TLS forms) that is not relative to the current position, the linked field is what the psABI defines for that form - the address of the PLT entry, the GOT slot, the distance from the GOT or the TLS quantity, plus the addend - modulo 2^32, for local and external symbols alike. For x86 forms that are not PC-relative a subtraction of the current position is silently dropped.", "quantifier": "all machines, special symbols, symbols, addends, placements", "why_tests_cant": "as C73", "anchors": ["modules/objfmts/elf/elf-objfmt.c:elf_objfmt_output_value", "modules/objfmts/elf/elf-x86-x86.c:elf_x86_x86_map_reloc_info_to_type", "modules/objfmts/elf/elf-x86-amd64.c:elf_x86_amd64_map_reloc_info_to_type"]}
{"id": "C75", "title": "ELF output refuses exactly the values it cannot relocate", "statement": "For a value with a relative symbol and evaluable absolute part, elf_objfmt_output_value reports an error if and only if the value is a segment, is section-relative, or - unless it is the distance from the current position of a label of the same section without WRT - is shifted, has a size other than 8, 16, 32 (or 64 on amd64) bits, or is with respect to a symbol that is not special or not of 32 bits. In every other case bytes are written.", "quantifier": "all values, machines, layouts", "why_tests_cant": "the set of refused values is infinite in both directions", "anchors": ["modules/objfmts/elf/elf-objfmt.c:elf_objfmt_output_value", "modules/objfmts/elf/elf.c:elf_reloc_entry_create"]}
{"id": "C76", "title": "Linked COFF fields hold the value of their expression", "statement": "For the formats coff, win32 and win64: when an expression is finalized and coff_objfmt_output_value writes its field, then applying the emitted relocation by the rules of the PE/COFF specification (or, for plain COFF, relative to sections with address 0 and common symbols biased by their size) gives the value of the expression modulo 2^size, and the relocation is at the place of the field; without a relocation the written bytes are that value. WRT ..imagebase stands for addresses in the image; WRT a label of the same section changes only the symbol of the relocation. The same holds for values relative to the next instruction, to a section or for SEG. Excepted are: fields of other than 32 bits with an absolute address on 32-bit machines, which get a relocation of 32 bits that changes the following bytes; fields of 64 bits WRT ..imagebase, which hold the full address; SEG in other than 16 bits.", "quantifier": "all expressions, formats, placements of sections, symbol addresses, bytecode lengths, offsets below 2^30", "why_tests_cant": "the value exists only after a linker has placed the sections; every placement is quantified over", "anchors": ["modules/objfmts/coff/coff-objfmt.c:coff_objfmt_output_value", "libyasm/bytecode.c:yasm_calc_bc_dist", "libyasm/value.c:yasm_value_finalize_expr"]}
{"id": "C77", "title": "COFF output refuses exactly the values it cannot relocate", "statement": "For a value with a relative symbol and evaluable absolute part that is not the distance of a label of the same section from the current position, coff_objfmt_output_value reports an error if and only if the value is shifted, is a segment or section-relative and also position-relative or with WRT, is WRT a symbol that is neither ..imagebase nor in the same section, is a common symbol of unknown or negative size (plain COFF), is position-relative in other than 32 bits or, on amd64 relative to the next instruction, ends more than 5 bytes before the end of the bytecode, or is an address in other than 32 or 64 bits on amd64.", "quantifier": "all values, formats, layouts", "why_tests_cant": "the set of refused values is infinite in both directions", "anchors": ["modules/objfmts/coff/coff-objfmt.c:coff_objfmt_output_value"]}
{"id": "C78", "title": "COFF object files are read back as they were assembled", "statement": "For win32 and win64, and for coff if names of sections have at most 8 characters and sections fewer than 65536 relocations: a reader that knows only the COFF file format finds in the file written by coff_objfmt_output the machine, every section with its name, flags, alignment (at most 8192), size and bytes, every relocation with its place, its type and exactly the symbol it was made for, however many there are, and every symbol that is to be in the table with name, value (modulo 2^32), section, type, storage class and auxiliary entry. Limits: fewer than 65534 sections, file below 2^32 bytes, long names of sections below 10^7 bytes, no section of win32/win64 with a name that begins with a slash.", "quantifier": "all objects within the limits: any number of sections, relocations, symbols, any names", "why_tests_cant": "names move to the string table, indices skip auxiliary entries and the relocation count overflows depending on all the other contents of the file", "anchors": ["modules/objfmts/coff/coff-objfmt.c:coff_objfmt_output", "modules/objfmts/coff/coff-objfmt.c:coff_objfmt_output_section", "modules/objfmts/coff/coff-objfmt.c:coff_objfmt_output_secthead", "modules/objfmts/coff/coff-objfmt.c:coff_objfmt_output_sym", "modules/objfmts/coff/coff-objfmt.c:coff_objfmt_output_str"]}
{"id": "C79", "title": "COFF files are complete or not written", "statement": "coff_objfmt_output writes a file (no internal error) exactly if every relocation of a section with contents is against a symbol that is in the symbol table; the string table's length field then is the number of bytes from it to the end of the file.", "quantifier": "all objects", "why_tests_cant": "the table sizes are accumulated in one traversal and the strings are written in another", "anchors": ["modules/objfmts/coff/coff-objfmt.c:coff_objfmt_output", "modules/objfmts/coff/coff-objfmt.c:coff_objfmt_output_section", "modules/objfmts/coff/coff-objfmt.c:coff_objfmt_output_secthead", "modules/objfmts/coff/coff-objfmt.c:coff_objfmt_output_sym", "modules/objfmts/coff/coff-objfmt.c:coff_objfmt_output_str"]}
{"id": "C80", "title": "Plain COFF: what the file format loses", "statement": "For the format coff, every section with a name of more than 8 characters is read as \"/0\", so that two such sections (as the debug formats make them) cannot be told apart, and of 65536 or more relocations only the first 65535 are found; everything else is read back.", "quantifier": "all objects for coff within the limits of C78", "why_tests_cant": "the loss depends on names and counts only, tests show it for single cases", "anchors": ["modules/objfmts/coff/coff-objfmt.c:coff_objfmt_output", "modules/objfmts/coff/coff-objfmt.c:coff_objfmt_output_section", "modules/objfmts/coff/coff-objfmt.c:coff_objfmt_output_secthead", "modules/objfmts/coff/coff-objfmt.c:coff_objfmt_output_sym", "modules/objfmts/coff/coff-objfmt.c:coff_objfmt_output_str"]}
{"id": "C81", "title": "NASM expressions mean what the grammar says", "statement": "For every list of tokens, every kind of expression (operand, data value, directive parameter) and both entry points, the NASM parser reads exactly the longest text that the documented grammar gives: left-associative : , WRT (whose right side is one operand), |, ^, &, << >>, + -, * / % // %%, prefix + - ~ LOW HIGH SEG, parentheses, and as operands numbers, registers, strings, floats, names, $ and $$. The expression built has the value of the text (LOW is the value modulo 256, HIGH the value divided by 256, modulo 256), is one integer when the text has only integers without division by zero or overflowing product, the names marked as used are those of the text in order, and the rest of the line is untouched. If no prefix of the line is such a text, NULL is returned. Printing any expression tree with the fewest parentheses and parsing it gives the same value back.", "quantifier": "all token lists, expression kinds, symbol tables, special symbols, absolute-section positions; all expression trees", "why_tests_cant": "precedence, associativity and leftover text can only be sampled by tests; the claim is about every token list and every tree", "anchors": ["modules/parsers/nasm/nasm-parse.c:1166-1489", "libyasm/expr.c"]}
{"id": "C82", "title": "A rejected NASM expression is reported at the token where it went wrong", "statement": "When the NASM parser returns no expression, either nothing was consumed and nothing reported and the first token cannot begin an operand, or the error shown to the user is the first one set for this expression (after at most errors about overlong strings), and it tells the place: 'expected expression after T' means that T was read and the tokens left begin no operand; a missing parenthesis means that the next token is not ')'; a register error means a data value with a register as the next token. T is named correctly except for the operators : WRT | ^ and &, for which the message shows the character whose code is the number of the operator in the expression enumeration (a space or control character), since describe_token is given the operator and not the token.", "quantifier": "all token lists rejected by the parser", "why_tests_cant": "which of several nested error calls wins depends on the whole parse; the misnamed operators were never looked at by tests", "anchors": ["modules/parsers/nasm/nasm-parse.c:155-212", "modules/parsers/nasm/nasm-parse.c:1187-1489", "libyasm/errwarn.c:271-283"]}
{"id": "C83", "title": "GAS expressions mean what the grammar says", "statement": "For every list of tokens the GAS parser reads exactly the longest text of its grammar: left-associative + - (loosest), | ^ & ! (or, xor, and, nor), * / % << >>, prefix + - ~, parentheses, and as operands numbers, floats, names, '.' and name@operator, which stands for the name with respect to the special symbol, or for the name with a warning if there is no such symbol. The expression built has the value of the text, the names marked as used are those of the text in order, the rest of the line is untouched; if no prefix of the line is such a text NULL is returned, with at most a missing parenthesis or a missing name after @ reported. Printing any expression tree with the fewest parentheses and parsing it gives the same value back.", "quantifier": "all token lists, symbol tables and special symbols; all expression trees", "why_tests_cant": "precedence, associativity and leftover text can only be sampled by tests; the claim is about every token list and every tree", "anchors": ["modules/parsers/gas/gas-parse.c:1323-1493"]}
{"id": "C84", "title": "Win64 unwind information describes the prologue", "statement": "When a source with PROC_FRAME blocks is assembled for win64 without error or warning, there is exactly one .pdata entry per procedure, in order, giving its start, its size and a position in .xdata; reading the UNWIND_INFO structure at the next 4-byte boundary of that position by the rules of the x64 ABI (slots of two bytes, version, flags, frame register and scaled offset, handler after an even number of slots) gives back the prologue size, the frame register and offset of the last SETFRAME, the operations last first with their prologue offsets and operands, and the handler: exactly if every directive is at or after the label and offsets not known before layout are not negative, and otherwise modulo 2^8 (prologue offsets) and 2^32 (operands). The position is itself at a 4-byte boundary when all other data put into .xdata has lengths that are multiples of 4. It fails, silently, otherwise: the pointer then leads to the padding; a directive before the label gets a wrong prologue offset; an offset turned negative after its code was enlarged becomes a huge one.", "quantifier": "all sequences of directives and user data in .xdata, all symbol positions, all offsets with any history of values in the optimizer", "why_tests_cant": "what is written is only consumed by the Windows unwinder at run time; the space of prologues, offsets and optimizer histories is unbounded", "anchors": ["modules/objfmts/coff/win64-except.c:127-560", "modules/objfmts/coff/coff-objfmt.c:1950-2292"]}
{"id": "C85", "title": "Every prologue within the limits of the format is accepted and encoded shortest", "statement": "A source made of complete procedures, each with its label and directives in one section, a prologue of at most 255 bytes, constant offsets allowed for their directives (stack allocations: multiples of 8 from 8; saved registers: multiples of 8; saved XMM registers and frame offset: multiples of 16, the latter at most 240) below 2^31 and at most 255 slots, is assembled without error or warning and read back exactly. A directive with a constant offset is accepted exactly when the offset is allowed and below 2^31, and no shorter sequence of bytes has the same meaning. Offsets from 2^31 to 2^32, which the format can express, are refused.", "quantifier": "all procedures, positions and constant offsets", "why_tests_cant": "the three encodings with different scaling and their thresholds are chosen by three separate functions; tests use a few sizes", "anchors": ["modules/objfmts/coff/win64-except.c:351-560", "modules/objfmts/coff/win64-except.c:221-327"]}
{"id": "C86", "title": "Unwind directives are accepted exactly in complete procedures", "statement": "The directives of a source pass without error, and the end of the source is outside a procedure, exactly when they are a sequence of complete procedures: PROC_FRAME, any number of PUSHREG, SETFRAME, ALLOCSTACK, SAVEREG, SAVEXMM128, PUSHFRAME with the parameters they need, ENDPROLOG, ENDPROC_FRAME.", "quantifier": "all sequences of directives with any parameters, interleaved with any data", "why_tests_cant": "the state is spread over flags changed by nine functions; the claim is about every order of calls", "anchors": ["modules/objfmts/coff/coff-objfmt.c:1950-2292", "modules/objfmts/coff/coff-objfmt.c:1145-1152"]}
{"id": "C87", "title": "Printed numbers are their exact decimal numerals and read back", "statement": "BitVector_to_Dec of a vector of any width returns the decimal numeral of its signed value, minus sign first, no leading zeros, all digits, without running over its buffer. yasm_intnum_get_str of every integer the expression evaluator produces is its numeral, and reading it again (digits, then negation) gives the same integer, the least one of 256 bits included. Of integers made by yasm_intnum_create_int from a long, which are not reduced, exactly those not strictly between -10^14 and 10^15 run over the 16 characters allocated.", "quantifier": "all bit vectors of all widths; all canonical integers; all longs", "why_tests_cant": "the buffer size comes from a quotient of floating-point numbers and the digits from repeated division by 10^9 with a special last block; tests see some numbers of 256 bits, not every width and value", "anchors": ["libyasm/bitvect.c:1650-1764", "libyasm/intnum.c:1064-1081", "modules/preprocs/nasm/nasm-pp.c:5314-5320"]}
{"id": "C88", "title": "Flat binaries contain the value of the expression", "statement": "When the flat-binary writer accepts the value split from an expression without WRT, the low bits of the field are the value of the expression, where each label is the virtual start of its section plus its offset, $ is the position of the bytecode, and the special section symbols are start, virtual start and length; the other bits of the field are kept, and the range warnings are exactly those of that number. The same holds for values made by instructions, where a distance to the position may be shifted. What needs a linker is never written: an external symbol, SEG, or a relative flag without a symbol gives an error. WRT, in contrast, is accepted and has no effect (refutation of \"the value of the expression\" for WRT).", "quantifier": "all expressions, layouts, equates, sections and positions; all values and field sizes up to 256 bits", "why_tests_cant": "the value is rebuilt as an expression, levelled with a callback that replaces labels by addresses, and reduced again; tests compare a few binaries with origins and sections", "anchors": ["modules/objfmts/bin/bin-objfmt.c:471-527", "modules/objfmts/bin/bin-objfmt.c:895-972", "libyasm/value.c:621-740"]}
{"id": "C89", "title": "LC-3b instructions are assembled to what they say", "statement": "When a line of LC-3b source is written to a flat binary, the two bytes decode, by the machine's own instruction format, to the instruction the line asks for: the operation of the name in any case, the registers in their order, byte offsets and immediates, and targets as addresses, whenever the machine has that instruction at that address. A line is refused for its operands exactly when its name and the kinds of its operands ask for no instruction. A warning is given exactly outside ranges that are stated, and never for an instruction the machine has. A target without a symbol is never written. Not every wrong operand gets a warning: odd word offsets are rounded down, word offsets up to twice the range wrap to negative, and negative shift amounts wrap (refutation). `br` without letters has no condition bits, as the project's own test requires.", "quantifier": "all names, operands, expressions, layouts, positions that are even and addresses below 2^63", "why_tests_cant": "27 names, four operand kinds and seven immediate formats meet expression splitting, halving by an expression, shifts of relocated distances and the writer of flat binaries; the tests compare one binary per instruction", "anchors": ["modules/arch/lc3b/lc3bid.re:141-440", "modules/arch/lc3b/lc3bbc.c:166-249", "modules/arch/lc3b/lc3barch.h:31-49"]}
{"id": "C90", "title": "The listing can be read back", "statement": "From the text of a listing file a reader recovers, for every line of source before the first that has none recorded, its text and for each of its bytecodes the offset and all bytes of the first copy, in rows that are numbered from 1 without holes; every row but the last of a bytecode is full and ends with a hyphen, the last says whether there are more copies, and gaps are marked. The source is beside the first row only (except at gaps). On a line with one bytecode, the brackets are exactly around the fields of the first copy that have a relocation in the section, round for relative ones. A line of source is missing exactly when it has bytecodes and all are empty. Three expectations fail (refutations): continuation rows show the address of the first row; the brackets of a second bytecode on a line are those of the first; the source of an empty bytecode is lost.", "quantifier": "all sources without newlines, bytecodes, copies, gaps, relocations and offsets below 2^64, listings shorter than 2^64 characters", "why_tests_cant": "column widths, wrapping, brackets that count as width, padding with negative widths and the state kept between lines interact; there are no listing tests in the project", "anchors": ["modules/listfmts/nasm/nasm-listfmt.c:78-139", "modules/listfmts/nasm/nasm-listfmt.c:141-292", "libyasm/linemap.c:279-293"]}
{"id": "C91", "title": "The digest of a source file is the MD5 digest of its contents", "statement": "For every message, however it is divided into parts given to yasm_md5_update, whatever was in memory before and however long it is, yasm_md5_final gives the digest of RFC 1321 of the whole message, and nothing outside the context's arrays is read or written. In particular the digest that CodeView debug information gives for a source file is that of its contents, if all reads succeed. A failing read is silently taken for the end of the file (refutation), so files that differ after it get one digest.", "quantifier": "all messages of bytes of any length, divisions into parts of any lengths (also empty), previous contents of memory, outcomes of fread", "why_tests_cant": "the code computes with unsigned long of 64 bits without masking most results, keeps the length in two words with a carry, and has separate paths for partial, whole and overlapping blocks; a test sees a few lengths", "anchors": ["libyasm/md5.c:41-55", "libyasm/md5.c:61-120", "libyasm/md5.c:126-166", "libyasm/md5.c:172-274", "modules/dbgfmts/codeview/cv-symline.c:372-382"]}
{"id": "C92", "title": "Section directives of ELF objects give the attributes they name", "statement": "A section directive is refused exactly when an alignment is not an integer, letters are not text, or the last alignment is not a power of two, and then the object is unchanged. Otherwise a section that is new, or was there by default, gets each attribute (write, alloc, exec, tls; by letters also merge, strings, group) from the last parameter that mentions it, in any case of letters, or else from its name; likewise its type and alignment; a section that can be merged needs a size of entities, which it gets. All other sections are unchanged; a section declared before is unchanged by any later directives, with a warning if words (not letters) were given; names stay distinct. There is exactly one warning for each unknown parameter and letter. Three expectations fail (refutations): a negative alignment is silently taken for 0; other letters for a declared section are ignored without a warning; with a size of entities that is no number the section is still marked as mergeable, with size 0.", "quantifier": "all objects, section names, lists of parameters (words, strings, expressions, with or without names, identifiers with prefixes), extensions and sequences of directives", "why_tests_cant": "parameters act on shared words of flags through a table of offsets and masks, in order, with a letter list that resets all flags; combinations and repetitions are unbounded", "anchors": ["libyasm/valparam.c:100-143", "libyasm/valparam.c:219-301", "libyasm/valparam.c:321-386", "modules/objfmts/elf/elf-objfmt.c:892-999", "modules/objfmts/elf/elf-objfmt.c:1001-1141", "libyasm/section.c:324-375"]}
{"id": "C93", "title": "Global symbols of ELF objects get the type, size and visibility they are declared with", "statement": "A symbol that is defined and declared global is written with the type of the last qualifier of its declaration that names one (function, data, object; in any case of letters), or else of the last TYPE directive for it; with the visibility of the last qualifier that names one (internal, hidden, protected), or else default; with the first size among its qualifiers, or else that of the last SIZE directive, or else 0; in thread-local storage its type is TLS. It is bound as weak if a WEAK directive names it, otherwise as global. There is an error exactly for the first unknown word among the qualifiers, which ends them, for a TYPE or SIZE directive without type or size, and for a size that is no integer; and one warning for each other parameter that is not understood, each further size, and more than one visibility. Two expectations fail (refutations): qualifiers of a weak symbol, even unknown words, are ignored without a message; a constant's name is accepted as size by SIZE but refused as a qualifier.", "quantifier": "all sequences of TYPE, SIZE and WEAK directives for the symbol and all lists of qualifiers (words, strings, expressions, with or without names)", "why_tests_cant": "qualifiers and directives act on one entry from different passes, with different precedence, and the table of words is walked in order; combinations and repetitions are unbounded", "anchors": ["modules/objfmts/elf/elf-objfmt.c:85-111", "modules/objfmts/elf/elf-objfmt.c:133-209", "modules/objfmts/elf/elf-objfmt.c:254-344", "modules/objfmts/elf/elf-objfmt.c:1154-1229", "modules/objfmts/elf/elf.c:467-583", "libyasm/valparam.c:219-275"]}
{"id": "C94", "title": "Section directives of COFF objects give the attributes they name", "statement": "For plain COFF, Win32 and Win64 objects, a section directive is refused exactly when an alignment is not an integer, letters are not text, or the last alignment is not a power of two or above 8192, and then the object is unchanged. Otherwise a section that is new, or was there by default, has in its header exactly the attributes that the last parameter mentioning each gives it, in any case of letters, or else those of its name: the words code, text, data, rdata, bss, info choose all attributes, the Win32 words one each, letters all of them; likewise alignment and the use of image-relative relocations. Plain COFF ignores Win32 words with a warning, has no Win32 attributes and eight characters of the name. All other sections are unchanged, and a declared section is unchanged by any later directives; names stay distinct. There is exactly one warning for each unknown parameter and letter. Two expectations fail (refutations): the letter r, for read-only data, gives a writable section; in plain COFF sections of different names become one section with the attributes of the first.", "quantifier": "all object formats of the module, objects, section names, lists of parameters (words, strings, expressions, with or without names) and sequences of directives", "why_tests_cant": "parameters act on shared words of flags through a table, some replacing all attributes and some changing one, in order; letters pass through a small state machine; combinations and repetitions are unbounded", "anchors": ["modules/objfmts/coff/coff-objfmt.c:78-95", "modules/objfmts/coff/coff-objfmt.c:1250-1353", "modules/objfmts/coff/coff-objfmt.c:1355-1559", "libyasm/valparam.c:219-301", "libyasm/valparam.c:321-386", "libyasm/section.c:324-375"]}
