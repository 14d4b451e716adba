{"claims": [
 {"property": "C01", "status": "proved", "theorems": ["C01_add", "C01_sub", "C01_signed", "C01_negate", "C01_increment", "C01_decrement", "C01_compare"], "note": "for every width; words are 32 bits"},
 {"property": "C02", "status": "proved", "theorems": ["C02_multiply", "C02_multiply_exact", "C02_multiply_boundary_refuted", "C02_divide", "C02_divide_zero"], "note": "three operands of one width, the only use in the assembler; the boundary behaviour is characterised exactly"},
 {"property": "C03", "status": "proved", "theorems": ["C03_hex", "C03_oct", "C03_bin", "C03_value"], "note": "octal: characters are bytes"},
 {"property": "C04", "status": "proved", "theorems": ["C04_calc", "C04_unary", "C04_zero_division", "C04_missing", "C04_segment", "C04_multiply_refuted", "C04_shift_refuted", "C04_compare", "C04_tests"], "note": "the header documents / as unsigned and >> as logical; the code is signed and arithmetic"},
 {"property": "C05", "status": "proved", "theorems": ["C05_create_get", "C05_arithmetic_uint", "C05_arithmetic_int", "C05_exact", "C05_get_uint", "C05_get_int", "C05_in_range", "C05_create_uint_refuted", "C05_get_uint_refuted", "C05_set_uint_refuted", "C05_in_range_refuted"], "note": "LP64; the contract is refuted and the behaviour characterised"},
 {"property": "C06", "status": "proved", "theorems": ["C06_round_trip", "C06_minimal", "C06_signed_long", "C06_unsigned_long", "C06_minimal_refuted", "C06_signed_refuted", "C06_overrun_refuted"], "note": ""},
 {"property": "C07", "status": "proved", "theorems": ["C07_field", "C07_too_big", "C07_argument_refuted"], "note": "little endian only: the code aborts on big endian"},
 {"property": "C08", "status": "proved", "theorems": ["C08_check_size", "C08_size_zero", "C08_wide"], "note": ""},
 {"property": "C09", "status": "proved", "theorems": ["C09_search_returns_stored_value", "C09_refines_association_list"], "note": ""},
 {"property": "C10", "status": "proved", "theorems": ["C10_traversal_in_first_insertion_order"], "note": ""},
 {"property": "C11", "status": "proved", "theorems": ["C11_insert_returns_if_hashes_differ", "C11_insert_always_returns_refuted"], "note": "non-termination witness proved for every running time; positive condition proved"},
 {"property": "C12", "status": "proved", "theorems": ["C12_lookup_returns_governing_mapping"], "note": ""},
 {"property": "C13", "status": "proved", "theorems": ["C13_unordered_history_refuted", "C12_lookup_returns_governing_mapping"], "note": "out-of-order loss shown by witness; ordered histories safe by C12 theorem"},
 {"property": "C14", "status": "proved", "theorems": ["C14_poke_effect", "C14_poke_restores_mapping_refuted"], "note": "header promise refuted; actual effect characterised"},
 {"property": "C15", "status": "proved", "theorems": ["C15_enumerate", "C15_members", "C15_terminates", "C15_refuted"], "note": ""},
 {"property": "C16", "status": "proved", "theorems": ["C16_balanced"], "note": ""},
 {"property": "C17", "status": "proved", "theorems": ["C17_sorts_stably"], "note": "element-level model; the run table is a list instead of pointers threaded through the spare buffer"},
 {"property": "C18", "status": "proved", "theorems": ["C18_report_in_line_order", "C18_report_complete_and_stable"], "note": ""},
 {"property": "C19", "status": "proved", "theorems": ["C19_only_same_line_overwritten_refuted", "C18_report_complete_and_stable"], "note": "documented rule refuted by witness; histories without parse-class errors complete"},
 {"property": "C20", "status": "proved", "theorems": ["C20_first_error_kept", "C20_warnings_fifo"], "note": ""},
 {"property": "C21", "status": "proved", "theorems": ["C21_first_definition_kept", "C21_redefinition_reported", "C21_text_identifies_symbol", "C21_declaration_outcome", "C21_never_common_and_extern", "C21_calls_complete"], "note": "for every call sequence that returns; hash-table termination is C09-C11"},
 {"property": "C22", "status": "proved", "theorems": ["C22_undefined_reported_once", "C22_finalize_calls", "C22_undefined_become_extern"], "note": ""},
 {"property": "C23", "status": "proved", "theorems": ["C23_definition_has_value", "C23_pending_error_loses_value"], "note": "exact characterisation: the value is stored unless an error is already pending, in which case the symbol is DEFINED with an uninitialised value"},
 {"property": "C24", "status": "proved", "theorems": ["C24_minimal", "C24_bytes", "C24_threshold"], "note": "Boundaries that are not powers of two are refused by the directive handlers, which are not modelled."},
 {"property": "C25", "status": "proved", "theorems": ["C25_org"], "note": ""},
 {"property": "C26", "status": "proved", "theorems": ["C26_data", "C26_leb128", "C26_constant", "C26_wide_refuted", "C26_zero_refuted", "C26_fault_refuted"], "note": "The encoding of one LEB128 value is that of C06."},
 {"property": "C27", "status": "proved", "theorems": ["C27_tobytes", "C27_reserve", "C27_nothing", "C27_detected", "C27_calc_len", "C27_refuted"], "note": "The bytecode's own conversion is any function from the position to bytes and an error flag."},
 {"property": "C28", "status": "proved", "theorems": ["C28_settled", "C28_terminates", "C28_refuted"], "note": "A span's value is an arbitrary function of its terms; expand callbacks are sequences of forms with limits. Integers unbounded in the model."},
 {"property": "C29", "status": "proved", "theorems": ["C29_least", "C29_complete", "C29_refuted"], "note": "Leastness over all consistent layouts, including step 1b, which uses stale offsets with current lengths; the alignment counterexample shows why offset setters are excluded."},
 {"property": "C30", "status": "proved", "theorems": ["C30_simplify", "C30_intnum", "C30_constant"], "note": "under the callers' setting of full folding and identity simplification; bytecode distances are an oracle (env_dist)"},
 {"property": "C31", "status": "proved", "theorems": ["C31_and", "C31_or", "C31_refuted"], "note": "a refutation with its characterisation"},
 {"property": "C32", "status": "proved", "theorems": ["C32_terminates", "C32_circular"], "note": ""},
 {"property": "C33", "status": "proved", "theorems": ["C33_address", "C33_output", "C33_register", "C33_multiplier_refuted"], "note": "The sum of the absolute multipliers is below 2^31-1 (light), and no product of a register hides under an IDENT after distribution (tame); both are conditions on the levelled expression. Values where an operand is not an integer are outside. REX.X and REX.B not yet set by another operand. The prefixes of apply_prefixes are arbitrary fields of the instruction."},
 {"property": "C34", "status": "proved", "theorems": ["C34_length", "C34_no_bug", "C34_jmp_length", "C34_jmp_no_bug"], "note": "All descriptors made by the ea constructors, any address size and expansions, any output_value. Far jumps and the prefixes of apply_prefixes are not modelled (prefix fields are arbitrary)."},
 {"property": "C35", "status": "proved", "theorems": ["C35_lands", "C35_span", "C35_times_refuted"], "note": "Distance between bytecode and symbol below 2^31; jumps whose value is resolved by yasm_value_output_basic (no relocation)."},
 {"property": "C36", "status": "proved", "theorems": ["C36_align", "C36_fill", "C36_lc3b"], "note": ""},
 {"property": "C37", "status": "proved", "theorems": ["C37_placement", "C37_overlap", "C37_no_overlap", "C37_amount_refuted"], "note": "the printed amount of overlap is refuted by a witness"},
 {"property": "C38", "status": "proved", "theorems": ["C38_rows", "C38_displaced", "C38_displaced_refuted", "C38_trailing_refuted", "C38_long_refuted"], "note": "minimum instruction length 1 (all architectures with a DWARF object format); C38_rows is the safe case, C38_displaced the exact general behaviour, the refutations are concrete sections"},
 {"property": "C39", "status": "proved", "theorems": ["C39_rows", "C39_displaced", "C39_refuted"], "note": "whole unit; sections with code have at least one bytecode behind the initial empty one"},
 {"property": "C40", "status": "proved", "theorems": ["C40_split_correct", "C40_tail", "C40_refuted"], "note": "The positive theorem covers every path with no directory name ending in exactly one dot; the failure outside it is witnessed."},
 {"property": "C41", "status": "proved", "theorems": ["C41_total", "C41_resolves", "C41_refuted"], "note": "Unix variant. Termination, no doubled slash and the allocation bound are unconditional; resolution is proved under the stated condition on the base, and its failure outside is witnessed."},
 {"property": "C42", "status": "proved", "theorems": ["C42_meaning", "C42_never_grows", "C42_round_trip", "C42_in_place"], "note": "The warning for octal digits out of range is not modelled."},
 {"property": "C43", "status": "proved", "theorems": ["C43_rounds", "C43_special", "C43_extended_infinity_refuted"], "note": "Bytes are decoded by a reader of the IEEE and x87 formats; nearest is stated against every number of the precision."},
 {"property": "C44", "status": "proved", "theorems": ["C44_offsets", "C44_total"], "note": "Strings without NUL; table below 2^64 bytes."},
 {"property": "C45", "status": "proved", "theorems": ["C45_order"], "note": "The whole flow from directives to numbering; table below 2^64 entries."},
 {"property": "C46", "status": "proved", "theorems": ["C46_accepts", "C46_verdict", "C46_print"], "note": "The scanner is a list of tokens. Values are those of C30 (symbols) and C04 (integers); integers without division by zero or product overflow."},
 {"property": "C47", "status": "proved", "theorems": ["C47_get_latest", "C47_superseded_destroyed", "C47_destroyed_exactly_once"], "note": ""},
 {"property": "C48", "status": "proved", "theorems": ["C48_source_text_recall"], "note": ""},
 {"property": "C49", "status": "proved", "theorems": ["C49_defined_and_common_excluded_refuted"], "note": "refuted by witness on the faithful model"},
 {"property": "C50", "status": "proved", "theorems": ["C50_spelling_identifies_symbol"], "note": ""},
 {"property": "C51", "status": "proved", "theorems": ["C51_refines_stream", "C51_in_bounds", "C51_first"], "note": "Bytes beyond lim are not modelled apart from the newline offset at end of input."},
 {"property": "C52", "status": "proved", "theorems": ["C52_decimal", "C52_decimal_no_leading_zero", "C52_leading_zeros_refuted"], "note": "unsigned digit strings (the lexers never pass a sign)"},
 {"property": "C53", "status": "proved", "theorems": ["C53_bitwise", "C53_shift", "C53_shift_right", "C53_chunk_store", "C53_chunk_read", "C53_block"], "note": ""},
 {"property": "C54", "status": "proved", "theorems": ["C54_digits", "C54_decimal", "C54_chars_nasm", "C54_chars_tasm", "C54_chars_refuted", "C54_leb128", "C54_leb128_short", "C54_sized"], "note": ""},
 {"property": "C55", "status": "proved", "theorems": ["C55_create", "C55_refuted"], "note": "no caller builds an IDENT node over an expression, which the theorem leaves out"},
 {"property": "C56", "status": "proved", "theorems": ["C56_substitute"], "note": ""},
 {"property": "C57", "status": "proved", "theorems": ["C57_incbin", "C57_refuted"], "note": "Failing opens, seeks and reads are left out."},
 {"property": "C58", "status": "proved", "theorems": ["C58_next", "C58_distance", "C58_sections", "C58_refuted"], "note": ""},
 {"property": "C59", "status": "proved", "theorems": ["C59_contents", "C59_names", "C59_weak_refuted", "C59_prefix_refuted"], "note": "Both defects have witnesses. Symbols identified by numbers; each visited once."},
 {"property": "C60", "status": "proved", "theorems": ["C60_read", "C60_layout", "C60_total", "C60_symtab_alignment_refuted"], "note": "Files below 4 GB with fewer than 65536 section headers; section bytes, relocation types and symbol values are given."},
 {"property": "C61", "status": "proved", "theorems": ["C61_product", "C61_tables"], "note": "The tables are a finite check inside a proof; the bounds of the powers of ten are proved by induction."},
 {"property": "C62", "status": "proved", "theorems": ["C62_literal", "C62_exact", "C62_extended_long_refuted"], "note": "Exponents that do not fit an int are undefined behaviour in sscanf and excluded."},
 {"property": "C63", "status": "proved", "theorems": ["C63_unit", "C63_nameless_refuted"], "note": "little endian, 32-bit DWARF; symbol addresses in set_address operations are given by a function"},
 {"property": "C64", "status": "proved", "theorems": ["C64_file", "C64_found", "C64_hole"], "note": "growth of the arrays is not modelled (lists)"},
 {"property": "C65", "status": "proved", "theorems": ["C65_options", "C65_refuted"], "note": "parameters are already parsed; numbers below 2^63"},
 {"property": "C66", "status": "proved", "theorems": ["C66_virtual", "C66_safe", "C66_crash_refuted"], "note": "crash (null dereference at line 449) shown by a witness"},
 {"property": "C67", "status": "proved", "theorems": ["C67_rejection", "C67_refused"], "note": ""},
 {"property": "C68", "status": "proved", "theorems": ["C68_image", "C68_accepts", "C68_errors", "C68_far_refuted"], "note": "bytecode contents are a parameter; fseek and fwrite have their C meaning, with a greatest file offset below LONG_MAX"},
 {"property": "C69", "status": "proved", "theorems": ["C69_attributes", "C69_checked", "C69_taken", "C69_zero_refuted"], "note": ""},
 {"property": "C70", "status": "proved", "theorems": ["C70_value", "C70_here_refuted", "C70_shift_refuted", "C70_wrt_refuted"], "note": "The three exceptions named in the statement are refutations of the unrestricted claim by concrete expressions."},
 {"property": "C71", "status": "proved", "theorems": ["C71_sums", "C71_order_refuted"], "note": "C71_order_refuted: two orders of the same four terms, one refused and one accepted."},
 {"property": "C72", "status": "proved", "theorems": ["C72_written", "C72_relocated", "C72_wrt_refuted"], "note": "C72_written excludes a WRT without a relative symbol (hypothesis); C72_wrt_refuted shows it is needed."},
 {"property": "C73", "status": "proved", "theorems": ["C73_linked", "C73_table", "C73_got_refuted"], "note": "C73_linked leaves out the GOT symbol in 32 and 64 bits on x86 and outside position-relative values; C73_table states these exactly. C73_got_refuted: the offset in the bytecode is added twice on x86."},
 {"property": "C74", "status": "proved", "theorems": ["C74_special", "C74_curpos_refuted"], "note": "C74_curpos_refuted shows the exception named in the statement."},
 {"property": "C75", "status": "proved", "theorems": ["C75_refused"], "note": "Absolute parts that are floats or cannot be evaluated are outside the hypotheses."},
 {"property": "C76", "status": "proved", "theorems": ["C76_linked", "C76_value", "C76_word_refuted", "C76_base_refuted"], "note": "The exceptions named in the statement are hypotheses of the theorems; C76_word_refuted and C76_base_refuted show that two of them are needed. Plain COFF for amd64 with operands relative to the next instruction is not covered (no such linker is specified)."},
 {"property": "C77", "status": "proved", "theorems": ["C77_refused"], "note": "Absolute parts that are floats or cannot be evaluated are outside the hypotheses."},
 {"property": "C78", "status": "proved", "theorems": ["C78_read"], "note": "Reader as the specification: P_CoffOut.v read_coff. Round trip for any object within the limits."},
 {"property": "C79", "status": "proved", "theorems": ["C79_written", "C79_strings"], "note": ""},
 {"property": "C80", "status": "proved", "theorems": ["C80_exact", "C80_refuted"], "note": "The faithful model loses names and relocations for plain COFF; C80_exact says exactly what is read, C80_refuted is a witness with .debug_info and .debug_line."},
 {"property": "C81", "status": "proved", "theorems": ["C81_accepts", "C81_verdict", "C81_print"], "note": "Soundness and completeness of parse_expr and parse_bexpr for all three expression kinds against an inductive grammar with lookahead; round trip from expression trees. The lexer is a token list; LOW/HIGH meaning is stated arithmetically."},
 {"property": "C82", "status": "proved", "theorems": ["C82_message", "C82_refuted"], "note": "Every rejected text has a culprit as stated; the refutation shows for each of the five macro operators that the message carries the operator's number as a character."},
 {"property": "C83", "status": "proved", "theorems": ["C83_accepts", "C83_verdict", "C83_print"], "note": "As C81 for the GAS syntax, including name@special."},
 {"property": "C84", "status": "proved", "theorems": ["C84_roundtrip", "C84_aligned", "C84_pointer_refuted", "C84_before_refuted", "C84_negative_refuted"], "note": "read back by an independent decoder of UNWIND_INFO; the three silent failures are shown by witnesses; positions are those after layout"},
 {"property": "C85", "status": "proved", "theorems": ["C85_accepts", "C85_constant", "C85_shortest", "C85_range_refuted"], "note": "shortest means against every byte sequence decoding to the operation; the refused range is shown by a witness"},
 {"property": "C86", "status": "proved", "theorems": ["C86_source"], "note": ""},
 {"property": "C87", "status": "proved", "theorems": ["C87_to_dec", "C87_roundtrip", "C87_overrun", "C87_overrun_refuted"], "note": "The evaluator and the number readers give canonical integers (C04, C54), for which the buffers suffice; the overrun is reachable through the API with a long only."},
 {"property": "C88", "status": "proved", "theorems": ["C88_written", "C88_value", "C88_refused", "C88_wrt", "C88_wrt_refuted"], "note": "Addresses of sections and lengths are those of C66 and C68 (parameters here); the bytes of floating-point values are those of C43."},
 {"property": "C89", "status": "proved", "theorems": ["C89_encoding", "C89_silent", "C89_forms", "C89_others", "C89_target", "C89_odd_refuted", "C89_range_refuted"], "note": "Flat binaries only (output_value of bin-objfmt.c). Hypotheses: operand expressions are well formed, can be split (as in C70) as they are and halved, and the value split has no WRT, no mask, and for targets is shifted by one; one copy (no TIMES); position even; symbols and targets below 2^64. Spans (a distance check of the optimizer), printing and other object formats are not modelled."},
 {"property": "C90", "status": "proved", "theorems": ["C90_listing", "C90_brackets", "C90_missing", "C90_address_refuted", "C90_second_refuted", "C90_lost_refuted"], "note": "Bytes of bytecodes and which values needed relocations are inputs (C04, C71 and others cover them); the list of sections already seen is a function of what is left of their relocations. For brackets the addresses of the fields are distinct, the relocations of the section continue with those of the bytecode's relocated fields in order, and fields are apart from each other."},
 {"property": "C91", "status": "proved", "theorems": ["C91_digest", "C91_file", "C91_whole", "C91_error_refuted"], "note": "The specification is written after RFC 1321 with words of 32 bits and moving names; its table of sines is given by its 64 integers. Opening the file and memory allocation are not modelled."},
 {"property": "C92", "status": "proved", "theorems": ["C92_directive", "C92_kept", "C92_alignment", "C92_negative_refuted", "C92_redeclare_refuted", "C92_merge_refuted"], "note": "Whether an expression is an integer, and which, is an input (C01, C66 and others cover it). Warnings before an error are not modelled. Alignments are read through yasm_intnum_get_uint, which C92_alignment describes below 2^32."},
 {"property": "C93", "status": "proved", "theorems": ["C93_global", "C93_weak", "C93_refused", "C93_weak_refuted", "C93_name_refuted"], "note": "One symbol at a time, without name, section and value (C45 and C59 cover those). Whether a size is an integer, and which, is an input. If a symbol is declared repeatedly, the qualifiers are those of the last declaration that has any."},
 {"property": "C94", "status": "proved", "theorems": ["C94_directive", "C94_kept", "C94_alignment", "C94_readonly_refuted", "C94_truncated_refuted"], "note": "Whether an expression is an integer, and which, is an input. Warnings before an error are not modelled. Alignments are read through yasm_intnum_get_uint; C94_alignment describes those from 1 to 2^32 - 1 (negative ones are taken for 0, as in C92)."}
]}
