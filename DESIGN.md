# Formal model of yasm: design

Everything here is Rocq (Coq 8.16.1), stdlib only unless a file says otherwise.
The source in /repo is read as text; nothing of it is built or run.

## Layout

* `rocq/theories/Lib*.v`   shared arithmetic/list lemmas, no model content.
* `rocq/theories/M_*.v`    the executable model of one source file (or part of it); every
  definition cites the file and lines it models, and says where it simplifies.
* `rocq/theories/P_*.v`    specification (first section, written without the model's helpers)
  and proofs.
* `rocq/theories/T_*.v`    the property theorems only, each `exact`-ed from a P file, with
  `Print Assumptions` beneath, and non-vacuity examples.

## Target assumptions

LP64: `char` 8, `int` 32, `long`/`size_t` 64 bits, two's complement. `N_word` = `N_int` =
`unsigned int`, so bit-vector words are 32 bits. `malloc` never fails (the code aborts).
C undefined behaviour reached by the modelled code is a distinct outcome, not a value.

## Trusted base

Coq's kernel; the manual transcription of the cited C lines into Gallina; what
`Print Assumptions` prints for each theorem (see the table in section "Assumptions").

## Per property: what is modelled and how it is proved

| id | modelled code | method |
|----|---------------|--------|
| C01, C02 | bitvect.c compute/negate/inc/dec/mul/div over lists of 32-bit words (little endian) | refinement to Z via `val`; induction over the word list; loop invariants for shift-add and shift-subtract |
| C03 | from_Hex/Oct/Bin, scanning right to left into words | invariant: processed suffix value = stored prefix value |
| C04, C05, C08 | intnum.c calc/check_size/get_*: sum type L long / BV | canonical-form invariant + refinement to Z mod 2^256; refutations by computation |
| C06 | leb128 encode/size | round trip against a DWARF decoder by induction on the bytes |
| C07 | get_sized | refinement to bit-level `testbit` spec |
| C09, C10, C11 | hamt.c trie over 32-way bitmapped nodes, hash and rehash functions | trie invariant (path = hash prefix), refinement to association list; divergence as fuel-independent non-return |
| C12, C13, C14 | linemap.c | invariant sortedness; binary search invariant; refutation by computation |
| C15, C16 | inttree.c insert/enumerate, functional red-black tree with parent path (zipper); enumeration with its explicit stack | order, maxHigh and red-black invariants by induction; the stack machine refines a recursive search |
| C17 | mergesort.c | functional merge passes; permutation+stability |
| C18, C19, C20 | errwarn.c | invariant over operation sequences; refutation |
| C21, C22, C23 | symrec.c | state machine over op sequences; invariants |
| C24, C25 | bc-align.c, bc-org.c | arithmetic modulo powers of two; minimality and exactness of thresholds |
| C26 | bc-data.c | both passes refine a one-pass construction, that refines the concatenation; memory errors are outcomes |
| C27 | bytecode.c tobytes/calc_len, bc-reserve.c | buffer model with overrun as an outcome; induction on repetitions |
| C28, C29 | section.c optimizer over the interval tree of C15, C16; spans as value functions of their terms with a sequence of forms | invariant of the worklist (term values are the true distances of the current sizes, setters have the length of their offset); measure (forms left, queue); least fixpoint by monotonicity of distances; divergence by a repeating state |
| C30, C31, C32 | expr.c | denotational semantics into Z/2^256; induction on trees |
| C33 | x86expr.c, x86bc.c insn_tobytes | a decoder of REX/VEX, ModRM, SIB and displacement as spec; the levelled expression is a linear form in the registers; case analysis on base and index; the emitted displacement is the rest modulo 2^256 |
| C34, C35 | x86bc.c | byte-count equality; modular arithmetic |
| C36 | x86arch.c, lc3barch.c fill tables, bc-align.c | an executable decoder of no-ops as spec; induction on chunks |
| C37, C66-C69 | bin-objfmt.c section directives, layout, output | groups form a forest whose edges are the follows-relation (invariant of the resolution loop); induction on the forest with the running end and offset; addresses as integers; writes to disjoint ranges of a file |
| C38, C39, C63, C64, C65 | dwarf2-line.c, dwarf2-dbgfmt.c head | a reader of .debug_line units (header, tables, state machine) as spec; induction on locations and bytecodes with an invariant tying the registers to the generator's state; invariants of the tables |
| C70, C71, C72 | value.c | denotation of a value as absolute part plus relocated symbol; induction on the tree with the split-off part as accumulator; counting of symbols by class for sums |
| C40, C41, C42 | file.c | string functions; component-sequence spec |
| C43, C61, C62 | floatnum.c create, mul, get_common, get_sized; the bitvect.c functions they use | the value of an internal float is a rational; formats are decoded by a reader written from IEEE 754; the tables are checked against 128-bit interval bounds of the powers of ten, errors add up by induction over the loop |
| C73, C74, C75 | elf-objfmt.c, elf.c, elf-x86-*.c relocations | linker specified by the psABI formulas over arbitrary addresses; composition with C70 from expression to linked field |
| C76, C77 | coff-objfmt.c coff_objfmt_output_value | linker specified by the PE/COFF rules over arbitrary addresses; composition with C70 from expression to linked field |
| C78, C79, C80 | coff-objfmt.c coff_objfmt_output and its traversals | independent COFF reader (names in the string table, "/offset" names, relocation overflow, auxiliary entries); read of the written file = the object |
| C81, C82, C83 | nasm-parse.c, gas-parse.c expression parsers | one inductive grammar with lookahead over a record of operators and operands; completeness by induction on derivations, soundness by induction on the number of tokens, both once for any parser of that form; the error a user sees characterised in the same induction |
| C84, C85, C86 | win64-except.c, coff-objfmt.c unwind directives | independent decoder of UNWIND_INFO; invariant over directives, round trip through layout; completeness for procedures within the limits; minimality against every byte sequence |
| C87 | bitvect.c BitVector_to_Dec, intnum.c get_str | blocks of nine digits: invariant digits written + quotient; round trip through C52's reader |
| C88 | bin-objfmt.c bin_objfmt_output_value, expr_xform | value of an expression kept by splitting (C70), rebuilding (create), and levelling with the address callback, under an environment of addresses; then C06 for the field |
| C89 | lc3bid.re finalize, lc3bbc.c tobytes | decoder of the machine as specification; per-form lemmas from C88 on the field, then fields of the word by division; every name once |
| C90 | nasm-listfmt.c nasm_listfmt_output | a reader as specification; number printing by digits in a base; rows by induction on bytes with the unwrapped sequence of bytes and brackets as invariant |
| C91 | md5.c, all functions; the reading loop of cv-symline.c cv_dbgfmt_add_file | RFC 1321 as specification; values agree modulo 2^32 although the code keeps 64 bits; the steps match the table of operations one by one with the variables moving round; contexts represent the bytes seen so far |
| C92 | valparam.c parameters and helpers; elf-objfmt.c section_switch and gasflags; section.c yasm_object_get_general | what each parameter says of each attribute as specification, the last word counts; the table of helpers by cases on words; bits of flags one by one |
| C93 | elf-objfmt.c build_global and its helpers, dir_type, dir_size, dir_weak; elf.c what is written of type, size, binding and visibility | last and first word as specification; induction over the qualifiers from any state of the helper's data |
| C94 | coff-objfmt.c section_switch, gasflags; valparam.c yasm_dir_helper; section.c yasm_object_get_general | as C92; the table is compared with the specification through tests of words, so that each word is one closed computation; invariant of the letters' state machine |
| C44, C45, C59 | elf.c strtab/symtab, elf-objfmt.c build_symtab | invariants over sequences of directives and symbols; the name is read back from the emitted string table |
| C60 | elf-objfmt.c output functions, elf.c, elf-x86-amd64.c, elf-x86-x86.c | round trip through an independent ELF reader; intervals of the file as an ordered chain |
| C46 | nasm-eval.c, gas-eval.c | grammar as an inductive relation; completeness by induction on derivations (loops in continuation form), soundness by induction on the number of tokens |
| C47 | assocdat.c | state machine |
| C48, C49, C50 | hamt.c, symrec.c (see theorem files) | as C09-C11, C21-C23 |
| C51 | file.c scanner refills | invariant on buffer and token positions |
| C52, C53 | bitvect.c decimal parsing, bitwise, chunk and block access | as C01-C03; `testbit` frame conditions |
| C54 | intnum.c creation functions | word-store invariants, refinement to Z |
| C55, C56 | expr.c create, distance substitution | as C30; relation between recorded pairs and environments |
| C57 | bc-incbin.c | list slices |
| C58 | bytecode.c offsets and distances | refinement to Z |

Nothing is currently classed as inexpressible.

## What is modelled and what is not

Each `M_` file lists at its head what it leaves out. In short:

| file | modelled | left out |
|------|----------|----------|
| linemap.c | set/lookup/poke, the mapping and source arrays | traversal callbacks, printing |
| errwarn.c | occurred/set/fetch/propagate, the error list and its order | gettext, message formatting (a message is its format and arguments) |
| hamt.c | hash functions, insert, search, delete of the whole table | allocation |
| symrec.c | use/define/declare/finalize and table creation, special symbols, case folding | object-format callbacks |
| mergesort.c | the whole algorithm on lists | the pointer encoding of run lengths inside the array |
| assocdat.c | add/get | allocation of the vector |
| file.c | Unix path functions, unescape, scanner buffer, include search | Windows variants |
| bitvect.c | functions used by intnum.c and floatnum.c, Interval_Copy and Interval_Fill | other Interval_* functions, printing in bases other than ten |
| intnum.c | creation, calc, queries, check_size, in_range, get_sized (little endian), LEB128, get_str (sprintf "%ld" by its meaning; bits / 3.3 as 10 bits / 33) | yasm_intnum_print, big endian (aborts in the code) |
| floatnum.c | the tables, create, mul, normalize, calc (negation), get_int, get_sized, check_size | copy, destroy, print; sscanf is its C standard meaning for "%d" |
| expr.c | create, levelling, constant folding, negation transform, constant expansion, label distances, get_intnum, substitution; a slot destroyed twice or read stale is a fault | printing, traversal helpers, floats beyond their sign, extract_* helpers |
| inttree.c | insertion with rotations and recolouring, enumeration with its stack | deletion, successor functions, printing |
| bytecode.c | calc_len, get_multiple, tobytes, offsets, distances | transformation, destruction, printing |
| bc-align.c, bc-org.c, bc-reserve.c, bc-incbin.c | lengths, thresholds, bytes | finalisation errors (they stop the assembly), I/O failures |
| bc-data.c | creation (both passes), repeat counts, length, bytes | freeing, printing, value output by object formats (a parameter) |
| section.c | yasm_object_optimize and its helpers: offsets, spans and terms, interval tree, cycle check, both queues, offset setters | step 1a (creation of spans by bytecodes), the expand callbacks (a span has a fixed sequence of forms, of which the next that holds the value is taken, as win64_uwcode_bc_expand does; a callback that did not skip would leave a span outside its limits, since step 2 does not recheck), integer overflow, sections themselves |
| elf.c, elf-objfmt.c | string tables, symbol table entries, directives weak, type and size, building and numbering of the symbol table, the whole output file for ELF32 x86 and ELF64 amd64, conversion of values to relocations for x86, amd64 and x32 | parsing of directive arguments, evaluation of symbol sizes, the output file for x32 |
| coff-objfmt.c | conversion of values to relocations for coff, win32 and win64; the output file; the unwind directives | directives section, export, safeseh |
| win64-except.c | generation, sizes, expansion and bytes of .xdata, entries of .pdata | positions are those after layout (the spans of prologue size and slot count are tested on the final value only), offsets come with the values the optimizer shows for them, the handler is a relocated word, one item of .xdata stands for all bytecodes of one procedure, the current position always exists |
| value.c | initialisation, scan, finalisation, yasm_value_get_intnum, yasm_value_output_basic | copying, printing, freeing, output of floats (an outcome); what a symbol is comes from parameters; yasm_symtab_define_curpos makes the symbol [dot] |
| x86expr.c, x86bc.c | effective addresses, instructions and relative jumps: lengths, spans, expansion, bytes | far jumps, apply_prefixes, warnings, the tables of instructions (x86id.c): descriptors are arbitrary |
| dwarf2-line.c | .file and .loc, tables, operations of both modes, lengths and bytes, the unit | printing, freeing, .debug_info/.debug_aranges, 64-bit DWARF, minimum instruction lengths other than 1 in the theorems |
| bin-objfmt.c | section directives, groups, order, load and virtual addresses, overlap check, writing of the image, output of values, special symbols in them | the map file, evaluation of start expressions, parsing of directive arguments |
| nasm-eval.c, gas-eval.c | the whole evaluator over a list of tokens | the scanners |
| nasm-parse.c, gas-parse.c | parse_expr and everything below it, over a list of tokens | lines, instructions, operands, directives, the lexers |
| lc3bid.re, lc3bbc.c | tables, names, registers, choice of form, operands, bytes in a flat binary | printing, the span of targets (a distance check in words), TIMES, other object formats |
| nasm-listfmt.c | noting of relocations, rows, lines, the file (fprintf by its C standard meaning) | writing of the values themselves, I/O failures, wrapping of the line number |
| md5.c | all of it; the reading loop of cv_dbgfmt_add_file | clearing of the context at the end, opening of the file |
| valparam.c | reading of parameters, yasm_dir_helper, its helpers for flags and integers, the warning | yasm_call_directive, printing, the helpers for strings and expressions |
| x86arch.c, lc3barch.c | fill tables | everything else |

## Assumptions

Every theorem in the `T_` files so far is "Closed under the global context": no axioms, not even
from the standard library.
