{"id": "C01", "title": "Integer constant folding is exact", "statement": "When both operands of + - * / % (or a comparison) are integer constants of the same promoted type, the compiler replaces the expression by the constant C prescribes: the mathematical result reduced to the width and signedness of the type; division and remainder truncate toward zero; a comparison yields 1 or 0. A zero divisor is reported, never folded.", "quantifier": "every operator, every promoted integer type (int, unsigned, long long, unsigned long long) and every pair of operand values", "why_tests_cant": "2^128 operand pairs per operator and type; the interesting failures sit at isolated values (sign boundaries, INT_MIN / -1)", "anchors": ["src/parse.c:perform_integer_operation (2947)", "src/parse.c:integer_literal_as_s32/u32/s64/u64 (149)"]}
{"id": "C02", "title": "Integer promotions and usual arithmetic conversions follow C", "statement": "For any two arithmetic operands the type in which a binary operator is computed is the one C11 6.3.1.8 prescribes for the LLP64 model, it does not depend on operand order, and bit-field operands are first promoted by their width.", "quantifier": "every pair of arithmetic types and every bit-field width", "why_tests_cant": "the claim is about the whole conversion table, including the bit-field widths, not about a sampled pair", "anchors": ["src/parse.c:perform_integer_promotions (621)", "src/parse.c:maybe_load_address_for_array_or_function / bitfield promotion (633)", "src/parse.c:perform_usual_arithmetic_conversions (699)"]}
{"id": "C03", "title": "Integer literals get the first type of the C list that can represent them", "statement": "The type given to a decimal, octal, hexadecimal or binary literal with any suffix is the first type in C11 6.4.4.1's list (LLP64: long is 32 bit) that represents the value; the value is never changed by typing.", "quantifier": "every 64-bit value, every base and every suffix", "why_tests_cant": "2^64 values times suffixes; errors sit on single boundary values", "anchors": ["src/parse.c:4485-4672 (base10 / hex literal reduction)", "src/preprocess.c:parse_integer_suffix (939)"]}
{"id": "C04", "title": "Numeric literals denote their written value", "statement": "The value parsed from the digits of a decimal, octal, hexadecimal or binary literal equals the positional value of the digits whenever that fits in 64 bits, digit separators do not matter, and a literal which does not fit is diagnosed.", "quantifier": "every digit string of every length", "why_tests_cant": "digit strings are unbounded; overflow detection fails only on rare values", "anchors": ["src/preprocess.c:parse_base10_literal (976)", "src/preprocess.c:parse_binary_literal (1046)", "src/preprocess.c:parse_octal_literal (1088)", "src/preprocess.c:parse_hex_literal (1143)"]}
{"id": "C05", "title": "Casting an integer constant is reduction to the target type", "statement": "Casting an integer constant to an integer type yields the value congruent modulo 2^n which is representable in the target type; casting to _Bool yields 0 exactly for zero.", "quantifier": "every source type, target type and value", "why_tests_cant": "all values of all type pairs", "anchors": ["src/parse.c:push_cast (294)", "src/parse.c:integer_literal_as_s64 / integer_literal_as_u64"]}
{"id": "C06", "title": "Expressions are parsed by the C grammar", "statement": "For every expression the C grammar derives (prefix and postfix operators, the ten binary precedence levels, ?:, right-associative assignments and comma), the parser builds exactly the tree the grammar gives; it never regroups operands and never gets stuck.", "quantifier": "every expression derivable by the grammar, of any size and nesting depth", "why_tests_cant": "expressions are unbounded and the parser is an explicit-stack operator-precedence machine whose errors need specific operator sequences", "anchors": ["src/parse.c:parse_expression operator precedence loop (5419-5556)", "src/parse.c:7264-7532"]}
{"id": "C07", "title": "#if expressions evaluate as C prescribes", "statement": "For every well-formed #if expression over integer constants the controlling value equals the C value in intmax_t/uintmax_t arithmetic with the C operator precedences, and malformed expressions are diagnosed.", "quantifier": "every #if expression of any size", "why_tests_cant": "unbounded expressions and 64-bit operands; the evaluator is a hand-written explicit stack machine", "anchors": ["src/preprocess.c:static_if_evaluate (2855-3359)"]}
{"id": "C08", "title": "Conditional inclusion keeps exactly the first true group", "statement": "Of the groups of an #if/#elif/#else/#endif section exactly the first one whose condition is true is processed (the #else group when none is), nested sections inside skipped groups are skipped entirely and unbalanced directives are reported.", "quantifier": "every sequence of directives and every nesting depth", "why_tests_cant": "unbounded nesting and histories of directives", "anchors": ["src/preprocess.c:3695-3913"]}
{"id": "C09", "title": "The macro table behaves as a map", "statement": "After any sequence of #define and #undef, looking up an identifier yields the most recent definition not undone, regardless of hash collisions and of table growth.", "quantifier": "every history of #define / #undef / lookup and every hash assignment", "why_tests_cant": "histories are unbounded, collisions and rehashing are rare events", "anchors": ["src/preprocess.c:register_define (303)", "src/preprocess.c:lookup_define (354)", "src/preprocess.c:#undef (4302)"]}
{"id": "C10", "title": "Tokenisation is lossless, greedy and terminates", "statement": "Concatenating the texts of the tokens of a file gives back the file, no token is empty, every punctuator is the longest one possible, and line numbers count the newlines before the token.", "quantifier": "every input file", "why_tests_cant": "all byte strings of all lengths", "anchors": ["src/preprocess.c:tokenize_raw (1202-1810)"]}
{"id": "C11", "title": "String literals are encoded correctly and never overflow their buffer", "statement": "For every escape sequence and every Unicode code point the emitted code units are the C value / the standard UTF-8, UTF-16 or UTF-32 encoding, and the number of emitted units never exceeds the space reserved from the source length.", "quantifier": "every literal, every prefix, every code point", "why_tests_cant": "0x110000 code points times arbitrary literals; memory safety is a statement about all of them", "anchors": ["src/preprocess.c:escape_and_convert_string_array (650-880)", "src/preprocess.c:utf8_read_codepoint (570)", "src/preprocess.c:468-568"]}
{"id": "C12", "title": "Struct and union layout follows the ABI", "statement": "Members get aligned, ordered, non-overlapping offsets inside the object, the size is a multiple of the alignment, union members start at 0, and #pragma pack / declspec(align) only change alignments as documented.", "quantifier": "every list of members (types, alignments, bit-field widths) and every packing", "why_tests_cant": "member lists are unbounded and the interesting cases are combinations", "anchors": ["src/parse.c:parse_compound (7947-8257)"]}
{"id": "C13", "title": "Bit-field stores and loads are exact", "statement": "Storing a value to a bit-field and reading it back yields the value reduced to the field width (sign extended for signed fields) and leaves all other bits of the storage unit unchanged.", "quantifier": "every unit size, bit index, width, previous contents and stored value", "why_tests_cant": "all 64-bit contents and values for every field geometry", "anchors": ["src/emit_x64.c:emit_load_bitfield", "src/emit_x64.c:emit_store_bitfield"]}
{"id": "C14", "title": "Encoded memory operands decode to the requested address", "statement": "The prefix/ModRM/SIB/displacement bytes emitted for an instruction with a register and a memory operand decode, by the architecture manual's rules, to the same register, base, index, scale and displacement.", "quantifier": "every register, base, index, scale and 32-bit displacement", "why_tests_cant": "2^32 displacements times register combinations; special cases (RSP, RBP, R12, R13) are easily missed", "anchors": ["src/emit_x64.c:emit_prefixes_and_opcode", "src/emit_x64.c:emit_register_relative__internal (1157)"]}
{"id": "C15", "title": "Conditional jumps go where they should", "statement": "Every emitted jump lands on the label it was meant for, and the jump of a branch on an integer comparison is taken exactly when the comparison has the outcome the branch waits for (the jump for the false branch exactly when it is false), for all operands and so for all flags a comparison can leave.", "quantifier": "every comparison, every flag state, every code layout", "why_tests_cant": "all flag states and code sizes", "anchors": ["src/emit_x64.c:instruction_from_comp_condition (1912)", "src/emit_x64.c:jump_node_end_jump", "src/emit_x64.c:emit_jump"]}
{"id": "C16", "title": "Register allocation never destroys a live value", "statement": "Whenever the code generator needs a register, the one it gets is not holding a live value any more: live values are preserved in registers or spilled to stack slots disjoint from all others, for any sequence of allocations, frees and locks.", "quantifier": "every sequence of allocations, frees, locks and spills", "why_tests_cant": "histories are unbounded; spilling only occurs under high register pressure", "anchors": ["src/emit_x64.c:allocate_register", "src/emit_x64.c:spill_register (860)", "src/emit_x64.c:free_emit_location"]}
{"id": "C17", "title": "Generated code for integer expressions computes their value", "statement": "Executing the instructions generated for an integer expression over locals and constants leaves the expression's C value, for all inputs, however deep the expression.", "quantifier": "every expression tree and every initial memory", "why_tests_cant": "compiler correctness quantifies over all programs and all inputs", "anchors": ["src/emit_x64.c:emit_code_for_function__internal", "src/emit_x64.c:emit_load_gpr"]}
{"id": "C18", "title": "Every queued work item is handed to exactly one worker", "statement": "In every interleaving of workers appending to and taking from the lock-free work queue, each appended item is returned exactly once and in FIFO order, and the in-flight count is the number of items not finished.", "quantifier": "every number of threads and every interleaving of their atomic steps", "why_tests_cant": "schedules are unbounded and the failing ones (ABA) are rare", "anchors": ["src/main.c:work_queue_push_work / work_queue_append_list (1202)", "src/main.c:work_queue_get_work (1240)"]}
{"id": "C19", "title": "Declaration order and scheduling do not matter; no work item sleeps forever", "statement": "Whatever the order in which workers process the global declarations, a declaration is parsed successfully iff all it transitively needs is defined; no wake-up is lost, and a stage ends only when no work can make progress.", "quantifier": "every set of declarations, every dependency graph, every schedule", "why_tests_cant": "schedules and dependency graphs are unbounded", "anchors": ["src/main.c:sleeper_table_add / sleeper_table_delete (1325-1503)", "src/main.c:wake_up_sleepers (1505)", "src/main.c:worker_work (3480)"]}
{"id": "C20", "title": "The global declaration table is an insert-or-get map under concurrency", "statement": "For every interleaving of insertions and lookups (no growth in progress) at most one declaration is registered per name, every insert returns the registered one, and a completed insert is visible to every later lookup.", "quantifier": "every interleaving of threads, every hash function, every table fill", "why_tests_cant": "interleavings are unbounded", "anchors": ["src/main.c:ast_table_add_or_return_previous_entry / ast_table_get (106-247)"]}
{"id": "C21", "title": "Name lookup finds the innermost, most recent declaration", "statement": "After any sequence of scope pushes, pops and declarations, looking up an identifier yields the latest declaration in the innermost scope declaring it.", "quantifier": "every history of scopes and declarations, every hash assignment", "why_tests_cant": "histories are unbounded, collisions and table growth are rare", "anchors": ["src/main.c:parser_register_declaration_in_scope (1726)", "src/main.c:lookup_declaration (1563)"]}
{"id": "C22", "title": "The written PDB container reads back", "statement": "A reader following the MSF specification, given the file written, recovers exactly the streams, for any number and size of streams including those crossing free-page-map pages; the file size is the announced number of pages and no stream page is a free-page-map page.", "quantifier": "every list of streams of every size", "why_tests_cant": "failures need files larger than 16 MB (free page maps every 4096 pages)", "anchors": ["src/coff_writer.c:write_msf (353)"]}
{"id": "C23", "title": "CodeView numeric leaves round-trip", "statement": "Every signed and unsigned number written into debug info decodes to itself and the record-size helper agrees with the number of bytes written.", "quantifier": "every 64-bit value", "why_tests_cant": "2^64 values with boundary cases", "anchors": ["src/obj_writer.c:push_unsigned_number_leaf (42)", "src/obj_writer.c:push_signed_number_leaf (58)", "src/coff_writer.c:pdb_numeric_leaf_size_or_error (74)"]}
{"id": "C24", "title": "Command line arguments survive quoting", "statement": "For every list of arguments, quoting them by the Windows rules and parsing the result gives the same list; parsing never writes beyond the command line length plus one.", "quantifier": "every argument list and every command line", "why_tests_cant": "all strings; quoting rules interact in rare combinations of backslashes and quotes", "anchors": ["src/windows.c:windows_parse_command_line__internal (825)"]}
{"id": "C25", "title": "Library archives are read safely and symbols are found", "statement": "For every file, valid or not, parsing a .lib never reads outside the file, and in a sorted symbol table a symbol is found iff it is present.", "quantifier": "every byte string as archive and every symbol", "why_tests_cant": "hostile files are unbounded", "anchors": ["src/ar.c:ar_parse_file (21)", "src/ar.c:ar_lookup_symbol (231)"]}
{"id": "C26", "title": "Sorting is correct and terminates", "statement": "The sorts used for diagnostics and tables return an ordered permutation of their input, and stay within their fixed-size explicit stack.", "quantifier": "every input list of every length", "why_tests_cant": "all lists; stack overflow needs adversarial inputs", "anchors": ["src/std.c:sll_sort (336)", "src/std.c:quicksort_u32_array (2084)"]}
{"id": "C27", "title": "Checksums equal their definition", "statement": "The table-driven CRC-32 used for debug info equals the bitwise polynomial definition and is incremental; the MD5 helper pads its message as RFC 1321 prescribes.", "quantifier": "every byte string", "why_tests_cant": "all byte strings", "anchors": ["src/std.c:crc32 (1980)", "src/std.c:hash_md5_inplace (1862)", "src/std.c:hash_md5 (1960)"]}
{"id": "C28", "title": "Alignment and power-of-two helpers are exact", "statement": "align-up returns the least multiple not below its argument, power-of-two rounding the least power of two not below, leading/trailing zero counts the exact index, and truncations lose nothing when their check passes.", "quantifier": "every 64-bit argument", "why_tests_cant": "2^64 arguments", "anchors": ["src/std.c:align_up (246)", "src/std.c:round_up_to_next_power_of_two (1702)", "src/std.c:count_leading_zeros64 (653)", "src/std.c:save_truncate (1823)"]}
{"id": "C29", "title": "Arena allocations never overlap", "statement": "Blocks returned by an arena are aligned as requested, inside committed memory and disjoint from all live blocks; ending temporary memory frees exactly what was allocated since it began.", "quantifier": "every sequence of allocations, growths and temporary-memory scopes", "why_tests_cant": "histories are unbounded", "anchors": ["src/std.c:memory_arena push_memory__ (689-899)", "src/std.c:begin_temporary_memory (904)"]}
{"id": "C30", "title": "The spin lock excludes and is fair", "statement": "For every interleaving at most one thread is inside the lock and threads enter in the order they requested, as long as there are fewer than 2^64 threads (the counter range).", "quantifier": "every number of threads and interleaving", "why_tests_cant": "interleavings are unbounded", "anchors": ["src/std.c:ticket_spinlock (1753-1775)"]}
{"id": "C31", "title": "Compound assignment equals the expanded assignment", "statement": "For integer lhs and rhs of any types `l op= r` stores the same bits as `l = (T)(l op r)` evaluated with C's conversions.", "quantifier": "every operator, every pair of integer types and all values", "why_tests_cant": "all values of all type pairs", "anchors": ["src/parse.c:6997-7246"]}
{"id": "C32", "title": "Pointer arithmetic scales by the element size", "statement": "p + i addresses the i-th element, (p + i) - p is i, for every element size and every signed i.", "quantifier": "every element size, every address, every index of any integer type", "why_tests_cant": "all indices including negative ones and all element sizes", "anchors": ["src/parse.c:handle_pointer_arithmetic (1732)", "src/parse.c:6090-6140"]}
{"id": "C33", "title": "Static initialisers produce the bytes the program would have stored", "statement": "The data emitted for an object with static storage equals the memory an equivalent sequence of assignments would leave, zero elsewhere, and never writes outside the object.", "quantifier": "every sequence of initialiser stores", "why_tests_cant": "all initialisers, types and offsets", "anchors": ["src/main.c:evaluate_static_initializer (2202-2644)"]}
{"id": "C34", "title": "Exactly the reachable functions and data are emitted, each once", "statement": "Starting from the entry points, a declaration is emitted iff it is reachable through references, and never twice.", "quantifier": "every reference graph", "why_tests_cant": "all finite graphs with cycles", "anchors": ["src/main.c:5461-5596"]}
{"id": "C35", "title": "Work shuffling is a permutation", "statement": "The seed-driven shuffle of parse work hands every chunk out exactly once for every seed.", "quantifier": "every seed, every list of work items", "why_tests_cant": "all seeds and lists", "anchors": ["src/main.c:3180-3201"]}
{"id": "C36", "title": "Every source file is loaded and tokenised once", "statement": "For every interleaving of threads including the same file exactly one tokenises it, all others wait and see the finished tokens.", "quantifier": "every number of threads and interleavings", "why_tests_cant": "interleavings are unbounded", "anchors": ["src/preprocess.c:load_or_get_source_file (2610)", "src/preprocess.c:2829-2849"]}
{"id": "C37", "title": "Macro redefinition is diagnosed exactly when it differs", "statement": "A #define of an already defined macro is accepted silently iff parameters and replacement list are the same up to whitespace spelling.", "quantifier": "every pair of definitions", "why_tests_cant": "all pairs of definitions", "anchors": ["src/preprocess.c:4179-4297"]}
{"id": "C38", "title": "Macro expansion terminates", "statement": "Expansion of any token sequence under any set of macros terminates, and a macro is never expanded inside its own expansion.", "quantifier": "every macro table and token list", "why_tests_cant": "termination is a statement about all macro tables including mutually recursive ones", "anchors": ["src/preprocess.c:expand_define (1830-2504)"]}
{"id": "C39", "title": "Type compatibility is an equivalence", "statement": "The type-equality test used for redeclarations is reflexive, symmetric and transitive and equal types have equal size and alignment.", "quantifier": "every pair and triple of types", "why_tests_cant": "types are unbounded trees", "anchors": ["src/parse.c:types_are_equal (911-1051)"]}
{"id": "C40", "title": "Enumerators number consecutively", "statement": "An enumerator without value is one more than the previous (0 if first), explicit values restart the sequence, and values outside the representable range are reported.", "quantifier": "every list of enumerators", "why_tests_cant": "lists are unbounded; overflow at boundaries", "anchors": ["src/parse.c:8292-8340"]}
{"id": "C41", "title": "Type specifier combinations denote the C type in any order", "statement": "Every multiset of integer type specifiers allowed by C denotes the C type independent of order, all others are reported.", "quantifier": "every sequence of type specifiers", "why_tests_cant": "all sequences", "anchors": ["src/parse.c:8430-8495"]}
{"id": "C42", "title": "UTF-16 to UTF-8 conversion is the standard one", "statement": "Converting well-formed UTF-16 yields the UTF-8 encoding of the same scalar values.", "quantifier": "every UTF-16 string", "why_tests_cant": "0x110000 code points, surrogate boundaries", "anchors": ["src/std.c:utf16le_to_utf8 (2161)"]}
{"id": "C43", "title": "Declarations are split at global scope only", "statement": "The splitter that hands out work packages covers all tokens in order, and cuts only where all parentheses, brackets and braces are balanced.", "quantifier": "every token sequence", "why_tests_cant": "all token sequences of unbounded nesting", "anchors": ["src/main.c:worker_preprocess_file (2842-3176)"]}
{"id": "C44", "title": "Generated code computes the C value of an integer expression", "statement": "For every integer expression made of literals, variables, casts, unary and binary operators and commas that has a value in C, the instructions the parser generates compute that value in its C type, whatever the variables hold.", "quantifier": "every expression of any size, every type of its variables and literals, every value of the variables", "why_tests_cant": "unboundedly many expressions times all values; the conversions inserted depend on every pair of types", "anchors": ["src/parse.c:push_cast (294-617)", "src/parse.c:5763-6545", "src/emit_x64.c:emit_integer_cast (2522)"]}
{"id": "C45", "title": "Generated code follows C's control flow", "statement": "For every function body made of if, while, do, for, switch, break, continue, goto, labels, return, assignments and expression statements over integer variables, the generated code returns if and with the value C's function returns, falls off the end if C's does, leaves the same values in the variables, and runs for ever if C's does; main without a return returns 0.", "quantifier": "every nesting of statements, every set of labels and case constants, every value of the variables, runs of any length including infinite ones", "why_tests_cant": "programs and runs are unbounded, and non-termination cannot be observed by a test", "anchors": ["src/parse.c:parse_statement (9031-9602)", "src/main.c:3395-3437", "src/emit_x64.c:3656-3836"]}
{"id": "C46", "title": "A function compiled without a missing-return warning never runs off its end", "statement": "If the compiler accepts a function that has a return type and gives no warning about it, no run of the function, whatever its arguments, reaches the closing brace without returning a value (for main of type int the value is 0). If it accepts a _Noreturn function without a warning, no run of it returns. A function whose last statements obviously return or loop for ever gets no warning.", "quantifier": "every body of nested if, while, do, for, switch, break, continue, goto, labels and return, every initial value of the variables, every number of steps", "why_tests_cant": "a test runs particular paths of particular functions; the warning is a claim about all paths of all of them", "anchors": ["src/parse.c:parse_statement (9070-9594)", "src/main.c:worker_parse_function (3395-3452)"]}
{"id": "C47", "title": "Functions and calls follow the x64 calling convention", "statement": "Code compiled here can call, and be called by, code of any compiler that follows the Windows x64 convention: for every list of parameter types and any number of arguments, with or without '...', the caller puts each argument into the register or stack slot of the convention, structs of other sizes than 1, 2, 4 or 8 bytes as the address of a copy, and passes the address for a struct result first; a function finds each parameter there; the stack pointer is a multiple of 16 at every call; outgoing arguments, temporaries and local variables do not overlap; RBP, RSI, RDI and RSP are restored on return.", "quantifier": "every return type, every list of parameter types and arguments of any length, every frame size, every state of registers and memory", "why_tests_cant": "unboundedly many signatures; a wrong slot shows only when both sides disagree for that signature", "anchors": ["src/emit_x64.c:IR_function_call (3352-3645)", "src/emit_x64.c:emit_code_for_function (4712-4962)", "src/emit_x64.c:emit_allocate_temporary_stack_location (850)", "src/parse.c:size_is_big_or_oddly_sized (105)"]}
{"id": "C48", "title": "Nested calls compute what they mean", "statement": "In return f(a, g(b), c) every function is called with the values of its arguments converted to the types of its parameters, in the same order each time, and the result of the last call is returned: a value computed before a call and needed after it survives the call even if the called function changes every register and memory location that the calling convention lets it change. The caller's variables and saved registers are unchanged, and every call instruction is listed for the linker with its function.", "quantifier": "every nesting of calls with up to four integer arguments, every argument expression without calls, every behaviour of the called functions allowed by the convention, every state of the machine", "why_tests_cant": "which values are lost depends on the register pressure at each call of unboundedly many expressions, and on what the called functions destroy", "anchors": ["src/parse.c:parse_expression (5275-5410)", "src/emit_x64.c:IR_function_call (3353-3650)", "src/emit_x64.c:spill_register (860)"]}
