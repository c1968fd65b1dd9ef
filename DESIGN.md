# A Rocq model of Headerless-C-Compiler

Source: `/repo/src` (pinned, read as text, never built).  The model lives in
`rocq/theories`.  Every area has up to four files:

* `XModel.v`  – total Gallina functions transcribed from the C code, each with the
  file and lines it models and every simplification;
* `XSpec.v`   – a small specification that does not mention the model (C standard
  semantics, the architecture manual's decoder, the MSF reader, ...); some areas put it in the head of the proof file;
* `XProofs.v` – lemmas;
* `XProps.v`  – the property theorems (`Cnn_...`), each closed by an `exact`, with an
  `Example` meeting its hypotheses and `Print Assumptions` below it.

## Conventions

* Machine integers are `Z` (or `N`) with explicit reduction modulo 2^n.
* Undefined behaviour, failed asserts and traps of the C code are distinct
  outcomes, never silently given a value.
* Pointers into tables are indices; intrusive lists are lists; arenas are modelled
  only where the property is about them.
* Concurrency: a state with a list of threads, each with a program counter; one
  atomic memory access (interlocked operation, load or store) is one step;
  sequential consistency (the code uses Interlocked* / volatile on x64).
* Where the faithful code does not have the property, the theorem is
  `..._refuted` with a concrete witness, and the property is proved under the
  weakest natural side condition as `..._partial`.

## Plan by property

| id | modelled | proof |
|----|----------|-------|
| C01 | `perform_integer_operation` and literal readers, per type | case analysis per type/op against Z arithmetic reduced to the type |
| C02 | promotion, bit-field promotion, usual conversions | against a rank/width based definition of C11 6.3.1.8 |
| C03 | suffix parser, literal typing chains | against "first representable type of the list" |
| C04 | the four digit parsers | induction over digits; decimal overflow refuted |
| C05 | `push_cast` literal branch | congruence and range of the result |
| C06 | explicit-stack precedence machine with guard entry | grammar as inductive relation, simulation of the stack machine |
| C07 | `static_if_evaluate` stack machine | same technique plus value semantics; deviations refuted |
| C08 | `#if` stack and skip flag | refinement to a nested-section evaluator |
| C09 | open hashing table with growth | refinement to a map, any hash |
| C10 | `tokenize_raw` | a predicate per token type (own grammar, own table of punctuators) over text and rest of file; one lemma per branch of the switch, then induction over the file |
| C11 | `escape_and_convert_string_array`: escapes, UTF-8 reader, 3 encoders, buffer | grammar of elements with source text and meaning; induction over the literals; the wrong surrogates refuted |
| C12 | member layout loop | fold invariant |
| C13 | the shift and mask sequences that load and store a bit-field, on register words with arbitrary upper bits | bitwise extensionality; width 64 refuted |
| C14 | prefix / ModRM / SIB encoder | independent decoder, round trip |
| C15 | jump patching, condition table | arithmetic; flags case analysis |
| C16 | allocator state machine; a separate specification of the requests a client may make (ServeSpec.v) | invariant over op sequences; such requests are always served (no assert fails, registers never run out) while the frame stays below 2 GB |
| C17 | lowering of integer expressions (C44), selection of code-generator instructions, the code generator (registers, spilling, loads, arithmetic, shifts, division, comparisons, conversions), a 64-bit machine | simulation: the emitter's operand stack stands for the stack of the intermediate code; each instruction's bytes are decoded and run on the machine. That code is always generated is a second theorem: a total-correctness invariant of the emitter (who owns each register, which values are locked, how many temporaries are still in reach) is kept by every instruction whose operands have the sizes it needs, and the lowering of every accepted expression only produces such instructions; hypothesis: 384 bytes of temporaries per node of the expression lie within 2 GB. `&&`, `\|\|`, `?:`, assignments, calls and pointers are left out |
| C18 | CAS-level queue model | inductive invariant over interleavings; ABA refuted |
| C19 | sleeper tables with growth, work queue (atomic), one access per step | invariants over schedules (entries counted, hashed tables, no established fact with a sleeper that nobody wakes), least fixpoint of what can be resolved; with tables that are large enough at the start: no fault (invariant on the number of probes), and under every fair schedule the stage ends (measure on what entries still wait for and on steps left; a thread about to set a size eventually does); four cases refuted |
| C20 | CAS-level open addressing table | inductive invariant |
| C21 | scope chain hash tables | refinement to list of association lists |
| C22 | `write_msf` page arithmetic and file image | round trip with independent reader |
| C23 | number leaves | round trip with independent reader |
| C24 | command line state machine | round trip with standard quoting |
| C25 | archive parser with checked reads | no out-of-bounds outcome; binary search |
| C26 | `sll_sort`, `quicksort_u32_array` | permutation + sorted |
| C27 | CRC table and loop, MD5 | against bitwise definition / RFC |
| C28 | arithmetic helpers | Z/N bit reasoning |
| C29 | arena state machine | invariant |
| C30 | ticket lock steps | invariant |
| C31 | the instructions generated for = op= ++ -- on variables and bit-fields, and a machine that runs them | against the expanded assignment in C's types; division in the wrong type refuted |
| C32 | the instructions generated for pointer + - [] += -= ++ -- and differences | against addresses and element numbers in Z; unscaled constants and unsigned differences refuted |
| C33 | the evaluation of initialiser code (all node kinds it accepts, nested compound literals, bit-fields, strings, address arithmetic) and the absolute patches | the linked bytes against a sequence of assignments to the bits of zeroed memory, by an invariant over the places set so far; for arbitrary code that no write leaves the object; the cases where it fails are refuted |
| C34 | DFS worklist | reachable set |
| C35 | shuffle | permutation |
| C36 | in-progress protocol steps | invariant |
| C37 | replacement-list comparison | against list equality; deviations refuted |
| C38 | `expand_define` and the loops that feed it: stack of texts, disabled macros, arguments | invariant (disabled = being read); lexicographic measure over the lengths of the texts, one place per macro; counting parentheses shows that arguments end in the text they start in |
| C39 | type trees | structural induction |
| C40 | enumerator loop | fold |
| C41 | specifier flags | finite case analysis lifted to all sequences |
| C42 | converter | per code point and by induction |
| C43 | bracket counters of the splitter | induction |
| C44 | the instructions generated for integer expressions, with the casts inserted by the parser, literals changed in place, and the jumps, labels and temporaries of `&&`, `\|\|` and `?:` | induction over the expression against its C value; a stack machine with sized words gives the instructions meaning. Expressions with jumps: code that is not evaluated may change nothing but temporaries, labels are placed once and behind the jumps to them |
| C45 | the instructions generated for statements: `if`, `while`, `do`, `for`, `switch`, `break`, `continue`, `goto`, labels, `return`, assignments and expressions as statements, the `return 0` added to `main`; the way labels of gotos are filled in | C's statements as steps with continuations (StmtSpec.v); simulation of every C step by at least one instruction or by a smaller statement, so that returning, ending and running for ever carry over; positions of labels are unique (numbering argument); case lists and named labels by induction over the statement. Also the constraints of 6.8: a body is compiled exactly when its labels, cases, defaults, `break`, `continue`, `case` and `goto` follow the rules of StmtRulesSpec.v and its expressions can be generated (StmtRulesProofs.v), and every jump, case and default of the code has its place in the code (StmtTargets.v) |
| C46 | `current_statement_returns_a_value`, alive breaks and the warnings about missing returns and returns in `_Noreturn` functions | invariant over C's steps: what the flags say about a statement and the ways control can go on behind it (running on, `break`, `continue`); labels are entered with the flag reset. Refuted for `do` loops with `break` or `continue` and for labels inside of dead statements; proved for all other functions, and that functions that obviously return are not warned about |
| C47 | where a call puts its arguments, where a function looks for its parameters, the frame | the places are compared with those of the published convention, for callers and callees separately, so that either side may come from another compiler; induction over the arguments (the caller's loop runs backwards) and over the callee's loop (hidden pointer, then parameters, then `...`); arithmetic for the frame. Refuted: alignment of copied structs |
| C48 | calls with integer arguments from the expression to machine code: conversion of the arguments, their registers, what is saved around the call, the call sites for the linker, the result | simulation as for C17, with calls as single steps of the machine: a called function is any change of the machine that the calling convention allows and that does what the C function means; the state outside of the caller's frame is abstract. Induction over the expression for the intermediate code, over the code for the emitter. The displacements may hold anything. Missing: more than four arguments, calls through pointers, calls as operands of operators, `void`, varargs |

The sections below are kept current with the development.

## Trusted base

* Coq 8.16.1's kernel (and `coqchk`), including its virtual machine for the few
  `vm_compute` steps, all of which are small and concrete.
* `Print Assumptions` is printed under every property theorem.  Every one of them is
  "Closed under the global context": no axiom of the standard library is used, and none
  is declared here.
* The reading of the C source: each definition cites the file and lines it transcribes.
  Nothing checks mechanically that the transcription is right; the seeded-bug log
  (`seeded/LOG.jsonl`) and the concrete `Example`s beside the theorems are the evidence.
* The specification files (`*Spec.v`, `CSpec.v`, `ParseSyntax.v`) state what is meant:
  the C standard's integer rules, the grammar of expressions, UTF-8/16, RFC 1321, the
  MSF and CodeView layouts, command-line quoting.
* `X64Decode.v` and `X64Machine.v` are specifications of the architecture: a decoder of
  the instruction subset the compiler emits and its effect on registers, flags, memory
  and the instruction pointer, written from the vendor manuals.  They are trusted in the
  same way as the C standard is.  Memory is one flat byte array, accesses do not fault,
  undefined flags are `None` (using one is stuck, so nothing is proved by reading it).

## What is modelled

| area | source | files |
|------|--------|-------|
| integer types, constant folding, casts | parse.c | Int* |
| numeric literals | preprocess.c, parse.c | Lit* |
| sorting, shuffling | std.c, main.c, obj/coff writers | Sort* |
| alignment helpers, CRC-32, MD5, UTF-16 conversion | std.c, coff_writer.c | Util*, Md5* |
| arenas | std.c | Arena* |
| ticket lock | std.c | Lock* |
| command line splitting | windows.c | Cmd* |
| archive reading and symbol lookup | ar.c | Ar* |
| CodeView numeric leaves | obj_writer.c, coff_writer.c | Leaf* |
| MSF container writer | coff_writer.c | Msf* |
| expression parser (precedence machine, postfix, unary, casts, conditional, calls) | parse.c | Parse* |
| type specifiers, enumerators | parse.c | Decl* |
| instruction encoder (legacy, VEX, rip-relative) | emit_x64.c | Enc* |
| integer code generator: registers, spilling, loads, stores, arithmetic, comparisons, shifts, casts, jumps; the body `return e;` from the expression to machine code | emit_x64.c | Emit*, Select*, Jump*, Alloc* |
| local scopes and name lookup | parse.c, main.c | Scope* |
| macro table, macro definitions, conditional inclusion | preprocess.c | MacroTable*, Define*, Cond* |
| static initialisers (types as far as sizes matter; no thread-local or imported variables; parser casts of the values not modelled) | main.c 949-967, 2202-2625, coff_writer.c 1701-1724 | Init* |
| macro expansion (not the text of strings made by `#`, nor the tokens made by `##`, which are a parameter; no builtin macros) | preprocess.c 123-175, 1811-2504, 3470-3515 | Macro* |
| reachability of declarations | main.c | Reach* |
| comparison of types | parse.c | TypeEq* |
| concurrent table of declarations | main.c | Table* |
| lock-free work queue | main.c | Queue* |
| the stage that parses global declarations: sleeping, waking, growth of the sleeper tables (a declaration is the list of what it looks up and registers; queue and table of declarations atomic; errors end the compilation and are not modelled) | main.c 1325-1517, 1804-2021, 2061-2167, 3178-3250, 3480-3500, 5000, parse.c 2680-2760, 2850-2880, 4842-4850, 5698-5726 | Sleep* |
| layout of structs and unions | parse.c | Layout* |
| loading of source files by many threads | preprocess.c | Load* |
| splitting of a file into global declarations | main.c | Chunk* |
| evaluation of `#if` conditions | preprocess.c | If* |
| string and character literals | preprocess.c | String* |
| loads and stores of bit-fields, as operations on register words | emit_x64.c 1999-2087 | Field* |
| instructions generated for integer expressions, assignments, ++ --, pointer arithmetic; their effect on a stack of sized operands and a memory of variables | parse.c 294-617, 685-764, 1732-1871, 4080-4155, 5038-5157, 5569-5895, 6034-6545, 6946-7255; emit_x64.c 836-845, 1687-1804, 2122-2172, 2488-2539, 2781-2904, 3841-4136, 4277-4620 | Lower* |
| instructions generated for `&&`, `\|\|`, `?:`: labels, jumps, unnamed temporaries, selection at compile time | parse.c 6553-6938, 7300-7440; emit_x64.c 3731-3766 | Branch* |
| instructions generated for statements, labels of gotos, `main`'s return value | parse.c 9031-9602, 9790-9820; main.c 3395-3437; emit_x64.c 3656-3836 | Stmt* |
| the warnings about missing returns and returns in `_Noreturn` functions | parse.c 9070-9594; main.c 3428-3452 | Fall* |
| calls and entry of functions: places of arguments and parameters, frame, saved registers (whole words; no register moves, no exception filters, no alloca) | emit_x64.c 850-859, 2186, 3394-3571, 4712-4962; parse.c 105; main.c 640 | Abi* |
| direct calls with up to four integer arguments: conversions, registers, saved values, call sites, result | parse.c 5275-5410, 1874; emit_x64.c 3353-3650 | Call* |
| the tokenizer (`tokenize_raw`; not the hashing of identifiers, the flags of tokens, nor the vector code) | preprocess.c 1202-1810 | Token* |

## What is not modelled

* Floating point, SSE code generation, inline assembly, intrinsics, the code that
  moves stack arguments, floating point and structs to their places in a call.
* The exact text of diagnostics.
* Reading and writing files, memory mapping, process start-up, timing, the Windows API.
* DWARF / PDB type and symbol records other than numeric leaves and the container.
* Weak memory: concurrent models are sequentially consistent, one access per step.
* Running out of memory.


## Findings

Places where the code, read literally, does not do what the property says.  Those marked with
a theorem are proved of the model; the others were noted while reading and are not proved.

| where | what | theorem |
|-------|------|---------|
| preprocess.c 976 | a decimal literal above 2^64 silently wraps | in C04 (partial) |
| preprocess.c 3652 | a null directive (`#` alone) in a skipped group ends the skipping | C08 `_refuted` |
| preprocess.c 4179 | redefinition check ignores what `#` stringifies and the right operand of `##` | C09, C37 `_refuted` |
| parse.c, expression stack | more than 1024 pending operators regroup the expression | C06 `_refuted` |
| parse.c 9338, 9384 | a `do` loop that is left with `break` or `continue` suppresses the warning about a missing return | C46 `_refuted` |
| parse.c 9085, 9106, 9431 | a label inside of a statement behind a jump does not make the code behind the statement reachable, the warning about a missing return is suppressed | C46 `_refuted` |
| emit_x64.c 3435, 850 | the copy of a struct that is passed by reference is allocated so that its end is 16-byte aligned, not its start | C47 `_refuted` |
| parse.c 8292 | INT_MAX followed by an enumerator gives INT_MIN; huge values become negative | C40 `_refuted` |
| parse.c 911 | the type of erroneous expressions equals every type; packed and unpacked structs compare equal | C39 `_refuted` |
| main.c 5461 | a root that is an exported inline assembly function is queued or not depending on the order of roots | C34 `_refuted` |
| emit_x64.c, prefix/ModRM | base r12/r13 without index mis-encoded; byte registers 4-7 lack a REX prefix | C14 `_refuted` |
| emit_x64.c, emit_store | the source register is not locked while the base of the destination is loaded | C16 `_refuted` |
| std.c / windows.c UTF conversion | see the statement | C42 `_refuted` |
| main.c 152 | a thread between the test of the growth lock and its announcement inserts into the array being filled: a name is registered twice | C20 `_refuted` |
| parse.c 2835-2839 | an array sized by a string wakes nobody: `char a[]; int x[sizeof a]; char a[] = "abc";` fails or not depending on the order in which workers take the declarations | `C19_string_size_wakes_nobody_refuted` |
| main.c 1864-1866 | sleepers on the size of an array are looked for in the table chosen by the flag of the earlier declaration: `extern int a[]; int b[sizeof a]; static int a[3];` depends on the order | `C19_wrong_table_refuted` |
| parse.c 2715-2751 | an initialiser that has to sleep deletes the node for the size: `int array[] = {undeclared}; int x[sizeof(array)];` is parsed again and again for ever and the undeclared identifier is never reported | `C19_stage_never_ends_refuted` |
| main.c 1337-1395 | a thread that enters a sleeper table between the check and its announcement uses the table while another one copies and frees it | `C19_table_is_used_while_it_grows_refuted` |
| parse.c 2934 | folding a floating comparison always gives 1 | |
| parse.c 6122 | pointer difference divides unsigned: `(p - 1) - p` is not -1 unless the elements have one byte | `C32_negative_difference_refuted` |
| parse.c 1767 | arithmetic on literal pointers is not scaled: `(int *)4096 + 1` is 4097 | `C32_constant_step_refuted` |
| parse.c 7076-7096, 7172-7197 | `/=` and `%=` are done in the type of the left operand unless the right one is larger: `int x = -8; x /= 2u` stores -4, `unsigned short x = 5; x /= (signed char)-1` stores 0, `signed char x = 100; x /= (unsigned char)200` stores -1, `signed char x = -128; x /= -1` with a `signed char` divisor raises a divide error | `C31_unsigned_divisor_refuted`, `C31_unsigned_constant_refuted`, `C31_signed_char_divisor_refuted`, `C31_unsigned_char_divisor_refuted`, `C31_divide_error_refuted` |
| parse.c 4099-4133 | a compound shift of a bit-field is done in the common type of both operands: `int b : 5 = -1; b >>= 28u` stores 15 | `C31_bitfield_shift_refuted` |
| emit_x64.c 2522-2539 | casts of a constant behind a comma do not cut it: `(long long)(unsigned short)(0, -1)` is -1, `(int)(unsigned char)(0, 300)` is 300 | `C44_constant_comma_refuted`, `C44_constant_comma_300` |
| parse.c 6553-6650, 7300-7333 | operands that are not evaluated are folded: `0 && 1 / 0` has the value 0 and is reported as a division by zero | `C44_unevaluated_refuted` |
| emit_x64.c 4046-4067 | ++ on a pointer to elements of 2^31 bytes or more moves it down | `C32_huge_element_refuted` |
| parse.c 8092 | an unnamed bit-field that opens a unit allocates nothing: the next bit-field overlaps the previous member or fails an assertion; bit-fields of a union do not start at bit 0 | C12 `_refuted` |
| preprocess.c 797, 833 | the low surrogate is built from 0xDD00 instead of 0xDC00 | `C11_surrogate_refuted` |
| preprocess.c 600, 793, 829 | literals with the byte FE or FF shift by more than 31, `u"\U00110000"` fails an assertion | `C11_no_fault_refuted`, `C11_codepoint_refuted` |
| preprocess.c 575-617 | bytes 80-BF are accepted as characters | `C11_utf8_refuted` |
| preprocess.c 1558-1573 | spliced lines in character literals are not counted, all later line numbers are wrong | `C10_lines_refuted` |
| preprocess.c 1506 | columns behind a block comment on one line are 2 too small | `C10_columns_refuted` |
| preprocess.c 1533 | a line comment that ends with a backslash is not continued | `C10_comment_refuted` |
| preprocess.c 1507-1528 | the token of an unterminated block comment reaches behind the file | `C10_overrun_refuted` |
| preprocess.c 2216-2306 | with `#define f(x) x` and `#define g f((g)` the text `g )` recurses for ever | `C38_terminates_refuted` |
| preprocess.c 2266-2290 | with `#define f(x) x f` and `#define id(x) x`, `id(f(1)(2))` replaces the `f` that stems from `f` | `C38_self_refuted` |
| coff_writer.c write_msf | a stream larger than 2^32-4096 bytes never ends | |
| main.c 1263 | taking an entry compares only the front pointer (ABA): an entry appended again meanwhile makes the queue lose another one and the in-flight count never reaches zero | C18 `_refuted` |
| preprocess.c 2920-3359 | `#if`: `9223372036854775807` is unsigned; `!` keeps the signedness of its operand; a shift is unsigned if its count is; `?:` takes the signedness of its last operand; operands C does not evaluate are evaluated (`0 && 1 / 0` is an error, the least number divided by -1 traps); trailing tokens are accepted | C07 `_refuted` |
| preprocess.c 2627 | when the table of files is full a file is loaded without being entered: it is loaded again on every include | C36 `_refuted` |
| main.c 2489-2498 | a bit-field initialiser is not cut to its width: `struct {int a:3; int b:5;} s = {-1}` sets b as well | `C33_bits_refuted` |
| coff_writer.c 1716-1722 | the offset of an address inside a string literal is dropped: `char *p = "abc" + 1` points to `abc` | `C33_string_address_refuted` |
| main.c 2480, coff_writer.c 1701-1724 | `int *a[1] = {[0] = &x, [0] = 0}` leaves &x | `C33_twice_refuted` |
| main.c 2535 | a string that initialises an array again leaves the old bytes behind it | `C33_string_twice_refuted` |
| main.c 2443-2455 | number minus address is accepted and stored as a sum | `C33_difference_refuted` |
| emit_x64.c 2043 | storing to a bit-field of 64 bits shifts 1 by 64: the mask is 0 and nothing is stored | `C13_width_64_refuted` |
