# Formal model of 8BitPimp/ccml ("nano") in Rocq

The code base is a small scripting language: lexer, parser, semantic analysis,
optimiser, code generator, program image format, bytecode virtual machine with
cooperative threads, and a two-space copying garbage collector. This directory
holds a Gallina model of that code and machine checked theorems about it.

* `properties.jsonl`: the properties, in English.
* `rocq/theories/`: the model, the specifications and the proofs.
* `MANIFEST.json`: property -> theorem names.
* `seeded/LOG.jsonl`: wrong-program experiments run against the theorems.

## Modelling conventions

* Bytes and 32-bit integers are `Z`; ranges are explicit. Strings are byte lists.
* A computation ends in `Ok`, in `Err` (a compile error, with its kind and line)
  or in `Stuck x`. The reasons `x` (Base.v) are a failed assertion, signed
  overflow, a float-to-int conversion out of range, a null dereference, an access
  outside a buffer, a dangling pointer, an uninitialised read, an exhausted arena
  (two kinds) and exhausted fuel. None of them is a normal result, so a theorem
  that promises a normal result excludes all of them.
* The project is built without `NDEBUG` (CMakeLists.txt sets no build type), so
  `assert` is active.
* Fuel bounds recursions that have no structural measure. `Stuck SDiverge` is
  excluded by theorems (C17, C29, C60, C83) or is the claim itself (C61).
* `nullptr` plays the role of the script value `none`; calling `value_t` member
  functions on a null `this` is relied upon by the code and modelled as intended.
* `float` is IEEE binary32, modelled with Coq's axiom-free `SpecFloat`.
* Functions are modelled one by one and each Gallina definition names the file
  and lines it models.

## Layers

1. `Base`, `F32`: outcomes, little-endian encoding, binary32.
2. `Instr`, `Program`, `Source`: instruction stream, program image, sources.
3. `Lexer`, `Ast`, `Parser`, `Sema`, `Optimize`, `Codegen` (with the
   pre-codegen passes), `Build` (nano_t::build).
4. `VM` (values, instructions, builtins, threads, scheduler), `Gc` (arenas and
   collector), `Host` (histories of API calls). The instruction semantics is
   written once, over a record of heap operations; it is instantiated with the
   two-arena heap (addresses, dangling pointers, the collector) and with
   `AbsHeap`, an ideal heap of values, and the first refines the second.
5. Specifications: `InstrSpec`, `ProgramSpec`, `GcSpec`, `VmSpec`, `LexSpec`,
   `ParseSpec`, `SemaSpec`, `SrcSem` (the meaning of source programs), `OptSpec`,
   `CgSpec`, `BuildSpec`, `CompileSpec`, `RunSpec` (sessions of a host, told from `SrcSem`).
6. Proofs: `*Facts`, `*Proofs`, `Parse*`, `Cg*`, `Refine`, ... and the
   `Properties*` files with the final statements, each followed by
   `Print Assumptions` and by a concrete case that meets its hypotheses.

## Plan per property

* **C01** Bytecode encode/decode round trip. Instr.v: opcode enum, the three emit overloads, disasm. Round trip by case analysis on the opcode plus the little-endian lemma; sequence version by induction.
* **C02** Disassembler and VM agree on instruction lengths. Same file plus the VM's fetch (VM.v). Case analysis over opcode bytes, symbolic operands.
* **C03** Operand patching is local. apply_fixup as a list update; pointwise list lemmas.
* **C04** Finding: ins_has_operand misclassifies opcodes. ins_has_operand as a boolean function; exhaustive over the 40-constructor enum (the claim is about a finite type, so case analysis is a full proof).
* **C05** Program image save/load round trip. Program.v: byte-level writer and reader (FILE* = list of bytes). Round trip by induction on each table.
* **C06** Finding: image format loses globals, syscall bindings and NUL-tails. Counterexample programs evaluated through the writer and reader.
* **C07** Truncated images are rejected. Monotonicity of the reader (success on p extends to p++q with q left over) and the exact consumption lemma of C05.
* **C08** Images with a wrong magic number are rejected and leave the program empty. Direct from the reader definition, for all files.
* **C09** Trailing bytes after an image do not matter. Exact consumption lemma with an arbitrary suffix.
* **C10** Line table keys are unique and order independent after load. Line table = sorted association list with std::map insertion; lookup-after-insert lemmas, fold over any insertion history.
* **C11** Function lookup. List search, both directions of the iff.
* **C12** Syscall resolution. List map; index lemmas.
* **C13** Source line numbers are totally ordered. Order laws by lia after destructing booleans.
* **C14** Source text is recovered by its lines. Source.v: _gen_lines/get_line over byte lists; induction on the text.
* **C15** Finding: loading a path that extends an already loaded path is silently skipped. path_cmp as a list recursion; characterised as a case/slash-insensitive prefix test.
* **C16** Import path resolution. base_path by find_last_of; characterised via list splitting.
* **C17** Lexing is total on well-terminated sources. Lexer.v: the lexer's loop as a fuelled function on byte lists with an explicit end (reading past NUL is the outcome Stuck). Fuel bound by the text length.
* **C18** Finding: a comment on the last line without newline reads past the end. Same model: the comment case on a text without newline yields Stuck.
* **C19** Rendering tokens and lexing them back is the identity. Token rendering function (independent spec) and induction over the token list.
* **C20** Maximal munch of identifiers and keywords. Lemmas about the identifier run and the keyword table.
* **C21** Integer literals denote their decimal value. Digit-run lemma, decimal value spec by fold.
* **C22** Token line numbers. Invariant on the lexer loop relating the line counter to newlines consumed.
* **C23** Blanks are insignificant between tokens. Loop lemma for blanks.
* **C24** Operator precedence and left associativity. Parser.v models the operator-stack parser; ParseSpec.v characterises precedence trees (every left child binds at least as tightly as its operator, every right child more tightly) independently. Existence by insertion on the right spine, uniqueness by the position of the weakest operator, and an invariant on the operator stack.
* **C25** Printing and parsing expressions is the identity. A relational grammar (ParseSpec.v) and a fully parenthesised printer; mutual induction over the grammar.
* **C26** Printing and parsing whole programs is the identity. Same, extended to statements and top-level declarations, and composed with the lexer (C74).
* **C27** Finding: unary minus applies to the last operand of the chain. The operator stack invariant of C24, for a sign in front of any operand of any chain.
* **C28** Finding: 'not' applies to the last operand of an and/or chain. As C27.
* **C29** Parsing always terminates within the token stream. Measure: remaining tokens; the fuel of the model is shown to be sufficient, and answers do not depend on it.
* **C30** Names resolve to the innermost declaration. Sema.v: scope stack annotate pass; theorem by induction on the statement tree against a declarative scoping relation.
* **C31** Duplicate declarations are rejected. multi_decls pass against a declarative no-duplicate relation.
* **C32** Direct calls have the declared number of arguments. num_args pass; induction on trees.
* **C33** Constants are never assigned by assignment statements and always inlined in value positions. const pass; induction on trees.
* **C34** Constant folding is sound. Optimize.v; induction on expressions against the abstract VM operator semantics.
* **C35** Dead code after return can be removed. Source semantics (Spec/Source semantics) on blocks.
* **C36** Branch removal is sound for unshared literals. Same semantics, literal ids unique.
* **C37** Finding: branch removal changes the value of a shared named constant. Concrete program through sema, optimise, codegen and VM: two builds differ.
* **C38** Compiled expressions compute their source value. Compiler correctness: codegen model (with fixups), abstract VM, forward simulation by induction on the fuelled source interpreter.
* **C39** Compiled functions compute their source result. Same development, statement and call level.
* **C40** Generated jump targets stay inside the function on instruction boundaries. Invariant on the code generator output.
* **C41** Local variable slots. Codegen.v (the pre-codegen passes); induction on blocks (CgSlots.v).
* **C42** Finding: an uninitialised local can hold a stale value. Concrete program run on the VM model.
* **C43** Integer arithmetic. VM.v operators on all int32 pairs.
* **C44** Operators are total on value kinds. Case analysis over value kinds.
* **C45** Comparison laws. Same.
* **C46** String concatenation law. Concatenation function; list lemmas; counterexamples to associativity.
* **C47** Truthiness. Case analysis.
* **C48** Array reads return the last write. Heap model; update lemmas over arbitrary heaps.
* **C49** Array and string indexing is bounds checked. Case analysis over kinds and bounds.
* **C50** Globals are bounds checked and persistent. List update lemmas over arbitrary VM states.
* **C51** Frame variables are bounds checked. Same for stacks and frames.
* **C52** Call and return. Step-level lemma on CALL ... RET from arbitrary states.
* **C53** Cycle accounting. Induction on the cycle count.
* **C54** Time slicing is invisible. Induction on the cycle count.
* **C55** Finished and failed threads never run again. Direct from the guards, plus induction over arbitrary host call histories.
* **C56** Breakpoints stop execution. Invariant over step_imp with line tables; induction over the calls of a debugger for the set of breakpoints (PropertiesBreak.v).
* **C57** Garbage collection preserves every reachable value. Gc.v: two arenas, addresses, forwarding map, recursive trace. Invariant: an abstraction map from array addresses to abstract locations is preserved.
* **C58** No dangling references after collection. From the same invariant: after collect every reachable pointer is in the live space.
* **C59** Collection is invisible to scripts. Refinement of the concrete VM (addresses, two arenas, collections at arbitrary points) to an abstract VM (values, no collector).
* **C60** Collection terminates on acyclic heaps. Fuel = nesting depth; rank function on acyclic heaps.
* **C61** Finding: collection never completes on cyclic arrays. For every fuel the trace of a heap with a reachable cycle does not return.
* **C62** Finding: collection can overflow the destination space. Concrete heap evaluated in the model with a small capacity, and symbolically for the real one.
* **C63** Arena allocations are disjoint and in bounds. Invariant over allocation histories.
* **C64** Virtual machine scheduling round. VM.v: the round as a list recursion; equation lemmas for each thread kind.
* **C65** wait(n) skips exactly n rounds. Iterating the round n times.
* **C66** Spawning a thread passes arguments in order. builtin_new_thread + prepare, list lemmas.
* **C67** Preparing a thread checks arity. prepare; call_once null case is an explicit Stuck outcome.
* **C68** Finding: call_init can report success before globals are initialised. Concrete program (bytecode loop) run 8192 cycles.
* **C69** Numeric builtins. Case analysis plus Z bit lemmas.
* **C70** min/max. Binary32 via Coq's SpecFloat.
* **C71** Builtins are registered and resolved consistently. Finite table plus the stack effect lemma for each builtin.
* **C72** Finding: indirect syscalls do not check their argument count. Step lemma for ICALL on a syscall value with any count.
* **C73** Rounding builtins. Binary32 rounding functions against their real-number characterisation on dyadic rationals.
* **C74** Lexical grammar. Lexer.v against LexSpec.v: a relational lexical grammar; soundness and completeness of one lexer step, then induction over the text.
* **C75** Finding: a stray token at top level is blamed on its successor. Symbolic run of the parser model on any two tokens.
* **C76** Finding: a function body of blank lines is a syntax error. Symbolic run of the parser model; induction on the blank lines and parameters.
* **C77** Finding: some syntax errors abort the process. Symbolic run of the parser model.
* **C78** Finding: a name declared in both branches of an if is resolved by memory address. Concrete program built under two address assignments and run.
* **C79** Finding: some global initialisers break the compiler. Symbolic evaluation of the model of eval_t.
* **C80** Finding: a duplicate syscall name dereferences a null pointer. Induction over the items before the syscall.
* **C81** Finding: a constant cannot be none. Symbolic run of the two passes.
* **C82** The host sees what the source means, from text to results. Compose: build = parse, analyse, optimise, generate; the optimiser refines (C36), the generator simulates (C38-C39), the collector refines the ideal heap (C63). The statement is about RunSpec.v (sessions of calls told from SrcSem.v) and the host API of Host.v.
* **C83** Calls with a meaning come back. Same composition on the ideal heap, with the bound on cycles of the simulation.
* **C84** Automatic collections happen when needed and leave room. Symbolic execution of one cycle on the shipped configuration; the collection empties the arena that allocations come from, so C63 gives the room.
* **C85** Float and mixed arithmetic and comparison. Case analysis on operand kinds; the order of canonical binary32 numbers is proved equal to the order of the fractions they denote.
* **C86** Analysed programs compile, unless a constant stands where a variable is needed. CompileFacts.v: outcome lemmas for each function of the generator, by induction on the tree; the invariants the analysis establishes; CompileSpec.v says which constants are addressed.
* **C87** The compiler does not crash on plain sources. CompileSafe.v: every pass of the analysis yields a tree, an error or an overflow on plain sources; the initialiser loop terminates because it turns operators into literals; then C86. Plainness is a condition on the source tree (CompileSpec.v).
* **C88** Finding: a constant used as a variable aborts the compiler. Five texts through the whole model.
* **C89** Every imported file is compiled exactly once. ImportFacts.v: the list of sources only grows, by files at new paths; induction over the loop of build.
* **C90** Imports end. Paths of loaded files are distinct and lie in the finite set, so the loop is bounded; ParseTail.v relates import declarations to tokens.
* **C91** Finding: a file that imports itself through ./ is compiled forever. Induction on the bound: after n rounds the sources are d/f, d/./f, ..., and the next one is new.
* **C92** Resetting and initialising a vm starts it again. Events.v models reset; the first instruction of @init overwrites the globals, so two vms that differ only there behave alike.
* **C93** Finding: reset leaves the globals dangling. Tracing a non-null global in an empty heap is a use of freed memory; the witness is computed.
* **C94** The thread handlers are called once, in order, and change nothing. Events.v repeats resume, the round and call_once with the list of handler calls; erasing the calls gives back VM.v, induction gives the shape of the list.
* **C95** Finding: the line reported for an error is that of the next instruction. From the rule for the pc of C02; the witnesses are computed.
* **C96** The optimiser is safe unless an if tests a constant by name. SemaShare.v: annotation gives every literal a new node, folding replaces initialisers by new nodes, inlining copies only literals of initialisers; so a literal that is the condition of an if in the text is used once, which is what C36 and C82 ask for.
* **C97** The line table names the source line of every instruction. LineSpec.v lists the operations and lines of each tree; LineFacts.v shows the generator appends exactly those entries (addresses only grow), and that the listing has the operations of the code of CgCode.v, so the addresses agree.
* **C98** Every line in a program is the line of a word of its sources. LineOrigin.v says what the line of a word is. SrcLines.v carries "every line in the tree is the line of a token" through the parser (with its stacks), the loop over the sources, the analysis, the optimiser and the generator, and computes the text of a line from the newlines before it.
* **C99** Compiled code keeps a stack discipline. SafeSpec.v defines what each instruction takes and leaves, which operands make sense and when a function keeps the discipline. CgHeight.v computes the height at every instruction from the generated code (each expression leaves one value, each statement none, every jump goes between statements), SafeBuild.v carries argument counts from the registrations through the analysis and the optimiser.
* **C100** Compiled programs fail for a known reason only. SafeVmSpec.v says which states make sense (every frame belongs to a disciplined function, the stack has the height its code expects, functions and arrays exist) and lists every reason for a crash. SafeStep.v goes through all instructions and host functions, SafeRun.v through resume, call_once and call_init on the ideal heap; the refinement in Refine.v carries the result to the collected heap.
* **C101** The listing of a compiled program is complete. Tools.v models the printing loop; ToolSpec.v defines a listing as a relation on program and text. ListFacts.v: the code of a generated function is a chain of instructions (from C97 and C99), functions are contiguous; induction along the chain.
* **C102** Finding: dumping the tree after a build reads deleted nodes. Tools.v models the printer, with a stuck result on nodes that the collector does not record; ToolSpec.v translates the analysed tree to a plain tree. TreeFacts.v: structural induction.
* **C103** Finding: the binary written by the compiler can never be loaded. The first instruction of the listing gives the first byte; arithmetic modulo 256.
* **C104** The compiler's command line does what its usage says. Tools.v models main of comp/driver.cpp; induction over the arguments.
* **C105** A compiled program says only what its sources say, and survives its image. SrcNames.v follows the texts of tokens through parser, analyser, optimiser and generator; ImageBuild.v shows that what the generator makes fits the image format; VmBlind.v shows that the vm does not read the list of globals, the one thing an image loses besides the bindings.
* **C106** The command line interpreter does what the source says. DriverMain.v models main of driver/driver.cpp with print_result. DriverSpec.v says what running a source means, in terms of the source semantics only. Proved by composing C82 (which also gives output and input), C100 (results are never dangling), C105 (temp.bin).
* **C107** A compiled program asks the host for exactly the registered syscalls. Code generation does not add to the syscall table (invariant in CompileFacts.v), the analysis keeps the registrations and rejects duplicates; so the table is the list of registrations. Binding: C71.
* **C108** Drawing stays inside the picture. Sdl.v models the drawing functions on an array of pixels, with a stuck result for accesses outside. SdlSpec.v defines painting. SdlFacts.v: every function either overflows or paints; invariant over histories.
* **C109** Circles are discs of the radius asked for. Invariant of the midpoint loop (SdlFacts.v): the decision variable is the value of the circle equation, the rows painted so far are those of the octants passed.
* **C110** Lines connect their ends. Induction over the steps of the fixed point loop; bounds on quotient and remainder.
* **C111** flip shows the picture, if it is square. Induction over rows and columns with the coordinates of the surface; for tall pictures, every read of a run that ends must have been inside.
* **C112** New pictures are black, and colours are three bytes. Induction over rows; arithmetic on bits.
* **C113** Random numbers are never stuck. Induction over the bits, upwards for left shifts and downwards for right shifts.
* **C114** Console input and output. One step of the machine on any heap; induction over the input for fgets.
* **C115** Stepping is running. Host.v includes the calls a debugger makes (resume, step_inst, step_line, breakpoints, halt) on any thread of the vm, so C55, C57-C59, C100 and C105 range over them too. Induction over the instructions of a line; C54 and C100 for the comparison with resume.
* **C116** Finding: the loader does not check code. One step of the machine; C20 gives the image.
* **C117** A thread run in slices does what one call does. The number of instructions left of the call (C82) decreases with each round; instructions commute with a change of the list of the other threads, all of which have finished.
* **C118** Functions of the host are called as the script says. A host function is a name, a number of arguments and an answer that depends on all calls made so far; the machine records the calls. An invariant over all instructions, resume, call_once and the debugger calls.
* **C119** The SDL driver plays what the source says. The loop of main is a list of passes, each with whether a round is due and whether there is a quit event; the calls are recorded (C118) and the picture is made of them afterwards, which is sound because no answer depends on it (C119_same_answer). From C117.
* **C120** What can go wrong in the SDL driver. The table of registered functions is computed; C99 and C100 for the stack and the vm, C108 for the drawing functions, C118 for the calls.
* **C121** Float arithmetic is exact arithmetic rounded once. Numbers are rationals (QArith); the specification quantifies over all floats as candidates. FloatRound.v follows an exact quotient through the shifts and the rounding of the standard library's operations (invariant: integer part and position within the unit), then compares with every other float.
* **C122** The text of a number in a concatenation. Specification over rationals and rows of digits (digits_value, numeral, float_text), independent of the model's f_text; proved equivalent to it by arithmetic on num/den of the float; uniqueness from injectivity of numerals. The cut is zfirstn 15, from C46.
* **C123** Float literals are the numbers they look like. The token from C74's grammar; rounding from C121 (powers of ten up to 10^9 and integers up to 2^24 are exact, so one rounding remains); the text from C122 and a float within 2^-21 of every number below 16.
* **C124** Square roots are correctly rounded. Square roots are irrational, so the specification compares squares of midpoints in Q; the integer root and its remainder give a cell around the root within which every rational rounds to the result (FloatRound.v), and a rational between the root and a midpoint gives the contradiction. sqrtf is assumed to be IEEE 754's squareRoot; sin, cos and tan are parameters of the world.
* **C125** The example programs compute what they are named after. The texts are those of the files, byte for byte. The trees are computed from them; the functions are run symbolically in the source semantics (SrcSem.v), with induction on the rounds of the loop and the depth of the recursion, and C82 carries the results to the host. The calendar is specified by counting: the first day of year 1 is a monday and each next day is the next day of the week; the formula is shown to step likewise over every month end and leap day, and every date is reached. The exceptions of C82 (exhausted memory or cycles, stacks beyond 32 bits) remain.
* **C126** Runtime errors have distinct names, or none. get_thread_error (ErrorText.v) by cases. What compiled programs can end with comes from C100, whose list of excluded errors was extended by those that nothing raises. For calls after the initialisation, induction over the source semantics (SrcErrors.v) and C82. The finding is a program whose call is run in the source semantics with any index, and carried to the host by C82.
* **C127** Both sides of and / or are evaluated. For all expressions from the source semantics (SrcSem.v), which C82 shows to be what the host sees; the guards are two functions, compiled from text, run symbolically for all arguments and carried to the host by C82.

## Trusted base

* Coq 8.16.1's kernel, including its `vm_compute` conversion.
* `Print Assumptions` reports "Closed under the global context" for every theorem
  named in the manifest: no axiom is used, neither of the standard library nor of
  this development. `coqchk` lists seven constants of `Coq.ssr.ssrunder`
  (`Under_rel.Under_rel`, `Under_rel_from_rel`, `Under_relE`, `Over_rel`,
  `over_rel`, `over_rel_done`, `under_rel_done`): they are the fields of a module
  type that the standard library loads for the `lia`/`setoid` tactics; no theorem
  depends on them.
* The faithfulness of the hand-written model: see the comment on each definition.
* The specifications named in layer 5, read as English.

## What is modelled, file by file

| file | modelled | left out |
|---|---|---|
| lib_common/instructions.{h,cpp} | all | |
| lib_common/program.{h,cpp} | image writer and reader, line table, lookups, syscall binding | |
| lib_common/source.{h,cpp}, file.h, types.h | all that computes | |
| lib_compiler/lexer.cpp, token.{h,cpp} | all | token names for messages |
| lib_compiler/parser.cpp | all | |
| lib_compiler/ast.{h,cpp} | nodes, constructors, traversal order, printer, which nodes the collector (`ast_t::gc`) deletes | |
| lib_compiler/errors.{h,cpp} | kind and line of every error | message texts |
| lib_compiler/sema.cpp | all passes | |
| lib_compiler/optimize.cpp | all passes that run | `op_decl_elim_t`, which is commented out |
| lib_compiler/pre_codegen.cpp, codegen.cpp, program_builder.{h,cpp} | all | |
| lib_compiler/disassembler.cpp | operand decoding, mnemonics, the listing of a program | |
| lib_compiler/nano.cpp | build, syscall registration | |
| lib_vm/value.{h,cpp} | all | |
| lib_vm/thread.{h,cpp} | all instructions, resume, stepping, breakpoints, errors | |
| lib_vm/thread_error.{h,cpp} | all; an assertion that fails is an outcome of its own | – |
| lib_vm/vm.{h,cpp} | call_init, call_once, new_thread, resume, reset, collection, calls of on_thread_error and on_thread_finish | `handlers_t` callbacks other than on_thread_error and on_thread_finish (all null in every driver), `user_data`; handlers that change the vm |
| lib_vm/vm_gc.{h,cpp} | arenas, allocation, trace, flip, reset | alignment of cells |
| lib_builtins/builtin.cpp | all | `sinf`, `cosf`, `tanf` are arbitrary functions of the argument |
| driver/driver.cpp | syscalls, main, the exit code, temp.bin, random generator | error texts, the text of a float |
| comp/driver.cpp | exit code and files written | texts on the console |
| driver_sdl/driver.cpp | the drawing functions, the random generator, keydown, sleep, main | SDL itself (whether it gives a window and a surface, which keys are down and when events come are parameters; pixels are taken to be 32 bits and rows unpadded), time, text on stderr |
| examples/ide, tests | | whole files |

Functions that a host registers (`F_host`) are modelled by what they do through
`thread_t`: they pop a fixed number of values, see the kind of each, its number or
string or the length of an array, and push one scalar value or none, or raise
bad_argument. What they answer may depend on all calls made before. They do not
keep values, allocate arrays or change the thread otherwise.

Further simplifications: the real stack depth of recursive C++ functions is
unbounded; files are functions from paths to contents; the addresses that
`std::map<ast_node_t*, ...>` iterates over are a parameter of the model.

## Findings

Properties whose title starts with "Finding" are statements that are true of the
code although a user would expect the opposite; each is proved with a general
statement or a witness program:


* **C04** ins_has_operand misclassifies opcodes
* **C06** image format loses globals, syscall bindings and NUL-tails
* **C15** loading a path that extends an already loaded path is silently skipped
* **C18** a comment on the last line without newline reads past the end
* **C27** unary minus applies to the last operand of the chain
* **C28** 'not' applies to the last operand of an and/or chain
* **C37** branch removal changes the value of a shared named constant
* **C42** an uninitialised local can hold a stale value
* **C61** collection never completes on cyclic arrays
* **C62** collection can overflow the destination space
* **C68** call_init can report success before globals are initialised
* **C72** indirect syscalls do not check their argument count
* **C75** a stray token at top level is blamed on its successor
* **C76** a function body of blank lines is a syntax error
* **C77** some syntax errors abort the process
* **C78** a name declared in both branches of an if is resolved by memory address
* **C79** some global initialisers break the compiler
* **C80** a duplicate syscall name dereferences a null pointer
* **C81** a constant cannot be none
* **C88** a constant used as a variable aborts the compiler
* **C91** a file that imports itself through ./ is compiled forever
* **C93** reset leaves the globals dangling
* **C95** the line reported for an error is that of the next instruction
* **C102** dumping the tree after a build reads deleted nodes
* **C103** the binary written by the compiler can never be loaded
* **C116** the loader does not check code
