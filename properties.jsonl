{"id": "C01", "title": "Bytecode encode/decode round trip", "statement": "Every instruction the compiler emits (opcode plus its zero, one or two 32-bit operands) is decoded by the disassembler to the same mnemonic and operand values, and the number of bytes reported equals the number of bytes emitted; walking a concatenation of emitted instructions recovers exactly the emitted sequence.", "quantifier": "every opcode the compiler can emit, every pair of 32-bit operands, every instruction sequence and any trailing bytes", "why_tests_cant": "operands range over 2^32 values and sequences are unbounded", "anchors": ["source/lib_compiler/codegen.cpp:emit", "source/lib_compiler/program_builder.h:write8,write32", "source/lib_compiler/disassembler.cpp:disasm"]}
{"id": "C02", "title": "Disassembler and VM agree on instruction lengths", "statement": "For every opcode byte, the number of bytes the disassembler consumes equals the number of bytes the virtual machine consumes when it executes that opcode without branching; bytes that are not opcodes are rejected by both (disasm returns 0, the VM raises e_bad_opcode).", "quantifier": "all 256 opcode bytes and every operand content", "why_tests_cant": "agreement must hold for all 256 bytes times all operand bytes, in two independent decoders", "anchors": ["source/lib_compiler/disassembler.cpp:disasm", "source/lib_vm/thread.cpp:step_imp_,read_operand_"]}
{"id": "C03", "title": "Operand patching is local", "statement": "Back-patching a jump or call target overwrites exactly the four operand bytes at that position: the value read back is the patched one and every other byte of the code is unchanged, so instruction boundaries are preserved.", "quantifier": "every code buffer, every in-range position and every 32-bit value", "why_tests_cant": "quantifies over all buffers and positions", "anchors": ["source/lib_compiler/program_builder.h:apply_fixup,head"]}
{"id": "C04", "title": "Finding: ins_has_operand misclassifies opcodes", "statement": "ins_has_operand returns false for opcodes that do carry an operand (indirect call, new array, new function reference, new syscall reference) and is right for every other opcode, so a client that skips operands with it loses synchronisation on exactly those four.", "quantifier": "all 40 opcodes", "why_tests_cant": "needs a comparison against the encoder for every opcode", "anchors": ["source/lib_common/instructions.cpp:ins_has_operand", "source/lib_compiler/codegen.cpp:emit"]}
{"id": "C05", "title": "Program image save/load round trip", "statement": "Loading an image written by serial_save into any program object succeeds and yields the same bytecode, function descriptors (names, code ranges, locals, arguments), syscall names, line table and string table, provided every stored string is shorter than 256 bytes and contains no NUL byte.", "quantifier": "every program with those strings, and any prior content of the loading object", "why_tests_cant": "round trip over all programs and all prior states of the target object", "anchors": ["source/lib_common/program.cpp:serial_save,serial_load,emit,consume"]}
{"id": "C06", "title": "Finding: image format loses globals, syscall bindings and NUL-tails", "statement": "serial_save/serial_load do not restore the globals() table nor resolved syscall entry points, and a string containing a NUL byte is reloaded truncated at the first NUL, so the round trip is not the identity on programs.", "quantifier": "programs with a non-empty globals table, a resolved syscall or a string with NUL", "why_tests_cant": "needs the exact set of fields that survive, not a sample program", "anchors": ["source/lib_common/program.cpp:serial_load,reset,consume"]}
{"id": "C07", "title": "Truncated images are rejected", "statement": "serial_load returns false on every strict prefix of a valid image.", "quantifier": "every well-formed program and every strict prefix length of its image", "why_tests_cant": "every program and every crash point of the writer", "anchors": ["source/lib_common/program.cpp:serial_load"]}
{"id": "C08", "title": "Images with a wrong magic number are rejected and leave the program empty", "statement": "If the first four bytes are not the magic number, or fewer than four bytes exist, serial_load returns false and the program object is left fully reset.", "quantifier": "every byte string whose header differs and every prior program state", "why_tests_cant": "quantifies over all files", "anchors": ["source/lib_common/program.cpp:serial_load,reset"]}
{"id": "C09", "title": "Trailing bytes after an image do not matter", "statement": "Loading an image followed by arbitrary extra bytes gives the same result as loading the image alone.", "quantifier": "every well-formed program and every suffix", "why_tests_cant": "suffixes are unbounded", "anchors": ["source/lib_common/program.cpp:serial_load"]}
{"id": "C10", "title": "Line table keys are unique and order independent after load", "statement": "The line table behaves as a finite map: get_line(pc) returns the line most recently recorded for exactly that pc and the (-1,-1) line for any pc never recorded, before and after a save/load cycle.", "quantifier": "every sequence of recorded (pc, line) pairs and every queried pc", "why_tests_cant": "map behaviour over every history of insertions", "anchors": ["source/lib_common/program.h:get_line,add_line", "source/lib_common/program.cpp"]}
{"id": "C11", "title": "Function lookup", "statement": "function_find(name) returns the first function with that name and fails iff none has it; function_find(pc) returns the first function whose half-open code range contains pc and fails iff none does.", "quantifier": "every function table, name and pc", "why_tests_cant": "all tables", "anchors": ["source/lib_common/program.cpp:function_find"]}
{"id": "C12", "title": "Syscall resolution", "statement": "syscall_resolve(name, f) returns true iff some table entry has that name; afterwards exactly the entries with that name are bound to f and every other entry, and every name, is unchanged. add_syscall returns an index whose entry has the requested name and never duplicates or moves an entry.", "quantifier": "every syscall table, name and function", "why_tests_cant": "all tables and all histories of registrations", "anchors": ["source/lib_common/program.cpp:syscall_resolve", "source/lib_compiler/program_builder.h:add_syscall"]}
{"id": "C13", "title": "Source line numbers are totally ordered", "statement": "line_t's operator< is a strict total order consistent with operator== and operator!= (irreflexive, transitive, trichotomous), as std::set of breakpoints requires.", "quantifier": "all triples of lines", "why_tests_cant": "2^192 triples", "anchors": ["source/lib_common/types.h:line_t"]}
{"id": "C14", "title": "Source text is recovered by its lines", "statement": "For any loaded source text, the lines returned by get_line(1), get_line(2), ... concatenate to the text, each but the last ends in a newline and contains no other, and get_line fails for every number above the line count.", "quantifier": "every NUL-free non-empty source text and every line number >= 1", "why_tests_cant": "all texts", "anchors": ["source/lib_common/source.h:_gen_lines,get_line"]}
{"id": "C15", "title": "Finding: loading a path that extends an already loaded path is silently skipped", "statement": "source_manager_t::load(p) returns true without loading anything whenever some loaded file path is (up to case and slash direction) a prefix of p; in particular after any failed load (which leaves an entry with an empty path) every later load reports success and loads nothing.", "quantifier": "every list of loaded sources and every path", "why_tests_cant": "needs the exact set of paths treated as already loaded", "anchors": ["source/lib_common/source.cpp:path_cmp,load"]}
{"id": "C16", "title": "Import path resolution", "statement": "An import is resolved to the directory part of the importing file's path (up to its last slash or backslash), a slash, and the imported name; when the importing path has no directory part the result is rooted at '/'.", "quantifier": "all importing paths and import names", "why_tests_cant": "all strings", "anchors": ["source/lib_common/source.cpp:base_path,imported_path"]}
{"id": "C17", "title": "Lexing is total on well-terminated sources", "statement": "Lexing any NUL-terminated source that does not end inside a comment, and whose numeric literals fit, either throws/returns a lexical error or produces a token list that ends with exactly one end-of-file token, and never reads past the terminating NUL.", "quantifier": "all source texts", "why_tests_cant": "all texts", "anchors": ["source/lib_compiler/lexer.cpp:lex"]}
{"id": "C18", "title": "Finding: a comment on the last line without newline reads past the end", "statement": "If the source ends inside a comment (no newline after it) the lexer advances beyond the terminating NUL and continues to read memory.", "quantifier": "every source text whose last line contains a comment and no newline", "why_tests_cant": "memory error not observable by a test that happens to read a zero", "anchors": ["source/lib_compiler/lexer.cpp:lex (comment case)"]}
{"id": "C19", "title": "Rendering tokens and lexing them back is the identity", "statement": "Writing any list of identifiers, keywords, punctuation, string literals and integer literals separated by spaces lexes back to the same tokens (types, spellings and values) followed by end of file.", "quantifier": "every list of tokens", "why_tests_cant": "unbounded lists and spellings", "anchors": ["source/lib_compiler/lexer.cpp:lex,push_ident_,push_val_,push_string_"]}
{"id": "C20", "title": "Maximal munch of identifiers and keywords", "statement": "A maximal run of identifier characters starting with a letter lexes to exactly one token: a keyword token iff the whole run equals a keyword up to letter case, otherwise an identifier spelled exactly as written.", "quantifier": "every run of identifier characters and every context that ends it", "why_tests_cant": "all spellings and contexts", "anchors": ["source/lib_compiler/lexer.cpp:munch,lex"]}
{"id": "C21", "title": "Integer literals denote their decimal value", "statement": "A run of decimal digits lexes to an integer token holding its decimal value whenever that value is below 2^31; larger literals overflow a signed 32-bit accumulator (undefined behaviour).", "quantifier": "every digit string", "why_tests_cant": "all digit strings", "anchors": ["source/lib_compiler/lexer.cpp:push_val_"]}
{"id": "C22", "title": "Token line numbers", "statement": "Each non-EOL token carries one plus the number of newlines before it in the source.", "quantifier": "every source text that lexes and every token in it", "why_tests_cant": "all texts", "anchors": ["source/lib_compiler/lexer.cpp:lex"]}
{"id": "C23", "title": "Blanks are insignificant between tokens", "statement": "Inserting spaces, tabs or carriage returns at a token boundary of a source text does not change the token list.", "quantifier": "all texts, all boundaries, all blank runs", "why_tests_cant": "all texts", "anchors": ["source/lib_compiler/lexer.cpp:lex"]}
{"id": "C24", "title": "Operator precedence and left associativity", "statement": "An unparenthesised chain of operands joined by binary operators parses to the tree given by the published precedence table (and/or < comparisons < + - < * / %) with equal precedence grouping to the left.", "quantifier": "chains of any length over all binary operators", "why_tests_cant": "unbounded chains", "anchors": ["source/lib_compiler/parser.cpp:parse_expr_ex_,op_push_,op_reduce_,op_type_"]}
{"id": "C25", "title": "Printing and parsing expressions is the identity", "statement": "A fully parenthesised rendering of any expression tree parses back to that same tree and consumes exactly its tokens.", "quantifier": "all expression trees", "why_tests_cant": "unbounded trees", "anchors": ["source/lib_compiler/parser.cpp:parse_expr_,parse_lhs_,parse_call_,parse_array_init_"]}
{"id": "C26", "title": "Printing and parsing whole programs is the identity", "statement": "Rendering any list of global, constant and function declarations (with arbitrary nested statements) as tokens and parsing it yields the same syntax tree.", "quantifier": "all program trees", "why_tests_cant": "unbounded trees", "anchors": ["source/lib_compiler/parser.cpp:parse,parse_stmt_,parse_if_,parse_while_,parse_for_,parse_function_"]}
{"id": "C27", "title": "Finding: unary minus applies to the last operand of the chain", "statement": "For a prefix minus followed by a binary chain (e.g. -a + b) the parser negates the last operand of the chain, wherever in the chain the sign was written: -a + b parses as a + (-b) and -a - b as a - (-b).", "quantifier": "all operands", "why_tests_cant": "a semantic mis-grouping a sample test masks (multiplication commutes)", "anchors": ["source/lib_compiler/parser.cpp:parse_expr_ex_ (unary minus)"]}
{"id": "C28", "title": "Finding: 'not' applies to the last operand of an and/or chain", "statement": "not in front of any operand of a chain negates the last operand of the chain's and/or, or the whole chain if it has none: not a and b parses as a and (not b) (same for or), and a == not b parses as not (a == b). Written between two operands it is accepted: a not b parses as not b, and f(a not b) as a(not b).", "quantifier": "all operands", "why_tests_cant": "as above", "anchors": ["source/lib_compiler/parser.cpp:parse_expr_ex_ (not)"]}
{"id": "C29", "title": "Parsing always terminates within the token stream", "statement": "Parsing any token list that ends with an end-of-file token ends, with a recursion depth linear in the length of the list, in a tree (having consumed every token), in a reported error, or, only if the list contains the word import, in an assertion failure of the error reporter; it never reads past the end of the list. Every token list produced by the lexer qualifies.", "quantifier": "all token lists ending in EOF", "why_tests_cant": "all token lists", "anchors": ["source/lib_compiler/parser.cpp", "source/lib_compiler/token.cpp"]}
{"id": "C30", "title": "Names resolve to the innermost declaration", "statement": "After semantic analysis every identifier, assignment target, indexed or member target and loop variable is bound to a declaration of that name in an enclosing scope (or is rejected), and innermost scopes win.", "quantifier": "all programs", "why_tests_cant": "all programs", "anchors": ["source/lib_compiler/sema.cpp:sema_decl_annotate_t"]}
{"id": "C31", "title": "Duplicate declarations are rejected", "statement": "A program is accepted only if every declaration (function, syscall, global, constant, argument, local) has a name not declared before it in its own scope or an enclosing one; the two branches of an if are separate scopes. In particular top-level names are distinct, and within a function all names visible at one point are distinct.", "quantifier": "all programs", "why_tests_cant": "all programs", "anchors": ["source/lib_compiler/sema.cpp:sema_multi_decls_t"]}
{"id": "C32", "title": "Direct calls have the declared number of arguments", "statement": "In every accepted program each direct call of a script function or fixed-arity syscall passes exactly the declared number of arguments.", "quantifier": "all programs and call sites", "why_tests_cant": "all programs", "anchors": ["source/lib_compiler/sema.cpp:sema_num_args_t"]}
{"id": "C33", "title": "Constants are never assigned by assignment statements and always inlined in value positions", "statement": "An accepted program contains no assignment statement whose target is a constant, and after semantic analysis no identifier in a value position refers to a constant.", "quantifier": "all programs", "why_tests_cant": "all programs", "anchors": ["source/lib_compiler/sema.cpp:sema_const_t"]}
{"id": "C34", "title": "Constant folding is sound", "statement": "Whenever the optimiser replaces an operator tree over integer literals by a literal, evaluating the original tree yields exactly that integer. It leaves no operator over integer literals at the top of the expression of a statement it folds. It refuses a program only for a division or remainder of an integer by an expression that always gives 0, and names the line of that operator.", "quantifier": "all expression trees", "why_tests_cant": "all trees and all 32-bit values", "anchors": ["source/lib_compiler/optimize.cpp:opt_const_expr_t"]}
{"id": "C35", "title": "Dead code after return can be removed", "statement": "Removing the statements that follow a return statement in a function body does not change the outcome of the body. The optimiser removes exactly what follows the first return statement of the body, and nothing else.", "quantifier": "all blocks and all states", "why_tests_cant": "all programs", "anchors": ["source/lib_compiler/optimize.cpp:opt_post_ret_t"]}
{"id": "C36", "title": "Branch removal is sound for unshared literals", "statement": "Removing a branch whose condition is an integer literal preserves the outcome of every program in which that literal node is not shared. After the pass no if statement on an integer literal has an else branch and no while statement on 0 has a body, at any depth.", "quantifier": "all programs with unshared literals and all states", "why_tests_cant": "all programs", "anchors": ["source/lib_compiler/optimize.cpp:opt_if_remove_t"]}
{"id": "C37", "title": "Finding: branch removal changes the value of a shared named constant", "statement": "Because uses of a named constant share one literal node, optimising 'if (C)' with C = 0 overwrites that node with 1: every later use of C reads 1, so optimised and unoptimised builds of the same program return different results.", "quantifier": "exists a program", "why_tests_cant": "requires comparing two builds on all programs", "anchors": ["source/lib_compiler/optimize.cpp:opt_if_remove_t", "source/lib_compiler/sema.cpp:sema_const_t"]}
{"id": "C38", "title": "Compiled expressions compute their source value", "statement": "Running the bytecode generated for an expression pushes exactly one value, the one the source semantics assigns to it, has exactly the source side effects on globals, arrays and output, and leaves the rest of the stack unchanged.", "quantifier": "all expressions, environments, heaps and surrounding code", "why_tests_cant": "all programs and states", "anchors": ["source/lib_compiler/codegen.cpp:codegen_pass_t", "source/lib_vm/thread.cpp"]}
{"id": "C39", "title": "Compiled functions compute their source result", "statement": "Calling a compiled function pops its arguments, pushes exactly one result equal to the source-level result (0 when control falls off the end, none for a bare return), restores the caller's frame and resumes after the call.", "quantifier": "all programs, all functions, all terminating source executions", "why_tests_cant": "all programs and inputs", "anchors": ["source/lib_compiler/codegen.cpp:visit(ast_decl_func_t),visit(ast_stmt_return_t)", "source/lib_vm/thread.cpp:do_INS_CALL_,do_INS_RET_,enter_,leave_"]}
{"id": "C40", "title": "Generated jump targets stay inside the function on instruction boundaries", "statement": "Every jump in generated code targets an instruction boundary within the same function's code range, and every call or function reference targets the start of a function.", "quantifier": "all programs", "why_tests_cant": "all programs", "anchors": ["source/lib_compiler/codegen.cpp"]}
{"id": "C41", "title": "Local variable slots", "statement": "Within a function, two locals visible at the same point have different frame slots, every local slot lies in [0, stack_size), and argument i of n has slot i - n.", "quantifier": "all functions", "why_tests_cant": "all nestings of scopes", "anchors": ["source/lib_compiler/pre_codegen.cpp:pregen_offset_t"]}
{"id": "C42", "title": "Finding: an uninitialised local can hold a stale value", "statement": "A local declared without initialiser may read as the last value of an out-of-scope local that shared its slot, instead of none.", "quantifier": "exists a program", "why_tests_cant": "depends on slot reuse across scopes", "anchors": ["source/lib_compiler/pre_codegen.cpp:pregen_offset_t", "source/lib_compiler/codegen.cpp:visit(ast_decl_var_t)"]}
{"id": "C43", "title": "Integer arithmetic", "statement": "On two integers, add/sub/mul push the exact mathematical result when it fits in 32 bits (otherwise the behaviour is undefined), div truncates toward zero and mod has the dividend's sign with l = (l/r)*r + l%r, and a zero divisor raises e_bad_divide_by_zero and finishes the thread.", "quantifier": "all pairs of 32-bit integers and all thread states", "why_tests_cant": "2^64 operand pairs", "anchors": ["source/lib_vm/thread.cpp:do_INS_ADD_..do_INS_MOD_,do_INS_NEG_"]}
{"id": "C44", "title": "Operators are total on value kinds", "statement": "For every pair of operand kinds each binary operator either pushes exactly one value or raises e_bad_type_operation (or divide by zero); the only ways it can abort are signed overflow and string concatenation with an array or syscall operand.", "quantifier": "all operand pairs and operators", "why_tests_cant": "all pairs of kinds and values", "anchors": ["source/lib_vm/thread.cpp"]}
{"id": "C45", "title": "Comparison laws", "statement": "On integers the comparison operators decide the usual order (exactly one of <, ==, > holds; <= and >= are the negations of > and <); equality is reflexive on everything but NaN for ints, strings, functions and none, symmetric on all kinds, string equality is content equality, and none equals only none.", "quantifier": "all operand pairs", "why_tests_cant": "all values", "anchors": ["source/lib_vm/thread.cpp:do_INS_LT_..do_INS_EQ_"]}
{"id": "C46", "title": "String concatenation law", "statement": "l + r with l a string yields l's bytes followed by the first 15 bytes of r's text; with only r a string it yields the first 15 bytes of l's text followed by all of r's bytes. Finding: hence concatenation truncates any right operand longer than 15 bytes and is not associative.", "quantifier": "all strings and values", "why_tests_cant": "all strings", "anchors": ["source/lib_vm/thread.cpp:do_INS_ADD_,to_string"]}
{"id": "C47", "title": "Truthiness", "statement": "and/or/not/jumps treat none, integer 0, float 0 (both signs) and the empty string as false and everything else as true; and/or evaluate both operands and push 0 or 1.", "quantifier": "all values", "why_tests_cant": "all values", "anchors": ["source/lib_vm/value.h:as_bool", "source/lib_vm/thread.cpp:do_INS_AND_,do_INS_OR_,do_INS_NOT_,do_INS_TJMP_,do_INS_FJMP_"]}
{"id": "C48", "title": "Array reads return the last write", "statement": "After a successful indexed store at i, an indexed load at i of the same array through any alias returns the stored value (by copy for non-arrays, by reference for arrays), and loads at other indices and of other arrays are unchanged.", "quantifier": "all arrays, indices, values, aliases and heaps", "why_tests_cant": "all heaps and aliasing patterns", "anchors": ["source/lib_vm/thread.cpp:do_INS_SETA_,do_INS_DEREF_"]}
{"id": "C49", "title": "Array and string indexing is bounds checked", "statement": "Indexing with a non-integer, a negative index, an index at or above the length, a none object or a non-indexable object raises the documented thread error, pushes nothing and changes no array; in range it never fails.", "quantifier": "all objects and indices", "why_tests_cant": "all values", "anchors": ["source/lib_vm/thread.cpp:do_INS_DEREF_,do_INS_SETA_"]}
{"id": "C50", "title": "Globals are bounds checked and persistent", "statement": "Reading a global returns the last value stored to it by any thread; out-of-range accesses raise e_bad_get_global/e_bad_set_global and change nothing.", "quantifier": "all indices, histories and threads", "why_tests_cant": "all histories", "anchors": ["source/lib_vm/thread.cpp:do_INS_GETG_,do_INS_SETG_,do_INS_GLOBALS_"]}
{"id": "C51", "title": "Frame variables are bounds checked", "statement": "GETV/SETV read and write exactly the addressed frame slot; an address outside the stack raises e_bad_getv/e_bad_setv.", "quantifier": "all frames, offsets and stacks", "why_tests_cant": "all states", "anchors": ["source/lib_vm/thread.cpp:getv_,setv_", "source/lib_vm/value.h:value_stack_t"]}
{"id": "C52", "title": "Call and return", "statement": "A call followed by a return restores the caller's pc, frame and the stack below the arguments, with the single return value on top; a return with too few stack values raises e_stack_underflow.", "quantifier": "all states", "why_tests_cant": "all states", "anchors": ["source/lib_vm/thread.cpp:enter_,leave_,do_INS_CALL_,do_INS_RET_"]}
{"id": "C53", "title": "Cycle accounting", "statement": "resume(n) executes at most n instructions; get_cycle_count increases by exactly the number executed and the thread runs exactly n instructions unless it finishes, raises an error or halts.", "quantifier": "all n and all threads", "why_tests_cant": "all schedules", "anchors": ["source/lib_vm/thread.cpp:resume,step_imp_"]}
{"id": "C54", "title": "Time slicing is invisible", "statement": "For a thread that does not halt in between, resume(a) followed by resume(b) leaves the same state as resume(a+b), so the result of a script does not depend on how the host slices its cycles.", "quantifier": "all slicings", "why_tests_cant": "all schedules", "anchors": ["source/lib_vm/thread.cpp:resume"]}
{"id": "C55", "title": "Finished and failed threads never run again", "statement": "Once a thread has finished or raised an error, resume, step_inst and step_line return false and change nothing.", "quantifier": "all states and all call histories", "why_tests_cant": "all histories", "anchors": ["source/lib_vm/thread.cpp:resume,step_inst,step_line"]}
{"id": "C56", "title": "Breakpoints stop execution", "statement": "With a breakpoint on line L, resume stops immediately after the instruction that moves the current source line onto L from another line, and never stops for lines without a breakpoint (absent syscalls that halt). After any history of adding, removing and clearing breakpoints, with the thread run or stepped in between, a line has a breakpoint exactly if one was asked for and not taken away since; the other threads and the rest of the thread are not touched.", "quantifier": "all programs, line tables and breakpoint sets", "why_tests_cant": "all programs", "anchors": ["source/lib_vm/thread.cpp:step_imp_,breakpoint_add,breakpoint_remove,breakpoint_clear"]}
{"id": "C57", "title": "Garbage collection preserves every reachable value", "statement": "After a completed collection every global and stack slot denotes the same value as before: equal scalars and strings, and arrays that are isomorphic with all aliasing preserved.", "quantifier": "all heaps, roots and thread sets", "why_tests_cant": "all object graphs", "anchors": ["source/lib_vm/vm_gc.cpp:trace,collect", "source/lib_vm/vm.cpp:gc_collect"]}
{"id": "C58", "title": "No dangling references after collection", "statement": "After a completed collection every pointer reachable from globals and stacks points to a live object in the surviving space.", "quantifier": "all heaps and roots", "why_tests_cant": "all object graphs", "anchors": ["source/lib_vm/vm_gc.cpp", "source/lib_vm/vm_gc.h:arena_t,value_gc_t"]}
{"id": "C59", "title": "Collection is invisible to scripts", "statement": "A thread's outputs, errors, control flow and results are the same whether or not, and whenever, collections run (as long as the heap is not exhausted).", "quantifier": "all programs, all collection schedules", "why_tests_cant": "all schedules of collections", "anchors": ["source/lib_vm/thread.cpp:tick_gc_,step_inst,resume", "source/lib_vm/vm_gc.cpp"]}
{"id": "C60", "title": "Collection terminates on acyclic heaps", "statement": "If no array contains itself directly or indirectly and the destination space suffices, collection completes.", "quantifier": "all acyclic heaps", "why_tests_cant": "all object graphs", "anchors": ["source/lib_vm/vm_gc.cpp:trace"]}
{"id": "C61", "title": "Finding: collection never completes on cyclic arrays", "statement": "If an array reachable from a root contains itself (directly or through other arrays), collection recurses without bound.", "quantifier": "all heaps with a reachable cycle", "why_tests_cant": "needs all cyclic graphs", "anchors": ["source/lib_vm/vm_gc.cpp:trace"]}
{"id": "C62", "title": "Finding: collection can overflow the destination space", "statement": "Collection copies one scalar or string per reference (sharing between non-array values is not preserved) into a space that already holds the newest objects and never checks the allocator's null result, so a heap that fits in one space can crash during collection.", "quantifier": "exists a heap within capacity", "why_tests_cant": "needs a specific allocation history", "anchors": ["source/lib_vm/vm_gc.cpp:trace,should_collect", "source/lib_vm/vm_gc.h:alloc"]}
{"id": "C63", "title": "Arena allocations are disjoint and in bounds", "statement": "Allocations between two clears of an arena never overlap, never exceed the arena, and fail exactly when the remaining space is insufficient.", "quantifier": "all allocation histories", "why_tests_cant": "all histories", "anchors": ["source/lib_vm/vm_gc.h:arena_t"]}
{"id": "C64", "title": "Virtual machine scheduling round", "statement": "One vm resume visits the threads present at its start in list order: waiting threads have their wait count decremented, finished or failed ones are removed, every other gets one slice, and threads spawned during the round are not run in it; it stops early only when a slice fails.", "quantifier": "all thread lists", "why_tests_cant": "all thread sets and histories", "anchors": ["source/lib_vm/vm.cpp:resume,new_thread"]}
{"id": "C65", "title": "wait(n) skips exactly n rounds", "statement": "A thread that executes wait(n) with n >= 0 stops its slice (n > 0) and is skipped by exactly the next n scheduling rounds. Finding: with n < 0 it is skipped by every following round.", "quantifier": "all n, all thread sets", "why_tests_cant": "all histories", "anchors": ["source/lib_builtins/builtin.cpp:builtin_wait", "source/lib_vm/vm.cpp:resume"]}
{"id": "C66", "title": "Spawning a thread passes arguments in order", "statement": "new_thread(f, a1..an) starts a thread at f with its argument slots holding a1..an in order when f takes n arguments, and raises e_bad_argument otherwise, leaving the thread list unchanged. Finding: array arguments abort instead of being passed.", "quantifier": "all functions and argument lists", "why_tests_cant": "all argument lists", "anchors": ["source/lib_builtins/builtin.cpp:builtin_new_thread", "source/lib_vm/thread.cpp:prepare", "source/lib_vm/vm_gc.cpp:copy"]}
{"id": "C67", "title": "Preparing a thread checks arity", "statement": "A thread can be created iff the argument count equals the function's; otherwise no thread is added. Finding: call_once with the wrong argument count dereferences a null thread.", "quantifier": "all functions and argument vectors", "why_tests_cant": "all inputs", "anchors": ["source/lib_vm/thread.cpp:prepare", "source/lib_vm/vm.cpp:new_thread,call_once"]}
{"id": "C68", "title": "Finding: call_init can report success before globals are initialised", "statement": "call_init returns true when the initialiser has merely used up its 8192 cycles, so globals may still be unset.", "quantifier": "exists a program", "why_tests_cant": "needs a program long enough", "anchors": ["source/lib_vm/vm.cpp:call_init"]}
{"id": "C69", "title": "Numeric builtins", "statement": "abs returns the absolute value of an integer (undefined for the most negative one), bitand the two's complement conjunction, len the number of elements or bytes, chr the one-byte string of its argument modulo 256 (empty for multiples of 256), new_array an all-none array of the given positive size; each raises e_bad_argument on any other kind of argument.", "quantifier": "all arguments", "why_tests_cant": "all values", "anchors": ["source/lib_builtins/builtin.cpp"]}
{"id": "C70", "title": "min/max", "statement": "min and max of two numbers return a float equal to the smaller/larger of the two after conversion to 32-bit float. Finding: for integers above 2^24 the result may differ from both arguments.", "quantifier": "all number pairs", "why_tests_cant": "all pairs", "anchors": ["source/lib_builtins/builtin.cpp:builtin_min,builtin_max"]}
{"id": "C71", "title": "Builtins are registered and resolved consistently", "statement": "Every builtin name registered with the compiler is bound by builtins_resolve to a function popping exactly the registered number of arguments and pushing one result, and no other syscall entry is touched.", "quantifier": "all syscall tables and argument stacks", "why_tests_cant": "all tables", "anchors": ["source/lib_builtins/builtin.cpp:builtins_register,builtins_resolve"]}
{"id": "C72", "title": "Finding: indirect syscalls do not check their argument count", "statement": "Calling a syscall through a variable with the wrong number of arguments consumes or leaves values of the caller's frame instead of raising e_bad_num_args.", "quantifier": "exists a state; all argument counts", "why_tests_cant": "silent corruption", "anchors": ["source/lib_vm/thread.cpp:do_INS_ICALL_,do_syscall_"]}
{"id": "C73", "title": "Rounding builtins", "statement": "floor, ceil and round of a number that fits a finite 32-bit float return a float denoting an integer: the greatest integer not above the argument, the least integer not below it, and the nearest integer with ties away from zero.", "quantifier": "all finite 32-bit floats and all integers", "why_tests_cant": "2^32 floats, and the halfway cases are easy to get wrong", "anchors": ["source/lib_builtins/builtin.cpp:builtin_floor,builtin_ceil,builtin_round"]}
{"id": "C74", "title": "Lexical grammar", "statement": "The texts the lexer accepts are exactly those that split into a sequence of lexemes (names, decimal literals, strings, comments, operators, blanks, line ends) each of which is as long as possible, and the tokens returned are the ones of that split; the split is unique.", "quantifier": "every source text and every split of it", "why_tests_cant": "texts are unbounded and the claim is an equivalence", "anchors": ["source/lib_compiler/lexer.cpp:lex"]}
{"id": "C75", "title": "Finding: a stray token at top level is blamed on its successor", "statement": "When a token that cannot start a declaration occurs at top level, the parser reports the following token and its line instead.", "quantifier": "every token that cannot start a declaration and every following text", "why_tests_cant": "all tokens and all continuations", "anchors": ["source/lib_compiler/parser.cpp:parse"]}
{"id": "C76", "title": "Finding: a function body of blank lines is a syntax error", "statement": "A function whose body is empty is accepted, but a function whose body consists of one or more blank lines is rejected with 'statement expected' at the line of its end.", "quantifier": "all names, parameter lists, numbers of blank lines and continuations", "why_tests_cant": "unbounded texts", "anchors": ["source/lib_compiler/parser.cpp:parse_function_,parse_stmt_"]}
{"id": "C77", "title": "Finding: some syntax errors abort the process", "statement": "import followed by anything but a string, or the word import where a name is expected, trips an assertion in the error reporter instead of raising a compile error.", "quantifier": "every following token and text", "why_tests_cant": "all continuations", "anchors": ["source/lib_compiler/token.cpp:token_name", "source/lib_compiler/errors.h:unexpected_token"]}
{"id": "C78", "title": "Finding: a name declared in both branches of an if is resolved by memory address", "statement": "Both branches of an if share one scope during name resolution, kept as a set of node pointers; when both declare the same name, which variable the else branch refers to depends on the addresses of the nodes, so the same program can return different values under different memory layouts.", "quantifier": "exists a program and two memory layouts", "why_tests_cant": "the result depends on the allocator; a test sees one layout", "anchors": ["source/lib_compiler/sema.cpp:sema_decl_annotate_t::find_decl"]}
{"id": "C79", "title": "Finding: some global initialisers break the compiler", "statement": "A global initialised with 'not' of a constant trips an assertion, one initialised with minus of a variable reads an empty vector, and one that uses a function name as an operand trips an assertion; none of them is reported as a compile error.", "quantifier": "all constant operands, all variables, all functions and operators", "why_tests_cant": "all initialisers of that shape", "anchors": ["source/lib_compiler/sema.cpp:eval_t"]}
{"id": "C80", "title": "Finding: a duplicate syscall name dereferences a null pointer", "statement": "If a syscall is registered under a name already declared by an earlier syscall or item, semantic analysis reports the duplicate through the syscall's null token.", "quantifier": "all programs in which an earlier declaration has the name of a later syscall", "why_tests_cant": "all programs", "anchors": ["source/lib_compiler/sema.cpp:sema_multi_decls_t"]}
{"id": "C81", "title": "Finding: a constant cannot be none", "statement": "A constant initialised with none is rejected with the error that constants need an initialiser.", "quantifier": "all constants and all surrounding programs", "why_tests_cant": "all programs", "anchors": ["source/lib_compiler/sema.cpp:sema_global_var_t,sema_const_t"]}
{"id": "C82", "title": "The host sees what the source means, from text to results", "statement": "For every set of source files the compiler accepts (with imports, with the optimiser on or off), running the built program on a new vm - initialising it and then calling any functions with any scalar arguments, under any collector settings - shows the host exactly the flags, return values, errors, output and consumed input that the meaning of the source prescribes, unless an arena is exhausted, the host's own cycle bound ends the call or a stack outgrows 32 bits.", "quantifier": "all source texts, file systems, memory layouts, registered syscalls, optimiser settings, collector settings, initial worlds and sequences of calls", "why_tests_cant": "the equivalence ranges over every program, every sequence of calls and every collection schedule", "anchors": ["source/lib_compiler/nano.cpp:nano_t::build", "source/lib_vm/vm.cpp:vm_t::call_init,vm_t::call_once", "source/lib_compiler/codegen.cpp", "source/lib_compiler/optimize.cpp"]}
{"id": "C83", "title": "Calls with a meaning come back", "statement": "If the meaning of the source gives every call of a sequence a result or an error, then with enough cycles and memory the built program gives all of them back to the host, with the output the source prescribes: it never hangs or aborts instead.", "quantifier": "all source texts, all sequences of calls, all bounds above some bound", "why_tests_cant": "termination for every program and every sequence of calls", "anchors": ["source/lib_compiler/nano.cpp:nano_t::build", "source/lib_vm/vm.cpp:vm_t::call_once", "source/lib_vm/thread.cpp:thread_t::resume"]}
{"id": "C84", "title": "Automatic collections happen when needed and leave room", "statement": "A running thread never triggers a collection while the arena that allocations come from is below 76 percent, always triggers one before the next instruction once it is at 76 percent or above, and therefore starts every instruction with room: values that together take at most 24 percent of an arena are never refused.", "quantifier": "all programs, all machine states, all run lengths, all lists of values", "why_tests_cant": "the trigger and the headroom must hold in every reachable state", "anchors": ["source/lib_vm/vm_gc.cpp:value_gc_t::should_collect,value_gc_t::collect", "source/lib_vm/thread.cpp:thread_t::tick_gc,thread_t::resume"]}
{"id": "C85", "title": "Float and mixed arithmetic and comparison", "statement": "When at least one operand is a float, both are taken as binary32 numbers; + - * / push the IEEE result, % raises an error, and < > <= >= == decide the order of the numbers the operands denote, with infinities at the ends and NaN related to nothing.", "quantifier": "all pairs of numbers with at least one float, including infinities, NaN, signed zeros and subnormals, all machine states", "why_tests_cant": "2^64 pairs of operands", "anchors": ["source/lib_vm/thread.cpp:thread_t::do_INS_ADD_,thread_t::do_INS_LT_,thread_t::do_INS_LEQ_,thread_t::do_INS_EQ_", "source/lib_vm/value.h:value_t::as_float"]}
{"id": "C86", "title": "Analysed programs compile, unless a constant stands where a variable is needed", "statement": "Once the analysis and the optimiser have accepted a program, code generation reports no error: it produces a program if no constant is called, used as a loop variable, or used as the object of a member or element assignment, and it aborts on a failed assertion otherwise. The optimiser never introduces such a use.", "quantifier": "all sources, file systems, layouts, registered syscalls and optimiser settings", "why_tests_cant": "every program the analysis accepts", "anchors": ["source/lib_compiler/nano.cpp:nano_t::build", "source/lib_compiler/codegen.cpp:codegen_pass_t", "source/lib_compiler/sema.cpp"]}
{"id": "C87", "title": "The compiler does not crash on plain sources", "statement": "For texts that are lexed and import nothing, whose host functions have distinct names, whose constants are used as values only, whose members are not taken of functions and whose global initialisers use only operators the initialiser evaluator knows, building yields a program or an error message, or overflows a signed integer while folding constants; with the optimiser off and no operators in global initialisers it always yields a program or an error message.", "quantifier": "all such sources, file systems, layouts, registered syscalls and optimiser settings", "why_tests_cant": "absence of failed assertions, null dereferences and endless loops for every text", "anchors": ["source/lib_compiler/nano.cpp:nano_t::build", "source/lib_compiler/sema.cpp", "source/lib_compiler/optimize.cpp", "source/lib_compiler/codegen.cpp"]}
{"id": "C88", "title": "Finding: a constant used as a variable aborts the compiler", "statement": "Calling a constant, counting with it in a for loop, assigning to an element or a member of it, or reading a member of it passes the analysis and then fails an assertion of the code generator.", "quantifier": "five source texts, one for each kind of use, with the optimiser on or off", "why_tests_cant": "the general condition is C86; these are texts that meet it", "anchors": ["source/lib_compiler/codegen.cpp:codegen_pass_t", "source/lib_compiler/sema.cpp:sema_const_t"]}
{"id": "C89", "title": "Every imported file is compiled exactly once", "statement": "When the front end is done, the program consists of the declarations of the host's sources followed by those of the imported files, each once, in the order in which they were first imported. The imported files are at different paths, every one of them is imported by some source, and every import of every source is of a loaded source.", "quantifier": "all file systems, sources and import graphs, including cycles", "why_tests_cant": "all import graphs", "anchors": ["source/lib_compiler/nano.cpp:nano_t::build", "source/lib_compiler/parser.cpp:parser_t::parse_import_", "source/lib_common/source.cpp:source_manager_t::load"]}
{"id": "C90", "title": "Imports end", "statement": "If the imports reachable from the host's sources lead to finitely many paths, the front end ends after at most that many further sources, also when files import each other in circles, and never reads a source that could not be loaded. With plain sources the build as a whole then answers, overflows while folding constants, or trips over a misplaced import.", "quantifier": "all file systems, sources and import graphs with finitely many paths", "why_tests_cant": "termination for all import graphs", "anchors": ["source/lib_compiler/nano.cpp:nano_t::build", "source/lib_common/source.cpp:source_manager_t::load,source_manager_t::imported_path"]}
{"id": "C91", "title": "Finding: a file that imports itself through ./ is compiled forever", "statement": "A file d/f that contains import \"./f\", on a file system where ./ in a path makes no difference, is loaded under a new spelling again and again: the build does not end for any bound on the number of sources.", "quantifier": "all bounds on the number of sources, all settings", "why_tests_cant": "non-termination: no finite run shows it", "anchors": ["source/lib_common/source.cpp:source_manager_t::load,path_cmp,source_manager_t::imported_path", "source/lib_compiler/nano.cpp:nano_t::build"]}
{"id": "C92", "title": "Resetting and initialising a vm starts it again", "statement": "After reset, call_init and everything the host does afterwards give exactly what they give on a new vm with the same outside world, if the program declares a global variable or the vm has no globals.", "quantifier": "all built programs, all states of the vm before the reset, all later histories of host calls, all arena sizes and collection policies that do not collect an empty heap", "why_tests_cant": "equality for every state left behind and every later history", "anchors": ["source/lib_vm/vm.cpp:vm_t::reset,vm_t::call_init", "source/lib_vm/thread.cpp:thread_t::do_INS_GLOBALS_"]}
{"id": "C93", "title": "Finding: reset leaves the globals dangling", "statement": "If some global holds a value when the vm is reset, the next collection uses memory that no longer holds a value, and so does the next call of any function. A global that held 5 before the reset reads as the argument of the next call after it.", "quantifier": "all vm states with a value in a global, all functions without parameters; one program for the wrong value", "why_tests_cant": "every state of the vm before the reset", "anchors": ["source/lib_vm/vm.cpp:vm_t::reset,vm_t::gc_collect", "source/lib_vm/vm_gc.h:value_gc_t::reset"]}
{"id": "C94", "title": "The thread handlers are called once, in order, and change nothing", "statement": "on_thread_finish is called exactly once for a thread that is run to its end by resume, with the finished thread; on_thread_error is called just before it if and only if the thread failed. step_inst and step_line call neither. A successful round of the vm calls on_thread_error for no thread; a failing round ends with the two calls for the thread that failed. With or without handlers the results are the same.", "quantifier": "all programs, threads, heaps, slices, and histories of resume, step_inst and step_line with other activity in between", "why_tests_cant": "every schedule and every way to finish", "anchors": ["source/lib_vm/thread.cpp:thread_t::resume", "source/lib_vm/vm.cpp:vm_t::resume,vm_t::call_once", "source/lib_vm/vm.h:handlers_t"]}
{"id": "C95", "title": "Finding: the line reported for an error is that of the next instruction", "statement": "get_source_line after an instruction that does not jump is the line recorded for the instruction behind it. So an error in one statement is reported on the line of the next, and an error in the last statement of a then branch has no line at all: asking the sources for its text fails an assertion.", "quantifier": "all programs and states for the rule; one source text for each consequence", "why_tests_cant": "the rule holds for every instruction in every state", "anchors": ["source/lib_vm/thread.cpp:thread_t::get_source_line,thread_t::set_error_", "source/lib_common/source.h:source_manager_t::get_line", "source/driver/driver.cpp:on_runtime_error"]}
{"id": "C96", "title": "The optimiser is safe unless an if tests a constant by name", "statement": "If no if of the program has just the name of a constant as its condition, the optimiser changes no behaviour: initialising the globals and calling any function with any arguments in any state gives the same outcome, and the host sees what the source means whether the optimiser is on or off. Constants inside larger conditions are allowed.", "quantifier": "all source texts with that restriction, all imports, syscalls and settings, all calls and states", "why_tests_cant": "every program text and every call", "anchors": ["source/lib_compiler/optimize.cpp:run_optimize,opt_if_remove_t", "source/lib_compiler/sema.cpp:sema_const_t,sema_decl_annotate_t,sema_global_var_t"]}
{"id": "C97", "title": "The line table names the source line of every instruction", "statement": "In a generated program every function is, from its first to its last instruction, the operations of its statements in order, operands before operators, and the line table answers for each of them the line of the token it comes from: a literal, name or operator its own line, the jumps and the counter of a loop the line of the loop, the room for locals the line of the function, the implicit return the line of the end. The jump over an else part and the frame of the initialiser answer no line. No other address is in the table.", "quantifier": "all analysed or optimised trees, all functions, all instruction addresses", "why_tests_cant": "every program and every address", "anchors": ["source/lib_compiler/codegen.cpp:codegen_pass_t,emit", "source/lib_common/program.h:program_t::get_line,program_t::add_line", "source/lib_compiler/program_builder.cpp"]}
{"id": "C98", "title": "Every line in a program is the line of a word of its sources", "statement": "If a program is built from texts and files the host added and from what these import, then every line in its line table names a source of that build and the line of one of its words (a token other than an end of line): the number is one more than the count of newlines before the word, and asking the sources for the text of that line succeeds with exactly the line around the word. So whatever address the host asks about, the answer is no line or such a line.", "quantifier": "all texts, files, imports, syscalls, optimiser settings and addresses; sources shorter than 2^31 bytes", "why_tests_cant": "every program text and every address", "anchors": ["source/lib_compiler/lexer.cpp:lexer_t", "source/lib_compiler/parser.cpp:parser_t", "source/lib_common/source.h:source_t::get_line,source_manager_t::get_line", "source/lib_common/program.h:program_t::get_line"]}
{"id": "C99", "title": "Compiled code keeps a stack discipline", "statement": "For every instruction of a compiled program there is one number of values the running function has on the stack when control reaches it, whichever way control got there: none on entry, always at least the local variables plus what the instruction takes, and exactly one result above the locals at a return. Operands make sense: a string exists, a called function starts at that address and takes that many arguments, a syscall is bound to a host function that takes that many arguments, the room made for locals is what a return removes together with the arguments. This holds for any host that binds each registered name to a function with the registered number of arguments, and the command line driver does.", "quantifier": "all source texts, imports, registered syscalls, optimiser settings, functions and instruction addresses; programs small enough for 32-bit operands", "why_tests_cant": "every program text and every path through its code", "anchors": ["source/lib_compiler/codegen.cpp:codegen_pass_t", "source/lib_compiler/sema.cpp:sema_num_args_t", "source/lib_builtins/builtin.cpp:builtins_register,builtins_resolve", "source/driver/driver.cpp:main"]}
{"id": "C100", "title": "Compiled programs fail for a known reason only", "statement": "A compiled program never confuses the virtual machine: no thread stops with bad opcode, stack underflow or overflow, bad pop, bad syscall, bad prepare, bad globals size or max cycle count; the vm never reads outside its code, its tables or an array, never follows a dangling reference, and returns from call_once with a result on the stack that is a function or syscall of the program, another scalar or a live array. A run of any sequence of host calls, with any collector settings, ends abnormally for one of these reasons only: an integer operation overflows; a string is added to an array or a syscall; none is called; a local variable lies past what an int can index; abs of INT_MIN; wait or new_array get a float no int can hold; an array is passed to a new thread; putc or puts get none; gets at the end of input; memory is exhausted; call_once exceeds the given bound; a thread waits for INT_MIN rounds; the host passes call_once a wrong number of arguments. The only other way is a syscall used as a value and called with a wrong number of arguments.", "quantifier": "all source texts, imports, registered syscalls, optimiser settings, host call sequences, arguments, worlds and collector settings; programs small enough for 32-bit operands, host strings without NUL", "why_tests_cant": "every program text, every execution and every interleaving of threads and collections", "anchors": ["source/lib_vm/thread.cpp:thread_t::step_imp_,thread_t::resume,thread_t::do_INS_RET_,thread_t::do_INS_ICALL_", "source/lib_vm/vm.cpp:vm_t::resume,vm_t::call_once,vm_t::call_init,vm_t::new_thread", "source/lib_builtins/builtin.cpp", "source/driver/driver.cpp"]}
{"id": "C101", "title": "The listing of a compiled program is complete", "statement": "The disassembler prints every instruction of a compiled program exactly once, in address order, one per line, under the name of the function it belongs to; functions are separated by an empty line, follow each other without gaps and cover the code; a remark with the source line stands before an instruction whenever that line differs from the one shown last. It never fails an assertion on such a program.", "quantifier": "all source texts, imports, syscalls and optimiser settings; programs small enough for 32-bit operands", "why_tests_cant": "every program text", "anchors": ["source/lib_compiler/disassembler.cpp:disassembler_t::dump,disassembler_t::disasm", "source/lib_common/program.cpp:program_t::function_find"]}
{"id": "C102", "title": "Finding: dumping the tree after a build reads deleted nodes", "statement": "The syntax tree a build leaves behind dumps as an outline of the program, one line per node, children indented below, unless the tree contains an array literal or an assignment to a member. In that case, and only then, the dump reads a node that the build has already deleted.", "quantifier": "all source texts, imports, syscalls and optimiser settings", "why_tests_cant": "every program text", "anchors": ["source/lib_compiler/ast.cpp:gc_visitor_t,ast_t::gc,ast_t::dump", "source/lib_compiler/ast.h:ast_printer_t", "source/lib_compiler/nano.cpp:nano_t::build"]}
{"id": "C103", "title": "Finding: the binary written by the compiler can never be loaded", "statement": "The file the command line compiler writes for -b is the bare code of the program. Loading it as a program image fails for every program that compiles, because the code starts with an opcode and an image starts with a magic number.", "quantifier": "all source texts, imports and optimiser settings", "why_tests_cant": "every program text", "anchors": ["source/comp/driver.cpp:main", "source/lib_common/program.cpp:program_t::serial_load,program_t::serial_save"]}
{"id": "C104", "title": "The compiler's command line does what its usage says", "statement": "With no argument the compiler exits with -1; if a source file cannot be loaded it exits with -2; if the build fails or there is no source it exits with 1; otherwise with 0. On success it has written exactly the requested files that can be created: the outline of the tree for -a, the listing for -d, the code for -b, named after the first argument, even if that is an option. It ends abnormally only if that name is too long for a buffer of 1024 bytes, if the tree to dump has a deleted node, or if the compiler itself does.", "quantifier": "all command lines and file systems", "why_tests_cant": "every combination of options, names and file contents", "anchors": ["source/comp/driver.cpp:main,fd_open"]}
{"id": "C105", "title": "A compiled program says only what its sources say, and survives its image", "statement": "Every string constant and every name of a function, parameter or local in a compiled program stands in one of its sources, as a name or between quotes; only the initialiser's name is invented. No string holds a zero byte. A program compiled from sources of bytes, with names and strings shorter than 256 bytes, written as an image and loaded again, is for the host the program itself: after binding the syscalls every sequence of host calls gives the same results under the same collector settings, and every address has the same source line.", "quantifier": "all source texts, imports, registered syscalls, optimiser settings; all host call sequences and collector settings", "why_tests_cant": "every program text and every later execution", "anchors": ["source/lib_compiler/codegen.cpp:codegen_t::run,codegen_t::visit", "source/lib_compiler/lexer.cpp:lexer_t::lex", "source/lib_common/program.cpp:program_t::serial_save,program_t::serial_load", "source/lib_vm/vm.cpp"]}
{"id": "C106", "title": "The command line interpreter does what the source says", "statement": "Run with source files, the interpreter loads them, compiles them with the optimiser, leaves the image of the program in temp.bin if it can create that file, runs the initialisers of the globals, calls main and prints the result. Its exit code, its output and the input it consumes are those of the source program: 0 with a last line 'exit: ' and the value (and an empty line after none), -6 if main fails, -5 if an initialiser fails, -4 without a main, 1 with an error of the compiler, -2 if a file cannot be loaded, -1 without a file. Exceptions are exhausted memory, an initialisation longer than 8192 cycles and stacks beyond 32 bits. temp.bin read back behaves like the program in every history. The interpreter ends abnormally only where the compiler does or for one of the known reasons of a compiled program. Finding: a main with parameters makes it dereference a null pointer.", "quantifier": "all command lines, file systems, source texts, inputs, collector settings and bounds on the call loop", "why_tests_cant": "every program and every execution of it, from its text to the exit code of the process", "anchors": ["source/driver/driver.cpp:main,print_result,on_error", "source/lib_vm/vm.cpp:vm_t::call_init,vm_t::call_once", "source/lib_common/program.cpp:program_t::serial_save", "source/lib_compiler/nano.cpp:nano_t::build"]}
{"id": "C107", "title": "A compiled program asks the host for exactly the registered syscalls", "statement": "The syscall table of a compiled program lists the names registered with the compiler, in that order, each once and not yet bound, whichever of them the program uses. The interpreter binds every one of them, to a function of that name that takes the registered number of arguments. Finding: if a name is registered twice then no program is compiled; the compiler dereferences a null pointer when it reports the duplicate.", "quantifier": "all lists of registered syscalls, source texts, imports and optimiser settings", "why_tests_cant": "every list of registrations with every program", "anchors": ["source/lib_compiler/nano.cpp:nano_t::syscall_register", "source/lib_compiler/pre_codegen.cpp:run_pre_codegen", "source/lib_compiler/codegen.cpp:codegen_pass_t::visit", "source/lib_compiler/program_builder.h:program_builder_t::add_syscall", "source/lib_compiler/sema.cpp:sema_multi_decls_t", "source/lib_builtins/builtin.cpp:builtins_resolve"]}
{"id": "C108", "title": "Drawing stays inside the picture", "statement": "In the SDL driver, plot, circle and line change nothing but pixels of the picture, and those only to the current colour, whatever numbers they are given; arguments that are not numbers draw nothing. Any history of calls of cls, video, plot, flip, setrgb, circle and line, with any values, never accesses memory outside the picture and the surface, if every picture asked for is at least as wide as high, not enormous, and SDL gives a window and a surface of that size. What can go wrong is a number that does not fit 32 bits.", "quantifier": "all histories of drawing calls, all argument values", "why_tests_cant": "all sequences of calls with all 32-bit and float arguments", "anchors": ["source/driver_sdl/driver.cpp:vm_plot,vm_circle,vm_line,vm_cls,vm_video,vm_flip,vm_setrgb,plot,span,line"]}
{"id": "C109", "title": "Circles are discs of the radius asked for", "statement": "circle(x, y, r) with r at least 1 paints every pixel whose outer edge is within r of the centre and none that is r+1 or more away. Findings: the centre is on the left edge of column x, so the pixel r columns to the left is painted and its mirror image is not; a circle of radius 0 paints four pixels above and below its centre but not the centre; a negative radius paints nothing.", "quantifier": "all radii up to 2^29, centres up to 2^29 in either direction, and pictures", "why_tests_cant": "every radius and position; the algorithm is incremental, so an error shows at some radii only", "anchors": ["source/driver_sdl/driver.cpp:vm_circle,span"]}
{"id": "C110", "title": "Lines connect their ends", "statement": "line(x0, y0, x1, y1) paints exactly one pixel in each column from x0 up to, not including, x1 (or in each row, if it is steeper), starting at the first point; each is less than two pixels off the exact line and not beyond its ends. Findings: the second point is not painted, a line from a point to itself is nothing, and a line longer than 32768 both ways overflows.", "quantifier": "all coordinates up to 16383 in either direction, and all pictures", "why_tests_cant": "every direction and length; the algorithm accumulates a fixed point fraction", "anchors": ["source/driver_sdl/driver.cpp:line,vm_line,plot"]}
{"id": "C111", "title": "flip shows the picture, if it is square", "statement": "flip copies a square picture to the surface, each pixel as a block of three by three, and changes nothing else. Findings: of a picture wider than high it shows only as many columns as there are rows; with a picture higher than wide it always reads past the end of the picture.", "quantifier": "all pictures and surfaces", "why_tests_cant": "every size and content", "anchors": ["source/driver_sdl/driver.cpp:vm_flip"]}
{"id": "C112", "title": "New pictures are black, and colours are three bytes", "statement": "video(w, h) with sizes from 0 whose product fits makes a black picture of that size; cls makes every pixel black; setrgb takes the low eight bits of each number. Findings: video returns 1 if SDL fails and 0 if it succeeds; sizes with a negative product clear more memory than there is; if SDL gives no window for a second picture, the old surface stays and flip writes past its end.", "quantifier": "all sizes, colours, states and answers of SDL", "why_tests_cant": "all 32-bit sizes and colours and all prior states", "anchors": ["source/driver_sdl/driver.cpp:vm_video,vm_cls,vm_setrgb"]}
{"id": "C113", "title": "Random numbers are never stuck", "statement": "rand returns a number from 0 to 8388607, the low 23 bits of the state of the generator after the call. The state is never 0, every state has at most one predecessor, and so the first state to appear again is the first one.", "quantifier": "all numbers of calls and all non-zero seeds", "why_tests_cant": "the generator has 2^32 states", "anchors": ["source/driver/driver.cpp:xorshift32,vm_rand", "source/driver_sdl/driver.cpp:xorshift32,vm_rand"]}
{"id": "C114", "title": "Console input and output", "statement": "putc writes the low eight bits of an int and puts a string and a newline; with another kind of value they write nothing and end the thread with an error, with none they trip an assertion. getc takes one byte of the input, or returns -1 at its end. gets takes a line, at most 79 bytes of it, and returns it up to its newline or first zero byte. Finding: at the end of the input gets reads a buffer in which nothing was stored.", "quantifier": "all values, inputs, programs and heaps", "why_tests_cant": "every input and every state of the machine", "anchors": ["source/driver/driver.cpp:vm_getc,vm_putc,vm_gets,vm_puts"]}
{"id": "C115", "title": "Stepping is running", "statement": "step_line on a thread that has not finished executes one or more instructions, stops at the first one after which the thread has finished or is on another line, and reports whether the thread has no error; step_inst executes exactly one. For compiled programs that halt nowhere, stepping through the program is the same as resuming it with as many cycles, and a step of a compiled program whose line ends always returns. Findings: step_line never collects, so a line that allocates much exhausts the arena where resume does not; it goes on through wait and breakpoints; and a line that is never left is an endless step.", "quantifier": "all programs, all states of the machine, all numbers of instructions on the line", "why_tests_cant": "lines can contain any number of instructions, including calls of functions on other lines", "anchors": ["source/lib_vm/thread.cpp:thread_t::step_line,thread_t::step_inst,thread_t::resume", "source/lib_vm/thread.h:thread_t"]}
{"id": "C116", "title": "Finding: the loader does not check code", "statement": "serial_load accepts an image with any code bytes and any entry points. Running a program whose entry point, jump target or string number is outside its table reads outside of that table. For every code longer than four bytes and every 32-bit entry point outside it there is an image that loads and whose main, called by the host, reads outside of the code at once.", "quantifier": "all codes, entry points, jump targets and string numbers; all heaps and hosts", "why_tests_cant": "all byte strings of any length", "anchors": ["source/lib_common/program.cpp:program_t::serial_load", "source/lib_vm/thread.cpp:thread_t::step_imp_,thread_t::do_INS_JMP_,thread_t::do_INS_NEW_STR_"]}
{"id": "C117", "title": "A thread run in slices does what one call does", "statement": "If a function of the source, called after the globals were initialised, returns a value or fails with an error, and neither it nor the initialisers start threads, then starting it as a thread and resuming the vm again and again, with any positive number of cycles per round, ends after some number of rounds: the thread has finished with that value or that error, and the output, the input consumed and the random numbers are those of the call. All rounds before the last report success and the last one reports whether there was an error; wait only makes the rounds more. Exceptions are exhausted memory, stacks beyond 32 bits and waiting for a negative number of rounds. After that, a round reports success even if the thread failed, changes nothing, and removes the thread, so its result can be read only until then.", "quantifier": "all source texts, functions, arguments, slice lengths, collector settings for each round, and states left by the initialisers", "why_tests_cant": "every program with every slice length: the thread can be interrupted after any instruction", "anchors": ["source/lib_vm/vm.cpp:vm_t::new_thread,vm_t::resume", "source/lib_vm/thread.cpp:thread_t::resume,thread_t::prepare", "source/lib_builtins/builtin.cpp"]}
{"id": "C118", "title": "Functions of the host are called as the script says", "statement": "A call of a function that the host registered hands it the values passed, in the order of the call, after all calls made before; what it answers is the value of the call, and nothing else of the machine changes. If it refuses, the thread ends with bad_argument. Whatever the host does with the vm (starting threads, resuming, calling, collecting, debugging), output is only added, input only consumed from its front, and the calls made only added; every call made is of a function bound to a syscall of the program, with the number of arguments that the function takes.", "quantifier": "all programs, heaps, collectors, answers of the host function and histories of calls of the host", "why_tests_cant": "every history and every answer of the host", "anchors": ["source/lib_vm/thread.cpp:thread_t::do_INS_SCALL_", "source/lib_common/program.h:program_t::syscall_resolve", "source/lib_vm/thread.h:thread_t::raise_error,thread_t::get_stack"]}
{"id": "C119", "title": "The SDL driver plays what the source says", "statement": "If the sources compile and running them has a meaning (globals are initialised, then main is called), then from some number of rounds on the schedule of rounds and events no longer matters: what was printed, read and called is what the source says, the picture is what the drawing functions make of the calls of the source one after the other, and the driver returns 0 if the program failed or a quit event came. keydown answers 1 or 0 for six keys, by their names, and none for anything else. Every other outcome has its exit code: 1 if SDL does not start, for an error in the sources, or without a main that takes no parameters, -1 without a source, -2 for an unreadable file. Findings: main is run even if the initialisers failed, the exit code is 0 even after an error, and after main has returned the driver keeps running until a quit event comes. Exceptions are exhausted memory, stacks beyond 32 bits, initialisers longer than 8192 cycles, and waits for a negative number of rounds.", "quantifier": "all source texts, command lines, keyboards, answers of SDL, orders of rounds and events, and collector settings", "why_tests_cant": "the loop has no bound and events may come at any time", "anchors": ["source/driver_sdl/driver.cpp:main,vm_video,vm_keydown,vm_sleep", "source/lib_vm/vm.cpp:vm_t::resume,vm_t::new_thread,vm_t::call_init"]}
{"id": "C120", "title": "What can go wrong in the SDL driver", "statement": "A program that the driver compiles can call the sixteen builtins and the ten functions of the driver and no others. Each of them is bound to its function, which takes off the stack as many values as are registered. Whatever a program does, each call of a host function that it makes has the registered number of arguments, and so has each drawing. If the driver crashes, the compiler crashed on the sources, or there is one of the reasons why the vm can crash (as for the interpreter), or a drawing function crashed on the calls made; if all pictures asked for are no higher than wide, not enormous, and SDL makes their windows, that can only be an overflow or a number out of range.", "quantifier": "all source texts, command lines, keyboards, answers of SDL and orders of rounds and events", "why_tests_cant": "crashes must be excluded for every program and every schedule", "anchors": ["source/driver_sdl/driver.cpp:main,vm_video,vm_plot,vm_circle,vm_line,vm_setrgb,vm_flip,vm_cls,vm_keydown,vm_sleep,vm_rand", "source/lib_builtins/builtin.cpp:builtins_register,builtins_resolve"]}
{"id": "C121", "title": "Float arithmetic is exact arithmetic rounded once", "statement": "If one operand of +, -, * or / is a float and both are finite, the result is the exact sum, difference, product or quotient of the numbers the operands stand for, rounded to the nearest number a 32-bit float can hold, and to the one with an even last bit if two are equally near; from 2^128 - 2^103 on it is infinity, and the sign is the sign of the exact result. An integer operand is first rounded in the same way, so integers beyond 2^24 may change. A result that a float can hold is exact. There is only one such result. Division by a zero float gives an infinity, or NaN for zero by zero, not an error.", "quantifier": "all integers and all finite floats as operands of the four operations", "why_tests_cant": "2^64 pairs of operands for each operation", "anchors": ["source/lib_vm/thread.cpp:thread_t::do_INS_ADD_,thread_t::do_INS_SUB_,thread_t::do_INS_MUL_,thread_t::do_INS_DIV_", "source/lib_vm/value.h:value_t::as_float"]}
{"id": "C122", "title": "The text of a number in a concatenation", "statement": "Adding an integer to a string, on either side, puts in the decimal numeral of the integer, with a minus sign if it is negative and no leading zeros. Adding a float puts in the first fifteen characters of its text: a minus sign if negative, a numeral, a point and six digits, which together are the nearest millionth, and the even one if two are equally near; infinities are inf and -inf, NaN is nan. Every number has exactly one such text. Nothing is cut up to 9999999 in size, or 99999999 if not negative. Finding: a float from 10^15 on leaves the text of a smaller number, since the cut falls among its digits.", "quantifier": "all strings, integers and floats", "why_tests_cant": "2^32 floats and all strings", "anchors": ["source/lib_vm/thread.cpp:to_string,thread_t::do_INS_ADD_"]}
{"id": "C123", "title": "Float literals are the numbers they look like", "statement": "Digits, a point and digits (if any) are one token, a float. If all digits together are a number up to 2^24, it is the float nearest to the number written, and the one with an even last bit if two are equally near; otherwise the digits are rounded to a float first, and the quotient by the power of ten is rounded again. A literal below 16 with up to six decimals, added to a string, appears there as it was written, with zeros up to six decimals. With digits that make 2^31 or more, or with ten or more decimals, even zeros, the compiler overflows. Findings: because of the second rounding 1677721.7 is not read as the nearest float, and from 16 on six decimals may not survive.", "quantifier": "all digit strings, and all texts before and after the literal", "why_tests_cant": "every literal in every context; rounding errors occur in some literals only", "anchors": ["source/lib_compiler/lexer.cpp:lexer_t::lex,lexer_t::push_val_", "source/lib_vm/thread.cpp:to_string"]}
{"id": "C124", "title": "Square roots are correctly rounded", "statement": "sqrt of a positive number is the float nearest to its exact square root, and the one with an even last bit if two are equally near; an integer is first rounded to a float. There is only one such float; a root that a float can hold is exact. sqrt of zero is zero with its sign, of a negative number or NaN NaN, of infinity infinity. sin, cos and tan answer what the functions of the C library answer for the argument as a float, and change nothing else.", "quantifier": "all integers and all floats as arguments", "why_tests_cant": "2^32 floats, and the nearest among all floats", "anchors": ["source/lib_builtins/builtin.cpp:builtin_sqrt,builtin_sin,builtin_cos,builtin_tan"]}
{"id": "C125", "title": "The example programs compute what they are named after", "statement": "Compiled from its text with or without the optimiser and run with any collector settings, examples/misc/fib.ccml answers a call of fib(n) with the n-th Fibonacci number (1 for n below 1) for every n up to 46; factoral(n) of examples/misc/factoral.ccml answers n! for every n up to 12 (1 below 1); wday(year, month, day) of tests/xpass/day_of_the_week.ccml answers the day of the week, counted from sunday, of every date of the Gregorian calendar from the year 1 to 1700000000. They print nothing. Finding: fib(n) from 47 on overflows, which is undefined.", "quantifier": "all arguments, all dates, all collector settings, initial memories and worlds, with and without the optimiser", "why_tests_cant": "the tests of the repository call each function once; there are 6 * 10^11 dates", "anchors": ["examples/misc/fib.ccml:fib", "examples/misc/factoral.ccml:factoral", "tests/xpass/day_of_the_week.ccml:wday", "source/lib_vm/vm.cpp:vm_t::call_once", "source/lib_compiler/nano.cpp:nano_t::build"]}
{"id": "C126", "title": "Runtime errors have distinct names, or none", "statement": "The text the VM gives for an error tells which error it was: no two errors have the same text. A program made by the compiler, whatever the host does with it, ends with one of twelve errors only (division by zero, bad array bounds, index or object, bad type, argument, member access, number of arguments, getting or setting a local or global), on every thread and in every call; the calls a host makes one after the other once the program is initialised never fail through a variable that is not there, which leaves eight. Finding: asking for the text of bad array object, or bad prepare, aborts the process; reading an element of none is enough for the first, with any index.", "quantifier": "all errors; all source texts that compile, all histories of host operations, collector settings and memories; all indices", "why_tests_cant": "every way a program can fail would have to be provoked", "anchors": ["source/lib_vm/thread_error.cpp:get_thread_error", "source/lib_vm/thread_error.h:thread_error_t", "source/lib_vm/thread.cpp:thread_t::do_INS_DEREF_", "examples/ide/main.cpp:vm_handle_on_thread_error"]}
{"id": "C127", "title": "Both sides of and / or are evaluated", "statement": "If the left side of an and or an or has a value, the right side is evaluated too: what it prints or changes outside happens, and its error is the error of the whole. Finding: so a test cannot guard another one. Compiled from text with or without the optimiser and run with any collector settings, the functions both (i < n and s[i] == 97) and either (i >= n or s[i] == 97) answer what they should for an index inside the string, and for every other index fail with bad array bounds, whatever n is.", "quantifier": "all expressions and states; all strings, bounds and indices; all collector settings, initial memories and worlds", "why_tests_cant": "a test shows one index; users of other languages rely on the opposite", "anchors": ["source/lib_compiler/codegen.cpp:codegen_pass_t::visit", "source/lib_vm/thread.cpp:thread_t::do_INS_AND_,thread_t::do_INS_OR_,thread_t::do_INS_DEREF_"]}
