{"id": "C01", "title": "Handles are never reused", "statement": "Every value, basic-block and function handle handed out by the library in one process is different from every handle of the same sort handed out earlier, whichever thread, program or function asked for it, until the 32-bit counter behind it is exhausted. A handle therefore identifies one entity for ever, also after that entity has been removed.", "quantifier": "for every sequence (interleaving) of handle requests by any number of threads, of any length below exhaustion of the counter", "why_tests_cant": "A test creates a handful of handles; it cannot cover every interleaving nor a stream of 2^32 requests.", "anchors": ["koopa/src/ir/idman.rs: next_global_value_id, next_local_value_id, next_bb_id, next_func_id"]}
{"id": "C02", "title": "Global and local values can be told apart by their handle", "statement": "Value::is_global returns true for a handle exactly when the handle was created for a program-level (global) value, for as long as fewer than 2^30 - 1 global values have been created; the two ranges never overlap below that bound, and the bound is tight.", "quantifier": "for every sequence of global and local value creations within the bound", "why_tests_cant": "The two ranges only meet after about a billion creations.", "anchors": ["koopa/src/ir/idman.rs: is_global_id, GLOBAL_VALUE_ID_STARTS_FROM, LOCAL_VALUE_ID_STARTS_FROM", "koopa/src/ir/entities.rs: Value::is_global"]}
{"id": "C03", "title": "Type equality is structural equality", "statement": "Types are compared by pointer. For every sequence of type constructions in a thread, two Type values obtained from the library compare equal exactly when they denote the same type structurally, and an already handed out Type never changes its meaning.", "quantifier": "for all sequences of Type::get calls and all pairs of types obtained from them", "why_tests_cant": "Pointer identity depends on the whole history of the interning pool.", "anchors": ["koopa/src/ir/types.rs: Type::get, Type::eq, Type::POOL"]}
{"id": "C04", "title": "Type sizes", "statement": "Type::size of a type is the number of bytes implied by its structure (4 per i32, 0 for unit, element size times length for arrays, pointer size for pointers and functions), modulo 2^64; it is exact whenever the mathematical size is below 2^64.", "quantifier": "for all types and both settings of the pointer size", "why_tests_cant": "The set of types is infinite and nested.", "anchors": ["koopa/src/ir/types.rs: Type::size, Type::set_ptr_size"]}
{"id": "C05", "title": "Operand iterators are complete and ordered", "statement": "ValueKind::value_uses yields exactly the operands of a value in operand order, each occurrence once, and ValueKind::bb_uses yields exactly its target blocks, for every kind of value and every number of arguments; each iterator ends after the last operand and stays ended.", "quantifier": "for all value kinds with argument lists of any length", "why_tests_cant": "The iterator is index-based with per-kind offsets; argument lists are unbounded.", "anchors": ["koopa/src/ir/entities.rs: ValueKind::value_uses, ValueUses::next, ValueKind::bb_uses, BasicBlockUses::next"]}
{"id": "C06", "title": "Use lists are the exact inverse of operands", "statement": "After any sequence of value and block creations, replacements, in-place updates, removals and renamings in the functions of a program, used_by of every existing value (global or local) and of every existing block is exactly the set of existing values that mention it as operand or target.", "quantifier": "for all finite sequences of data-flow-graph operations that do not panic, from an empty program", "why_tests_cant": "Consistency must hold after every sequence of operations over an unbounded graph.", "anchors": ["koopa/src/ir/dfg.rs: DataFlowGraph::new_value_data, replace_value_with_data, update_value, remove_value, new_bb_data, remove_bb", "koopa/src/ir/entities.rs: Program::new_value_data, Program::remove_value"]}
{"id": "C07", "title": "No dangling operands", "statement": "After any such sequence of operations, every operand and every target block of an existing value exists, so querying an operand through the program never panics.", "quantifier": "for all finite sequences of data-flow-graph operations that do not panic", "why_tests_cant": "Dangling references only show up after particular removal orders.", "anchors": ["koopa/src/ir/dfg.rs: remove_value, remove_bb, replace_value_with_data"]}
{"id": "C08", "title": "Removal of a value", "statement": "remove_value succeeds exactly when the value exists and nothing uses it; it then returns the value's data, removes only that value, and only shrinks the use lists of its operands by that one user. Otherwise it panics.", "quantifier": "for all reachable programs and all value handles", "why_tests_cant": "Requires knowing the whole use graph.", "anchors": ["koopa/src/ir/dfg.rs: DataFlowGraph::remove_value", "koopa/src/ir/entities.rs: Program::remove_value"]}
{"id": "C09", "title": "Replacement keeps users", "statement": "Replacing a value in place keeps its handle and its set of users, gives it the new type, kind and name, moves use-list entries from its old operands to its new operands, and leaves every other value unchanged.", "quantifier": "for all reachable programs, handles and new value data", "why_tests_cant": "Requires universally quantified frame reasoning.", "anchors": ["koopa/src/ir/dfg.rs: replace_value_with_data, update_value", "koopa/src/ir/builder.rs: ReplaceBuilder"]}
{"id": "C10", "title": "Removal of a block", "statement": "remove_bb succeeds only when nothing jumps to the block and none of its parameters is used; it removes exactly the block and its parameter values and returns its data; on success no existing value refers to the block or its parameters.", "quantifier": "for all reachable programs and block handles", "why_tests_cant": "Depends on the complete use graph.", "anchors": ["koopa/src/ir/dfg.rs: DataFlowGraph::remove_bb"]}
{"id": "C11", "title": "Builders only build well-typed values", "statement": "Every value created by a builder method that does not panic is well typed according to the type rules of Koopa IR given the types of its operands (declaratively stated), and the builder panics exactly when the rules are violated or an operand does not exist. Hence in every program built with the builders alone every value is well typed.", "quantifier": "for all builder methods, all arguments and all programs reachable by builder calls", "why_tests_cant": "Infinitely many operand type combinations.", "anchors": ["koopa/src/ir/builder.rs: ValueBuilder, LocalInstBuilder, GlobalInstBuilder, BasicBlockBuilder, check_bb_arg_types"]}
{"id": "C12", "title": "Structural value comparison", "statement": "DataFlowGraph::value_eq is reflexive, symmetric and transitive on values whose operand graphs are finite (acyclic), and values that compare equal have the same type and the same shape.", "quantifier": "for all data-flow graphs with acyclic operands and all values", "why_tests_cant": "Quantifies over all graphs.", "anchors": ["koopa/src/ir/dfg.rs: DataFlowGraph::value_eq, data_eq"]}
{"id": "C13", "title": "Layout order", "statement": "Inserting an instruction or block into a layout either puts it exactly at the requested position and leaves the relative order of everything else unchanged, or, if it is already present in that list, fails and changes nothing. No list ever contains a duplicate.", "quantifier": "for all sequences of layout operations", "why_tests_cant": "Order properties over unbounded histories.", "anchors": ["koopa/src/ir/layout.rs: BasicBlockMap::insert, InstMap::insert", "key_node_list (external)"]}
{"id": "C14", "title": "parent_bb is exact", "statement": "Layout::parent_bb(inst) is Some(bb) exactly when inst is currently in the instruction list of bb, provided an instruction is never put in two blocks at a time and instruction lists are emptied by per-instruction removal before their block is removed. Without that discipline (InstMap::clear, removing a non-empty block, inserting an instruction twice) it is not.", "quantifier": "for all sequences of layout operations", "why_tests_cant": "A reverse index must stay consistent with all lists over any history.", "anchors": ["koopa/src/ir/layout.rs: Layout::parent_bb, InstMap::insert, InstMap::remove_entry, InstMap::clear, BasicBlockMap::remove_entry, BasicBlockMap::clear"]}
{"id": "C15", "title": "Program layouts list exactly the live entities", "statement": "Program::func_layout lists exactly the functions of the program, each once, in creation order, and Program::inst_layout lists exactly the global allocations of the program, each once, in creation order, after any sequence of creations and removals.", "quantifier": "for all sequences of Program operations that do not panic", "why_tests_cant": "Histories are unbounded.", "anchors": ["koopa/src/ir/entities.rs: Program::new_func, remove_func, remove_value", "koopa/src/ir/builder.rs: GlobalBuilder::insert_value"]}
{"id": "C16", "title": "Removing a function releases the globals it used", "statement": "After Program::remove_func no use list of a global value mentions values of the removed function, so an otherwise unused global can be removed.", "quantifier": "for all programs and functions", "why_tests_cant": "Needs a function using globals followed by two removals; and a proof for all others.", "anchors": ["koopa/src/ir/entities.rs: Program::remove_func, Program::remove_value"]}
{"id": "C17", "title": "Generated names are unique", "statement": "During text generation, two different entities that are live in the same scope (global values, functions and the values of the current function; separately, the blocks of the current function) never receive the same name, provided no user-given name has the form of a generated temporary name.", "quantifier": "for all sequences of naming requests and scope changes, all user-given names", "why_tests_cant": "Name collisions depend on the complete set of names already used.", "anchors": ["koopa/src/back/generator.rs: NameManager::func_name, bb_name, value_name, temp_value_name, next_name_str, exit_func_scope"]}
{"id": "C18", "title": "Generated names are stable", "statement": "Within the lifetime of an entity's scope, every request for its name yields the same text, whatever other names are requested in between; and a unique user-given name is kept unchanged (up to prefix replacement).", "quantifier": "for all sequences of naming requests and scope changes", "why_tests_cant": "Depends on the history of requests.", "anchors": ["koopa/src/back/generator.rs: NameManager"]}
{"id": "C19", "title": "Lexing always makes progress", "statement": "For every byte stream, every call to the lexer that is not at end of input consumes at least one byte, whether it returns a token or reports an error, and at end of input it returns the end token for ever.", "quantifier": "for all byte streams, including I/O errors", "why_tests_cant": "All byte strings.", "anchors": ["koopa/src/front/lexer.rs: Lexer::next_token and its handlers"]}
{"id": "C20", "title": "Token spans", "statement": "The span of every token is the exact source region of its text: it starts at the line and column of its first character and ends at its last one.", "quantifier": "for all byte streams and all tokens returned", "why_tests_cant": "All byte strings.", "anchors": ["koopa/src/front/lexer.rs: Lexer::next_token", "koopa/src/front/span.rs: Pos::update"]}
{"id": "C21", "title": "Layout of the source text does not matter to the lexer", "statement": "Whitespace and comments between tokens can be added, removed or changed without changing the sequence of token kinds.", "quantifier": "for all sequences of tokens and all separators", "why_tests_cant": "All texts.", "anchors": ["koopa/src/front/lexer.rs: Lexer::next_token, handle_comment"]}
{"id": "C22", "title": "Tokens survive printing", "statement": "For every token the text generator can emit (every 32-bit integer, every valid symbol, keywords, operators), printing it and lexing the text gives back the same token and consumes exactly that text.", "quantifier": "for all integers, symbols, keywords, operators and following characters that cannot extend the token", "why_tests_cant": "2^32 integers and all symbols.", "anchors": ["koopa/src/front/lexer.rs: handle_integer, handle_symbol, handle_keyword", "koopa/src/back/koopa.rs"]}
{"id": "C23", "title": "Parsing terminates on every input", "statement": "Driver::generate_program terminates (with a program, an error or a panic) on every finite input; it never loops, whatever errors the text contains.", "quantifier": "for all finite byte streams", "why_tests_cant": "Error recovery loops can only be judged over all inputs.", "anchors": ["koopa/src/front/driver.rs: Driver::generate_program", "koopa/src/front/parser.rs: parse_next, parse_block, match_token!"]}
{"id": "C24", "title": "No error is lost", "statement": "If lexing, parsing or building any part of the text reports an error, Driver::generate_program returns an error; it returns a program only if not a single error was reported since the driver was created.", "quantifier": "for all inputs and all starting error counts of the thread", "why_tests_cant": "All inputs.", "anchors": ["koopa/src/front/driver.rs: Driver::generate_program", "koopa/src/front/span.rs: GlobalState, Span::log_error, Span::reset"]}
{"id": "C25", "title": "Blocks of parsed functions are well formed", "statement": "Every basic block the parser produces ends with a terminator (or a marked erroneous statement), contains no terminator before its end, and every function has at least one block; so the builder's assumption about block ends never fails.", "quantifier": "for all inputs", "why_tests_cant": "All inputs, including those with errors.", "anchors": ["koopa/src/front/parser.rs: parse_block, parse_fun_def", "koopa/src/front/builder.rs: get_block_list (panic!(invalid end statement))"]}
{"id": "C26", "title": "Type text round trip", "statement": "The text printed for a type is parsed back to the same type, for every type with unit only as a function result and array lengths between 1 and 2^63 - 1; so different such types have different texts; no text denotes a type with unit anywhere else.", "quantifier": "for all types", "why_tests_cant": "Infinitely many types.", "anchors": ["koopa/src/ir/types.rs: Display for Type", "koopa/src/front/parser.rs: parse_type, parse_array_type, parse_pointer_type, parse_fun_type", "koopa/src/front/builder.rs: generate_type"]}
{"id": "C27", "title": "Syntax round trip", "statement": "For every well-formed syntax tree, the text in the format of the Koopa generator parses back to that same tree without errors.", "quantifier": "for all well-formed syntax trees", "why_tests_cant": "Infinitely many trees.", "anchors": ["koopa/src/back/koopa.rs: Visitor", "koopa/src/front/parser.rs: Parser"]}
{"id": "C28", "title": "Printing is the inverse of parsing on canonical text", "statement": "If a text is what the generator would print for some names, and it is accepted by the driver, then printing the resulting program gives back exactly the same bytes.", "quantifier": "for all accepted canonical texts", "why_tests_cant": "The test-suite checks a few programs; the claim is about all.", "anchors": ["koopa/src/front/driver.rs", "koopa/src/front/builder.rs", "koopa/src/back/koopa.rs"]}
{"id": "C29", "title": "Printed programs can be read back", "statement": "For every program accepted from ASCII text (with ordinary function names and array lengths below 2^63), the printed text is accepted again and prints to the same bytes.", "quantifier": "for all accepted texts", "why_tests_cant": "All programs.", "anchors": ["koopa/src/front/driver.rs", "koopa/src/front/builder.rs", "koopa/src/back/koopa.rs", "libkoopa/src/raw/generator.rs: generate_program"]}
{"id": "C30", "title": "The front end does not panic", "statement": "Driver::generate_program never panics: malformed text leads to an Err.", "quantifier": "for all inputs", "why_tests_cant": "All inputs.", "anchors": ["koopa/src/front/builder.rs: init_local_bbs, generate_type, generate_init, generate_args", "koopa/src/ir/builder.rs asserts", "koopa/src/ir/types.rs: Type::get_array"]}
{"id": "C31", "title": "Argument counts are checked", "statement": "A call, jump or branch whose number of arguments differs from the number of parameters of its target is rejected with an error.", "quantifier": "for all accepted texts", "why_tests_cant": "Needs all argument/parameter count combinations.", "anchors": ["koopa/src/front/builder.rs: generate_args"]}
{"id": "C32", "title": "Visible definitions are found", "statement": "A symbol used in a block and defined in a block from which it can be reached backwards along predecessor edges (in particular any definition that dominates the use) is resolved to that definition, and a symbol that is resolved is resolved to a definition in such a block.", "quantifier": "for all control-flow graphs and symbols", "why_tests_cant": "All graphs, including cyclic ones.", "anchors": ["koopa/src/front/builder.rs: generate_symbol, generate_local_symbol"]}
{"id": "C33", "title": "Accepted programs are in SSA form (definitions dominate uses)", "statement": "In every program accepted by the front end, each use of a value defined by an instruction or block parameter is dominated by its definition.", "quantifier": "for all accepted texts", "why_tests_cant": "All control-flow graphs.", "anchors": ["koopa/src/front/builder.rs: generate_local_symbol"]}
{"id": "C34", "title": "Exactly the reachable blocks are kept", "statement": "The front end keeps exactly the blocks of a function that are reachable from its entry, each once, entry first, in breadth-first order.", "quantifier": "for all control-flow graphs", "why_tests_cant": "All graphs.", "anchors": ["koopa/src/front/builder.rs: get_block_list"]}
{"id": "C35", "title": "Duplicate definitions are rejected", "statement": "A text that defines the same global symbol, function, block or local symbol twice is rejected.", "quantifier": "for all texts", "why_tests_cant": "All texts.", "anchors": ["koopa/src/front/builder.rs: build_on_global_def, build_on_fun_def, generate_stmts, init_local_bbs"]}
{"id": "C36", "title": "Pass manager order", "statement": "PassManager::run_passes runs the registered passes in registration order, each function pass exactly once on every function and each module pass exactly once.", "quantifier": "for all lists of passes and all programs", "why_tests_cant": "All pass lists and programs.", "anchors": ["koopa/src/opt/passman.rs: PassManager::run_passes", "koopa/src/opt/pass.rs"]}
{"id": "C37", "title": "LLVM control flow of block parameters", "statement": "In the generated LLVM text every block parameter becomes a phi with exactly one incoming entry per predecessor instruction, taken from the argument that this predecessor passes and labelled with the predecessor's block.", "quantifier": "for all functions with consistent layouts", "why_tests_cant": "All control-flow graphs.", "anchors": ["koopa/src/back/llvm.rs: visit_bb"]}
{"id": "C38", "title": "LLVM names do not clash", "statement": "In the generated LLVM text of a function no two different blocks or values share a name.", "quantifier": "for all programs", "why_tests_cant": "All name combinations.", "anchors": ["koopa/src/back/llvm.rs", "koopa/src/back/generator.rs: NameManager"]}
{"id": "C39", "title": "Dumping to a buffer respects the buffer protocol", "statement": "dump_to_string with a null buffer stores the length of the text and writes nothing; with a buffer of more than that length it writes the text followed by one NUL inside the buffer; with a smaller buffer it reports an error and writes nothing. It never writes beyond the announced length.", "quantifier": "for all programs, buffers and announced lengths", "why_tests_cant": "All lengths, including the off-by-one ones, on every text.", "anchors": ["libkoopa/src/back.rs: dump_to_string"]}
{"id": "C40", "title": "Raw programs round trip", "statement": "Building a raw program and generating a program from it again gives an isomorphic program (same functions, blocks, instructions and operands).", "quantifier": "for all programs whose functions and blocks are listed in discovery order", "why_tests_cant": "All programs.", "anchors": ["libkoopa/src/raw/builder.rs", "libkoopa/src/raw/generator.rs"]}
{"id": "C41", "title": "Constant folding agrees with execution", "statement": "Whenever the constant folding example replaces an instruction with a constant, executing the original instruction on the same operands yields that constant.", "quantifier": "for all binary operators and all pairs of 32-bit integers", "why_tests_cant": "2^64 operand pairs per operator.", "anchors": ["koopa/examples/opt/const_fold.rs: eval_const", "koopa/examples/interpreter/interpreter.rs: eval_binary"]}
{"id": "C42", "title": "Dead code elimination keeps what matters", "statement": "The dead code elimination example never removes a store, call, branch, jump or return, removes only values on which no such instruction depends, and leaves operands and use lists consistent.", "quantifier": "for all functions", "why_tests_cant": "All functions.", "anchors": ["koopa/examples/opt/dce.rs: mark, sweep"]}
{"id": "C43", "title": "Simultaneous block parameters", "statement": "Jumping to a block binds all its parameters to the values of the arguments before the jump (simultaneous assignment) in the example interpreter.", "quantifier": "for all jumps and argument lists", "why_tests_cant": "Needs arguments that are parameters of the same block.", "anchors": ["koopa/examples/interpreter/interpreter.rs: update_bb_params"]}
{"id": "C44", "title": "Programs returned by the front end are consistent and well typed", "statement": "If the driver returns a program for a text, then in this program every use list is exactly the set of users, every operand and every branch target exists, and every value is well typed by the rules of Koopa IR.", "quantifier": "for all accepted texts (whose initializers have fewer than 2^30 values)", "why_tests_cant": "All texts; the invariants must survive every path through the builder of the front end, including its error paths.", "anchors": ["koopa/src/front/builder.rs: build_on and everything below it", "koopa/src/front/driver.rs: generate_program", "koopa/src/ir/builder.rs", "koopa/src/ir/dfg.rs"]}
{"id": "C45", "title": "Parameters are created as requested", "statement": "Creating a basic block or a function with parameters adds one new value per requested parameter, in the requested order, with the requested name and type and the number of its position; the block or function lists exactly these values, and nothing else changes.", "quantifier": "for all programs built with the API, names and parameter lists", "why_tests_cant": "All parameter lists and all programs; the handles must not meet an existing value.", "anchors": ["koopa/src/ir/builder.rs: basic_block_with_param_names", "koopa/src/ir/entities.rs: FunctionData::with_param_names", "koopa/src/ir/entities.rs: Program::new_func_def_with_param_names"]}
{"id": "C46", "title": "Global names in LLVM text", "statement": "In the generated LLVM text, functions and global variables have names that begin with @ wherever they occur.", "quantifier": "for all programs returned by the front end, and for all programs in which a function is listed before its callers", "why_tests_cant": "The name manager chooses the sigil at the first occurrence of a name; the claim needs every order of occurrences.", "anchors": ["koopa/src/back/llvm.rs: visit_call, on_functions, on_global_var", "koopa/src/back/generator.rs: NameManager"]}
{"id": "C47", "title": "When dead code elimination panics", "statement": "The dead code elimination example runs to completion, without panic, on every program returned by the front end in which no function uses a global value; it panics on every such program in which a store, call, branch, jump or return has a global operand.", "quantifier": "for all accepted texts, all orders of visiting functions and all iteration orders of hash tables", "why_tests_cant": "All programs and all hash orders; the loop until nothing changes has no bound in the code.", "anchors": ["koopa/examples/opt/dce.rs: run_on, mark, sweep, opt_bb_params", "koopa/src/opt/passman.rs: run_passes"]}
{"id": "C48", "title": "The program is the text", "statement": "If the driver returns a program for a text, the program has the global variables and functions of the text, in this order, with their names, types and initializers. The blocks of each function are the reachable ones of the text, in the order of first mention by the ends of blocks, with the parameters and instructions of the text in this order. Each operand is the constant that the text shows, or the global variable or a value of the function to which the text gives this name. Only surplus arguments are dropped.", "quantifier": "for all accepted texts whose initializers have fewer than 2^30-1 values in total", "why_tests_cant": "All texts: each construct at each place, with every combination of names, nesting and order of blocks.", "anchors": ["koopa/src/front/builder.rs: build_on_global_def, build_on_fun_def, build_on_fun_decl, build_on_block", "koopa/src/front/builder.rs: get_block_list, init_local_bbs, generate_stmt, generate_symbol_def, generate_value", "koopa/src/front/driver.rs: generate_program"]}
{"id": "C49", "title": "Well-formed texts are accepted", "statement": "If a text is parsed without errors and is well formed, the driver returns a program and reports no error. Well formed means: each global variable and function has one definition, before its uses (a function may call itself); the blocks of a function have different names, control reaches only blocks of the function other than the first, and each reachable block ends with a branch, jump or return; the names of the parameters and results in reachable blocks are different from each other and from the global variables; each symbol is a global variable or is defined in a block from which control can reach the use, before the use in the order of the blocks; the operands, initializers, arguments and results have the types that the definitions give them.", "quantifier": "for all texts of fewer than 2^30 values, blocks and functions", "why_tests_cant": "All texts: the front end must not reject or panic for any combination of constructs, nesting, names and order of blocks.", "anchors": ["koopa/src/front/builder.rs: build_on_global_def, build_on_fun_def, build_on_fun_decl, build_on_block", "koopa/src/front/builder.rs: get_block_list, init_local_bbs, generate_stmt, generate_symbol_def, generate_value, generate_local_symbol", "koopa/src/front/driver.rs: generate_program"]}
{"id": "C50", "title": "Operands are available where they are used", "statement": "In each function of a program that the driver returns, each operand of an instruction is a global variable, a constant, a parameter of the function, a parameter of a block other than the first, or the result of an instruction that has one (its type is not the unit type). The block of that parameter or instruction is the block of the use or one from which control can get to the use, and the instruction is before the use in the order of the layout. No branch or jump goes to the first block.", "quantifier": "for all accepted texts whose initializers have fewer than 2^30-1 values in total", "why_tests_cant": "All texts: every control-flow graph, every order of blocks and every choice of names.", "anchors": ["koopa/src/front/builder.rs: generate_symbol, generate_local_symbol, add_def, init_local_bbs, get_block_list, build_on_block", "koopa/src/front/driver.rs: generate_program"]}
{"id": "C51", "title": "Functions return what they are declared to return", "statement": "In each function of a program that the driver returns, each return instruction returns a value of the result type of the function, or returns nothing if that type is the unit type.", "quantifier": "for all accepted texts whose initializers have fewer than 2^30-1 values in total", "why_tests_cant": "All texts: every function type, every form of returned value (symbols of every scope, integers, undef) and every control-flow graph.", "anchors": ["koopa/src/front/builder.rs: generate_return, generate_value, generate_symbol", "koopa/src/front/driver.rs: generate_program"]}
{"id": "C52", "title": "Exactly the well-formed texts are accepted, up to four unchecked mistakes", "statement": "A text is well formed (as in C49) and parsed without errors exactly if the driver returns a program for it and it contains none of these four mistakes, which the driver does not look for: an aggregate where the type is not an array; a parameter of a function with the name of a global variable defined before; and, in reachable blocks, a block parameter with the name of a function parameter, or more arguments than the target has parameters. So every other mistake of naming, scoping, control flow or typing in a definition or a reachable block is rejected.", "quantifier": "for all texts in ASCII of fewer than 2^30 values, blocks and functions", "why_tests_cant": "All texts and all kinds of mistakes: tests can only try some wrong texts.", "anchors": ["koopa/src/front/builder.rs: build_on_global_def, build_on_fun_def, build_on_fun_decl, build_on_block", "koopa/src/front/builder.rs: get_block_list, init_local_bbs, generate_stmt, generate_symbol_def, generate_value, generate_local_symbol, generate_args", "koopa/src/front/driver.rs: generate_program"]}
{"id": "C53", "title": "Raw programs are complete", "statement": "The raw form of a program lists its global variables and functions; every structure of the raw form is filled in and holds the type, name, kind, parameters, instructions and blocks of the program; its lists of users are exactly the users of the value or block in the program; and every pointer leads to a structure that is filled in.", "quantifier": "for all well-formed programs, and all orders of hash sets", "why_tests_cant": "The raw form of arbitrary cyclic graphs of values, blocks and functions, with any iteration order of the hash sets.", "anchors": ["libkoopa/src/raw/builder.rs:32-61 build_on", "libkoopa/src/raw/builder.rs: impl BuildRaw for Function, FunctionData, BasicBlock, BasicBlockData, Value, ValueData, ValueKind"]}
{"id": "C54", "title": "Dead code elimination keeps behaviour", "statement": "If the example interpreter runs an accepted program to its end, it also runs the program after dead code elimination to its end, with the same result, the same calls of foreign functions with the same arguments, and no deeper recursion.", "quantifier": "for all accepted programs, all foreign functions and states of the foreign world, all iteration orders of hash tables, all runs", "why_tests_cant": "All programs with loops, recursion, memory and dead code, with any foreign functions.", "anchors": ["koopa/examples/opt/dce.rs: run_on, mark, sweep, opt_bb_params", "koopa/examples/interpreter/interpreter.rs: interpret, eval_func, eval_bb and the instructions", "koopa/examples/interpreter/ext_funcs.rs: call"]}
{"id": "C55", "title": "Constant folding keeps behaviour", "statement": "If the example interpreter runs an accepted program to its end, it also runs the program after constant folding (of binary instructions, in rounds, and of block parameters that always get the same constant) to its end, with the same result and the same calls of foreign functions with the same arguments.", "quantifier": "for all accepted programs, all foreign functions and states of the foreign world, all iteration orders of hash tables, with and without overflow checks, all runs", "why_tests_cant": "All programs with loops, recursion, memory and constants, with any foreign functions, and all iteration orders.", "anchors": ["koopa/examples/opt/const_fold.rs: run_on, eval_const, eval_bb_params", "koopa/src/ir/dfg.rs: data_eq, value_eq, replace_value_with_data, new_value_data", "koopa/examples/interpreter/interpreter.rs: interpret, eval_func, eval_bb and the instructions"]}
{"id": "C56", "title": "The example optimizer keeps behaviour", "statement": "When the example optimizer (read the text, fold constants in all functions, eliminate dead code in all functions, print) writes a text, that text is the text of a program with exact use lists and without missing operands, and if the example interpreter runs the program of the input to its end, it runs that program to its end as well, with the same result and the same calls of foreign functions with the same arguments.", "quantifier": "for all texts that are accepted, all iteration orders of hash tables, with and without overflow checks, all foreign functions and states of the foreign world, all runs", "why_tests_cant": "All programs, all iteration orders and all foreign functions; the second pass relies on use lists and numbers that the first pass changes.", "anchors": ["koopa/examples/opt/main.rs: try_main", "koopa/examples/opt/const_fold.rs: run_on", "koopa/examples/opt/dce.rs: run_on", "koopa/src/opt/passman.rs: run_passes", "koopa/src/back/koopa.rs"]}
{"id": "C57", "title": "The brainfuck example builds what the brainfuck program means", "statement": "Building fails exactly if a bracket closes a loop that is not open; otherwise the program that is built is consistent (exact use lists, nothing dangling, well typed). If the brackets match, the example interpreter runs the program exactly as the brainfuck program runs on a tape of 65536 cells: it ends with the same input and output exactly if that ends, fails exactly if the head leaves the tape, panics exactly if a cell overflows where that is checked. Texts with loops that are never closed are accepted too, and give a branch to a block that is not in the layout.", "quantifier": "for all texts shorter than 2^28 bytes, all consoles and their states, with and without overflow checks, all runs, also those that do not end", "why_tests_cant": "All programs, inputs and numbers of steps; that runs do not end cannot be observed.", "anchors": ["koopa/examples/brainfuck/main.rs: build_program, generate_main, generate_bbs, generate_ptr_op, generate_data_op, generate_start, generate_end, generate_put, generate_get", "koopa/examples/interpreter/interpreter.rs: interpret, eval_func, eval_bb and the instructions"]}
{"id": "C58", "title": "A program that is read has nothing but what is listed", "statement": "The program of an accepted text holds nothing but what is listed: every function is in the layout, the blocks of a function are exactly those of its layout (blocks that cannot be reached are gone), every value is a parameter, an instruction of a listed block, or a constant with which such an instruction is written, every global value a listed variable or part of its initializer; parameters are numbered in order with the types of the signature. The program is also regular, which is what the round trip over raw programs (C40) and their construction (C53) ask for.", "quantifier": "for all texts that are accepted", "why_tests_cant": "All texts; leftovers cannot be observed in the printed program, because printing only follows the layout.", "anchors": ["koopa/src/front/builder.rs: build_on_global_def, build_on_fun_def, build_on_fun_decl, get_block_list, init_local_bbs, build_on_block, generate_stmt, generate_value", "koopa/src/ir/entities.rs: FunctionData::new, Program::new_func"]}
{"id": "C59", "title": "Accepted texts with dominating definitions have raw programs that are read back", "statement": "If a text of ASCII characters is accepted and in its program what an instruction uses is defined in blocks that dominate the block of the instruction, then the raw program is made and read back without panics and errors, and the result is the program of the text up to identifiers: same global variables and functions in the same order, same blocks with same instructions, operands, types and names; only the order of blocks may be another one. Without domination this is false: a text that is accepted gives a raw program on which the generator panics.", "quantifier": "for all texts that are accepted, all orders of iteration of hash sets, all states of the counters with enough numbers left", "why_tests_cant": "All texts, all control flow graphs, all orders of hash sets.", "anchors": ["libkoopa/src/raw/builder.rs", "libkoopa/src/raw/generator.rs", "koopa/src/front/builder.rs: build_on_fun_def, get_block_list, build_on_block"]}
{"id": "C60", "title": "The C interface reads and writes strings in memory as it should", "statement": "The check of C strings accepts exactly UTF-8 (shortest encodings of scalar values, no surrogates). koopa_parse_from_string refuses other strings and changes nothing; otherwise it hands exactly the bytes before the zero byte to the driver, stores an accepted program behind a new pointer that is not null, and keeps programs and memory as they are when the text is not accepted. koopa_dump_to_string with a null buffer tells the length of the text; with a buffer it writes the text and a zero byte if they fit and nothing else, and a text with a zero byte is refused. The length that is told is never enough as the length of the buffer. A text in memory that is parsed, dumped to a buffer and parsed again from there gives a program that is dumped as the same text.", "quantifier": "for all contents of memory, addresses, strings, programs, buffers and lengths", "why_tests_cant": "All byte strings and all contents of memory; writes outside the buffer go unnoticed in tests.", "anchors": ["libkoopa/src/driver.rs: koopa_parse_from_string, koopa_delete_program", "libkoopa/src/back.rs: dump_to_string, koopa_dump_to_string", "libkoopa/src/utils.rs", "libkoopa/src/errors.rs"]}
{"id": "C61", "title": "Raw programs over the C interface", "statement": "A text in memory that is accepted, of ASCII characters, with dominating definitions: koopa_parse_from_string, koopa_build_raw_program with a new builder and koopa_generate_raw_to_koopa succeed one after the other in the same process, and the second program is the first one up to identifiers, behind another pointer, with the first one unchanged. A builder that has built a value can never be used again, though the interface allows it: no further call of koopa_build_raw_program returns.", "quantifier": "for all texts that are accepted, all memory contents, all orders of iteration, all builders and programs", "why_tests_cant": "All texts, all states of a builder.", "anchors": ["libkoopa/src/raw/ffi.rs", "libkoopa/src/raw/builder.rs: RawProgramBuilder::build_on", "libkoopa/src/driver.rs: koopa_parse_from_string"]}
{"id": "C62", "title": "Excerpts of the source in error messages", "statement": "In a file of ASCII characters with any line ends, errors can be reported at every token and from every token to every later one: the logger reads back the lines and does not panic. For a part of one line, it shows exactly that line with tabs as two spaces, and carets below exactly that part; for several lines, the first and the last one with a caret below the first and the last character, and the lines between, or the first two and the last of them if there are more than four. Lines and columns of the lexer are the number of the line of a character and its place there. For files with other characters the logger can panic, and so it can for line ends of two characters.", "quantifier": "for all files, all tokens and pairs of tokens, all lines and parts of lines, all widths of the column of numbers", "why_tests_cant": "All files with all combinations of tabs, line ends and characters of several bytes, and all positions in them.", "anchors": ["koopa/src/front/span.rs: Span::print_file_info, print_single_line_info, print_multi_line_info", "koopa/src/front/span.rs: get_line_str!", "koopa/src/front/lexer.rs: Lexer::next_char, handle_comment"]}
{"id": "C63", "title": "The raw form keeps what programs do", "statement": "Two programs that are the same up to identifiers, and up to the order of the blocks after the entry of each function, do the same when the example interpreter runs them: the same result, panic or error, with the same calls of foreign functions. The program that is read back from the raw form of an accepted text, in which definitions dominate their uses, is such a program: the entry of every function stays the first block, and identifiers tell global from local values.", "quantifier": "for all programs and identifiers, all foreign functions and states of them, all orders in which hash tables are visited, all accepted texts of ASCII characters with dominating definitions", "why_tests_cant": "All programs and all their runs, including those that do not end, with all foreign functions.", "anchors": ["koopa/examples/interpreter/interpreter.rs: interpret, eval_func, eval_bb", "libkoopa/src/raw/builder.rs: RawProgramBuilder::build_on", "libkoopa/src/raw/generator.rs: generate_program"]}
{"id": "C64", "title": "Printing keeps what programs do", "statement": "For an accepted text the program is printed as a text that is accepted again, and the program that is read from the printed text does the same as the first program when the example interpreter runs it: the same result, panic or error, with the same calls of foreign functions. It has the same functions by name and type, in the same order, so that the printer never renames a function. Programs of accepted texts that are printed alike do the same.", "quantifier": "for all accepted texts of ASCII characters with fewer than 2^30 values, blocks and functions, with functions of ordinary names and no array of 2^63 or more elements; all foreign functions and states of them, all bounds and all orders in which hash tables are visited", "why_tests_cant": "All programs and all their runs, including those that do not end, with all foreign functions.", "anchors": ["koopa/src/back/koopa.rs: VisitorImpl", "koopa/src/back/generator.rs: NameManager", "koopa/src/front/builder.rs: Builder::build_on_global_def, build_on_fun_def", "koopa/src/front/driver.rs: Driver::generate_program", "koopa/examples/interpreter/interpreter.rs: interpret"]}
{"id": "C65", "title": "Accepted programs do not go wrong", "statement": "When the example interpreter runs the program of an accepted text, it never panics: each value is there when it is used and has the kind of value that its type says, blocks end with a jump, branch or return, calls and jumps pass as many arguments as there are parameters, and every block, function and global variable that is used exists. This holds if definitions dominate uses, no constant is undefined, only integers, pointers and arrays are allocated, @main has no parameters, and no operator is used that can fail. Without domination it is false.", "quantifier": "for all accepted texts of ASCII characters with the properties stated, all foreign functions and states of them, all bounds on the recursion and all orders in which functions are visited", "why_tests_cant": "All programs that the type checks of the builders let through and all their runs, including those that do not end; a test shows only that some runs of some programs do not panic.", "anchors": ["koopa/examples/interpreter/interpreter.rs: interpret, eval_func, eval_bb, eval_value", "koopa/examples/interpreter/ext_funcs.rs: ExternFuncs::call", "koopa/src/ir/builder.rs: LocalInstBuilder", "koopa/src/front/builder.rs: Builder::generate_stmt"]}
{"id": "C66", "title": "Programs that keep their pointers to themselves are memory safe", "statement": "When the example interpreter runs the program of an accepted text, it never follows a pointer to a variable or an array buffer that was dropped, never moves a pointer out of its buffer, and never touches foreign memory. This holds if no constant is undefined, arrays are not stored, pointers are stored only in what the function itself allocated, functions return integers or nothing, and foreign functions get only integers; definitions need not dominate uses. With the conditions of C65 as well, the only outcomes are a result, a reported error and endless recursion. It is false if a pointer to a local variable may be stored in a global one, and if an array may be stored while there is a pointer to one of its elements.", "quantifier": "for all accepted texts of ASCII characters with the properties stated, all foreign functions and states of them, all bounds on the recursion and all orders in which functions are visited", "why_tests_cant": "Undefined behaviour need not show in a test: the memory that was dropped often still holds the old value. The claim is about every pointer that any run of any such program uses, with any number of calls and allocations.", "anchors": ["koopa/examples/interpreter/interpreter.rs: eval_load, eval_store, get_pointer, eval_getelemptr, eval_func, Environment", "koopa/examples/interpreter/ext_funcs.rs: val_to_usize, usize_to_val"]}
{"id": "C67", "title": "Calls drop the variables they allocate, and no others", "statement": "When a function that the example interpreter calls returns, exactly the variables are in memory that were there before the call: what the function and the functions it calls allocated is gone, and the variables of its callers and the global variables are still there. In a run of a program there is one variable in memory for each global variable when @main is called, and these are there when it returns.", "quantifier": "for all programs (not only accepted ones), functions, arguments, foreign functions, bounds on the recursion and states of memory in which no number is given out twice", "why_tests_cant": "All programs and all depths of calls and numbers of allocations; neither leaks nor variables dropped too early need show in the result of a test.", "anchors": ["koopa/examples/interpreter/interpreter.rs: eval_func, eval_alloc, Environment, interpret"]}
{"id": "C68", "title": "Programs without loops and recursion end", "statement": "If jumps, branches and calls of the program of an accepted text never lead back, the example interpreter ends: some depth of its recursion is enough, it depends on the program only, and greater depths give the same outcome. With the conditions of C65 and C66 as well, the outcome is a result or an error that the interpreter reports. Without the condition this is false: for a program with a loop that has no way out, no depth is enough.", "quantifier": "for all accepted texts whose blocks have a rank that falls along jumps, branches and calls, all foreign functions and states of them, all orders in which functions are visited, and all depths from some depth on", "why_tests_cant": "All programs of this kind and all foreign functions; a test shows that some runs end.", "anchors": ["koopa/examples/interpreter/interpreter.rs: interpret, eval_func, eval_bb, eval_jump, eval_branch, eval_call, eval_local_const, eval_global_const"]}
{"id": "C69", "title": "Loads give what was stored, and stores change nothing else", "statement": "In the example interpreter, a load through the operand that was just stored to gives a copy of the value that was stored. A store leaves every place in memory as it is that is not part of the place stored to, nor contains it: other variables, and other elements of the same array, however deeply nested. An allocation makes a variable that was not there before, holds the zero of its type, and leaves all others as they are.", "quantifier": "for all programs (not only accepted ones), functions, operands, values, states of memory and places; for allocations, in which no number is given out twice", "why_tests_cant": "All shapes of nested arrays, all pairs of pointers and all states of memory; a test looks at some elements of some arrays.", "anchors": ["koopa/examples/interpreter/interpreter.rs: eval_alloc, eval_load, eval_store, new_zeroinit"]}
{"id": "C70", "title": "Pointers to elements of arrays lead to these elements", "statement": "In the example interpreter, getelemptr on a pointer to an array in memory gives a pointer to the element with the given index, and reports an error if the array has no such element, also for negative indices. getptr on a pointer to an element gives a pointer to the element that many places further on in the same array, and reports an error if there is none. Reading through such a pointer gives the element, and writing through it gives the array with just this element replaced. Pointers to whole variables cannot be moved by getptr, not even by zero: this is always reported as an error.", "quantifier": "for all programs (not only accepted ones), functions, operands, arrays however nested, indices and states of memory", "why_tests_cant": "All indices, lengths and nestings of arrays; errors at the ends of arrays and of negative offsets are easily missed.", "anchors": ["koopa/examples/interpreter/interpreter.rs: get_pointer, eval_getptr, eval_getelemptr, new_array_pointer, new_val_pointer"]}
