# Formal model of pku-minic/koopa in Coq 8.16.1

## 1. Layout of the development

`rocq/theories` (logical name `Verif`), one style throughout (std++ maps and sets, stdlib strings):

| file | content |
|---|---|
| `Base.v` | result type (`Ok`, `Err`, `Panic`, `OutOfFuel`), fixed-width helpers, decimal printing/parsing |
| `*Model.v` | definitions only; every definition cites the file and lines of /repo it models |
| `*Spec.v` | independent declarative specifications (relations, predicates) used in the statements |
| `*Proofs.v` | lemmas and proofs |
| `*Properties.v` | the theorems listed in MANIFEST.json (`Proof. exact ... Qed.`), non-vacuity `Example`s and `Print Assumptions` |

Conventions of the model:

* A Rust panic (assert, unwrap on None, missing map key, `RefCell` double borrow) is the explicit
  value `Panic`; undefined behaviour (`NonZeroU32::new_unchecked(0)`) is `Panic` as well.
* `&mut self` methods return the new state. Loops are structural recursion, or fuelled recursion with
  an explicit `OutOfFuel` value that the theorems exclude.
* `String` is Coq `string`, i.e. the sequence of UTF-8 bytes; `char`s the lexer sees are bytes
  (`bytes[0] as char`, lexer.rs), i.e. Latin-1.
* Fixed-width integers are `Z`/`N` with the wrap written out wherever the code can wrap
  (`as i32`, `as usize`, id counters, sizes). `usize` is 64 bits.
* `HashMap`/`HashSet` are `gmap`/`gset`. Where the code iterates over one, the order is an arbitrary
  permutation, quantified over in the theorem.
* `key_node_list::KeyNodeList` (external crate, source not in /repo) is modelled as a duplicate-free
  list with the callbacks of its `Map` trait (insert / remove_entry / clear), as documented by that crate.

## 2. Properties, what is modelled and how they are proved

| id | modelled code | method |
|---|---|---|
| C01, C02 | `ir/idman.rs` | counters with explicit wrap; induction over the list of requests (an interleaving of `fetch_add`s) |
| C03, C04 | `ir/types.rs` | interning pool as a state machine; invariant "pool is injective and cells are immutable"; size by induction on types |
| C05 | `ir/entities.rs` ValueUses/BasicBlockUses, `ir/values.rs` | index machine vs. list of operands; induction on the index |
| C06–C10 | `ir/dfg.rs`, `Program::*` in `ir/entities.rs` | invariant over all histories of operations, plus per-operation frame theorems |
| C11 | `ir/builder.rs` | declarative typing relation; "builder = Ok iff rule", invariant over histories |
| C12 | `dfg.rs` value_eq/data_eq | fuelled recursion; induction on operand depth |
| C13, C14 | `ir/layout.rs` | list machine, invariant over histories; refutation witnesses for the undisciplined operations |
| C15, C16 | `Program` in `ir/entities.rs` | invariant over histories; C16 is false, refuted with a witness, plus the part that holds |
| C17, C18 | `back/generator.rs` NameManager | invariant over all request sequences; the proviso is shown necessary by a witness |
| C19–C22 | `front/lexer.rs`, `front/token.rs`, `Pos` of `front/span.rs` | measure on remaining input; lexing lemmas per token class |
| C23–C25, C27 | `front/parser.rs`, `front/ast.rs` (without spans), `front/driver.rs` | fuel sufficiency by measure; error counter monotone; AST shape invariant; parse∘render = id by induction on syntax trees |
| C26 | Display for Type, parse_type, generate_type | induction on types |
| C28 | the above plus `front/builder.rs`, `back/koopa.rs`, `back/generator.rs` | canonical texts are described on syntax trees (`CanonSpec.v`: a counter and sets of names, no function of the generator); by C48 the program is the text, so the printer visits it in the order of the tree (`TreeTextProofs.v`) and the name manager gives each request the name of the text (`CanonNameProofs.v`) |
| C29 | Retree*Proofs.v, SizedProofs.v, RewellProofs.v, ResizeProofs.v, ReadAgainProofs.v, AgainProperties.v | every accepted text is printed as a canonical text (read_prints) that is well-formed (read_well), so it is accepted (C49) and printed the same |
| C30, C31, C33, C35 | `front/builder.rs`, `front/driver.rs` | false in general: refuted with concrete texts run through the model; the parts that hold are proved |
| C32, C34 | `front/builder.rs` get_block_list, generate_local_symbol | graph search correctness by invariant |
| C36 | `opt/passman.rs` | trace equality |
| C37, C38, C46 | all of `back/llvm.rs` (`LlvmModel.v`) | the text is described by an independent relation (`LlvmSpec.v`) over the program and an assignment of names; a calculus of "writes this text and only extends the names" (`PrintProofs.v`); the order of `HashSet` iteration is a parameter. Name clash between blocks and values refuted with a witness. The facts about programs of the front end (parents, callees first) are invariants of the builder (`PresProofs.v`) |
| C39 | `libkoopa/src/back.rs` dump_to_string | case analysis over a byte-buffer memory model |
| C40 | `libkoopa/src/raw/*` | two-way model of the raw builder and generator (RawModel.v); one-to-one renaming kept as an invariant of the generator (RawInvProofs.v … RawTopProofs.v); the builder and the generator succeed (RawMakeProofs.v, RawGoProofs.v) |
| C53 | `libkoopa/src/raw/builder.rs`, `entities.rs` | the entries of the tables are filled in with the data and users of the program, pointers lead to entries (RawFormSpec.v, RawFormProofs.v) |
| C41 | `examples/opt/const_fold.rs`, `examples/interpreter/interpreter.rs` | all operators, all i32 pairs, by arithmetic |
| C42, C47 | all of `examples/opt/dce.rs`, the loop over functions of `opt/passman.rs` | iteration orders of hash tables are parameters (`dce_orders`, any `fair` ones); what an execution can depend on is a least fixed point (`needed`); rounds only shrink, which also bounds the loop; the shape of functions needed by the pass is an invariant of the front end (`FrontShapeProofs.v`) |
| C54 | all of `examples/interpreter/interpreter.rs` and `ext_funcs.rs` (InterpModel.v), with C42 | two runs side by side: a partial bijection between the boxes and array buffers of both, values, memory and frames related by it (InterpSimProofs.v); one simulation for programs that are an optimized form of another (InterpOptProofs.v), of which elimination is a case (InterpDceProofs.v); foreign functions are any functions on words and a foreign world |
| C55 | all of `examples/opt/const_fold.rs` (ArithModel.v, FoldModel.v), the loop over functions of `opt/passman.rs`, with the interpreter of C54 | every round of folding, and every replaced block parameter, is an optimized form in the sense of InterpOptProofs.v (InterpFoldProofs.v); what the pass needs of programs is an invariant of the rounds and holds of programs of the front end, by C02, C48 and `FrontShapeProofs.v` |
| C56 | `examples/opt/main.rs` without the files (OptModel.v): the front end, both passes over all functions, the printer | constant folding keeps exact use lists, operands and targets, and the separation of functions (FoldGraphProofs.v), so that C42 and C54 apply to its result; parameters of functions are values and the next numbers are unused when the front end is done (OptProofs.v) |
| C44 | front end and IR as above | every step of the builder is an API history; the invariants of C06, C07, C11 apply |
| C45 | `BasicBlockBuilder`, `FunctionData::with_param_names` | direct, from the id invariant |
| C48 | all of `front/builder.rs`, `front/driver.rs` | relation between program and syntax trees (`FaithSpec.v`) that mentions no function of the front end; views of the program without use lists (`ViewProofs.v`); induction along the builder |
| C49 | all of `front/builder.rs`, `front/driver.rs` | rules of scoping and typing on syntax trees (`AcceptSpec.v`) that mention no function of the front end; progress of the builder, definition by definition, with counters of what is still to be made (`AcceptProofs.v`, `AcceptFunProofs.v`, `AcceptTopProofs.v`) |
| C50 | `front/builder.rs`: `generate_symbol`, `generate_local_symbol`, `add_def`, `init_local_bbs`, `get_block_list`, `build_on_block` | availability of operands on programs (`ScopeSpec.v`), without names or functions of the front end; follow each operand back to the block that recorded it, and the recorded predecessors to edges between blocks (`ScopeProofs.v`) |
| C51 | `front/builder.rs`: `generate_return`, `generate_value` | returned values against the type of the function (`ScopeSpec.v`); along the induction of C50, with the types of global values (`ScopeProofs.v`) |
| C52 | all of `front/builder.rs`, `front/driver.rs` | what is not checked, on syntax trees (`TameSpec.v`); for each definition of an accepted text, take the program of the definitions up to it, and read the rules of `AcceptSpec.v` off from C44, C48, C50, C51 (`RewellProofs.v`, `SourceProofs.v`) |
| C57 | all of `examples/brainfuck/main.rs` but the command line and files (BrainfuckModel.v), with the interpreter of C54 | meaning of brainfuck programs as runs on a tape (BrainfuckSpec.v); what each command builds, as an invariant of the construction on views of the program (BrainfuckBuildProofs.v); the interpreter on that code, step by step, both ways (BrainfuckSimProofs.v, BrainfuckRunProofs.v) |
| C58 | all of `front/builder.rs`, `front/driver.rs` | what is in a program against what is listed (`CompleteSpec.v`); along the builder, every value is listed, a parameter, or a constant that is still to be used (`CompleteProofs.v`); regularity from that, C44, C48, C50 (`RegularProofs.v`) |
| C59 | `front/builder.rs` and `libkoopa/src/raw/*` | domination on paths of the control flow graph (`DominSpec.v`); a depth-first walk exists (`DiscoverProofs.v`, `LaidProofs.v`), what is met can be built (`BuildableProofs.v`), nothing is met twice (`WalkOnceProofs.v`), in the order of the layouts (`WalkOrderProofs.v`); then C40 |
| C60 | `libkoopa/src/driver.rs`, `back.rs`, `utils.rs` | model of C memory and pointers (`CapiModel.v`); UTF-8 by decoding into scalar values (`CapiProofs.v`); printed texts are ASCII without zero bytes (`CapiTextProofs.v`); then C29 |
| C61 | `libkoopa/src/raw/ffi.rs`, `raw/builder.rs` | C59 with the counters that the parser leaves; tables only grow |
| C62 | `koopa/src/front/span.rs` print_file_info and below | lines of a text as a relation (`SpanSpec.v`); columns count bytes in lines (`SpanPosProofs.v`); slices of lines in UTF-8 (`SpanProofs.v`); then C20. False for files with other than ASCII characters and for some line ends: refuted |
| C63 | `examples/interpreter/interpreter.rs`, `libkoopa/src/raw/*` | two runs in lockstep over the pairs of identifiers (`IsoRunProofs.v`, `IsoProgProofs.v`); a walk meets the entry of a function before its other blocks, and no handle is zero (`RawApartProofs.v`); then C59 |
| C64 | `koopa/src/front/*`, `koopa/src/back/*`, `examples/interpreter/interpreter.rs` | the printed text describes both programs (`RetreeProgProofs.v`, `SameReadProofs.v`); the rules of AcceptSpec.v give both the same types (`SameTreeProofs.v`); two runs in lockstep over the pairs of values with the same name (`SameRunProofs.v`, `SameProgProofs.v`); the printer keeps names of functions since calls go to earlier functions |
| C65 | `examples/interpreter/*`, `koopa/src/front/*`, `koopa/src/ir/builder.rs` | type soundness: every value in a frame or in a box has its type, for types of boxes that only grow; pointers are typed by the box and the length of the path (`SoundProofs.v`); along a run through the blocks, what is defined in a block that dominates is in the frame (`SoundRunProofs.v`); the facts about programs of the front end (`SoundTopProofs.v`). Refuted without domination |
| C66 | `examples/interpreter/*` | memory safety: every pointer in a frame, a global variable or a box leads to a `Val`, and its index and length are those of the buffer (`KeepProofs.v`); stores of scalars keep every way through memory; boxes older than a call only point to boxes older than the call, so that dropping the boxes of the call leaves nothing dangling (`KeepRunProofs.v`). Refuted for pointers that escape, and for arrays that are stored |
| C67 | `examples/interpreter/*` | the boxes before and after a call, for any program: what is new in memory is in `allocs` of the environment, and what is in `allocs` is new (`LeakProofs.v`); no typing is needed |
| C68 | `examples/interpreter/*` | termination: induction on the fuel with the rank of the block, and a bound for the nesting of the constants, which are finitely many trees (`FallProofs.v`); with C65 and C66, total correctness up to reported errors |
| C69 | `examples/interpreter/*` | laws of memory: paths into nested arrays, copies, zeros (`StoreProofs.v`) |
| C70 | `examples/interpreter/*` | pointer arithmetic: the last step of a path, with the index and the length that the pointer carries (`ElemProofs.v`) |
| C43 | `examples/interpreter/interpreter.rs` update_bb_params | false: refuted; holds when no argument is a parameter of the target |

## 3. Trusted base

* Coq 8.16.1 kernel (incl. `vm_compute`), stdlib and std++.
* What `Print Assumptions` lists for each theorem (recorded below, section 5).
* The correspondence between the Gallina definitions and the Rust text (cited line by line).
* Not modelled: the logger's colors, the texts of its messages and when they are printed (`Span::log_*` apart from the
  error/warning counters, the returned `Error` variant and the source excerpts of C62), spans inside syntax trees (only used for messages),
  memory exhaustion, stack overflow on deep recursion, `Rc`/`Weak` lifetime of a dropped `Program`,
  I/O errors while writing generated text (the writer is a buffer), the addresses by which `NameManager`
  identifies entities (handles are used instead; `next_id` does not overflow),
  the deprecated constructors beyond their checks, the C entry points of libkoopa for files, standard streams and file descriptors (those for strings and raw programs are modelled),
  command line, files and output of the examples,
  the memory of foreign functions and dangling pointers in the example interpreter (their use is the outcome `XBeyond`; C66 says when it cannot happen),
  the memory layout of raw programs (`RawModel.v` says how raw structures are represented), files/stdin (a reader is a list of bytes and I/O errors).

## 4. Status

MANIFEST.json lists, for each property, the theorems and what is missing or false. A theorem whose name
ends in `_refuted` proves with a witness that the claim is false of the code; one ending in `_partial`
proves a weaker claim than the property, with the gap stated beside it.

## 5. Print Assumptions

Every `*Properties.v` file runs `Print Assumptions` after each theorem. For every theorem named in
MANIFEST.json the answer is "Closed under the global context": no axiom, neither of our own nor of a
library, is used.
