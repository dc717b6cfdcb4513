# Formal model of ruruby: design

The source (`/repo`, Rust) is read as text and modelled in Rocq (Coq 8.16.1)
under `rocq/theories`. Nothing here runs the Rust code; the tie between model
and code is the file/line citation on every definition.

## Conventions

* `Model*.v` hold definitions only, each citing `/repo` file and lines; what is
  simplified is said in the comment at the definition. `Spec*.v` hold the
  vocabulary in which properties are stated where it needs more than the
  standard library (a source-level semantics, reachability, byte-level
  notions); they do not use the functions under test. `Proofs*.v` hold lemmas,
  `Props*.v` the property theorems, each with `Print Assumptions` and an
  `Example` (or a refutation witness) showing that its hypotheses are met.
* `&mut` becomes a returned value, `Result` and panics become data:
  `Ok | Err kind | Panic` (Base.v). `panic!`, `unwrap` on `None`,
  `unreachable!`, out-of-range slices, overflow in a build with overflow checks
  and undefined behaviour are all `Panic`, never a default.
* Machine words are `Z` with explicit range predicates and explicit wrapping.
  An unbounded loop takes fuel; running out is an error value, and theorems
  either exclude it or prove that some fuel is enough.
* Where the code violates a property, the theorem is `..._refuted` with a
  concrete witness, and the part that holds is `..._partial`. All refutations
  are listed under *Findings*.
* `seeded/LOG.jsonl` records the wrong programs tried: an edit of a model
  definition, the claim it breaks, and the theorems that failed.

## Trusted base

* Coq's kernel (and its `vm_compute`, used for concrete witnesses).
* Axioms: `Print Assumptions` says *Closed under the global context* for every
  one of the 718 theorems named in MANIFEST.json, so none of them depends on
  an axiom. A whole-environment scan (`vcheck`) lists seven constants of
  `Coq.ssr.ssrunder.Under_rel` (standard library, loaded with other stdlib
  files): parameters of that file's sealed module, used by no theorem here.
* The faithfulness of the reading of the source, definition by definition.
* External code taken at its documented meaning, each stated where it is
  modelled: num-bigint (as `Z`), IEEE binary64 operations of Rust (as
  `SpecFloat` of the standard library, ModelFloat.v), UTF-8 of Rust's `str`
  (ModelString.v), IndexMap 1.x as a vector of entries with a probe relation
  (ModelHash.v), SmallVec as a list, FxHashMap as an association list.
* Parameters instead of assumptions: hash functions, the probe relation, blocks
  and comparison callbacks (arbitrary, stateful, raising), the primitives of the
  interpreter (`prims`, SpecCore.v: any operators, calls, variables over any
  world) are universally quantified; a hypothesis on them (a code reaches its
  own slot; `prims_ok`: an operator method behaves as its operator instruction)
  appears in the statement.

## What is modelled

| file | source | left out |
|------|--------|----------|
| ModelValue.v | value/value.rs packing of immediates | contents of heap objects |
| ModelFloat.v | (Rust f64) | NaN payloads of computed NaNs |
| ModelInt.v | vm/executor/ops.rs, arith.rs, value/real.rs, builtin/{numeric,integer}.rs | user redefinition of operators; Complex; memory exhaustion |
| ModelArray.v | value/array.rs, builtin/array.rs | blocks that change the array being iterated |
| ModelSort.v | opt_core.rs merge sort | - |
| ModelHash.v | value/hash.rs, builtin/hash.rs, key equality and hashing | blocks that change the hash, mutated keys |
| ModelIdent.v | ruruby-common id_table.rs | locking |
| ModelGC.v | alloc.rs, mark/sweep cells of rvalue.rs | GC timing (how each kind lists its references is in ModelKinds) |
| ModelClass.v | value/class.rs, globals/method.rs, constants, builtin/module.rs | visibility, refinements, autoload |
| ModelString.v | value/string.rs, builtin/string.rs, string literals of the lexer | regexps, case tables, format |
| ModelText.v | source_info.rs, number literals of the lexer | the rest of the lexer (ModelLexer) |
| ModelLexer.v | ruruby-parse parser/lexer.rs: read_token and what it calls, read_method_name; token.rs keyword table; token locations | what the parser asks the lexer for itself: regexps, percent literals, heredocs, the parts of a string after an interpolation; the one-token buffers; which characters beyond ASCII are letters or numerals is a parameter |
| ModelQuote.v | parser/lexer.rs read_interpolate, read_string_literal_single, get_percent_notation, read_regexp_sub, check_postfix, read_heredocument, skip_whitespace; parser/literals.rs string, percent, regexp and here document literals; executor.rs create_regexp | the code of an interpolation is a parameter that takes something off the text; adjacent string literals that follow on a line with pending here documents; the regexp engine |
| ModelParams.v | parser.rs parse_formal_params, define.rs parse_def_params, the parameters of blocks (parser.rs:391-396), lvar_collector.rs insert_new | defaults are read by ModelParse; tokens the lexer cannot read (`loc` unwraps them); positions |
| ModelFlow.v | flow_control.rs parse_if, parse_unless, parse_while, parse_case; parser.rs parse_then, parse_do, consume_term; the statements between them (expression.rs:6-26) | these statements as parts of expressions or with something behind `end`; `for`, `begin`; blocks |
| ModelSource.v | tokens of ModelLexer as the parser of ModelParse sees them (parse_primary's names, trailing_space) | lexing is done before parsing, so an error of the lexer behind the point where the parser gives up counts |
| ModelRegexp.v | builtin/regexp.rs but compiling, executor.rs special variables, the methods of string.rs that take a pattern, tr | the engine (fancy_regex) is a parameter; texts are bytes, tr's are characters; compiling patterns and their cache; captures_iter is a given list of matches; a block that changes the receiver |
| ModelLiteral.v | constant expressions of codegen.rs, gen_const_val, ConstantValues, shallow_dup, CONST_VAL and CREATE_ARRAY | hash, range, regexp and interpolated literals; splats |
| ModelCall.v | parse_arglist of parser/expression.rs, gen_send, yield and super of codegen.rs as trees of ModelCodegen | literal blocks, `=>` in argument lists, super without an argument list |
| ModelRange.v | builtin/range.rs, splat expansion of executor.rs | bounds that are not numbers |
| ModelArgs.v | parameter lists, lvar_collector.rs, arg_handler.rs, ruby_stack.rs | default expressions (they run in the callee) |
| ModelScope.v | scope functions of parser.rs, lvar_collector.rs | which source constructs call them |
| ModelInst.v | vm_inst.rs, iseq.rs reading and writing | big-endian machines |
| ModelCodegen.v | codegen.rs, codegen/send.rs core, codegen/defined.rs, iseq.rs optimize | definitions, blocks, super without an argument list, indexing with several or splatted indices; an object made at compile time is part of the tree |
| ModelFrame.v | vm/executor/frame.rs, frame/heap.rs, frame/ruby_stack.rs, vm/args.rs, frame pushing of method.rs and arg_handler.rs | freeing of heap boxes, blocks given as symbols or procs, filling in arguments (ModelArgs) |
| ModelControl.v | vm/executor.rs run_loop, opt_core.rs dispatch! and RETURN, BREAK, MRETURN, THROW, method.rs exec_native, code_context.rs | frames hold only operands, place, exception table and whether their value is wanted; what instructions compute; break and return in eval; the text of backtraces; internal errors |
| ModelParse.v | ruruby-parse parser/expression.rs, the token functions of parser.rs and lexer.rs | the lexer itself; blocks, lambdas, strings, symbols, hashes, splat, block and keyword arguments of calls, scoped constants, everything that starts with a keyword except `defined?`; source locations |
| ModelFiber.v | coroutine.rs, coroutine/stack.rs, what the assembly of coroutine/asm_x64.rs does to stack pointers, builtin/fiber.rs, Enumerator#next, executor/fiber.rs | which registers are saved; asm_arm64.rs; what is left on a stack that a stale pointer points into; stack overflow; what code does between two fiber operations is a parameter |
| ModelMark.v | GC for VM, EnvFrame and ProcInfo; create_binding_context, create_heap, new_heap, new_binding | keyword parameters of fiber blocks; where collections happen; the order of visits |
| ModelKinds.v | GC for RValue and its kinds, ClassInfo, HashInfo, ArrayInfo, Args, FiberContext, MethodObjInfo, Globals | what kinds hold besides values; machines of fibers are the list of what their marking visits; method tables; inline caches, fiber_result, the classes recorded in instruction sequences (none of them visited by the code) |
| ModelIter.v | array.rs: each, each_index, each_with_index, map, map!, select, reject, partition, find, find_index, any?, all?, inject, uniq, flat_map with a block; place, capacity and length of the SmallVec | the block is any relation on states; binding its arguments (C36); the temporary stack; sort_by, zip, uniq!, bsearch with blocks that change the array; growth policy of SmallVec |
| ModelFormat.v | string.rs: rem (String#%), expect_char, next_char!; Rust's padding and digits of integers | the text of floats and f64 conversions (parameters); splitting an array argument; usize arithmetic without overflow checks |
| ModelReflect.v | object.rs: send, methods, respond_to?; module.rs: instance_methods, instance_method, method_defined?, alias_method, included_modules; basicobject.rs: alias; executor: send, invoke_send, invoke_method_missing | visibility (public, private, protected do nothing in the code), singleton_methods, module_function, aliases of global variables |
| ModelSearch.v | array.rs: binary_search, bsearch, bsearch_index, min, max; value.rs expect_bool_nil_num; ops.rs eval_gt2 | calls without a block (enumerators); blocks are functions of the whole state; the method `>` of other objects is a parameter that leaves the array alone |
| ModelHashIter.v | builtin/hash.rs: each, each_key, each_value, select, reject; value/hash.rs: insert, remove, clear and the iterator over the buffer of entries | hash codes (C19, C20); the size of a new buffer; compare_by_identity inside a block, which gives the buffer back |
| ModelConvert.v | builtin/string.rs toi; builtin/kernel.rs kernel_integer; builtin/float.rs toi, floor; builtin/numeric.rs inspect for integers | strings that are not UTF-8; Rust's parsing and printing of integers and its conversion of floats are modelled, not part of /repo |
| ModelGlob.v | builtin/dir.rs: glob, traverse_dir | symbolic links; names that are not UTF-8; the order of the result; regular expressions with brackets, braces and the like except unclosed ( ; the matching of the crate regex is modelled for the expressions that occur, it is not part of /repo |
| ModelPath.v | builtin/file.rs: string_to_path, join, basename, extname, dirname, expand_path, exist, executable, directory, file, read, readlines, write | binread, realpath; std::path is modelled for Unix and the system's path resolution as a walk through a tree: both are not part of /repo; symbolic links, permissions, contents that are not UTF-8 |
| ModelRaise.v | kernel.rs raise; exception.rs init and exception_new; math.rs init (classes); globals.rs from_exception; error.rs message; executor.rs eval_rescue and the part of the error handling that looks for a clause; codegen.rs rescue clauses; value.rs is_exception_class; rvalue.rs real_class; constants.rs get_toplevel_constant | back traces, a user's own initialize for an exception class, ensure and retry (C34 has ensure), the evaluation of the class lists; of the boot only the exception classes |
| ModelComplex.v | builtin/complex.rs but abs; numeric.rs add, sub, mul, div for a Complex argument and inspect; kernel.rs kernel_complex; value.rs to_complex, is_real; real.rs exp2, divide, is_negative; ops.rs eval_eq2 and eval_eqi for Complex operands | abs (f64::sqrt), the text of Float parts, eql? and hash of Complex, operators redefined by the program |
| ModelClassDef.v | executor.rs define_class; builtin/class.rs class_new (without block) and superclass; value.rs expect_class | autoload entries, the name a class gets, the singleton class of a new class, the body of the class (its class_defined list), nil given as a superclass (taken for none) |
| ModelModule.v | module.rs teq, cmp, include_, constants, const_defined, const_get; constants.rs get_scope | autoload; the order in which constants lists the names of one module (a hash map's); wrong numbers of arguments |
| ModelInspect.v | executor.rs val_inspect; value.rs val_to_s; builtin/array.rs inspect; value/hash.rs to_s; builtin/range.rs to_s, inspect; kernel.rs puts, print, p; io.rs output; opt_core.rs TO_S and CONCAT_STRING | floats, objects of other classes, redefined inspect and to_s, strings that are no UTF-8 (their text is a parameter), partial writes to the terminal, the depth of the native stack |
| ModelLoad.v | executor/loader.rs (all); kernel.rs require, require_relative, load; globals.rs add_source_file; executor.rs run; main.rs canonicalize and load_file | file programs are lists of actions: which calls a program makes does not depend on returned values; the parser is a parameter; symbolic links, permissions, texts that are no UTF-8, the startup files |
| ModelMethodObj.v | builtin/method.rs, unbound_method.rs; symbol.rs to_proc; object.rs method; module.rs instance_method, module_function with names; globals/method.rs MethodObjInfo; executor/method.rs eval_method_range, invoke_sym_proc, eval_block_map1 and the two iter functions for symbols; codegen.rs gen_sym_to_proc_iseq; executor.rs create_proc for symbols | the class of a value is a parameter; module_function without names (a frame flag); the memory of Method objects |
| ModelOper.v | vm/executor/ops.rs: every operator function and what method it calls for which kinds of operands; opt_core.rs 171-216 | the built-in calculations and the answers of the methods are parameters; the elements compared by == of arrays and ranges (ModelEqual); =~ is a call (C101) |
| ModelBinding.v | builtin/binding.rs (eval, receiver, local_variables, local_variable_defined?), kernel.rs eval with a binding and binding, frame.rs set_iseq, enumerate_local_vars, push_block_frame_from_binding, method.rs eval_binding, the names of a text in parser.rs and codegen.rs | of a text only assignments, assignments not carried out, and uses of names; the table of a sequence is kept beside its frame; irb, paths and lines; eval without a binding |
| ModelSwitch.v | coroutine/asm_x64.rs, asm_arm64.rs, asm_windows_x64.rs (invoke_context, switch_context, yield_context, skip) instruction by instruction; stack.rs (allocate, deallocate, init, guard), coroutine.rs (initialize, resume, fiber_yield, drop) | memory of 64-bit words, addresses without wrap-around; the code between changes of stack is arbitrary within the rules of SpecSwitch; values are in ModelFiber; mprotect, stack overflow |
| ModelAlias.v | builtin/array.rs:236-240, 287-296, 341-355, 546-611, 687-780, 817-841, 1230-1304 (push, unshift, +, concat, reverse, reverse!, rotate!, compact, compact!, fill, clear, uniq, uniq!, first, last, dup, flatten, flatten!, ary_flatten) on a heap of arrays | blocks of uniq and fill; first and last with a count; coercion of the depth; equality of keys is a parameter (C32) |
| ModelEnum.v | builtin/enumerator.rs (next, each, map, with_index), Kernel#loop, executor/fiber.rs | with_object, inspect, size; enumerators made without a method call; a method that itself makes or resumes fibers; the block is a parameter |
| ModelObject.v | variables, copies and kinds of value/rvalue.rs, classes and singleton classes of value/class.rs and value/value.rs, builtin/{object,class,module,structobj}.rs, class variables of executor.rs | prepend (ModelClass), constants, caches, visibility; bodies of Ruby methods; addresses are never used again |
| ModelEqual.v | comparison operators of vm/executor/ops.rs, builtin/comparable.rs, == of builtin/{object,integer,numeric}.rs, Array#include? | Complex, Regexp, Time and (ModelHash) hash operands; == that changes the array being compared; built-in classes that are reopened |
| ModelVM.v | opt_core.rs interpreter loop of one frame, exception loop of executor.rs | other frames (a call is a primitive that leaves the locals alone and comes back), stack size limit; the operands of an instruction that raises are taken as popped (seen only by a handler of defined?, which keeps the stack) |

Not modelled at all: the rest of the executor (method_missing, eval, require), the regexp engine, Time, IO, Process, Marshal, the
parser of definitions, `for` and `begin`.

## Plan per property

| id | modelled | proof |
|----|----------|-------|
| C01, C03, C04 | tagging in a 64-bit word (ModelValue) | arithmetic on Z, residues, `testbit` |
| C02 | flonum rotate and mask | bit lemmas; fails for -0.0 |
| C05-C10, C45-C47 | operators and numeric methods (ModelInt) | refinement to Z; for C46 and C47 the exactness of f64 rounding up to 2^53 (ProofsFloat); refutations |
| C11 | binary gcd loop | invariant and measure |
| C12, C13 | bit reference, counting iterators | `Z.testbit`, induction |
| C14-C17, C48-C56 | arrays as lists with explicit panics (ModelArray) | list lemmas, induction on callbacks |
| C18 | merge sort on array and buffer with a raising callback (ModelSort) | permutation invariant, sortedness, stability |
| C19, C20, C64-C68 | IndexMap vector, key equality, hashing (ModelHash) | refinement to a finite map with order |
| C21 | identifier table (ModelIdent) | invariant over histories |
| C22-C24, C69 | pages, mark bits, free list, mark, sweep (ModelGC) | reachability invariant over histories |
| C25-C28, C70 | class graph, method and constant tables, caches (ModelClass) | invariants over histories |
| C29, C31, C33, C34, C74 | code generator (ModelCodegen), interpreter (ModelVM) against a source semantics (SpecCore) | forward simulation by induction on trees and fuel |
| C30 | peephole pass | every body compiles to instructions whose jumps lead to instructions (ProofsShape); simulation of rewritten code |
| C32 | encoding and decoding of instructions (ModelInst) | round trip, sizes |
| C35 | scopes of parser and code generator (ModelScope) | induction over scopes |
| C36, C71 | argument binding on the stack, splats (ModelArgs, ModelRange) | list lemmas against a declarative binding |
| C37, C39, C44, C41 | lexer, lines, strings | induction, round trips |
| C38 | expression parser on tokens (ModelParse) against Ruby's operator table as a relation between lists of statements, texts and the variables known before and after (SpecParse) | mutual induction on texts: each parsing function reads its text and stops at what follows; a printer whose output is such a text; the printed tokens, written with blanks, are divided into themselves again (PropsSource, using C88) |
| C79 | the same parser | measure of tokens left and depth of the function; invariant on what follows operators; what is left is a suffix of the input |
| C40 | integer ranges (ModelRange) | induction |
| C42 | stacks, stack pointers and fiber states (ModelFiber), any program between two fiber operations, against a protocol on events and against each fiber's code run alone (SpecFiber) | invariant: the fibers that are active form a chain of waiting resumes, every other saved stack pointer is current or never used; induction on the run |
| C43 | block references in frames (ModelFrame) | Z arithmetic |
| C72, C73 | frames on the word stack and in the heap (ModelFrame) against activations with names (SpecFrame) | simulation, induction on the run |
| C76, C77, C78 | the nested interpreter loops with their invoke counters, frames and exception tables (ModelControl) | invariant matching frames and host stack, induction on the frames left |
| C80 | a fiber as the code it still has to run, any method and any block (ModelEnum); the method called with the block itself as a relation (SpecEnum) | induction on either run, for methods whose own code does not look at what the block gives; each resume is shown to be a run of the machine of C42 (ProofsEnum2), starting from any state it can reach |
| C81, C82 | cells with variables and content, all operations on them (ModelObject) against the last write in the history (SpecObject) | every other operation only grows the heap; simulation over histories |
| C83 | singleton classes and method lookup | invariant: no other object, class or pointer leads to the singleton class and its table; lookups outside stay the same |
| C84 | class variables along the chain of classes | induction on the chain; frame of the write |
| C85 | Struct.new, initialize, accessors | invariant over histories of new, assignment and read |
| C86, C87 | eval_eq2 and its callers, the methods of Comparable, user methods as parameters that may change the state (ModelEqual); sameness of data as an inductive relation over the heap (SpecEqual) | induction on depth; induction on the list of objects asked |
| C88 | read_token function by function (ModelLexer) against a relation between tokens and spellings (SpecLexer) with its own tables of operators, keywords and escapes | soundness and completeness of every reading function; each token but the end shortens the text |
| C89-C92 | the functions of regexp.rs over an engine given as a function (ModelRegexp); a pattern is where it matches, the engine's contract is to find the leftmost match when asked at the start of a character (SpecRegexp) | induction on the relation between a position and the matches from there on; replacing from the last match back keeps the earlier positions |
| C93 | literals compiled to a table of constants and copies of it, any program that changes what it gets hold of (ModelLiteral, SpecLiteral) | invariant: nothing a program gets hold of refers to an object of the table |
| C94 | argument lists as the parser collects them, compiled by ModelCodegen (ModelCall, SpecCall); merging of keywords and ** hashes (ModelArgs) | evaluation of the tree equals a separate evaluation of the written arguments; then C29 |
| C95 | assignment to every kind of target in ModelCodegen and ModelVM; storing a constant or class variable is a primitive (p_store) | corollaries of C29, which covers programs with these assignments anywhere inside; refutations by running the code |
| C96 | gen_defined, check_defined and the CHECK instructions in ModelCodegen and ModelVM; whether a method, constant or variable is there is a primitive (p_defd) that changes nothing | a relation that says what is found and evaluated, shown to agree with the evaluator of C29, whose induction over trees covers defined? anywhere inside a program; refutations by running the code |
| C97 | what marking visits, over the machine of C72 (ModelMark); what is in use in terms of activations (SpecMark) | the invariant of C72, extended by the receivers of frames; induction on the chain of environments and on the frames; refutations by running the machine |
| C98 | per kind, which values an object holds and which its marking visits (ModelKinds), what operations get from it (SpecKinds) | a case for each operation, then C22 and C24 over all heaps; refutations by collecting a heap of three objects |
| C99 | the loops over the array as written: those that look at it anew for each element, and those over the slice taken at the start (ModelIter); turns over the elements of the moment (SpecIter) | induction over the loop and over the turns, both directions, for arbitrary blocks; for slices under the hypothesis that the block leaves the array alone or only assigns to elements; refutations with blocks that push, pop or assign |
| C100 | the loop over the format and the conversions (ModelFormat); formats as pieces, digits in positional notation, alignment (SpecFormat) | induction over the digits written, the digits of a width and the pieces; refutations by evaluation |
| C101 | call sites, send, method_missing, the questions about methods and alias (ModelReflect) on the class worlds of ModelClass; what a call has to start, in terms of ancestor lists (SpecReflect) | the cache invariant of C26 for calls and questions, induction over the chain for lists of names, induction over later histories for alias; refutations by evaluation |
| C102 | the binary search with any block, the loops of min and max (ModelSearch) | invariant of the interval for the search, with the number of calls, and of how the block ended; integers up to 2^53 compare as floats as they do exactly; induction over the array; refutations by evaluation |
| C103 | the buffer of entries and the loops over it with any block (ModelHashIter) | invariants of the buffer for the operations on hashes; induction over the loop against a relation of turns; the operations agree with the model of C19; refutations by running the loop |
| C104 | reading and writing decimal numbers with the checks of 64 bits, floats as fractions (ModelConvert) | induction over the digits against positional notation, both ways; division with remainder for floats; refutations by evaluation |
| C105 | the translation of the pattern and the search through a tree of directories (ModelGlob) | the translation against the written pattern by induction over it; the expressions against a relation between patterns and names; the search by induction over the tree against paths and a relation between patterns and paths; refutations by evaluation |
| C106 | paths as text with std::path's components, push and pop, and files as a tree (ModelPath, SpecPath) | components and text are inverse for shortened paths (ProofsPath); shortening commutes with following names and, where the system finds something, with its walk (ProofsPathFs); writing by induction over the place; refutations by evaluation |
| C107 | errors and values at a begin block over the class worlds (ModelRaise, SpecRaise) | an invariant says that copies of classes come only from prepend (ProofsRaise); what the boot made stays through every history (ProofsRaise2, ProofsRaise3); the walk over the raw class chain finds a class without prepended modules exactly when it is an ancestor; refutations by evaluation after boot and a few operations |
| C108 | Complex values as pairs of values over ModelInt's reals (ModelComplex); specification: pairs of integers (SpecComplex) | every real that stands for an integer keeps standing for it through real_op, real_neg and real_div; refutations by evaluation |
| C109 | definitions over the class worlds of C25 (ModelClassDef, SpecClassDef) | every step of a history inserts only include copies, so the first module above a class that is none stays the same (ProofsClassDef); constants and kinds stay by the lemmas of C107 |
| C110 | queries over the class worlds of C25 (ModelModule, SpecModule) | include_module decides membership in the ancestors (C25); a class on a chain stands for itself because only prepending copies a class (ProofsModule, an invariant of histories), so the ancestors of a superclass are a suffix |
| C111 | a heap of strings, arrays, hashes and ranges, and the data a value holds as a finite tree (ModelInspect, SpecInspect) | inspect writes the notation by induction over the data (an array cannot be its own element, the data being finite); the notation can be read in one way only: two texts that agree up to a delimiter come from the same data (ProofsInspect.once_all) |
| C112 | a state of known files, $:, the file system and what happened; programs as lists of actions executed with fuel (ModelLoad, SpecLoad) | every call either runs nothing or starts one file that was not known (ProofsLoad.shape); that started files are known is an invariant; the number of places in the file tree that are not known decreases, so circles end; names are followed part by part (ProofsLoadPath) |
| C113 | Method objects as records over the worlds of ModelClass (ModelMethodObj, SpecMethodObj) | the search finds the first definition among the ancestors (ProofsClass, C101); copies of classes come from prepend only (ProofsRaise.Cop), so a class is the owner itself; module_function by induction over the names with the cache invariant kept |
| C114 | the operator functions over kinds of values and the worlds of ModelClass (ModelOper, SpecOper) | case analysis over operators and kinds; a call without a site finds the first definition among the ancestors (C101, C113) |
| C115 | the box of a binding in the memory of ModelFrame, tables of names (ModelBinding); scopes of names and values (SpecBinding) | refinement: a memory that shows a world of scopes shows the next world after every evaluation (ProofsBinding, ProofsBinding2); induction over texts and histories |
| C116 | registers, memory and the instructions of the assembly functions (ModelSwitch); calling conventions (SpecSwitch) | the effect of each function by symbolic execution for each target (ProofsSwitch); an invariant of all executions: every waiting call's words are on its own stack, stacks and FiberContexts are disjoint (ProofsSwitch2-4) |
| C117 | a heap of arrays that may contain each other (ModelAlias) | effect of each method on the whole heap; uniq by an invariant of the set of seen elements; flatten by induction on the derivation of the opened list, the absence of the receiver below itself by well-foundedness |
| C118 | percent literals (ModelQuote) against a relation between spellings and texts with counted brackets (SpecQuote) | soundness and completeness of both reading functions; the split into words against a unique relation |
| C119 | here documents: a position is the text left, the pending place is one more position | soundness and completeness of the line loop and of the mark; skipping blanks over a pending document |
| C120 | parts of a string, and the literals that follow, over the tokens of C88 | each template takes something off, so the loop ends; soundness and completeness by induction on fuel and on the reading |
| C121 | the pattern handed to the engine | induction on the pattern; refutations by computing |
| C122 | formal parameters (ModelParams) against a declarative order and a relation between lists and texts (SpecParams) | the order as a walk over states, both directions; reading by induction on the text on top of C38; the parser only appends variables |
| C123 | statements of control (ModelFlow) against a relation between programs and texts (SpecFlow) | induction on the text on top of C38; what may follow a condition, a body and a branch is part of the induction |
| C57-C63 | string methods (ModelString) | list lemmas |

## Findings

Violations of the properties by the code, each a theorem with a witness (the
name after the dash); the comment above the theorem gives the Ruby program.

* -0.0 and the pattern 0x3000000000000000 (2^-255) read back as +0.0 - `C02_float_roundtrip_refuted`
* `^` and `~` raise NoMethodError when the receiver is a big integer - `C08_xor_not_big_refuted`
* `1 << 63` is negative, `-1 >> 64` is 0 - `C09_shift_refuted`
* `-1[64]` is not 1 - `C12_bit_reference_refuted`
* upto, downto and step panic for a receiver of 2^62 - `C13_big_receiver_refuted`
* `[1][0..-5]` panics - `C16_range_slice_refuted`
* an array slice starting outside the array is `[]`, not nil - `C16_out_of_range_start_refuted`
* Hash#delete puts the last entry where the deleted one was - `C19_order_refuted`
* `{1=>1, 2=>1}` and `{2=>1, 1=>1}` are eql? but hash differently, so one does not find the other's entry - `C20_hash_key_refuted`
* eql? on hashes compares values with ==, which is not transitive for integers and floats - `C20_transitivity_refuted`
* a prepended module does not come before the class - `C25_prepend_refuted`
* include after prepend puts the module before the prepended one and the class - `C25_include_after_prepend_refuted`
* a module that includes itself never finishes - `C25_self_include_refuted`
* the singleton class of an object also finds the instance methods of Class - `C25_singleton_refuted`
* caches answer for a collected class whose address is used again - `C26_collection_refuted`
* caches answer with old methods after 2^32 definitions - `C26_wrap_refuted`
* super skips the method of an included module - `C27_included_module_refuted`
* super in an inherited method finds that method again - `C27_inherited_method_refuted`
* a constant cache filled for one class of self answers for another - `C28_other_self_refuted`
* a constant cache is not invalidated by include - `C28_include_refuted`
* a constant inherited from the superclass is not found in a class body - `C70_inherited_constant_in_class_body_refuted`
* `10 + while true; 1 + (break 5) end` is 6 - `C29_break_in_operand_refuted`
* `1 + begin raise(3) rescue 2 end` reads below the stack - `C29_rescue_in_operand_refuted`
* `(log 1)..(log 2)` evaluates the end before the start - `C29_range_order_refuted`
* the peephole pass does not end on the code of some loops (witness `spin`, PropsOpt.v) - `C30_terminates_refuted`
* an unused Bignum literal stays on the stack - `C31_bignum_statement_refuted`
* `while true; a = next end` grows the stack without bound - `C31_next_grows_stack_refuted`
* a call with 65536 arguments runs as a call without arguments - `C32_argument_count_refuted`
* with a dispatch table the last of two equal labels wins - `C33_duplicate_label_refuted`
* a case without value needs all conditions of a branch to hold - `C33_conditions_all_refuted`
* `case 1.0 when 1` does not match when compiled to a dispatch table - `C33_float_refuted`
* ensure is skipped: by an exception without rescue clause, by an exception or return in a rescue clause, by a return from an inner begin (with or without its own ensure), by break, by next - the seven `C34_*_refuted`
* `def f(*, k: 1)`: `f(k: 5)` leaves k at its default - `C36_discarded_rest_keyword_refuted`
* `def f(h)`: `f(k: 1)` is refused; `def f(a)`: `f(1, k: 2)` is accepted - `C36_keywords_as_hash_refuted`
* a missing required keyword raises nothing - `C36_missing_keyword_refuted`
* `{|a, *b, c|}` called without arguments panics - `C36_block_few_refuted`
* `{|a, *b, c|}` given 1 binds c, not a - `C36_block_post_first_refuted`
* a block with optional and post parameters given too many arguments binds the last one to the post parameter - `C36_block_surplus_refuted`
* `{|a, *b|}` does not take `[1, 2]` apart - `C36_block_splat_refuted`
* lambdas do not check the number of arguments - `C36_lambda_arity_refuted`
* the binary literal for 2^63 is read as negative, for 2^64 it panics - `C37_binary_refuted`
* `017` is read as seventeen, `0o17` as 0 followed by `o17` - `C37_octal_refuted`
* an error in a last line without newline is reported as line 1 - `C39_last_line_refuted`
* integer ranges whose bounds are no machine words panic or raise - `C40_big_bounds_refuted`
* `(1..3) === 2` is false - `C40_case_equality_refuted`
* strings that are == but stored differently are different keys - `C41_keys_refuted`, `C41_keys_refuted_slice`
* `1 <=> 2 < 3` is read as `(1 <=> 2) < 3` - `C38_compare_refuted`
* `2 ** -a` and `!-a` make the parser panic (`unreachable!()`) - `C38_power_refuted`, `C38_prefix_refuted`, `C79_no_panic_refuted`
* `2 ** -2 ** 2` is read as `2 ** ((-2) ** 2)` - `C38_power_literal_refuted`
* `!a = 1` is read as `(!a) = 1` - `C38_prefix_assign_refuted`
* `- 2.m` is read as `(-2).m` - `C38_minus_refuted`
* `f(a = 1, 2)` is read as `f(a = [1, 2])`, `[-2.m = 1, 2]` as `[-2.m = [1, 2]]` - `C38_argument_refuted`, `C38_left_side_refuted`
* `a = b rescue c` is read as `(a = b) rescue c` - `C38_rescue_refuted`
* `a ||= a`, `a += a` with `a` not known read the right side as a call of the method `a` - `C38_op_assign_refuted`
* `x.あ` is a SyntaxError although `あ` alone calls a method of that name - `C38_method_name_refuted`
* `a.m rescue b` is a SyntaxError - `C38_rescue_method_refuted`
* resuming a fiber that is running, or that waits for a fiber it has resumed, follows a stale stack pointer instead of raising FiberError - `C42_active_refuted`
* `break` in the block of a fiber makes resume return its value instead of raising LocalJumpError - `C42_break_refuted`
* the argument of the first resume becomes the value of the block's first local variable even if that is not a parameter; `|a, b|` does not take an array apart - `C42_first_local_refuted`, `C42_destructure_refuted`
* `f.resume(1, 2)` is an ArgumentError - `C42_many_refuted`
* a block whose code id is 2^30 to 3*2^30-1 is lost, replaced by another, or panics when read from its frame - `C43_lost_refuted`, `C43_replaced_refuted`, `C43_panics_refuted`
* inspect does not escape `#{` - `C44_inspect_refuted`
* digits stops at the first zero digit: `105.digits` is `[5]` - `C45_digits_refuted`
* Integer#div goes through floats - `C46_integer_div_refuted`
* == on integers and floats is not transitive - `C47_numeric_equality_refuted`
* `2**80 == 2.0**80` is false, `2**300 == 2.0**300` is true: the operands are compared only when both or neither are packed - `C47_big_refuted`
* `shift(n)` with n beyond the length removes nothing - `C48_shift_n_refuted`
* `["", "a"].join(",")` is `"a"` - `C55_join_refuted`
* `"abc"[3, 1]` is nil - `C57_substring_refuted`
* `"abc"[0...1]` is `"ab"` - `C57_exclusive_range_refuted`
* `"abc"[0..10]` is nil - `C57_long_range_refuted`
* `s[1, 0] = "x"` panics, `s[-1] = "x"` raises IndexError - `C58_assign_refuted`
* `"a\n\n".chomp` removes both newlines - `C60_chomp_refuted`
* `split(" ")` keeps empty pieces between runs of blanks - `C61_split_blank_refuted`
* succ panics on the last char before the surrogates and on the last char - `C62_succ_refuted`
* `"a".count("aa")` is 2 - `C63_count_refuted`
* select on an identity hash merges eql keys - `C64_identity_refuted`
* when a block runs a second time while its first run is suspended and the second run is made a proc, the first run keeps writing the old copy of the variables: in `def g; yield(lambda { yield(nil) }); end; a = 1; pr = nil; g { |l| if l then l.call; a = 5 else pr = proc { a } end }` the method sees `a == 1` - `C73_shared_refuted`
* `def g; yield; 1; end; g { break 5 }`: break only ends the yield, g goes on (and its operand stack is one value short) - `C76_yield_refuted`
* `def g; yield; 1; end; def f; g { return 5 }; 2; end`: return only ends the yield, so f is 2 - `C77_yield_refuted`
* return in a block or lambda that a builtin function runs in another method leaves that method instead of the one the block is written in - `C77_other_method_refuted`
* `def f; [1].each { return 5 }; end; f; f; ...`: a statement f whose method is left by a return in a block leaves a value on the stack of its caller each time, without bound - `C77_leaks_refuted`
* a variable of an integer or symbol is undefined behaviour, an accessor reads nil - `C81_packed_refuted`
* instance_variables of a class gives class variables, instance_variable_set writes them - `C81_names_refuted`
* a copy shares the singleton class of its original, a copied class its methods; a copied enumerator has no content; freeze does nothing - `C82_singleton_refuted`, `C83_copy_refuted`, `C82_class_refuted`, `C82_enumerator_refuted`, `C82_freeze_refuted`
* `@@x` belongs to the class of the receiver, not to the class the method is written in; in `class << self` to the singleton class - `C84_lexical_refuted`, `C84_singleton_refuted`
* include copies the class variables of the module: later values are missed - `C84_include_refuted`
* an object of a subclass of a Struct class panics when made; Struct.new accepts the same member twice - `C85_subclass_refuted`, `C85_duplicate_refuted`
* `a < b` and `a > b` abort the interpreter when `<=>` answers nil, `<=` and `>=` answer false; a big integer counts as nil - `C86_incomparable_refuted`, `C86_big_refuted`
* errors raised by `==`, or by `<=>` in a Comparable `==`, are lost: the answer is false - `C87_raise_refuted`, `C86_raise_eq_refuted`
* `obj == x` with x an integer, symbol, nil, true, false or flonum in a variable is false without asking obj; with an integer literal obj is asked - `C87_immediate_refuted`
* `a = []; a << a; b = []; b << b; a == b` overflows the stack - `C87_cyclic_refuted`
* NaN equals itself when it is the same object - `C87_nan_refuted`
* `2**70 == (2**70).to_f` is false, `(2**70).send(:==, (2**70).to_f)` is true - `C87_big_float_refuted`
* `"ab".send(:==, "ab")` is false: strings, arrays, hashes and ranges have no method == - `C87_method_refuted`
* grep, any? and all? with a pattern call the == of the element instead of that of the pattern - `C87_pattern_refuted`
* `a **= 2` is read as `a ** = 2` - `C88_power_refuted`
* `$12` is `$3`: the number of a group is the sum of its digits - `C88_group_refuted`
* `$_foo` is read as `$_` and `foo`; `@1` and `@'a` are instance variables - `C88_global_refuted`, `C88_ivar_refuted`
* a name with letters beyond ASCII is cut before each of them but the first; a vertical tab starts a name - `C88_unicode_name_refuted`, `C88_tab_refuted`
* between single quotes a backslash before a line end disappears with it; `"\x4"` and `"\u{41}"` are syntax errors; =begin ... =end is read as program - `C88_single_refuted`, `C88_escape_refuted`, `C88_begin_refuted`
* a text ending in `1e` panics, and one ending in `def =` - `C88_no_panic_refuted`, `C88_method_name_refuted`
* `"ab".gsub(//, "-")` is "-a-b", without the match at the end - `C89_gsub_end_refuted`
* after an empty match before a character of several bytes gsub asks the engine inside of that character - `C89_gsub_inside_refuted`
* gsub does not expand `\1` in the replacement, sub does - `C89_gsub_template_refuted`
* sub drops a backslash before a letter and at the end of the replacement - `C89_sub_escape_refuted`
* `"ab".scan(//)` never ends - `C90_scan_refuted`
* split with a pattern panics on a group that took no part, counts groups against the limit, and `"ab".split(//)` starts with "" - `C90_split_refuted`
* `=~` answers in bytes - `C91_index_refuted`; a failed match leaves the variables of the one before - `C91_failed_refuted`
* `"b".match(/(a)|b/)` and `"b"[/(a)|b/, -1]` panic, `"".match(//)` is nil - `C91_match_refuted`, `C91_pick_refuted`
* `nil&.m(3)` calls m on nil, `self&.m(nil)` does not call it, the arguments of `nil&.m(f)` are computed: it is the last
  argument that is compared with nil - `C74_nil_called_refuted`, `C74_not_called_refuted`, `C74_arguments_refuted`
* `nil&.m` as a statement leaves its receiver on the stack: `[1, (nil&.m; 2)]` is [nil, 2] - `C74_statement_refuted`
* the strings in an array literal of constants are made once: `def f; ["x"]; end; f[0] << "y"; f` is ["xy"] - `C93_fresh_refuted`
* `nil&.m(*a)` calls m on nil: with a splat, keyword, ** or & argument the `&.` is ignored - `C94_safe_refuted`
* `m(**a, k: b)` evaluates b before a - `C94_order_refuted`
* `yield(k: v)` neither evaluates nor passes v - `C94_yield_keyword_refuted`
* `f(**{})` passes an empty hash as an argument - `C94_empty_refuted`
* `super(&b)` panics the code generator; `super(k: v)` drops its argument - `C94_super_refuted`
* `p::C = v` evaluates v before p - `C95_scope_order_refuted`
* `nil::C = v` defines C in the current class instead of raising TypeError - `C95_nil_scope_refuted`
* `::C = v` defines C in the current class - `C95_toplevel_refuted`
* `C ||= v` and `@@x ||= v` raise NameError when there is no value yet - `C95_or_assign_refuted`
* the value of `o.a = v` is what `a=` answers - `C95_attribute_value_refuted`
* `b[i] += v` evaluates b and i twice (so does `b[i] ||= v`, which is read as `b[i] || (b[i] = v)`) - `C95_element_twice_refuted`
* `a, a = 1, 2` leaves 1 in a - `C95_last_first_refuted`
* the value of `a, b, c = 1, 2` is [1, 2, nil] - `C95_padded_value_refuted`
* `[3].select.each { false }` gives [3], the receiver, instead of what select would - `C80_each_result_refuted`; `[1].each.with_index { |x| 2 * x }` gives [2] - `C80_with_index_result_refuted`
* a method that yields two values: the block of its enumerator gets one array - `C80_several_values_refuted`
* the method is never told what the block gave (the yield always returns nil), so the enumerators of select, find, any? and the like answer wrongly and go on too long - `C80_block_value_refuted`
* an ensure clause of the method does not run when the block of each breaks or raises - `C80_ensure_refuted`
* a StopIteration raised by the method itself is taken for its normal end - `C80_stop_refuted`
* `defined?(x = v)` for a local variable x sets x to nil - `C96_assignment_refuted`
* `defined?(a && b)` is nil (it asks for a method `&&`) - `C96_and_refuted`
* an exception in the operand of an operator or the array of an index inside defined? comes out instead of making the answer nil - `C96_operand_raises_refuted`
* an exception in the receiver inside defined? leaves on the stack what the receiver had computed, so `[1, defined?((2 + raise).foo)]` is [2, nil] - `C96_operands_left_refuted`
* `defined?(a.b.c)` evaluates a twice - `C96_receiver_once_refuted`
* `defined?(@@x)` is never nil - `C96_class_variable_refuted` (nor are `defined?(yield)` and `defined?(super)`, which `C96_nothing_happens` covers as expressions that are not looked into)
* the receiver of a binding is not visited: `eval("self", b)` after the method that made b has ended and a collection ran uses a freed object - `C97_binding_refuted`
* nor is the receiver of the block of a fiber that has not started - `C97_fiber_refuted`
* nor is a proc object given as a block, once only a proc made in the method still refers to it (`def m; proc { yield }; end; q = m(&proc { 1 }); GC.start; q.call`) - `C97_block_refuted`
* `m.owner` of a method or unbound method of a class without a name (`m = Class.new { def f; end }.instance_method(:f); GC.start; m.owner`) is a freed object - `C98_owner_refuted`
* the object of a singleton class is not visited by the class - `C98_singleton_refuted`
* an enumerator whose last value was taken no longer visits its receiver and arguments, but `e.each { }` still uses them - `C98_exhausted_refuted`
* the builtin classes are visited only through their constants: `Integer = 0; GC.start; 1.class` - `C98_builtin_class_refuted`
* the findings of C97 at the level of objects - `C98_receiver_refuted`
* a block that makes the array longer while select, reject, partition, find, find_index, any?, all?, inject, uniq, flat_map or sort_by go through it makes them read freed memory (`a.select { a << 1; true }`) - `C99_select_grow_refuted`
* a block that makes it shorter is still called for the removed elements - `C99_select_pop_refuted`
* `a.find { a[0] = 7; true }` gives 7, not the element that was found - `C99_find_assign_refuted`
* `a.map! { a.pop }` panics - `C99_map_bang_refuted`
* `[[1]].flat_map { |x, y| x }` panics, and `[5].flat_map { |x = 7| x }` is `[7]` - `C99_flat_map_short_refuted`, `C99_flat_map_optional_refuted`
* `"%x" % -1` is `"ffffffffffffffff"` (and %b, %X likewise) - `C100_negative_refuted`
* `"%.3d" % 5` is `"5"`: precisions of integers have no effect; `"%5s" % "a"` is `"a"` - `C100_width_refuted`
* `"%f" % 1.0` is `"1"`: without a precision no decimals are shown - `C100_float_refuted`
* `"%d" % 2**64` raises TypeError, `"%c" % (2**32 + 65)` is `"A"` - `C100_large_refuted`
* `"%99999999999999999999d" % 1` panics when overflow is checked - `C100_panic_refuted`
* an object with a singleton class answers true to `respond_to?(:new)`, which `methods` does not list - `C101_singleton_refuted`
* `obj.send(:foo)` raises NoMethodError where `obj.foo` calls the user's method_missing - `C101_send_missing_refuted`
* `obj.send(:foo, k: 1)` calls foo without its keyword arguments - `C101_send_keywords_refuted`; `obj.send("foo")` raises ArgumentError - `C101_send_string_refuted`
* method_missing gets neither the block nor the keyword arguments of the call - `C101_missing_block_refuted`
* after `A.prepend(M)`, `A.included_modules` lists A - `C101_included_modules_refuted`
* `alias` inside a module of a method of Object raises NoMethodError - `C101_alias_module_refuted`
* `[1, 2, 3].bsearch { |x| 2 - x }` is nil: blocks that give numbers are not handled - `C102_find_any_refuted`; a block that shortens the array makes bsearch panic - `C102_bsearch_shrink_refuted`
* `[2**53 + 1, 2**53].min` is 2**53 + 1 - `C102_min_large_refuted`; min raises TypeError for bignums, for floats such as 1.45e-300, for strings - `C102_min_types_refuted`
* `[2.0**53, 2**53 + 1].max` is 2.0**53 - `C102_max_mixed_refuted`
* `h = {1=>10, 2=>20, 3=>30}; h.each { |k, v| h.delete(2) if k == 1 }` calls the block twice for 3 - `C103_twice_refuted`; entries that were removed get their turn all the same - `C103_deleted_refuted`; after a deletion a later turn can come with a value that was replaced - `C103_old_value_refuted`
* adding keys in the block of each raises nothing, and reads freed memory once the entries move to a larger buffer - `C103_new_keys_refuted`
* tr replaces a text by a text: `"hello".tr("el", "ip")` is "hiplo" - `C92_tr_refuted`; what it does do is `C92_tr_whole_text`
* (not a theorem) gsub! replaces the whole object, so a subclass and instance variables are lost; a block of gsub that changes the receiver leaves the code with a dangling text
* splatting the empty range `1...1` into a call panics (length underflow) - `C71_empty_range_refuted`
* `"12ab".to_i`, `" 42".to_i` and `"1_000".to_i` are 0 - `C104_to_i_refuted`; `(2**63).to_s.to_i` is 0 - `C104_big_refuted`
* `Integer(2**62)` raises TypeError - `C104_integer_refuted`; `(2.0**64).to_i` is 2**63 - 1, `Float::NAN.to_i` is 0 - `C104_float_refuted`
* `Dir.glob("*.rb")` and `Dir.glob("?rb")` find the file .rb - `C105_hidden_refuted`; `**/**/x` does not find x - `C105_deep_refuted`; patterns that end with a slash or have two in a row find nothing - `C105_slash_refuted`
* `Dir.glob("x(")` panics - `C105_bracket_refuted`; one unreadable directory makes the whole search raise - `C105_unreadable_refuted`
* `File.join("", "b")` is "b", not "/b" - `C106_join_refuted`; `File.basename("a/b/..")` is "a", `File.basename("/")` and `File.basename(".")` are nil, `File.dirname("a")` and `File.dirname("/")` are empty - `C106_names_refuted`
* `File.expand_path("~/..")` is the current directory, and `File.expand_path("/a/~")` the home directory - `C106_expand_refuted`
* `File.exist?("d/..")` and `File.directory?("d/..")` are false for every directory d, `File.exist?("nosuch/../f")` and `File.file?("f/")` are true for a file f, and `File.exist?(1)` is false instead of a TypeError - `C106_exist_refuted`; executable? is exist?; readlines removes the newlines and gives an empty last line for a text that ends with one (by `C106_lines`)
* a module in a rescue list never takes an error, though it is among the ancestors of the error's class (`module Tag; end; class E < StandardError; include Tag; end; begin; raise E; rescue Tag; end`) - `C107_rescue_module_refuted`
* after `E.prepend(M)`, `rescue E` does not take errors of E's subclasses any more, because the walk compares with the copy of E; after `StandardError.prepend(M)` a plain rescue takes almost nothing - `C107_rescue_prepended_refuted`
* RangeError and LoadError are looked up but never defined: every such error, such as that of `require "nofile"`, panics the interpreter where it is rescued; StopIteration is no IndexError and Math::DomainError no ArgumentError - `C107_interpreter_errors_refuted`
* `raise "text"` raises a StandardError, which `rescue RuntimeError` does not take - `C107_raise_text_refuted`; `raise TypeError, "text"` forgets the class and raises a StandardError - `C107_raise_class_text_refuted`; `e.message` of an interpreter error starts with the name of the class: "TypeError (...)" - `C107_message_refuted`
* `Complex(1, 2) + 2**62`, and -, *, / with such an Integer on the right, raise TypeError, though `2**62 + Complex(1, 2)` works - `C108_mixed_refuted`; `Complex(2**62, 1)` and `Complex.rect(2**62)` are refused - `C108_make_refuted`
* `(1+2i)/(3+4i)` is 0+0i, because both parts are rounded down; `(1+2i)/(0+0i)` panics; an Integer divided by a Complex has Float parts, so that `(2**53+1)/Complex(1,0)` equals `2**53/Complex(1,0)` - `C108_division_refuted`
* `Complex(3,0) == 3` is true, but `x = 3; Complex(3,0) == x` and `3 == Complex(3,0)` are false - `C108_eq_refuted`; `Complex(1,2) < 3` panics - `C108_order_refuted`; `-(1+2i)` is a NoMethodError and Float parts are shown without `.0` (read, not proved)
* `A = 3; class A; end` and `A = 3; class A::B; end` panic the interpreter instead of raising a TypeError - `C109_not_a_class_refuted`
* `class A < x.singleton_class; end` is accepted - `C109_singleton_superclass_refuted`; so are `class A < Class` and `class A < nil` (taken for no superclass), and a constant still to be autoloaded is replaced by a new class (executor.rs:669-708, read, not proved)
* `module M; include N; end; module N; include M; end` is accepted; then both `M <=> N` and `N <=> M` are 1 - `C110_modules_ordered_refuted` (CRuby raises ArgumentError for the cyclic include)
* `class A; include M; end; module M; include N; end`: M is above A and N above M, but `N <=> A` is nil - `C110_modules_transitive_refuted` (as in CRuby before 3.0)
* `M.include?(M)` is true - `C110_include_self_refuted` (false in CRuby)
* `B::X` raises NameError for a constant of B's superclass - `C110_scope_refuted`
* `constants` lists a name once for every module that defines it - `C110_constants_refuted` (CRuby lists it once)
* `const_get("X")` raises TypeError while `const_defined?("X")` is true - `C110_const_get_string_refuted`
* `[:"a, :b"]` and `[:a, :b]` are both printed as `[:a, :b]`: symbols are never quoted - `C111_inspect_injective_refuted`
* `a = []; b = [a]; a << b; p a` overflows the stack (only direct self-reference is caught); so does `puts` of any cyclic array - `C111_cyclic_refuted`
* `puts "a\n"` writes two newlines - `C111_puts_refuted`
* a file that raised an error (or has a syntax error) counts as loaded: `require` again answers false - `C112_error_refuted`
* `require "v1.2"` runs v1.rb, though v1.2.rb exists: the text behind the dot is taken for an extension - `C112_dot_refuted`
* after `load "x.rb"`, `require "x"` answers false without running it - `C112_load_refuted`
* `(1..3).map(&:to_s)`, `(1..3).each(&:m)`, `3.times(&:m)`, upto, downto and step with a symbol as the block end the interpreter (unimplemented!), `[1].map(&:m)` works - `C113_iterate_refuted`
* the owner of a method from an included module is the hidden copy of the module, which is not equal to the module - `C113_owner_refuted`
* bind accepts an object of any class, no TypeError - `C113_bind_type_refuted`
* bind_call drops the block and the keyword arguments - `C113_bind_call_refuted`
* two unbound methods are never equal - `C113_unbound_equal_refuted`
* method takes a symbol only, a string raises TypeError - `C113_method_string_refuted`
* `b.call(v, x)` where b is `&:m` loses x, `yield v, x` keeps it - `C113_symbol_proc_refuted`
* `:m.to_proc.call` calls nil.m instead of raising ArgumentError - `C113_symbol_proc_empty_refuted`
* `def !`, `def +@` and `def ~` are never called; `~v` raises NoMethodError although the method is there - `C114_not_refuted`, `C114_plus_refuted`, `C114_tilde_refuted`
* `def !=` and `def ===` in a class of one's own are not called, == is - `C114_not_equal_refuted`, `C114_case_refuted`
* `def ==` is not called when the operand is a small number, nil, true, false or a symbol held in a variable; it is for an integer literal - `C114_equal_immediate_refuted`
* an error raised inside `def ==` is lost, the comparison is false - `C114_equal_refuted`
* `v < x` is true or false whatever `def <` returns (Ruby gives the value) - `C114_ordering_refuted`
* `def []`, `def []=` and `def <<` in a subclass of Array (or Hash) and `def +` in Integer are not called by the operators, they are by `v.[](0)` - `C114_array_index_refuted`, `C114_array_set_refuted`, `C114_array_push_refuted`, `C114_integer_plus_refuted`
* when a text brings in several new variables only the first is nil, the others hold old words: after `b.eval("x = 77")`, `b.eval("y = 1 if false; z = 2 if false; z")` is 77 (the loop of set_iseq does not advance) - `C115_new_variables_refuted`
* from its 64th variable on a binding (also that of a REPL session) writes to memory below its box: nothing checks the size - `C115_many_refuted`
* a text during which another text is evaluated with the same binding goes on in the code of the inner one after the next call of a method - `C115_nested_refuted`
* nothing checks that a fiber is not already being run: a fiber that resumes itself starts its body again on its own stack, over its own frames, and its next yield does not return to the call that resumed it - `C116_active_refuted`
* on Windows the 32 bytes above its return address, which `new_context` may use for its arguments, hold the address of `guard` and the fiber and reach 16 bytes beyond the stack (stack.rs:77-89 leaves no room for them) - `C116_home_refuted`
* `a = []; a << a; [a].flatten` recurses without end: `ary_flatten` looks only for the receiver (array.rs:1279-1282), where ArgumentError is due - `C117_flatten_cycle_refuted`
* `a.concat(a)` reads the elements to append through a slice into the memory that making room has just given back (array.rs:349-355), if there is too little room - `C117_concat_self_refuted`
* `%w` does not take a tab or `\ ` for what Ruby does; `%q(\))` keeps the backslash; `%W %I %s %x` are always rejected (literals.rs:83-120); `%r{}i` ignores the option - `C118_tab_refuted`, `C118_escaped_blank_refuted`, `C118_escaped_delimiter_refuted`, `C118_kinds_refuted`, `C118_regexp_option_refuted`
* `%Q(#{x}(a))` ends at the first `)`, and `%Q((#{x})#{y})` reads beyond its end: behind an interpolation brackets that open are not counted, and the level is that of the first interpolation (literals.rs:45-47); a string in quotes behind `%Q|#{x}|` that has an interpolation is read up to the next `|` - `C120_brackets_refuted`, `C120_level_refuted`, `C120_adjacent_refuted`
* in a regexp `\2` to `\7` are characters, not groups (`ch <= '1'` at lexer.rs:919); of several options the first is read and the rest is a name; `[#{x}\b]` takes `\b` as outside brackets - `C121_group_refuted`, `C121_options_refuted`, `C121_class_refuted`
* `{ |x = 1| x }` and `{ |k: 1| k }` are errors: the default is read with parse_arg, which takes the bar for an operator (parser.rs:550-552, 577); `|x,|`, `|(x, y)|`, `|x; y|`, `(**)` and `(&)` are errors - `C122_block_default_refuted`, `C122_other_forms_refuted`
* `def f(x = (y = 1)); x; end; f(5)`: the default declares `y` before `x` is declared (parser.rs:551-564), so `y` is variable 0, where the argument is put - `C122_slots_refuted`
* `def f x:; y; end` takes `y` for the default of `x` (only a line end is looked for, parser.rs:569-570), `def f *` takes the first name of the next line for its own, and in `def f(x = y = 1, z)` the default takes `z` - `C122_keyword_semicolon_refuted`, `C122_rest_line_refuted`, `C122_default_assignment_refuted`
* `if 1 then f else 2 end`, where `f` is a method, is a SyntaxError: `else`, `elsif` and `when` are not among the words that cannot start an argument (expression.rs:1020-1031); `case 1` without any `when` is accepted - `C123_else_refuted`, `C123_case_without_when_refuted`
* `<<~` keeps the indentation; a local variable in a here document is a method call, as its parser has no scopes (literals.rs:309-321); a command document with an interpolation and `<<` at the end of the text panic; a line continued by a backslash goes on inside the document - `C119_indentation_refuted`, `C119_locals_refuted`, `C119_command_refuted`, `C119_panics_refuted`, `C119_continued_refuted`
* Kernel#loop ends only for a class that is itself named StopIteration, not for subclasses (kernel.rs:249-268, read, not proved)

Seen while reading, with no theorem behind them (reading notes only): writing an array element
beyond 2^59 panics; Array#min goes through f64; `drop(n)` raises when n is the length or more;
flat_map with a block of several parameters panics on an element array shorter than that;
mutated hash keys are not rehashed; iterating while mutating is undefined
behaviour;
zsuper passes a rest
parameter as one array; `f(1` at the end of input is accepted without its
parenthesis; `1 + ; 2` is read as `1 + 2`; `foo` followed by a blank at the
end of input is a SyntaxError.
