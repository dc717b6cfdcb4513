{"id": "C01", "title": "Integer values survive boxing exactly", "statement": "Any Ruby integer n, turned into a value and read back, is the same n, whatever its size; values in -2^62..2^62-1 are immediates and all others are heap integers, so an integer has exactly one representation and identity (equal?) of small integers coincides with equality.", "quantifier": "every mathematical integer n", "why_tests_cant": "the 64-bit tagging has 2^63 small values plus an unbounded set of big ones; off-by-one boundary errors hide in points no test suite enumerates", "anchors": ["ruruby/src/value/value.rs: Value::integer, Value::fixnum, Value::bignum, as_fnum, is_i63, RV/pack/unpack"]}
{"id": "C02", "title": "Float values survive boxing bit-exactly", "statement": "Any 64-bit float turned into a Ruby value and read back is the same float, bit for bit (including NaN payloads, infinities, subnormals and the sign of zero).", "quantifier": "every one of the 2^64 float bit patterns", "why_tests_cant": "2^64 patterns cannot be enumerated by tests; the tag rotation has special cases around exponents and zero", "anchors": ["ruruby/src/value/value.rs: Value::float, Value::as_flonum, FLOAT_MASK1, FLOAT_MASK2, ZERO"]}
{"id": "C03", "title": "Immediate kinds never alias", "statement": "No two of nil, true, false, the internal undefined marker, a small integer, an immediate float and a symbol are ever represented by the same word, and none of them can be mistaken for a heap reference (heap references are 8-byte aligned).", "quantifier": "every pair of immediate values of all kinds and every 8-byte aligned address", "why_tests_cant": "requires the disjointness of sets of up to 2^63 words", "anchors": ["ruruby/src/value/value.rs: RV::pack, is_packed_value, is_fnum, as_flonum, is_packed_symbol, constants 8-18"]}
{"id": "C04", "title": "Only nil and false are falsy", "statement": "In every conditional, a value is treated as false exactly when it is nil or false (or the never user-visible undefined marker); every integer, float, symbol and object is truthy.", "quantifier": "every 64-bit value word", "why_tests_cant": "the test is a bit-mask trick on a 64-bit word, correctness ranges over all words", "anchors": ["ruruby/src/value/value.rs: Value::to_bool, BOOL_MASK1, BOOL_MASK2"]}
{"id": "C05", "title": "Integer +, - and * are exact", "statement": "For any integers a and b of any size, a+b, a-b and a*b evaluate to the mathematically exact integer, with no overflow or wrap-around, and the result is in canonical (small or big) form; the immediate-operand instructions agree with the general ones.", "quantifier": "all pairs of integers of unbounded size", "why_tests_cant": "overflow boundaries at 2^62, 2^63 with all sign combinations over an infinite domain", "anchors": ["ruruby/src/vm/executor/ops.rs: invoke_op, invoke_op_i, invoke_mul, invoke_addi, invoke_subi", "ruruby/src/value/real.rs: impl_ops"]}
{"id": "C06", "title": "Integer / and % follow floored division", "statement": "For integers a and b with b nonzero, q=a/b and r=a%b satisfy a = b*q + r with r zero or of b's sign and |r|<|b|; b zero raises ZeroDivisionError and never crashes.", "quantifier": "all pairs of integers of unbounded size", "why_tests_cant": "sign/zero/boundary cases (e.g. most negative small integer divided by -1) over an infinite domain", "anchors": ["ruruby/src/vm/executor/ops.rs: invoke_div, invoke_rem", "ruruby/src/arith.rs: rem_fixnum, rem_bignum"]}
{"id": "C07", "title": "Integer ** is exact for non-negative exponents", "statement": "a**n equals the n-fold product of a for every integer a and every exponent 0 <= n < 2^32, switching to big integers exactly when needed.", "quantifier": "all integers a and all 32-bit exponents", "why_tests_cant": "overflow detection inside repeated squaring over an unbounded domain", "anchors": ["ruruby/src/arith.rs: exp_fixnum", "ruruby/src/vm/executor/ops.rs: invoke_exp"]}
{"id": "C08", "title": "Bitwise operators act on infinite two's complement", "statement": "For integers, &, |, ^ and ~ act bit by bit on the infinite two's-complement representation.", "quantifier": "all pairs of integers and every bit position", "why_tests_cant": "infinitely many bits and operands; mixing of small and big representations", "anchors": ["ruruby/src/vm/executor/ops.rs: invoke_bitand, invoke_bitor, invoke_bitxor, invoke_bitnot", "ruruby/src/builtin/integer.rs: band, bor"]}
{"id": "C09", "title": "Integer shifts multiply or floor-divide by powers of two", "statement": "For integers a and k>=0, a<<k is a*2^k and a>>k is floor(a/2^k), and negative shift counts reverse direction.", "quantifier": "all integers a and all shift counts k", "why_tests_cant": "lost high bits happen only for specific (value,count) combinations spread over an infinite domain", "anchors": ["ruruby/src/arith.rs: shl_fixnum, shr_fixnum, shl_fixnum_sub, shr_fixnum_sub", "ruruby/src/vm/executor/ops.rs: invoke_shl, invoke_shr", "ruruby/src/builtin/integer.rs: shr, shl"]}
{"id": "C10", "title": "Integer comparison is the order of the integers", "statement": "<=>, <, <=, >, >= and == between any two integers agree with the mathematical order, so they are mutually consistent, antisymmetric, transitive and total.", "quantifier": "all pairs (and triples) of integers of unbounded size", "why_tests_cant": "order laws are universally quantified over triples; representation mixing creates untested pairs", "anchors": ["ruruby/src/arith.rs: cmp_fixnum, cmp_bignum", "ruruby/src/vm/executor/ops.rs: eval_cmp macros, eval_eq2, invoke_compare", "ruruby/src/builtin/integer.rs: cmp, eq"]}
{"id": "C11", "title": "gcd and lcm", "statement": "a.gcd(b) is the greatest common divisor (non-negative, divides both, divisible by every common divisor) and a.lcm(b) is the least common multiple, for all integers, and the computation terminates.", "quantifier": "all pairs of integers", "why_tests_cant": "number-theoretic characterisation over infinite domain, termination of Stein's loop", "anchors": ["ruruby/src/arith.rs: safe_gcd, safe_lcm, safe_gcd_lcm", "ruruby/src/builtin/integer.rs: gcd, lcm, gcdlcm"]}
{"id": "C12", "title": "Bit reference and bit_length agree with two's complement", "statement": "n[i] is bit i of n's infinite two's complement for every i>=0 and bit_length is the least k with -2^(k) <= n < 2^k.", "quantifier": "all integers n and all bit indices i", "why_tests_cant": "unbounded bit indices and values", "anchors": ["ruruby/src/builtin/integer.rs: index, bit_length", "ruruby/src/vm/executor/ops.rs: invoke_get_index_imm"]}
{"id": "C13", "title": "Counting iterators yield exactly their range and stop", "statement": "n.times, a.upto(b), a.downto(b) and a.step(limit, step) yield exactly the integers of the corresponding arithmetic progression, in order, once each, and then stop.", "quantifier": "all integer bounds and non-zero steps", "why_tests_cant": "termination and exactness over all bounds, overflow at the end of the i64 range", "anchors": ["ruruby/src/builtin/integer.rs: times, upto, downto, step, PosStepIter, NegStepIter"]}
{"id": "C14", "title": "Array element read after write", "statement": "After a[i]=v on an array, a[i] is v, every other index keeps its old value, indices between the old length and i read as nil, the length is max(old,i+1); negative indices address from the end and a write before the beginning raises without modifying the array.", "quantifier": "all arrays of any length, all integer indices and values", "why_tests_cant": "unbounded lengths and indices incl. negative; frame condition over all other indices", "anchors": ["ruruby/src/value/array.rs: get_array_index, get_elem1, get_elem_imm, set_elem1, set_elem_imm"]}
{"id": "C15", "title": "Array splice replaces exactly the addressed segment", "statement": "a[start,len]=rhs replaces exactly the elements start..start+len-1 by the elements of rhs (array) or rhs itself, keeps the prefix and suffix in order, and pads with nil when start is past the end.", "quantifier": "all arrays, starts, lengths and replacement values", "why_tests_cant": "structural frame condition over unbounded arrays", "anchors": ["ruruby/src/value/array.rs: set_elem2"]}
{"id": "C16", "title": "Array slicing", "statement": "a[start,len] and a[range] return exactly the addressed segment, clipped to the array, and no integer arguments whatsoever crash the interpreter.", "quantifier": "all arrays and all integer starts/lengths/range ends, exclusive or not", "why_tests_cant": "crash-freedom for all integer combinations", "anchors": ["ruruby/src/value/array.rs: get_elem, get_elem1"]}
{"id": "C17", "title": "Filtering keeps order and survives exceptions", "statement": "In-place filtering (delete_if, reject!, select! family) keeps exactly the elements for which the block answers keep, in order; if the block raises part way, no element is lost or duplicated except those already decided.", "quantifier": "all arrays, all block behaviours including raising at any element", "why_tests_cant": "all points of failure of an arbitrary callback", "anchors": ["ruruby/src/value/array.rs: retain"]}
{"id": "C18", "title": "Sorting is a stable permutation, even when the comparison misbehaves", "statement": "Sorting returns a permutation of the input for every comparison block whatsoever, including inconsistent ones and ones that raise at any call; if the comparison is a strict weak order that does not raise, the result is ordered and stable; no memory outside the array or buffer is touched.", "quantifier": "all arrays of any length and all comparison callbacks, raising or not, at every call point", "why_tests_cant": "unbounded lengths and adversarial callbacks; the merge policy has data-dependent control flow", "anchors": ["ruruby/src/vm/executor/opt_core.rs: sort_by, merge_sort, insert_head, merge, collapse"]}
{"id": "C19", "title": "Hash behaves as an insertion-ordered map", "statement": "Any sequence of []=, [], delete, key?, clear, length on a hash behaves as on a finite map whose iteration order is the order of first insertion of the live keys.", "quantifier": "all operation sequences of any length over all keys", "why_tests_cant": "histories of unbounded length; order after deletions", "anchors": ["ruruby/src/value/hash.rs: HashInfo get/insert/remove/contains_key/keys/values/len/clear"]}
{"id": "C20", "title": "Hash key equality is an equivalence compatible with hashing", "statement": "Key equality (eql?) is reflexive, symmetric and transitive, and keys equal under it always have the same hash code, so a stored key can always be found again with an equal key.", "quantifier": "all pairs/triples of keys built from integers, floats, symbols, strings, arrays, ranges", "why_tests_cant": "equivalence laws quantify over triples of recursively nested keys", "anchors": ["ruruby/src/value/hash.rs: HashKey", "ruruby/src/value/rvalue.rs: eql, Hash", "ruruby/src/value/string.rs: RString"]}
{"id": "C21", "title": "Symbols are interned injectively", "statement": "Two symbols are identical exactly when their names are the same string, whatever the order in which names were first seen; the name of a symbol never changes afterwards.", "quantifier": "all sequences of intern requests", "why_tests_cant": "property of all histories of the global table", "anchors": ["ruruby-common/src/id_table.rs: IdentifierTable::get_ident_id, get_ident_id_from_string, get_name, new"]}
{"id": "C22", "title": "Garbage collection never frees a reachable object", "statement": "After a collection, every object reachable from the roots through any chain of references (cyclic or not) is still allocated with unchanged contents.", "quantifier": "all object graphs, all roots, all heap layouts over any number of pages", "why_tests_cant": "arbitrary graph shapes and sizes", "anchors": ["ruruby/src/alloc.rs: gc, gc_check_and_mark, sweep, sweep_bits, clear_mark, dealloc_empty_pages", "ruruby/src/value/rvalue.rs: mark"]}
{"id": "C23", "title": "Garbage collection reclaims every unreachable object", "statement": "After a collection, every cell that is not reachable is available again: it is on the free list or on a free page exactly once.", "quantifier": "all object graphs and heap layouts", "why_tests_cant": "completeness over arbitrary graphs", "anchors": ["ruruby/src/alloc.rs: gc, sweep, sweep_bits, dealloc_empty_pages"]}
{"id": "C24", "title": "Allocation never hands out a live cell", "statement": "Across any history of allocations, mutations and collections, a newly allocated object never occupies a cell that still holds a live object, and two live objects never share a cell.", "quantifier": "all interleavings of allocation, mutation and collection", "why_tests_cant": "invariant of unbounded histories", "anchors": ["ruruby/src/alloc.rs: alloc, gc, Allocator"]}
{"id": "C25", "title": "Method lookup follows the ancestor chain", "statement": "A call runs the first definition of the method found along the ancestor list of the receiver's class, the same list that `ancestors` reports; include places the module (and its own includes) right after the class, prepend before it.", "quantifier": "all class hierarchies and all sequences of method definitions, includes and prepends", "why_tests_cant": "unbounded histories of hierarchy mutation", "anchors": ["ruruby/src/value/class.rs: search_method, upper, append_include, append_prepend, superclass, include_module", "ruruby/src/builtin/module.rs: ancestors"]}
{"id": "C26", "title": "Method caches are transparent", "statement": "With the inline and global method caches, every call resolves to the same method as an uncached lookup at that moment, after any history of calls, method (re)definitions, includes, prepends, class creations and collections.", "quantifier": "all histories, all call sites, all classes", "why_tests_cant": "stale-cache bugs need a specific interleaving in an unbounded history", "anchors": ["ruruby/src/globals/method.rs: find_method, find_method_inline_cache, InlineCache, MethodCache, inc_class_version"]}
{"id": "C27", "title": "super continues at the next definition", "statement": "super in a method calls the next definition of that method after the class in which the running method was found, along the receiver's ancestors.", "quantifier": "all hierarchies and chains of super calls", "why_tests_cant": "depth of hierarchy unbounded", "anchors": ["ruruby/src/vm/executor/opt_core.rs: vm_super"]}
{"id": "C28", "title": "Constant caches are transparent", "statement": "Reading a constant through the inline constant cache gives the value an uncached lookup would give at that moment, after any history of constant assignments and lookups.", "quantifier": "all histories, all cache slots, all receivers", "why_tests_cant": "stale or shared cache slot needs specific history", "anchors": ["ruruby/src/globals/constants.rs: find_const_cache, set_const_cache, set_const", "ruruby/src/vm/executor/constants.rs: find_const, get_super_const, get_lexical_const"]}
{"id": "C29", "title": "Compiled programs mean what the source says", "statement": "For every program of the expression/statement core (literals, locals, arithmetic and comparison operators, and/or/not, assignment, sequencing, if/unless, while/until with break/next, return), running the compiled bytecode gives exactly the value, variable state and termination behaviour of the source semantics.", "quantifier": "all programs of the fragment, of any size and nesting, and all initial variable states", "why_tests_cant": "compiler correctness for all programs", "anchors": ["ruruby/src/codegen.rs: gen, gen_comp_stmt, gen_jmp_if_false, gen_assign2", "ruruby/src/vm/iseq.rs: push*, write_disp, gen_jmp*", "ruruby/src/vm/executor/opt_core.rs: run_context_main"]}
{"id": "C30", "title": "Peephole optimisation preserves behaviour and terminates", "statement": "The jump-threading pass run on every compiled method never changes what the method computes, only rewrites jumps to jump to the final target, keeps every instruction boundary, and terminates.", "quantifier": "all instruction sequences produced by the compiler", "why_tests_cant": "all code shapes including jump cycles", "anchors": ["ruruby/src/vm/iseq.rs: ISeq::optimize, chase"]}
{"id": "C31", "title": "Evaluation stack stays balanced", "statement": "Every compiled expression leaves the evaluation stack exactly as it found it plus its value when used (and exactly as it found it when unused), so values of enclosing expressions are never disturbed, including when leaving loops by break or next.", "quantifier": "all programs of the fragment", "why_tests_cant": "all nestings of control flow in operand positions", "anchors": ["ruruby/src/codegen.rs: gen (use_value), NodeKind::Break, NodeKind::Next, NodeKind::While"]}
{"id": "C32", "title": "Bytecode operands decode to what was encoded", "statement": "Every instruction operand (64-bit value, 32/16/8-bit number, signed displacement, argument flags, optional block id) that the compiler writes is read back unchanged by the interpreter, and instruction sizes agree so decoding never goes out of step.", "quantifier": "all operands and all instruction sequences", "why_tests_cant": "2^32/2^64 operand space, unbounded sequences", "anchors": ["ruruby/src/vm/iseq.rs: push32, push64, push16, read32, read64, read_disp, write_disp", "ruruby-common/src/vm_inst.rs: inst_size", "ruruby-common/src/arg_flag.rs", "ruruby-common/src/iseq_util.rs"]}
{"id": "C33", "title": "case/when selects the first matching branch", "statement": "case selects the first branch one of whose labels matches by ===, evaluates no later label, and falls to else otherwise; the optimised integer/hash dispatch gives the same branch as the sequential one.", "quantifier": "all lists of branches and labels and all scrutinees", "why_tests_cant": "all label lists including duplicates and multiple labels per branch", "anchors": ["ruruby/src/codegen.rs: NodeKind::Case", "ruruby/src/vm/executor/opt_core.rs: OPT_CASE, OPT_CASE2"]}
{"id": "C34", "title": "ensure clauses always run", "statement": "Whenever a begin body with an ensure clause is left - normally, by exception (rescued or not), by return, break or next - the ensure clause runs exactly once before control continues.", "quantifier": "all programs with begin/rescue/else/ensure and every exit path", "why_tests_cant": "every exit path in every nesting", "anchors": ["ruruby/src/codegen.rs: NodeKind::Begin, NodeKind::Return", "ruruby/src/vm/executor.rs: exception handling loop"]}
{"id": "C35", "title": "Local variables resolve lexically", "statement": "A local variable reference in arbitrarily nested blocks denotes the innermost enclosing block's variable of that name up to the method boundary, and two different variables never share storage.", "quantifier": "all nestings and variable names", "why_tests_cant": "arbitrary nesting depth", "anchors": ["ruruby/src/codegen.rs: get_local_var", "ruruby-common/src/lvar_collector.rs"]}
{"id": "C36", "title": "Arguments are bound to parameters correctly", "statement": "For every parameter list (required, optional, rest, post) and argument count, the call either raises ArgumentError exactly when the count is out of range or binds required first and post last, optionals left to right, rest the remainder; no argument is lost or duplicated.", "quantifier": "all parameter shapes and argument lists", "why_tests_cant": "combinatorial explosion of shapes", "anchors": ["ruruby/src/vm/executor/frame.rs: argument handling", "ruruby/src/globals/method.rs: ISeqParams::check_arity, is_opt"]}
{"id": "C37", "title": "Integer literals denote their value", "statement": "Every decimal, hexadecimal, octal and binary integer literal, with or without underscores, of any length, lexes to the number it denotes.", "quantifier": "all digit strings of any length", "why_tests_cant": "unbounded literals", "anchors": ["ruruby-parse/src/parser/lexer.rs: number reading functions"]}
{"id": "C38", "title": "Operator precedence and associativity", "statement": "Parsing a fully determined operator expression yields the tree prescribed by Ruby's precedence and associativity table: printing any expression tree with minimal parentheses and parsing it back gives the same tree.", "quantifier": "all expression trees of any depth", "why_tests_cant": "infinitely many expressions", "anchors": ["ruruby-parse/src/parser/expression.rs: operator parsing functions"]}
{"id": "C39", "title": "Error locations name the right line", "statement": "The line number reported for a source position is one plus the number of newlines before it.", "quantifier": "all source texts and positions", "why_tests_cant": "all texts, including those without a final newline", "anchors": ["ruruby-common/src/source_info.rs: SourceInfo::get_lines"]}
{"id": "C40", "title": "Range membership, enumeration and counting agree", "statement": "For integer ranges, to_a lists exactly the integers the range includes, in order, each/first/last/include?/=== agree with it, exclusive and inclusive ends differ exactly in the end.", "quantifier": "all integer bounds", "why_tests_cant": "all bounds incl. empty and reversed", "anchors": ["ruruby/src/builtin/range.rs: each, to_a, first, last, include, RangeInfo"]}
{"id": "C41", "title": "Strings compare and concatenate as byte sequences", "statement": "== and <=> on strings are the lexicographic order of their bytes and + / << concatenate the bytes, independently of how the string is stored internally; equal strings are interchangeable as hash keys.", "quantifier": "all byte strings and all histories of appends", "why_tests_cant": "three internal representations and all lengths around the inline threshold", "anchors": ["ruruby/src/value/string.rs: RString append, cmp, string_cmp, PartialEq, Hash, replace_range"]}
{"id": "C42", "title": "Fibers run their body once, in order", "statement": "Resuming a fiber delivers the yielded values in program order, the resume argument becomes the value of the pending yield, the final value is delivered once, and any later resume raises without effect.", "quantifier": "all fiber bodies and all resume sequences", "why_tests_cant": "all interleavings of resumes of several fibers", "anchors": ["ruruby/src/coroutine.rs: resume, fiber_yield", "ruruby/src/builtin/fiber.rs", "ruruby/src/builtin/enumerator.rs"]}
{"id": "C43", "title": "Block references survive encoding", "statement": "A block reference stored in a frame (code id and frame number, a proc object, a symbol or none) is decoded to the same reference.", "quantifier": "all 32-bit code ids and frame numbers, all symbols and procs", "why_tests_cant": "2^64 pairs packed into a 63-bit tagged integer", "anchors": ["ruruby/src/vm/args.rs: Block::encode, Block::decode"]}
{"id": "C44", "title": "String escapes in inspect are readable back", "statement": "String#inspect output is distinct for distinct strings and escapes every quote, backslash and control character so that reading it as a literal gives back the string.", "quantifier": "all strings", "why_tests_cant": "all strings of any length", "anchors": ["ruruby/src/value/string.rs: Debug for RString", "ruruby-parse/src/parser/lexer.rs: escape reading"]}
{"id": "C45", "title": "Integer#digits lists the base digits", "statement": "For n>=0 and base>=2, n.digits(base) is the list of base-b digits of n, least significant first, of which the weighted sum is n.", "quantifier": "all non-negative integers and all bases >= 2", "why_tests_cant": "every number and base; wrong only on numbers with an interior zero digit", "anchors": ["ruruby/src/builtin/integer.rs: digits"]}
{"id": "C46", "title": "Integer#div is floored division", "statement": "For integers a and b with b nonzero, a.div(b) is the floored quotient of a by b (the same as a/b); b zero raises ZeroDivisionError.", "quantifier": "all pairs of integers", "why_tests_cant": "rounding errors show only for large operands", "anchors": ["ruruby/src/builtin/integer.rs: quotient", "ruruby/src/value/real.rs: quotient"]}
{"id": "C47", "title": "Numeric equality is transitive across Integer and Float", "statement": "If an integer a equals a float f and f equals an integer b then a equals b.", "quantifier": "all integers a, b and floats f", "why_tests_cant": "rounding collisions only occur beyond 2^53", "anchors": ["ruruby/src/arith.rs: cmp_fixnum", "ruruby/src/vm/executor/ops.rs: eval_eq2"]}
{"id": "C48", "title": "Taking elements off an array", "statement": "shift(n) removes and returns the first min(n,length) elements; slice!(s,n) removes and returns exactly the addressed segment and keeps the rest in order; push/pop and unshift/shift are inverse.", "quantifier": "all arrays and all counts", "why_tests_cant": "unbounded arrays and counts", "anchors": ["ruruby/src/builtin/array.rs: shift, slice_, pop, push, unshift"]}
{"id": "C49", "title": "Binary search finds the boundary", "statement": "bsearch with a block that is false then true along the array returns the first element answering true, nil if none; with any block at all it terminates, stays inside the array and only fails if the block fails.", "quantifier": "all arrays, all predicates monotone along the array; all blocks for safety", "why_tests_cant": "all lengths, all boundary positions, and non-monotone or raising blocks", "anchors": ["ruruby/src/builtin/array.rs: binary_search"]}
{"id": "C50", "title": "Rotation", "statement": "rotate!(k) moves the element at index (j+k) mod length to index j, for positive and negative k of any size.", "quantifier": "all non-empty arrays and all integers k", "why_tests_cant": "modular identity over unbounded k", "anchors": ["ruruby/src/builtin/array.rs: rotate_"]}
{"id": "C51", "title": "Flatten keeps leaves in order", "statement": "flatten returns the non-array elements of a nested array from left to right; flatten(n) opens n levels; flatten! returns nil exactly when nothing was opened.", "quantifier": "all finite nestings and all levels", "why_tests_cant": "recursion over arbitrary nesting", "anchors": ["ruruby/src/builtin/array.rs: flatten, flatten_, ary_flatten"]}
{"id": "C52", "title": "Transpose", "statement": "transpose of a rectangular array swaps row and column indices, twice is the identity, and ragged input raises instead of crashing.", "quantifier": "all arrays of arrays", "why_tests_cant": "all shapes", "anchors": ["ruruby/src/builtin/array.rs: transpose"]}
{"id": "C53", "title": "uniq keeps first occurrences", "statement": "uniq and uniq! keep exactly the elements equal to no earlier element, in order; uniq! returns nil iff nothing was removed.", "quantifier": "all arrays and all key equalities that are equivalences", "why_tests_cant": "all multiset shapes", "anchors": ["ruruby/src/builtin/array.rs: uniq, uniq_"]}
{"id": "C54", "title": "Array comparison is dictionary order", "statement": "<=> on arrays is dictionary order on the elements and swapping the operands flips the sign.", "quantifier": "all pairs of arrays", "why_tests_cant": "order axioms quantify over all pairs", "anchors": ["ruruby/src/builtin/array.rs: cmp"]}
{"id": "C55", "title": "join puts the separator between all elements", "statement": "join(sep) is the concatenation of the elements with sep between each two neighbours.", "quantifier": "all arrays of strings and separators", "why_tests_cant": "empty strings at particular positions", "anchors": ["ruruby/src/builtin/array.rs: join"]}
{"id": "C56", "title": "zip pads with nil", "statement": "zip returns one row per receiver element, holding that element and the elements of the arguments at the same index, nil where an argument is shorter.", "quantifier": "all arrays and argument lists", "why_tests_cant": "all lengths", "anchors": ["ruruby/src/builtin/array.rs: zip"]}
{"id": "C57", "title": "Character references pick the right characters", "statement": "s[i] is the one-character string at position i (from the end if negative) and nil outside; s[i,n] and s[i..j] give exactly the requested run of characters, the empty string at the end.", "quantifier": "all strings, indices, lengths and ranges", "why_tests_cant": "positions and lengths are unbounded; boundary at the end of the string, multi-byte characters", "anchors": ["ruruby/src/builtin/string.rs: index, conv_index"]}
{"id": "C58", "title": "slice! and []= change exactly the addressed characters", "statement": "slice!(i), slice!(i,n) remove and return the addressed characters and keep the rest; s[i]=w and s[i,n]=w replace exactly the addressed characters; out of range nothing changes.", "quantifier": "all strings in any internal representation, all positions and lengths", "why_tests_cant": "three internal representations, all positions", "anchors": ["ruruby/src/builtin/string.rs: slice_, index_assign", "ruruby/src/value/string.rs: remove, replace_range"]}
{"id": "C59", "title": "Padding reaches the requested width with the pad string cycled", "statement": "ljust, rjust and center give a string of max(width, length) characters that contains the receiver at the left, right or middle, the rest being the pad string repeated and cut; center puts the odd character on the right.", "quantifier": "all strings, widths and non-empty pad strings", "why_tests_cant": "all widths and pad lengths", "anchors": ["ruruby/src/builtin/string.rs: gen_pad, center, ljust, rjust"]}
{"id": "C60", "title": "strip, chomp and the search predicates", "statement": "strip/lstrip/rstrip remove exactly the maximal blank prefix/suffix; chomp removes at most one trailing separator; start_with?, end_with?, include? hold exactly when the text occurs at the start, at the end, anywhere.", "quantifier": "all strings and arguments", "why_tests_cant": "all strings", "anchors": ["ruruby/src/builtin/string.rs: strip, lstrip, rstrip, chomp, start_with, end_with, include_"]}
{"id": "C61", "title": "split and lines lose no text", "statement": "Joining the pieces of split with the separator gives the string back (negative or positive limit), no piece contains the separator, without limit only trailing empty pieces disappear, with a positive limit there are at most that many pieces; lines concatenate to the string and each ends at its first newline.", "quantifier": "all strings, separators and limits", "why_tests_cant": "overlapping matches, separators of any length", "anchors": ["ruruby/src/builtin/string.rs: split, lines"]}
{"id": "C62", "title": "succ counts", "statement": "String#succ advances the letters and digits of a string like a counter by one, keeping the kind of each position and the other characters, growing by one character exactly on overflow; it never crashes.", "quantifier": "all strings", "why_tests_cant": "carries of any length", "anchors": ["ruruby/src/builtin/string.rs: str_next, succ_char"]}
{"id": "C63", "title": "count counts characters", "statement": "s.count(arg) is the number of characters of s that occur in arg.", "quantifier": "all strings", "why_tests_cant": "all strings", "anchors": ["ruruby/src/builtin/string.rs: count"]}
{"id": "C64", "title": "select, reject and compact keep exactly the chosen entries", "statement": "h.select{} and h.reject{} split the entries of h, each keeping the iteration order; an exception raised by the block comes out unchanged; compact drops exactly the entries whose value is nil.", "quantifier": "all hashes, all blocks", "why_tests_cant": "arbitrary histories and blocks", "anchors": ["ruruby/src/builtin/hash.rs: select, reject, compact"]}
{"id": "C65", "title": "merge gives the later hash priority", "statement": "In h.merge(a, b, ...) every key has the value of the last hash that has it, the keys of h come first in their order, then new keys in order of appearance; h itself is unchanged.", "quantifier": "all hashes, any number of arguments", "why_tests_cant": "any number of hashes and overlaps", "anchors": ["ruruby/src/builtin/hash.rs: merge"]}
{"id": "C66", "title": "invert maps each value to its last key", "statement": "h.invert[v] is the last key of h whose value is v; nothing else is in it.", "quantifier": "all hashes", "why_tests_cant": "arbitrary overlaps of values", "anchors": ["ruruby/src/builtin/hash.rs: invert"]}
{"id": "C67", "title": "Hash equality ignores order", "statement": "Two hashes are == exactly when they have the same keys and == values under each key, whatever the order of insertion.", "quantifier": "all pairs of hashes however built", "why_tests_cant": "pigeonhole argument over arbitrary histories", "anchors": ["ruruby/src/value/hash.rs: PartialEq for HashInfo", "ruruby/src/vm/executor/ops.rs: eq"]}
{"id": "C68", "title": "compare_by_identity keeps the entries", "statement": "compare_by_identity keeps all entries in order; afterwards a key is found exactly through the same object.", "quantifier": "all hashes and keys", "why_tests_cant": "all histories", "anchors": ["ruruby/src/builtin/hash.rs: compare_by_identity"]}
{"id": "C69", "title": "Reclaimed memory is reused before the heap grows", "statement": "After a collection, as many further allocations as there are reclaimed cells on the free list are served from distinct reclaimed cells, and the heap takes no further memory until all of them are used.", "quantifier": "all histories of allocation, mutation and collection, all object graphs", "why_tests_cant": "relates unbounded allocation runs to arbitrary earlier histories", "anchors": ["ruruby/src/alloc.rs: alloc, sweep, gc"]}
{"id": "C70", "title": "Constants resolve through scopes and then ancestors", "statement": "An unqualified constant read inside a class gives the definition in the innermost lexically enclosing class or module that has one, otherwise the first definition along the ancestors of the innermost enclosing class, otherwise NameError.", "quantifier": "all hierarchies, all nestings, all constant assignments", "why_tests_cant": "unbounded hierarchies and nestings", "anchors": ["ruruby/src/vm/executor/constants.rs: find_const, get_lexical_const, get_super_const"]}
{"id": "C71", "title": "Splat arguments expand in place", "statement": "Every splatted array or range among the arguments of a call, or among the elements of an array literal, is replaced by its elements in order at its own position; other arguments are untouched and nothing below them on the evaluation stack changes.", "quantifier": "all argument lists, any number and length of splats", "why_tests_cant": "unbounded combinations of splats; in-place shifting on a shared stack", "anchors": ["ruruby/src/vm/executor.rs: pop_args_to_args, pop_args_to_array", "ruruby/src/vm/executor/frame/ruby_stack.rs"]}
{"id": "C72", "title": "A call leaves its caller as it was", "statement": "Whatever a called method, block or proc does - calls, yields, making procs, returning, or being left by an exception - when control is back in the caller its frame, its place in the code and its pending operands are what they were, the arguments are gone, and the result is there exactly if it is wanted; at every moment the innermost frame shows the receiver, the variables at every nesting distance and the block of its own activation, and the machine never fails for want of a frame.", "quantifier": "all sequences of calls, yields, proc calls, builtin calls, variable accesses, proc creations, returns and unwindings that fit the stack", "why_tests_cant": "unbounded nestings and interleavings; frames share one word array with encoded pointers and move to the heap", "anchors": ["ruruby/src/vm/executor/frame.rs: prepare_method_frame, prepare_block_frame, push_native_frame, unwind_frame, unwind_native_frame", "ruruby/src/vm/executor/frame/heap.rs"]}
{"id": "C73", "title": "Closures share variables", "statement": "A local variable is one place: what was last written to it, by the method that owns it, by a block running in it or by a proc or lambda made in it, before or after the frame was moved to the heap, is what every one of them reads.", "quantifier": "all programs, all nestings of blocks and procs, all orders of writing and of making procs", "why_tests_cant": "unbounded interleavings; aliasing between the stack copy and the heap copy of a frame", "anchors": ["ruruby/src/vm/executor/frame/heap.rs: move_cfp_to_heap, dup_frame", "ruruby/src/vm/executor.rs: get_dyn_local, create_proc"]}
{"id": "C76", "title": "break leaves the call a block was given to", "statement": "`break v` in a block ends the call the block was passed to: the code the block is written in goes on behind that call with v as its value (if the value is wanted) and everything else of the frame unchanged, and no frame of the call is left.", "quantifier": "all programs, all nestings of method calls, yields, builtin functions and blocks", "why_tests_cant": "unbounded nestings of interpreter loops inside builtin functions; the tests use break only with builtin iterators", "anchors": ["ruruby/src/vm/executor/opt_core.rs: dispatch!, Inst::BREAK", "ruruby/src/vm/executor.rs: run_loop", "ruruby/src/vm/executor/method.rs: exec_native"]}
{"id": "C77", "title": "return in a block leaves the method the block is written in", "statement": "`return v` in a block, however deeply the block is nested and whoever runs it, ends the method in whose body the block is written: its caller goes on behind the call with v as its value if that is wanted, otherwise as it was.", "quantifier": "all programs, all nestings of method calls, yields, builtin functions and blocks", "why_tests_cant": "unbounded nestings; the loop that is left and the loop that goes on are different activations of the interpreter", "anchors": ["ruruby/src/vm/executor/opt_core.rs: dispatch!, Inst::MRETURN", "ruruby/src/vm/executor.rs: run_loop"]}
{"id": "C78", "title": "Exceptions reach the innermost rescue", "statement": "An exception goes on at the first exception-table entry covering the place of the innermost frame that has one, across method calls, blocks and builtin functions; the frames above are gone, those below are as they were, and the handler finds exactly the exception on its operand stack; if no frame has one the host program gets the exception. Whatever calls, returns, breaks and exceptions went before, the machine is never left without the frame or counter it needs.", "quantifier": "all sequences of calls, returns, breaks, exceptions and builtin calls", "why_tests_cant": "unbounded nestings; frames, the invoke counters of the nested interpreter loops and the native stack have to agree after every way out", "anchors": ["ruruby/src/vm/executor.rs: run_loop", "ruruby/src/vm/executor/opt_core.rs: run_context_main", "ruruby-common/src/code_context.rs"]}
{"id": "C79", "title": "Parsing ends with a tree or a SyntaxError", "statement": "For every sequence of tokens, parsing an expression program ends, and its result is a list of trees or a SyntaxError; it never loops and never crashes, and when it gives trees the whole input was read.", "quantifier": "all token sequences of any length", "why_tests_cant": "infinitely many inputs, most of them not programs; the parser goes back in the input and calls itself at the same position", "anchors": ["ruruby-parse/src/parser/expression.rs: all parsing functions", "ruruby-parse/src/parser/lexer.rs: peek, peek_no_term, save_state, restore_state"]}
{"id": "C80", "title": "An enumerator does what its method would do with the block", "statement": "For e = o.m(args) without a block, e.each { } has the effects and the value of o.m(args) { }: the block is called with the same values, in the same order, between the same other effects, and a break, return or exception in it has the same effect. e.map collects what the block gives, e.with_index passes the number of the call as well and has the value of the method. Calling e.next repeatedly gives the same values one at a time and after the last one raises StopIteration, from then on always. The enumerator can be used any number of times and each use starts anew.", "quantifier": "all methods, all blocks, all states", "why_tests_cant": "the method and the block are arbitrary programs with effects that interleave", "anchors": ["ruruby/src/builtin/enumerator.rs: next, each, map, with_index", "ruruby/src/vm/executor/fiber.rs: dup_enum, create_enumerator, enumerator_fiber", "ruruby/src/coroutine.rs: FiberContext::resume, fiber_yield, enumerator_iterate", "ruruby/src/builtin/kernel.rs: loop_"]}
{"id": "C81", "title": "Instance variables are per object", "statement": "Reading @x of an object, by syntax, by instance_variable_get or by a method attr_reader made, gives the value last written to @x of that object by any of the three ways of writing (nil if none); defined?(@x) and instance_variables agree with it. Nothing else a program does with other objects, classes, singleton classes, modules or class variables changes it; a copy starts with the variables of its original.", "quantifier": "all objects, all variable names, all sequences of operations", "why_tests_cant": "unbounded histories and heaps; three independent access paths to one table", "anchors": ["ruruby/src/value/rvalue.rs: get_var, set_var", "ruruby/src/vm/executor/opt_core.rs: SET_IVAR, GET_IVAR, CHECK_IVAR", "ruruby/src/builtin/object.rs: instance_variable_get, instance_variable_set, instance_variables", "ruruby/src/builtin/module.rs: define_reader, define_writer", "ruruby/src/vm/executor/method.rs: exec_getter, exec_setter"]}
{"id": "C82", "title": "A copy is equal and separate", "statement": "dup and clone give another object with the same class, variables and content, which answers to the same methods; whatever is later done to one of the two leaves variables and content of the other as they were.", "quantifier": "all objects, all later sequences of operations", "why_tests_cant": "all histories after the copy; sharing shows only later", "anchors": ["ruruby/src/value/rvalue.rs: shallow_dup", "ruruby/src/builtin/object.rs: dup, freeze, frozen_"]}
{"id": "C83", "title": "Singleton methods belong to one object", "statement": "`def o.m` makes m a method of o: o finds it, o still finds its other methods, every other object finds what it found before. A method defined on one object only is never found through another object, whatever the program does.", "quantifier": "all objects, methods and sequences of operations", "why_tests_cant": "unbounded histories of classes, modules, extend, copies and definitions", "anchors": ["ruruby/src/value/value.rs: get_singleton_class", "ruruby/src/vm/executor.rs: define_singleton_method", "ruruby/src/value/class.rs: search_method"]}
{"id": "C84", "title": "Class variables are shared along the class hierarchy", "statement": "@@x is read from, and written to, the first class that has it going upwards from the class; with none, reading raises NameError and writing makes it a variable of the class. A value written is read back by every class below that does not have its own.", "quantifier": "all class graphs, receivers and values", "why_tests_cant": "unbounded class chains; two receivers share a variable or not depending on the whole chain", "anchors": ["ruruby/src/vm/executor.rs: set_class_var, get_class_var", "ruruby/src/globals.rs: get_class_if_object", "ruruby/src/value/class.rs: upper, generate_included"]}
{"id": "C85", "title": "Struct objects hold their members", "statement": "For a class made by Struct.new(:a, :b, ...), new takes at most as many arguments as there are members (ArgumentError otherwise) and gives a new object; a member reads what was last assigned to it, at first its argument or nil; assignments to one object or member leave the others alone.", "quantifier": "all member lists, all sequences of new, assignments and reads", "why_tests_cant": "unbounded histories over several objects", "anchors": ["ruruby/src/builtin/structobj.rs: struct_new, initialize", "ruruby/src/builtin/module.rs: set_attr_accessor", "ruruby/src/builtin/class.rs: new"]}
{"id": "C86", "title": "Comparable follows <=>", "statement": "For an object whose class includes Comparable, a < b, a <= b, a >= b, a > b and a == b say what a <=> b says, asking it once; objects whose <=> compares keys are ordered as their keys are; an error raised by <=> reaches the caller and an answer that is not a number raises ArgumentError.", "quantifier": "all definitions of <=>, all objects and program states", "why_tests_cant": "<=> is arbitrary program code with any answer and any effect", "anchors": ["ruruby/src/builtin/comparable.rs: eq, le, lt, ge, gt", "ruruby/src/vm/executor/ops.rs: eval_cmp, eval_eq2"]}
{"id": "C87", "title": "Equality", "statement": "a == b holds for numbers, strings, arrays and ranges exactly when they have the same structure and equal leaves, however deep; it is symmetric there; for other objects it is what the == of the left one answers, asked once, errors included; arrays ask their elements in order up to the first that differs; != is the negation; when and include? use the same equality.", "quantifier": "all heaps, values of any depth, all definitions of ==", "why_tests_cant": "unbounded nesting and arbitrary user code, including cyclic data", "anchors": ["ruruby/src/vm/executor/ops.rs: eval_eq2, eval_eq, eval_ne, eval_eqi, invoke_teq, eval_teq", "ruruby/src/builtin/array.rs: include, grep, any_, all_", "ruruby/src/builtin/object.rs: equal"]}
{"id": "C88", "title": "Division of a text into tokens", "statement": "A source text is divided into tokens in exactly one way: the longest operator, whole words as keywords or names, whole numbers, strings with their escapes, one token for several line ends; white space and comments before a token change nothing; the place recorded with a token is where it is spelled and places do not overlap; lexing ends on every text, with tokens or a syntax error.", "quantifier": "all texts of any length, all spellings", "why_tests_cant": "infinitely many texts; which token a text starts with depends on unbounded look at what follows", "anchors": ["ruruby-parse/src/parser/lexer.rs: read_token, read_identifier, read_global_var, read_number_literal, read_interpolate, read_string_literal_single, read_escaped_char, skip_whitespace, cur_loc, read_method_name", "ruruby-parse/src/token.rs: Reserved, Punct"]}
{"id": "C89", "title": "Substitution by a pattern", "statement": "gsub replaces every leftmost non-overlapping match of the pattern and nothing else, sub the first one; the replacement text stands for itself with \\0 to \\9 and \\\\ replaced; with a block the block is called once per match in order, sees $~ of that match, and an exception of it ends the substitution; without a match the text and the variables stay as they were.", "quantifier": "all texts, patterns, engines meeting the search contract, replacement texts and stateful blocks", "why_tests_cant": "matches of any number and length, arbitrary user blocks, the engine's answers outside of characters", "anchors": ["ruruby/src/builtin/regexp.rs: replace_repeat, replace_once, replace_one_block, replace_all_block", "ruruby/src/builtin/string.rs: sub, gsub, gsub_main"]}
{"id": "C90", "title": "scan and split by a pattern", "statement": "scan gives the texts (or groups) of all matches in order and ends; split gives what is between the matches with the groups, nothing of the text is lost, a limit bounds the number of fields, without limit empty fields at the end are dropped.", "quantifier": "all texts, patterns, limits", "why_tests_cant": "unbounded numbers of matches; termination", "anchors": ["ruruby/src/builtin/regexp.rs: find_all", "ruruby/src/builtin/string.rs: scan, split"]}
{"id": "C91", "title": "What a match tells", "statement": "=~ gives the character position of the leftmost match, match the texts of the match and its groups from a given character on, s[re, n] group n, slice! takes the match out; $&, $', $n and Regexp.last_match tell about the last match, and a failed match clears them.", "quantifier": "all texts, patterns, groups and positions", "why_tests_cant": "texts with characters of any width, groups that take part or not", "anchors": ["ruruby/src/builtin/regexp.rs: match_one, find_one, regexp_match, regexp_last_match", "ruruby/src/vm/executor.rs: get_captures, get_special_var, get_special_matches", "ruruby/src/builtin/string.rs: index, rmatch, str_match, slice_"]}
{"id": "C92", "title": "tr translates characters", "statement": "tr(from, to) replaces each character of from by the one at its place in to and keeps all others.", "quantifier": "all texts and character lists", "why_tests_cant": "infinitely many texts", "anchors": ["ruruby/src/builtin/string.rs: tr"]}
{"id": "C74", "title": "Safe navigation", "statement": "r&.m(args) evaluates r once; if it is nil the value is nil, no argument is evaluated and no method called; otherwise it is the call r.m(args). Nothing else is left on the evaluation stack.", "quantifier": "all receivers, methods and arguments, used as a value or as a statement, anywhere in a program", "why_tests_cant": "all programs around the call", "anchors": ["ruruby/src/codegen/send.rs: gen_send"]}
{"id": "C93", "title": "Each evaluation of a literal makes new objects", "statement": "Evaluating a string or array literal gives the content that is written, in objects that did not exist before; no change to the value of an earlier evaluation can be seen in a later one.", "quantifier": "all literals, all programs between two evaluations", "why_tests_cant": "any change to any object reachable from an earlier value", "anchors": ["ruruby/src/codegen.rs: const_expr, const_array", "ruruby/src/globals.rs: ConstantValues::get", "ruruby/src/value/rvalue.rs: shallow_dup"]}
{"id": "C94", "title": "All kinds of arguments reach the method in order", "statement": "A call with positional, splatted, keyword, ** and & arguments evaluates the receiver first and then the arguments from left to right, each exactly once, whatever leaves one of them; then the method is called with all of them. With &. and a nil receiver nothing else happens; yield and super pass their arguments the same way.", "quantifier": "all argument lists, all argument expressions, all methods", "why_tests_cant": "every combination of kinds of arguments with every expression in them, in any program around the call", "anchors": ["ruruby-parse/src/parser/expression.rs: parse_arglist", "ruruby/src/codegen/send.rs: gen_send", "ruruby/src/codegen.rs: NodeKind::Yield, NodeKind::Super"]}
{"id": "C95", "title": "Assignment evaluates its parts once, in order, and stores once", "statement": "lhs = rhs evaluates what the left side consists of (array and index, receiver, scope) and then rhs, each once, stores the value of rhs in the named variable, constant, class variable, element or attribute, and has that value; p::C = v defines C in p and ::C = v at the top level; op= evaluates the parts of the left side once and ||= assigns when there is no value yet; a multiple assignment evaluates all right sides before it assigns from left to right, missing values being nil. An exception in rhs leaves everything unassigned.", "quantifier": "all targets, all right-hand sides, all states", "why_tests_cant": "every kind of target with every expression in it and every outcome of every part", "anchors": ["ruruby/src/codegen.rs: gen_assign, gen_assign2, NodeKind::MulAssign", "ruruby-parse/src/parser/expression.rs: parse_assign_op", "ruruby/src/vm/executor/opt_core.rs: SET_CONST, SET_CVAR"]}
{"id": "C96", "title": "defined? tells whether an expression could be evaluated, and does not evaluate it", "statement": "defined?(e) is the string that names the kind of e when everything e mentions is there (variables, constants, and the methods called on receivers that are evaluated to find out), else nil. It evaluates nothing but the receivers of calls, each once; arguments, assigned values, conditions and bodies are not run and no variable is changed. An exception in a receiver makes the answer nil.", "quantifier": "all expressions, all states", "why_tests_cant": "every kind of expression nested in every other, in every state", "anchors": ["ruruby/src/codegen/defined.rs: gen_defined, check_defined, defined_str", "ruruby/src/vm/executor/opt_core.rs: CHECK_LOCAL, CHECK_CONST, CHECK_SCOPE, CHECK_GVAR, CHECK_IVAR, CHECK_METHOD"]}
{"id": "C97", "title": "A collection visits everything that running code and closures can still use", "statement": "Whenever a collection runs, marking the machine comes to an end and visits every operand, the receiver of every frame and every variable that a frame can see, and marking a proc visits its receiver and every variable its code can see, also when the calls that own the variables have ended. The same holds for bindings, for fibers that have not started, and for the block that a proc can still yield to.", "quantifier": "all programs of calls, blocks, procs, returns and exceptions, collected at any point", "why_tests_cant": "a value that is not visited is only lost if a collection runs at the right moment and its cell is used again", "anchors": ["ruruby/src/vm/executor.rs: GC for VM, create_binding_context, create_heap", "ruruby/src/vm/executor/frame.rs: GC for EnvFrame, locals, move_ep_to_heap", "ruruby/src/vm/executor/frame/heap.rs: new_heap, new_binding, dup_frame", "ruruby/src/builtin/procobj.rs: GC for ProcInfo"]}
{"id": "C98", "title": "A collection keeps every object the program can get hold of", "statement": "Every object that a program can get from its global variables, literals, running code and the main object, by calling methods, reading instance variables and constants, indexing, iterating, calling procs and methods, and resuming fibers and enumerators, survives a collection, stays where it is and holds what it held.", "quantifier": "all heaps a program can build by allocations, stores and collections, and all chains of such operations", "why_tests_cant": "an object that is missed is only noticed if a collection runs at the right moment and its cell is used again; every kind of object has its own way of listing what it holds", "anchors": ["ruruby/src/value/rvalue.rs: GC for RValue", "ruruby/src/value/class.rs: GC for ClassInfo", "ruruby/src/coroutine.rs: GC for FiberContext", "ruruby/src/globals.rs: GC for Globals", "ruruby/src/globals/method.rs: GC for MethodObjInfo", "ruruby/src/vm/args.rs: GC for Args"]}
{"id": "C99", "title": "Iterating over an array gives every element its turn, whatever the block does", "statement": "each, each_index, each_with_index, map, map!, select, reject, partition, find, find_index, any?, all?, inject, uniq and flat_map call the block once for each position of the array, in order, with the element that is there when its turn comes, as long as the array has such a position at that moment; so elements the block adds get their turn and removed ones do not. An exception or jump in the block ends the iteration at once with the effects so far. The result is the one documented for the elements and values of the turns. In no case does the interpreter crash or read memory that no longer belongs to the array.", "quantifier": "all arrays, all blocks with arbitrary effects on the array and the rest of the state, all values, exceptions and jumps", "why_tests_cant": "what happens depends on the capacity of the array at the moment the block changes it and on how often it does; freed memory usually still holds the old elements", "anchors": ["ruruby/src/builtin/array.rs: map, map_, flat_map, each, each_index, each_with_index, partition, uniq, any_, all_, inject, find_index, reject, select, find", "ruruby/src/value/array.rs: ArrayInfo, Deref"]}
{"id": "C100", "title": "String#% writes each argument as its directive says", "statement": "format % args is the text of format with every %% replaced by a percent sign and every directive replaced by the text of the next argument: %d decimal, %b binary, %x and %X hexadecimal, %f with the given number of decimals (six if none is given), %c the character, %s the string, to the right in a field of the given width, filled with blanks or, with the flag 0, with zeros behind the sign; integers of any size and sign are shown exactly. A directive without an argument and an unfinished directive raise ArgumentError; no format makes the interpreter crash.", "quantifier": "all format strings, all argument lists", "why_tests_cant": "flags, widths, precisions, conversions and arguments combine freely; exactness is about all integers", "anchors": ["ruruby/src/builtin/string.rs: rem, expect_char, next_char"]}
{"id": "C101", "title": "Asking about methods agrees with calling them", "statement": "A call starts the first definition among the ancestors of the receiver's class with exactly the arguments, block and keyword arguments given; when there is none it starts method_missing with the name as first argument in front of the others, and without a method_missing raises NoMethodError (NameError on self). methods and instance_methods list exactly the names for which there is a definition, each once; respond_to?, method_defined? and instance_method say the same; send with a name does what the call does. alias gives the new name the definition the old one has at that time, and it keeps it whatever is defined, included or prepended later. included_modules lists modules only.", "quantifier": "all histories of class and module definitions, includes, prepends, method definitions and calls, all names and arguments", "why_tests_cant": "the class graph and the state of the method caches are arbitrary; a test looks at one history", "anchors": ["ruruby/src/builtin/object.rs: send, methods, respond_to", "ruruby/src/builtin/module.rs: instance_methods, instance_method, method_defined, module_alias_method, included_modules", "ruruby/src/builtin/basicobject.rs: alias_method", "ruruby/src/vm/executor/method.rs: invoke_method_missing, invoke_send", "ruruby/src/vm/executor/opt_core.rs: send"]}
{"id": "C102", "title": "bsearch, min and max find the right element", "statement": "Array#bsearch and bsearch_index, with a block that is false up to some place and true from there on, give the first element (its index) for which the block is true, nil if there is none, after at most 2 + log2 n calls of the block; with a block that gives numbers they give an element for which it gives 0. min and max give the first of the least or greatest elements, for all numbers of any size and all objects that can be compared. A block that changes the array does not crash the interpreter.", "quantifier": "all arrays, all blocks", "why_tests_cant": "the place where the block turns true, the length of the array and the elements are arbitrary; tests take a few", "anchors": ["ruruby/src/builtin/array.rs: binary_search, bsearch, bsearch_index, min, max", "ruruby/src/value/value.rs: expect_bool_nil_num", "ruruby/src/vm/executor/ops.rs: eval_gt2"]}
{"id": "C103", "title": "Iterating over a hash while the block changes it", "statement": "each, each_pair, each_key, each_value, select and reject call the block once for every entry, in order. A block may assign to keys the hash has: later turns see the new values. It may delete entries: a deleted entry gets no later turn and the others still get exactly one, so h.each { |k, v| h.delete(k) if ... } leaves exactly the other entries. Adding keys raises an error. Nothing a block does to the hash makes the interpreter read freed memory.", "quantifier": "all hashes, all blocks, all ways of leaving the block", "why_tests_cant": "the block can change the hash in any way at any turn; what goes wrong depends on positions, capacity and the order of the entries", "anchors": ["ruruby/src/builtin/hash.rs: each, each_key, each_value, select, reject", "ruruby/src/value/hash.rs: insert, remove, clear, Iter::next"]}
{"id": "C104", "title": "Converting to integers", "statement": "n.to_s is the decimal text of n, and n.to_s.to_i == n for every integer. String#to_i gives the number the string begins with, Integer() the number that is the whole string, and raises ArgumentError for other text. Float#to_i drops the fraction and floor rounds down, without loss; for infinities and NaN they raise FloatDomainError. Integer(n) is n.", "quantifier": "all integers, all strings, all floats", "why_tests_cant": "the interesting inputs are at the edges of number ranges (63 and 64 bits, the 53 bits of a float) and among all strings", "anchors": ["ruruby/src/builtin/string.rs: toi", "ruruby/src/builtin/kernel.rs: kernel_integer", "ruruby/src/builtin/float.rs: toi, floor", "ruruby/src/builtin/numeric.rs: inspect"]}
{"id": "C105", "title": "Dir.glob", "statement": "Dir.glob(pattern) gives exactly the paths of the files and directories that match the pattern, each once. ? matches one character, * any characters of a name, **/ any number of directories; names that begin with a dot are matched only by patterns that do, and **/ does not enter such directories. A slash at the beginning starts at the root. Other characters match themselves.", "quantifier": "all directory trees, all patterns", "why_tests_cant": "tests look at one directory tree, the project's own; whether a search misses or repeats entries depends on the nesting of directories and of the pattern", "anchors": ["ruruby/src/builtin/dir.rs: glob, traverse_dir"]}
{"id": "C106", "title": "Paths and files", "statement": "File.join puts its strings, also those inside arrays, one behind the other with a slash between them and loses and adds no names. File.basename, dirname and extname give the last name, what is before it and its extension. File.expand_path follows a path from the current directory, the given one or the home directory, and gives an absolute path without . and ... File.exist?, file? and directory? answer what the system answers for the path as written. What File.write wrote File.read reads at the same path, and no other file changes; File.readlines gives the lines.", "quantifier": "all paths, nested arguments, directories, file systems without symbolic links, contents", "why_tests_cant": "tests use a handful of paths; slashes, dots and their combinations are unbounded, and whether shortening a path before asking the system matters depends on what exists", "anchors": ["ruruby/src/builtin/file.rs: string_to_path, join, basename, extname, dirname, expand_path, exist, directory, file, read, readlines, write"]}
{"id": "C107", "title": "Which rescue clause takes which error", "statement": "An error runs the first rescue clause whose list has a class or module that is among the ancestors of the error's class (a clause without a list: StandardError); when no clause does, the same error goes on. raise of an object raises that object, raise of an exception class an object of that class with the class's name as its message, raise of a text a RuntimeError with that message, raise of anything else a TypeError. An error the interpreter raises has Ruby's class for it at Ruby's place among the exception classes, so that rescue of that class or of one above it takes it and rescue of any other does not.", "quantifier": "all histories of classes, modules, includes, prepends and singleton classes after the boot; all clauses and class lists with splats; all errors", "why_tests_cant": "tests raise a few errors at a few clauses; which ancestors a class has depends on the whole history of the class graph, and each kind of error meets each list", "anchors": ["ruruby/src/vm/executor.rs: eval_rescue, handling of exception tables", "ruruby/src/builtin/kernel.rs: raise", "ruruby/src/builtin/exception.rs: init, exception_new", "ruruby/src/globals.rs: from_exception", "ruruby/src/codegen.rs: rescue clauses"]}
{"id": "C108", "title": "Arithmetic with Complex numbers", "statement": "+, - and * of Complex numbers with Integer parts of any size, and of such a number and an Integer on either side, give exactly the sum, difference and product; with Float parts, sums and differences are taken part by part. The quotient times the divisor is the dividend; division by zero raises. == holds exactly for equal parts, and of a Complex without imaginary part and an Integer or Float for equal values, whatever way it is written. Complex.rect, Complex(), rect, abs2 and inspect make, take apart and show these numbers; comparing them by size raises NoMethodError.", "quantifier": "all Integer parts of any size, all Float parts for sums and differences", "why_tests_cant": "the parts change between immediate words and heap integers at boundaries that tests do not reach, and every pair of representations has its own path", "anchors": ["ruruby/src/builtin/complex.rs", "ruruby/src/builtin/numeric.rs: add, sub, mul, div, inspect", "ruruby/src/value/real.rs", "ruruby/src/value/value.rs: to_complex, is_real", "ruruby/src/vm/executor/ops.rs: eval_eq2, eval_eqi"]}
{"id": "C109", "title": "Class and module definitions", "statement": "class C < S makes a new class whose ancestors are itself and those S shows its subclasses (class C: of Object), module M a new module; the constant names it and nothing else changes. The same name again, whatever was included, prepended, defined or called between, is the same class or module if the superclass is the first one or none is given; another superclass, or module for a class and class for a module, is a TypeError. The superclass of a class never changes. A superclass that is no class, a constant that is no class or module and a base that is none are TypeErrors.", "quantifier": "all histories of classes, modules, includes, prepends, method and constant definitions, before and after the definition; all superclasses, names and bases", "why_tests_cant": "tests reopen a class right after its definition; what is inserted between a class and its superclass depends on the whole history", "anchors": ["ruruby/src/vm/executor.rs: define_class", "ruruby/src/vm/executor/opt_core.rs: DEF_CLASS", "ruruby/src/builtin/class.rs: class_new, superclass", "ruruby/src/value/class.rs: superclass, get_const_noautoload"]}
{"id": "C110", "title": "Comparing modules and asking for constants", "statement": "M <=> N is 0 for the same module, 1 if M is among N's ancestors, -1 if N is among M's, nil otherwise and for anything that is no module. Classes are ordered by it: reflexive, antisymmetric and transitive, two superclasses of one class are always comparable, and B <=> A is the negative of A <=> B. M === x iff M is among the ancestors of x's class; M.include?(N) iff N is among the ancestors. const_get finds the first constant along the ancestors (then Object's, for a module), else NameError, and const_defined? says whether it does; constants lists exactly the names the module and its ancestors below Object define, constants(false) its own, once each.", "quantifier": "all histories of classes, modules, includes, prepends, method and constant definitions; all modules, classes and names", "why_tests_cant": "tests compare a handful of modules; the order must hold for any graph of includes and prepends made in any order", "anchors": ["ruruby/src/builtin/module.rs: teq, cmp, constants, const_defined, const_get, include_", "ruruby/src/vm/executor/constants.rs: get_super_const, get_scope", "ruruby/src/value/class.rs: include_module, upper"]}
{"id": "C111", "title": "Printed values", "statement": "inspect of nil, booleans, integers, symbols, strings, arrays, hashes and ranges, nested in any way, is their notation as literals, and two values that are printed the same hold the same data. to_s gives the text itself for strings and symbols, nothing for nil and the notation for the rest; an interpolated string is its parts in order, each as to_s gives it. p writes inspect of each argument and a newline, and returns nil, its argument or an array of them; print writes to_s of each argument; puts writes every element of arrays at any depth on a line of its own, and an empty line without arguments. All of them end.", "quantifier": "all heaps and values that hold finite data of any depth and width, shared parts included; all argument lists and all parts of interpolated strings", "why_tests_cant": "tests print a few values; that no two different data look the same needs all of them", "anchors": ["ruruby/src/vm/executor.rs: val_inspect", "ruruby/src/value/value.rs: val_to_s", "ruruby/src/builtin/array.rs: inspect", "ruruby/src/value/hash.rs: to_s", "ruruby/src/builtin/kernel.rs: puts, print, p", "ruruby/src/vm/executor/opt_core.rs: CONCAT_STRING"]}
{"id": "C112", "title": "require runs each file once", "statement": "In a program without load no file is run twice, not even the main program, whether files raise errors or require each other in a circle, and such a program always ends. require answers true exactly when it ran a file that never ran before and that came to its end, false when nothing happened at all. It takes the first directory of $: that has the name with .rb, given with or without that ending, an absolute name as it is; require_relative starts at the directory of the file in which it is written; without such a file an error is raised and nothing happens. load runs the file each time.", "quantifier": "all file systems, all programs in the files (calls of the three functions in any order, errors, rescue, changes of $: and of the files), all names and load paths, all working directories", "why_tests_cant": "tests load a few files; that no arrangement of files is run twice or never ends needs all of them", "anchors": ["ruruby/src/vm/executor/loader.rs: require, load_exec, load_file", "ruruby/src/builtin/kernel.rs: require, require_relative, load", "ruruby/src/globals.rs: add_source_file"]}
{"id": "C113", "title": "Method objects, &:symbol and module functions start the method the call would start", "statement": "v.method(:m).call(args) starts the method v.m(args) starts, with the same receiver, arguments, block and keyword arguments, and NameError is raised exactly when no ancestor defines m. An instance method taken from a class has the name asked for and, once bound to an object of the class, is what v.method gives; unbinding gives it back. The owner is the ancestor that defines the method. Two Method objects are equal exactly when they have the same object, name and definition, whenever they were taken. yield(v, args) to the block &:m is v.m(args); iterating with &:m calls m on every element; :m.to_proc called with v is v.m. module_function gives the module itself its present methods, changes nothing else, and later definitions elsewhere do not change them.", "quantifier": "all histories of class operations in which the version counter has not wrapped, all classes that are no singleton classes, all receivers, names and arguments", "why_tests_cant": "tests call one method object once; agreement with calls after any history of definitions, inclusions and cached calls needs an invariant", "anchors": ["ruruby/src/builtin/method.rs", "ruruby/src/builtin/unbound_method.rs", "ruruby/src/builtin/symbol.rs: to_proc", "ruruby/src/builtin/object.rs: method", "ruruby/src/builtin/module.rs: instance_method, module_function", "ruruby/src/vm/executor/method.rs: invoke_sym_proc, eval_block_map1, eval_block_each1_iter"]}
{"id": "C114", "title": "An operator calls the method of its name", "statement": "v op x, -v, v[i] and v[i] = x call the method named +, -, *, /, %, **, <<, >>, &, |, ^, <=>, >=, >, <=, <, -@, [] or []= that the class of v has, with the operands as the arguments in their order, once, or method_missing, or raise the error a call would raise; the value of the expression is what the method returns. Only operands whose calculation is built in (integers and floats, Array and Hash elements, true, false and nil with &, | and ^) call nothing. An integer literal as the operand makes no difference. v == x calls ==, v != x is its opposite, and C === x calls === of the class.", "quantifier": "all histories of class operations in which the version counter has not wrapped, all operators, all values and their kinds, all methods and their answers", "why_tests_cant": "tests try some operators on some classes; twenty operators with two instructions each times all pairs of kinds of operands after any history of definitions are not enumerable", "anchors": ["ruruby/src/vm/executor/ops.rs", "ruruby/src/vm/executor/opt_core.rs: 171-216, 367-383", "ruruby/src/vm/executor/method.rs: invoke_send0, invoke_send1, invoke_send2, eval_send1"]}
{"id": "C115", "title": "The variables of a binding", "statement": "A text evaluated with a binding (Binding#eval, eval with a binding, a line of the REPL) reads and writes the local variables around the place where the binding was made; variables it brings in itself belong to the binding, start as nil, keep their values for the texts evaluated with that binding later, and are not variables for other bindings of the same place, which share the variables of the method. self stays the same. A name is a variable in a text from its first assignment on. local_variables lists exactly the names a text can use, innermost first, each once, and local_variable_defined? tells whether a name is among them. A method called by a text returns into that text.", "quantifier": "all sequences of creating bindings and evaluating texts with any of them, all tables of names and values, all frames around the bindings", "why_tests_cant": "variables move in memory with every new name; tests look at a few names in one or two texts, not at every sequence of texts over several bindings that share frames", "anchors": ["ruruby/src/builtin/binding.rs", "ruruby/src/vm/executor/frame.rs: 299-345 set_iseq, enumerate_local_vars; 512-524", "ruruby/src/vm/executor/method.rs: 341-353 eval_binding", "ruruby/src/vm/executor/frame/heap.rs: 81-105 new_binding", "ruruby-parse/src/parser.rs: 49-57, 115-190"]}
{"id": "C116", "title": "Changing stacks", "statement": "When a fiber yields or ends, the call that resumed it returns as an ordinary call does: at the instruction after it, with the stack pointer and all registers the calling convention promises to keep. When a fiber that has yielded is resumed, its call of yield returns in the same way. When a fiber is resumed for the first time its code starts on a stack of its own, aligned as the convention asks, with the fiber as argument, and when that code returns the fiber is marked dead. Nothing else in memory is written. No two fibers, and no fiber and a stack kept for reuse, share a byte of stack. This holds on Linux/macOS x86-64, arm64 and Windows x86-64.", "quantifier": "all interleavings of creating, resuming, yielding, ending and freeing any number of fibers, nested to any depth, with any code in between that does not write to saved words; all register contents and addresses", "why_tests_cant": "a register that is not kept shows only if the compiler happens to hold something in it across a call; stacks that overlap show only when both are used deeply", "anchors": ["ruruby/src/coroutine/asm_x64.rs", "ruruby/src/coroutine/asm_arm64.rs", "ruruby/src/coroutine/asm_windows_x64.rs", "ruruby/src/coroutine/stack.rs", "ruruby/src/coroutine.rs: 64-69, 94-141, 168-187"]}
{"id": "C117", "title": "Arrays as objects", "statement": "reverse, compact, uniq, flatten, dup and + give a new array and change no array. reverse!, fill, clear, push, unshift, rotate! and concat of another array change the receiver only, and give it. compact!, uniq! and flatten! leave in the receiver what compact, uniq and flatten give, and give nil exactly if there was nothing to take out or open. uniq keeps of equal elements the first. flatten(n) opens arrays to depth n and always ends; flatten without a depth opens all, or raises ArgumentError, which it does only if the array contains itself. All of this holds when arrays are shared, and when the receiver is an element or an argument.", "quantifier": "all heaps of arrays, with sharing and cycles, all receivers and arguments", "why_tests_cant": "tests look at the result, not at other arrays that share elements with it; arrays that contain each other are not tried", "anchors": ["ruruby/src/builtin/array.rs: 236-240, 287-296, 341-355, 546-611, 687-780, 817-841, 1230-1304", "ruruby/src/value/array.rs: 107-139"]}
{"id": "C118", "title": "Percent literals", "statement": "%q, %w, %i, %Q and % with a delimiter read the text up to the closing delimiter, brackets inside counted. %q is the text with only \\' and \\\\ replaced, %Q and % that with all escapes replaced, %w the words and %i the symbols between separators. Nothing else is accepted, and a text has one reading.", "quantifier": "all delimiters and texts, all positions without a pending here document", "why_tests_cant": "tests use a few delimiters and short texts; nested brackets, escapes next to delimiters and line ends in any combination are not tried", "anchors": ["ruruby-parse/src/parser/lexer.rs: 748-847, 937-988", "ruruby-parse/src/parser/literals.rs: 83-120"]}
{"id": "C119", "title": "Here documents", "statement": "A here document is the lines from behind the current line, or behind the documents that began earlier in it, up to the first line that is its terminator (after blanks for <<- and <<~). The line goes on behind the mark, and the next line is the one behind the last document. With a single-quoted mark the text stands for itself, otherwise escapes and interpolations are read, with the local variables known. No text makes the parser panic.", "quantifier": "all marks, document texts, and lines with several documents", "why_tests_cant": "lines that look almost like the terminator, several documents in a line and what follows them are unbounded combinations", "anchors": ["ruruby-parse/src/parser/lexer.rs: 738-746, 1032-1110, 1166-1185, 1264-1277", "ruruby-parse/src/parser/literals.rs: 122-162, 309-321"]}
{"id": "C120", "title": "Strings with interpolations", "statement": "A string literal is read as its texts and the codes of its interpolations in their order, through the closing delimiter and the string literals that follow it directly, which are appended; texts and codes alternate; the reading is unique. The same holds for percent literals.", "quantifier": "all texts and all readings of the code in the interpolations that take something off the text", "why_tests_cant": "any number of interpolations, adjacent literals and brackets can be nested; tests fix a few", "anchors": ["ruruby-parse/src/parser/lexer.rs: 748-802", "ruruby-parse/src/parser/literals.rs: 15-81, 288-307", "ruruby-parse/src/parser/expression.rs: 685-696"]}
{"id": "C121", "title": "Regular expression literals", "statement": "The engine gets the pattern of a literal as it is written, with interpolated code in place, and its options in front. \\1 to \\9 are the groups, any options may be combined.", "quantifier": "all patterns, options and interpolations", "why_tests_cant": "tests match a few patterns; that every other pattern reaches the engine unchanged is not visible in them", "anchors": ["ruruby-parse/src/parser/lexer.rs: 861-935", "ruruby-parse/src/parser/literals.rs: 224-252", "ruruby/src/vm/executor.rs: 737-751"]}
{"id": "C122", "title": "Formal parameters", "statement": "The parameters of a method or block are accepted exactly in Ruby's order - required, optional, rest, required again, keywords, rest of the keywords, block, or required ones and `...` - with different names, and are read as they are written, with any defaults; a default sees the parameters before it. The variables of the scope are the parameters in their order, so that an argument put into a variable by its number is the parameter's value. Reading ends for every text.", "quantifier": "all parameter lists, defaults, enclosing scopes and texts", "why_tests_cant": "lists of any length mix nine kinds, each default is any expression, and three kinds of text (parentheses, bars, bare lines) end them", "anchors": ["ruruby-parse/src/parser.rs: 131-170, 353-358, 391-396, 470-622", "ruruby-parse/src/parser/define.rs: 155-169", "ruruby-common/src/lvar_collector.rs: 92-126", "ruruby/src/codegen.rs: 167-208"]}
{"id": "C123", "title": "Statements of control", "statement": "A program of expressions, if, unless, while, until and case, nested in any way, is read as it is written: each else, elsif, when and end belongs to the innermost statement that is still open, an elsif is an if in the else branch, and the variables known behind the program are those its parts assign. No text has two readings.", "quantifier": "all programs of these statements and all their texts", "why_tests_cant": "statements nest without bound, and each condition and body is any expression or program", "anchors": ["ruruby-parse/src/parser/flow_control.rs: 5-64, 114-139", "ruruby-parse/src/parser.rs: 314-337, 453-468", "ruruby-parse/src/parser/expression.rs: 6-26, 157-192, 736-742, 1000-1045"]}
