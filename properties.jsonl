{"id": "C01", "title": "Nesting round trip", "statement": "Structuring a flat function body and flattening it again yields exactly the original instruction sequence, and structuring a flattened structured body yields that structured body again (both for the typed and the untyped converter).", "quantifier": "every well-nested flat body of any length and nesting depth; every structured body", "why_tests_cant": "the space of nested bodies is infinite; the tests cover two hand-written modules", "anchors": ["wastrumentation/src/parse_nesting/typed_high_level_body.rs::TryFrom/From<Body>", "wastrumentation/src/parse_nesting/high_level_body.rs"]}
{"id": "C02", "title": "Nesting conversion accepts exactly the well-nested bodies", "statement": "Structuring a body succeeds if and only if the body is a well-bracketed block/loop/if/else/end sequence closed by one final end; in every other case the user gets an error value or (unclosed construct) an assertion panic, never a silently wrong structure.", "quantifier": "every finite instruction sequence, well formed or not", "why_tests_cant": "quantifies over all malformed sequences", "anchors": ["wastrumentation/src/parse_nesting/typed_high_level_body.rs::TryFrom", "wastrumentation/src/parse_nesting/typed_high_level_body_error.rs"]}
{"id": "C03", "title": "Reported locations identify the instruction", "statement": "Every structured instruction carries the position its opening instruction had in the original flat body; no two instructions of a function share a position; every hook call injected for an instruction passes exactly (function index, that position) as its last two arguments.", "quantifier": "every body, every instruction in it, every hook set", "why_tests_cant": "uniqueness and correctness over all bodies", "anchors": ["wastrumentation/src/parse_nesting/typed_high_level_body.rs::to_trap_call", "wastrumentation/src/parse_nesting/typed_indexed_instr.rs::type_inference_index_function"]}
{"id": "C04", "title": "Seventy-five passes equal one weave", "statement": "Running all enabled rewriting passes one after the other gives the same code as visiting each original instruction once and placing its own enabled hooks around it: no pass instruments code produced by another pass, no pass hides an instruction from a later pass, and no assertion fires.", "quantifier": "every body and every subset of the 75 instruction hooks", "why_tests_cant": "2^75 hook subsets times all bodies", "anchors": ["wastrumentation/src/instrument/mod.rs::instrument", "wastrumentation/src/instrument/*.rs::transform"]}
{"id": "C05", "title": "Instrumentation is erasable", "statement": "Removing from an instrumented body everything instrumentation added, and decoding each replaced operator from its serialized operand, gives back the original body.", "quantifier": "every body and hook subset", "why_tests_cant": "inverse property over all inputs", "anchors": ["wastrumentation/src/instrument/*.rs::transform", "wastrumentation/src/parse_nesting/typed_high_level_body.rs::instrument_with"]}
{"id": "C06", "title": "Hooks that are not enabled leave no trace", "statement": "An instruction for which no enabled hook applies appears unchanged in the output; with no hook enabled the body is unchanged and no analysis import is added.", "quantifier": "every body, every hook subset", "why_tests_cant": "universal over bodies and subsets", "anchors": ["wastrumentation/src/instrument/mod.rs::instrument"]}
{"id": "C07", "title": "Weaving correctness", "statement": "Executing the instrumented module, with imports linked to an arbitrary analysis, behaves exactly like executing the original module under an interpreter that consults the analysis at each documented hook point with the documented operands and uses its answer.", "quantifier": "every module, hook set, target selection, hash-iteration order, analysis program (stateful, re-entrant), argument list, initial store", "why_tests_cant": "whole-program behavioural equivalence for every program and analysis, including divergence", "anchors": ["wastrumentation/src/instrument/mod.rs::instrument", "wastrumentation/src/instrument/*"]}
{"id": "C08", "title": "Transparency of the forwarding analysis", "statement": "With an analysis that forwards every hook unchanged, the instrumented module returns the same results and leaves the same memory, globals and tables as the original module whenever the original terminates normally.", "quantifier": "every valid module with memory offsets below 2^31, every hook subset, target selection, function, arguments", "why_tests_cant": "semantic preservation for all programs", "anchors": ["wastrumentation/src/instrument/mod.rs::instrument", "wastrumentation-instr-lib/tests/analyses/rust/forward"]}
{"id": "C09", "title": "Trap preservation fails for wrapped addresses", "statement": "An original execution that traps also traps when instrumented with the forwarding analysis. (Expected to hold without load/store hooks; violated with them because the base load/store helpers add address and offset modulo 2^32.)", "quantifier": "every program that traps", "why_tests_cant": "needs an adversarial offset/address pair", "anchors": ["wastrumentation/src/instrument/memory.rs::inject_memory_loads", "wastrumentation/src/instrument/memory.rs::inject_memory_stores"]}
{"id": "C10", "title": "Hook event trace", "statement": "A recording analysis observes exactly the sequence of events given by the hook documentation for the run of the original program: each executed hooked instruction reports once, in execution order, with its operands and location.", "quantifier": "every program run, hook subset", "why_tests_cant": "all execution histories", "anchors": ["wastrumentation/src/instrument/*.rs::transform"]}
{"id": "C11", "title": "Branch labels keep their meaning", "statement": "Instrumentation never changes the nesting depth at which an original instruction sits, so each br/br_if/br_table in the output targets the construct that the original targeted.", "quantifier": "every body, hook subset, label", "why_tests_cant": "universal over nestings", "anchors": ["wastrumentation/src/instrument/*.rs::transform"]}
{"id": "C12", "title": "Branch-table helper computes the taken label", "statement": "For a br_table with any table and default, the generated helper, given index i, returns i together with the label the br_table would take (table entry i if i, read unsigned, is in range, otherwise the default), and touches no state.", "quantifier": "every table (any length, any labels below 2^31), default, index", "why_tests_cant": "unit tests try one table and six indices", "anchors": ["wastrumentation/src/instrument/branch_if/generate_branch_table.rs::generate_body"]}
{"id": "C13", "title": "Operator codes decode to the operator executed", "statement": "The operator code handed to unary, binary, load and store hooks is decoded by the analysis standard library to the same operator; distinct operators have distinct codes and unknown codes are rejected.", "quantifier": "all 60 unary, 76 binary, 14 load and 9 store operators; all 32-bit codes", "why_tests_cant": "two hand-written tables in different crates must be mutually inverse", "anchors": ["wastrumentation/src/instrument/simple_operations.rs::serialize", "wastrumentation/src/instrument/memory.rs::serialize", "wastrumentation-instr-lib/tests/analyses/rust/wastrumentation-rs-stdlib/src/{unary,binary,memory}.rs"]}
{"id": "C14", "title": "Hook signatures agree with operand types", "statement": "For each instruction and enabled hook, the operands that the injected code puts on the stack and the result the rest of the code expects have exactly the types of the hook function imported for it.", "quantifier": "all instructions and hooks", "why_tests_cant": "type agreement between the interface table, the pass table and the instruction set", "anchors": ["wastrumentation/src/analysis/mod.rs::simple_interfaces", "wastrumentation/src/instrument/simple_operations.rs::transform"]}
{"id": "C15", "title": "Instrumented code is valid", "statement": "If the input function body validates, the instrumented body validates in the instrumented module, including in unreachable code; all generated functions (branch helpers, apply functions, wrappers, memory helpers, call_base) validate too.", "quantifier": "every valid module, hook set, target selection", "why_tests_cant": "validity for all programs", "anchors": ["wastrumentation/src/instrument/mod.rs::instrument"]}
{"id": "C16", "title": "Valid programs do not go wrong", "statement": "Under the hook-consulting semantics a validated module never reaches a stuck state, for any analysis that respects its interface types; in particular instructions the type checker labels unreachable are never executed, so no hook is silently skipped.", "quantifier": "every valid module, analysis, run", "why_tests_cant": "type soundness is a statement about all runs", "anchors": ["wastrumentation/src/parse_nesting/typed_indexed_instr.rs", "wastrumentation/src/instrument/memory.rs::transform"]}
{"id": "C17", "title": "Function interception protocol", "statement": "When function interception is enabled, each call of a selected function invokes the analysis once with that function's table position, index, argument count, result count, a buffer holding its arguments in order, a buffer holding its result and argument types and its code/import flag; resuming runs that very function on the buffered arguments; the caller receives the buffered results.", "quantifier": "every selected function, signature, argument list, iteration order", "why_tests_cant": "all signatures and orders", "anchors": ["wastrumentation/src/instrument/function_application.rs::instrument"]}
{"id": "C18", "title": "Argument/result buffers round trip", "statement": "A value written to argument or result slot i of a call buffer is read back unchanged, for all four number types, and writing a slot changes no other slot; slots of both sides have the position and element type the analysis library assumes.", "quantifier": "every signature, slot, value bit pattern (incl. NaN payloads)", "why_tests_cant": "all signatures and bit patterns", "anchors": ["wastrumentation/src/stack_library.rs", "supported-languages/webassembly/src/generate/instrumentation/mod.rs", "supported-languages/assemblyscript/src/generate/instrumentation/lib_boilerplate.ts"]}
{"id": "C19", "title": "Live call buffers are disjoint and released in order", "statement": "Buffers of simultaneously active calls never overlap as long as live buffers fit the 32-bit address space, a call's buffers survive nested calls unchanged, and after a call returns the allocator is back at the position it had before.", "quantifier": "every call history", "why_tests_cant": "all nested call histories and sizes", "anchors": ["supported-languages/webassembly/src/generate/instrumentation/mod.rs", "supported-languages/assemblyscript/src/generate/instrumentation/lib_boilerplate.ts"]}
{"id": "C20", "title": "Allocator overflow", "statement": "The buffer allocator never hands out overlapping live buffers. (Violated: the bump pointer addition wraps modulo 2^32 before the size check.)", "quantifier": "every allocation size and allocator state", "why_tests_cant": "needs near-4GiB state", "anchors": ["supported-languages/webassembly/src/generate/instrumentation/mod.rs::stack_allocate"]}
{"id": "C21", "title": "Library symbols are unambiguous", "statement": "Names generated for buffer operations are pairwise distinct across operation kind, side, slot and signature, and every buffer function the instrumented module imports is exported under that name by the generated library with the same type.", "quantifier": "all pairs of reference-free signatures, all operations, slots", "why_tests_cant": "name collisions over infinitely many signatures", "anchors": ["wastrumentation/src/wasm_constructs/mod.rs::generate_name", "wastrumentation/src/stack_library.rs", "supported-languages/webassembly/src/generate/instrumentation/mod.rs"]}
{"id": "C22", "title": "Reference-typed signature names", "statement": "The symbol names agree between importer and library for every signature. (Violated for reference types in the WebAssembly generator; harmless only because such functions are never selected.)", "quantifier": "all signatures", "why_tests_cant": "needs comparison of two mangling functions on all signatures", "anchors": ["wastrumentation/src/wasm_constructs/mod.rs::as_str", "supported-languages/webassembly/src/generate/instrumentation/mod.rs::mangled_wat_name"]}
{"id": "C23", "title": "Hook selection installs exactly the requested imports", "statement": "The interface derived from a set of selected hooks imports exactly the trap functions belonging to those hooks, each once, each under its own name; all trap names are distinct.", "quantifier": "all subsets of the 28 selectable hooks", "why_tests_cant": "2^28 subsets", "anchors": ["supported-languages/webassembly/src/generate/analysis/mod.rs::interface_from", "supported-languages/rust/src/generate/analysis", "cli/src/main.rs"]}
{"id": "C24", "title": "Unselected functions are untouched", "statement": "Functions outside the requested target indices, and functions whose signature mentions reference types, keep their code (or import) unchanged.", "quantifier": "every module and target selection", "why_tests_cant": "universal", "anchors": ["wastrumentation/src/instrument/mod.rs::instrument", "wastrumentation/src/instrument/mod.rs::uses_reference_types"]}
{"id": "C25", "title": "Indices and exports survive", "statement": "Every function, table, memory, global and export of the input is present in the output at the same index with the same type and export names; new entities are only appended.", "quantifier": "every module, hook set, target selection, iteration order", "why_tests_cant": "universal", "anchors": ["wastrumentation/src/instrument/mod.rs::instrument", "wastrumentation/src/instrument/function_application.rs::instrument", "wastrumentation/src/instrument/memory.rs"]}
{"id": "C26", "title": "Export name clashes", "statement": "The output module has pairwise distinct export names whenever the input has. (Violated when the input already exports one of the 25 helper names or call_base.)", "quantifier": "every module", "why_tests_cant": "needs adversarial export names", "anchors": ["wastrumentation/src/instrument/memory.rs::inject_memory_loads", "wastrumentation/src/instrument/function_application.rs::instrument"]}
{"id": "C27", "title": "Base memory helpers perform the intercepted access", "statement": "Calling base load/store/grow/size helper with the intercepted operands has the same effect as the original instruction whenever address plus offset does not exceed the 32-bit address space and the module has a memory.", "quantifier": "all operators, addresses, offsets, memories, values", "why_tests_cant": "all addresses and memory contents", "anchors": ["wastrumentation/src/instrument/memory.rs::inject_memory_loads", "wastrumentation/src/instrument/memory.rs::inject_memory_stores", "wastrumentation/src/instrument/memory.rs::inject_memory_grow", "wastrumentation/src/instrument/memory.rs::inject_memory_size"]}
{"id": "C28", "title": "Large static offsets", "statement": "The standard library's load/store operation can perform every intercepted access. (Violated: static offsets of 2^31 and above panic in the conversion to i32.)", "quantifier": "all offsets below 2^32", "why_tests_cant": "needs huge offsets", "anchors": ["wastrumentation-instr-lib/tests/analyses/rust/wastrumentation-rs-stdlib/src/memory.rs::perform"]}
{"id": "C29", "title": "Independence of hash iteration order", "statement": "The behaviour of the instrumented module does not depend on the order in which the selected functions are visited.", "quantifier": "every pair of visiting orders", "why_tests_cant": "randomised hash order makes this untestable", "anchors": ["wastrumentation/src/instrument/mod.rs::instrument", "wastrumentation/src/instrument/function_application.rs::instrument"]}
{"id": "C30", "title": "Module merge order", "statement": "Merging passes the primary module first when one is chosen, passes each existing module exactly once under its own namespace, and leaves out the buffer library exactly when none was generated.", "quantifier": "all primary selections, presence/absence of the library", "why_tests_cant": "small but combinatorial", "anchors": ["wastrumentation/src/lib.rs::merge", "wasm-merge/src/lib.rs"]}
{"id": "C31", "title": "Purity analysis terminates", "statement": "The immutable-function analysis always terminates, after at most number-of-functions + 1 rounds.", "quantifier": "every module", "why_tests_cant": "termination", "anchors": ["wastrumentation-static-analysis/src/lib.rs::immutable_functions"]}
{"id": "C32", "title": "Purity analysis is sound", "statement": "A function reported immutable, when called, changes no memory, global or table and its results do not depend on them: two runs on the same arguments from any two stores give the same results.", "quantifier": "every module, reported function, arguments, stores", "why_tests_cant": "information-flow property over all runs", "anchors": ["wastrumentation-static-analysis/src/lib.rs::is_pure"]}
{"id": "C33", "title": "Purity analysis result is exact least fixpoint", "statement": "The reported set does not depend on the order in which functions are visited, and it is the least set closed under the purity rules.", "quantifier": "every module and visiting order", "why_tests_cant": "hash-order nondeterminism", "anchors": ["wastrumentation-static-analysis/src/lib.rs::immutable_functions"]}
{"id": "C34", "title": "Memoization is transparent", "statement": "Calls answered by the memoizing analysis return what the intercepted pure function would have returned.", "quantifier": "every call history of deterministic functions that does not exhaust the cache during a pending call", "why_tests_cant": "all histories", "anchors": ["wastrumentation-instr-lib/tests/analyses/rust/pure-functions-memoization"]}
{"id": "C35", "title": "Memoization never aborts the program", "statement": "The memoizing analysis never aborts. (Violated: the capacity check precedes the nested call, whose own insertions can fill the cache.)", "quantifier": "every call history", "why_tests_cant": "needs more than 1024 nested distinct calls", "anchors": ["wastrumentation-instr-lib/tests/analyses/rust/pure-functions-memoization"]}
{"id": "C36", "title": "Call buffer accessors", "statement": "In the analysis standard library, argument i and result i accessors read and write exactly the slots the program reads and writes, reject indices out of bounds, and bulk update visits each slot once.", "quantifier": "all signatures, indices", "why_tests_cant": "all signatures", "anchors": ["wastrumentation-instr-lib/tests/analyses/rust/wastrumentation-rs-stdlib/src/lib.rs::RuntimeValues"]}
{"id": "C37", "title": "Location handed to Rust advice", "statement": "The location object given to Rust advice reports the function index as function index and the instruction index as instruction index. (Violated: constructor arguments are swapped at every call site.)", "quantifier": "all locations with function index different from instruction index", "why_tests_cant": "tests use symmetric or unchecked locations", "anchors": ["wastrumentation-instr-lib/tests/analyses/rust/wastrumentation-rs-stdlib/src/lib.rs::Location,advice"]}
{"id": "C38", "title": "Call-stack analysis counters", "statement": "The call-stack analysis reports the true nesting depth of active calls at any time.", "quantifier": "every call history", "why_tests_cant": "all histories", "anchors": ["wastrumentation-instr-lib/tests/analyses/rust/call-stack"]}
{"id": "C39", "title": "WASP advice validation", "statement": "An apply advice is accepted exactly when its argument/result types are one of the three documented pairs and its three identifiers are distinct; specialised advice is accepted exactly when parameter names are pairwise distinct and types are number types.", "quantifier": "all advice declarations", "why_tests_cant": "all strings", "anchors": ["wasp-compiler/src/ast/wasp.rs"]}
{"id": "C40", "title": "WASP join points agree with the interface", "statement": "The join points computed for a WASP program are exactly the hooks its generated interface exports.", "quantifier": "all WASP programs", "why_tests_cant": "all programs", "anchors": ["wasp-compiler/src/joinpoints.rs", "supported-languages/assemblyscript/src/generate/analysis/wasp.rs"]}
{"id": "C41", "title": "WASP mutability marker", "statement": "A specialised apply advice is compiled as mutable exactly when it was written with Mut. (Violated: the flag is inverted.)", "quantifier": "all specialised advice", "why_tests_cant": "needs source-level comparison", "anchors": ["wasp-compiler/src/ast/wasp.rs::ApplySpeInter,ApplySpeIntro"]}
{"id": "C42", "title": "Generated identifiers are unique", "statement": "The identifier generator maps distinct numbers to distinct alphabetic identifiers.", "quantifier": "all machine integers", "why_tests_cant": "the test stops at 100000", "anchors": ["supported-languages/assemblyscript/src/generate/analysis/util.rs::to_alphabetic"]}
{"id": "C43", "title": "Rust analysis library exports every hook", "statement": "For each of the 75 hooks the Rust analysis standard library's advice macro exports a function under exactly the name the instrumented module imports, with exactly the imported parameter and result types, and it exports no trap function that is not a hook.", "quantifier": "all hooks; all exported names", "why_tests_cant": "A wrong name or type in a rarely used arm only shows when an analysis uses that arm on a program containing that instruction; tests exercise few arms.", "anchors": ["wastrumentation-instr-lib/tests/analyses/rust/wastrumentation-rs-stdlib/src/lib.rs:617-1392", "wastrumentation/src/analysis/mod.rs:1-330"]}
{"id": "C44", "title": "Pipeline failures are attributed to their stage", "statement": "The pipeline reports an analysis-compilation error exactly if the analysis does not compile, an instrumentation error exactly if the program does not parse or the instrumentation reports an error, a library error exactly if the generated buffer library does not compile, a merge error exactly if wasm-merge fails on the modules in their documented order, and panics exactly if the instrumentation panics; otherwise it delivers what wasm-merge returns.", "quantifier": "all programs, analyses, interfaces, target selections, primary selections and tool behaviours", "why_tests_cant": "needs every combination of failing stages", "anchors": ["wastrumentation/src/lib.rs::wastrument", "wastrumentation/src/error.rs"]}
{"id": "C45", "title": "Instrumenting a well-formed module succeeds", "statement": "If the external type checker accepts every body of the module, the module has at most one memory, and function counts, arities, called indices and branch labels are below 2^31 (body lengths below 2^63), instrumentation returns a module: it reports no error and no unwrap or expect in it panics.", "quantifier": "all modules within those limits, all hook selections, all target selections, all iteration orders of the target sets", "why_tests_cant": "each unwrap needs its own extreme input and every hook/instruction combination", "anchors": ["wastrumentation/src/instrument/mod.rs::instrument", "wastrumentation/src/instrument/*.rs::transform", "wastrumentation/src/instrument/function_application.rs"]}
{"id": "C46", "title": "Opcode histogram is exact", "statement": "After any session with an instrumented module under the opcodes analysis, get_count_instr(k) is the number of events of the k-th kind in the run of the original program, modulo 2^32, and indices from 27 on panic; results and program state are those of the original.", "quantifier": "all valid modules, all sessions (traps included while addresses stay below 2^32), all hosts", "why_tests_cant": "counts depend on every execution path; the mapping has 27 arms", "anchors": ["benchmarking-node/input-analyses/rust/opcodes"]}
{"id": "C47", "title": "Cryptominer signature is exact", "statement": "After any session under the cryptominer-detection analysis, get_signature(k) is the number of executed binary operators of the k-th class (add, and, shl, shr_u, xor), for less than 2^63 events.", "quantifier": "all valid modules, all sessions, all hosts", "why_tests_cant": "all executions", "anchors": ["benchmarking-node/input-analyses/rust/cryptominer-detection"]}
{"id": "C48", "title": "Instruction coverage", "statement": "After any session under the coverage-instruction analysis, get_coverage(f, i) is 1 exactly if instruction i of function f reported an event.", "quantifier": "all valid modules, all sessions, all hosts", "why_tests_cant": "tests only look at small functions; the two indices are exchanged", "anchors": ["benchmarking-node/input-analyses/rust/coverage-instruction"]}
{"id": "C49", "title": "Loop counts", "statement": "After any session under the loops analysis, get_count_for(f, i) is the number of times the loop at instruction i of function f was entered or repeated.", "quantifier": "all valid modules, all sessions, all hosts", "why_tests_cant": "the count is consistently one too low", "anchors": ["benchmarking-node/input-analyses/rust/loops"]}
{"id": "C50", "title": "Block profile", "statement": "After any session under the block-profiling analysis, get_count(f, i, t) is the number of times the block, loop, call or branch at instruction i of function f was taken with run-time target t.", "quantifier": "all valid modules, all sessions, all hosts", "why_tests_cant": "the count is consistently one too low", "anchors": ["benchmarking-node/input-analyses/rust/block-profiling"]}
{"id": "C51", "title": "Global access counts", "statement": "After any session under the globals analysis, get_inc(g, 0) and get_inc(g, 1) are the numbers of reads and writes of global g.", "quantifier": "all valid modules, all sessions, all hosts", "why_tests_cant": "which of the two counts is wrong depends on the first access", "anchors": ["benchmarking-node/input-analyses/rust/globals"]}
{"id": "C52", "title": "Call graph edges", "statement": "After any session under the call-graph analysis, the edge (f, g) is present exactly if function f executed a direct call of function g.", "quantifier": "all valid modules, all sessions, all hosts", "why_tests_cant": "the caller is taken from the wrong index", "anchors": ["benchmarking-node/input-analyses/rust/call-graph"]}
{"id": "C53", "title": "Instruction counts per function", "statement": "After any session under the icount analysis, get_count_for(f, k) is the number of executed instructions of kind k in function f.", "quantifier": "all valid modules, all sessions, all hosts", "why_tests_cant": "the accessor ignores k", "anchors": ["benchmarking-node/input-analyses/rust/icount"]}
{"id": "C54", "title": "Buffers are released", "statement": "After a session in which every call returns, the allocator of the buffer library is back at its initial position.", "quantifier": "all valid modules, all sessions without traps, all hosts (re-entrant ones included), all analyses that forward and keep statistics", "why_tests_cant": "leaks depend on nesting and re-entrancy", "anchors": ["supported-languages/webassembly/src/generate/instrumentation/mod.rs", "wastrumentation/src/instrument/function_application.rs"]}
{"id": "C55", "title": "The generated Rust library compiles and exports what is imported", "statement": "For any list of signatures, the generated Rust buffer library passes name resolution and type checking exactly if no signature has a reference type (and slot counts fit in usize), and it exports every operation the output module imports and every accessor of the analysis, with the imported WebAssembly type.", "quantifier": "all lists of signatures, of any length, with repetitions and shared counts", "why_tests_cant": "the generated source is assembled from string templates that depend on all signatures; a clash or type error shows up only for particular combinations", "anchors": ["supported-languages/rust/src/generate/instrumentation/mod.rs L16-400", "wastrumentation/src/compiler"]}
{"id": "C56", "title": "The generated Rust library keeps frames apart", "statement": "For any history of nested calls within the capacity of the allocator, every value and type read from a frame is the one last written to that slot, live buffers do not overlap, and all buffers are freed when all calls have returned.", "quantifier": "all histories of frame operations, all signatures, all allocators that keep the allocator contract, all garbage in unused union bytes", "why_tests_cant": "histories and allocators are unbounded", "anchors": ["supported-languages/rust/src/generate/instrumentation/mod.rs L16-460", "supported-languages/rust/src/generate/instrumentation/mod.rs L560-700"]}
{"id": "C57", "title": "Transparency with the Rust library", "statement": "With the buffer library generated as Rust (the one the command line uses), a forwarding analysis leaves outcomes, traps and state of every session as they are, a recording analysis sees exactly the events of the original run, and memoizing pure functions returns the same results.", "quantifier": "all valid modules, hook sets, selections, sessions, hosts, and all allocators that keep the contract and have room for the pending calls", "why_tests_cant": "needs every module and every session", "anchors": ["supported-languages/rust/src/generate/instrumentation/mod.rs", "wastrumentation/src/lib.rs"]}
{"id": "C58", "title": "Running out of buffer memory traps", "statement": "When the allocator has no memory left, an intercepted call of the instrumented program traps; it does not return a wrong result.", "quantifier": "all modules, sessions and allocators", "why_tests_cant": "memory exhaustion is not provoked by tests", "anchors": ["supported-languages/rust/src/generate/instrumentation/mod.rs L578-601"]}
{"id": "C59", "title": "No allocation of zero bytes", "statement": "The generated Rust library never asks its allocator for zero bytes, which GlobalAlloc forbids.", "quantifier": "all signatures and histories", "why_tests_cant": "undefined behaviour does not show in tests with a lenient allocator", "anchors": ["supported-languages/rust/src/generate/instrumentation/mod.rs L578-601"]}
{"id": "C60", "title": "safe-heap does not change programs it accepts", "statement": "Under the safe-heap analysis, a program whose loads and stores are all aligned and as wide as their values (none ending at byte 2^32) has the same outcomes, traps and state in every session; any other program goes the same way up to a call that the analysis stops.", "quantifier": "all valid modules, hosts, sessions", "why_tests_cant": "every program and every access pattern", "anchors": ["benchmarking-node/input-analyses/rust/safe-heap/src/lib.rs", "wastrumentation-instr-lib/tests/analyses/rust/wastrumentation-rs-stdlib/src/memory.rs L130-215"]}
{"id": "C61", "title": "safe-heap lets only aligned operands pass", "statement": "If a session under safe-heap is not stopped, the address operand of every load and store executed was a multiple of the size of the value.", "quantifier": "all valid modules, hosts, sessions", "why_tests_cant": "every program and every access pattern", "anchors": ["benchmarking-node/input-analyses/rust/safe-heap/src/lib.rs"]}
{"id": "C62", "title": "safe-heap rejects exactly the accesses it documents", "statement": "safe-heap stops accesses through a null pointer and accesses at an effective address that is not a multiple of the width of the access, and no others.", "quantifier": "all accesses", "why_tests_cant": "addresses, offsets and widths are too many to enumerate", "anchors": ["benchmarking-node/input-analyses/rust/safe-heap/src/lib.rs", "wastrumentation-instr-lib/tests/analyses/rust/wastrumentation-rs-stdlib/src/memory.rs L130-152", "wastrumentation-instr-lib/tests/analyses/rust/wastrumentation-rs-stdlib/src/memory.rs L188-215"]}
{"id": "C63", "title": "memstats counts accesses per byte", "statement": "After any session, the report of memstats for a byte is the number of loads (stores) that touched the byte, modulo 2^32, and the session has the outcomes of the original, as long as its vectors fit in memory.", "quantifier": "all valid modules, hosts, sessions, all bytes", "why_tests_cant": "counts depend on the whole run", "anchors": ["benchmarking-node/input-analyses/rust/memstats/src/lib.rs"]}
{"id": "C64", "title": "memstats never stops a program and answers for every byte", "statement": "Every program that runs without memstats runs with it, and its report can be asked for every byte of the memory.", "quantifier": "all valid modules, sessions, bytes", "why_tests_cant": "needs accesses at large addresses, or queries above the highest access", "anchors": ["benchmarking-node/input-analyses/rust/memstats/src/lib.rs"]}
{"id": "C65", "title": "branches and coverage-branch report the last decision", "statement": "After any session, the report of the branches analyses for a branch location (function, instruction) is the condition last evaluated there, and can be told from `not executed`.", "quantifier": "all valid modules, hosts, sessions, locations", "why_tests_cant": "needs every control flow", "anchors": ["benchmarking-node/input-analyses/rust/branches/src/lib.rs", "benchmarking-node/input-analyses/rust/coverage-branch/src/lib.rs"]}
{"id": "C66", "title": "The AssemblyScript buffer library compiles and exports what is imported", "statement": "The AssemblyScript source of the call-buffer library passes the compiler's checks exactly if no intercepted signature has reference types (and slot numbers fit in 32 bits); then every function that output modules import from it is exported with the type they import it with, and so are the accessors of analyses.", "quantifier": "all lists of signatures", "why_tests_cant": "signatures of every length, shared counts, duplicates", "anchors": ["supported-languages/assemblyscript/src/generate/instrumentation/mod.rs", "supported-languages/assemblyscript/src/generate/instrumentation/lib_boilerplate.ts"]}
{"id": "C67", "title": "The AssemblyScript buffer library keeps frames apart, and traps when memory is exhausted", "statement": "Over every history of calls the library returns what was stored for the frame and slot, live buffers do not overlap and lie in memory, and they are released when calls return. With fewer than 8192 slots per signature a history that needs more than the pages that can be added traps.", "quantifier": "all signatures, histories, initial and maximal memory sizes", "why_tests_cant": "histories fill up to 4 GiB; depends on the bump pointer arithmetic", "anchors": ["supported-languages/assemblyscript/src/generate/instrumentation/mod.rs", "supported-languages/assemblyscript/src/generate/instrumentation/lib_boilerplate.ts L1-127"]}
{"id": "C68", "title": "With the AssemblyScript library forwarding is transparent, events are the run's, and memoization is right", "statement": "With the AssemblyScript library, forwarding analyses change no outcome or state of any session (if memory runs out a call traps, a result is never wrong), a recording analysis sees the events of the original run, and memoizing pure functions has the original results.", "quantifier": "all valid modules, hosts, sessions, memory sizes", "why_tests_cant": "every program under every interleaving of calls", "anchors": ["supported-languages/assemblyscript/src/generate/instrumentation/mod.rs", "supported-languages/assemblyscript/src/generate/instrumentation/lib_boilerplate.ts", "wastrumentation/src/instrument/function_application.rs"]}
{"id": "C69", "title": "Which WASP files give a well-formed AssemblyScript program", "statement": "The AssemblyScript program generated from a WASP file declares no name twice (top level, parameters, variables), uses only declared classes, and gives every constructor arguments that it takes. The generator should guarantee this for every accepted file; it holds exactly if no two advices are for the same join point and identifiers differ from each other and from the parameters of the generated function. The exported functions are those the interface imports.", "quantifier": "all WASP files with identifiers of the grammar", "why_tests_cant": "every combination of advices and identifiers", "anchors": ["supported-languages/assemblyscript/src/generate/analysis/mod.rs L70-198, L384-683", "supported-languages/assemblyscript/src/generate/analysis/std_analysis_lib_*.ts", "wasp-compiler/wasp.pest L20", "wasp-compiler/src/ast/wasp.rs L216-292"]}
{"id": "C70", "title": "forward.wasp is transparent", "statement": "With the analysis generated from forward.wasp and the AssemblyScript buffer library, every session of every valid module has the same outcomes and state as without instrumentation; if memory runs out a call traps, a result is never wrong.", "quantifier": "all valid modules, hosts, sessions, memory sizes", "why_tests_cant": "every program under every interleaving of calls", "anchors": ["supported-languages/assemblyscript/src/generate/analysis/mod.rs", "wastrumentation-instr-lib/tests/analyses/wasp-as/forward.wasp", "supported-languages/assemblyscript/src/generate/analysis/std_analysis_lib_if.ts", "supported-languages/assemblyscript/src/generate/analysis/std_analysis_lib_call.ts"]}
{"id": "C71", "title": "WASP advice is told what happens", "statement": "For every well-formed WASP program, guest code that only observes is run for exactly the advised events of the original run, in order, with the right objects in scope, and does not change the program; guest code that reads everything in scope sees every event in full, conditions as booleans.", "quantifier": "all WASP files with a well-formed program, guest codes, modules, sessions", "why_tests_cant": "every program and every advice", "anchors": ["supported-languages/assemblyscript/src/generate/analysis/mod.rs L159-683", "supported-languages/assemblyscript/src/generate/analysis/std_analysis_lib_*.ts"]}
{"id": "C72", "title": "MutDynArgs and MutDynResults give access to exactly their slots", "statement": "length, getType, get and set of the objects of an apply advice: the slot with that index, its type code, its value; set replaces that slot and nothing else; an index below zero or past the last traps and changes nothing. A loop over all indices reads all values in order.", "quantifier": "all signatures, stacks of frames, indices (32-bit), any buffer library that implements the operations", "why_tests_cant": "indices over all 32-bit values; offsets in nested frames", "anchors": ["supported-languages/assemblyscript/src/generate/analysis/std_analysis_lib_gen_apply.ts L57-169"]}
{"id": "C73", "title": "WASP texts are read as the grammar says", "statement": "The parser accepts a text with a syntax tree exactly if the text spells the tokens of the tree with blank space and comments between them; no text has two readings; a file written from a tree is read back as that tree, guest code verbatim up to its closing marker. (Violated: `#|` in guest code opens a comment that may hide the closing marker and whole advices after it, without an error.)", "quantifier": "all texts and all syntax trees", "why_tests_cant": "infinitely many texts; layout, comments, keywords that are prefixes of others, guest code", "anchors": ["wasp-compiler/wasp.pest L1-93", "wasp-compiler/src/ast/pest/mod.rs L19-33", "wasp-compiler/src/lib.rs L22-33"]}
{"id": "C74", "title": "The WASP compiler on any text", "statement": "The compiler panics on no text; the identifiers of every compiled file are words of letters, so the program generated from it is well-formed exactly under the conditions of C69.", "quantifier": "all texts", "why_tests_cant": "infinitely many texts", "anchors": ["wasp-compiler/src/lib.rs L22-33", "wasp-compiler/wasp.pest L20", "wasp-compiler/src/ast/wasp.rs L276-630"]}
{"id": "C75", "title": "denan keeps NaNs out of the program", "statement": "Under the analysis denan no installed hook returns a NaN to the program and none is passed on to memory; where a NaN is replaced, zero of the same type takes its place and any other value stays. An intercepted function finds its arguments, and its caller the results, with zeros for NaNs and otherwise unchanged.", "quantifier": "all hooks, operands, signatures, buffers and states of the program", "why_tests_cant": "bit patterns of NaNs of both widths, all operators, any number of arguments and results", "anchors": ["benchmarking-node/input-analyses/rust/denan/src/lib.rs L7-31", "wastrumentation-rs-stdlib/src/lib.rs L462-476"]}
{"id": "C76", "title": "denan leaves programs without NaNs alone", "statement": "A session in which no operand, result, constant, argument or returned value is a NaN (and in which no float is loaded from memory) has the same results, traps, memory, globals, tables and host state under denan.", "quantifier": "all modules, hosts, sessions", "why_tests_cant": "all programs, all inputs", "anchors": ["benchmarking-node/input-analyses/rust/denan/src/lib.rs L18-31", "wastrumentation-rs-stdlib/src/lib.rs L462-476"]}
{"id": "C77", "title": "Locations told to an analysis name the instruction", "statement": "Every advice an analysis receives carries the index of a selected function with code and the position of an instruction in it, and what the advice says (kind, operator, labels, indices, offset, arities) is what stands at that position.", "quantifier": "all modules, hosts, hooks, selections, sessions", "why_tests_cant": "positions depend on the whole pipeline, for every instruction of every program", "anchors": ["wastrumentation-instr-lib/tests/analyses/rust/wastrumentation-rs-stdlib/src/lib.rs L617-1392", "wastrumentation/src/wasm_constructs/typed_high_level_body.rs"]}
{"id": "C78", "title": "memory-tracing notes the accesses", "statement": "After a session in which no call traps, memory-tracing has counted every load and store, its buffer has the last million of them in order (place, address, kind), and the session went as without it.", "quantifier": "all modules, hosts, sessions, numbers of accesses", "why_tests_cant": "runs of more than a million accesses; any program", "anchors": ["benchmarking-node/input-analyses/rust/memory-tracing/src/lib.rs L6-106"]}
{"id": "C79", "title": "memory-tracing reports places and addresses correctly", "statement": "What memory-tracing reports as function index, instruction index and address of the n-th access is the function, the instruction and the address of the access, and every access is noted.", "quantifier": "all accesses", "why_tests_cant": "needs large addresses, and accesses that trap", "anchors": ["benchmarking-node/input-analyses/rust/memory-tracing/src/lib.rs L54-67", "benchmarking-node/input-analyses/rust/memory-tracing/src/lib.rs L78-106"]}
{"id": "C80", "title": "taint leaves the program alone", "statement": "A session whose loads and stores have address operands below 2^31, and for whose labels there is memory, goes as without the analysis taint (given space for the buffers); any other session goes as without it at least up to a call that traps.", "quantifier": "all modules, hosts, selections, sessions", "why_tests_cant": "any program, any depth of nesting of blocks and calls", "anchors": ["benchmarking-node/input-analyses/rust/taint/src/lib.rs L51-135", "benchmarking-node/input-analyses/rust/taint/src/lib.rs L158-500"]}
{"id": "C81", "title": "taint has no source of taint", "statement": "After no session is any label of the mirror of the analysis taint set: not in a block, a local, the memory, a global or the return value.", "quantifier": "all modules, hosts, sessions", "why_tests_cant": "absence of taint in all sessions", "anchors": ["benchmarking-node/input-analyses/rust/taint/src/lib.rs L37-49", "benchmarking-node/input-analyses/rust/taint/src/lib.rs L254-264", "benchmarking-node/input-analyses/rust/taint/src/lib.rs L365-373"]}
{"id": "C82", "title": "taint mirrors the program's frames and values", "statement": "At the end of a call the mirror of taint has no frame left, and while the program runs it has a label for each value on the operand stack.", "quantifier": "all sessions", "why_tests_cant": "any sequence of calls", "anchors": ["benchmarking-node/input-analyses/rust/taint/src/lib.rs L142-156", "benchmarking-node/input-analyses/rust/taint/src/lib.rs L254-305"]}
{"id": "C83", "title": "wasm-merge receives the intended arguments", "statement": "The command line run for a merge names the program wasm-merge, followed by exactly the options that are set, the pairs of path and namespace in order, and -o with the output path, for all option settings and all paths and namespaces without blanks and without characters that bash interprets.", "quantifier": "all option settings, all lists of modules, all paths", "why_tests_cant": "2^23 option settings, any number of modules, any paths", "anchors": ["wasm-merge/src/lib.rs L28-37", "wasm-merge/src/lib.rs L106-128", "wasm-merge/src/lib.rs L153-179", "wasm-merge/src/options.rs L5-72", "wastrumentation/src/lib.rs L192-200"]}
{"id": "C84", "title": "what wasm-merge delivers is what the pipeline returns", "statement": "When the temporary files can be made and written, wasm-merge is run once on files that hold the given modules, and the result is what it left in the output file; a run of wasm-merge that failed is an error, one that succeeded is none.", "quantifier": "all modules, all behaviours of the external program", "why_tests_cant": "any behaviour of the external program and the file system", "anchors": ["wasm-merge/src/lib.rs L81-151", "wasm-merge/src/error.rs L4-20", "wastrumentation/src/lib.rs L146-202"]}
{"id": "C85", "title": "the command-line tool instruments for the hooks asked for", "statement": "The tool refuses exactly the values of --hooks that name no hook; what it writes is the merge for the program instrumented for the hooks asked for (all without --hooks) and the targets given, whose imports from the analysis are the traps of these hooks; order and repetition of the values do not matter.", "quantifier": "all option values, programs, analyses", "why_tests_cant": "all combinations of 28 hooks, any order of the hash set", "anchors": ["cli/src/main.rs L16-36", "cli/src/main.rs L38-102", "cli/src/main.rs L104-148"]}
{"id": "C86", "title": "the static-analysis tool reports exactly the pure functions", "statement": "The command-line tool of the static analysis does not panic and writes a JSON array of the indices of exactly the functions that are pure by the rules of the analysis and whose body has at least the given number of instructions, each once.", "quantifier": "all modules the parser accepts, all minima, all orders of the hash set", "why_tests_cant": "all modules and orders; partial writes", "anchors": ["wastrumentation-static-analysis/src/main.rs L25-53", "wastrumentation-static-analysis/src/lib.rs L31-111"]}
{"id": "C87", "title": "the merged modules resolve each other's imports", "statement": "If the analysis exports the trap functions of the selected hooks (an analysis written with advice! does so exactly if it gives an advice for each of them) and imports from the other modules only what the analysis libraries declare, and the generic apply is among the hooks whenever the analysis uses it, then every import of the instrumented input, the analysis and the stack library from one another names a function which that module exports with the same type; what the merged module still imports is imported by the input, or by the analysis from elsewhere. Conversely each missing trap function, and each function that needs the generic apply when that is not selected, remains an unresolved import.", "quantifier": "all inputs that import nothing from the three namespaces and export none of the names of the instrumentation, all sets of hooks, all selections of functions, all analyses, the three stack libraries", "why_tests_cant": "all modules, hook sets and signatures", "anchors": ["wastrumentation/src/lib.rs L110-200", "wastrumentation-instr-lib/tests/analyses/rust/wastrumentation-rs-stdlib/src/lib.rs L33-77", "wastrumentation-instr-lib/tests/analyses/rust/wastrumentation-rs-stdlib/src/lib.rs L617-1392", "supported-languages/assemblyscript/src/generate/analysis/std_analysis_lib_gen_apply.ts L10-29"]}
{"id": "C88", "title": "signatures-check accepts exactly the expected calls, in order", "statement": "The advice of the analysis signatures-check calls the function; once it has returned, the call is accepted and the position in the list of expectations goes up by one exactly if there is an expectation at that position, its arguments are the first arguments of the call and its results the first results; all_expectations_met is set exactly with the last one. Any other call stops the program, and from then on every intercepted call does, as the locks are never released.", "quantifier": "all lists of expectations, all calls of all numeric signatures, all nestings of calls, all buffer libraries that implement the interface", "why_tests_cant": "all lists of expectations and all calls", "anchors": ["wastrumentation-instr-lib/tests/analyses/rust/signatures-check/src/lib.rs L10-217", "wastrumentation-instr-lib/tests/analyses/rust/wastrumentation-rs-stdlib/src/lib.rs L189-199"]}
{"id": "C89", "title": "logging prints every event once, in order, and changes nothing", "statement": "Under the analysis logging of the integration tests, with any set of hooks, the program returns the same results and its state is the same, and the lines printed are, in order, one for each event of the run of the original program, showing its kind and parameters; two lines (before and after) for each intercepted call. Only a load that traps is not printed.", "quantifier": "all valid modules, all sets of hooks, all selections of functions, all sessions with enough buffer space", "why_tests_cant": "all programs, sessions and hook sets; the existing test compares one program's output", "anchors": ["wastrumentation-instr-lib/tests/analyses/rust/logging/src/lib.rs L7-262", "wastrumentation-instr-lib/tests/analyses/rust/wastrumentation-rs-stdlib/src/lib.rs L328-344"]}
{"id": "C90", "title": "an analysis that decides otherwise acts as an edit of the program", "statement": "If the analysis answers the hooks before select, if, br_if, br_table and call_indirect as some straight-line code on the operand would compute, the instrumented program behaves exactly as the original program with that code inserted before each such instruction: same results, traps, divergence and state. In particular the WASP files of the integration tests that invert a condition amount to i32.eqz before the instruction, and br-table-alter.wasp to adding 1 to the index (modulo 2^32).", "quantifier": "all valid modules, all such analyses and inserted code, all selections of functions, all hosts and sessions", "why_tests_cant": "an edit deep inside nested control flow, loops and recursion for all programs; the tests check ten small calls", "anchors": ["wastrumentation-instr-lib/tests/analyses/wasp-as/select-alter.wasp", "wastrumentation-instr-lib/tests/analyses/wasp-as/if-then-alter.wasp", "wastrumentation-instr-lib/tests/analyses/wasp-as/if-then-else-alter.wasp", "wastrumentation-instr-lib/tests/analyses/wasp-as/branch-if-alter.wasp", "wastrumentation-instr-lib/tests/analyses/wasp-as/br-table-alter.wasp", "wastrumentation-instr-lib/tests/test-configurations.json L300-1200"]}
{"id": "C91", "title": "the counting WASP files of the tests count", "statement": "With call_stack.wasp, block.wasp, loop.wasp and the call_chain files, compiled against the AssemblyScript library, the instrumented program has the results of the original, and the exported globals end up as the numbers of calls, ends of calls, blocks, loops, entered and left functions of the original run (modulo 2^32); max_call_depth and max_apply_depth of call_stack.wasp are the greatest numbers of calls and functions open at a time, also across calls that trapped. Without enough memory a call can only trap.", "quantifier": "all valid modules, selections of functions, hosts, memories and sessions with any calls and arguments", "why_tests_cant": "counts over all executions, nested and recursive, with traps in between; the tests compare the numbers of eight runs", "anchors": ["wastrumentation-instr-lib/tests/analyses/wasp-as/call_stack.wasp", "wastrumentation-instr-lib/tests/analyses/wasp-as/block.wasp", "wastrumentation-instr-lib/tests/analyses/wasp-as/loop.wasp", "wastrumentation-instr-lib/tests/analyses/wasp-as/call_chain_pre.wasp", "wastrumentation-instr-lib/tests/analyses/wasp-as/call_chain_post.wasp", "wastrumentation-instr-lib/tests/analyses/wasp-as/call_chain_pre_post.wasp", "wastrumentation-instr-lib/tests/test-configurations.json"]}
{"id": "C92", "title": "when instrumentation reports an error", "statement": "Instrumentation returns an error only if the body of a function it looks at (with code, without references in its type, asked for) is rejected by the type checker or is not properly nested, and the error says which. If no such body leaves a construct open, it returns an error exactly in these cases; if all such bodies are properly nested (as in every binary that decodes), exactly if the type checker rejects one, and always the type inference error. A module with such a body is never instrumented; functions that are not looked at do not matter.", "quantifier": "all modules, type checkers, analyses, selections, orders of the hash sets", "why_tests_cant": "a rejected body at any position in any order, with any selection; there are no tests of failing inputs", "anchors": ["wastrumentation/src/instrument/mod.rs L127-162", "wastrumentation/src/parse_nesting/typed_high_level_body.rs L226-371"]}
{"id": "C93", "title": "set_arg_ret_to_zero.wasp hands out zeros", "statement": "Whenever the apply advice of set_arg_ret_to_zero.wasp is run for an intercepted call, the function is run with zeros of the types of its parameters in the place of its arguments, and whatever it returns, zeros of the types of its results are in the buffer when control goes back to the caller; the buffers of the other open calls are left alone and nothing traps.", "quantifier": "all signatures of up to 8191 numeric slots, all arguments and results, all states of the buffers with any number of open calls, any library of buffers that implements the interface, any behaviour of the function", "why_tests_cant": "the tests run one program with one parameter of each type; the loop over the slots, the tags and the offsets for all signatures", "anchors": ["wastrumentation-instr-lib/tests/analyses/wasp-as/set_arg_ret_to_zero.wasp", "supported-languages/assemblyscript/src/generate/analysis/std_analysis_lib_gen_apply.ts L57-188", "wastrumentation-instr-lib/tests/test-configurations.json"]}
{"id": "C94", "title": "WASP files without apply advice that return nothing are transparent", "statement": "With a WASP file that has no apply advice and whose guest code returns nothing, such as call_indirect.wasp and empty.wasp, the instrumented program has the results, traps and state of the original in every session, also if its start function traps, and whatever the memory available: no buffers are needed.", "quantifier": "all valid modules, WASP files without apply advice, selections of functions, hosts, memory sizes including none, and sessions with any calls and arguments", "why_tests_cant": "the tests run call_indirect.wasp with one program; they do not show that no memory is needed or that no other program is changed", "anchors": ["wastrumentation-instr-lib/tests/analyses/wasp-as/call_indirect.wasp", "wastrumentation-instr-lib/tests/analyses/wasp-as/empty.wasp", "wastrumentation-instr-lib/tests/test-configurations.json"]}
{"id": "C95", "title": "signatures_check.wasp accepts a call exactly if it is the next one expected", "statement": "Under signatures_check.wasp, an intercepted function is first run; when it has returned, the next expectation is taken, and the program goes on exactly if the call has the expected arguments and results, in number, type and value, and traps otherwise, also if no expectation is left. all_expectations_met is set when the last expectation is taken, which does not say that it, or the ones before it, held.", "quantifier": "all lists of expectations, signatures of up to 8191 numeric slots, arguments and results, all states of the buffers with any number of open calls, any library of buffers that implements the interface, any behaviour of the function", "why_tests_cant": "the test runs one program that meets all expectations; it cannot show that other calls are rejected", "anchors": ["wastrumentation-instr-lib/tests/analyses/wasp-as/signatures_check.wasp", "supported-languages/assemblyscript/src/generate/analysis/std_analysis_lib_gen_apply.ts L57-188", "wastrumentation-instr-lib/tests/test-configurations.json L157-171"]}
