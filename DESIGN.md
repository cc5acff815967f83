# Formal model of wastrumentation

Rocq (Coq 8.16.1), standard library only. Sources: `rocq/theories/*.v`, built in the order
of `rocq/_CoqProject`. The subject is read as text from `/repo` at its pinned commit; nothing
of it is run.

* `properties.jsonl` lists the properties, `MANIFEST.json` the theorems that prove them.
* Property theorems are in the `Prop*.v` files, are named after their property (`C08_...`) and
  are followed by `Print Assumptions` and by an `Example` that meets the hypotheses.
* A property that the code violates has a theorem ending in `_refuted`: a concrete witness in
  the model. Next to it stands what does hold.
* `seeded/LOG.jsonl` records the wrong programs the theorems were tried against.

## The model, file by file

Definitions that model code carry a comment with the file and lines they follow. The other
files are specification vocabulary (`*Spec.v`, `Semantics.v`, `Advice.v`, `Trace.v`,
`Typing.v`) or proofs (`*Proofs.v`, `*Lemmas.v`, `*Rel.v`).

| Files | Code modelled, or purpose |
| --- | --- |
| `Base`, `Bytes` | list lemmas, error/state monad; little-endian access (not code) |
| `Syntax` | the `wasabi_wasm` types that the repository uses; structured instructions of `parse_nesting` |
| `Nesting`, `NestingSpec`, `NestingProofs`, `PropNesting` | `parse_nesting/{typed_high_level_body,high_level_body,typed_indexed_instr}.rs`: flat and structured bodies (C01-C03) |
| `Hooks` | `analysis/mod.rs`: hook names, signatures, operator codes; the trap table of `instrument/mod.rs` |
| `BrTable`, `Passes` | `instrument/branch_if/generate_branch_table.rs`; the passes `block_loop`, `function_call_indirect`, `branch_if`, `simple_operations`, `memory` |
| `WeaveSpec`, `WeaveProofs`, `WeavePropSpec`, `WeavePropProofs`, `PropWeave` | the passes as one weave; erasure, labels (C04-C06, C11) |
| `Names`, `Instrument`, `InstrumentProofs`, `ImportProofs`, `PropInstrument` | `wasm_constructs`, `stack_library.rs`, `instrument::instrument`, `function_application.rs`, `memory::inject_*` (C24-C26) |
| `Semantics`, `Instantiate`, `RunLemmas`, `Fuel` | an interpreter for modules, instantiation and sessions (meaning of WebAssembly, not code) |
| `Advice`, `AdviceRel`, `AdviceProofs`, `SpecProofs`, `InstantiateProofs`, `PropSpec` | specification of instrumented execution over the *original* module; the output follows it (C07, C12) |
| `Interface`, `PropInterface` | `analysis/mod.rs` `interface_from`, the hook enum of `supported-languages/rust/src/generate/analysis` (C23) |
| `Pipeline`, `PropPipeline` | `wastrumentation/src/lib.rs`, `compiler/mod.rs`, `wasm-merge/src/lib.rs` up to the external process (C30, C44) |
| `Alphabetic`, `PropAlphabetic` | identifier generator of `supported-languages/assemblyscript/.../util.rs` (C42) |
| `Wasp`, `PropWasp` | `wasp-compiler/src/{ast/wasp,joinpoints,wasp_interface}.rs` and the exported names of the AssemblyScript generator (C39-C41) |
| `RsStdlib`, `PropStdlib` | `wastrumentation-rs-stdlib/src/{lib,unary,binary,memory}.rs`: accessors, the `advice!` macro, operator tables (C13, C28, C37, C43) |
| `StackLib`, `StackNames`, `StackAsm`, `StackRun`, `StackOps`, `StackSpec`, `StackHist`, `PropStack` | `supported-languages/webassembly/src/generate/instrumentation/mod.rs`: the generated buffer library, assembled and executed (C18-C22) |
| `RustLib`, `RustNames`, `RustRun`, `RustProofs`, `RustTypes`, `RustHeap`, `PropRust` | `supported-languages/rust/src/generate/instrumentation/mod.rs`: the generated Rust buffer library as functions with a type checker and a meaning; the allocator by contract (C55-C59) |
| `Purity`, `PuritySpec`, `PurityProofs`, `PropPurity` | `wastrumentation-static-analysis/src/lib.rs` (C31-C33) |
| `System`, `SystemProofs`, `AccessProofs`, `PropSystem`, `PropMemory` | output module + buffer library + analysis + host as one program (C17, C27, C36) |
| `Typing`, `TypingProofs`, `AdvisedTyping`, `ModuleTyping`, `InstantiateTyping`, `Checker`, `WeaveTyping`, `ValidOutput`, `PropTyping`, `PropValid`, `PropTotal` | WebAssembly validation, type soundness, validity of the output, totality (C14-C16, C45) |
| `Trace`, `TraceProofs`, `TraceBalance` | the events of a plain run: which advice the interface promises, on which values |
| `ForwardRel`, `ForwardBody`, `OwnProofs`, `ForwardProofs`, `SessionProofs`, `Recorder`, `PropTransparent` | simulation of a plain session by the instrumented system under a forwarding analysis (C08-C10) |
| `Analyses`, `AnalysesProofs`, `PropAnalyses`, `PropCallStack` | the bundled analyses call-stack, opcodes, cryptominer-detection, coverage-instruction, loops, block-profiling, globals, call-graph, icount (C38, C46-C54) |
| `AsLib`, `AsNames`, `AsRun`, `AsProofs`, `AsTypes`, `PropAs` | the call-buffer library generated as AssemblyScript: generator, boilerplate, compilation, sessions (C66-C68) |
| `WaspAs`, `WaspAsProofs`, `WaspAsSessions`, `WaspAsAccess`, `PropWaspProgram`, `PropWaspAs` | the analysis program generated as AssemblyScript from a WASP file: generator, library of objects, `forward.wasp`, sessions (C69-C72) |
| `WaspText`, `WaspGrammar`, `WaspTextProofs`, `WaspParseProofs`, `PropWaspText` | the text of WASP files: `WaspText` the pest grammar as a parser, `WaspGrammar` what a text spells (C73, C74) |
| `Denan`, `PropDenan` | the analysis denan (C75, C76) |
| `TraceLocs` | where the events of a trace come from (C77) |
| `Tracing`, `PropTracing` | the analysis memory-tracing (C77-C79) |
| `Taint`, `PropTaint` | the analysis taint (C80-C82) |
| `Merge`, `PropMerge` | `wasm-merge/src/{lib,options,error}.rs` with bash and the external program as oracles, `cli/src/main.rs` (C83-C85) |
| `StaticTool`, `PropStaticTool` | `wastrumentation-static-analysis/src/main.rs` (C86) |
| `Link`, `PropLink` | the namespaces, imports and exports of the merged modules: `wastrumentation/src/lib.rs` L146-190, the extern blocks and the arms of `advice!` of `wastrumentation-rs-stdlib/src/lib.rs`; wasm-merge's resolution of imports is trusted (C87) |
| `SigCheck`, `PropSigCheck` | the analysis `tests/analyses/rust/signatures-check/src/lib.rs` with its expectations, and `tests/input-programs/wat/different_signatures.wat`; a panic leaves the `Mutex`es locked, and locking a locked `Mutex` traps (C88) |
| `Logging`, `PropLogging` | the analysis `tests/analyses/rust/logging/src/lib.rs`; what a line shows, not its wording; `println!` is assumed not to panic (C89) |
| `Edit`, `AlterProofs`, `PropAlter` | specification of programs edited before their decisions; the WASP files `tests/analyses/wasp-as/*-alter.wasp`: what their guest code means is written by hand (C90) |
| `PropCounters` | the WASP files `tests/analyses/wasp-as/{call_stack,block,loop,call_chain_*}.wasp`: what their guest code means is written by hand (C91) |
| `PropErrors` | when `instrument` reports an error (C92) |
| `PropZero` | the WASP file `tests/analyses/wasp-as/set_arg_ret_to_zero.wasp`: what its guest code means is written by hand (C93) |
| `PropSilent` | the WASP files `tests/analyses/wasp-as/{call_indirect,empty}.wasp` and others without apply advice that return nothing (C94) |
| `PropExpect` | the WASP file `tests/analyses/wasp-as/signatures_check.wasp`: what its guest code means is written by hand (C95) |
| `Guards`, `PropGuards` | the bundled analyses safe-heap, memstats, branches, coverage-branch (C60-C65) |
| `Handles`, `PropOrder` | independence of hash-set order (C29) |
| `Memo`, `MemoProofs`, `MemoSession`, `PropMemo` | `tests/analyses/rust/pure-functions-memoization` (C34, C35) |
| `ExModule` | a module for the examples |

## Choices in the model

* Execution is a total function with explicit depth fuel. Running out of fuel is its own
  outcome (`Oof`), a trap is `Trap` with the state at that point, ill-typed execution is
  `Stuck`. Theorems about sessions assume that the *original* finishes within some fuel `n`
  and give a bound for the instrumented one (`5 * n + 2`), so that no answer depends on the
  fuel chosen.
* Numbers are bit patterns in `Z`. The numeric operators that generated code uses (`i32.eqz`,
  `i32.add`, `i32.sub`, `i32.mul`, `i32.eq`, `i32.gt_u`, `i64.extend_i32_u`, `i32.wrap_i64` and the
  reinterpretations; `unop_sem`, `binop_sem` in `Semantics.v`) have their meaning from the specification. All other operators are
  arbitrary functions `num1`, `num2` to an optional bit pattern, with `None` a trap: theorems
  hold for every interpretation of them.
* Analysis and host are arbitrary finite interaction trees with private state. They may read
  and write the memory and globals and re-enter the program. The buffer library is not an
  oracle: it is the generated WebAssembly, run by the same interpreter.
* The buffer library generated as Rust is a list of functions over a small expression language
  (`RustLib.v`): type checking decides whether it compiles, and `rust_call` is what it does to the
  linear memory. `WasmValue` is 8 bytes, `RuntimeType` 4; bytes of a union outside the field
  written are arbitrary (`junk`). The allocator `wee_alloc` is any pair of functions that keeps
  the contract `allocates`: blocks of requested size, disjoint from live ones, whose contents
  stay. What happens without that contract (null pointers, zero sizes) is C58 and C59.
* A Rust panic is an explicit error value in modelled tool code, and a trap in modelled
  analysis code.
* The vectors of memstats are functions with a length; whether one can grow to `k` elements is an
  oracle `room k`, false from 2^31 bytes on. Arithmetic of analyses wraps, as in the release
  profile they are built with.
* The type checker of `wasabi_wasm` is a function `infer` from bodies to annotations. What is
  assumed of it is written in each theorem: one annotation per instruction
  (`same_length_oracle`), or the annotations of a typing derivation (`annotates`).
* The order in which Rust iterates a hash set is a permutation `ord_i`, `ord_c`, arbitrary in
  every theorem.
* `memory.grow` and `table.grow` succeed whenever the limits allow. At most one memory.
  Imported memories, tables and globals are copied in, not shared between instances.

## Properties

* **C01, Nesting round trip.** Both converters, both directions. Theorems: `C01_flatten_after_structure`, `C01_structure_after_flatten`, `C01_untyped_round_trip`.
* **C02, Nesting conversion accepts exactly the well-nested bodies.** Acceptance, panic and error cases characterised exactly. Theorems: `C02_accepts_exactly_well_nested`, `C02_untyped_accepts_exactly_well_nested`, `C02_panics_exactly_on_unclosed`, `C02_untyped_panics_exactly_on_unclosed`, `C02_errors`.
* **C03, Reported locations identify the instruction.**  Theorems: `C03_locations`.
* **C04, Seventy-five passes equal one weave.** Passes in the code's order equal the weave; other orders too except the if-then pair, which is refuted by an example. Theorems: `C04_passes_equal_weave`, `C04_passes_do_not_panic`, `C04_any_order`, `C04_if_then_order_matters`.
* **C05, Instrumentation is erasable.** Up to alignment hints, which instrumentation does not pass on. Theorems: `C05_erasable`.
* **C06, Hooks that are not enabled leave no trace.**  Theorems: `C06_unhooked_body_unchanged`, `C06_unhooked_instruction_kept`.
* **C07, Weaving correctness.** Sessions and single calls; ill-formed executions (Stuck) are exempted here and excluded for valid modules by C16. Theorems: `C07_sessions`, `C07_calls`.
* **C08, Transparency of the forwarding analysis.** Whole sessions of the output module with the generated buffer library, the compiled forwarding analysis and a host (instantiation, start function, any calls of exports). Proved for every hook set, selection and interception, for modules with the names of the analysis free, offsets below 2^31 where accesses are reported and at most 8191 parameters and results. C08_forwarding: the same outcomes and state whenever the buffers of pending intercepted calls stay within the 65535 pages the buffer library can have (counted exactly along the trace, enough_space). C08_any_space: with no such assumption, every call up to one that traps for lack of space has the same outcome and leaves the same state. Theorems: `C08_forwarding`, `C08_any_space`.
* **C09, Trap preservation fails for wrapped addresses.** Refuted as stated: C09_refuted gives a valid module whose trapping load returns a value under the forwarding analysis (address plus offset wraps). C09_traps_preserved: traps are preserved whenever reported accesses stay below 2^32; C09_without_access_hooks: always, if loads and stores are not hooked; C09_failing_start: also for traps during instantiation. Theorems: `C09_traps_preserved`, `C09_failing_start`, `C09_without_access_hooks`, `C09_refuted`.
* **C10, Hook event trace.** The analysis state after a session is the fold of its update function over the events of the run of the original module (Trace.v, defined on plain runs only), for any state and update function. Reported locations are in the order the analysis library names them (C37). Theorems: `C10_events`, `C10_log`.
* **C11, Branch labels keep their meaning.**  Theorems: `C11_labels_keep_meaning`.
* **C12, Branch-table helper computes the taken label.**  Theorems: `C12_helper_computes_label`, `C12_label_is_taken`.
* **C13, Operator codes decode to the operator executed.**  Theorems: `C13_unary_codes`, `C13_binary_codes`, `C13_load_codes`, `C13_store_codes`, `C13_codes_distinct`, `C13_unary_apply`, `C13_binary_apply`, `C13_memory_targets`.
* **C14, Hook signatures agree with operand types.** C14_passes_preserve_types: run_passes (the model of all passes) takes code of a WebAssembly type to code of that type whenever the called trap functions have the interface's declared types, so every injected call agrees with its function's type; unreachable code included. The external type checker's annotations are a hypothesis (annotated_ok). Theorems: `C14_passes_preserve_types`.
* **C15, Instrumented code is valid.** C15_output_validates: for every valid module, hook selection and target set the output module satisfies the whole validity predicate (bodies, generated functions, tables, elements, start, exports), provided the input exports none of the added names; C26 shows that condition is needed. Theorems: `C15_output_validates`.
* **C16, Valid programs do not go wrong.** Type soundness for calls and whole sessions; unreachable-annotated instructions are never executed. Validity, annotations and agent typing are defined in Typing.v/ModuleTyping.v, independently of the instrumentation. Simplification: all br_table targets have one label type. Theorems: `C16_calls`, `C16_sessions`, `C16_output_sessions`, `C16_original_calls`, `C16_unreachable_not_executed`.
* **C17, Function interception protocol.** On the output module, over the generated library (as proved in C18-C22), for arbitrary analysis and host agents. Results of the analysis are those left in the frame's slots; the resumed function's own code is the one the specification of C07 runs. Hypotheses: free buffer space within the library's limit (C20), call_base not already exported by the program (first export wins), results of the resumed code of the declared types (what C16 states). Theorems: `C17_intercepted_call`, `C17_resume`.
* **C18, Argument/result buffers round trip.** WebAssembly generator of the library; for both the operations of the instrumented program and the numbered accesses of the analysis. Theorems: `C18_round_trip`.
* **C19, Live call buffers are disjoint and released in order.** Over event histories of the program and the analysis on the library itself; capacity is 65535 pages, not 65536. Theorems: `C19_separate_frames`, `C19_released`.
* **C20, Allocator overflow.** Refuted as stated: witness with a signature of 8192 results. Proved for signatures of at most 8191 slots. Theorems: `C20_bounded_signatures`, `C20_refuted`.
* **C21, Library symbols are unambiguous.** Names distinct for all signatures, also with reference types. Theorems: `C21_names_distinct`, `C21_imports_exported`.
* **C22, Reference-typed signature names.** Refuted as stated: witness. Proved that the signatures passed to the library never involve reference types. Theorems: `C22_signatures_numeric`, `C22_refuted`.
* **C23, Hook selection installs exactly the requested imports.**  Theorems: `C23_interface_exact`, `C23_set_determines`, `C23_imports_exact`.
* **C24, Unselected functions are untouched.**  Theorems: `C24_unselected_untouched`.
* **C25, Indices and exports survive.**  Theorems: `C25_indices_survive`.
* **C26, Export name clashes.** Refuted as stated: witnesses for a helper name and for call_base. Proved when the input uses none of the added names. Theorems: `C26_distinct_unless_clash`, `C26_clash_refuted`, `C26_call_base_clash_refuted`.
* **C27, Base memory helpers perform the intercepted access.** For every load and store operator and every in-bounds effective address below 2^32, calling the generated helper export has exactly the effect and result of the instruction; memory.grow and memory.size helpers likewise. Hypothesis: the program itself exports no function of the helper's name (see C26). Address+offset beyond 2^32 is excluded here (C09). Theorems: `C27_load`, `C27_store`, `C27_grow_and_size`.
* **C28, Large static offsets.** Refuted as stated: for every operator and every offset in [2^31, 2^32). Offsets below 2^31 are proved to reach the helper. Theorems: `C28_small_offsets`, `C28_large_offsets_refuted`.
* **C29, Independence of hash iteration order.** C29_handles: for any two visiting orders of the hash sets, any hooks, interception or not, and arbitrary well-typed agents, sessions with the two outputs have the same results and leave the same memory, globals, tables and agents' state, if the numbers (apply table positions) by which the analysis resumes functions are translated. C29_opaque: with the same agents if they only hand the number back to call_base. C29_specialised: without interception no condition on agents. C29_rust: for Rust analyses with the generated library. ex_order_visible shows an analysis that looks at the number does see the order, so the translation is needed. Theorems: `C29_handles`, `C29_opaque`, `C29_specialised`, `C29_rust`.
* **C30, Module merge order.**  Theorems: `C30_merge_order`.
* **C31, Purity analysis terminates.** The bound (number of functions + 1 rounds) is met exactly by the example chain. Theorems: `C31_stops`, `C31_rounds`.
* **C32, Purity analysis is sound.** Same results or same trap from any two stores, and no change to either store; modules as in DESIGN.md (numeric operators arbitrary but deterministic). Theorems: `C32_reported_functions_are_pure`.
* **C33, Purity analysis result is exact least fixpoint.** Mutually recursive functions without state are not in the least set and are not reported (example). Theorems: `C33_least_closed_set`, `C33_order_irrelevant`.
* **C34, Memoization is transparent.** Whole sessions of the output module with buffer library, memoizing analysis and host: for pure intercepted functions (in particular those the purity analysis reports, C34_reported_functions) the memoized program has the same outcomes, traps included, and the same state of the program after every call, up to the end of the session or to a call that aborts; it aborts only if the original makes more than 1024 distinct cacheable calls (the capacity) or the buffer space runs out. C34_within_capacity: otherwise the whole session agrees, and every cached entry is the result of the function it stands for. Theorems: `C34_memoization`, `C34_within_capacity`, `C34_failing_start`, `C34_reported_functions`.
* **C35, Memoization never aborts the program.** Refuted as stated: C35_refuted gives a session of a valid module, with functions reported pure by the tool, that the original completes and whose last call aborts under the memoizing analysis at the real capacity of 1024. Theorems: `C35_refuted`.
* **C36, Call buffer accessors.** For any state of the library reachable by a history (C36_library_starts, C36_library_behaves). Writes through set_arg/set_res are proved for values of the slot's type; the accessor itself does not check that. Theorems: `C36_library_behaves`, `C36_library_starts`, `C36_library_implements`, `C36_values_of_call`, `C36_reads`, `C36_writes`, `C36_rejects`, `C36_types`, `C36_iterates`, `C36_updates`.
* **C37, Location handed to Rust advice.** Refuted as stated: the two indices are exchanged for every hook. Theorems: `C37_location_refuted`.
* **C38, Call-stack analysis counters.** Refuted as stated for sessions with traps (C38_refuted: depth 6 is reported, no call is more than 3 deep: abandoned calls stay on the analysis' stacks). C38_counters: with less than 2^31 events and no traps all four counters are exact and both stacks end empty. Indirect calls are not counted as calls (the analysis has no hook for them). Theorems: `C38_counters`, `C38_refuted`.
* **C39, WASP advice validation.** On the syntax tree after parsing; the identifier of the advice's function parameter is not part of the distinctness check of specialised advice (example). Theorems: `C39_apply_validation`.
* **C40, WASP join points agree with the interface.** Proved for programs without specialised advice. Refuted as stated: for specialised apply advice the join points exist but the interface is todo!(). Theorems: `C40_join_points_interface`, `C40_specialised_refuted`.
* **C41, WASP mutability marker.** Refuted as stated: the flag is inverted for every specialised advice. Theorems: `C41_mutability_refuted`.
* **C42, Generated identifiers are unique.** Distinctness proved; the documented example order is refuted (first letter). Theorems: `C42_unique`, `C42_first_letter_refuted`.
* **C43, Rust analysis library exports every hook.**  Theorems: `C43_exports_match_hooks`.
* **C44, Pipeline failures are attributed to their stage.** Exact condition for each outcome of the pipeline. Theorems: `C44_failing_stage`.
* **C45, Instrumenting a well-formed module succeeds.** C45_instrumentation_succeeds. Acceptance by the external type checker is the hypothesis annotates; ex_c45_mems and ex_c45_rejected show that the memory and type-checker premises are needed. Theorems: `C45_instrumentation_succeeds`.
* **C46, Opcode histogram is exact.** Whole-system theorem on top of C07/C10. Theorems: `C46_histogram`.
* **C47, Cryptominer signature is exact.** Whole-system theorem on top of C07/C10. Theorems: `C47_signature`.
* **C48, Instruction coverage.** Refuted as stated (C48_refuted): the two indices are exchanged. C48_exchanged: get_coverage(i, f) is exact. Theorems: `C48_exchanged`, `C48_refuted`.
* **C49, Loop counts.** Refuted as stated (C49_refuted). C49_off_by_one: what is reported, with exchanged indices, is always the count minus one (-1 for none). Theorems: `C49_off_by_one`, `C49_refuted`.
* **C50, Block profile.** Refuted as stated (C50_refuted). C50_off_by_one: what is reported, with exchanged indices, is the count minus one, at least 0. Theorems: `C50_off_by_one`, `C50_refuted`.
* **C51, Global access counts.** Refuted as stated (C51_refuted). C51_first_lost: exactly the first access of each global is not counted. Theorems: `C51_first_lost`, `C51_refuted`.
* **C52, Call graph edges.** Refuted as stated (C52_refuted). C52_edges: the origin of a reported edge is the position of the call instruction in its function. Theorems: `C52_edges`, `C52_refuted`.
* **C53, Instruction counts per function.** Refuted as stated (C53_refuted). C53_answers: for any kind but 0 the answer is about if-else instructions at position f of any function; kind 0 panics. EnumMap::iter is taken to iterate over the values in order (external crate). Theorems: `C53_answers`, `C53_refuted`.
* **C54, Buffers are released.** Buffers of calls abandoned by a trap stay allocated (example ex_released: 36 bytes after a trap). Theorems: `C54_released`.
* **C55, The generated Rust library compiles and exports what is imported.** Over the generated functions (templates as syntax, not as text). C55_compiles: exact condition; reference types do not compile, as no such union field or type exists. C55_exports, C55_accessors: names and WebAssembly types. Theorems: `C55_compiles`, `C55_exports`, `C55_accessors`.
* **C56, The generated Rust library keeps frames apart.** C56_implements: step by step the library implements the ideal stack of frames; C56_separate_frames and C56_released for whole histories. The allocator (wee_alloc) is any that keeps the contract `allocates` (and `allocates_none` if a function without arguments and results is intercepted); RustHeap.v has one that does. Theorems: `C56_implements`, `C56_separate_frames`, `C56_released`.
* **C57, Transparency with the Rust library.** C57_forwarding, C57_failing_start, C57_events and C57_memoization: the session theorems C08, C10 and C34 with the Rust library in place of the WebAssembly one, as long as the buffers of pending calls fit in the allocator (rust_space). Theorems: `C57_forwarding`, `C57_failing_start`, `C57_events`, `C57_memoization`.
* **C58, Running out of buffer memory traps.** Refuted as stated: C58_refuted. The null pointer of a failed allocation is not checked, values and types are written to address 0 over each other, and a function adding 3 and 4 returns 4. Theorems: `C58_refuted`.
* **C59, No allocation of zero bytes.** Refuted as stated: C59_refuted, whatever the allocator, for the signature without arguments and results. C59_other_signatures: for all other signatures no history asks for zero bytes (an allocator that traps on such requests works as well). Theorems: `C59_other_signatures`, `C59_refuted`.
* **C60, safe-heap does not change programs it accepts.** C60_checked_program; C60_no_wrong_result for programs with other accesses; C60_failing_start for a trapping start function. Sessions with traps need in-range operands (see C09). Theorems: `C60_checked_program`, `C60_no_wrong_result`, `C60_failing_start`.
* **C61, safe-heap lets only aligned operands pass.** For every session in which no call failed. The operand is meant, without the static offset; C62 shows the difference. Theorems: `C61_aligned`.
* **C62, safe-heap rejects exactly the accesses it documents.** Refuted as stated, three witnesses: a load at address 0 passes (C62_null_refuted); an i32 load at an odd effective address passes if the offset is what makes it odd (C62_odd_address_refuted); a byte load at an odd address is rejected (C62_byte_refuted). Theorems: `C62_null_refuted`, `C62_odd_address_refuted`, `C62_byte_refuted`.
* **C63, memstats counts accesses per byte.** C63_counts: exact counts, and no answer above the highest byte accessed. C63_no_wrong_result: otherwise the same up to a stopped call. Whether a vector can grow is an oracle `room` of which only the 2^31-byte limit of Rust vectors is assumed. Theorems: `C63_counts`, `C63_no_wrong_result`.
* **C64, memstats never stops a program and answers for every byte.** Refuted as stated: C64_refuted (an access at 2^28 needs a vector of 2 GiB and stops the program) and C64_no_answer_refuted (the report panics above all accesses). Theorems: `C64_refuted`, `C64_no_answer_refuted`.
* **C65, branches and coverage-branch report the last decision.** Refuted as stated: C65_refuted (function and instruction index are exchanged, and -1 stands both for a condition and for `not executed`). C65_last_decision: with the indices exchanged, the report is the last decision, for all sessions. Theorems: `C65_last_decision`, `C65_refuted`.
* **C66, The AssemblyScript buffer library compiles and exports what is imported.** C66_compiles, C66_exports, C66_accessors. What the AssemblyScript compiler checks is the model's `as_compiles` (names distinct, calls resolve and are typed, every instantiation of a generic that is reachable from an export). Theorems: `C66_compiles`, `C66_exports`, `C66_accessors`.
* **C67, The AssemblyScript buffer library keeps frames apart, and traps when memory is exhausted.** C67_implements is the interface the session theorems need; C67_separate_frames, C67_released and C67_bounded_signatures are over whole histories. The bound on bytes is 65536 times the pages that can be added, at most 65535. Theorems: `C67_implements`, `C67_separate_frames`, `C67_released`, `C67_bounded_signatures`.
* **C68, With the AssemblyScript library forwarding is transparent, events are the run's, and memoization is right.** C68_forwarding, C68_any_space (no assumption on memory), C68_failing_start, C68_events, C68_memoization (no assumption on memory). Theorems: `C68_forwarding`, `C68_any_space`, `C68_failing_start`, `C68_events`, `C68_memoization`.
* **C69, Which WASP files give a well-formed AssemblyScript program.** Violated for some accepted files (C69_refuted: an identifier `argc`, one identifier for two parameters, two advices for one join point). C69_well_formed says exactly for which files the program is well-formed; C69_exports that it is generated exactly when the interface is, and matches it. The rule used is ECMAScript's on lexical declarations; reserved words as identifiers and the guest code itself are not covered. Theorems: `C69_well_formed`, `C69_exports`, `C69_refuted`.
* **C70, forward.wasp is transparent.** C70_forwarding, C70_any_space (no assumption on memory), C70_failing_start. The guest code of the file is given its meaning in `forward_guest`. Theorems: `C70_forwarding`, `C70_any_space`, `C70_failing_start`.
* **C71, WASP advice is told what happens.** C71_observes, C71_any_space and C71_failing_start for any observing guest code; C71_records for guest code that reads everything (`record_guest`). Guest code is any program over the names in scope (AssemblyScript itself is not modelled). Theorems: `C71_observes`, `C71_any_space`, `C71_failing_start`, `C71_records`.
* **C72, MutDynArgs and MutDynResults give access to exactly their slots.** C72_accessors, C72_loop. The type parameter of get and set is not checked by the code; the theorem is for the type of the slot. Theorems: `C72_accessors`, `C72_loop`.
* **C73, WASP texts are read as the grammar says.** C73_parses (exactly the texts of the grammar), C73_unambiguous, C73_round_trip for guest code without `#|`. Without that condition it is violated: C73_refuted, a file whose second advice disappears. Pest's semantics (ordered choice, greedy repetition, implicit white space and comments in rules that are not atomic, also within GUEST_BLOCK) is as read from its documentation. Theorems: `C73_parses`, `C73_unambiguous`, `C73_round_trip`, `C73_refuted`.
* **C74, The WASP compiler on any text.** C74_no_panic, C74_program. Theorems: `C74_no_panic`, `C74_program`.
* **C75, denan keeps NaNs out of the program.** C75_returned, C75_passed_on, C75_zero: every installed hook, for any operands. C75_calls: what the function and its caller find in the buffers. NaN is stated by exponent and fraction bits; the operators of floats are arbitrary functions. Theorems: `C75_returned`, `C75_passed_on`, `C75_zero`, `C75_calls`.
* **C76, denan leaves programs without NaNs alone.** C76_no_nans, C76_any_space, C76_failing_start. Loads of floats count as events in which a NaN may turn up, as events do not carry the value loaded; programs that load floats are therefore outside C76 (C75 covers them). Theorems: `C76_no_nans`, `C76_any_space`, `C76_failing_start`.
* **C77, Locations told to an analysis name the instruction.** C77_places, for the log of an analysis that records everything it is told. The two indices are in exchanged fields of Location (C37). Theorems: `C77_places`.
* **C78, memory-tracing notes the accesses.** C78_trace: counter and buffer after sessions without trapping calls. C78_no_wrong_result: sessions with trapping calls go the same way at least up to a call that traps. The crate circular-buffer is modelled by its documented behaviour. Theorems: `C78_trace`, `C78_getters`, `C78_no_wrong_result`.
* **C79, memory-tracing reports places and addresses correctly.** Refuted as stated: C79_indices_refuted (for every access, the function index reported is the instruction's position and vice versa), C79_negative_refuted (addresses from 2^31 are reported as negative), C79_trapping_refuted (an access that traps is not noted). Theorems: `C79_indices_refuted`, `C79_negative_refuted`, `C79_trapping_refuted`.
* **C80, taint leaves the program alone.** C80_transparent, C80_no_wrong_result; ex_taint_stops shows a call that traps for lack of room. Simplified: whether MEMORY can be resized is an oracle on its size; the other vectors are taken to have room. Theorems: `C80_transparent`, `C80_no_wrong_result`.
* **C81, taint has no source of taint.** C81_no_taint, for sessions as in C80. No advice makes a tainted value, so an analysis meant to follow taint has nothing to follow. Theorems: `C81_no_taint`.
* **C82, taint mirrors the program's frames and values.** Refuted as stated: C82_frames_refuted (for all sessions as in C80, at least as many frames are left as functions were entered other than by direct calls that returned), C82_values_refuted (witness: four frames left after four calls, a result without label, and an argument with the label of another call's result). Theorems: `C82_frames_refuted`, `C82_values_refuted`.
* **C83, wasm-merge receives the intended arguments.** C83_command, C83_pipeline (the options of the pipeline). Without the condition on the words it fails: C83_refuted (a directory with a blank, a namespace with a semicolon: nothing is quoted). bash is modelled as splitting at blanks, for text without characters of special meaning. Theorems: `C83_command`, `C83_pipeline`, `C83_refuted`.
* **C84, what wasm-merge delivers is what the pipeline returns.** C84_invoked, C84_pipeline (with wastrument of C30). The last sentence is refuted: C84_exit_status_refuted (the exit status is not looked at: a silent failure yields an empty module, a warning of a run that succeeded yields an error). Theorems: `C84_invoked`, `C84_pipeline`, `C84_exit_status_refuted`.
* **C85, the command-line tool instruments for the hooks asked for.** C85_refuses, C85_written, C85_set. Reading the program and writing the output are taken to work; clap's lookup of values is modelled as exact comparison with the names in kebab case. Theorems: `C85_refuses`, `C85_written`, `C85_set`.
* **C86, the static-analysis tool reports exactly the pure functions.** C86_report, when one call of write takes all of the text. Without that it fails: C86_short_write_refuted (write is called once and the number of bytes taken is dropped, so a truncated array counts as success). Theorems: `C86_report`, `C86_short_write_refuted`.
* **C87, the merged modules resolve each other's imports.** C87_closed (every import between the modules is provided with its type), C87_missing (what is lacking is left over), C87_advices (advice! arms and hooks). That wasm-merge connects imports to exports by namespace and name is trusted. C87_hooks_refuted: with all hooks (the default of the command-line tool) an analysis of loads and stores leaves imports unresolved, as does an analysis that uses apply without the generic-apply hook; nothing checks this. Theorems: `C87_closed`, `C87_missing`, `C87_advices`, `C87_hooks_refuted`.
* **C88, signatures-check accepts exactly the expected calls, in order.** C88_verdict, per call. C88_more_refuted: arguments and results beyond the expected ones are not looked at, so a call that returns more than expected is accepted. ex_different_signatures runs the repository's integration test in the model. Theorems: `C88_verdict`, `C88_more_refuted`.
* **C89, logging prints every event once, in order, and changes nothing.** C89_log, C89_no_wrong_result (also for sessions that trap or lack space), for every reader of the lines' headings (kind and parameters, without the value loaded and the description of the buffer). C89_values_refuted: the lines about function application show neither arguments nor results. That printing succeeds and does not touch the program is assumed. Theorems: `C89_log`, `C89_no_wrong_result`, `C89_values_refuted`.
* **C90, an analysis that decides otherwise acts as an edit of the program.** C90_decisions (any such analysis), C90_files (the five WASP files), in both directions: every ending run of the edited program is one of the instrumented program and conversely, neither goes wrong. The edited program is assumed to be representable in the binary format (in_format); that it is valid is proved. The stores are related by extends: equal up to the tables and element segments that instrumentation adds. C90_expected_results runs programs of the integration tests and finds the results they expect. Theorems: `C90_decisions`, `C90_files`.
* **C91, the counting WASP files of the tests count.** C91_counts (the counters, modulo 2^32), C91_depths (the maxima, for fewer than 2^31 events), C91_any_space (no wrong results whatever the memory), C91_failing_start (start functions that trap), C91_no_space (block.wasp and loop.wasp need no memory). What the guest code means is written by hand. C91_expected runs the programs of the integration tests (call_chain, fib(10), nested blocks and loops) and finds the values they expect. Theorems: `C91_counts`, `C91_depths`, `C91_any_space`, `C91_failing_start`, `C91_no_space`.
* **C92, when instrumentation reports an error.** C92_blames (an error names what is wrong with a body), C92_reports and C92_type_errors (errors are reported exactly then), C92_no_output. Assumed of the type checker: one type per instruction. Theorems: `C92_blames`, `C92_reports`, `C92_type_errors`, `C92_no_output`.
* **C93, set_arg_ret_to_zero.wasp hands out zeros.** C93_calls, over any library that implements the buffers (C36, C56, C67 show that the generated ones do). What the guest code means is written by hand. A statement about one intercepted call in any state, not about whole sessions; C93_sessions runs a session after the integration test and finds zeros. Theorems: `C93_calls`.
* **C94, WASP files without apply advice that return nothing are transparent.** C94_silent (sessions, any memory size), C94_failing_start; C94_observes: any observing guest code of a file without apply advice. C94_files and C94_applies show that call_indirect.wasp and empty.wasp are covered. Guest code that is a comment is given the meaning of returning nothing. Theorems: `C94_silent`, `C94_failing_start`, `C94_observes`.
* **C95, signatures_check.wasp accepts a call exactly if it is the next one expected.** C95_verdict, per call, over any library that implements the buffers. C95_met_refuted: all_expectations_met can be set although calls were rejected. What the guest code means is written by hand; equality of floats with converted numbers is a parameter. C95_test runs the repository's integration test in the model. Theorems: `C95_verdict`, `C95_met_refuted`.

## Violations found

Each has a machine-checked witness.

| Theorem | What goes wrong |
| --- | --- |
| `C09_refuted` | address plus static offset of a reported load wraps modulo 2^32, so a trapping access returns a value |
| `C20_refuted` | the bump pointer wraps modulo 2^32 before the size check, and live buffers overlap |
| `C22_refuted` | importer and generated library mangle reference types differently (harmless: such functions are never selected, `C22_signatures_numeric`) |
| `C26_clash_refuted`, `C26_call_base_clash_refuted` | an exported name of the program can collide with a generated one |
| `C28_large_offsets_refuted` | static offsets from 2^31 panic in the analysis library |
| `C35_refuted` | the memoizing analysis aborts a program when a nested call takes the last free entry |
| `C37_location_refuted` | function and instruction index are exchanged in every location |
| `C38_refuted` | call depth stays wrong after a trap |
| `C40_specialised_refuted`, `C41_mutability_refuted` | WASP: specialised apply advice is accepted but its interface panics; inverted mutability flag |
| `C42_first_letter_refuted` | identifiers above 25 may start with "a", against the documentation |
| `C48_refuted` - `C53_refuted` | misreports of the coverage, loops, block-profiling, globals, call-graph and icount analyses |
| `C58_refuted` | the Rust buffer library does not check for a failed allocation; results become wrong |
| `C59_refuted` | it asks the allocator for zero bytes when a function without arguments and results is intercepted |
| `C62_null_refuted`, `C62_odd_address_refuted`, `C62_byte_refuted` | safe-heap accepts null pointers and odd effective addresses and rejects byte accesses at odd addresses (the width reported for narrow accesses is that of the value, `memory.rs` L130-152, L188-215) |
| `C64_refuted`, `C64_no_answer_refuted` | memstats stops programs that access high addresses; its report panics above all accesses |
| `C73_refuted` | `#\|` in guest code opens a comment that can hide the closing marker: later advices silently become guest code |
| `C79_*_refuted` | memory-tracing exchanges function and instruction index, reports addresses from 2^31 as negative, and misses accesses that trap |
| `C81_no_taint`, `C82_*_refuted` | taint never labels a value as tainted; frames stay behind after calls, labels of results are lost |
| `C83_refuted`, `C84_exit_status_refuted` | paths and namespaces are not quoted for bash; the exit status of wasm-merge is ignored: a silent failure delivers an empty module, a warning is an error |
| `C86_short_write_refuted` | the static-analysis tool calls `write` once and takes a partial write for success |
| `C87_hooks_refuted` | hooks that the analysis has no advice for (all of them by default), or `apply` without its hook, leave unresolved imports in the output; nothing checks it |
| `C88_more_refuted` | signatures-check does not compare the number of arguments and results: a function that returns more than expected is accepted |
| `C89_values_refuted` | the lines that logging prints for `apply` show the number and types of the arguments and results but not their values |
| `C95_met_refuted` | signatures_check.wasp sets `all_expectations_met` before it looks at the last call, and passes over calls it rejected |
| `C69_refuted` | WASP files with clashing identifiers or two advices for a join point are accepted, the generated program declares names twice |
| `C65_refuted` | branches: exchanged indices; -1 is ambiguous |

## Trusted base

* Coq's kernel (8.16.1), including its virtual machine (`vm_compute`, used in examples and
  witnesses), and the OCaml compiler and hardware below it. No plugin, no switched-off check.
* Axioms: none. `Print Assumptions` prints "Closed under the global context" for every property
  theorem. (A scan of the loaded environment lists the axioms `Coq.ssr.ssrunder.Under_rel.*`;
  they belong to the module type of a standard-library file that `lia` loads. No theorem
  depends on them.)
* The reading of the Rust, WAT and pest sources recorded in the comments of each definition.
* `Semantics.v`, `Instantiate.v` and `Typing.v` as a rendering of the WebAssembly specification,
  with the simplifications stated at their heads; `Advice.v` and `Trace.v` as a rendering of
  the documented analysis interface.

### Not modelled

* binary parsing and encoding by `wasabi_wasm`, including its renumbering of functions when
  imports are appended; the implementation of its type checker;
* the WebAssembly engine, the external `wasm-merge` process (modelled: its arguments, and what is made of its result) and the
  compilers for Rust, AssemblyScript and WAT (modelled: the meaning of the generated WAT, Rust and AssemblyScript libraries);
* the allocator `wee_alloc` (modelled: its contract), the runtime of AssemblyScript;
* the AssemblyScript language in which guest code of WASP files is written (modelled: any program
  over the names in scope); the pest library (modelled: what the rules of `wasp.pest` accept);
* reading and writing of files by `cli`, and its parsing of options other than `--hooks`; `benchmarking-node/wasmtime-benchmarks`, tests, file and process handling;
* the text that the analysis logging prints. The analyses call-stack-eq-wasabi and
  call-stack-wastrumentation of benchmarking-node match no arm of `advice!` (they name no location), so there is nothing to model.
