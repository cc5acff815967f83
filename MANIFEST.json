{
 "claims": [
  {
   "property": "C01",
   "status": "proved",
   "theorems": [
    "C01_flatten_after_structure",
    "C01_structure_after_flatten",
    "C01_untyped_round_trip"
   ],
   "note": "Both converters, both directions."
  },
  {
   "property": "C02",
   "status": "proved",
   "theorems": [
    "C02_accepts_exactly_well_nested",
    "C02_untyped_accepts_exactly_well_nested",
    "C02_panics_exactly_on_unclosed",
    "C02_untyped_panics_exactly_on_unclosed",
    "C02_errors"
   ],
   "note": "Acceptance, panic and error cases characterised exactly."
  },
  {
   "property": "C03",
   "status": "proved",
   "theorems": [
    "C03_locations"
   ],
   "note": ""
  },
  {
   "property": "C04",
   "status": "proved",
   "theorems": [
    "C04_passes_equal_weave",
    "C04_passes_do_not_panic",
    "C04_any_order",
    "C04_if_then_order_matters"
   ],
   "note": "Passes in the code's order equal the weave; other orders too except the if-then pair, which is refuted by an example."
  },
  {
   "property": "C05",
   "status": "proved",
   "theorems": [
    "C05_erasable"
   ],
   "note": "Up to alignment hints, which instrumentation does not pass on."
  },
  {
   "property": "C06",
   "status": "proved",
   "theorems": [
    "C06_unhooked_body_unchanged",
    "C06_unhooked_instruction_kept"
   ],
   "note": ""
  },
  {
   "property": "C07",
   "status": "proved",
   "theorems": [
    "C07_sessions",
    "C07_calls"
   ],
   "note": "Sessions and single calls; ill-formed executions (Stuck) are exempted here and excluded for valid modules by C16."
  },
  {
   "property": "C08",
   "status": "proved",
   "theorems": [
    "C08_forwarding",
    "C08_any_space"
   ],
   "note": "Whole sessions of the output module with the generated buffer library, the compiled forwarding analysis and a host (instantiation, start function, any calls of exports). Proved for every hook set, selection and interception, for modules with the names of the analysis free, offsets below 2^31 where accesses are reported and at most 8191 parameters and results. C08_forwarding: the same outcomes and state whenever the buffers of pending intercepted calls stay within the 65535 pages the buffer library can have (counted exactly along the trace, enough_space). C08_any_space: with no such assumption, every call up to one that traps for lack of space has the same outcome and leaves the same state."
  },
  {
   "property": "C09",
   "status": "proved",
   "theorems": [
    "C09_traps_preserved",
    "C09_failing_start",
    "C09_without_access_hooks",
    "C09_refuted"
   ],
   "note": "Refuted as stated: C09_refuted gives a valid module whose trapping load returns a value under the forwarding analysis (address plus offset wraps). C09_traps_preserved: traps are preserved whenever reported accesses stay below 2^32; C09_without_access_hooks: always, if loads and stores are not hooked; C09_failing_start: also for traps during instantiation."
  },
  {
   "property": "C10",
   "status": "proved",
   "theorems": [
    "C10_events",
    "C10_log"
   ],
   "note": "The analysis state after a session is the fold of its update function over the events of the run of the original module (Trace.v, defined on plain runs only), for any state and update function. Reported locations are in the order the analysis library names them (C37)."
  },
  {
   "property": "C11",
   "status": "proved",
   "theorems": [
    "C11_labels_keep_meaning"
   ],
   "note": ""
  },
  {
   "property": "C12",
   "status": "proved",
   "theorems": [
    "C12_helper_computes_label",
    "C12_label_is_taken"
   ],
   "note": ""
  },
  {
   "property": "C13",
   "status": "proved",
   "theorems": [
    "C13_unary_codes",
    "C13_binary_codes",
    "C13_load_codes",
    "C13_store_codes",
    "C13_codes_distinct",
    "C13_unary_apply",
    "C13_binary_apply",
    "C13_memory_targets"
   ],
   "note": ""
  },
  {
   "property": "C14",
   "status": "proved",
   "theorems": [
    "C14_passes_preserve_types"
   ],
   "note": "C14_passes_preserve_types: run_passes (the model of all passes) takes code of a WebAssembly type to code of that type whenever the called trap functions have the interface's declared types, so every injected call agrees with its function's type; unreachable code included. The external type checker's annotations are a hypothesis (annotated_ok)."
  },
  {
   "property": "C15",
   "status": "proved",
   "theorems": [
    "C15_output_validates"
   ],
   "note": "C15_output_validates: for every valid module, hook selection and target set the output module satisfies the whole validity predicate (bodies, generated functions, tables, elements, start, exports), provided the input exports none of the added names; C26 shows that condition is needed."
  },
  {
   "property": "C16",
   "status": "proved",
   "theorems": [
    "C16_calls",
    "C16_sessions",
    "C16_output_sessions",
    "C16_original_calls",
    "C16_unreachable_not_executed"
   ],
   "note": "Type soundness for calls and whole sessions; unreachable-annotated instructions are never executed. Validity, annotations and agent typing are defined in Typing.v/ModuleTyping.v, independently of the instrumentation. Simplification: all br_table targets have one label type."
  },
  {
   "property": "C17",
   "status": "proved",
   "theorems": [
    "C17_intercepted_call",
    "C17_resume"
   ],
   "note": "On the output module, over the generated library (as proved in C18-C22), for arbitrary analysis and host agents. Results of the analysis are those left in the frame's slots; the resumed function's own code is the one the specification of C07 runs. Hypotheses: free buffer space within the library's limit (C20), call_base not already exported by the program (first export wins), results of the resumed code of the declared types (what C16 states)."
  },
  {
   "property": "C18",
   "status": "proved",
   "theorems": [
    "C18_round_trip"
   ],
   "note": "WebAssembly generator of the library; for both the operations of the instrumented program and the numbered accesses of the analysis."
  },
  {
   "property": "C19",
   "status": "proved",
   "theorems": [
    "C19_separate_frames",
    "C19_released"
   ],
   "note": "Over event histories of the program and the analysis on the library itself; capacity is 65535 pages, not 65536."
  },
  {
   "property": "C20",
   "status": "proved",
   "theorems": [
    "C20_bounded_signatures",
    "C20_refuted"
   ],
   "note": "Refuted as stated: witness with a signature of 8192 results. Proved for signatures of at most 8191 slots."
  },
  {
   "property": "C21",
   "status": "proved",
   "theorems": [
    "C21_names_distinct",
    "C21_imports_exported"
   ],
   "note": "Names distinct for all signatures, also with reference types."
  },
  {
   "property": "C22",
   "status": "proved",
   "theorems": [
    "C22_signatures_numeric",
    "C22_refuted"
   ],
   "note": "Refuted as stated: witness. Proved that the signatures passed to the library never involve reference types."
  },
  {
   "property": "C23",
   "status": "proved",
   "theorems": [
    "C23_interface_exact",
    "C23_set_determines",
    "C23_imports_exact"
   ],
   "note": ""
  },
  {
   "property": "C24",
   "status": "proved",
   "theorems": [
    "C24_unselected_untouched"
   ],
   "note": ""
  },
  {
   "property": "C25",
   "status": "proved",
   "theorems": [
    "C25_indices_survive"
   ],
   "note": ""
  },
  {
   "property": "C26",
   "status": "proved",
   "theorems": [
    "C26_distinct_unless_clash",
    "C26_clash_refuted",
    "C26_call_base_clash_refuted"
   ],
   "note": "Refuted as stated: witnesses for a helper name and for call_base. Proved when the input uses none of the added names."
  },
  {
   "property": "C27",
   "status": "proved",
   "theorems": [
    "C27_load",
    "C27_store",
    "C27_grow_and_size"
   ],
   "note": "For every load and store operator and every in-bounds effective address below 2^32, calling the generated helper export has exactly the effect and result of the instruction; memory.grow and memory.size helpers likewise. Hypothesis: the program itself exports no function of the helper's name (see C26). Address+offset beyond 2^32 is excluded here (C09)."
  },
  {
   "property": "C28",
   "status": "proved",
   "theorems": [
    "C28_small_offsets",
    "C28_large_offsets_refuted"
   ],
   "note": "Refuted as stated: for every operator and every offset in [2^31, 2^32). Offsets below 2^31 are proved to reach the helper."
  },
  {
   "property": "C29",
   "status": "proved",
   "theorems": [
    "C29_handles",
    "C29_opaque",
    "C29_specialised",
    "C29_rust"
   ],
   "note": "C29_handles: for any two visiting orders of the hash sets, any hooks, interception or not, and arbitrary well-typed agents, sessions with the two outputs have the same results and leave the same memory, globals, tables and agents' state, if the numbers (apply table positions) by which the analysis resumes functions are translated. C29_opaque: with the same agents if they only hand the number back to call_base. C29_specialised: without interception no condition on agents. C29_rust: for Rust analyses with the generated library. ex_order_visible shows an analysis that looks at the number does see the order, so the translation is needed."
  },
  {
   "property": "C30",
   "status": "proved",
   "theorems": [
    "C30_merge_order"
   ],
   "note": ""
  },
  {
   "property": "C31",
   "status": "proved",
   "theorems": [
    "C31_stops",
    "C31_rounds"
   ],
   "note": "The bound (number of functions + 1 rounds) is met exactly by the example chain."
  },
  {
   "property": "C32",
   "status": "proved",
   "theorems": [
    "C32_reported_functions_are_pure"
   ],
   "note": "Same results or same trap from any two stores, and no change to either store; modules as in DESIGN.md (numeric operators arbitrary but deterministic)."
  },
  {
   "property": "C33",
   "status": "proved",
   "theorems": [
    "C33_least_closed_set",
    "C33_order_irrelevant"
   ],
   "note": "Mutually recursive functions without state are not in the least set and are not reported (example)."
  },
  {
   "property": "C34",
   "status": "proved",
   "theorems": [
    "C34_memoization",
    "C34_within_capacity",
    "C34_failing_start",
    "C34_reported_functions"
   ],
   "note": "Whole sessions of the output module with buffer library, memoizing analysis and host: for pure intercepted functions (in particular those the purity analysis reports, C34_reported_functions) the memoized program has the same outcomes, traps included, and the same state of the program after every call, up to the end of the session or to a call that aborts; it aborts only if the original makes more than 1024 distinct cacheable calls (the capacity) or the buffer space runs out. C34_within_capacity: otherwise the whole session agrees, and every cached entry is the result of the function it stands for."
  },
  {
   "property": "C35",
   "status": "proved",
   "theorems": [
    "C35_refuted"
   ],
   "note": "Refuted as stated: C35_refuted gives a session of a valid module, with functions reported pure by the tool, that the original completes and whose last call aborts under the memoizing analysis at the real capacity of 1024."
  },
  {
   "property": "C36",
   "status": "proved",
   "theorems": [
    "C36_library_behaves",
    "C36_library_starts",
    "C36_library_implements",
    "C36_values_of_call",
    "C36_reads",
    "C36_writes",
    "C36_rejects",
    "C36_types",
    "C36_iterates",
    "C36_updates"
   ],
   "note": "For any state of the library reachable by a history (C36_library_starts, C36_library_behaves). Writes through set_arg/set_res are proved for values of the slot's type; the accessor itself does not check that."
  },
  {
   "property": "C37",
   "status": "proved",
   "theorems": [
    "C37_location_refuted"
   ],
   "note": "Refuted as stated: the two indices are exchanged for every hook."
  },
  {
   "property": "C38",
   "status": "proved",
   "theorems": [
    "C38_counters",
    "C38_refuted"
   ],
   "note": "Refuted as stated for sessions with traps (C38_refuted: depth 6 is reported, no call is more than 3 deep: abandoned calls stay on the analysis' stacks). C38_counters: with less than 2^31 events and no traps all four counters are exact and both stacks end empty. Indirect calls are not counted as calls (the analysis has no hook for them)."
  },
  {
   "property": "C39",
   "status": "proved",
   "theorems": [
    "C39_apply_validation"
   ],
   "note": "On the syntax tree after parsing; the identifier of the advice's function parameter is not part of the distinctness check of specialised advice (example)."
  },
  {
   "property": "C40",
   "status": "proved",
   "theorems": [
    "C40_join_points_interface",
    "C40_specialised_refuted"
   ],
   "note": "Proved for programs without specialised advice. Refuted as stated: for specialised apply advice the join points exist but the interface is todo!()."
  },
  {
   "property": "C41",
   "status": "proved",
   "theorems": [
    "C41_mutability_refuted"
   ],
   "note": "Refuted as stated: the flag is inverted for every specialised advice."
  },
  {
   "property": "C42",
   "status": "proved",
   "theorems": [
    "C42_unique",
    "C42_first_letter_refuted"
   ],
   "note": "Distinctness proved; the documented example order is refuted (first letter)."
  },
  {
   "property": "C43",
   "status": "proved",
   "theorems": [
    "C43_exports_match_hooks"
   ],
   "note": ""
  },
  {
   "property": "C44",
   "status": "proved",
   "theorems": [
    "C44_failing_stage"
   ],
   "note": "Exact condition for each outcome of the pipeline."
  },
  {
   "property": "C45",
   "status": "proved",
   "theorems": [
    "C45_instrumentation_succeeds"
   ],
   "note": "C45_instrumentation_succeeds. Acceptance by the external type checker is the hypothesis annotates; ex_c45_mems and ex_c45_rejected show that the memory and type-checker premises are needed."
  },
  {
   "property": "C46",
   "status": "proved",
   "theorems": [
    "C46_histogram"
   ],
   "note": "Whole-system theorem on top of C07/C10."
  },
  {
   "property": "C47",
   "status": "proved",
   "theorems": [
    "C47_signature"
   ],
   "note": "Whole-system theorem on top of C07/C10."
  },
  {
   "property": "C48",
   "status": "proved",
   "theorems": [
    "C48_exchanged",
    "C48_refuted"
   ],
   "note": "Refuted as stated (C48_refuted): the two indices are exchanged. C48_exchanged: get_coverage(i, f) is exact."
  },
  {
   "property": "C49",
   "status": "proved",
   "theorems": [
    "C49_off_by_one",
    "C49_refuted"
   ],
   "note": "Refuted as stated (C49_refuted). C49_off_by_one: what is reported, with exchanged indices, is always the count minus one (-1 for none)."
  },
  {
   "property": "C50",
   "status": "proved",
   "theorems": [
    "C50_off_by_one",
    "C50_refuted"
   ],
   "note": "Refuted as stated (C50_refuted). C50_off_by_one: what is reported, with exchanged indices, is the count minus one, at least 0."
  },
  {
   "property": "C51",
   "status": "proved",
   "theorems": [
    "C51_first_lost",
    "C51_refuted"
   ],
   "note": "Refuted as stated (C51_refuted). C51_first_lost: exactly the first access of each global is not counted."
  },
  {
   "property": "C52",
   "status": "proved",
   "theorems": [
    "C52_edges",
    "C52_refuted"
   ],
   "note": "Refuted as stated (C52_refuted). C52_edges: the origin of a reported edge is the position of the call instruction in its function."
  },
  {
   "property": "C53",
   "status": "proved",
   "theorems": [
    "C53_answers",
    "C53_refuted"
   ],
   "note": "Refuted as stated (C53_refuted). C53_answers: for any kind but 0 the answer is about if-else instructions at position f of any function; kind 0 panics. EnumMap::iter is taken to iterate over the values in order (external crate)."
  },
  {
   "property": "C54",
   "status": "proved",
   "theorems": [
    "C54_released"
   ],
   "note": "Buffers of calls abandoned by a trap stay allocated (example ex_released: 36 bytes after a trap)."
  },
  {
   "property": "C55",
   "status": "proved",
   "theorems": [
    "C55_compiles",
    "C55_exports",
    "C55_accessors"
   ],
   "note": "Over the generated functions (templates as syntax, not as text). C55_compiles: exact condition; reference types do not compile, as no such union field or type exists. C55_exports, C55_accessors: names and WebAssembly types."
  },
  {
   "property": "C56",
   "status": "proved",
   "theorems": [
    "C56_implements",
    "C56_separate_frames",
    "C56_released"
   ],
   "note": "C56_implements: step by step the library implements the ideal stack of frames; C56_separate_frames and C56_released for whole histories. The allocator (wee_alloc) is any that keeps the contract `allocates` (and `allocates_none` if a function without arguments and results is intercepted); RustHeap.v has one that does."
  },
  {
   "property": "C57",
   "status": "proved",
   "theorems": [
    "C57_forwarding",
    "C57_failing_start",
    "C57_events",
    "C57_memoization"
   ],
   "note": "C57_forwarding, C57_failing_start, C57_events and C57_memoization: the session theorems C08, C10 and C34 with the Rust library in place of the WebAssembly one, as long as the buffers of pending calls fit in the allocator (rust_space)."
  },
  {
   "property": "C58",
   "status": "proved",
   "theorems": [
    "C58_refuted"
   ],
   "note": "Refuted as stated: C58_refuted. The null pointer of a failed allocation is not checked, values and types are written to address 0 over each other, and a function adding 3 and 4 returns 4."
  },
  {
   "property": "C59",
   "status": "proved",
   "theorems": [
    "C59_other_signatures",
    "C59_refuted"
   ],
   "note": "Refuted as stated: C59_refuted, whatever the allocator, for the signature without arguments and results. C59_other_signatures: for all other signatures no history asks for zero bytes (an allocator that traps on such requests works as well)."
  },
  {
   "property": "C60",
   "status": "proved",
   "theorems": [
    "C60_checked_program",
    "C60_no_wrong_result",
    "C60_failing_start"
   ],
   "note": "C60_checked_program; C60_no_wrong_result for programs with other accesses; C60_failing_start for a trapping start function. Sessions with traps need in-range operands (see C09)."
  },
  {
   "property": "C61",
   "status": "proved",
   "theorems": [
    "C61_aligned"
   ],
   "note": "For every session in which no call failed. The operand is meant, without the static offset; C62 shows the difference."
  },
  {
   "property": "C62",
   "status": "proved",
   "theorems": [
    "C62_null_refuted",
    "C62_odd_address_refuted",
    "C62_byte_refuted"
   ],
   "note": "Refuted as stated, three witnesses: a load at address 0 passes (C62_null_refuted); an i32 load at an odd effective address passes if the offset is what makes it odd (C62_odd_address_refuted); a byte load at an odd address is rejected (C62_byte_refuted)."
  },
  {
   "property": "C63",
   "status": "proved",
   "theorems": [
    "C63_counts",
    "C63_no_wrong_result"
   ],
   "note": "C63_counts: exact counts, and no answer above the highest byte accessed. C63_no_wrong_result: otherwise the same up to a stopped call. Whether a vector can grow is an oracle `room` of which only the 2^31-byte limit of Rust vectors is assumed."
  },
  {
   "property": "C64",
   "status": "proved",
   "theorems": [
    "C64_refuted",
    "C64_no_answer_refuted"
   ],
   "note": "Refuted as stated: C64_refuted (an access at 2^28 needs a vector of 2 GiB and stops the program) and C64_no_answer_refuted (the report panics above all accesses)."
  },
  {
   "property": "C65",
   "status": "proved",
   "theorems": [
    "C65_last_decision",
    "C65_refuted"
   ],
   "note": "Refuted as stated: C65_refuted (function and instruction index are exchanged, and -1 stands both for a condition and for `not executed`). C65_last_decision: with the indices exchanged, the report is the last decision, for all sessions."
  },
  {
   "property": "C66",
   "status": "proved",
   "theorems": [
    "C66_compiles",
    "C66_exports",
    "C66_accessors"
   ],
   "note": "C66_compiles, C66_exports, C66_accessors. What the AssemblyScript compiler checks is the model's `as_compiles` (names distinct, calls resolve and are typed, every instantiation of a generic that is reachable from an export)."
  },
  {
   "property": "C67",
   "status": "proved",
   "theorems": [
    "C67_implements",
    "C67_separate_frames",
    "C67_released",
    "C67_bounded_signatures"
   ],
   "note": "C67_implements is the interface the session theorems need; C67_separate_frames, C67_released and C67_bounded_signatures are over whole histories. The bound on bytes is 65536 times the pages that can be added, at most 65535."
  },
  {
   "property": "C68",
   "status": "proved",
   "theorems": [
    "C68_forwarding",
    "C68_any_space",
    "C68_failing_start",
    "C68_events",
    "C68_memoization"
   ],
   "note": "C68_forwarding, C68_any_space (no assumption on memory), C68_failing_start, C68_events, C68_memoization (no assumption on memory)."
  },
  {
   "property": "C69",
   "status": "proved",
   "theorems": [
    "C69_well_formed",
    "C69_exports",
    "C69_refuted"
   ],
   "note": "Violated for some accepted files (C69_refuted: an identifier `argc`, one identifier for two parameters, two advices for one join point). C69_well_formed says exactly for which files the program is well-formed; C69_exports that it is generated exactly when the interface is, and matches it. The rule used is ECMAScript's on lexical declarations; reserved words as identifiers and the guest code itself are not covered."
  },
  {
   "property": "C70",
   "status": "proved",
   "theorems": [
    "C70_forwarding",
    "C70_any_space",
    "C70_failing_start"
   ],
   "note": "C70_forwarding, C70_any_space (no assumption on memory), C70_failing_start. The guest code of the file is given its meaning in `forward_guest`."
  },
  {
   "property": "C71",
   "status": "proved",
   "theorems": [
    "C71_observes",
    "C71_any_space",
    "C71_failing_start",
    "C71_records"
   ],
   "note": "C71_observes, C71_any_space and C71_failing_start for any observing guest code; C71_records for guest code that reads everything (`record_guest`). Guest code is any program over the names in scope (AssemblyScript itself is not modelled)."
  },
  {
   "property": "C72",
   "status": "proved",
   "theorems": [
    "C72_accessors",
    "C72_loop"
   ],
   "note": "C72_accessors, C72_loop. The type parameter of get and set is not checked by the code; the theorem is for the type of the slot."
  },
  {
   "property": "C73",
   "status": "proved",
   "theorems": [
    "C73_parses",
    "C73_unambiguous",
    "C73_round_trip",
    "C73_refuted"
   ],
   "note": "C73_parses (exactly the texts of the grammar), C73_unambiguous, C73_round_trip for guest code without `#|`. Without that condition it is violated: C73_refuted, a file whose second advice disappears. Pest's semantics (ordered choice, greedy repetition, implicit white space and comments in rules that are not atomic, also within GUEST_BLOCK) is as read from its documentation."
  },
  {
   "property": "C74",
   "status": "proved",
   "theorems": [
    "C74_no_panic",
    "C74_program"
   ],
   "note": "C74_no_panic, C74_program."
  },
  {
   "property": "C75",
   "status": "proved",
   "theorems": [
    "C75_returned",
    "C75_passed_on",
    "C75_zero",
    "C75_calls"
   ],
   "note": "C75_returned, C75_passed_on, C75_zero: every installed hook, for any operands. C75_calls: what the function and its caller find in the buffers. NaN is stated by exponent and fraction bits; the operators of floats are arbitrary functions."
  },
  {
   "property": "C76",
   "status": "proved",
   "theorems": [
    "C76_no_nans",
    "C76_any_space",
    "C76_failing_start"
   ],
   "note": "C76_no_nans, C76_any_space, C76_failing_start. Loads of floats count as events in which a NaN may turn up, as events do not carry the value loaded; programs that load floats are therefore outside C76 (C75 covers them)."
  },
  {
   "property": "C77",
   "status": "proved",
   "theorems": [
    "C77_places"
   ],
   "note": "C77_places, for the log of an analysis that records everything it is told. The two indices are in exchanged fields of Location (C37)."
  },
  {
   "property": "C78",
   "status": "proved",
   "theorems": [
    "C78_trace",
    "C78_getters",
    "C78_no_wrong_result"
   ],
   "note": "C78_trace: counter and buffer after sessions without trapping calls. C78_no_wrong_result: sessions with trapping calls go the same way at least up to a call that traps. The crate circular-buffer is modelled by its documented behaviour."
  },
  {
   "property": "C79",
   "status": "proved",
   "theorems": [
    "C79_indices_refuted",
    "C79_negative_refuted",
    "C79_trapping_refuted"
   ],
   "note": "Refuted as stated: C79_indices_refuted (for every access, the function index reported is the instruction's position and vice versa), C79_negative_refuted (addresses from 2^31 are reported as negative), C79_trapping_refuted (an access that traps is not noted)."
  },
  {
   "property": "C80",
   "status": "proved",
   "theorems": [
    "C80_transparent",
    "C80_no_wrong_result"
   ],
   "note": "C80_transparent, C80_no_wrong_result; ex_taint_stops shows a call that traps for lack of room. Simplified: whether MEMORY can be resized is an oracle on its size; the other vectors are taken to have room."
  },
  {
   "property": "C81",
   "status": "proved",
   "theorems": [
    "C81_no_taint"
   ],
   "note": "C81_no_taint, for sessions as in C80. No advice makes a tainted value, so an analysis meant to follow taint has nothing to follow."
  },
  {
   "property": "C82",
   "status": "proved",
   "theorems": [
    "C82_frames_refuted",
    "C82_values_refuted"
   ],
   "note": "Refuted as stated: C82_frames_refuted (for all sessions as in C80, at least as many frames are left as functions were entered other than by direct calls that returned), C82_values_refuted (witness: four frames left after four calls, a result without label, and an argument with the label of another call's result)."
  },
  {
   "property": "C83",
   "status": "proved",
   "theorems": [
    "C83_command",
    "C83_pipeline",
    "C83_refuted"
   ],
   "note": "C83_command, C83_pipeline (the options of the pipeline). Without the condition on the words it fails: C83_refuted (a directory with a blank, a namespace with a semicolon: nothing is quoted). bash is modelled as splitting at blanks, for text without characters of special meaning."
  },
  {
   "property": "C84",
   "status": "proved",
   "theorems": [
    "C84_invoked",
    "C84_pipeline",
    "C84_exit_status_refuted"
   ],
   "note": "C84_invoked, C84_pipeline (with wastrument of C30). The last sentence is refuted: C84_exit_status_refuted (the exit status is not looked at: a silent failure yields an empty module, a warning of a run that succeeded yields an error)."
  },
  {
   "property": "C85",
   "status": "proved",
   "theorems": [
    "C85_refuses",
    "C85_written",
    "C85_set"
   ],
   "note": "C85_refuses, C85_written, C85_set. Reading the program and writing the output are taken to work; clap's lookup of values is modelled as exact comparison with the names in kebab case."
  },
  {
   "property": "C86",
   "status": "proved",
   "theorems": [
    "C86_report",
    "C86_short_write_refuted"
   ],
   "note": "C86_report, when one call of write takes all of the text. Without that it fails: C86_short_write_refuted (write is called once and the number of bytes taken is dropped, so a truncated array counts as success)."
  },
  {
   "property": "C87",
   "status": "proved",
   "theorems": [
    "C87_closed",
    "C87_missing",
    "C87_advices",
    "C87_hooks_refuted"
   ],
   "note": "C87_closed (every import between the modules is provided with its type), C87_missing (what is lacking is left over), C87_advices (advice! arms and hooks). That wasm-merge connects imports to exports by namespace and name is trusted. C87_hooks_refuted: with all hooks (the default of the command-line tool) an analysis of loads and stores leaves imports unresolved, as does an analysis that uses apply without the generic-apply hook; nothing checks this."
  },
  {
   "property": "C88",
   "status": "proved",
   "theorems": [
    "C88_verdict",
    "C88_more_refuted"
   ],
   "note": "C88_verdict, per call. C88_more_refuted: arguments and results beyond the expected ones are not looked at, so a call that returns more than expected is accepted. ex_different_signatures runs the repository's integration test in the model."
  },
  {
   "property": "C89",
   "status": "proved",
   "theorems": [
    "C89_log",
    "C89_no_wrong_result",
    "C89_values_refuted"
   ],
   "note": "C89_log, C89_no_wrong_result (also for sessions that trap or lack space), for every reader of the lines' headings (kind and parameters, without the value loaded and the description of the buffer). C89_values_refuted: the lines about function application show neither arguments nor results. That printing succeeds and does not touch the program is assumed."
  },
  {
   "property": "C90",
   "status": "proved",
   "theorems": [
    "C90_decisions",
    "C90_files"
   ],
   "note": "C90_decisions (any such analysis), C90_files (the five WASP files), in both directions: every ending run of the edited program is one of the instrumented program and conversely, neither goes wrong. The edited program is assumed to be representable in the binary format (in_format); that it is valid is proved. The stores are related by extends: equal up to the tables and element segments that instrumentation adds. C90_expected_results runs programs of the integration tests and finds the results they expect."
  },
  {
   "property": "C91",
   "status": "proved",
   "theorems": [
    "C91_counts",
    "C91_depths",
    "C91_any_space",
    "C91_failing_start",
    "C91_no_space"
   ],
   "note": "C91_counts (the counters, modulo 2^32), C91_depths (the maxima, for fewer than 2^31 events), C91_any_space (no wrong results whatever the memory), C91_failing_start (start functions that trap), C91_no_space (block.wasp and loop.wasp need no memory). What the guest code means is written by hand. C91_expected runs the programs of the integration tests (call_chain, fib(10), nested blocks and loops) and finds the values they expect."
  },
  {
   "property": "C92",
   "status": "proved",
   "theorems": [
    "C92_blames",
    "C92_reports",
    "C92_type_errors",
    "C92_no_output"
   ],
   "note": "C92_blames (an error names what is wrong with a body), C92_reports and C92_type_errors (errors are reported exactly then), C92_no_output. Assumed of the type checker: one type per instruction."
  },
  {
   "property": "C93",
   "status": "proved",
   "theorems": [
    "C93_calls"
   ],
   "note": "C93_calls, over any library that implements the buffers (C36, C56, C67 show that the generated ones do). What the guest code means is written by hand. A statement about one intercepted call in any state, not about whole sessions; C93_sessions runs a session after the integration test and finds zeros."
  },
  {
   "property": "C94",
   "status": "proved",
   "theorems": [
    "C94_silent",
    "C94_failing_start",
    "C94_observes"
   ],
   "note": "C94_silent (sessions, any memory size), C94_failing_start; C94_observes: any observing guest code of a file without apply advice. C94_files and C94_applies show that call_indirect.wasp and empty.wasp are covered. Guest code that is a comment is given the meaning of returning nothing."
  },
  {
   "property": "C95",
   "status": "proved",
   "theorems": [
    "C95_verdict",
    "C95_met_refuted"
   ],
   "note": "C95_verdict, per call, over any library that implements the buffers. C95_met_refuted: all_expectations_met can be set although calls were rejected. What the guest code means is written by hand; equality of floats with converted numbers is a parameter. C95_test runs the repository's integration test in the model."
  }
 ]
}