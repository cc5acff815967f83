(** Linking: what wasm-merge does with the imports and exports of the functions of the modules that [wastrument] hands to
    it, and what the libraries for analyses import. *)
From Verif Require Export Pipeline Interface RsStdlib StackLib RustLib AsLib Semantics.
Local Open Scope string_scope.
Local Open Scope list_scope.

(** ** The modules that are merged *)
(** A module as the merger sees it: the namespace it is given (wastrumentation/src/lib.rs L146-172), the functions it imports
    (namespace, name, type) and the type of the function that it exports under a name. Other kinds of imports and exports are
    left out. *)
Record part := Part {
  pt_name : string;
  pt_imports : list (string * string * functy);
  pt_export : string -> option functy }.

(** Auxiliary: the import that a function is. *)
Definition import_of (f : func) : list (string * string * functy) :=
  match fn_code f with FImport ns nm => [(ns, nm, fn_type f)] | FPresent _ _ => [] end.
(** Auxiliary: the type of the function that a module exports under a name. *)
Definition module_export (m : module) (nm : string) : option functy :=
  match export_index 0 (md_funcs m) nm with
  | Some k => option_map fn_type (nth_error (md_funcs m) k)
  | None => None
  end.
(** Auxiliary: a module of the model under a namespace. *)
Definition part_of (ns : string) (m : module) : part := Part ns (flat_map import_of (md_funcs m)) (module_export m).

(** The three libraries for the buffers: those generated by supported-languages/webassembly, supported-languages/rust and
    supported-languages/assemblyscript (src/generate/instrumentation/mod.rs of each; StackLib, RustLib, AsLib). None of them
    imports a function from the modules that are merged. What the AssemblyScript runtime imports is left out. *)
Inductive backend := WatBackend | RustBackend | AsBackend.
(** Auxiliary: the type of the function that a Rust library exports under a name. *)
Definition rust_export (fns : list rfn) (nm : string) : option functy :=
  match fn_named fns nm with
  | Some g => if rf_export g then Some (wasm_sig g) else None
  | None => None
  end.
(** The exports of a compiled library; [None]: it does not compile. *)
Definition library_exports (b : backend) (sigs : list functy) : option (string -> option functy) :=
  match b with
  | WatBackend => option_map module_export (lib_module sigs)
  | RustBackend => if rust_compiles (rust_lib sigs) then Some (rust_export (rust_lib sigs)) else None
  | AsBackend => if as_compiles (as_lib sigs) then Some (as_export_type (as_lib sigs)) else None
  end.

(** The modules that are merged, wastrumentation/src/lib.rs L146-190: the analysis, the instrumented input, and the library
    if there is one. Their order depends on the primary module, which is of no importance here: the names differ. *)
Definition merged (b : backend) (an : part) (m' : module) (lib : option (list functy)) : option (list part) :=
  match lib with
  | None => Some [an; part_of target_ns m']
  | Some sigs =>
      option_map (fun ex => [an; part_of target_ns m'; Part stack_ns [] ex]) (library_exports b sigs)
  end.

(** ** What the merger resolves (the documented behaviour of binaryen's wasm-merge) *)
(** The function that an import is connected to: the one exported under its name by the module with its namespace. *)
Definition provider (ps : list part) (ns nm : string) : option functy :=
  match find (fun p => String.eqb (pt_name p) ns) ps with
  | Some p => pt_export p nm
  | None => None
  end.
(** The imports of the merged module: those that no module provides. *)
Definition left_over (ps : list part) : list (string * string * functy) :=
  filter (fun i => match provider ps (fst (fst i)) (snd (fst i)) with Some _ => false | None => true end)
    (flat_map pt_imports ps).

(** ** What the libraries for analyses import *)
(** The functions that an analysis calls in the instrumented input; the extern block of wastrumentation-rs-stdlib/src/lib.rs
    L33-64. *)
Definition base_externs : list (string * functy) :=
  let load t := FT [t_i32; t_i32] [TNum t] in
  let store t := FT [t_i32; TNum t; t_i32] [] in
  [("instrumented_base_load_i32", load TI32); ("instrumented_base_load_i64", load TI64);
   ("instrumented_base_load_f32", load TF32); ("instrumented_base_load_f64", load TF64);
   ("instrumented_base_load_i32_8S", load TI32); ("instrumented_base_load_i32_8U", load TI32);
   ("instrumented_base_load_i32_16S", load TI32); ("instrumented_base_load_i32_16U", load TI32);
   ("instrumented_base_load_i64_8S", load TI64); ("instrumented_base_load_i64_8U", load TI64);
   ("instrumented_base_load_i64_16S", load TI64); ("instrumented_base_load_i64_16U", load TI64);
   ("instrumented_base_load_i64_32S", load TI64); ("instrumented_base_load_i64_32U", load TI64);
   ("instrumented_base_store_i32", store TI32); ("instrumented_base_store_i64", store TI64);
   ("instrumented_base_store_f32", store TF32); ("instrumented_base_store_f64", store TF64);
   ("instrumented_base_store_i32_8", store TI32); ("instrumented_base_store_i32_16", store TI32);
   ("instrumented_base_store_i64_8", store TI64); ("instrumented_base_store_i64_16", store TI64);
   ("instrumented_base_store_i64_32", store TI64);
   ("instrumented_memory_grow", FT [t_i32; t_i32] [t_i32]); ("instrumented_memory_size", FT [t_i32] [t_i32])].
(** The functions that only an analysis with a generic apply calls: [call_base] (lib.rs L36) and those of the library, the
    extern block of L66-77; std_analysis_lib_gen_apply.ts L10-29 and L171-172 import the same. *)
Definition apply_externs : list (string * string * functy) :=
  (target_ns, "call_base", FT [t_i32; t_i32] []) ::
  (stack_ns, "wastrumentation_stack_load_type", FT [t_i32; t_i32] [t_i32]) ::
  map (fun t => (stack_ns, stack_load_name t, FT [t_i32; t_i32] [TNum t])) [TI32; TF32; TI64; TF64] ++
  map (fun t => (stack_ns, stack_store_name t, FT [t_i32; TNum t; t_i32] [])) [TI32; TF32; TI64; TF64].

(** ** The analyses written with [advice!] *)
(** The functions that an arm of [advice!] exports (lib.rs L618-1384), by the hook that the arm is for. *)
Definition advice_arm (s : shook) : list string :=
  match s with
  | SCallPre => ["specialized_call_pre"] | SCallPost => ["specialized_call_post"]                      (* L618, L635 *)
  | SCallIndirectPre => ["specialized_call_indirect_pre"]                                              (* L653 *)
  | SCallIndirectPost => ["specialized_call_indirect_post"]                                            (* L675 *)
  | SGenericApply => ["generic_apply"] | SBranch => ["specialized_br"]                                 (* L693, L717 *)
  | SIfThenElse => ["specialized_if_then_else_k"] | SIfThen => ["specialized_if_then_k"]               (* L735, L760 *)
  | SIfThenElsePost => ["trap_if_then_else_post"] | SIfThenPost => ["trap_if_then_post"]               (* L784, L796 *)
  | SBranchIf => ["specialized_br_if"] | SBranchTable => ["specialized_br_table"]                      (* L808, L830 *)
  | SSelect => ["specialized_select"]                                                                  (* L855 *)
  | SUnary =>                                                                                          (* L877-912 *)
      ["unary_i32_to_i32"; "unary_i64_to_i32"; "unary_i64_to_i64"; "unary_f32_to_f32"; "unary_f64_to_f64";
       "unary_f32_to_i32"; "unary_f64_to_i32"; "unary_i32_to_i64"; "unary_f32_to_i64"; "unary_f64_to_i64";
       "unary_i32_to_f32"; "unary_i64_to_f32"; "unary_f64_to_f32"; "unary_i32_to_f64"; "unary_i64_to_f64";
       "unary_f32_to_f64"]
  | SBinary =>                                                                                         (* L942-971 *)
      ["binary_i32_i32_to_i32"; "binary_i64_i64_to_i32"; "binary_f32_f32_to_i32"; "binary_f64_f64_to_i32";
       "binary_i64_i64_to_i64"; "binary_f32_f32_to_f32"; "binary_f64_f64_to_f64"]
  | SDrop => ["drop_trap"] | SReturn => ["return_trap"]                                                (* L998, L1010 *)
  | SConst => ["trap_const_i32"; "trap_const_f32"; "trap_const_i64"; "trap_const_f64"]                 (* L1022-1042 *)
  | SLocal =>                                                                                          (* L1065-1097 *)
      ["trap_local_get_i32"; "trap_local_set_i32"; "trap_local_tee_i32"; "trap_local_get_f32"; "trap_local_set_f32";
       "trap_local_tee_f32"; "trap_local_get_i64"; "trap_local_set_i64"; "trap_local_tee_i64"; "trap_local_get_f64";
       "trap_local_set_f64"; "trap_local_tee_f64"]
  | SGlobal =>                                                                                         (* L1124-1152 *)
      ["trap_global_get_i32"; "trap_global_set_i32"; "trap_global_get_f32"; "trap_global_set_f32";
       "trap_global_get_i64"; "trap_global_set_i64"; "trap_global_get_f64"; "trap_global_set_f64"]
  | SLoad => ["trap_f32_load"; "trap_f64_load"; "trap_i32_load"; "trap_i64_load"]                      (* L1179-1203 *)
  | SStore => ["trap_f32_store"; "trap_f64_store"; "trap_i32_store"; "trap_i64_store"]                 (* L1230-1257 *)
  | SMemorySize => ["trap_memory_size"] | SMemoryGrow => ["trap_memory_grow"]                          (* L1282, L1304 *)
  | SBlockPre => ["trap_block_pre"] | SBlockPost => ["trap_block_post"]                                (* L1326, L1344 *)
  | SLoopPre => ["trap_loop_pre"] | SLoopPost => ["trap_loop_post"]                                    (* L1356, L1374 *)
  end.
(** The functions exported by an analysis that gives the advices [arms]: those of the arms, with the types of their
    definitions ([generic_apply], L702-710; the others are the functions of [rs_exports]). *)
Definition advice_export (arms : list shook) (nm : string) : option functy :=
  if existsb (fun s => existsb (String.eqb nm) (advice_arm s)) arms
  then if String.eqb nm "generic_apply" then Some (FT (repeat t_i32 7) [])
       else option_map (fun r => FT (map TNum (rfun_args (snd r))) (map TNum (rfun_results (snd r))))
              (find (fun r => String.eqb nm (fst r)) rs_exports)
  else None.
