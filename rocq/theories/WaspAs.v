(** The AssemblyScript program generated from a WASP file: the library parts it includes, one
    exported function per advice, the objects the guest code works with, and what the compiled
    program does when the instrumented module calls it. *)
From Verif Require Import Semantics Names RsStdlib Interface Wasp.
Local Open Scope string_scope.
Local Open Scope list_scope.

(** ** Shape of the program, supported-languages/assemblyscript/src/generate/analysis/mod.rs

    Classes of the three library parts that the wrappers instantiate:
    std_analysis_lib_gen_apply.ts L57-188, std_analysis_lib_if.ts L15-93,
    std_analysis_lib_call.ts L1-20, beside mod.rs. *)
Inductive class :=
| CWasmFunction | CMutDynArgsResults | CMutDynArgs | CMutDynRess
| CIfThenCondition | CIfThenElseCondition | CBrIfCondition | CBrIfLabel
| CBrTableTarget | CBrTableDefault | CSelectCondition
| CFunctionIndex | CFunctionTable | CFunctionTableIndex.
(** Names of the classes in std_analysis_lib_{gen_apply,if,call}.ts. *)
Definition class_name (c : class) : string :=
  match c with
  | CWasmFunction => "WasmFunction" | CMutDynArgsResults => "MutDynArgsResults"
  | CMutDynArgs => "MutDynArgs" | CMutDynRess => "MutDynRess"
  | CIfThenCondition => "ParameterIfThenCondition" | CIfThenElseCondition => "ParameterIfThenElseCondition"
  | CBrIfCondition => "ParameterBrIfCondition" | CBrIfLabel => "ParameterBrIfLabel"
  | CBrTableTarget => "ParameterBrTableTarget" | CBrTableDefault => "ParameterBrTableDefault"
  | CSelectCondition => "ParameterSelectCondition"
  | CFunctionIndex => "FunctionIndex" | CFunctionTable => "FunctionTable" | CFunctionTableIndex => "FunctionTableIndex"
  end.

(** Top-level names each part declares, in the order of the files. *)
Definition apply_lib : list string :=
  ["NO_OFFSET"; "WasmType"; "wastrumentation_stack_load_type";
   "wastrumentation_stack_load_i32"; "wastrumentation_stack_load_f32";
   "wastrumentation_stack_load_i64"; "wastrumentation_stack_load_f64";
   "wastrumentation_stack_store_i32"; "wastrumentation_stack_store_f32";
   "wastrumentation_stack_store_i64"; "wastrumentation_stack_store_f64";
   "wastrumentation_memory_load"; "wastrumentation_memory_store";
   "MutDynArgsResults"; "DynValues"; "MutDynArgs"; "MutDynRess"; "call_base"; "WasmFunction"].
(** Names declared by std_analysis_lib_if.ts. *)
Definition if_lib : list string :=
  ["THEN_KONTN"; "ELSE_KONTN"; "SKIP_KONTN"; "BRANCH_FAIL"; "ParameterIfThenCondition";
   "ParameterIfThenElseCondition"; "ParameterBrIfCondition"; "ParameterBrIfLabel";
   "ParameterBrTableTarget"; "ParameterBrTableDefault"; "ParameterSelectCondition"].
(** Names declared by std_analysis_lib_call.ts. *)
Definition call_lib : list string := ["FunctionIndex"; "FunctionTable"; "FunctionTableIndex"].

(** [instruments_generic_apply], [instruments_if], [instruments_call],
    wasp-compiler/src/ast/wasp.rs L216-273. *)
Definition traps (root : list advice_def) : list trap_sig :=
  flat_map (fun a => match a with AGlobal _ => [] | ATrap t => [t] end) root.
(** [instruments_generic_apply], wasp-compiler/src/ast/wasp.rs L216-230. *)
Definition instruments_generic_apply (root : list advice_def) : bool :=
  existsb (fun t => match t with TApply (AGen _ _ _ _) _ => true | _ => false end) (traps root).
(** [instruments_if], wasp.rs L232-255. *)
Definition instruments_if (root : list advice_def) : bool :=
  existsb (fun t => match t with TIfThen _ _ | TIfThenElse _ _ | TBrIf _ _ _ | TBrTable _ _ _ | TSelect _ _ => true | _ => false end)
    (traps root).
(** [instruments_call], wasp.rs L257-273. *)
Definition instruments_call (root : list advice_def) : bool :=
  existsb (fun t => match t with TCall _ _ _ | TCallIndirectPre _ _ _ | TCallIndirectPost _ _ => true | _ => false end) (traps root).

(** An exported function: parameters, the [let]s before the guest code with the parameters or
    variables their constructors are given, the guest code of the advice it is for, and the value
    returned if the guest code returns none. *)
Record wrapper := Wrap {
  wr_name : string;
  wr_params : list (string * numty);
  wr_results : list numty;
  wr_lets : list (string * class * list string);
  wr_fallback : option string }.

(** L159-198, L384-683. Nothing is generated from the specialised advice: [AnalysisInterface::from]
    does not return (L51, C40). *)
Definition wrapper_of (t : trap_sig) : option wrapper :=
  let at_ := [("func_index", TI64); ("istr_index", TI64)] in
  match t with
  | TApply (AGen _ f args ress) _ =>
      Some (Wrap "generic_apply"
        [("f_apply", TI32); ("instr_f_idx", TI32); ("argc", TI32); ("resc", TI32); ("sigv", TI32); ("sigtypv", TI32);
         ("code_present_serialized", TI32)] []
        [(f, CWasmFunction, ["f_apply"; "instr_f_idx"; "sigv"]);
         ("argsResults", CMutDynArgsResults, ["argc"; "resc"; "sigv"; "sigtypv"]);
         (args, CMutDynArgs, ["argsResults"]); (ress, CMutDynRess, ["argsResults"])] None)
  | TApply (ASpe _ _ _ _) _ => None
  | TIfThen c _ =>
      Some (Wrap "specialized_if_then_k"
        ([("path_kontinuation", TI32); ("if_then_input_c", TI32); ("if_then_arity", TI32)] ++ at_) [TI32]
        [(c, CIfThenCondition, ["path_kontinuation"])] (Some "path_kontinuation"))
  | TIfThenElse c _ =>
      Some (Wrap "specialized_if_then_else_k"
        ([("path_kontinuation", TI32); ("if_then_else_input_c", TI32); ("if_then_else_arity", TI32)] ++ at_) [TI32]
        [(c, CIfThenElseCondition, ["path_kontinuation"])] (Some "path_kontinuation"))
  | TBrIf c l _ =>
      Some (Wrap "specialized_br_if" ([("path_kontinuation", TI32); ("low_level_label", TI32)] ++ at_) [TI32]
        [(c, CBrIfCondition, ["path_kontinuation"]); (l, CBrIfLabel, ["low_level_label"])] (Some "path_kontinuation"))
  | TBrTable x d _ =>
      Some (Wrap "specialized_br_table"
        ([("br_table_target", TI32); ("effective_label", TI32); ("br_table_default", TI32)] ++ at_) [TI32]
        [(x, CBrTableTarget, ["br_table_target"]); (d, CBrTableDefault, ["br_table_default"])] (Some "br_table_target"))
  | TCall q x _ =>
      Some (Wrap (match q with Pre => "specialized_call_pre" | Post => "specialized_call_post" end)
        (("function_target", TI32) :: at_) [] [(x, CFunctionIndex, ["function_target"])] None)
  | TCallIndirectPre t i _ =>
      Some (Wrap "specialized_call_indirect_pre" ([("function_table_index", TI32); ("function_table", TI32)] ++ at_) [TI32]
        [(t, CFunctionTable, ["function_table"]); (i, CFunctionTableIndex, ["function_table_index"])] (Some "function_table_index"))
  | TCallIndirectPost t _ =>
      Some (Wrap "specialized_call_indirect_post" (("function_table", TI32) :: at_) []
        [(t, CFunctionTable, ["function_table"])] None)
  | TBlockPre _ => Some (Wrap "trap_block_pre" ([("input_count", TI32); ("arity", TI32)] ++ at_) [] [] None)
  | TBlockPost _ => Some (Wrap "trap_block_post" at_ [] [] None)
  | TLoopPre _ => Some (Wrap "trap_loop_pre" ([("input_count", TI32); ("arity", TI32)] ++ at_) [] [] None)
  | TLoopPost _ => Some (Wrap "trap_loop_post" at_ [] [] None)
  | TSelect c _ =>
      Some (Wrap "specialized_select" (("path_kontinuation", TI32) :: at_) [TI32]
        [(c, CSelectCondition, ["path_kontinuation"])] (Some "path_kontinuation"))
  end.

(** The whole program, L70-97: library parts, global guest code, wrappers. *)
Record as_program := AsProgram {
  ap_parts : list (list string);
  ap_wrappers : list (trap_sig * wrapper);
  ap_globals : list string }.
(** The wrappers of all traps, generate/analysis/mod.rs L70-97; [None] is a panic. *)
Fixpoint wrappers_of (ts : list trap_sig) : option (list (trap_sig * wrapper)) :=
  match ts with
  | [] => Some []
  | t :: r => match wrapper_of t, wrappers_of r with Some w, Some ws => Some ((t, w) :: ws) | _, _ => None end
  end.
(** The program as a whole, L70-97. *)
Definition generate (root : list advice_def) : option as_program :=
  match wrappers_of (traps root) with
  | None => None
  | Some ws => Some (AsProgram
      ((if instruments_generic_apply root then [apply_lib] else []) ++
       (if instruments_if root then [if_lib] else []) ++
       (if instruments_call root then [call_lib] else []))
      ws
      (flat_map (fun a => match a with AGlobal c => [c] | ATrap _ => [] end) root))
  end.
(** Names declared at the top level by what is generated. *)
Definition top_names (p : as_program) : list string := List.concat (ap_parts p) ++ map (fun w => wr_name (snd w)) (ap_wrappers p).
(** Names declared in the scope of a wrapper, in order. *)
Definition local_names (w : wrapper) : list string := map fst (wr_params w) ++ map (fun l => fst (fst l)) (wr_lets w).

(** ** Objects *)
(** An [i32] as AssemblyScript compares it. *)
Definition as_i32 (z : Z) : Z := (if z <? 2 ^ 31 then z else z - 2 ^ 32)%Z.
(** What a name in scope denotes: a parameter, or an instance with its fields. Booleans are stored
    in fields of type [i32]. *)
Inductive object :=
| ONum (t : numty) (z : Z)
| OWasmFunction (f_apply instr_f_idx sigv : Z)                    (* lib_gen_apply L174-188 *)
| OArgsResults (argc resc sigv sigtypv : Z)                       (* lib_gen_apply L57-68 *)
| OArgs (argc resc sigv sigtypv : Z) | ORess (argc resc sigv sigtypv : Z)   (* L129-135, L150-156 *)
| OIfThenCondition (is_then is_skip : Z)                          (* lib_if L15-31 *)
| OIfThenElseCondition (is_then is_else : Z)                      (* lib_if L33-49 *)
| OBrIfCondition (is_branch is_skip : Z)                          (* lib_if L51-67 *)
| OBrIfLabel (label : Z) | OBrTableTarget (target : Z) | OBrTableDefault (deflt : Z)   (* L69-91 *)
| OSelectCondition (is_then is_else : Z)                          (* L93 *)
| OFunctionIndex (index : Z) | OFunctionTable (index : Z) | OFunctionTableIndex (index : Z).  (* lib_call *)
Definition BRANCH_FAIL : Z := 0.                                  (* lib_if L13 *)
Definition THEN_KONTN : Z := 1.                                   (* lib_if L9-11 *)
(** [ELSE_KONTN], std_analysis_lib_if.ts L9-11. *)
Definition ELSE_KONTN : Z := 0.
(** [SKIP_KONTN], std_analysis_lib_if.ts L9-11. *)
Definition SKIP_KONTN : Z := ELSE_KONTN.
(** The constructors of the conditions, lib_if L22-30, L40-48, L58-66. *)
Definition branches (path_kontinuation : Z) : Z * Z := if (path_kontinuation =? BRANCH_FAIL)%Z then (0, 1)%Z else (1, 0)%Z.
(** [new C(..)] in a wrapper. *)
Definition new_object (c : class) (args : list object) : option object :=
  match c, args with
  | CWasmFunction, [ONum _ f; ONum _ i; ONum _ s] => Some (OWasmFunction f i s)
  | CMutDynArgsResults, [ONum _ a; ONum _ r; ONum _ s; ONum _ t] => Some (OArgsResults a r s t)
  | CMutDynArgs, [OArgsResults a r s t] => Some (OArgs a r s t)
  | CMutDynRess, [OArgsResults a r s t] => Some (ORess a r s t)
  | CIfThenCondition, [ONum _ k] => Some (OIfThenCondition (fst (branches k)) (snd (branches k)))
  | CIfThenElseCondition, [ONum _ k] => Some (OIfThenElseCondition (fst (branches k)) (snd (branches k)))
  | CBrIfCondition, [ONum _ k] => Some (OBrIfCondition (fst (branches k)) (snd (branches k)))
  | CSelectCondition, [ONum _ k] => Some (OSelectCondition (fst (branches k)) (snd (branches k)))
  | CBrIfLabel, [ONum _ l] => Some (OBrIfLabel l)
  | CBrTableTarget, [ONum _ l] => Some (OBrTableTarget l)
  | CBrTableDefault, [ONum _ l] => Some (OBrTableDefault l)
  | CFunctionIndex, [ONum _ i] => Some (OFunctionIndex i)
  | CFunctionTable, [ONum _ i] => Some (OFunctionTable i)
  | CFunctionTableIndex, [ONum _ i] => Some (OFunctionTableIndex i)
  | _, _ => None
  end.

(** Names in scope, the last declared first. *)
Definition scope := list (string * object).
(** A name in scope (AssemblyScript, not repository code). *)
Fixpoint lookup (x : string) (sc : scope) : option object :=
  match sc with [] => None | (y, o) :: r => if String.eqb x y then Some o else lookup x r end.
(** Auxiliary: nothing in the repository corresponds to it. *)
Fixpoint lookups (xs : list string) (sc : scope) : option (list object) :=
  match xs with
  | [] => Some []
  | x :: r => match lookup x sc, lookups r sc with Some o, Some os => Some (o :: os) | _, _ => None end
  end.
(** The parameters of a wrapper. *)
Fixpoint bind_params (ps : list (string * numty)) (args : list val) (sc : scope) : option scope :=
  match ps, args with
  | [], [] => Some sc
  | (x, t) :: ps', VNum _ z :: args' => bind_params ps' args' ((x, ONum t z) :: sc)
  | _, _ => None
  end.
(** The declarations of a wrapper. *)
Fixpoint bind_lets (ls : list (string * class * list string)) (sc : scope) : option scope :=
  match ls with
  | [] => Some sc
  | (x, c, xs) :: r =>
      match lookups xs sc with
      | Some os => match new_object c os with Some o => bind_lets r ((x, o) :: sc) | None => None end
      | None => None
      end
  end.
(** The scope of the guest code of an advice. *)
Definition enter_wrapper (w : wrapper) (args : list val) : option scope :=
  match bind_params (wr_params w) args [] with Some sc => bind_lets (wr_lets w) sc | None => None end.

(** ** Execution *)
Section Run.
  Context {X : Type}.
  (** What the guest code of an advice does with the names in scope: [[]] if it returns no value. *)
  Variable guest : trap_sig -> scope -> xprog X.
  Definition wrapper_run (t : trap_sig) (w : wrapper) (args : list val) : xprog X :=
    match enter_wrapper w args with
    | None => XStuck
    | Some sc =>
        xbind (guest t sc) (fun vs =>
          match wr_fallback w, vs with
          | None, _ => XRet []
          | Some x, [] => match lookup x sc with Some (ONum u z) => XRet [VNum u z] | _ => XStuck end
          | Some _, _ => XRet vs
          end)
    end.
  (** The compiled program: its exported functions by name. *)
  Definition as_analysis (p : as_program) (name : string) (args : list val) : xprog X :=
    match find (fun w => String.eqb name (wr_name (snd w))) (ap_wrappers p) with
    | Some (t, w) => wrapper_run t w args
    | None => XStuck
    end.

  (** ** Methods of std_analysis_lib_gen_apply.ts *)
  (** Functions of the namespace [wastrumentation_stack], L10-29. *)
  Variable stack : string -> list val -> xprog X.
  (** [checkBounds], L70-75. *)
  Definition checkBounds (count index : Z) (k : xprog X) : xprog X :=
    if (negb (0 <=? as_i32 index) || (as_i32 count <=? as_i32 index))%Z then XTrap else k.
  (** [wastrumentation_memory_load], L31-42, [wastrumentation_memory_store], L44-55: the functions
      called for the types the parts of the generated library know. *)
  Definition memory_load (t : numty) (ptr offset : Z) : xprog X := stack (stack_load_name t) [vi32 ptr; vi32 offset].
  (** [wastrumentation_memory_store], std_analysis_lib_gen_apply.ts L44-55. *)
  Definition memory_store (t : numty) (ptr value offset : Z) : xprog X :=
    stack (stack_store_name t) [vi32 ptr; VNum t value; vi32 offset].
  (** Addition on [i32]. *)
  Definition plus32 (a b : Z) : Z := ((a + b) mod 2 ^ 32)%Z.
  (** L77-113. *)
  Definition getArg (t : numty) (argc resc sigv index : Z) : xprog X :=
    checkBounds argc index (memory_load t sigv (plus32 resc index)).
  (** [setArg], L82-85. *)
  Definition setArg (t : numty) (argc resc sigv index value : Z) : xprog X :=
    checkBounds argc index (memory_store t sigv value (plus32 resc index)).
  (** [getRes], L87-90. *)
  Definition getRes (t : numty) (resc sigv index : Z) : xprog X := checkBounds resc index (memory_load t sigv (plus32 0 index)).
  (** [setRes], L92-95. *)
  Definition setRes (t : numty) (resc sigv index value : Z) : xprog X :=
    checkBounds resc index (memory_store t sigv value (plus32 0 index)).
  (** [getArgType], L97-104. *)
  Definition getArgType (argc resc sigtypv index : Z) : xprog X :=
    checkBounds argc index (stack "wastrumentation_stack_load_type" [vi32 sigtypv; vi32 (plus32 resc index)]).
  (** [getResType], L106-113. *)
  Definition getResType (resc sigtypv index : Z) : xprog X :=
    checkBounds resc index (stack "wastrumentation_stack_load_type" [vi32 sigtypv; vi32 (plus32 0 index)]).
  (** [get], [getType], [set] and [length] of [MutDynArgs], L129-148, and [MutDynRess], L150-169. *)
  Definition o_get (t : numty) (o : object) (index : Z) : xprog X :=
    match o with
    | OArgs a r s _ => getArg t a r s index
    | ORess _ r s _ => getRes t r s index
    | _ => XStuck
    end.
  (** [getType] of [MutDynArgs], L129-148, and [MutDynRess], L150-169. *)
  Definition o_getType (o : object) (index : Z) : xprog X :=
    match o with
    | OArgs a r _ y => getArgType a r y index
    | ORess _ r _ y => getResType r y index
    | _ => XStuck
    end.
  (** [set] of the same. *)
  Definition o_set (t : numty) (o : object) (index value : Z) : xprog X :=
    match o with
    | OArgs a r s _ => setArg t a r s index value
    | ORess _ r s _ => setRes t r s index value
    | _ => XStuck
    end.
  (** [length] of the same. *)
  Definition o_length (o : object) : Z := match o with OArgs a _ _ _ => a | ORess _ r _ _ => r | _ => 0 end.
  (** [WasmFunction.apply], L185-187. *)
  Definition o_apply (o : object) : xprog X :=
    match o with OWasmFunction f _ s => XCall "call_base" [vi32 f; vi32 s] (fun _ => XRet []) | _ => XStuck end.

  (** A loop over all values, each read at the type its slot is tagged with: the loops of
      tests/analyses/wasp-as/set_arg_ret_to_zero.wasp L3-22 and signatures_check.wasp L47-69. The
      guest code continues with the values, [n] are still to be read from [index] on. *)
  Fixpoint read_all (o : object) (n : nat) (index : Z) (acc : list val) (k : list val -> xprog X) : xprog X :=
    match n with
    | O => k acc
    | S n' =>
        xbind (o_getType o index) (fun ts =>
          match ts with
          | [VNum TI32 c] =>
              match wasm_type_from c with                             (* enum WasmType, L3-8 *)
              | Some t => xbind (o_get t o index) (fun vs => read_all o n' (index + 1)%Z (acc ++ vs) k)
              | None => XTrap                                         (* [default: unreachable()] *)
              end
          | _ => XStuck
          end)
    end.
End Run.

(** ** tests/analyses/wasp-as/forward.wasp *)
Definition forward_wasp : list advice_def :=
  [ATrap (TIfThen "condition" "if (condition.is_then) { return condition.continue_then; }; if (condition.is_skip) { return condition.continue_skip; };");
   ATrap (TIfThenElse "condition" "if (condition.is_then) { return condition.continue_then; }; if (condition.is_else) { return condition.continue_else; };");
   ATrap (TBrIf "condition" "label" "if (condition.is_branch) { return condition.continue_branch; }; if (condition.is_skip) { return condition.continue_skip; };");
   ATrap (TBrTable "target" "dflt" "return target.target;");
   ATrap (TApply (AGen MutableDynamic "func" "args" "results") "func.apply();");
   ATrap (TCall Pre "f" "return; // No intercession, intercession @ callee site");
   ATrap (TCall Post "f" "return; // No intercession, intercession @ callee site");
   ATrap (TCallIndirectPre "table" "index" "return index.index; // Arguments intercession @ callee site");
   ATrap (TCallIndirectPost "table" "return; // No intercession, intercession @ callee site")].
(** What its guest code means: each body as in the file, on the names of the advice. *)
Section Forward.
  Context {X : Type}.
  Definition two_way (a b ka kb : Z) : xprog X :=
    if negb (a =? 0)%Z then XRet [vi32 ka] else if negb (b =? 0)%Z then XRet [vi32 kb] else XRet [].
  (** The guest code of forward.wasp. *)
  Definition forward_guest (t : trap_sig) (sc : scope) : xprog X :=
    match t with
    | TIfThen c _ =>
        match lookup c sc with Some (OIfThenCondition a b) => two_way a b THEN_KONTN SKIP_KONTN | _ => XStuck end
    | TIfThenElse c _ =>
        match lookup c sc with Some (OIfThenElseCondition a b) => two_way a b THEN_KONTN ELSE_KONTN | _ => XStuck end
    | TBrIf c _ _ =>
        match lookup c sc with Some (OBrIfCondition a b) => two_way a b THEN_KONTN SKIP_KONTN | _ => XStuck end
    | TBrTable x _ _ => match lookup x sc with Some (OBrTableTarget z) => XRet [vi32 z] | _ => XStuck end
    | TApply (AGen _ f _ _) _ => match lookup f sc with Some o => o_apply o | None => XStuck end
    | TCallIndirectPre _ i _ => match lookup i sc with Some (OFunctionTableIndex z) => XRet [vi32 z] | _ => XStuck end
    | _ => XRet []
    end.
End Forward.
