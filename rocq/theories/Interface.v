(** From the hooks an analysis selects to the interface handed to the instrumentation. *)
From Verif Require Export Advice.
Local Open Scope string_scope.
Local Open Scope list_scope.

(** [Hook], supported-languages/rust/src/generate/analysis/mod.rs L26-55; the same enum is
    in supported-languages/webassembly/src/generate/analysis/mod.rs L25-54. *)
Inductive shook :=
| SGenericApply | SCallPre | SCallPost | SCallIndirectPre | SCallIndirectPost
| SIfThen | SIfThenPost | SIfThenElse | SIfThenElsePost
| SBranch | SBranchIf | SBranchTable | SSelect | SUnary | SBinary | SDrop | SReturn
| SConst | SLocal | SGlobal | SStore | SLoad | SMemorySize | SMemoryGrow
| SBlockPre | SBlockPost | SLoopPre | SLoopPost.

(** Auxiliary: nothing in the repository corresponds to it. *)
Definition shook_eq_dec (a b : shook) : {a = b} + {a <> b}.
Proof. decide equality. Defined.

(** [Hook::all_hooks], L57-91. *)
Definition all_shooks : list shook :=
  [SGenericApply; SCallPre; SCallPost; SCallIndirectPre; SCallIndirectPost; SIfThen;
   SIfThenPost; SIfThenElse; SIfThenElsePost; SBranch; SBranchIf; SBranchTable; SSelect;
   SUnary; SBinary; SDrop; SReturn; SConst; SLocal; SGlobal; SStore; SLoad; SMemorySize;
   SMemoryGrow; SBlockPre; SBlockPost; SLoopPre; SLoopPost].

(** Assignment of one field of [AnalysisInterface]; the fields are indexed by [hook]. *)
Definition set_field (h : hook) (e : wfun) (ai : interface) : interface :=
  AI (fun h' => if hook_eq_dec h' h then Some e else ai_hook ai h') (ai_generic ai).
(** Assignment of the field [generic_interface]. *)
Definition set_generic (x : wfun * wfun) (ai : interface) : interface := AI (ai_hook ai) (Some x).

(** [AnalysisInterface::default()]: every field [None], analysis/mod.rs L118. *)
Definition no_interface : interface := AI (fun _ => None) None.

(** The fields assigned by each arm, L96-227, in their order; each is assigned the value of
    the [interface_*] function of the same name, that is [std_hook]. *)
Definition fields_of (s : shook) : list hook :=
  match s with
  | SGenericApply => []
  | SCallPre => [HkCallPre]
  | SCallPost => [HkCallPost]
  | SCallIndirectPre => [HkCallIndPre]
  | SCallIndirectPost => [HkCallIndPost]
  | SIfThen => [HkIfThen]
  | SIfThenPost => [HkIfThenPost]
  | SIfThenElse => [HkIfThenElse]
  | SIfThenElsePost => [HkIfThenElsePost]
  | SBranch => [HkBr]
  | SBranchIf => [HkBrIf]
  | SBranchTable => [HkBrTable]
  | SSelect => [HkSelect]
  | SUnary =>                                                                (* L131-148 *)
      [HkUnary TI32 TI32; HkUnary TI64 TI32; HkUnary TI64 TI64; HkUnary TF32 TF32;
       HkUnary TF64 TF64; HkUnary TF32 TI32; HkUnary TF64 TI32; HkUnary TI32 TI64;
       HkUnary TF32 TI64; HkUnary TF64 TI64; HkUnary TI32 TF32; HkUnary TI64 TF32;
       HkUnary TF64 TF32; HkUnary TI32 TF64; HkUnary TI64 TF64; HkUnary TF32 TF64]
  | SBinary =>                                                               (* L149-164 *)
      [HkBinary BkI32; HkBinary BkI64I32; HkBinary BkF32I32; HkBinary BkF64I32;
       HkBinary BkI64; HkBinary BkF32; HkBinary BkF64]
  | SDrop => [HkDrop]
  | SReturn => [HkReturn]
  | SConst => [HkConst TI32; HkConst TF32; HkConst TI64; HkConst TF64]       (* L167-172 *)
  | SLocal =>                                                                (* L173-186 *)
      [HkLocal LGet TI32; HkLocal LSet TI32; HkLocal LTee TI32;
       HkLocal LGet TF32; HkLocal LSet TF32; HkLocal LTee TF32;
       HkLocal LGet TI64; HkLocal LSet TI64; HkLocal LTee TI64;
       HkLocal LGet TF64; HkLocal LSet TF64; HkLocal LTee TF64]
  | SGlobal =>                                                               (* L187-196 *)
      [HkGlobal GGet TI32; HkGlobal GSet TI32; HkGlobal GGet TF32; HkGlobal GSet TF32;
       HkGlobal GGet TI64; HkGlobal GSet TI64; HkGlobal GGet TF64; HkGlobal GSet TF64]
  | SStore => [HkStore TF32; HkStore TF64; HkStore TI32; HkStore TI64]       (* L197-202 *)
  | SLoad => [HkLoad TF32; HkLoad TF64; HkLoad TI32; HkLoad TI64]            (* L203-208 *)
  | SMemorySize => [HkMemorySize]
  | SMemoryGrow => [HkMemoryGrow]
  | SBlockPre => [HkBlockPre]
  | SBlockPost => [HkBlockPost]
  | SLoopPre => [HkLoopPre]
  | SLoopPost => [HkLoopPost]
  end.

Definition select_hook (ai : interface) (s : shook) : interface :=
  match s with
  | SGenericApply => set_generic (generic_apply, call_base) ai               (* L97-99 *)
  | _ => fold_left (fun ai h => set_field h (std_hook h) ai) (fields_of s) ai
  end.

(** [interface_from], L93-230; the list is the hash set in its iteration order. *)
Definition interface_from (hs : list shook) : interface := fold_left select_hook hs no_interface.
