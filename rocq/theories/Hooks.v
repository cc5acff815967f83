(** Analysis hooks: names, signatures, order and operator tables. *)
From Verif Require Export Syntax.

(** The operand/result classes of binary operators, simple_operations.rs L36-42. *)
Inductive binkind := BkI32 | BkI64I32 | BkF32I32 | BkF64I32 | BkI64 | BkF32 | BkF64.

(** The 75 optional hooks of [AnalysisInterface], analysis/mod.rs L119-213. The [Target]
    enums of instrument/{block_loop,function_call_indirect,branch_if,simple_operations,
    memory}.rs have one variant per hook; families differing only in operand types are
    one constructor here. [HkUnary a r] is [Unary<a>To<r>]; all sixteen pairs exist. *)
Inductive hook :=
| HkBlockPre | HkBlockPost | HkLoopPre | HkLoopPost | HkSelect
| HkCallPre | HkCallPost | HkCallIndPre | HkCallIndPost
| HkIfThen | HkIfThenPost | HkIfThenElse | HkIfThenElsePost
| HkBr | HkBrIf | HkBrTable | HkDrop | HkReturn
| HkConst (t : numty) | HkUnary (a r : numty) | HkBinary (k : binkind)
| HkMemorySize | HkMemoryGrow
| HkLocal (o : localop) (t : numty) | HkGlobal (o : globalop) (t : numty)
| HkStore (t : numty) | HkLoad (t : numty).

(** Auxiliary: nothing in the repository corresponds to it. *)
Definition hook_eq_dec (a b : hook) : {a = b} + {a <> b}.
Proof. decide equality; decide equality. Defined.

(** The names of the trap functions, analysis/mod.rs L1-86, one per hook through the
    [interface_*] functions of L254-330. *)
Definition trap_name (h : hook) : string :=
  match h with
  | HkBlockPre => "trap_block_pre"
  | HkBlockPost => "trap_block_post"
  | HkLoopPre => "trap_loop_pre"
  | HkLoopPost => "trap_loop_post"
  | HkSelect => "specialized_select"
  | HkCallPre => "specialized_call_pre"
  | HkCallPost => "specialized_call_post"
  | HkCallIndPre => "specialized_call_indirect_pre"
  | HkCallIndPost => "specialized_call_indirect_post"
  | HkIfThen => "specialized_if_then_k"
  | HkIfThenPost => "trap_if_then_post"
  | HkIfThenElse => "specialized_if_then_else_k"
  | HkIfThenElsePost => "trap_if_then_else_post"
  | HkBr => "specialized_br"
  | HkBrIf => "specialized_br_if"
  | HkBrTable => "specialized_br_table"
  | HkDrop => "drop_trap"
  | HkReturn => "return_trap"
  | HkConst TI32 => "trap_const_i32"
  | HkConst TF32 => "trap_const_f32"
  | HkConst TI64 => "trap_const_i64"
  | HkConst TF64 => "trap_const_f64"
  | HkUnary TI32 TI32 => "unary_i32_to_i32"
  | HkUnary TI64 TI32 => "unary_i64_to_i32"
  | HkUnary TI64 TI64 => "unary_i64_to_i64"
  | HkUnary TF32 TF32 => "unary_f32_to_f32"
  | HkUnary TF64 TF64 => "unary_f64_to_f64"
  | HkUnary TF32 TI32 => "unary_f32_to_i32"
  | HkUnary TF64 TI32 => "unary_f64_to_i32"
  | HkUnary TI32 TI64 => "unary_i32_to_i64"
  | HkUnary TF32 TI64 => "unary_f32_to_i64"
  | HkUnary TF64 TI64 => "unary_f64_to_i64"
  | HkUnary TI32 TF32 => "unary_i32_to_f32"
  | HkUnary TI64 TF32 => "unary_i64_to_f32"
  | HkUnary TF64 TF32 => "unary_f64_to_f32"
  | HkUnary TI32 TF64 => "unary_i32_to_f64"
  | HkUnary TI64 TF64 => "unary_i64_to_f64"
  | HkUnary TF32 TF64 => "unary_f32_to_f64"
  | HkBinary BkI32 => "binary_i32_i32_to_i32"
  | HkBinary BkI64I32 => "binary_i64_i64_to_i32"
  | HkBinary BkF32I32 => "binary_f32_f32_to_i32"
  | HkBinary BkF64I32 => "binary_f64_f64_to_i32"
  | HkBinary BkI64 => "binary_i64_i64_to_i64"
  | HkBinary BkF32 => "binary_f32_f32_to_f32"
  | HkBinary BkF64 => "binary_f64_f64_to_f64"
  | HkMemorySize => "trap_memory_size"
  | HkMemoryGrow => "trap_memory_grow"
  | HkLocal LGet TI32 => "trap_local_get_i32"
  | HkLocal LSet TI32 => "trap_local_set_i32"
  | HkLocal LTee TI32 => "trap_local_tee_i32"
  | HkGlobal GGet TI32 => "trap_global_get_i32"
  | HkGlobal GSet TI32 => "trap_global_set_i32"
  | HkLocal LGet TF32 => "trap_local_get_f32"
  | HkLocal LSet TF32 => "trap_local_set_f32"
  | HkLocal LTee TF32 => "trap_local_tee_f32"
  | HkGlobal GGet TF32 => "trap_global_get_f32"
  | HkGlobal GSet TF32 => "trap_global_set_f32"
  | HkLocal LGet TI64 => "trap_local_get_i64"
  | HkLocal LSet TI64 => "trap_local_set_i64"
  | HkLocal LTee TI64 => "trap_local_tee_i64"
  | HkGlobal GGet TI64 => "trap_global_get_i64"
  | HkGlobal GSet TI64 => "trap_global_set_i64"
  | HkLocal LGet TF64 => "trap_local_get_f64"
  | HkLocal LSet TF64 => "trap_local_set_f64"
  | HkLocal LTee TF64 => "trap_local_tee_f64"
  | HkGlobal GGet TF64 => "trap_global_get_f64"
  | HkGlobal GSet TF64 => "trap_global_set_f64"
  | HkStore TF32 => "trap_f32_store"
  | HkStore TF64 => "trap_f64_store"
  | HkStore TI32 => "trap_i32_store"
  | HkStore TI64 => "trap_i64_store"
  | HkLoad TF32 => "trap_f32_load"
  | HkLoad TF64 => "trap_f64_load"
  | HkLoad TI32 => "trap_i32_load"
  | HkLoad TI64 => "trap_i64_load"
  end%string.

(** Parameter and result types of the trap functions, analysis/mod.rs L254-330;
    [SER_OPRTR_TYP] is [I32] (L88). *)
Definition trap_args (h : hook) : list numty :=
  match h with
  | HkBlockPre => [TI32; TI32; TI64; TI64]
  | HkBlockPost => [TI64; TI64]
  | HkLoopPre => [TI32; TI32; TI64; TI64]
  | HkLoopPost => [TI64; TI64]
  | HkSelect => [TI32; TI64; TI64]
  | HkCallPre => [TI32; TI64; TI64]
  | HkCallPost => [TI32; TI64; TI64]
  | HkCallIndPre => [TI32; TI32; TI64; TI64]
  | HkCallIndPost => [TI32; TI64; TI64]
  | HkIfThen => [TI32; TI32; TI32; TI64; TI64]
  | HkIfThenPost => [TI64; TI64]
  | HkIfThenElse => [TI32; TI32; TI32; TI64; TI64]
  | HkIfThenElsePost => [TI64; TI64]
  | HkBr => [TI64; TI64; TI64]
  | HkBrIf => [TI32; TI32; TI64; TI64]
  | HkBrTable => [TI32; TI32; TI32; TI64; TI64]
  | HkDrop => [TI64; TI64]
  | HkReturn => [TI64; TI64]
  | HkConst TI32 => [TI32; TI64; TI64]
  | HkConst TF32 => [TF32; TI64; TI64]
  | HkConst TI64 => [TI64; TI64; TI64]
  | HkConst TF64 => [TF64; TI64; TI64]
  | HkUnary TI32 TI32 => [TI32; TI32; TI64; TI64]
  | HkUnary TI64 TI32 => [TI64; TI32; TI64; TI64]
  | HkUnary TI64 TI64 => [TI64; TI32; TI64; TI64]
  | HkUnary TF32 TF32 => [TF32; TI32; TI64; TI64]
  | HkUnary TF64 TF64 => [TF64; TI32; TI64; TI64]
  | HkUnary TF32 TI32 => [TF32; TI32; TI64; TI64]
  | HkUnary TF64 TI32 => [TF64; TI32; TI64; TI64]
  | HkUnary TI32 TI64 => [TI32; TI32; TI64; TI64]
  | HkUnary TF32 TI64 => [TF32; TI32; TI64; TI64]
  | HkUnary TF64 TI64 => [TF64; TI32; TI64; TI64]
  | HkUnary TI32 TF32 => [TI32; TI32; TI64; TI64]
  | HkUnary TI64 TF32 => [TI64; TI32; TI64; TI64]
  | HkUnary TF64 TF32 => [TF64; TI32; TI64; TI64]
  | HkUnary TI32 TF64 => [TI32; TI32; TI64; TI64]
  | HkUnary TI64 TF64 => [TI64; TI32; TI64; TI64]
  | HkUnary TF32 TF64 => [TF32; TI32; TI64; TI64]
  | HkBinary BkI32 => [TI32; TI32; TI32; TI64; TI64]
  | HkBinary BkI64I32 => [TI64; TI64; TI32; TI64; TI64]
  | HkBinary BkF32I32 => [TF32; TF32; TI32; TI64; TI64]
  | HkBinary BkF64I32 => [TF64; TF64; TI32; TI64; TI64]
  | HkBinary BkI64 => [TI64; TI64; TI32; TI64; TI64]
  | HkBinary BkF32 => [TF32; TF32; TI32; TI64; TI64]
  | HkBinary BkF64 => [TF64; TF64; TI32; TI64; TI64]
  | HkMemorySize => [TI32; TI64; TI64; TI64]
  | HkMemoryGrow => [TI32; TI64; TI64; TI64]
  | HkLocal LGet TI32 => [TI32; TI64; TI64; TI64]
  | HkLocal LSet TI32 => [TI32; TI64; TI64; TI64]
  | HkLocal LTee TI32 => [TI32; TI64; TI64; TI64]
  | HkGlobal GGet TI32 => [TI32; TI64; TI64; TI64]
  | HkGlobal GSet TI32 => [TI32; TI64; TI64; TI64]
  | HkLocal LGet TF32 => [TF32; TI64; TI64; TI64]
  | HkLocal LSet TF32 => [TF32; TI64; TI64; TI64]
  | HkLocal LTee TF32 => [TF32; TI64; TI64; TI64]
  | HkGlobal GGet TF32 => [TF32; TI64; TI64; TI64]
  | HkGlobal GSet TF32 => [TF32; TI64; TI64; TI64]
  | HkLocal LGet TI64 => [TI64; TI64; TI64; TI64]
  | HkLocal LSet TI64 => [TI64; TI64; TI64; TI64]
  | HkLocal LTee TI64 => [TI64; TI64; TI64; TI64]
  | HkGlobal GGet TI64 => [TI64; TI64; TI64; TI64]
  | HkGlobal GSet TI64 => [TI64; TI64; TI64; TI64]
  | HkLocal LGet TF64 => [TF64; TI64; TI64; TI64]
  | HkLocal LSet TF64 => [TF64; TI64; TI64; TI64]
  | HkLocal LTee TF64 => [TF64; TI64; TI64; TI64]
  | HkGlobal GGet TF64 => [TF64; TI64; TI64; TI64]
  | HkGlobal GSet TF64 => [TF64; TI64; TI64; TI64]
  | HkStore TF32 => [TI32; TF32; TI64; TI32; TI64; TI64]
  | HkStore TF64 => [TI32; TF64; TI64; TI32; TI64; TI64]
  | HkStore TI32 => [TI32; TI32; TI64; TI32; TI64; TI64]
  | HkStore TI64 => [TI32; TI64; TI64; TI32; TI64; TI64]
  | HkLoad TF32 => [TI32; TI64; TI32; TI64; TI64]
  | HkLoad TF64 => [TI32; TI64; TI32; TI64; TI64]
  | HkLoad TI32 => [TI32; TI64; TI32; TI64; TI64]
  | HkLoad TI64 => [TI32; TI64; TI32; TI64; TI64]
  end.
(** Result types of the trap functions, analysis/mod.rs L254-330. *)
Definition trap_results (h : hook) : list numty :=
  match h with
  | HkBlockPre => []
  | HkBlockPost => []
  | HkLoopPre => []
  | HkLoopPost => []
  | HkSelect => [TI32]
  | HkCallPre => []
  | HkCallPost => []
  | HkCallIndPre => [TI32]
  | HkCallIndPost => []
  | HkIfThen => [TI32]
  | HkIfThenPost => []
  | HkIfThenElse => [TI32]
  | HkIfThenElsePost => []
  | HkBr => []
  | HkBrIf => [TI32]
  | HkBrTable => [TI32]
  | HkDrop => []
  | HkReturn => []
  | HkConst TI32 => [TI32]
  | HkConst TF32 => [TF32]
  | HkConst TI64 => [TI64]
  | HkConst TF64 => [TF64]
  | HkUnary TI32 TI32 => [TI32]
  | HkUnary TI64 TI32 => [TI32]
  | HkUnary TI64 TI64 => [TI64]
  | HkUnary TF32 TF32 => [TF32]
  | HkUnary TF64 TF64 => [TF64]
  | HkUnary TF32 TI32 => [TI32]
  | HkUnary TF64 TI32 => [TI32]
  | HkUnary TI32 TI64 => [TI64]
  | HkUnary TF32 TI64 => [TI64]
  | HkUnary TF64 TI64 => [TI64]
  | HkUnary TI32 TF32 => [TF32]
  | HkUnary TI64 TF32 => [TF32]
  | HkUnary TF64 TF32 => [TF32]
  | HkUnary TI32 TF64 => [TF64]
  | HkUnary TI64 TF64 => [TF64]
  | HkUnary TF32 TF64 => [TF64]
  | HkBinary BkI32 => [TI32]
  | HkBinary BkI64I32 => [TI32]
  | HkBinary BkF32I32 => [TI32]
  | HkBinary BkF64I32 => [TI32]
  | HkBinary BkI64 => [TI64]
  | HkBinary BkF32 => [TF32]
  | HkBinary BkF64 => [TF64]
  | HkMemorySize => [TI32]
  | HkMemoryGrow => [TI32]
  | HkLocal LGet TI32 => [TI32]
  | HkLocal LSet TI32 => [TI32]
  | HkLocal LTee TI32 => [TI32]
  | HkGlobal GGet TI32 => [TI32]
  | HkGlobal GSet TI32 => [TI32]
  | HkLocal LGet TF32 => [TF32]
  | HkLocal LSet TF32 => [TF32]
  | HkLocal LTee TF32 => [TF32]
  | HkGlobal GGet TF32 => [TF32]
  | HkGlobal GSet TF32 => [TF32]
  | HkLocal LGet TI64 => [TI64]
  | HkLocal LSet TI64 => [TI64]
  | HkLocal LTee TI64 => [TI64]
  | HkGlobal GGet TI64 => [TI64]
  | HkGlobal GSet TI64 => [TI64]
  | HkLocal LGet TF64 => [TF64]
  | HkLocal LSet TF64 => [TF64]
  | HkLocal LTee TF64 => [TF64]
  | HkGlobal GGet TF64 => [TF64]
  | HkGlobal GSet TF64 => [TF64]
  | HkStore TF32 => []
  | HkStore TF64 => []
  | HkStore TI32 => []
  | HkStore TI64 => []
  | HkLoad TF32 => [TF32]
  | HkLoad TF64 => [TF64]
  | HkLoad TI32 => [TI32]
  | HkLoad TI64 => [TI64]
  end.

(** The order in which hooks are installed and passes are applied, instrument/mod.rs L166-242. *)
Definition all_hooks_order : list hook :=
  [ HkBlockPre;
    HkBlockPost;
    HkLoopPre;
    HkLoopPost;
    HkSelect;
    HkCallPre;
    HkCallPost;
    HkCallIndPre;
    HkCallIndPost;
    HkIfThen;
    HkIfThenPost;
    HkIfThenElse;
    HkIfThenElsePost;
    HkBr;
    HkBrIf;
    HkBrTable;
    HkDrop;
    HkReturn;
    HkConst TI32;
    HkConst TF32;
    HkConst TI64;
    HkConst TF64;
    HkUnary TI32 TI32;
    HkUnary TI64 TI32;
    HkUnary TI64 TI64;
    HkUnary TF32 TF32;
    HkUnary TF64 TF64;
    HkUnary TF32 TI32;
    HkUnary TF64 TI32;
    HkUnary TI32 TI64;
    HkUnary TF32 TI64;
    HkUnary TF64 TI64;
    HkUnary TI32 TF32;
    HkUnary TI64 TF32;
    HkUnary TF64 TF32;
    HkUnary TI32 TF64;
    HkUnary TI64 TF64;
    HkUnary TF32 TF64;
    HkBinary BkI32;
    HkBinary BkI64I32;
    HkBinary BkF32I32;
    HkBinary BkF64I32;
    HkBinary BkI64;
    HkBinary BkF32;
    HkBinary BkF64;
    HkMemorySize;
    HkMemoryGrow;
    HkLocal LGet TI32;
    HkLocal LSet TI32;
    HkLocal LTee TI32;
    HkGlobal GGet TI32;
    HkGlobal GSet TI32;
    HkLocal LGet TF32;
    HkLocal LSet TF32;
    HkLocal LTee TF32;
    HkGlobal GGet TF32;
    HkGlobal GSet TF32;
    HkLocal LGet TI64;
    HkLocal LSet TI64;
    HkLocal LTee TI64;
    HkGlobal GGet TI64;
    HkGlobal GSet TI64;
    HkLocal LGet TF64;
    HkLocal LSet TF64;
    HkLocal LTee TF64;
    HkGlobal GGet TF64;
    HkGlobal GSet TF64;
    HkStore TF32;
    HkStore TF64;
    HkStore TI32;
    HkStore TI64;
    HkLoad TF32;
    HkLoad TF64;
    HkLoad TI32;
    HkLoad TI64 ].

(** Operator codes: [serialize], simple_operations.rs L57-205. *)
Definition unop_code (o : unop) : Z :=
  match o with
  | I32Eqz => 1 | I64Eqz => 2 | I32Clz => 3 | I32Ctz => 4
  | I32Popcnt => 5 | I64Clz => 6 | I64Ctz => 7 | I64Popcnt => 8
  | F32Abs => 9 | F32Neg => 10 | F32Ceil => 11 | F32Floor => 12
  | F32Trunc => 13 | F32Nearest => 14 | F32Sqrt => 15 | F64Abs => 16
  | F64Neg => 17 | F64Ceil => 18 | F64Floor => 19 | F64Trunc => 20
  | F64Nearest => 21 | F64Sqrt => 22 | I32WrapI64 => 23 | I32TruncF32S => 24
  | I32TruncF32U => 25 | I32TruncF64S => 26 | I32TruncF64U => 27 | I32TruncSatF32S => 28
  | I32TruncSatF32U => 29 | I32TruncSatF64S => 30 | I32TruncSatF64U => 31 | I64ExtendI32S => 32
  | I64ExtendI32U => 33 | I64TruncF32S => 34 | I64TruncF32U => 35 | I64TruncF64S => 36
  | I64TruncF64U => 37 | I64TruncSatF32S => 38 | I64TruncSatF32U => 39 | I64TruncSatF64S => 40
  | I64TruncSatF64U => 41 | F32ConvertI32S => 42 | F32ConvertI32U => 43 | F32ConvertI64S => 44
  | F32ConvertI64U => 45 | F32DemoteF64 => 46 | F64ConvertI32S => 47 | F64ConvertI32U => 48
  | F64ConvertI64S => 49 | F64ConvertI64U => 50 | F64PromoteF32 => 51 | I32ReinterpretF32 => 52
  | I64ReinterpretF64 => 53 | F32ReinterpretI32 => 54 | F64ReinterpretI64 => 55 | I32Extend8S => 56
  | I32Extend16S => 57 | I64Extend8S => 58 | I64Extend16S => 59 | I64Extend32S => 60
  end%Z.

(** [serialize] of binary operators, simple_operations.rs L57-205. *)
Definition binop_code (o : binop) : Z :=
  match o with
  | I32Eq => 1 | I32Ne => 2 | I32LtS => 3 | I32LtU => 4
  | I32GtS => 5 | I32GtU => 6 | I32LeS => 7 | I32LeU => 8
  | I32GeS => 9 | I32GeU => 10 | I64Eq => 11 | I64Ne => 12
  | I64LtS => 13 | I64LtU => 14 | I64GtS => 15 | I64GtU => 16
  | I64LeS => 17 | I64LeU => 18 | I64GeS => 19 | I64GeU => 20
  | F32Eq => 21 | F32Ne => 22 | F32Lt => 23 | F32Gt => 24
  | F32Le => 25 | F32Ge => 26 | F64Eq => 27 | F64Ne => 28
  | F64Lt => 29 | F64Gt => 30 | F64Le => 31 | F64Ge => 32
  | I32Add => 33 | I32Sub => 34 | I32Mul => 35 | I32DivS => 36
  | I32DivU => 37 | I32RemS => 38 | I32RemU => 39 | I32And => 40
  | I32Or => 41 | I32Xor => 42 | I32Shl => 43 | I32ShrS => 44
  | I32ShrU => 45 | I32Rotl => 46 | I32Rotr => 47 | I64Add => 48
  | I64Sub => 49 | I64Mul => 50 | I64DivS => 51 | I64DivU => 52
  | I64RemS => 53 | I64RemU => 54 | I64And => 55 | I64Or => 56
  | I64Xor => 57 | I64Shl => 58 | I64ShrS => 59 | I64ShrU => 60
  | I64Rotl => 61 | I64Rotr => 62 | F32Add => 63 | F32Sub => 64
  | F32Mul => 65 | F32Div => 66 | F32Min => 67 | F32Max => 68
  | F32Copysign => 69 | F64Add => 70 | F64Sub => 71 | F64Mul => 72
  | F64Div => 73 | F64Min => 74 | F64Max => 75 | F64Copysign => 76
  end%Z.
(** memory.rs L336-371. *)
Definition storeop_code (o : storeop) : Z :=
  match o with
  | I32Store => 1 | I64Store => 2 | F32Store => 3 | F64Store => 4 | I32Store8 => 5
  | I32Store16 => 6 | I64Store8 => 7 | I64Store16 => 8 | I64Store32 => 9
  end%Z.
(** [serialize] of load operators, memory.rs L336-371. *)
Definition loadop_code (o : loadop) : Z :=
  match o with
  | I32Load => 1 | I64Load => 2 | F32Load => 3 | F64Load => 4 | I32Load8S => 5 | I32Load8U => 6
  | I32Load16S => 7 | I32Load16U => 8 | I64Load8S => 9 | I64Load8U => 10 | I64Load16S => 11
  | I64Load16U => 12 | I64Load32S => 13 | I64Load32U => 14
  end%Z.

(** Which hook a unary operator belongs to, simple_operations.rs L285-310. *)
Definition unop_hook (o : unop) : hook :=
  match o with
  | I32Eqz => HkUnary TI32 TI32
  | I64Eqz => HkUnary TI64 TI32
  | I32Clz | I32Ctz | I32Popcnt => HkUnary TI32 TI32
  | I64Clz | I64Ctz | I64Popcnt => HkUnary TI64 TI64
  | F32Abs | F32Neg | F32Ceil | F32Floor | F32Trunc | F32Nearest | F32Sqrt => HkUnary TF32 TF32
  | F64Abs | F64Neg | F64Ceil | F64Floor | F64Trunc | F64Nearest | F64Sqrt => HkUnary TF64 TF64
  | I32WrapI64 => HkUnary TI64 TI32
  | I32TruncF32S | I32TruncF32U | I32TruncSatF32S | I32TruncSatF32U => HkUnary TF32 TI32
  | I32TruncF64S | I32TruncF64U | I32TruncSatF64S | I32TruncSatF64U => HkUnary TF64 TI32
  | I64ExtendI32S | I64ExtendI32U => HkUnary TI32 TI64
  | I64TruncF32S | I64TruncF32U | I64TruncSatF32S | I64TruncSatF32U => HkUnary TF32 TI64
  | I64TruncF64S | I64TruncF64U | I64TruncSatF64S | I64TruncSatF64U => HkUnary TF64 TI64
  | F32ConvertI32S | F32ConvertI32U => HkUnary TI32 TF32
  | F32ConvertI64S | F32ConvertI64U => HkUnary TI64 TF32
  | F32DemoteF64 => HkUnary TF64 TF32
  | F64ConvertI32S | F64ConvertI32U => HkUnary TI32 TF64
  | F64ConvertI64S | F64ConvertI64U => HkUnary TI64 TF64
  | F64PromoteF32 => HkUnary TF32 TF64
  | I32ReinterpretF32 => HkUnary TF32 TI32
  | I64ReinterpretF64 => HkUnary TF64 TI64
  | F32ReinterpretI32 => HkUnary TI32 TF32
  | F64ReinterpretI64 => HkUnary TI64 TF64
  | I32Extend8S | I32Extend16S => HkUnary TI32 TI32
  | I64Extend8S | I64Extend16S | I64Extend32S => HkUnary TI64 TI64
  end.

(** The same for binary operators, L313-322. *)
Definition binop_hook (o : binop) : hook :=
  match o with
  | I32Eq | I32Ne | I32LtS | I32LtU | I32GtS | I32GtU | I32LeS | I32LeU | I32GeS | I32GeU => HkBinary BkI32
  | I64Eq | I64Ne | I64LtS | I64LtU | I64GtS | I64GtU | I64LeS | I64LeU | I64GeS | I64GeU => HkBinary BkI64I32
  | F32Eq | F32Ne | F32Lt | F32Gt | F32Le | F32Ge => HkBinary BkF32I32
  | F64Eq | F64Ne | F64Lt | F64Gt | F64Le | F64Ge => HkBinary BkF64I32
  | I32Add | I32Sub | I32Mul | I32DivS | I32DivU | I32RemS | I32RemU | I32And | I32Or | I32Xor | I32Shl
  | I32ShrS | I32ShrU | I32Rotl | I32Rotr => HkBinary BkI32
  | I64Add | I64Sub | I64Mul | I64DivS | I64DivU | I64RemS | I64RemU | I64And | I64Or | I64Xor | I64Shl
  | I64ShrS | I64ShrU | I64Rotl | I64Rotr => HkBinary BkI64
  | F32Add | F32Sub | F32Mul | F32Div | F32Min | F32Max | F32Copysign => HkBinary BkF32
  | F64Add | F64Sub | F64Mul | F64Div | F64Min | F64Max | F64Copysign => HkBinary BkF64
  end.

(** The same for stores and loads, memory.rs L263-274 and L280-296. *)
Definition storeop_hook (o : storeop) : hook :=
  match o with
  | F32Store => HkStore TF32
  | F64Store => HkStore TF64
  | I32Store | I32Store16 | I32Store8 => HkStore TI32
  | I64Store | I64Store16 | I64Store32 | I64Store8 => HkStore TI64
  end.
(** The hook for a load, memory.rs L263-274. *)
Definition loadop_hook (o : loadop) : hook :=
  match o with
  | F32Load => HkLoad TF32
  | F64Load => HkLoad TF64
  | I32Load | I32Load16S | I32Load16U | I32Load8S | I32Load8U => HkLoad TI32
  | I64Load | I64Load16S | I64Load16U | I64Load32S | I64Load32U | I64Load8S | I64Load8U => HkLoad TI64
  end.
