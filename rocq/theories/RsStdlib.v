(** The Rust analysis standard library:
    wastrumentation-instr-lib/tests/analyses/rust/wastrumentation-rs-stdlib/src/
    {lib,unary,binary,memory}.rs, below [std]. A Rust panic is a trap (lib.rs L26-30).
    Values of type [i32] etc. are bit patterns; sums and products of counts and indices in
    [i32] are not reduced (they are below 2^31). *)
From Verif Require Export Semantics Hooks.
Local Open Scope string_scope.
Local Open Scope list_scope.

(** Sequencing of agents. *)
Fixpoint xbind {X} (p : xprog X) (k : list val -> xprog X) : xprog X :=
  match p with
  | XRet vs => k vs
  | XTrap => XTrap
  | XStuck => XStuck
  | XGet f => XGet (fun x m g => xbind (f x m g) k)
  | XPut x m g p' => XPut x m g (xbind p' k)
  | XCall n args f => XCall n args (fun vs => xbind (f vs) k)
  end.

(** ** Operators *)
(** Text mnemonics of the operators, from the WebAssembly specification: what the inline
    assembler makes of the mnemonics in the tables below. *)
Definition unop_text (o : unop) : string :=
  match o with
  | I32Eqz => "i32.eqz"
  | I64Eqz => "i64.eqz"
  | I32Clz => "i32.clz"
  | I32Ctz => "i32.ctz"
  | I32Popcnt => "i32.popcnt"
  | I64Clz => "i64.clz"
  | I64Ctz => "i64.ctz"
  | I64Popcnt => "i64.popcnt"
  | F32Abs => "f32.abs"
  | F32Neg => "f32.neg"
  | F32Ceil => "f32.ceil"
  | F32Floor => "f32.floor"
  | F32Trunc => "f32.trunc"
  | F32Nearest => "f32.nearest"
  | F32Sqrt => "f32.sqrt"
  | F64Abs => "f64.abs"
  | F64Neg => "f64.neg"
  | F64Ceil => "f64.ceil"
  | F64Floor => "f64.floor"
  | F64Trunc => "f64.trunc"
  | F64Nearest => "f64.nearest"
  | F64Sqrt => "f64.sqrt"
  | I32WrapI64 => "i32.wrap_i64"
  | I32TruncF32S => "i32.trunc_f32_s"
  | I32TruncF32U => "i32.trunc_f32_u"
  | I32TruncF64S => "i32.trunc_f64_s"
  | I32TruncF64U => "i32.trunc_f64_u"
  | I32TruncSatF32S => "i32.trunc_sat_f32_s"
  | I32TruncSatF32U => "i32.trunc_sat_f32_u"
  | I32TruncSatF64S => "i32.trunc_sat_f64_s"
  | I32TruncSatF64U => "i32.trunc_sat_f64_u"
  | I64ExtendI32S => "i64.extend_i32_s"
  | I64ExtendI32U => "i64.extend_i32_u"
  | I64TruncF32S => "i64.trunc_f32_s"
  | I64TruncF32U => "i64.trunc_f32_u"
  | I64TruncF64S => "i64.trunc_f64_s"
  | I64TruncF64U => "i64.trunc_f64_u"
  | I64TruncSatF32S => "i64.trunc_sat_f32_s"
  | I64TruncSatF32U => "i64.trunc_sat_f32_u"
  | I64TruncSatF64S => "i64.trunc_sat_f64_s"
  | I64TruncSatF64U => "i64.trunc_sat_f64_u"
  | F32ConvertI32S => "f32.convert_i32_s"
  | F32ConvertI32U => "f32.convert_i32_u"
  | F32ConvertI64S => "f32.convert_i64_s"
  | F32ConvertI64U => "f32.convert_i64_u"
  | F32DemoteF64 => "f32.demote_f64"
  | F64ConvertI32S => "f64.convert_i32_s"
  | F64ConvertI32U => "f64.convert_i32_u"
  | F64ConvertI64S => "f64.convert_i64_s"
  | F64ConvertI64U => "f64.convert_i64_u"
  | F64PromoteF32 => "f64.promote_f32"
  | I32ReinterpretF32 => "i32.reinterpret_f32"
  | I64ReinterpretF64 => "i64.reinterpret_f64"
  | F32ReinterpretI32 => "f32.reinterpret_i32"
  | F64ReinterpretI64 => "f64.reinterpret_i64"
  | I32Extend8S => "i32.extend8_s"
  | I32Extend16S => "i32.extend16_s"
  | I64Extend8S => "i64.extend8_s"
  | I64Extend16S => "i64.extend16_s"
  | I64Extend32S => "i64.extend32_s"
  end.
(** Text mnemonics of the binary operators (WebAssembly specification). *)
Definition binop_text (o : binop) : string :=
  match o with
  | I32Eq => "i32.eq"
  | I32Ne => "i32.ne"
  | I32LtS => "i32.lt_s"
  | I32LtU => "i32.lt_u"
  | I32GtS => "i32.gt_s"
  | I32GtU => "i32.gt_u"
  | I32LeS => "i32.le_s"
  | I32LeU => "i32.le_u"
  | I32GeS => "i32.ge_s"
  | I32GeU => "i32.ge_u"
  | I64Eq => "i64.eq"
  | I64Ne => "i64.ne"
  | I64LtS => "i64.lt_s"
  | I64LtU => "i64.lt_u"
  | I64GtS => "i64.gt_s"
  | I64GtU => "i64.gt_u"
  | I64LeS => "i64.le_s"
  | I64LeU => "i64.le_u"
  | I64GeS => "i64.ge_s"
  | I64GeU => "i64.ge_u"
  | F32Eq => "f32.eq"
  | F32Ne => "f32.ne"
  | F32Lt => "f32.lt"
  | F32Gt => "f32.gt"
  | F32Le => "f32.le"
  | F32Ge => "f32.ge"
  | F64Eq => "f64.eq"
  | F64Ne => "f64.ne"
  | F64Lt => "f64.lt"
  | F64Gt => "f64.gt"
  | F64Le => "f64.le"
  | F64Ge => "f64.ge"
  | I32Add => "i32.add"
  | I32Sub => "i32.sub"
  | I32Mul => "i32.mul"
  | I32DivS => "i32.div_s"
  | I32DivU => "i32.div_u"
  | I32RemS => "i32.rem_s"
  | I32RemU => "i32.rem_u"
  | I32And => "i32.and"
  | I32Or => "i32.or"
  | I32Xor => "i32.xor"
  | I32Shl => "i32.shl"
  | I32ShrS => "i32.shr_s"
  | I32ShrU => "i32.shr_u"
  | I32Rotl => "i32.rotl"
  | I32Rotr => "i32.rotr"
  | I64Add => "i64.add"
  | I64Sub => "i64.sub"
  | I64Mul => "i64.mul"
  | I64DivS => "i64.div_s"
  | I64DivU => "i64.div_u"
  | I64RemS => "i64.rem_s"
  | I64RemU => "i64.rem_u"
  | I64And => "i64.and"
  | I64Or => "i64.or"
  | I64Xor => "i64.xor"
  | I64Shl => "i64.shl"
  | I64ShrS => "i64.shr_s"
  | I64ShrU => "i64.shr_u"
  | I64Rotl => "i64.rotl"
  | I64Rotr => "i64.rotr"
  | F32Add => "f32.add"
  | F32Sub => "f32.sub"
  | F32Mul => "f32.mul"
  | F32Div => "f32.div"
  | F32Min => "f32.min"
  | F32Max => "f32.max"
  | F32Copysign => "f32.copysign"
  | F64Add => "f64.add"
  | F64Sub => "f64.sub"
  | F64Mul => "f64.mul"
  | F64Div => "f64.div"
  | F64Min => "f64.min"
  | F64Max => "f64.max"
  | F64Copysign => "f64.copysign"
  end.

(** Rows of [generate_unary_boilerplate!], unary.rs L81-143: code, variant, operand type,
    assembler instruction, result type. *)
Definition unary_rows : list (Z * unop * numty * string * numty) :=
  [ (1%Z, I32Eqz, TI32, "i32.eqz", TI32);
    (2%Z, I64Eqz, TI64, "i64.eqz", TI32);
    (3%Z, I32Clz, TI32, "i32.clz", TI32);
    (4%Z, I32Ctz, TI32, "i32.ctz", TI32);
    (5%Z, I32Popcnt, TI32, "i32.popcnt", TI32);
    (6%Z, I64Clz, TI64, "i64.clz", TI64);
    (7%Z, I64Ctz, TI64, "i64.ctz", TI64);
    (8%Z, I64Popcnt, TI64, "i64.popcnt", TI64);
    (9%Z, F32Abs, TF32, "f32.abs", TF32);
    (10%Z, F32Neg, TF32, "f32.neg", TF32);
    (11%Z, F32Ceil, TF32, "f32.ceil", TF32);
    (12%Z, F32Floor, TF32, "f32.floor", TF32);
    (13%Z, F32Trunc, TF32, "f32.trunc", TF32);
    (14%Z, F32Nearest, TF32, "f32.nearest", TF32);
    (15%Z, F32Sqrt, TF32, "f32.sqrt", TF32);
    (16%Z, F64Abs, TF64, "f64.abs", TF64);
    (17%Z, F64Neg, TF64, "f64.neg", TF64);
    (18%Z, F64Ceil, TF64, "f64.ceil", TF64);
    (19%Z, F64Floor, TF64, "f64.floor", TF64);
    (20%Z, F64Trunc, TF64, "f64.trunc", TF64);
    (21%Z, F64Nearest, TF64, "f64.nearest", TF64);
    (22%Z, F64Sqrt, TF64, "f64.sqrt", TF64);
    (23%Z, I32WrapI64, TI64, "i32.wrap_i64", TI32);
    (24%Z, I32TruncF32S, TF32, "i32.trunc_f32_s", TI32);
    (25%Z, I32TruncF32U, TF32, "i32.trunc_f32_u", TI32);
    (26%Z, I32TruncF64S, TF64, "i32.trunc_f64_s", TI32);
    (27%Z, I32TruncF64U, TF64, "i32.trunc_f64_u", TI32);
    (28%Z, I32TruncSatF32S, TF32, "i32.trunc_sat_f32_s", TI32);
    (29%Z, I32TruncSatF32U, TF32, "i32.trunc_sat_f32_u", TI32);
    (30%Z, I32TruncSatF64S, TF64, "i32.trunc_sat_f64_s", TI32);
    (31%Z, I32TruncSatF64U, TF64, "i32.trunc_sat_f64_u", TI32);
    (32%Z, I64ExtendI32S, TI32, "i64.extend_i32_s", TI64);
    (33%Z, I64ExtendI32U, TI32, "i64.extend_i32_u", TI64);
    (34%Z, I64TruncF32S, TF32, "i64.trunc_f32_s", TI64);
    (35%Z, I64TruncF32U, TF32, "i64.trunc_f32_u", TI64);
    (36%Z, I64TruncF64S, TF64, "i64.trunc_f64_s", TI64);
    (37%Z, I64TruncF64U, TF64, "i64.trunc_f64_u", TI64);
    (38%Z, I64TruncSatF32S, TF32, "i64.trunc_sat_f32_s", TI64);
    (39%Z, I64TruncSatF32U, TF32, "i64.trunc_sat_f32_u", TI64);
    (40%Z, I64TruncSatF64S, TF64, "i64.trunc_sat_f64_s", TI64);
    (41%Z, I64TruncSatF64U, TF64, "i64.trunc_sat_f64_u", TI64);
    (42%Z, F32ConvertI32S, TI32, "f32.convert_i32_s", TF32);
    (43%Z, F32ConvertI32U, TI32, "f32.convert_i32_u", TF32);
    (44%Z, F32ConvertI64S, TI64, "f32.convert_i64_s", TF32);
    (45%Z, F32ConvertI64U, TI64, "f32.convert_i64_u", TF32);
    (46%Z, F32DemoteF64, TF64, "f32.demote_f64", TF32);
    (47%Z, F64ConvertI32S, TI32, "f64.convert_i32_s", TF64);
    (48%Z, F64ConvertI32U, TI32, "f64.convert_i32_u", TF64);
    (49%Z, F64ConvertI64S, TI64, "f64.convert_i64_s", TF64);
    (50%Z, F64ConvertI64U, TI64, "f64.convert_i64_u", TF64);
    (51%Z, F64PromoteF32, TF32, "f64.promote_f32", TF64);
    (52%Z, I32ReinterpretF32, TF32, "i32.reinterpret_f32", TI32);
    (53%Z, I64ReinterpretF64, TF64, "i64.reinterpret_f64", TI64);
    (54%Z, F32ReinterpretI32, TI32, "f32.reinterpret_i32", TF32);
    (55%Z, F64ReinterpretI64, TI64, "f64.reinterpret_i64", TF64);
    (56%Z, I32Extend8S, TI32, "i32.extend8_s", TI32);
    (57%Z, I32Extend16S, TI32, "i32.extend16_s", TI32);
    (58%Z, I64Extend8S, TI64, "i64.extend8_s", TI64);
    (59%Z, I64Extend16S, TI64, "i64.extend16_s", TI64);
    (60%Z, I64Extend32S, TI64, "i64.extend32_s", TI64) ].

(** Rows of [generate_binary_boilerplate!], binary.rs. *)
Definition binary_rows : list (Z * binop * numty * numty * string * numty) :=
  [ (1%Z, I32Eq, TI32, TI32, "i32.eq", TI32);
    (2%Z, I32Ne, TI32, TI32, "i32.ne", TI32);
    (3%Z, I32LtS, TI32, TI32, "i32.lt_s", TI32);
    (4%Z, I32LtU, TI32, TI32, "i32.lt_u", TI32);
    (5%Z, I32GtS, TI32, TI32, "i32.gt_s", TI32);
    (6%Z, I32GtU, TI32, TI32, "i32.gt_u", TI32);
    (7%Z, I32LeS, TI32, TI32, "i32.le_s", TI32);
    (8%Z, I32LeU, TI32, TI32, "i32.le_u", TI32);
    (9%Z, I32GeS, TI32, TI32, "i32.ge_s", TI32);
    (10%Z, I32GeU, TI32, TI32, "i32.ge_u", TI32);
    (11%Z, I64Eq, TI64, TI64, "i64.eq", TI32);
    (12%Z, I64Ne, TI64, TI64, "i64.ne", TI32);
    (13%Z, I64LtS, TI64, TI64, "i64.lt_s", TI32);
    (14%Z, I64LtU, TI64, TI64, "i64.lt_u", TI32);
    (15%Z, I64GtS, TI64, TI64, "i64.gt_s", TI32);
    (16%Z, I64GtU, TI64, TI64, "i64.gt_u", TI32);
    (17%Z, I64LeS, TI64, TI64, "i64.le_s", TI32);
    (18%Z, I64LeU, TI64, TI64, "i64.le_u", TI32);
    (19%Z, I64GeS, TI64, TI64, "i64.ge_s", TI32);
    (20%Z, I64GeU, TI64, TI64, "i64.ge_u", TI32);
    (21%Z, F32Eq, TF32, TF32, "f32.eq", TI32);
    (22%Z, F32Ne, TF32, TF32, "f32.ne", TI32);
    (23%Z, F32Lt, TF32, TF32, "f32.lt", TI32);
    (24%Z, F32Gt, TF32, TF32, "f32.gt", TI32);
    (25%Z, F32Le, TF32, TF32, "f32.le", TI32);
    (26%Z, F32Ge, TF32, TF32, "f32.ge", TI32);
    (27%Z, F64Eq, TF64, TF64, "f64.eq", TI32);
    (28%Z, F64Ne, TF64, TF64, "f64.ne", TI32);
    (29%Z, F64Lt, TF64, TF64, "f64.lt", TI32);
    (30%Z, F64Gt, TF64, TF64, "f64.gt", TI32);
    (31%Z, F64Le, TF64, TF64, "f64.le", TI32);
    (32%Z, F64Ge, TF64, TF64, "f64.ge", TI32);
    (33%Z, I32Add, TI32, TI32, "i32.add", TI32);
    (34%Z, I32Sub, TI32, TI32, "i32.sub", TI32);
    (35%Z, I32Mul, TI32, TI32, "i32.mul", TI32);
    (36%Z, I32DivS, TI32, TI32, "i32.div_s", TI32);
    (37%Z, I32DivU, TI32, TI32, "i32.div_u", TI32);
    (38%Z, I32RemS, TI32, TI32, "i32.rem_s", TI32);
    (39%Z, I32RemU, TI32, TI32, "i32.rem_u", TI32);
    (40%Z, I32And, TI32, TI32, "i32.and", TI32);
    (41%Z, I32Or, TI32, TI32, "i32.or", TI32);
    (42%Z, I32Xor, TI32, TI32, "i32.xor", TI32);
    (43%Z, I32Shl, TI32, TI32, "i32.shl", TI32);
    (44%Z, I32ShrS, TI32, TI32, "i32.shr_s", TI32);
    (45%Z, I32ShrU, TI32, TI32, "i32.shr_u", TI32);
    (46%Z, I32Rotl, TI32, TI32, "i32.rotl", TI32);
    (47%Z, I32Rotr, TI32, TI32, "i32.rotr", TI32);
    (48%Z, I64Add, TI64, TI64, "i64.add", TI64);
    (49%Z, I64Sub, TI64, TI64, "i64.sub", TI64);
    (50%Z, I64Mul, TI64, TI64, "i64.mul", TI64);
    (51%Z, I64DivS, TI64, TI64, "i64.div_s", TI64);
    (52%Z, I64DivU, TI64, TI64, "i64.div_u", TI64);
    (53%Z, I64RemS, TI64, TI64, "i64.rem_s", TI64);
    (54%Z, I64RemU, TI64, TI64, "i64.rem_u", TI64);
    (55%Z, I64And, TI64, TI64, "i64.and", TI64);
    (56%Z, I64Or, TI64, TI64, "i64.or", TI64);
    (57%Z, I64Xor, TI64, TI64, "i64.xor", TI64);
    (58%Z, I64Shl, TI64, TI64, "i64.shl", TI64);
    (59%Z, I64ShrS, TI64, TI64, "i64.shr_s", TI64);
    (60%Z, I64ShrU, TI64, TI64, "i64.shr_u", TI64);
    (61%Z, I64Rotl, TI64, TI64, "i64.rotl", TI64);
    (62%Z, I64Rotr, TI64, TI64, "i64.rotr", TI64);
    (63%Z, F32Add, TF32, TF32, "f32.add", TF32);
    (64%Z, F32Sub, TF32, TF32, "f32.sub", TF32);
    (65%Z, F32Mul, TF32, TF32, "f32.mul", TF32);
    (66%Z, F32Div, TF32, TF32, "f32.div", TF32);
    (67%Z, F32Min, TF32, TF32, "f32.min", TF32);
    (68%Z, F32Max, TF32, TF32, "f32.max", TF32);
    (69%Z, F32Copysign, TF32, TF32, "f32.copysign", TF32);
    (70%Z, F64Add, TF64, TF64, "f64.add", TF64);
    (71%Z, F64Sub, TF64, TF64, "f64.sub", TF64);
    (72%Z, F64Mul, TF64, TF64, "f64.mul", TF64);
    (73%Z, F64Div, TF64, TF64, "f64.div", TF64);
    (74%Z, F64Min, TF64, TF64, "f64.min", TF64);
    (75%Z, F64Max, TF64, TF64, "f64.max", TF64);
    (76%Z, F64Copysign, TF64, TF64, "f64.copysign", TF64) ].

(** [From<i32>], unary.rs L57-66 and binary.rs; [None] is the panic. *)
Definition unary_from (c : Z) : option unop :=
  option_map (fun r => let '(_, o, _, _, _) := r in o)
    (find (fun r => let '(c', _, _, _, _) := r in Z.eqb c c') unary_rows).
(** [From<i32> for BinaryOperator], binary.rs L60-69; [None] is the panic. *)
Definition binary_from (c : Z) : option binop :=
  option_map (fun r => let '(_, o, _, _, _, _) := r in o)
    (find (fun r => let '(c', _, _, _, _, _) := r in Z.eqb c c') binary_rows).

(** Auxiliary: nothing in the repository corresponds to it. *)
Definition unop_eq_dec (a b : unop) : {a = b} + {a <> b}. Proof. decide equality. Defined.
(** Auxiliary: nothing in the repository corresponds to it. *)
Definition binop_eq_dec (a b : binop) : {a = b} + {a <> b}. Proof. decide equality. Defined.

Section Apply.
  Variable num1 : unop -> Z -> option Z.
  Variable num2 : binop -> Z -> Z -> option Z.
  (** The instruction a mnemonic stands for, executed on operands of its types. *)
  Definition asm1 (mnemonic : string) (t : numty) (z : Z) (out : numty) : option Z :=
    match find (fun r => let '(_, o, _, _, _) := r in String.eqb mnemonic (unop_text o)) unary_rows with
    | Some (_, o, _, _, _) =>
        if numty_eqb t (unop_in o) && numty_eqb out (unop_out o) then unop_sem num1 o z else None
    | None => None
    end.
  (** The same for two operands. *)
  Definition asm2 (mnemonic : string) (t1 t2 : numty) (a b : Z) (out : numty) : option Z :=
    match find (fun r => let '(_, o, _, _, _, _) := r in String.eqb mnemonic (binop_text o)) binary_rows with
    | Some (_, o, _, _, _, _) =>
        if numty_eqb t1 (binop_in o) && numty_eqb t2 (binop_in o) && numty_eqb out (binop_out o)
        then binop_sem num2 o a b else None
    | None => None
    end.

  (** [UnaryOperator::apply], unary.rs L26-53 (the wasm32 branch): [None] is a panic in
      [as_<type>] (lib.rs L244-270) or a trap of the instruction. *)
  Definition unary_apply (o : unop) (v : val) : option val :=
    match find (fun r => let '(_, o', _, _, _) := r in if unop_eq_dec o o' then true else false) unary_rows, v with
    | Some (_, _, t, mnemonic, out), VNum t' z =>
        if numty_eqb t' t then option_map (VNum out) (asm1 mnemonic t z out) else None
    | _, _ => None
    end.
  (** [BinaryOperator::apply], binary.rs. *)
  Definition binary_apply (o : binop) (l r : val) : option val :=
    match find (fun r => let '(_, o', _, _, _, _) := r in if binop_eq_dec o o' then true else false) binary_rows, l, r with
    | Some (_, _, t1, t2, mnemonic, out), VNum t1' a, VNum t2' b =>
        if numty_eqb t1' t1 && numty_eqb t2' t2
        then option_map (VNum out) (asm2 mnemonic t1 t2 a b out) else None
    | _, _, _ => None
    end.
End Apply.

(** ** Memory operations: memory.rs *)
(** [StoreOperation::deserialize], L85-100. *)
Definition store_deserialize (c : Z) : option storeop :=
  match c with
  | 1 => Some I32Store | 2 => Some I64Store | 3 => Some F32Store | 4 => Some F64Store
  | 5 => Some I32Store8 | 6 => Some I32Store16
  | 7 => Some I64Store8 | 8 => Some I64Store16 | 9 => Some I64Store32
  | _ => None
  end%Z.
(** [LoadOperation::deserialize], L218-238. *)
Definition load_deserialize (c : Z) : option loadop :=
  match c with
  | 1 => Some I32Load | 2 => Some I64Load | 3 => Some F32Load | 4 => Some F64Load
  | 5 => Some I32Load8S | 6 => Some I32Load8U | 7 => Some I32Load16S | 8 => Some I32Load16U
  | 9 => Some I64Load8S | 10 => Some I64Load8U | 11 => Some I64Load16S | 12 => Some I64Load16U
  | 13 => Some I64Load32S | 14 => Some I64Load32U
  | _ => None
  end%Z.
(** The function each arm of [perform] calls, L113-127 and L165-185, with the type its value
    operand is converted to. *)
Definition store_target (o : storeop) : string * numty :=
  match o with
  | F32Store => ("instrumented_base_store_f32", TF32)
  | F64Store => ("instrumented_base_store_f64", TF64)
  | I32Store => ("instrumented_base_store_i32", TI32)
  | I64Store => ("instrumented_base_store_i64", TI64)
  | I32Store16 => ("instrumented_base_store_i32_16", TI32)
  | I32Store8 => ("instrumented_base_store_i32_8", TI32)
  | I64Store16 => ("instrumented_base_store_i64_16", TI64)
  | I64Store32 => ("instrumented_base_store_i64_32", TI64)
  | I64Store8 => ("instrumented_base_store_i64_8", TI64)
  end.
(** The function [LoadOperation::perform] calls, memory.rs L165-185. *)
Definition load_target (o : loadop) : string :=
  match o with
  | F32Load => "instrumented_base_load_f32"
  | F64Load => "instrumented_base_load_f64"
  | I32Load => "instrumented_base_load_i32"
  | I64Load => "instrumented_base_load_i64"
  | I32Load16S => "instrumented_base_load_i32_16S"
  | I32Load16U => "instrumented_base_load_i32_16U"
  | I32Load8S => "instrumented_base_load_i32_8S"
  | I32Load8U => "instrumented_base_load_i32_8U"
  | I64Load16S => "instrumented_base_load_i64_16S"
  | I64Load16U => "instrumented_base_load_i64_16U"
  | I64Load32S => "instrumented_base_load_i64_32S"
  | I64Load32U => "instrumented_base_load_i64_32U"
  | I64Load8S => "instrumented_base_load_i64_8S"
  | I64Load8U => "instrumented_base_load_i64_8U"
  end.

(** [i64 as TryInto<i32>], L45, L111, L164. *)
Definition i64_try_into_i32 (z : Z) : option Z :=
  let s := signed 64 z in
  if ((- 2 ^ 31 <=? s) && (s <? 2 ^ 31))%Z then Some (s mod 2 ^ 32)%Z else None.

Section Memory.
  Context {X : Type}.
  (** [StoreOperation::perform], L102-128. *)
  Definition store_perform (o : storeop) (index : Z) (value : val) (offset : Z) : xprog X :=
    match i64_try_into_i32 offset, value with
    | Some off, VNum t z =>
        let (name, t') := store_target o in
        if numty_eqb t t' then XCall name [vi32 index; VNum t z; vi32 off] (fun _ => XRet []) else XTrap
    | _, _ => XTrap
    end.
  (** [LoadOperation::perform], L155-186. *)
  Definition load_perform (o : loadop) (index offset : Z) : xprog X :=
    match i64_try_into_i32 offset with
    | Some off => XCall (load_target o) [vi32 index; vi32 off] (fun vs => XRet vs)
    | None => XTrap
    end.
  (** [MemoryIndex::grow], L42-48, and [base_memory_size], L38-40. *)
  Definition memory_index_grow (index : Z) (amount : val) : xprog X :=
    match amount, i64_try_into_i32 index with
    | VNum TI32 n, Some i => XCall "instrumented_memory_grow" [vi32 n; vi32 i] (fun vs => XRet vs)
    | _, _ => XTrap
    end.
  (** [base_memory_size], memory.rs L38-40. *)
  Definition base_memory_size (index : Z) : xprog X :=
    XCall "instrumented_memory_size" [vi32 index] (fun vs => XRet vs).
End Memory.

(** ** Advice *)
(** [Location], lib.rs L95-116. *)
Record location := Loc { instruction_index : Z; function_index : Z }.
(** [Location::new], lib.rs L95-116: the parameters are in the other order. *)
Definition location_new (instr_index funct_index : Z) : location := Loc instr_index funct_index.

(** What the body of an advice is given: one constructor per arm of [advice!], L617-1392, with
    its formal parameters. *)
Inductive advice :=
| AdCallPre (f : Z) (l : location) | AdCallPost (f : Z) (l : location)
| AdCallIndPre (i t : Z) (l : location) | AdCallIndPost (t : Z) (l : location)
| AdBr (label : Z) (l : location)
| AdIfThenElse (c inputs arity : Z) (l : location) | AdIfThen (c inputs arity : Z) (l : location)
| AdIfThenElsePost (l : location) | AdIfThenPost (l : location)
| AdBrIf (c label : Z) (l : location) | AdBrTable (target effective dflt : Z) (l : location)
| AdSelect (c : Z) (l : location)
| AdUnary (o : unop) (v : val) (l : location) | AdBinary (o : binop) (a b : val) (l : location)
| AdDrop (l : location) | AdReturn (l : location) | AdConst (v : val) (l : location)
| AdLocal (v : val) (i : Z) (o : localop) (l : location)
| AdGlobal (v : val) (i : Z) (o : globalop) (l : location)
| AdLoad (index offset : Z) (o : loadop) (l : location)
| AdStore (index : Z) (v : val) (offset : Z) (o : storeop) (l : location)
| AdMemorySize (v : val) (i : Z) (l : location) | AdMemoryGrow (v : val) (i : Z) (l : location)
| AdBlockPre (inputs arity : Z) (l : location) | AdBlockPost (l : location)
| AdLoopPre (inputs arity : Z) (l : location) | AdLoopPost (l : location).

(** The exported functions the arms expand to. *)
Inductive rfun :=
| RCallPre | RCallPost | RCallIndPre | RCallIndPost | RBr | RIfThenElse | RIfThen
| RIfThenElsePost | RIfThenPost | RBrIf | RBrTable | RSelect
| RUnary (a r : numty) | RBinary (l r out : numty) | RDrop | RReturn | RConst (t : numty)
| RLocal (t : numty) (o : localop) | RGlobal (t : numty) (o : globalop)
| RLoad (t : numty) | RStore (t : numty) | RMemorySize | RMemoryGrow
| RBlockPre | RBlockPost | RLoopPre | RLoopPost.
(** The exported functions by name: the arms of [advice!], lib.rs L617ff. *)
Definition rs_exports : list (string * rfun) :=
  [("specialized_call_pre", RCallPre); ("specialized_call_post", RCallPost);        (* L625, L643 *)
   ("specialized_call_indirect_pre", RCallIndPre);                                  (* L662 *)
   ("specialized_call_indirect_post", RCallIndPost);                                (* L683 *)
   ("specialized_br", RBr); ("specialized_if_then_else_k", RIfThenElse);            (* L725, L745 *)
   ("specialized_if_then_k", RIfThen); ("trap_if_then_else_post", RIfThenElsePost); (* L769, L788 *)
   ("trap_if_then_post", RIfThenPost); ("specialized_br_if", RBrIf);                (* L800, L817 *)
   ("specialized_br_table", RBrTable); ("specialized_select", RSelect);             (* L840, L863 *)
   ("drop_trap", RDrop); ("return_trap", RReturn);                                  (* L1002, L1014 *)
   ("trap_memory_size", RMemorySize); ("trap_memory_grow", RMemoryGrow);            (* L1291, L1313 *)
   ("trap_block_pre", RBlockPre); ("trap_block_post", RBlockPost);                  (* L1332, L1348 *)
   ("trap_loop_pre", RLoopPre); ("trap_loop_post", RLoopPost);                      (* L1362, L1378 *)
   (* L894-911, L963-970, L1038-1041, L1085-1096, L1144-1151, L1199-1202, L1252-1255 *)
   ("unary_i32_to_i32", RUnary TI32 TI32);
   ("unary_i64_to_i32", RUnary TI64 TI32);
   ("unary_i64_to_i64", RUnary TI64 TI64);
   ("unary_f32_to_f32", RUnary TF32 TF32);
   ("unary_f64_to_f64", RUnary TF64 TF64);
   ("unary_f32_to_i32", RUnary TF32 TI32);
   ("unary_f64_to_i32", RUnary TF64 TI32);
   ("unary_i32_to_i64", RUnary TI32 TI64);
   ("unary_f32_to_i64", RUnary TF32 TI64);
   ("unary_f64_to_i64", RUnary TF64 TI64);
   ("unary_i32_to_f32", RUnary TI32 TF32);
   ("unary_i64_to_f32", RUnary TI64 TF32);
   ("unary_f64_to_f32", RUnary TF64 TF32);
   ("unary_i32_to_f64", RUnary TI32 TF64);
   ("unary_i64_to_f64", RUnary TI64 TF64);
   ("unary_f32_to_f64", RUnary TF32 TF64);
   ("binary_i32_i32_to_i32", RBinary TI32 TI32 TI32);
   ("binary_i64_i64_to_i32", RBinary TI64 TI64 TI32);
   ("binary_f32_f32_to_i32", RBinary TF32 TF32 TI32);
   ("binary_f64_f64_to_i32", RBinary TF64 TF64 TI32);
   ("binary_i64_i64_to_i64", RBinary TI64 TI64 TI64);
   ("binary_f32_f32_to_f32", RBinary TF32 TF32 TF32);
   ("binary_f64_f64_to_f64", RBinary TF64 TF64 TF64);
   ("trap_const_i32", RConst TI32);
   ("trap_const_f32", RConst TF32);
   ("trap_const_i64", RConst TI64);
   ("trap_const_f64", RConst TF64);
   ("trap_local_get_i32", RLocal TI32 LGet);
   ("trap_local_set_i32", RLocal TI32 LSet);
   ("trap_local_tee_i32", RLocal TI32 LTee);
   ("trap_local_get_f32", RLocal TF32 LGet);
   ("trap_local_set_f32", RLocal TF32 LSet);
   ("trap_local_tee_f32", RLocal TF32 LTee);
   ("trap_local_get_i64", RLocal TI64 LGet);
   ("trap_local_set_i64", RLocal TI64 LSet);
   ("trap_local_tee_i64", RLocal TI64 LTee);
   ("trap_local_get_f64", RLocal TF64 LGet);
   ("trap_local_set_f64", RLocal TF64 LSet);
   ("trap_local_tee_f64", RLocal TF64 LTee);
   ("trap_global_get_i32", RGlobal TI32 GGet);
   ("trap_global_set_i32", RGlobal TI32 GSet);
   ("trap_global_get_f32", RGlobal TF32 GGet);
   ("trap_global_set_f32", RGlobal TF32 GSet);
   ("trap_global_get_i64", RGlobal TI64 GGet);
   ("trap_global_set_i64", RGlobal TI64 GSet);
   ("trap_global_get_f64", RGlobal TF64 GGet);
   ("trap_global_set_f64", RGlobal TF64 GSet);
   ("trap_f32_load", RLoad TF32);
   ("trap_f64_load", RLoad TF64);
   ("trap_i32_load", RLoad TI32);
   ("trap_i64_load", RLoad TI64);
   ("trap_f32_store", RStore TF32);
   ("trap_f64_store", RStore TF64);
   ("trap_i32_store", RStore TI32);
   ("trap_i64_store", RStore TI64)].

(** Their signatures. *)
Definition rfun_args (r : rfun) : list numty :=
  match r with
  | RCallPre | RCallPost | RCallIndPost | RSelect => [TI32; TI64; TI64]
  | RCallIndPre | RBrIf | RBlockPre | RLoopPre => [TI32; TI32; TI64; TI64]
  | RBr => [TI64; TI64; TI64]
  | RIfThenElse | RIfThen | RBrTable => [TI32; TI32; TI32; TI64; TI64]
  | RIfThenElsePost | RIfThenPost | RDrop | RReturn | RBlockPost | RLoopPost => [TI64; TI64]
  | RUnary a _ => [a; TI32; TI64; TI64]
  | RBinary l r _ => [l; r; TI32; TI64; TI64]
  | RConst t => [t; TI64; TI64]
  | RLocal t _ | RGlobal t _ => [t; TI64; TI64; TI64]
  | RLoad _ => [TI32; TI64; TI32; TI64; TI64]
  | RStore t => [TI32; t; TI64; TI32; TI64; TI64]
  | RMemorySize | RMemoryGrow => [TI32; TI64; TI64; TI64]
  end.
(** Result types of the exported functions. *)
Definition rfun_results (r : rfun) : list numty :=
  match r with
  | RCallIndPre | RIfThenElse | RIfThen | RBrIf | RBrTable | RSelect | RMemorySize | RMemoryGrow => [TI32]
  | RUnary _ t | RBinary _ _ t | RConst t | RLocal t _ | RGlobal t _ | RLoad t => [t]
  | _ => []
  end.

(** The bodies up to the call of the advice: L625-1392. Every arm builds the location with
    [Location::new(funct_index, instr_index)]. [None]: a panic in [From]/[deserialize] (or
    arguments of other types, excluded by the signature). *)
Definition rfun_advice (r : rfun) (args : list val) : option advice :=
  match r, args with
  | RCallPre, [VNum _ f; VNum _ fi; VNum _ ii] => Some (AdCallPre f (location_new fi ii))
  | RCallPost, [VNum _ f; VNum _ fi; VNum _ ii] => Some (AdCallPost f (location_new fi ii))
  | RCallIndPre, [VNum _ i; VNum _ t; VNum _ fi; VNum _ ii] => Some (AdCallIndPre i t (location_new fi ii))
  | RCallIndPost, [VNum _ t; VNum _ fi; VNum _ ii] => Some (AdCallIndPost t (location_new fi ii))
  | RBr, [VNum _ l; VNum _ fi; VNum _ ii] => Some (AdBr l (location_new fi ii))
  | RIfThenElse, [VNum _ c; VNum _ i; VNum _ a; VNum _ fi; VNum _ ii] => Some (AdIfThenElse c i a (location_new fi ii))
  | RIfThen, [VNum _ c; VNum _ i; VNum _ a; VNum _ fi; VNum _ ii] => Some (AdIfThen c i a (location_new fi ii))
  | RIfThenElsePost, [VNum _ fi; VNum _ ii] => Some (AdIfThenElsePost (location_new fi ii))
  | RIfThenPost, [VNum _ fi; VNum _ ii] => Some (AdIfThenPost (location_new fi ii))
  | RBrIf, [VNum _ c; VNum _ l; VNum _ fi; VNum _ ii] => Some (AdBrIf c l (location_new fi ii))
  | RBrTable, [VNum _ t; VNum _ e; VNum _ d; VNum _ fi; VNum _ ii] => Some (AdBrTable t e d (location_new fi ii))
  | RSelect, [VNum _ c; VNum _ fi; VNum _ ii] => Some (AdSelect c (location_new fi ii))
  | RUnary a _, [VNum _ z; VNum _ o; VNum _ fi; VNum _ ii] =>
      option_map (fun o => AdUnary o (VNum a z) (location_new fi ii)) (unary_from o)
  | RBinary l r _, [VNum _ x; VNum _ y; VNum _ o; VNum _ fi; VNum _ ii] =>
      option_map (fun o => AdBinary o (VNum l x) (VNum r y) (location_new fi ii)) (binary_from o)
  | RDrop, [VNum _ fi; VNum _ ii] => Some (AdDrop (location_new fi ii))
  | RReturn, [VNum _ fi; VNum _ ii] => Some (AdReturn (location_new fi ii))
  | RConst t, [VNum _ z; VNum _ fi; VNum _ ii] => Some (AdConst (VNum t z) (location_new fi ii))
  | RLocal t o, [VNum _ z; VNum _ i; VNum _ fi; VNum _ ii] => Some (AdLocal (VNum t z) i o (location_new fi ii))
  | RGlobal t o, [VNum _ z; VNum _ i; VNum _ fi; VNum _ ii] => Some (AdGlobal (VNum t z) i o (location_new fi ii))
  | RLoad _, [VNum _ i; VNum _ off; VNum _ o; VNum _ fi; VNum _ ii] =>
      option_map (fun o => AdLoad i off o (location_new fi ii)) (load_deserialize o)
  | RStore t, [VNum _ i; VNum _ z; VNum _ off; VNum _ o; VNum _ fi; VNum _ ii] =>
      option_map (fun o => AdStore i (VNum t z) off o (location_new fi ii)) (store_deserialize o)
  | RMemorySize, [VNum _ z; VNum _ i; VNum _ fi; VNum _ ii] => Some (AdMemorySize (VNum TI32 z) i (location_new fi ii))
  | RMemoryGrow, [VNum _ z; VNum _ i; VNum _ fi; VNum _ ii] => Some (AdMemoryGrow (VNum TI32 z) i (location_new fi ii))
  | RBlockPre, [VNum _ i; VNum _ a; VNum _ fi; VNum _ ii] => Some (AdBlockPre i a (location_new fi ii))
  | RBlockPost, [VNum _ fi; VNum _ ii] => Some (AdBlockPost (location_new fi ii))
  | RLoopPre, [VNum _ i; VNum _ a; VNum _ fi; VNum _ ii] => Some (AdLoopPre i a (location_new fi ii))
  | RLoopPost, [VNum _ fi; VNum _ ii] => Some (AdLoopPost (location_new fi ii))
  | _, _ => None
  end.

Section Advice.
  Context {X : Type}.
  (** The analysis: what the body of each advice does. *)
  Variable body : advice -> xprog X.
  (** The rest of the bodies: the outcome must have the declared type ([let .. else panic!],
      [as_i32]). *)
  Definition rfun_return (r : rfun) (vs : list val) : xprog X :=
    match rfun_results r, vs with
    | [t], [VNum t' z] => if numty_eqb t' t then XRet [VNum t z] else XTrap
    | [t], _ => XTrap
    | _, _ => XRet []
    end.
  (** An exported function: decode the operands, run the advice, encode its outcome. *)
  Definition rfun_run (r : rfun) (args : list val) : xprog X :=
    match rfun_advice r args with
    | Some a => xbind (body a) (rfun_return r)
    | None => XTrap
    end.

  (** ** Intercepted functions *)
  (** Functions of the namespace [wastrumentation_stack], L69-78. *)
  Variable stack : string -> list val -> xprog X.

  (** [WasmFunction], L321-326, [RuntimeValues], L339-347. *)
  Record wasm_function := WasmFn { wf_apply : Z; wf_index : Z; wf_sigv : Z; wf_code : Z }.
  (** [RuntimeValues], L339-347. *)
  Record runtime_values := RV { rv_argc : Z; rv_resc : Z; rv_sigv : Z; rv_types : list numty }.
  Definition wasm_function_apply (f : wasm_function) : xprog X :=                  (* L359-361 *)
    XCall "call_base" [vi32 (wf_apply f); vi32 (wf_sigv f)] (fun _ => XRet []).
  Definition is_imported (f : wasm_function) : bool := Z.eqb (wf_code f) 1.        (* L367-369 *)
  Definition is_present (f : wasm_function) : bool := Z.eqb (wf_code f) 0.         (* L371-373 *)

  (** [From<&i32> for WasmType], L132-142. *)
  Definition wasm_type_from (c : Z) : option numty :=
    match c with 0 => Some TI32 | 1 => Some TF32 | 2 => Some TI64 | 3 => Some TF64 | _ => None end%Z.

  (** The loop of [RuntimeValues::new], L380-395: the types of the slots from [index] on. *)
  Fixpoint load_types (n : nat) (index : Z) (sigtypv : Z) (acc : list numty) (k : list numty -> xprog X) : xprog X :=
    match n with
    | O => k acc
    | S n' =>
        xbind (stack "wastrumentation_stack_load_type" [vi32 sigtypv; vi32 index]) (fun vs =>
          match vs with
          | [VNum TI32 c] =>
              match wasm_type_from c with
              | Some t => load_types n' (index + 1)%Z sigtypv (acc ++ [t]) k
              | None => XTrap
              end
          | _ => XTrap
          end)
    end.
  (** [RuntimeValues::new], L380-395. *)
  Definition runtime_values_new (argc resc sigv sigtypv : Z) (k : runtime_values -> xprog X) : xprog X :=
    load_types (Z.to_nat (argc + resc)) 0 sigtypv [] (fun ts => k (RV argc resc sigv ts)).

  (** [WasmType::load], L158-178, [WasmValue::store], L226-242. *)
  Definition stack_load_name (t : numty) : string :=
    match t with
    | TI32 => "wastrumentation_stack_load_i32" | TF32 => "wastrumentation_stack_load_f32"
    | TI64 => "wastrumentation_stack_load_i64" | TF64 => "wastrumentation_stack_load_f64"
    end.
  (** The function called by [WasmValue::store], L226-242. *)
  Definition stack_store_name (t : numty) : string :=
    match t with
    | TI32 => "wastrumentation_stack_store_i32" | TF32 => "wastrumentation_stack_store_f32"
    | TI64 => "wastrumentation_stack_store_i64" | TF64 => "wastrumentation_stack_store_f64"
    end.
  (** [get_value], L406-409, [set_value], L411-414. *)
  Definition get_value (rv : runtime_values) (index : Z) : xprog X :=
    match nth_error (rv_types rv) (Z.to_nat index) with
    | Some t => stack (stack_load_name t) [vi32 (rv_sigv rv); vi32 index]
    | None => XTrap
    end.
  (** [set_value], L411-414. *)
  Definition set_value (rv : runtime_values) (index : Z) (v : val) : xprog X :=
    match v with
    | VNum t z => stack (stack_store_name t) [vi32 (rv_sigv rv); VNum t z; vi32 index]
    | VRef _ _ => XTrap
    end.
  (** [check_bounds], L397-404; bases, L416-422. *)
  Definition check_bounds (count index : Z) (p : xprog X) : xprog X :=
    if (index <? 0)%Z then XTrap else if (count <=? index)%Z then XTrap else p.
  (** [arg_base_offset], L416-418. *)
  Definition arg_base (rv : runtime_values) : Z := rv_resc rv.
  (** [res_base_offset], L420-422. *)
  Definition res_base (rv : runtime_values) : Z := 0%Z.
  (** L424-442. *)
  Definition get_arg rv i := check_bounds (rv_argc rv) i (get_value rv (arg_base rv + i)%Z).
  (** [get_res], L429-432. *)
  Definition get_res rv i := check_bounds (rv_resc rv) i (get_value rv (res_base rv + i)%Z).
  (** [set_arg], L434-437. *)
  Definition set_arg rv i v := check_bounds (rv_argc rv) i (set_value rv (arg_base rv + i)%Z v).
  (** [set_res], L439-442. *)
  Definition set_res rv i v := check_bounds (rv_resc rv) i (set_value rv (res_base rv + i)%Z v).
  (** [get_arg_type], [get_res_type], L444-452; [None] is the panic. *)
  Definition get_arg_type rv i : option numty :=
    if ((i <? 0) || (rv_argc rv <=? i))%Z then None else nth_error (rv_types rv) (Z.to_nat (arg_base rv + i)).
  (** [get_res_type], L449-452. *)
  Definition get_res_type rv i : option numty :=
    if ((i <? 0) || (rv_resc rv <=? i))%Z then None else nth_error (rv_types rv) (Z.to_nat (res_base rv + i)).
  (** [update_each_arg], [update_each_res], L462-476: [n] iterations from [i]. *)
  Fixpoint update_each (get : Z -> xprog X) (set : Z -> val -> xprog X) (f : Z -> val -> val) (n : nat) (i : Z) : xprog X :=
    match n with
    | O => XRet []
    | S n' =>
        xbind (get i) (fun vs =>
          match vs with
          | [v] => xbind (set i (f i v)) (fun _ => update_each get set f n' (i + 1)%Z)
          | _ => XTrap
          end)
    end.
  (** [update_each_arg], L462-468. *)
  Definition update_each_arg rv f := update_each (get_arg rv) (set_arg rv) f (Z.to_nat (rv_argc rv)) 0.
  (** [update_each_res], L470-476. *)
  Definition update_each_res rv f := update_each (get_res rv) (set_res rv) f (Z.to_nat (rv_resc rv)) 0.
  (** [args_iter], [ress_iter] run to the end, L454-460 and L479-524. *)
  Fixpoint iterate (rv : runtime_values) (n : nat) (state : Z) (acc : list val) (k : list val -> xprog X) : xprog X :=
    match n with
    | O => k acc
    | S n' => xbind (get_value rv state) (fun vs => iterate rv n' (state + 1)%Z (acc ++ vs) k)
    end.
  (** [args_iter], L454-456. *)
  Definition args_iter rv := iterate rv (Z.to_nat (rv_argc rv)) (arg_base rv) [].
  (** [ress_iter], L458-460. *)
  Definition ress_iter rv := iterate rv (Z.to_nat (rv_resc rv)) (res_base rv) [].

  (** [generic_apply], L693-716. *)
  Variable apply_body : wasm_function -> runtime_values -> runtime_values -> xprog X.
  Definition rs_generic_apply (args : list val) : xprog X :=
    match args with
    | [VNum _ f; VNum _ i; VNum _ argc; VNum _ resc; VNum _ sigv; VNum _ sigtypv; VNum _ code] =>
        runtime_values_new argc resc sigv sigtypv (fun a =>
        runtime_values_new argc resc sigv sigtypv (fun r =>
          xbind (apply_body (WasmFn f i sigv code) a r) (fun _ => XRet [])))
    | _ => XTrap
    end.

  (** The compiled analysis: its exported functions by name. *)
  Definition rs_analysis (name : string) (args : list val) : xprog X :=
    if String.eqb name "generic_apply" then rs_generic_apply args
    else match find (fun r => String.eqb name (fst r)) rs_exports with
         | Some (_, r) => rfun_run r args
         | None => XTrap
         end.
End Advice.

(** ** The forwarding analysis: tests/analyses/rust/forward/src/lib.rs *)
Section Forward.
  Context {X : Type}.
  Variable num1 : unop -> Z -> option Z.
  Variable num2 : binop -> Z -> Z -> option Z.
  Definition forward_body (a : advice) : xprog X :=
    match a with
    | AdIfThenElse c _ _ _ | AdIfThen c _ _ _ | AdBrIf c _ _ | AdSelect c _ => XRet [vi32 c]
    | AdBrTable t _ _ _ => XRet [vi32 t]
    | AdCallIndPre i _ _ => XRet [vi32 i]
    | AdUnary o v _ => match unary_apply num1 o v with Some r => XRet [r] | None => XTrap end
    | AdBinary o a b _ => match binary_apply num2 o a b with Some r => XRet [r] | None => XTrap end
    | AdConst v _ | AdLocal v _ _ _ | AdGlobal v _ _ _ | AdMemorySize v _ _ => XRet [v]
    | AdLoad i off o _ => load_perform o i off
    | AdStore i v off o _ => store_perform o i v off
    | AdMemoryGrow v i _ => memory_index_grow i v
    | _ => XRet []
    end.
  (** The advice [apply] of the forwarding analysis, forward/src/lib.rs L7-12. *)
  Definition forward_apply (f : wasm_function) (_ _ : runtime_values) : xprog X := wasm_function_apply f.
  (** Its exports. *)
  Definition forward (stack : string -> list val -> xprog X) : string -> list val -> xprog X :=
    rs_analysis forward_body stack forward_apply.
End Forward.
