(** Specification vocabulary for C05, C06 and C11: erasing instrumentation, the hooks that
    concern an instruction, and the construct a branch refers to. *)
From Verif Require Export Hooks.

(** ** C05: erasing *)
(** All operators, to search a code in. *)
Definition all_unops : list unop :=
  [ I32Eqz; I64Eqz; I32Clz; I32Ctz; I32Popcnt; I64Clz; I64Ctz; I64Popcnt; F32Abs; F32Neg; F32Ceil;
    F32Floor; F32Trunc; F32Nearest; F32Sqrt; F64Abs; F64Neg; F64Ceil; F64Floor; F64Trunc; F64Nearest;
    F64Sqrt; I32WrapI64; I32TruncF32S; I32TruncF32U; I32TruncF64S; I32TruncF64U; I32TruncSatF32S;
    I32TruncSatF32U; I32TruncSatF64S; I32TruncSatF64U; I64ExtendI32S; I64ExtendI32U; I64TruncF32S;
    I64TruncF32U; I64TruncF64S; I64TruncF64U; I64TruncSatF32S; I64TruncSatF32U; I64TruncSatF64S;
    I64TruncSatF64U; F32ConvertI32S; F32ConvertI32U; F32ConvertI64S; F32ConvertI64U; F32DemoteF64;
    F64ConvertI32S; F64ConvertI32U; F64ConvertI64S; F64ConvertI64U; F64PromoteF32; I32ReinterpretF32;
    I64ReinterpretF64; F32ReinterpretI32; F64ReinterpretI64; I32Extend8S; I32Extend16S; I64Extend8S;
    I64Extend16S; I64Extend32S ].
Definition all_binops : list binop :=
  [ I32Eq; I32Ne; I32LtS; I32LtU; I32GtS; I32GtU; I32LeS; I32LeU; I32GeS; I32GeU; I64Eq; I64Ne; I64LtS;
    I64LtU; I64GtS; I64GtU; I64LeS; I64LeU; I64GeS; I64GeU; F32Eq; F32Ne; F32Lt; F32Gt; F32Le; F32Ge;
    F64Eq; F64Ne; F64Lt; F64Gt; F64Le; F64Ge; I32Add; I32Sub; I32Mul; I32DivS; I32DivU; I32RemS; I32RemU;
    I32And; I32Or; I32Xor; I32Shl; I32ShrS; I32ShrU; I32Rotl; I32Rotr; I64Add; I64Sub; I64Mul; I64DivS;
    I64DivU; I64RemS; I64RemU; I64And; I64Or; I64Xor; I64Shl; I64ShrS; I64ShrU; I64Rotl; I64Rotr; F32Add;
    F32Sub; F32Mul; F32Div; F32Min; F32Max; F32Copysign; F64Add; F64Sub; F64Mul; F64Div; F64Min; F64Max;
    F64Copysign ].
Definition all_storeops : list storeop :=
  [ I32Store; I64Store; F32Store; F64Store; I32Store8; I32Store16; I64Store8; I64Store16; I64Store32 ].
Definition all_loadops : list loadop :=
  [ I32Load; I64Load; F32Load; F64Load; I32Load8S; I32Load8U; I32Load16S; I32Load16U; I64Load8S; I64Load8U;
    I64Load16S; I64Load16U; I64Load32S; I64Load32U ].
Definition decode {O} (code : O -> Z) (all : list O) (c : Z) : option O :=
  find (fun o => (code o =? c)%Z) all.

(** The instruction replaced by a call of hook [h] after the constants [ops]. Alignment hints
    are not passed to the hooks and cannot be recovered. *)
Definition replaced (h : hook) (ops : list basic) : option uinstr :=
  match h, ops with
  | HkUnary _ _, [BConst TI32 c; _; _] => option_map (fun o => UBasic (BUnary o)) (decode unop_code all_unops c)
  | HkBinary _, [BConst TI32 c; _; _] => option_map (fun o => UBasic (BBinary o)) (decode binop_code all_binops c)
  | HkMemoryGrow, [BConst TI64 i; _; _] => Some (UBasic (BMemoryGrow (Z.to_nat i)))
  | HkStore _, [BConst TI64 off; BConst TI32 c; _; _] =>
      option_map (fun o => UBasic (BStore o (MA 0 off))) (decode storeop_code all_storeops c)
  | HkLoad _, [BConst TI64 off; BConst TI32 c; _; _] =>
      option_map (fun o => UBasic (BLoad o (MA 0 off))) (decode loadop_code all_loadops c)
  | _, _ => None
  end.

Definition no_align (b : basic) : basic :=
  match b with
  | BLoad o ma => BLoad o (MA 0 (ma_offset ma))
  | BStore o ma => BStore o (MA 0 (ma_offset ma))
  | _ => b
  end.

(** Remove everything flagged as generated; [hook_of] tells which functions are hooks. A
    generated [if] is an original one-armed [if]. *)
Section Erase.
  Variable hook_of : nat -> option hook.
  Fixpoint erase1 (i : tinstr) : uinstr :=
    let fix go (pending : list basic) (l : list tinstr) : list uinstr :=
      match l with
      | [] => []
      | TBasic m b :: r =>
          if m_gen m then
            match b with
            | BCall f =>
                match option_bind (hook_of f) (fun h => replaced h pending) with
                | Some u => u :: go [] r
                | None => go [] r
                end
            | _ => go (pending ++ [b]) r
            end
          else UBasic (no_align b) :: go [] r
      | x :: r => erase1 x :: go [] r
      end in
    match i with
    | TBasic m b => UBasic (no_align b)
    | TBlock _ ft body => UBlock ft (go [] body)
    | TLoop _ ft body => ULoop ft (go [] body)
    | TIf m ft thn (Some els) => UIf ft (go [] thn) (if m_gen m then None else Some (go [] els))
    | TIf _ ft thn None => UIf ft (go [] thn) None
    end.
  Definition erase (body : list tinstr) : list uinstr :=
    match erase1 (TBlock (Meta 0 0 IUnreach false) (FT [] []) body) with
    | UBlock _ b => b
    | _ => []
    end.
End Erase.

(** The original body without annotations and alignment hints. *)
Fixpoint plain1 (i : tinstr) : uinstr :=
  match i with
  | TBasic _ b => UBasic (no_align b)
  | TBlock _ ft body => UBlock ft (map plain1 body)
  | TLoop _ ft body => ULoop ft (map plain1 body)
  | TIf _ ft thn els =>
      UIf ft (map plain1 thn) (match els with None => None | Some e => Some (map plain1 e) end)
  end.
Definition plain (body : list tinstr) : list uinstr := map plain1 body.

(** ** C06: the hooks that concern an instruction *)
Definition bin_hooks (o : binop) : list hook :=
  match binop_in o, binop_out o with
  | TI32, TI32 => [HkBinary BkI32] | TI64, TI64 => [HkBinary BkI64]
  | TF32, TF32 => [HkBinary BkF32] | TF64, TF64 => [HkBinary BkF64]
  | TI64, TI32 => [HkBinary BkI64I32] | TF32, TI32 => [HkBinary BkF32I32]
  | TF64, TI32 => [HkBinary BkF64I32] | _, _ => []
  end.
Definition variable_type (ty : ity) : option numty :=
  match ty with
  | IReach (FT _ (TNum t :: _)) | IReach (FT (TNum t :: _) []) => Some t
  | _ => None
  end.
Definition hooks_for (i : tinstr) : list hook :=
  match i with
  | TBlock _ _ _ => [HkBlockPre; HkBlockPost]
  | TLoop _ _ _ => [HkLoopPre; HkLoopPost]
  | TIf _ _ _ None => [HkIfThen; HkIfThenPost]
  | TIf _ _ _ (Some _) => [HkIfThenElse; HkIfThenElsePost]
  | TBasic m b =>
      match b with
      | BSelect | BTypedSelect _ => [HkSelect]
      | BCall _ => [HkCallPre; HkCallPost]
      | BCallIndirect _ _ => [HkCallIndPre; HkCallIndPost]
      | BBr _ => [HkBr] | BBrIf _ => [HkBrIf] | BBrTable _ _ => [HkBrTable]
      | BReturn => [HkReturn] | BDrop => [HkDrop]
      | BConst t _ => [HkConst t]
      | BUnary o => [HkUnary (unop_in o) (unop_out o)]
      | BBinary o => bin_hooks o
      | BMemorySize _ => [HkMemorySize] | BMemoryGrow _ => [HkMemoryGrow]
      | BLocal o _ => match variable_type (m_ty m) with Some t => [HkLocal o t] | None => [] end
      | BGlobal o _ => match variable_type (m_ty m) with Some t => [HkGlobal o t] | None => [] end
      | BStore o _ => [HkStore (storeop_ty o)]
      | BLoad o _ => [HkLoad (loadop_ty o)]
      | _ => []
      end
  end.

(** ** C11: the construct a branch refers to *)
Inductive target := TgFunction | TgBlock (pos : nat) | TgLoop (pos : nat) | TgIf (pos : nat).
(** Every original branch with the constructs its labels denote, in source order; [ctx] is the
    stack of enclosing constructs, innermost first. *)
Fixpoint branches1 (ctx : list target) (i : tinstr) : list (nat * list (option target)) :=
  match i with
  | TBasic m b =>
      if m_gen m then [] else
      match b with
      | BBr l | BBrIf l => [(m_pos m, [nth_error ctx l])]
      | BBrTable ls d => [(m_pos m, map (nth_error ctx) (ls ++ [d]))]
      | _ => []
      end
  | TBlock m _ body => flat_map (branches1 (TgBlock (m_pos m) :: ctx)) body
  | TLoop m _ body => flat_map (branches1 (TgLoop (m_pos m) :: ctx)) body
  | TIf m _ thn els =>
      flat_map (branches1 (TgIf (m_pos m) :: ctx)) thn ++
      match els with Some e => flat_map (branches1 (TgIf (m_pos m) :: ctx)) e | None => [] end
  end.
Definition branches (body : list tinstr) := flat_map (branches1 [TgFunction]) body.
