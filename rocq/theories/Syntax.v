(** Syntax: the part of the [wasabi_wasm] crate's module representation that the
    repository manipulates, and the structured instructions of [parse_nesting].
    [wasabi_wasm] is an external crate; its types are those imported in
    wastrumentation/src/parse_nesting/typed_high_level_body.rs L1-5 and matched
    exhaustively there (L163-212). *)
From Verif Require Export Base.

(** wasabi [ValType]: the four number types and [Ref(RefType)]
    (instrument/mod.rs L302-316, wasm_constructs/mod.rs). *)
Inductive numty := TI32 | TI64 | TF32 | TF64.
(** wasabi [RefType]. *)
Inductive refty := FuncRef | ExternRef.
(** wasabi [ValType]. *)
Inductive valty := TNum (t : numty) | TRef (r : refty).

(** wasabi [FunctionType::new(inputs, results)]. *)
Record functy := FT { ft_in : list valty; ft_out : list valty }.

(** Derived [PartialEq]. *)
Definition numty_eqb (a b : numty) : bool :=
  match a, b with
  | TI32, TI32 | TI64, TI64 | TF32, TF32 | TF64, TF64 => true
  | _, _ => false
  end.
(** Derived [PartialEq]. *)
Definition refty_eqb (a b : refty) : bool :=
  match a, b with FuncRef, FuncRef | ExternRef, ExternRef => true | _, _ => false end.
(** Derived [PartialEq]. *)
Definition valty_eqb (a b : valty) : bool :=
  match a, b with
  | TNum x, TNum y => numty_eqb x y
  | TRef x, TRef y => refty_eqb x y
  | _, _ => false
  end.
(** Derived [PartialEq]. *)
Fixpoint list_eqb {A} (eqb : A -> A -> bool) (l1 l2 : list A) : bool :=
  match l1, l2 with
  | [], [] => true
  | x :: xs, y :: ys => eqb x y && list_eqb eqb xs ys
  | _, _ => false
  end.
(** Derived [PartialEq] of [FunctionType]. *)
Definition functy_eqb (a b : functy) : bool :=
  list_eqb valty_eqb (ft_in a) (ft_in b) && list_eqb valty_eqb (ft_out a) (ft_out b).

Lemma numty_eqb_eq a b : numty_eqb a b = true <-> a = b.
Proof. destruct a, b; simpl; split; congruence. Qed.
Lemma refty_eqb_eq a b : refty_eqb a b = true <-> a = b.
Proof. destruct a, b; simpl; split; congruence. Qed.
Lemma valty_eqb_eq a b : valty_eqb a b = true <-> a = b.
Proof.
  destruct a, b; simpl; try (split; congruence).
  - rewrite numty_eqb_eq. split; congruence.
  - rewrite refty_eqb_eq. split; congruence.
Qed.
Lemma list_eqb_eq {A} (eqb : A -> A -> bool) (H : forall a b, eqb a b = true <-> a = b) l1 l2 :
  list_eqb eqb l1 l2 = true <-> l1 = l2.
Proof.
  revert l2; induction l1 as [|x xs IH]; destruct l2 as [|y ys]; simpl; try (split; congruence).
  rewrite andb_true_iff, H, IH. split; [intros []; congruence|]. intros E; injection E; auto.
Qed.
Lemma functy_eqb_eq a b : functy_eqb a b = true <-> a = b.
Proof.
  unfold functy_eqb. rewrite andb_true_iff, !(list_eqb_eq _ valty_eqb_eq).
  destruct a, b; simpl. split; [intros []; congruence|]. intros E; injection E; auto.
Qed.

(** wasabi [UnaryOp] / [BinaryOp]: the constructors listed in
    instrument/simple_operations.rs L57-205. *)
Inductive unop :=
| I32Eqz | I64Eqz | I32Clz | I32Ctz | I32Popcnt | I64Clz
| I64Ctz | I64Popcnt | F32Abs | F32Neg | F32Ceil | F32Floor
| F32Trunc | F32Nearest | F32Sqrt | F64Abs | F64Neg | F64Ceil
| F64Floor | F64Trunc | F64Nearest | F64Sqrt | I32WrapI64 | I32TruncF32S
| I32TruncF32U | I32TruncF64S | I32TruncF64U | I32TruncSatF32S | I32TruncSatF32U | I32TruncSatF64S
| I32TruncSatF64U | I64ExtendI32S | I64ExtendI32U | I64TruncF32S | I64TruncF32U | I64TruncF64S
| I64TruncF64U | I64TruncSatF32S | I64TruncSatF32U | I64TruncSatF64S | I64TruncSatF64U | F32ConvertI32S
| F32ConvertI32U | F32ConvertI64S | F32ConvertI64U | F32DemoteF64 | F64ConvertI32S | F64ConvertI32U
| F64ConvertI64S | F64ConvertI64U | F64PromoteF32 | I32ReinterpretF32 | I64ReinterpretF64 | F32ReinterpretI32
| F64ReinterpretI64 | I32Extend8S | I32Extend16S | I64Extend8S | I64Extend16S | I64Extend32S.

(** wasabi [BinaryOp]: instrument/simple_operations.rs L57-205. *)
Inductive binop :=
| I32Eq | I32Ne | I32LtS | I32LtU | I32GtS | I32GtU | I32LeS | I32LeU
| I32GeS | I32GeU | I64Eq | I64Ne | I64LtS | I64LtU | I64GtS | I64GtU
| I64LeS | I64LeU | I64GeS | I64GeU | F32Eq | F32Ne | F32Lt | F32Gt
| F32Le | F32Ge | F64Eq | F64Ne | F64Lt | F64Gt | F64Le | F64Ge
| I32Add | I32Sub | I32Mul | I32DivS | I32DivU | I32RemS | I32RemU | I32And
| I32Or | I32Xor | I32Shl | I32ShrS | I32ShrU | I32Rotl | I32Rotr | I64Add
| I64Sub | I64Mul | I64DivS | I64DivU | I64RemS | I64RemU | I64And | I64Or
| I64Xor | I64Shl | I64ShrS | I64ShrU | I64Rotl | I64Rotr | F32Add | F32Sub
| F32Mul | F32Div | F32Min | F32Max | F32Copysign | F64Add | F64Sub | F64Mul
| F64Div | F64Min | F64Max | F64Copysign.

(** wasabi [LoadOp] / [StoreOp]: instrument/memory.rs L336-371. *)
Inductive loadop :=
| I32Load | I64Load | F32Load | F64Load
| I32Load8S | I32Load8U | I32Load16S | I32Load16U
| I64Load8S | I64Load8U | I64Load16S | I64Load16U | I64Load32S | I64Load32U.
(** wasabi [StoreOp]: instrument/memory.rs L336-371. *)
Inductive storeop :=
| I32Store | I64Store | F32Store | F64Store
| I32Store8 | I32Store16 | I64Store8 | I64Store16 | I64Store32.

(** Operand and result types of the operators, from the WebAssembly specification
    (independent of the tables in the repository). *)
Definition unop_in (o : unop) : numty :=
  match o with
  | I32Eqz | I32Clz | I32Ctz | I32Popcnt | I64ExtendI32S | I64ExtendI32U
  | F32ConvertI32S | F32ConvertI32U | F64ConvertI32S | F64ConvertI32U | F32ReinterpretI32 | I32Extend8S
  | I32Extend16S => TI32
  | I64Eqz | I64Clz | I64Ctz | I64Popcnt | I32WrapI64 | F32ConvertI64S
  | F32ConvertI64U | F64ConvertI64S | F64ConvertI64U | F64ReinterpretI64 | I64Extend8S | I64Extend16S
  | I64Extend32S => TI64
  | F32Abs | F32Neg | F32Ceil | F32Floor | F32Trunc | F32Nearest
  | F32Sqrt | I32TruncF32S | I32TruncF32U | I32TruncSatF32S | I32TruncSatF32U | I64TruncF32S
  | I64TruncF32U | I64TruncSatF32S | I64TruncSatF32U | F64PromoteF32 | I32ReinterpretF32 => TF32
  | F64Abs | F64Neg | F64Ceil | F64Floor | F64Trunc | F64Nearest
  | F64Sqrt | I32TruncF64S | I32TruncF64U | I32TruncSatF64S | I32TruncSatF64U | I64TruncF64S
  | I64TruncF64U | I64TruncSatF64S | I64TruncSatF64U | F32DemoteF64 | I64ReinterpretF64 => TF64
  end.

(** WebAssembly specification, not repository code: result types. *)
Definition unop_out (o : unop) : numty :=
  match o with
  | I32Eqz | I64Eqz | I32Clz | I32Ctz | I32Popcnt | I32WrapI64
  | I32TruncF32S | I32TruncF32U | I32TruncF64S | I32TruncF64U | I32TruncSatF32S | I32TruncSatF32U
  | I32TruncSatF64S | I32TruncSatF64U | I32ReinterpretF32 | I32Extend8S | I32Extend16S => TI32
  | I64Clz | I64Ctz | I64Popcnt | I64ExtendI32S | I64ExtendI32U | I64TruncF32S
  | I64TruncF32U | I64TruncF64S | I64TruncF64U | I64TruncSatF32S | I64TruncSatF32U | I64TruncSatF64S
  | I64TruncSatF64U | I64ReinterpretF64 | I64Extend8S | I64Extend16S | I64Extend32S => TI64
  | F32Abs | F32Neg | F32Ceil | F32Floor | F32Trunc | F32Nearest
  | F32Sqrt | F32ConvertI32S | F32ConvertI32U | F32ConvertI64S | F32ConvertI64U | F32DemoteF64
  | F32ReinterpretI32 => TF32
  | F64Abs | F64Neg | F64Ceil | F64Floor | F64Trunc | F64Nearest
  | F64Sqrt | F64ConvertI32S | F64ConvertI32U | F64ConvertI64S | F64ConvertI64U | F64PromoteF32
  | F64ReinterpretI64 => TF64
  end.

(** WebAssembly specification, not repository code: operand types. *)
Definition binop_in (o : binop) : numty :=
  match o with
  | I32Eq | I32Ne | I32LtS | I32LtU | I32GtS | I32GtU
  | I32LeS | I32LeU | I32GeS | I32GeU | I32Add | I32Sub
  | I32Mul | I32DivS | I32DivU | I32RemS | I32RemU | I32And
  | I32Or | I32Xor | I32Shl | I32ShrS | I32ShrU | I32Rotl
  | I32Rotr => TI32
  | I64Eq | I64Ne | I64LtS | I64LtU | I64GtS | I64GtU
  | I64LeS | I64LeU | I64GeS | I64GeU | I64Add | I64Sub
  | I64Mul | I64DivS | I64DivU | I64RemS | I64RemU | I64And
  | I64Or | I64Xor | I64Shl | I64ShrS | I64ShrU | I64Rotl
  | I64Rotr => TI64
  | F32Eq | F32Ne | F32Lt | F32Gt | F32Le | F32Ge
  | F32Add | F32Sub | F32Mul | F32Div | F32Min | F32Max
  | F32Copysign => TF32
  | F64Eq | F64Ne | F64Lt | F64Gt | F64Le | F64Ge
  | F64Add | F64Sub | F64Mul | F64Div | F64Min | F64Max
  | F64Copysign => TF64
  end.

(** WebAssembly specification, not repository code: result types. *)
Definition binop_out (o : binop) : numty :=
  match o with
  | I32Eq | I32Ne | I32LtS | I32LtU | I32GtS | I32GtU
  | I32LeS | I32LeU | I32GeS | I32GeU | I64Eq | I64Ne
  | I64LtS | I64LtU | I64GtS | I64GtU | I64LeS | I64LeU
  | I64GeS | I64GeU | F32Eq | F32Ne | F32Lt | F32Gt
  | F32Le | F32Ge | F64Eq | F64Ne | F64Lt | F64Gt
  | F64Le | F64Ge | I32Add | I32Sub | I32Mul | I32DivS
  | I32DivU | I32RemS | I32RemU | I32And | I32Or | I32Xor
  | I32Shl | I32ShrS | I32ShrU | I32Rotl | I32Rotr => TI32
  | I64Add | I64Sub | I64Mul | I64DivS | I64DivU | I64RemS
  | I64RemU | I64And | I64Or | I64Xor | I64Shl | I64ShrS
  | I64ShrU | I64Rotl | I64Rotr => TI64
  | F32Add | F32Sub | F32Mul | F32Div | F32Min | F32Max
  | F32Copysign => TF32
  | F64Add | F64Sub | F64Mul | F64Div | F64Min | F64Max
  | F64Copysign => TF64
  end.

(** WebAssembly specification, not repository code: types loaded. *)
Definition loadop_ty (o : loadop) : numty :=
  match o with
  | I32Load | I32Load8S | I32Load8U | I32Load16S | I32Load16U => TI32
  | I64Load | I64Load8S | I64Load8U | I64Load16S | I64Load16U | I64Load32S | I64Load32U => TI64
  | F32Load => TF32
  | F64Load => TF64
  end.
(** WebAssembly specification, not repository code: types stored. *)
Definition storeop_ty (o : storeop) : numty :=
  match o with
  | I32Store | I32Store8 | I32Store16 => TI32
  | I64Store | I64Store8 | I64Store16 | I64Store32 => TI64
  | F32Store => TF32
  | F64Store => TF64
  end.

(** wasabi [LocalOp], [GlobalOp] (instrument/memory.rs L96-98). *)
Inductive localop := LGet | LSet | LTee.
(** wasabi [GlobalOp]. *)
Inductive globalop := GGet | GSet.

(** wasabi [Memarg { alignment_exp_log2, offset }] (memory.rs L217). *)
Record memarg := MA { ma_align : nat; ma_offset : Z }.

(** All instructions that carry no nested body: typed_high_level_body.rs L112-161
    without [Block], [Loop] and [If]. Index types [Idx<T>] and [Label] are [nat].
    [Const(Val)] carries the number type and the bit pattern read as an unsigned
    integer; floats are therefore compared and copied by bits. *)
Inductive basic :=
| BUnreachable | BNop
| BBr (l : nat) | BBrIf (l : nat) | BBrTable (table : list nat) (dflt : nat)
| BReturn | BCall (f : nat) | BCallIndirect (ft : functy) (tbl : nat)
| BRefNull (r : refty) | BRefIsNull | BRefFunc (f : nat)
| BDrop | BSelect | BTypedSelect (t : valty)
| BLocal (o : localop) (i : nat) | BGlobal (o : globalop) (i : nat)
| BTableGet (t : nat) | BTableSet (t : nat) | BTableSize (t : nat) | BTableGrow (t : nat)
| BTableFill (t : nat) | BTableCopy (t1 t2 : nat) | BTableInit (t e : nat) | BElemDrop (e : nat)
| BLoad (o : loadop) (m : memarg) | BStore (o : storeop) (m : memarg)
| BMemorySize (m : nat) | BMemoryGrow (m : nat)
| BMemoryFill | BMemoryCopy | BMemoryInit (d : nat) | BDataDrop (d : nat)
| BConst (t : numty) (z : Z) | BUnary (o : unop) | BBinary (o : binop).

(** Flat instructions, [wasabi_wasm::Instr]: the above plus the bracketing
    instructions (typed_high_level_body.rs L205-209). *)
Inductive low :=
| LBlock (ft : functy) | LLoop (ft : functy) | LIf (ft : functy) | LElse | LEnd
| LBasic (b : basic).

(** wasabi [InferredInstructionType] (typed_high_level_body.rs L1, memory.rs L102). *)
Inductive ity := IReach (ft : functy) | IUnreach.

(** The fields of [TypedHighLevelInstr] other than [instr]
    (typed_high_level_body.rs L17-24); [m_gen] is [instrumentation_instruction]. *)
Record meta := Meta { m_fun : nat; m_pos : nat; m_ty : ity; m_gen : bool }.

(** Structured, annotated instructions: [TypedHighLevelInstr] (L17-24) with its [Instr]
    (L112-161). The struct and the enum are merged into one inductive type. *)
Inductive tinstr :=
| TBasic (m : meta) (b : basic)
| TBlock (m : meta) (ft : functy) (body : list tinstr)
| TLoop (m : meta) (ft : functy) (body : list tinstr)
| TIf (m : meta) (ft : functy) (thn : list tinstr) (els : option (list tinstr)).

(** Structured instructions without annotation: high_level_body.rs. *)
Inductive uinstr :=
| UBasic (b : basic)
| UBlock (ft : functy) (body : list uinstr)
| ULoop (ft : functy) (body : list uinstr)
| UIf (ft : functy) (thn : list uinstr) (els : option (list uinstr)).

Section TInd.
  Variable P : tinstr -> Prop.
  Hypothesis Hb : forall m b, P (TBasic m b).
  Hypothesis Hblk : forall m ft body, Forall P body -> P (TBlock m ft body).
  Hypothesis Hlp : forall m ft body, Forall P body -> P (TLoop m ft body).
  Hypothesis Hif : forall m ft thn, Forall P thn -> P (TIf m ft thn None).
  Hypothesis Hife : forall m ft thn els, Forall P thn -> Forall P els -> P (TIf m ft thn (Some els)).
  Fixpoint tinstr_ind' (i : tinstr) : P i :=
    let fix go (l : list tinstr) : Forall P l :=
      match l with [] => Forall_nil P | x :: xs => Forall_cons x (tinstr_ind' x) (go xs) end in
    match i with
    | TBasic m b => Hb m b
    | TBlock m ft body => Hblk m ft (go body)
    | TLoop m ft body => Hlp m ft (go body)
    | TIf m ft thn None => Hif m ft (go thn)
    | TIf m ft thn (Some els) => Hife m ft (go thn) (go els)
    end.
End TInd.

Section UInd.
  Variable P : uinstr -> Prop.
  Hypothesis Hb : forall b, P (UBasic b).
  Hypothesis Hblk : forall ft body, Forall P body -> P (UBlock ft body).
  Hypothesis Hlp : forall ft body, Forall P body -> P (ULoop ft body).
  Hypothesis Hif : forall ft thn, Forall P thn -> P (UIf ft thn None).
  Hypothesis Hife : forall ft thn els, Forall P thn -> Forall P els -> P (UIf ft thn (Some els)).
  Fixpoint uinstr_ind' (i : uinstr) : P i :=
    let fix go (l : list uinstr) : Forall P l :=
      match l with [] => Forall_nil P | x :: xs => Forall_cons x (uinstr_ind' x) (go xs) end in
    match i with
    | UBasic b => Hb b
    | UBlock ft body => Hblk ft (go body)
    | ULoop ft body => Hlp ft (go body)
    | UIf ft thn None => Hif ft (go thn)
    | UIf ft thn (Some els) => Hife ft (go thn) (go els)
    end.
End UInd.

(** Induction on bodies (lists), derived. *)
Lemma tbody_ind (P : list tinstr -> Prop) :
  P [] ->
  (forall m b r, P r -> P (TBasic m b :: r)) ->
  (forall m ft body r, P body -> P r -> P (TBlock m ft body :: r)) ->
  (forall m ft body r, P body -> P r -> P (TLoop m ft body :: r)) ->
  (forall m ft thn r, P thn -> P r -> P (TIf m ft thn None :: r)) ->
  (forall m ft thn els r, P thn -> P els -> P r -> P (TIf m ft thn (Some els) :: r)) ->
  forall l, P l.
Proof.
  intros H0 Hb Hblk Hlp Hif Hife.
  assert (A : forall i, forall r, P r -> P (i :: r)).
  { induction i using tinstr_ind'; intros r Hr;
    repeat match goal with
    | H : Forall _ ?l |- _ =>
        assert (P l) by (clear - H H0; induction H; [exact H0 | auto]); clear H
    end; auto. }
  induction l; auto.
Qed.

Lemma ubody_ind (P : list uinstr -> Prop) :
  P [] ->
  (forall b r, P r -> P (UBasic b :: r)) ->
  (forall ft body r, P body -> P r -> P (UBlock ft body :: r)) ->
  (forall ft body r, P body -> P r -> P (ULoop ft body :: r)) ->
  (forall ft thn r, P thn -> P r -> P (UIf ft thn None :: r)) ->
  (forall ft thn els r, P thn -> P els -> P r -> P (UIf ft thn (Some els) :: r)) ->
  forall l, P l.
Proof.
  intros H0 Hb Hblk Hlp Hif Hife.
  assert (A : forall i, forall r, P r -> P (i :: r)).
  { induction i using uinstr_ind'; intros r Hr;
    repeat match goal with
    | H : Forall _ ?l |- _ =>
        assert (P l) by (clear - H H0; induction H; [exact H0 | auto]); clear H
    end; auto. }
  induction l; auto.
Qed.

(** Dropping annotations. Not a function of the repository: it relates the typed and
    the untyped structured form. *)
Fixpoint strip (i : tinstr) : uinstr :=
  match i with
  | TBasic _ b => UBasic b
  | TBlock _ ft body => UBlock ft (map strip body)
  | TLoop _ ft body => ULoop ft (map strip body)
  | TIf _ ft thn els =>
      UIf ft (map strip thn) (match els with None => None | Some e => Some (map strip e) end)
  end.

(** wasabi [Function]: type, [ImportOrPresent<Code>], export names
    (instrument/mod.rs L271, memory.rs L432-435). Parameter and local names are left out. *)
Inductive fcode :=
| FImport (ns name : string)
| FPresent (locals : list valty) (body : list low).
(** wasabi [Function]. *)
Record func := Fn { fn_type : functy; fn_code : fcode; fn_exports : list string }.

(** wasabi [Table] with [Limits] (function_application.rs L187-195), [Memory], [Global],
    [Element] (L202-209), data segments. Initialisers are kept as flat code. *)
Record table := Tbl { tb_min : nat; tb_max : option nat; tb_ref : refty;
                      tb_import : option (string * string); tb_exports : list string }.
(** wasabi [Memory]. *)
Record memory := Mem { mm_min : nat; mm_max : option nat;
                       mm_import : option (string * string); mm_exports : list string }.
(** wasabi [Global]. *)
Record global := Glb { gl_type : valty; gl_mut : bool; gl_init : list low;
                       gl_import : option (string * string); gl_exports : list string }.
(** wasabi [ElementMode]. *)
Inductive emode := EActive (tbl : nat) (offset : list low) | EPassive | EDeclarative.
(** wasabi [Element]. *)
Record elem := Elem { el_type : refty; el_init : list (list low); el_mode : emode }.
(** wasabi [Data]. *)
Record data := Data { dt_bytes : list Z; dt_active : option (list low) }.

(** wasabi [Module]. *)
Record module := Mod {
  md_funcs : list func; md_tables : list table; md_mems : list memory;
  md_globals : list global; md_elems : list elem; md_datas : list data;
  md_start : option nat }.

(** Auxiliary: nothing in the repository corresponds to it. *)
Definition set_funcs (m : module) (fs : list func) : module :=
  Mod fs (md_tables m) (md_mems m) (md_globals m) (md_elems m) (md_datas m) (md_start m).
