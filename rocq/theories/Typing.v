(** Validation of WebAssembly code, as the specification of WebAssembly defines it (declaratively;
    chapter "Validation"). This is not code of the repository: it says which modules are valid
    and is stated without reference to the instrumentation. Simplifications:
    - all targets of a [br_table] have the same label type (the specification compares them
      up to the operand types available in unreachable code);
    - [ref.func] needs an existing function, not a declared one. *)
From Verif Require Export Syntax Semantics Nesting.

Record ctx := Ctx {
  c_funcs : list functy; c_tables : list refty; c_mem : bool; c_globals : list (valty * bool);
  c_elems : list refty; c_datas : nat;
  c_locals : list valty; c_labels : list (list valty); c_ret : list valty }.
(** The context inside a body to whose end or start branches carry [ts]. *)
Definition label (C : ctx) (ts : list valty) : ctx :=
  Ctx (c_funcs C) (c_tables C) (c_mem C) (c_globals C) (c_elems C) (c_datas C)
      (c_locals C) (ts :: c_labels C) (c_ret C).

(** The type of addresses, conditions and table indices. *)
Definition i32 : valty := TNum TI32.

(** Alignment must not exceed the width of the access. *)
Definition load_aligned (o : loadop) (a : memarg) : Prop := 2 ^ ma_align a <= loadop_bytes o.
(** The same for stores. *)
Definition store_aligned (o : storeop) (a : memarg) : Prop := 2 ^ ma_align a <= storeop_bytes o.

(** Types of the instructions without a body; operands in source order. *)
Inductive btype (C : ctx) : basic -> functy -> Prop :=
| ty_unreachable ft : btype C BUnreachable ft
| ty_nop : btype C BNop (FT [] [])
| ty_br l lt a b : nth_error (c_labels C) l = Some lt -> btype C (BBr l) (FT (a ++ lt) b)
| ty_br_if l lt : nth_error (c_labels C) l = Some lt -> btype C (BBrIf l) (FT (lt ++ [i32]) lt)
| ty_br_table table d lt a b :
    Forall (fun l => nth_error (c_labels C) l = Some lt) (d :: table) ->
    btype C (BBrTable table d) (FT (a ++ lt ++ [i32]) b)
| ty_return a b : btype C BReturn (FT (a ++ c_ret C) b)
| ty_call f ft : nth_error (c_funcs C) f = Some ft -> btype C (BCall f) ft
| ty_call_indirect ft t :
    nth_error (c_tables C) t = Some FuncRef -> btype C (BCallIndirect ft t) (FT (ft_in ft ++ [i32]) (ft_out ft))
| ty_ref_null r : btype C (BRefNull r) (FT [] [TRef r])
| ty_ref_is_null r : btype C BRefIsNull (FT [TRef r] [i32])
| ty_ref_func f : f < List.length (c_funcs C) -> btype C (BRefFunc f) (FT [] [TRef FuncRef])
| ty_drop t : btype C BDrop (FT [t] [])
| ty_select t : btype C BSelect (FT [TNum t; TNum t; i32] [TNum t])
| ty_typed_select t : btype C (BTypedSelect t) (FT [t; t; i32] [t])
| ty_local_get i t : nth_error (c_locals C) i = Some t -> btype C (BLocal LGet i) (FT [] [t])
| ty_local_set i t : nth_error (c_locals C) i = Some t -> btype C (BLocal LSet i) (FT [t] [])
| ty_local_tee i t : nth_error (c_locals C) i = Some t -> btype C (BLocal LTee i) (FT [t] [t])
| ty_global_get i t mu : nth_error (c_globals C) i = Some (t, mu) -> btype C (BGlobal GGet i) (FT [] [t])
| ty_global_set i t : nth_error (c_globals C) i = Some (t, true) -> btype C (BGlobal GSet i) (FT [t] [])
| ty_table_get t r : nth_error (c_tables C) t = Some r -> btype C (BTableGet t) (FT [i32] [TRef r])
| ty_table_set t r : nth_error (c_tables C) t = Some r -> btype C (BTableSet t) (FT [i32; TRef r] [])
| ty_table_size t r : nth_error (c_tables C) t = Some r -> btype C (BTableSize t) (FT [] [i32])
| ty_table_grow t r : nth_error (c_tables C) t = Some r -> btype C (BTableGrow t) (FT [TRef r; i32] [i32])
| ty_table_fill t r : nth_error (c_tables C) t = Some r -> btype C (BTableFill t) (FT [i32; TRef r; i32] [])
| ty_table_copy t1 t2 r :
    nth_error (c_tables C) t1 = Some r -> nth_error (c_tables C) t2 = Some r ->
    btype C (BTableCopy t1 t2) (FT [i32; i32; i32] [])
| ty_table_init t e r :
    nth_error (c_tables C) t = Some r -> nth_error (c_elems C) e = Some r ->
    btype C (BTableInit t e) (FT [i32; i32; i32] [])
| ty_elem_drop e : e < List.length (c_elems C) -> btype C (BElemDrop e) (FT [] [])
| ty_load o a : c_mem C = true -> load_aligned o a -> btype C (BLoad o a) (FT [i32] [TNum (loadop_ty o)])
| ty_store o a : c_mem C = true -> store_aligned o a -> btype C (BStore o a) (FT [i32; TNum (storeop_ty o)] [])
| ty_memory_size : c_mem C = true -> btype C (BMemorySize 0) (FT [] [i32])
| ty_memory_grow : c_mem C = true -> btype C (BMemoryGrow 0) (FT [i32] [i32])
| ty_memory_fill : c_mem C = true -> btype C BMemoryFill (FT [i32; i32; i32] [])
| ty_memory_copy : c_mem C = true -> btype C BMemoryCopy (FT [i32; i32; i32] [])
| ty_memory_init d : c_mem C = true -> d < c_datas C -> btype C (BMemoryInit d) (FT [i32; i32; i32] [])
| ty_data_drop d : d < c_datas C -> btype C (BDataDrop d) (FT [] [])
| ty_const t z : btype C (BConst t z) (FT [] [TNum t])
| ty_unary o : btype C (BUnary o) (FT [TNum (unop_in o)] [TNum (unop_out o)])
| ty_binary o : btype C (BBinary o) (FT [TNum (binop_in o); TNum (binop_in o)] [TNum (binop_out o)]).

(** Structured instructions, and sequences; stack types are top first. *)
Inductive instr_ok : ctx -> uinstr -> functy -> Prop :=
| io_basic C b ft : btype C b ft -> instr_ok C (UBasic b) ft
| io_block C ft body :
    seq_ok (label C (ft_out ft)) body (rev (ft_in ft)) (rev (ft_out ft)) -> instr_ok C (UBlock ft body) ft
| io_loop C ft body :
    seq_ok (label C (ft_in ft)) body (rev (ft_in ft)) (rev (ft_out ft)) -> instr_ok C (ULoop ft body) ft
| io_if C ft thn :
    seq_ok (label C (ft_out ft)) thn (rev (ft_in ft)) (rev (ft_out ft)) -> ft_in ft = ft_out ft ->
    instr_ok C (UIf ft thn None) (FT (ft_in ft ++ [i32]) (ft_out ft))
| io_if_else C ft thn els :
    seq_ok (label C (ft_out ft)) thn (rev (ft_in ft)) (rev (ft_out ft)) ->
    seq_ok (label C (ft_out ft)) els (rev (ft_in ft)) (rev (ft_out ft)) ->
    instr_ok C (UIf ft thn (Some els)) (FT (ft_in ft ++ [i32]) (ft_out ft))
with seq_ok : ctx -> list uinstr -> list valty -> list valty -> Prop :=
| so_nil C ts : seq_ok C [] ts ts
| so_cons C i r ft rest ts :
    instr_ok C i ft -> seq_ok C r (rev (ft_out ft) ++ rest) ts ->
    seq_ok C (i :: r) (rev (ft_in ft) ++ rest) ts.

(** ** Modules *)
Definition mctx (m : module) (locals : list valty) (ret : list valty) : ctx :=
  Ctx (map fn_type (md_funcs m)) (map tb_ref (md_tables m)) (Nat.leb 1 (List.length (md_mems m)))
      (map (fun g => (gl_type g, gl_mut g)) (md_globals m)) (map el_type (md_elems m)) (List.length (md_datas m))
      locals [ret] ret.

(** A function body: its [end] is the target of label 0. *)
Definition func_ok (m : module) (f : func) : Prop :=
  match fn_code f with
  | FImport _ _ => True
  | FPresent locals body =>
      exists b, structure_untyped body = COk b /\
        seq_ok (mctx m (ft_in (fn_type f) ++ locals) (ft_out (fn_type f))) b [] (rev (ft_out (fn_type f)))
  end.

(** Constant expressions; [gs] are the globals that may be read. *)
Definition init_ok (m : module) (gs : list global) (code : list low) (t : valty) : Prop :=
  match code with
  | [LBasic (BConst n z); LEnd] => t = TNum n /\ in_range (VNum n z) = true
  | [LBasic (BGlobal GGet i); LEnd] => option_map gl_type (nth_error gs i) = Some t
  | [LBasic (BRefNull r); LEnd] => t = TRef r
  | [LBasic (BRefFunc f); LEnd] => t = TRef FuncRef /\ f < List.length (md_funcs m)
  | _ => False
  end.
(** A global is initialised from those before it. *)
Definition global_ok (m : module) (i : nat) (g : global) : Prop :=
  gl_import g = None -> init_ok m (firstn i (md_globals m)) (gl_init g) (gl_type g).
(** Limits. *)
Definition table_limits (t : table) : Prop :=
  (match tb_max t with Some k => Z.of_nat (tb_min t) <= Z.of_nat k < 2 ^ 32 | None => Z.of_nat (tb_min t) < 2 ^ 32 end)%Z.
(** At most 65536 pages. *)
Definition mem_limits (m : memory) : Prop :=
  (match mm_max m with Some k => Z.of_nat (mm_min m) <= Z.of_nat k <= 65536 | None => Z.of_nat (mm_min m) <= 65536 end)%Z.
(** An element segment: its elements and, if active, its table and offset. *)
Definition elem_ok (m : module) (e : elem) : Prop :=
  Forall (fun c => init_ok m (md_globals m) c (TRef (el_type e))) (el_init e) /\
  match el_mode e with
  | EActive t off =>
      option_map tb_ref (nth_error (md_tables m) t) = Some (el_type e) /\ init_ok m (md_globals m) off i32
  | _ => True
  end.
(** A data segment: if active, there is a memory, and its offset is right. *)
Definition data_ok (m : module) (d : data) : Prop :=
  match dt_active d with Some off => md_mems m <> [] /\ init_ok m (md_globals m) off i32 | None => True end.

(** Valid modules. *)
Record valid (m : module) : Prop := {
  va_funcs : Forall (func_ok m) (md_funcs m);
  va_tables : Forall table_limits (md_tables m);
  va_mems : Forall mem_limits (md_mems m) /\ List.length (md_mems m) <= 1;
  va_globals : forall i g, nth_error (md_globals m) i = Some g -> global_ok m i g;
  va_elems : Forall (elem_ok m) (md_elems m);
  va_datas : Forall (data_ok m) (md_datas m);
  va_start : match md_start m with
             | Some f => option_map fn_type (nth_error (md_funcs m) f) = Some (FT [] [])
             | None => True
             end;
  va_exports : NoDup (flat_map fn_exports (md_funcs m)) }.

(** What the binary format can represent: indices, arities and offsets are 32-bit, constants
    are bit patterns of their width. *)
Definition u32 (n : nat) : Prop := (Z.of_nat n < 2 ^ 32)%Z.
(** The same for an instruction. *)
Definition representable (i : low) : Prop :=
  match i with
  | LBlock ft | LLoop ft | LIf ft => u32 (List.length (ft_in ft)) /\ u32 (List.length (ft_out ft))
  | LBasic b =>
      match b with
      | BBr l | BBrIf l => u32 l
      | BBrTable table d => Forall u32 (d :: table)
      | BCall f | BRefFunc f => u32 f
      | BCallIndirect _ t => u32 t
      | BLocal _ i | BGlobal _ i => u32 i
      | BLoad _ a => (0 <= ma_offset a < 2 ^ 32)%Z
      | BStore _ a => (0 <= ma_offset a < 2 ^ 32)%Z
      | BConst t z => in_range (VNum t z) = true
      | _ => True
      end
  | _ => True
  end.
(** The same for a module. *)
Definition in_format (m : module) : Prop :=
  u32 (List.length (md_funcs m)) /\
  Forall (fun f => u32 (List.length (ft_in (fn_type f))) /\ u32 (List.length (ft_out (fn_type f))) /\
            match fn_code f with
            | FPresent _ body => u32 (List.length body) /\ Forall representable body
            | FImport _ _ => True
            end) (md_funcs m) /\
  Forall (fun e => u32 (List.length (el_init e))) (md_elems m) /\
  Forall (fun d => u32 (List.length (dt_bytes d))) (md_datas m).

(** ** The type checker's annotations: what the external [TypeChecker] of wasabi_wasm
    reports per instruction (typed_high_level_body.rs L72-76). An instruction is reported
    [Reachable] with a type it has, or [Unreachable] if it follows an unconditional jump
    within a body. *)
Definition jumps (b : basic) : bool :=
  match b with BUnreachable | BBr _ | BBrTable _ _ | BReturn => true | _ => false end.
(** The annotations of a body; the boolean tells whether it is known to be reached. *)
Inductive annotated_ok : ctx -> bool -> list tinstr -> Prop :=
| an_nil C r : annotated_ok C r []
| an_unreach C m b rest :
    m_ty m = IUnreach -> annotated_ok C false rest -> annotated_ok C false (TBasic m b :: rest)
| an_reach C r m b ft rest :
    m_ty m = IReach ft -> btype C b ft ->
    annotated_ok C (r && negb (jumps b)) rest -> annotated_ok C r (TBasic m b :: rest)
| an_block C r m ft body rest :
    annotated_ok (label C (ft_out ft)) r body -> annotated_ok C r rest -> annotated_ok C r (TBlock m ft body :: rest)
| an_loop C r m ft body rest :
    annotated_ok (label C (ft_in ft)) r body -> annotated_ok C r rest -> annotated_ok C r (TLoop m ft body :: rest)
| an_if C r m ft thn rest :
    annotated_ok (label C (ft_out ft)) r thn -> annotated_ok C r rest -> annotated_ok C r (TIf m ft thn None :: rest)
| an_if_else C r m ft thn els rest :
    annotated_ok (label C (ft_out ft)) r thn -> annotated_ok (label C (ft_out ft)) r els ->
    annotated_ok C r rest -> annotated_ok C r (TIf m ft thn (Some els) :: rest).

(** The annotations of a module: for every function with code. *)
Definition annotates (infer : nat -> list low -> option (list ity)) (m : module) : Prop :=
  forall f fn locals body, nth_error (md_funcs m) f = Some fn -> fn_code fn = FPresent locals body ->
  exists tys b, infer f body = Some tys /\ List.length tys = List.length body /\
    structure_typed f (infer f) body = COk b /\
    annotated_ok (mctx m (ft_in (fn_type fn) ++ locals) (ft_out (fn_type fn))) true b.

(** ** Values and stores of the given types; a function reference denotes one of [nf] functions. *)
Definition val_ok (nf : nat) (v : val) (t : valty) : Prop :=
  typeof v = t /\ in_range v = true /\ match v with VRef FuncRef (Some f) => f < nf | _ => True end.
(** The memory, if there is one. *)
Definition mem_ok (C : ctx) (o : option memst) : Prop :=
  match o with
  | Some me => c_mem C = true /\ (0 <= ms_pages me <= ms_max me)%Z /\ (ms_max me <= 65536)%Z
  | None => c_mem C = false
  end.
(** References of a table or an element segment. *)
Definition cells_ok (nf : nat) (r : refty) (cells : list (option nat)) : Prop :=
  Forall (fun o => val_ok nf (VRef r o) (TRef r)) cells.
(** A table. *)
Definition table_ok (nf : nat) (tb : tblst) (r : refty) : Prop :=
  ts_ref tb = r /\ cells_ok nf r (ts_elems tb) /\
  (Z.of_nat (List.length (ts_elems tb)) <= ts_max tb < 2 ^ 32)%Z.
(** The globals. *)
Definition globals_ok (C : ctx) (gs : list val) : Prop :=
  Forall2 (fun v g => val_ok (List.length (c_funcs C)) v (fst g)) gs (c_globals C).
(** The whole store; [I] is about the state of the host. *)
Definition store_ok {X} (C : ctx) (I : X -> Prop) (s : store X) : Prop :=
  mem_ok C (st_mem s) /\ globals_ok C (st_globals s) /\
  Forall2 (table_ok (List.length (c_funcs C))) (st_tables s) (c_tables C) /\
  Forall2 (fun seg r => cells_ok (List.length (c_funcs C)) r seg) (st_elems s) (c_elems C) /\
  List.length (st_datas s) = c_datas C /\
  I (st_x s).

(** ** Well-typed agents: they call exports ([xty]) with arguments of their types and return
    values of type [ts]; [I] is an invariant of their own state. *)
Section AgentOk.
  Context {X : Type} (C : ctx) (I : X -> Prop) (xty : string -> option functy).
  Notation ok := (val_ok (List.length (c_funcs C))).
  Fixpoint agent_ok (ts : list valty) (p : xprog X) : Prop :=
    match p with
    | XRet vs => Forall2 ok vs ts
    | XTrap => True
    | XStuck => False
    | XGet k => forall x m g, I x -> mem_ok C m -> globals_ok C g -> agent_ok ts (k x m g)
    | XPut x m g k => I x /\ mem_ok C m /\ globals_ok C g /\ agent_ok ts k
    | XCall name args k =>
        exists ft, xty name = Some ft /\ Forall2 ok args (ft_in ft) /\
          forall vs, Forall2 ok vs (ft_out ft) -> agent_ok ts (k vs)
    end.
End AgentOk.
