(** The call-buffer library that is generated for WebAssembly:
    supported-languages/webassembly/src/generate/instrumentation/mod.rs. The generator writes
    WAT text; here it writes the functions that the text denotes, with the [$] identifiers of
    the text ([wid]) still in place. [assemble] is what a WAT assembler does with them.
    Left out: white space and comments, and the [(type ...)] definitions of L118-125, which
    nothing refers to. *)
From Verif Require Export Semantics Instrument.
Local Open Scope string_scope.
Local Open Scope list_scope.

(** [wat_type], L21-32. *)
Definition wat_type (t : valty) : string :=
  match t with
  | TNum TI32 => "i32" | TNum TF32 => "f32" | TNum TI64 => "i64" | TNum TF64 => "f64"
  | TRef FuncRef => "funcref" | TRef ExternRef => "externref"
  end.
(** Auxiliary: nothing in the repository corresponds to it. *)
Definition is_empty (s : string) : bool := match s with "" => true | _ => false end.
(** [mangled_wat_name], L47-67. *)
Definition mangled_wat_name (ft : functy) : string :=
  let rets := join "_" (map wat_type (ft_out ft)) in
  let args := join "_" (map wat_type (ft_in ft)) in
  match is_empty rets, is_empty args with
  | true, true => "ret_arg"
  | true, false => "ret_arg_" ++ args
  | false, true => "ret_" ++ rets ++ "_arg"
  | false, false => "ret_" ++ rets ++ "_arg_" ++ args
  end%string.

(** Identifiers of the text. Those of the fixed part, L551-638, and those per number of
    results and arguments, L166, L214, L274, L354. *)
Inductive wid :=
| IdGrow | IdTotal | IdAllocate | IdDeallocate
| IdAllocateValues | IdDeallocateValues | IdAllocateTypes | IdDeallocateTypes
| IdLoad | IdStore | IdStoreType
| IdGen (o : libop) (ret_count arg_count : nat).
(** The text of an identifier. *)
Definition wid_str (i : wid) : string :=
  match i with
  | IdGrow => "grow_memory" | IdTotal => "total_used_memory_in_bytes"
  | IdAllocate => "stack_allocate" | IdDeallocate => "stack_deallocate"
  | IdAllocateValues => "stack_allocate_values" | IdDeallocateValues => "stack_deallocate_values"
  | IdAllocateTypes => "stack_allocate_types" | IdDeallocateTypes => "stack_deallocate_types"
  | IdLoad => "wastrumentation_memory_load" | IdStore => "wastrumentation_memory_store"
  | IdStoreType => "wastrumentation_stack_store_type"
  | IdGen o r a => op_prefix o ++ "_ret_" ++ decimal r ++ "_arg_" ++ decimal a
  end%string.

(** An instruction of the text: calls are by identifier. *)
Inductive wins := W (l : low) | WCall (i : wid).
(** A function of the text. *)
Record wfn := WFn {
  w_id : option wid; w_export : option string; w_type : functy; w_locals : list valty; w_body : list wins }.

(** Auxiliary: nothing in the repository corresponds to it. *)
Definition wb (b : basic) : wins := W (LBasic b).
(** [local.get]. *)
Definition wget (i : nat) : wins := wb (BLocal LGet i).
(** [local.set]. *)
Definition wset (i : nat) : wins := wb (BLocal LSet i).
(** [global.get]. *)
Definition gget (i : nat) : wins := wb (BGlobal GGet i).
(** [global.set]. *)
Definition gset (i : nat) : wins := wb (BGlobal GSet i).
(** [i32.const]. *)
Definition c32 (z : Z) : wins := wb (BConst TI32 z).
(** A binary operator. *)
Definition bin (o : binop) : wins := wb (BBinary o).

(** The globals, L541-548. *)
Definition g_free : nat := 0.    (* $stack_free_ptr *)
Definition g_total : nat := 1.   (* $total_memory *)
Definition g_growth : nat := 2.  (* $memory_growth_size *)
Definition g_page : nat := 3.    (* $page_byte_size *)
Definition g_value : nat := 4.   (* $size_wasm_value *)
Definition g_type : nat := 5.    (* $size_wasm_type *)
(** A global of the text, L540-548. *)
Definition lib_global (mutable : bool) (z : Z) : global := Glb t_i32 mutable [LBasic (BConst TI32 z); LEnd] None [].
(** The globals of the text, L540-548. *)
Definition lib_globals : list global :=
  [lib_global true 0; lib_global true 1; lib_global false 1; lib_global false 65536;
   lib_global false 8; lib_global false 4].

(** [wasm_type_to_i64_conversion], L295-303, and [i64_to_wasm_type_conversion], L305-313. *)
Definition to_i64 (t : valty) : list wins :=
  match t with
  | TNum TI32 => [wb (BUnary I64ExtendI32U)]
  | TNum TF32 => [wb (BUnary I32ReinterpretF32); wb (BUnary I64ExtendI32U)]
  | TNum TI64 => []
  | TNum TF64 => [wb (BUnary I64ReinterpretF64)]
  | TRef _ => [wb (BUnary I64ExtendI32U)]
  end.
(** [i64_to_wasm_type_conversion], L305-313. *)
Definition from_i64 (t : valty) : list wins :=
  match t with
  | TNum TI32 => [wb (BUnary I32WrapI64)]
  | TNum TF32 => [wb (BUnary I32WrapI64); wb (BUnary F32ReinterpretI32)]
  | TNum TI64 => []
  | TNum TF64 => [wb (BUnary F64ReinterpretI64)]
  | TRef _ => [wb (BUnary I32WrapI64)]
  end.

(** [WAT_BOILERPLATE], L551-677. *)
Definition slot_address (size : nat) (offset : nat) : list wins :=
  [wget 0; wget offset; gget size; bin I32Mul; bin I32Add].
Definition stack_load_export (t : numty) : wfn :=                              (* L648-662 *)
  WFn None (Some ("wastrumentation_stack_load_" ++ wat_type (TNum t))%string) (FT [t_i32; t_i32] [TNum t]) []
    ([wget 0; wget 1; WCall IdLoad] ++ from_i64 (TNum t)).
Definition stack_store_export (t : numty) : wfn :=                             (* L664-677 *)
  WFn None (Some ("wastrumentation_stack_store_" ++ wat_type (TNum t))%string) (FT [t_i32; TNum t; t_i32] []) []
    ([wget 0; wget 1] ++ to_i64 (TNum t) ++ [wget 2; WCall IdStore]).
(** The fixed functions in the order of the text, L551-677. *)
Definition boilerplate : list wfn :=
  [ WFn (Some IdGrow) None ft_empty []                                         (* L551-559 *)
      [gget g_growth; wb (BMemoryGrow 0); c32 (2 ^ 32 - 1); bin I32Eq;
       W (LIf ft_empty); wb BUnreachable;
       W LElse; gget g_total; gget g_growth; bin I32Add; gset g_total; W LEnd];
    WFn (Some IdTotal) None (FT [] [t_i32]) []                                 (* L562-563 *)
      [gget g_total; gget g_page; bin I32Mul];
    WFn (Some IdAllocate) None (FT [t_i32] [t_i32]) [t_i32; t_i32]             (* L566-583 *)
      [gget g_free; wset 1; gget g_free; wget 0; bin I32Add; wset 2;
       W (LLoop ft_empty); wget 2; WCall IdTotal; bin I32GtU;
       W (LIf ft_empty); WCall IdGrow; wb (BBr 1); W LEnd; W LEnd;
       wget 2; gset g_free; wget 1];
    WFn (Some IdDeallocate) None (FT [t_i32; t_i32] []) []                     (* L586-589 *)
      [gget g_free; wget 1; bin I32Sub; gset g_free];
    WFn (Some IdAllocateValues) None (FT [t_i32] [t_i32]) []                   (* L592-594 *)
      [wget 0; gget g_value; bin I32Mul; WCall IdAllocate];
    WFn (Some IdDeallocateValues) None (FT [t_i32; t_i32] []) []               (* L597-599 *)
      [wget 0; wget 1; gget g_value; bin I32Mul; WCall IdDeallocate];
    WFn (Some IdAllocateTypes) None (FT [t_i32] [t_i32]) []                    (* L602-604 *)
      [wget 0; gget g_type; bin I32Mul; WCall IdAllocate];
    WFn (Some IdDeallocateTypes) None (FT [t_i32; t_i32] []) []                (* L607-609 *)
      [wget 0; wget 1; gget g_type; bin I32Mul; WCall IdDeallocate];
    WFn (Some IdLoad) None (FT [t_i32; t_i32] [TNum TI64]) []                  (* L612-618 *)
      (slot_address g_value 1 ++ [wb (BLoad I64Load (MA 3 0))]);
    WFn (Some IdStore) None (FT [t_i32; TNum TI64; t_i32] []) []               (* L620-627 *)
      (slot_address g_value 2 ++ [wget 1; wb (BStore I64Store (MA 3 0))]);
    WFn None (Some "wastrumentation_stack_load_type") (FT [t_i32; t_i32] [t_i32]) []   (* L630-636 *)
      (slot_address g_type 1 ++ [wb (BLoad I32Load (MA 2 0))]);
    WFn (Some IdStoreType) (Some "wastrumentation_stack_store_type")           (* L638-645 *)
      (FT [t_i32; t_i32; t_i32] []) []
      (slot_address g_type 1 ++ [wget 2; wb (BStore I32Store (MA 2 0))]) ]
  ++ map stack_load_export [TI32; TF32; TI64; TF64]
  ++ map stack_store_export [TI32; TF32; TI64; TF64].

(** [generate_allocate_generic_wat], L164-211. *)
Definition z_of (n : nat) : Z := Z.of_nat n.
(** [generate_allocate_generic_wat], L164-211. *)
Definition allocate_generic (r a : nat) : wfn :=
  let id := Some (IdGen LAlloc r a) in
  if Nat.eqb (r + a) 0 then WFn id None (FT [] [t_i32]) [] [c32 0]
  else WFn id None (FT (repeat (TNum TI64) a) [t_i32]) [t_i32]
         ([c32 (z_of (r + a)); WCall IdAllocateValues; wset a]
          ++ flat_map (fun i => [wget a; wget i; c32 (z_of (r + i)); WCall IdStore]) (seq 0 a)
          ++ [wget a]).
(** Slot of an argument or result, L194, L219, L236, L244, L263. *)
Definition slot (s : side) (r i : nat) : nat := match s with SArg => r + i | SRet => i end.
(** [generate_load_store_generic_wat], L213-270. *)
Definition load_generic (r a : nat) (s : side) (i : nat) : wfn :=
  WFn (Some (IdGen (LLoad s i) r a)) None (FT [t_i32] [TNum TI64]) []
    [wget 0; c32 (z_of (slot s r i)); WCall IdLoad].
(** The store functions of [generate_load_store_generic_wat], L213-270. *)
Definition store_generic (r a : nat) (s : side) (i : nat) : wfn :=
  WFn (Some (IdGen (LStore s i) r a)) None (FT [t_i32; TNum TI64] []) []
    [wget 0; wget 1; c32 (z_of (slot s r i)); WCall IdStore].
(** [generate_free_generic_wat], L272-293. *)
Definition free_generic (r a : nat) : wfn :=
  WFn (Some (IdGen LFree r a)) None (FT [t_i32] []) []
    (if Nat.eqb (r + a) 0 then [] else [wget 0; c32 (z_of (r + a)); WCall IdDeallocateValues]).
(** All functions for one number of results and arguments, L131-159. *)
Definition generic_fns (c : nat * nat) : list wfn :=
  let (r, a) := c in
  [allocate_generic r a]
  ++ map (load_generic r a SArg) (seq 0 a) ++ map (load_generic r a SRet) (seq 0 r)
  ++ map (store_generic r a SArg) (seq 0 a) ++ map (store_generic r a SRet) (seq 0 r)
  ++ [free_generic r a].

(** [runtime_enum_value], wastrumentation/src/wasm_constructs/mod.rs L30-39. *)
Definition runtime_enum_value (t : valty) : Z :=
  match t with
  | TNum TI32 => 0 | TNum TF32 => 1 | TNum TI64 => 2 | TNum TF64 => 3
  | TRef FuncRef => 4 | TRef ExternRef => 5
  end.

(** [iter().enumerate()]. *)
Definition enum {A} (l : list A) : list (nat * A) := combine (seq 0 (List.length l)) l.

(** [generate_specialized_functions_wat], L351-533. *)
Definition ft_count (ft : functy) : nat * nat := (List.length (ft_out ft), List.length (ft_in ft)).
(** The generic function a specialised one calls, L351-533. *)
Definition gen_id (ft : functy) (o : libop) : wid := IdGen o (fst (ft_count ft)) (snd (ft_count ft)).
(** The export name of a specialised function, L351-533. *)
Definition lib_name (ft : functy) (o : libop) : string := (op_prefix o ++ "_" ++ mangled_wat_name ft)%string.
Definition allocate_fn (ft : functy) : wfn :=                                  (* L356-375 *)
  WFn None (Some (lib_name ft LAlloc)) (FT (ft_in ft) [t_i32]) []
    (flat_map (fun it => wget (fst it) :: to_i64 (snd it)) (enum (ft_in ft)) ++ [WCall (gen_id ft LAlloc)]).
Definition load_fn (ft : functy) (s : side) (it : nat * valty) : wfn :=        (* L377-407 *)
  WFn None (Some (lib_name ft (LLoad s (fst it)))) (FT [t_i32] [snd it]) []
    ([wget 0; WCall (gen_id ft (LLoad s (fst it)))] ++ from_i64 (snd it)).
Definition store_fn (ft : functy) (s : side) (it : nat * valty) : wfn :=       (* L409-447 *)
  WFn None (Some (lib_name ft (LStore s (fst it)))) (FT [t_i32; snd it] []) []
    ([wget 0; wget 1] ++ to_i64 (snd it) ++ [WCall (gen_id ft (LStore s (fst it)))]).
Definition store_rets_fn (ft : functy) : wfn :=                                (* L449-481 *)
  WFn None (Some (lib_name ft LStoreRets)) (FT (t_i32 :: ft_out ft) []) []
    (flat_map (fun it => [wget 0; wget (S (fst it))] ++ to_i64 (snd it) ++ [WCall (gen_id ft (LStore SRet (fst it)))])
       (enum (ft_out ft))).
(** [generate_type_stores], L316-349. *)
Definition type_stores (ft : functy) : list wins :=
  flat_map (fun it => [wget 0; c32 (z_of (fst it)); c32 (runtime_enum_value (snd it)); WCall IdStoreType])
    (enum (ft_out ft))
  ++ flat_map (fun it => [wget 0; c32 (z_of (List.length (ft_out ft) + fst it)); c32 (runtime_enum_value (snd it));
                          WCall IdStoreType])
       (enum (ft_in ft)).
(** [total_types], L316-349. *)
Definition total_types (ft : functy) : nat := List.length (ft_out ft) + List.length (ft_in ft).
Definition allocate_types_fn (ft : functy) : wfn :=                            (* L484-498, L509-514 *)
  if Nat.eqb (total_types ft) 0
  then WFn None (Some (lib_name ft LAllocTypes)) (FT [] [t_i32]) [] [c32 0]
  else WFn None (Some (lib_name ft LAllocTypes)) (FT [] [t_i32]) [t_i32]
         ([c32 (z_of (total_types ft)); WCall IdAllocateTypes; wset 0] ++ type_stores ft ++ [wget 0]).
Definition free_types_fn (ft : functy) : wfn :=                                (* L500-506, L516-521 *)
  WFn None (Some (lib_name ft LFreeTypes)) (FT [t_i32] []) []
    (if Nat.eqb (total_types ft) 0 then [] else [wget 0; c32 (z_of (total_types ft)); WCall IdDeallocateTypes]).
Definition free_fn (ft : functy) : wfn :=                                      (* L524-530 *)
  WFn None (Some (lib_name ft LFree)) (FT [t_i32] []) [] [wget 0; WCall (gen_id ft LFree)].
(** All functions for one signature, L351-533. *)
Definition special_fns (ft : functy) : list wfn :=
  [allocate_fn ft]
  ++ map (load_fn ft SArg) (enum (ft_in ft)) ++ map (load_fn ft SRet) (enum (ft_out ft))
  ++ map (store_fn ft SArg) (enum (ft_in ft)) ++ map (store_fn ft SRet) (enum (ft_out ft))
  ++ [store_rets_fn ft; allocate_types_fn ft; free_types_fn ft; free_fn ft].

(** Skipping what a [HashSet] has seen, L131-159. *)
Section Firsts.
  Context {A : Type} (eqb : A -> A -> bool).
  Fixpoint firsts (seen l : list A) : list A :=
    match l with
    | [] => []
    | x :: r => if existsb (eqb x) seen then firsts seen r else x :: firsts (x :: seen) r
    end.
End Firsts.
(** Derived [PartialEq] of the pairs in the set, L131-159. *)
Definition count_eqb (c d : nat * nat) : bool := Nat.eqb (fst c) (fst d) && Nat.eqb (snd c) (snd d).

(** [generate_lib] and [generate_wat_functions], L104-162. *)
Definition generate_lib (sigs : list functy) : list wfn :=
  boilerplate
  ++ flat_map generic_fns (firsts count_eqb [] (map ft_count sigs))
  ++ flat_map special_fns (firsts functy_eqb [] sigs).

(** ** Assembling *)
Definition wid_eqb (i j : wid) : bool := String.eqb (wid_str i) (wid_str j).
(** Resolution of identifiers by the assembler (not repository code). *)
Definition has_id (i : wid) (f : wfn) : bool := match w_id f with Some j => wid_eqb i j | None => false end.
(** The index of an identifier. *)
Fixpoint index_of (ws : list wfn) (i : wid) : nat :=
  match ws with
  | [] => 0
  | f :: r => if has_id i f then 0 else S (index_of r i)
  end.
(** Is an identifier defined? *)
Definition defined (ws : list wfn) (i : wid) : bool := existsb (has_id i) ws.
(** An instruction with indices for identifiers. *)
Definition resolve (at_ : wid -> nat) (i : wins) : low :=
  match i with W l => l | WCall f => LBasic (BCall (at_ f)) end.
(** A function with indices for identifiers. *)
Definition resolve_fn (at_ : wid -> nat) (f : wfn) : func :=
  Fn (w_type f) (FPresent (w_locals f) (map (resolve at_) (w_body f) ++ [LEnd]))
     (match w_export f with Some e => [e] | None => [] end).
(** Auxiliary: nothing in the repository corresponds to it. *)
Fixpoint distinct_strs (l : list string) : bool :=
  match l with [] => true | x :: r => negb (existsb (String.eqb x) r) && distinct_strs r end.
(** Identifiers defined by the text. *)
Definition ids (ws : list wfn) : list string :=
  flat_map (fun f => match w_id f with Some i => [wid_str i] | None => [] end) ws.
(** Names exported by the text. *)
Definition exports (ws : list wfn) : list string :=
  flat_map (fun f => match w_export f with Some e => [e] | None => [] end) ws.
(** The assembler rejects unknown identifiers, and identifiers or export names that occur twice. *)
Definition assemble (ws : list wfn) : option (list func) :=
  if forallb (fun f => forallb (fun i => match i with WCall j => defined ws j | W _ => true end) (w_body f)) ws
     && distinct_strs (ids ws) && distinct_strs (exports ws)
  then Some (map (resolve_fn (index_of ws)) ws)
  else None.

(** The library as a module: [(memory 1)], L540. *)
Definition lib_module (sigs : list functy) : option module :=
  option_map (fun fs => Mod fs [] [Mem 1 None None []] lib_globals [] [] None) (assemble (generate_lib sigs)).
