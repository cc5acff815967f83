(** The call-buffer library that is generated for Rust, the one the command line uses:
    supported-languages/rust/src/generate/instrumentation/mod.rs. The generator writes Rust text;
    here it writes the functions that the text denotes, with calls still by name.

    Left out: attributes, white space and comments; the panic handler, L550-558; the conversions
    from [i32] to [RuntimeType], L490-516, which nothing calls. The Rust compiler is not modelled:
    [rcall] is what the text means. Memory is the WebAssembly memory of the library. *)
From Verif Require Export Semantics Instrument StackLib StackSpec.
Local Open Scope string_scope.
Local Open Scope list_scope.
Local Open Scope res_scope.

(** ** Rust *)
(** Types: WebAssembly types as [Display] prints them (wasm_constructs/mod.rs L41-56), [usize],
    [WasmValue], [RuntimeType] and [()]. *)
Inductive rty := RW (t : valty) | RUsize | RValue | RKind | RUnit.
(** Operations: [WasmValue::new_..], L48-57, and [.field], L59-68, for a type; access through a raw
    pointer to [WasmValue] or [RuntimeType]; [RuntimeType] into [i32], L483-488; [ALLOC.alloc] and
    [ALLOC.dealloc] of a number of items with the size and alignment of one. *)
Inductive rop :=
| ONew (t : valty) | OField (t : valty)
| OReadValue | OWriteValue | OReadKind | OWriteKind | OCode
| OAlloc (size : Z) | ODealloc (size : Z).
(** Expressions of the generated Rust text, supported-languages/rust/src/generate/instrumentation. *)
Inductive rexp :=
| RVar (x : string)
| RNum (z : Z)
| RVariant (t : valty)
| ROp (o : rop) (es : list rexp)
| RCall (f : string) (es : list rexp).
(** Statements of the generated text. *)
Inductive rstmt := RLet (x : string) (e : rexp) | RDo (e : rexp).
(** A function of the generated text. *)
Record rfn := RFn {
  rf_export : bool;    (* [#[no_mangle] pub extern "C"] *)
  rf_name : string; rf_params : list (string * rty); rf_ret : rty;
  rf_body : list rstmt; rf_tail : option rexp }.

(** ** The fixed part, [LIB_BOILERPLATE], L450-667 *)
Definition load_boiler (t : numty) : rfn :=                                    (* L625-646 *)
  RFn true ("wastrumentation_stack_load_" ++ as_str (TNum t)) [("ptr", RUsize); ("offset", RUsize)] (RW (TNum t))
    [RLet "wasm_val" (RCall "wastrumentation_memory_load" [RVar "ptr"; RVar "offset"])]
    (Some (ROp (OField (TNum t)) [RVar "wasm_val"])).
Definition store_boiler (t : numty) : rfn :=                                   (* L649-666 *)
  RFn true ("wastrumentation_stack_store_" ++ as_str (TNum t))
    [("ptr", RUsize); ("value", RW (TNum t)); ("offset", RUsize)] RUnit
    [RDo (RCall "wastrumentation_memory_store" [RVar "ptr"; ROp (ONew (TNum t)) [RVar "value"]; RVar "offset"])] None.
(** The fixed part as a whole, L553-666. *)
Definition rust_boilerplate : list rfn :=
  [ RFn false "wastrumentation_memory_load" [("stack_ptr", RUsize); ("offset", RUsize)] RValue []     (* L561-564 *)
      (Some (ROp OReadValue [RVar "stack_ptr"; RVar "offset"]));
    RFn false "wastrumentation_memory_store" [("stack_ptr", RUsize); ("value", RValue); ("offset", RUsize)] RUnit
      [RDo (ROp OWriteValue [RVar "stack_ptr"; RVar "offset"; RVar "value"])] None;                    (* L567-570 *)
    RFn false "stack_allocate_types" [("count", RUsize)] RUsize []                                     (* L578-582 *)
      (Some (ROp (OAlloc 4) [RVar "count"]));
    RFn false "stack_deallocate_types" [("ptr", RUsize); ("count", RUsize)] RUnit                      (* L585-590 *)
      [RDo (ROp (ODealloc 4) [RVar "ptr"; RVar "count"])] None;
    RFn false "stack_allocate_values" [("num_values", RUsize)] RUsize []                               (* L597-601 *)
      (Some (ROp (OAlloc 8) [RVar "num_values"]));
    RFn false "stack_deallocate_values" [("ptr", RUsize); ("num_values", RUsize)] RUnit                (* L604-608 *)
      [RDo (ROp (ODealloc 8) [RVar "ptr"; RVar "num_values"])] None;
    RFn false "wastrumentation_stack_store_type" [("ptr", RUsize); ("offset", RUsize); ("ty", RKind)] RUnit
      [RDo (ROp OWriteKind [RVar "ptr"; RVar "offset"; RVar "ty"])] None;                              (* L611-614 *)
    RFn true "wastrumentation_stack_load_type" [("ptr", RUsize); ("offset", RUsize)] (RW t_i32)        (* L617-621 *)
      [RLet "ty" (ROp OReadKind [RVar "ptr"; RVar "offset"])] (Some (ROp OCode [RVar "ty"])) ]
  ++ map load_boiler [TI32; TF32; TI64; TF64]
  ++ map store_boiler [TI32; TF32; TI64; TF64].

(** ** Per number of results and arguments *)
(** [generic_rust_name], L44-46; [mangled_rust_name_by_count], L38-42, is the same. *)
Definition count_name (r a : nat) : string := ("ret_" ++ decimal r ++ "_arg_" ++ decimal a)%string.
(** Parameter names of the generated functions, L71-139. *)
Definition arg_var (n : nat) : string := ("a" ++ decimal n)%string.
(** [generate_allocate_generic], L71-107. *)
Definition rust_allocate_generic (r a : nat) : rfn :=
  let name := ("allocate_" ++ count_name r a)%string in
  if Nat.eqb (r + a) 0 then RFn false name [] RUsize [] (Some (RNum 0))
  else RFn false name (map (fun n => (arg_var n, RValue)) (seq 0 a)) RUsize
         (RLet "frame_ptr" (RCall "stack_allocate_values" [RNum (Z.of_nat (r + a))])
          :: map (fun n => RDo (RCall "wastrumentation_memory_store"
                                  [RVar "frame_ptr"; RVar (arg_var n); RNum (Z.of_nat (r + n))])) (seq 0 a))
         (Some (RVar "frame_ptr")).
(** [generate_allocate_types_buffer_generic], L141-151. *)
Definition rust_types_generic (r a : nat) : rfn :=
  RFn false ("allocate_signature_types_buffer_" ++ count_name r a) [] RUsize []
    (Some (RCall "stack_allocate_types" [RNum (Z.of_nat (r + a))])).
(** [generate_load_generic], L182-210. *)
Definition slot_var (s : side) (n : nat) : string := (match s with SArg => "a" | SRet => "r" end ++ decimal n)%string.
(** Names of the generic load functions, L182-210. *)
Definition load_count_name (s : side) (n r a : nat) : string := ("load_" ++ side_str s ++ decimal n ++ "_" ++ count_name r a)%string.
(** Names of the generic store functions, L249-277. *)
Definition store_count_name (s : side) (n r a : nat) : string := ("store_" ++ side_str s ++ decimal n ++ "_" ++ count_name r a)%string.
(** [generate_load_generic], L182-210. *)
Definition rust_load_generic (r a : nat) (s : side) (n : nat) : rfn :=
  RFn false (load_count_name s n r a) [("stack_ptr", RUsize)] RValue []
    (Some (RCall "wastrumentation_memory_load"
             [RVar "stack_ptr"; RNum (Z.of_nat (match s with SArg => r + n | SRet => n end))])).
(** [generate_store_generic], L249-277. *)
Definition rust_store_generic (r a : nat) (s : side) (n : nat) : rfn :=
  RFn false (store_count_name s n r a) [("stack_ptr", RUsize); (slot_var s n, RValue)] RUnit
    [RDo (RCall "wastrumentation_memory_store"
            [RVar "stack_ptr"; RVar (slot_var s n); RNum (Z.of_nat (match s with SArg => r + n | SRet => n end))])] None.
(** [generate_free_values_buffer_generic], L314-335. *)
Definition rust_free_generic (r a : nat) : rfn :=
  let name := ("free_values_" ++ count_name r a)%string in
  if Nat.eqb (r + a) 0 then RFn false name [("_ptr", RUsize)] RUnit [] None
  else RFn false name [("ptr", RUsize)] RUnit
         [RDo (RCall "stack_deallocate_values" [RVar "ptr"; RNum (Z.of_nat (r + a))])] None.
(** [generate_free_types_buffer_generic], L349-360. *)
Definition rust_free_types_generic (r a : nat) : rfn :=
  RFn false ("free_types_" ++ count_name r a) [("ptr", RUsize)] RUnit
    [RDo (RCall "stack_deallocate_types" [RVar "ptr"; RNum (Z.of_nat (r + a))])] None.
(** [generate_store_rets_generic], L374-402. *)
Definition rust_store_rets_generic (r a : nat) : rfn :=
  RFn false ("store_rets_" ++ count_name r a)
    ((match r with 0 => "_stack_ptr" | _ => "stack_ptr" end, RUsize) :: map (fun n => (arg_var n, RValue)) (seq 0 r)) RUnit
    (map (fun n => RDo (RCall (store_count_name SRet n r a) [RVar "stack_ptr"; RVar (arg_var n)])) (seq 0 r)) None.
(** In the order of L690-698. *)
Definition rust_generic (r a : nat) : list rfn :=
  [rust_allocate_generic r a]
  ++ map (rust_load_generic r a SArg) (seq 0 a) ++ map (rust_load_generic r a SRet) (seq 0 r)
  ++ map (rust_store_generic r a SArg) (seq 0 a) ++ map (rust_store_generic r a SRet) (seq 0 r)
  ++ [rust_free_generic r a; rust_store_rets_generic r a; rust_types_generic r a; rust_free_types_generic r a].

(** ** Per signature *)
Section Special.
  Variable ft : functy.
  Notation r := (List.length (ft_out ft)).
  Notation a := (List.length (ft_in ft)).
  Definition typed_params (ts : list valty) : list (string * rty) := map (fun it => (arg_var (fst it), RW (snd it))) (enum ts).
  (** The conversions of the arguments in the specialised functions. *)
  Definition converted (ts : list valty) : list rexp := map (fun it => ROp (ONew (snd it)) [RVar (arg_var (fst it))]) (enum ts).
  (** [generate_allocate_specialized], L109-139. *)
  Definition rust_allocate : rfn :=
    RFn true (op_name ft LAlloc) (typed_params (ft_in ft)) RUsize []
      (Some (RCall ("allocate_" ++ count_name r a) (converted (ft_in ft)))).
  (** [generate_load_specialized], L212-247. *)
  Definition rust_load (s : side) (it : nat * valty) : rfn :=
    RFn true (op_name ft (LLoad s (fst it))) [("stack_ptr", RUsize)] (RW (snd it))
      [RLet "val" (RCall (load_count_name s (fst it) r a) [RVar "stack_ptr"])]
      (Some (ROp (OField (snd it)) [RVar "val"])).
  (** [generate_store_specialized], L279-312. *)
  Definition rust_store (s : side) (it : nat * valty) : rfn :=
    RFn true (op_name ft (LStore s (fst it))) [("stack_ptr", RUsize); (arg_var (fst it), RW (snd it))] RUnit
      [RDo (RCall (store_count_name s (fst it) r a) [RVar "stack_ptr"; ROp (ONew (snd it)) [RVar (arg_var (fst it))]])] None.
  (** [generate_free_values_buffer_specialized], L337-347, and [generate_free_types_buffer_specialized], L362-372. *)
  Definition rust_free : rfn :=
    RFn true (op_name ft LFree) [("ptr", RUsize)] RUnit [RDo (RCall ("free_values_" ++ count_name r a) [RVar "ptr"])] None.
  (** [generate_free_types_buffer_specialized], L362-372. *)
  Definition rust_free_types : rfn :=
    RFn true (op_name ft LFreeTypes) [("ptr", RUsize)] RUnit [RDo (RCall ("free_types_" ++ count_name r a) [RVar "ptr"])] None.
  (** [generate_store_rets_specialized], L404-444. *)
  Definition rust_store_rets : rfn :=
    RFn true (op_name ft LStoreRets) (("stack_ptr", RUsize) :: typed_params (ft_out ft)) RUnit
      [RDo (RCall ("store_rets_" ++ count_name r a) (RVar "stack_ptr" :: converted (ft_out ft)))] None.
  (** [generate_allocate_types_buffer_specialized], L153-180. *)
  Definition rust_allocate_types : rfn :=
    RFn true (op_name ft LAllocTypes) [] RUsize
      (RLet "types_buffer" (RCall ("allocate_signature_types_buffer_" ++ count_name r a) [])
       :: map (fun it => RDo (RCall "wastrumentation_stack_store_type"
                                [RVar "types_buffer"; RNum (Z.of_nat (fst it)); RVariant (snd it)]))
            (enum (ft_out ft ++ ft_in ft)))
      (Some (RVar "types_buffer")).
  (** In the order of L703-711. *)
  Definition rust_special : list rfn :=
    [rust_allocate]
    ++ map (rust_load SArg) (enum (ft_in ft)) ++ map (rust_load SRet) (enum (ft_out ft))
    ++ map (rust_store SArg) (enum (ft_in ft)) ++ map (rust_store SRet) (enum (ft_out ft))
    ++ [rust_free; rust_store_rets; rust_allocate_types; rust_free_types].
End Special.

(** [generate_lib_for], L681-720. *)
Fixpoint rust_lib_for (counts : list (nat * nat)) (done sigs : list functy) : list rfn :=
  match sigs with
  | [] => []
  | ft :: rest =>
      (if existsb (count_eqb (ft_count ft)) counts then [] else rust_generic (List.length (ft_out ft)) (List.length (ft_in ft)))
      ++ (if existsb (functy_eqb ft) done then [] else rust_special ft)
      ++ rust_lib_for (ft_count ft :: counts) (ft :: done) rest
  end.
(** [generate_lib], L671-679. *)
Definition rust_lib (sigs : list functy) : list rfn := rust_boilerplate ++ rust_lib_for [] [] sigs.

(** ** What the compiler checks *)
Definition rty_eqb (t u : rty) : bool :=
  match t, u with
  | RW t, RW u => valty_eqb t u
  | RUsize, RUsize | RValue, RValue | RKind, RKind | RUnit, RUnit => true
  | _, _ => false
  end.
(** [ref_func] and [ref_extern] are not types. *)
Definition known_type (t : rty) : bool := match t with RW (TRef _) => false | _ => true end.
(** Operands and result. [new_func_ref] and [new_extern_ref] take no operand, L546-548, and the
    union has no field [func_ref] or [extern_ref], L521-527. *)
Definition rop_type (o : rop) : option (list rty * rty) :=
  match o with
  | ONew (TNum t) => Some ([RW (TNum t)], RValue)
  | ONew (TRef _) => Some ([], RValue)
  | OField (TNum t) => Some ([RValue], RW (TNum t))
  | OField (TRef _) => None
  | OReadValue => Some ([RUsize; RUsize], RValue)
  | OWriteValue => Some ([RUsize; RUsize; RValue], RUnit)
  | OReadKind => Some ([RUsize; RUsize], RKind)
  | OWriteKind => Some ([RUsize; RUsize; RKind], RUnit)
  | OCode => Some ([RKind], RW t_i32)
  | OAlloc _ => Some ([RUsize], RUsize)
  | ODealloc _ => Some ([RUsize; RUsize], RUnit)
  end.
(** Auxiliary: nothing in the repository corresponds to it. *)
Fixpoint lookup {A} (x : string) (env : list (string * A)) : option A :=
  match env with
  | [] => None
  | (y, v) :: r => if String.eqb x y then Some v else lookup x r
  end.
(** Resolution of a called name. *)
Definition fn_named (fns : list rfn) (f : string) : option rfn := find (fun g => String.eqb f (rf_name g)) fns.
(** Auxiliary: nothing in the repository corresponds to it. *)
Definition rust_sig (g : rfn) : list rty * rty := (map snd (rf_params g), rf_ret g).
(** Auxiliary: nothing in the repository corresponds to it. *)
Fixpoint tys_eqb (l m : list rty) : bool :=
  match l, m with
  | [], [] => true
  | t :: l, u :: m => rty_eqb t u && tys_eqb l m
  | _, _ => false
  end.
Section Types.
  Variable fns : list rfn.
  (** Rust's check of an expression (not repository code). *)
  Fixpoint type_exp (env : list (string * rty)) (e : rexp) : option rty :=
    let args := fix args (es : list rexp) : option (list rty) :=
      match es with
      | [] => Some []
      | e :: r => match type_exp env e, args r with Some t, Some ts => Some (t :: ts) | _, _ => None end
      end in
    let apply (sg : option (list rty * rty)) (es : list rexp) :=
      match sg, args es with
      | Some (ps, t), Some ts => if tys_eqb ts ps then Some t else None
      | _, _ => None
      end in
    match e with
    | RVar x => lookup x env
    | RNum z => if ((0 <=? z) && (z <? 2 ^ 32))%Z then Some RUsize else None
    | RVariant t => Some RKind
    | ROp o es => apply (rop_type o) es
    | RCall f es => apply (option_map rust_sig (fn_named fns f)) es
    end.
  (** Rust's check of a body. *)
  Fixpoint type_body (env : list (string * rty)) (ss : list rstmt) (tl : option rexp) : option rty :=
    match ss with
    | [] => match tl with Some e => type_exp env e | None => Some RUnit end
    | RLet x e :: r => match type_exp env e with Some t => type_body ((x, t) :: env) r tl | None => None end
    | RDo e :: r => match type_exp env e with Some _ => type_body env r tl | None => None end
    end.
  (** Rust's check of a function. *)
  Definition type_fn (g : rfn) : bool :=
    forallb (fun p => known_type (snd p)) (rf_params g) && known_type (rf_ret g) && distinct_strs (map fst (rf_params g))
    && match type_body (rf_params g) (rf_body g) (rf_tail g) with Some t => rty_eqb t (rf_ret g) | None => false end.
End Types.
(** The library compiles: no two functions with one name, and every function is well typed. *)
Definition rust_compiles (fns : list rfn) : bool := distinct_strs (map rf_name fns) && forallb (type_fn fns) fns.
(** The type of an exported function in WebAssembly, where [usize] is [i32]. *)
Definition wasm_types (t : rty) : list valty := match t with RW t => [t] | RUsize => [t_i32] | _ => [] end.
(** The type of an exported function in WebAssembly, where [usize] is [i32]. *)
Definition wasm_sig (g : rfn) : functy := FT (flat_map (fun p => wasm_types (snd p)) (rf_params g)) (wasm_types (rf_ret g)).

(** ** What it does *)
(** Values: of a WebAssembly type or [usize]; the eight bytes of a [WasmValue]; the code of a
    [RuntimeType], L471-481. *)
Inductive rval := VW (v : val) | VUnion (z : Z) | VKind (z : Z) | VUnit.

(** The allocator, which is a dependency ([wee_alloc], L461-463): [alloc size align] and
    [dealloc ptr size align]. *)
Record allocator := Allocator {
  al_alloc : Z -> Z -> store unit -> res (store unit) (Z * store unit);
  al_dealloc : Z -> Z -> Z -> store unit -> res (store unit) (store unit) }.

Section Run.
  Notation store := (store unit).
  Notation res := (res store).
  Variable A : allocator.
  (** The bytes of a [WasmValue] that a 32-bit field leaves undefined. *)
  Variable junk : store -> numty -> Z -> Z.
  Variable fns : list rfn.

  Definition run_op (o : rop) (vs : list rval) (s : store) : res (rval * store) :=
    match o, vs with
    | ONew (TNum t), [VW (VNum _ z)] =>
        Ok (VUnion match t with TI32 | TF32 => (z + 2 ^ 32 * (junk s t z mod 2 ^ 32))%Z | TI64 | TF64 => z end, s)
    | OField (TNum t), [VUnion z] => Ok (VW (VNum t (z mod 2 ^ bits t)), s)
    | OReadValue, [VW (VNum _ p); VW (VNum _ k)] =>
        let* m := rget (st_mem s) in
        match mem_load m I64Load (p + k * 8) with Some z => Ok (VUnion z, s) | None => Trap s end
    | OWriteValue, [VW (VNum _ p); VW (VNum _ k); VUnion z] =>
        let* m := rget (st_mem s) in
        match mem_store m I64Store (p + k * 8) z with Some m' => Ok (VUnit, set_mem s (Some m')) | None => Trap s end
    | OReadKind, [VW (VNum _ p); VW (VNum _ k)] =>
        let* m := rget (st_mem s) in
        match mem_load m I32Load (p + k * 4) with Some z => Ok (VKind z, s) | None => Trap s end
    | OWriteKind, [VW (VNum _ p); VW (VNum _ k); VKind z] =>
        let* m := rget (st_mem s) in
        match mem_store m I32Store (p + k * 4) z with Some m' => Ok (VUnit, set_mem s (Some m')) | None => Trap s end
    | OCode, [VKind z] => Ok (VW (vi32 z), s)
    | OAlloc size, [VW (VNum _ k)] =>
        let* (p, s') := al_alloc A ((size * k) mod 2 ^ 32) size s in Ok (VW (vi32 p), s')
    | ODealloc size, [VW (VNum _ p); VW (VNum _ k)] =>
        let* s' := al_dealloc A p ((size * k) mod 2 ^ 32) size s in Ok (VUnit, s')
    | _, _ => Stuck
    end.
  Section Exp.
    Variable call : string -> list rval -> store -> res (rval * store).
    (** Rust's evaluation of an expression, left to right. *)
    Fixpoint run_exp (env : list (string * rval)) (e : rexp) (s : store) : res (rval * store) :=
      let args := fix args (es : list rexp) (s : store) : res (list rval * store) :=
        match es with
        | [] => Ok ([], s)
        | e :: r => let* (v, s1) := run_exp env e s in let* (vs, s2) := args r s1 in Ok (v :: vs, s2)
        end in
      match e with
      | RVar x => let* v := rget (lookup x env) in Ok (v, s)
      | RNum z => Ok (VW (vi32 z), s)
      | RVariant t => Ok (VKind (runtime_enum_value t), s)
      | ROp o es => let* (vs, s1) := args es s in run_op o vs s1
      | RCall f es => let* (vs, s1) := args es s in call f vs s1
      end.
    (** Statements, then the final expression. *)
    Fixpoint run_body (env : list (string * rval)) (ss : list rstmt) (tl : option rexp) (s : store) : res (rval * store) :=
      match ss with
      | [] => match tl with Some e => run_exp env e s | None => Ok (VUnit, s) end
      | RLet x e :: r => let* (v, s1) := run_exp env e s in run_body ((x, v) :: env) r tl s1
      | RDo e :: r => let* (_, s1) := run_exp env e s in run_body env r tl s1
      end.
  End Exp.
  (** Calls nested at most [n] deep. *)
  Fixpoint rcall (n : nat) (f : string) (vs : list rval) (s : store) : res (rval * store) :=
    match n with
    | 0 => Oof
    | S n =>
        let* g := rget (fn_named fns f) in
        if Nat.eqb (List.length vs) (List.length (rf_params g))
        then run_body (rcall n) (combine (map fst (rf_params g)) vs) (rf_body g) (rf_tail g) s
        else Stuck
    end.
  (** An exported function, called from outside. *)
  Definition rust_call (f : string) (vs : list val) (s : store) : res (list val * store) :=
    let* g := rget (fn_named fns f) in
    if rf_export g
    then let* (v, s') := rcall 4 f (map VW vs) s in
         match v with VW w => Ok ([w], s') | VUnit => Ok ([], s') | _ => Stuck end
    else Stuck.
End Run.

(** ** What is assumed of the allocator *)
Definition byte (s : store unit) (i : Z) : Z := match st_mem s with Some m => ms_bytes m i | None => 0 end%Z.
(** Auxiliary: nothing in the repository corresponds to it. *)
Definition set_all_bytes (s : store unit) (m : memst) (f : Z -> Z) : store unit := set_mem s (Some (MemSt (ms_pages m) (ms_max m) f)).
(** A byte of an allocated block. *)
Definition in_blocks (bs : list (Z * Z)) (i : Z) : Prop := exists p n, In (p, n) bs /\ (p <= i < p + n)%Z.
(** The allocator leaves the contents of allocated blocks alone. *)
Definition keeps (bs : list (Z * Z)) (s s' : store unit) : Prop := forall i, in_blocks bs i -> byte s' i = byte s i.
(** Bytes allocated. *)
Fixpoint total (bs : list (Z * Z)) : Z := match bs with [] => 0 | (_, n) :: r => n + total r end%Z.
(** [heap bs s]: in [s] the blocks [bs], given by address and size, are allocated. They lie in
    memory, not at 0, and apart. What is in them is up to their owner. Allocating succeeds while no
    more than [cap] bytes are asked for at once, and neither allocating nor freeing touches the
    contents of other blocks. *)
Record allocates (A : allocator) (heap : list (Z * Z) -> store unit -> Prop) (cap : Z) : Prop := {
  ac_in : forall bs s, heap bs s -> exists m, st_mem s = Some m /\ (ms_pages m <= 65536)%Z /\
    forall p n, In (p, n) bs -> (0 < p /\ 0 < n /\ p + n <= ms_pages m * page_size)%Z;
  ac_apart : forall bs s, heap bs s -> all_apart bs;
  ac_write : forall bs s m p n f, heap bs s -> st_mem s = Some m -> In (p, n) bs ->
    (forall i, ~ (p <= i < p + n)%Z -> f i = ms_bytes m i) -> heap bs (set_all_bytes s m f);
  ac_alloc : forall bs s size align, heap bs s -> (0 < size)%Z -> (total bs + size <= cap)%Z ->
    exists p s', al_alloc A size align s = Ok (p, s') /\ heap ((p, size) :: bs) s' /\ keeps bs s s';
  ac_dealloc : forall bs bs' s p size align, heap (bs ++ (p, size) :: bs') s ->
    exists s', al_dealloc A p size align s = Ok s' /\ heap (bs ++ bs') s' /\ keeps (bs ++ bs') s s' }.
(** Asking for no bytes, which Rust's [GlobalAlloc] does not allow, gives a pointer to nothing. *)
Record allocates_none (A : allocator) (heap : list (Z * Z) -> store unit -> Prop) : Prop := {
  ac_alloc_none : forall bs s align, heap bs s ->
    exists p s', al_alloc A 0 align s = Ok (p, s') /\ (0 <= p < 2 ^ 32)%Z /\ heap bs s' /\ keeps bs s s';
  ac_dealloc_none : forall bs s p align, heap bs s ->
    exists s', al_dealloc A p 0 align s = Ok s' /\ heap bs s' /\ keeps bs s s' }.
(** The library asks for no bytes only for functions without arguments and results. *)
Definition none_asked (sigs : list functy) : Prop := forall ft, In ft sigs -> ft <> FT [] [].
