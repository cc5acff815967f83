(** The call-buffer library that is generated for AssemblyScript:
    supported-languages/assemblyscript/src/generate/instrumentation/mod.rs and lib_boilerplate.ts
    next to it. The generator writes AssemblyScript text; here it writes the functions that the text
    denotes, with calls still by name and generic functions still generic.

    Left out: [@inline], white space and comments. The AssemblyScript compiler is not modelled:
    [acall] is what the text means, and [as_compiles] what the compiler checks of it. Memory is the
    WebAssembly memory of the library; how many pages it has at the start is up to the compiler. *)
From Verif Require Export Semantics Instrument StackLib StackSpec RustLib.
Local Open Scope string_scope.
Local Open Scope list_scope.
Local Open Scope res_scope.

(** ** AssemblyScript *)
(** Types: WebAssembly types as [Display] prints them (wasm_constructs/mod.rs L41-56), [usize], a
    type parameter, [void]. *)
Inductive aty := AW (t : valty) | AUsize | AParam (x : string) | AVoid.
(** Calls have type arguments. *)
Inductive aexp :=
| AVar (x : string)
| ANum (z : Z)
| ACall (f : string) (ts : list aty) (es : list aexp).
(** Statements of the generated text, generate/instrumentation/mod.rs L107-412. *)
Inductive astmt := AConst (x : string) (e : aexp) | ADo (e : aexp).
(** A function of the generated text. *)
Record afn := AFn {
  af_export : bool; af_name : string; af_generics : list string;
  af_params : list (string * aty); af_ret : aty;
  af_body : list astmt; af_return : option aexp }.

(** ** The fixed part, lib_boilerplate.ts *)
Inductive builtin :=
| BGrow | BTotal | BAllocate | BDeallocate            (* L8-38 *)
| BAllocateOf (size : Z) | BDeallocateOf (size : Z)   (* L40-58, for values (8) and types (4) *)
| BLoadType | BStoreType                              (* L60-68 *)
| BLoad (t : numty) | BStore (t : numty)              (* L69-101 *)
| BLoadAny | BStoreAny.                               (* L103-127, generic *)
(** Exported, name. *)
Definition as_boilerplate : list (bool * string * builtin) :=
  [ (false, "grow_memory", BGrow); (false, "total_used_memory_in_bytes", BTotal);
    (false, "stack_allocate", BAllocate); (false, "stack_deallocate", BDeallocate);
    (false, "stack_allocate_values", BAllocateOf 8); (false, "stack_deallocate_values", BDeallocateOf 8);
    (false, "stack_allocate_types", BAllocateOf 4); (false, "stack_deallocate_types", BDeallocateOf 4);
    (true, "wastrumentation_stack_load_type", BLoadType); (true, "wastrumentation_stack_store_type", BStoreType);
    (true, "wastrumentation_stack_load_i32", BLoad TI32); (true, "wastrumentation_stack_load_f32", BLoad TF32);
    (true, "wastrumentation_stack_load_i64", BLoad TI64); (true, "wastrumentation_stack_load_f64", BLoad TF64);
    (true, "wastrumentation_stack_store_i32", BStore TI32); (true, "wastrumentation_stack_store_f32", BStore TF32);
    (true, "wastrumentation_stack_store_i64", BStore TI64); (true, "wastrumentation_stack_store_f64", BStore TF64);
    (false, "wastrumentation_memory_load", BLoadAny); (false, "wastrumentation_memory_store", BStoreAny) ].

(** ** Per number of results and arguments *)
(** [assemblyscript_generics], L72-76: results first. *)
Definition type_var (s : side) (n : nat) : string := (match s with SArg => "T" | SRet => "R" end ++ decimal n)%string.
(** The names of [assemblyscript_generics], L72-76. *)
Definition as_generics (r a : nat) : list string := map (type_var SRet) (seq 0 r) ++ map (type_var SArg) (seq 0 a).
(** The same names as type arguments, L72-76. *)
Definition as_generic_args (r a : nat) : list aty := map AParam (as_generics r a).
(** [generate_allocate_generic], L107-140; no case of its own for no slots. *)
Definition as_allocate_generic (r a : nat) : afn :=
  AFn false ("allocate_" ++ count_name r a) (as_generics r a) (map (fun n => (arg_var n, AParam (type_var SArg n))) (seq 0 a)) AUsize
    (AConst "stack_begin" (ACall "stack_allocate_values" [] [ANum (Z.of_nat (r + a))])
     :: map (fun n => ADo (ACall "wastrumentation_memory_store" [AParam (type_var SArg n)]
                             [AVar "stack_begin"; AVar (arg_var n); ANum (Z.of_nat (r + n))])) (seq 0 a))
    (Some (AVar "stack_begin")).
(** [generate_allocate_types_buffer_generic], L174-186. *)
Definition as_types_generic (r a : nat) : afn :=
  AFn false ("allocate_signature_types_buffer_" ++ count_name r a) [] [] AUsize
    [AConst "stack_begin" (ACall "stack_allocate_types" [] [ANum (Z.of_nat (r + a))])] (Some (AVar "stack_begin")).
(** [generate_load_generic], L218-247; [arg_index_offset] and [ret_index_offset], L99-105. *)
Definition index_offset (r : nat) (s : side) (n : nat) : Z := Z.of_nat (match s with SArg => r + n | SRet => n end).
(** [generate_load_generic], L218-247. *)
Definition as_load_generic (r a : nat) (s : side) (n : nat) : afn :=
  AFn false (load_count_name s n r a) (as_generics r a) [("stack_ptr", AUsize)] (AParam (type_var s n)) []
    (Some (ACall "wastrumentation_memory_load" [AParam (type_var s n)] [AVar "stack_ptr"; ANum (index_offset r s n)])).
(** [generate_store_generic], L289-318. *)
Definition as_store_generic (r a : nat) (s : side) (n : nat) : afn :=
  AFn false (store_count_name s n r a) (as_generics r a) [("stack_ptr", AUsize); (slot_var s n, AParam (type_var s n))] AVoid []
    (Some (ACall "wastrumentation_memory_store" [AParam (type_var s n)]
             [AVar "stack_ptr"; AVar (slot_var s n); ANum (index_offset r s n)])).
(** [generate_free_values_buffer_generic], L359-375, and [generate_free_types_buffer_generic], L389-401. *)
Definition as_free_generic (r a : nat) : afn :=
  AFn false ("free_values_" ++ count_name r a) (as_generics r a) [("ptr", AUsize)] AVoid
    [ADo (ACall "stack_deallocate_values" [] [AVar "ptr"; ANum (Z.of_nat (r + a))])] None.
(** [generate_free_types_buffer_generic], L389-401. *)
Definition as_free_types_generic (r a : nat) : afn :=
  AFn false ("free_types_" ++ count_name r a) [] [("ptr", AUsize)] AVoid
    [ADo (ACall "stack_deallocate_types" [] [AVar "ptr"; ANum (Z.of_nat (r + a))])] None.
(** [generate_store_rets_generic], L414-449. *)
Definition as_store_rets_generic (r a : nat) : afn :=
  AFn false ("store_rets_" ++ count_name r a) (as_generics r a)
    (("stack_ptr", AUsize) :: map (fun n => (arg_var n, AParam (type_var SRet n))) (seq 0 r)) AVoid
    (map (fun n => ADo (ACall (store_count_name SRet n r a) (as_generic_args r a) [AVar "stack_ptr"; AVar (arg_var n)])) (seq 0 r)) None.
(** In the order of L508-516. *)
Definition as_generic (r a : nat) : list afn :=
  [as_allocate_generic r a]
  ++ map (as_load_generic r a SArg) (seq 0 a) ++ map (as_load_generic r a SRet) (seq 0 r)
  ++ map (as_store_generic r a SArg) (seq 0 a) ++ map (as_store_generic r a SRet) (seq 0 r)
  ++ [as_free_generic r a; as_store_rets_generic r a; as_types_generic r a; as_free_types_generic r a].

(** ** Per signature *)
Section Special.
  Variable ft : functy.
  Notation r := (List.length (ft_out ft)).
  Notation a := (List.length (ft_in ft)).
  Definition as_typed (ts : list valty) : list (string * aty) := map (fun it => (arg_var (fst it), AW (snd it))) (enum ts).
  (** The arguments passed on by the specialised functions. *)
  Definition as_args (ts : list valty) : list aexp := map (fun it => AVar (arg_var (fst it))) (enum ts).
  (** [assemblyscript_comma_separated_types], L46-59. *)
  Definition as_types : list aty := map AW (ft_out ft ++ ft_in ft).
  (** [generate_allocate_specialized], L142-172. *)
  Definition as_allocate : afn :=
    AFn true (op_name ft LAlloc) [] (as_typed (ft_in ft)) AUsize []
      (Some (ACall ("allocate_" ++ count_name r a) as_types (as_args (ft_in ft)))).
  (** [generate_load_specialized], L249-287. *)
  Definition as_load (s : side) (it : nat * valty) : afn :=
    AFn true (op_name ft (LLoad s (fst it))) [] [("stack_ptr", AUsize)] (AW (snd it)) []
      (Some (ACall (load_count_name s (fst it) r a) as_types [AVar "stack_ptr"])).
  (** [generate_store_specialized], L320-357. *)
  Definition as_store (s : side) (it : nat * valty) : afn :=
    AFn true (op_name ft (LStore s (fst it))) [] [("stack_ptr", AUsize); (arg_var (fst it), AW (snd it))] AVoid []
      (Some (ACall (store_count_name s (fst it) r a) as_types [AVar "stack_ptr"; AVar (arg_var (fst it))])).
  (** [generate_free_values_buffer_specialized], L377-387, and [generate_free_types_buffer_specialized], L403-412. *)
  Definition as_free : afn :=
    AFn true (op_name ft LFree) [] [("ptr", AUsize)] AVoid []
      (Some (ACall ("free_values_" ++ count_name r a) as_types [AVar "ptr"])).
  (** [generate_free_types_buffer_specialized], L403-412. *)
  Definition as_free_types : afn :=
    AFn true (op_name ft LFreeTypes) [] [("ptr", AUsize)] AVoid []
      (Some (ACall ("free_types_" ++ count_name r a) [] [AVar "ptr"])).
  (** [generate_store_rets_specialized], L451-487. *)
  Definition as_store_rets : afn :=
    AFn true (op_name ft LStoreRets) [] (("stack_ptr", AUsize) :: as_typed (ft_out ft)) AVoid []
      (Some (ACall ("store_rets_" ++ count_name r a) as_types (AVar "stack_ptr" :: as_args (ft_out ft)))).
  (** [generate_allocate_types_buffer_specialized], L188-216. *)
  Definition as_allocate_types : afn :=
    AFn true (op_name ft LAllocTypes) [] [] AUsize
      (AConst "types_buffer" (ACall ("allocate_signature_types_buffer_" ++ count_name r a) [] [])
       :: map (fun it => ADo (ACall "wastrumentation_stack_store_type" []
                                [AVar "types_buffer"; ANum (Z.of_nat (fst it)); ANum (runtime_enum_value (snd it))]))
            (enum (ft_out ft ++ ft_in ft)))
      (Some (AVar "types_buffer")).
  (** In the order of L521-529. *)
  Definition as_special : list afn :=
    [as_allocate]
    ++ map (as_load SArg) (enum (ft_in ft)) ++ map (as_load SRet) (enum (ft_out ft))
    ++ map (as_store SArg) (enum (ft_in ft)) ++ map (as_store SRet) (enum (ft_out ft))
    ++ [as_free; as_store_rets; as_allocate_types; as_free_types].
End Special.

(** [generate_lib_for], L497-536; the boilerplate comes before it, [generate_lib], L491-495. *)
Fixpoint as_lib_for (counts : list (nat * nat)) (done sigs : list functy) : list afn :=
  match sigs with
  | [] => []
  | ft :: rest =>
      (if existsb (count_eqb (ft_count ft)) counts then [] else as_generic (List.length (ft_out ft)) (List.length (ft_in ft)))
      ++ (if existsb (functy_eqb ft) done then [] else as_special ft)
      ++ as_lib_for (ft_count ft :: counts) (ft :: done) rest
  end.
(** [generate_lib_for], L497-536, from empty sets. *)
Definition as_lib (sigs : list functy) : list afn := as_lib_for [] [] sigs.

(** ** What the compiler checks *)
Definition afn_named (fns : list afn) (f : string) : option afn := find (fun g => String.eqb f (af_name g)) fns.
(** Look-up among the functions of lib_boilerplate.ts. *)
Definition boiler_named (f : string) : option (bool * string * builtin) := find (fun b => String.eqb f (snd (fst b))) as_boilerplate.
(** [ref_func] and [ref_extern] are not types. [usize] is [i32] in WebAssembly; the language
    converts between the two on its own. *)
Definition resolve (te : list (string * valty)) (t : aty) : option valty :=
  match t with
  | AW (TNum n) => Some (TNum n)
  | AW (TRef _) => None
  | AUsize => Some t_i32
  | AParam x => lookup x te
  | AVoid => None
  end.
(** Auxiliary: nothing in the repository corresponds to it. Types of parameters under type arguments. *)
Fixpoint resolves (te : list (string * valty)) (ts : list aty) : option (list valty) :=
  match ts with
  | [] => Some []
  | t :: r => match resolve te t, resolves te r with Some u, Some us => Some (u :: us) | _, _ => None end
  end.
(** Auxiliary: nothing in the repository corresponds to it. The same for the result type. *)
Definition resolve_ret (te : list (string * valty)) (t : aty) : option (list valty) :=
  match t with AVoid => Some [] | _ => match resolve te t with Some u => Some [u] | None => None end end.
(** Parameters and results of the fixed part, for type arguments. The generic functions end in
    [unreachable], L113 and L126, but a type is one of the four that are asked for. *)
Definition builtin_sig (b : builtin) (ts : list valty) : option (list valty * list valty) :=
  match b, ts with
  | BGrow, [] => Some ([], [])
  | BTotal, [] => Some ([], [t_i32])
  | BAllocate, [] | BAllocateOf _, [] => Some ([t_i32], [t_i32])
  | BDeallocate, [] | BDeallocateOf _, [] => Some ([t_i32; t_i32], [])
  | BLoadType, [] => Some ([t_i32; t_i32], [t_i32])
  | BStoreType, [] => Some ([t_i32; t_i32; t_i32], [])
  | BLoad t, [] => Some ([t_i32; t_i32], [TNum t])
  | BStore t, [] => Some ([t_i32; TNum t; t_i32], [])
  | BLoadAny, [TNum t] => Some ([t_i32; t_i32], [TNum t])
  | BStoreAny, [TNum t] => Some ([t_i32; TNum t; t_i32], [])
  | _, _ => None
  end.
Section Types.
  Variable fns : list afn.
  Section Exp.
    (** Parameters and results of a function for type arguments, if it compiles for them. *)
    Variable inst : string -> list valty -> option (list valty * list valty).
    Variable te : list (string * valty).
    Fixpoint type_aexp (env : list (string * valty)) (e : aexp) : option (list valty) :=
      let args := fix args (es : list aexp) : option (list valty) :=
        match es with
        | [] => Some []
        | e :: r => match type_aexp env e, args r with Some [t], Some ts => Some (t :: ts) | _, _ => None end
        end in
      match e with
      | AVar x => match lookup x env with Some t => Some [t] | None => None end
      | ANum z => if ((0 <=? z) && (z <? 2 ^ 32))%Z then Some [t_i32] else None
      | ACall f ts es =>
          match resolves te ts with
          | Some us =>
              match inst f us, args es with
              | Some (ps, r), Some qs => if list_eqb valty_eqb ps qs then Some r else None
              | _, _ => None
              end
          | None => None
          end
      end.
    (** The compiler's check of a body (AssemblyScript, not repository code). *)
    Fixpoint type_abody (env : list (string * valty)) (ss : list astmt) (ret : option aexp) : option (list valty) :=
      match ss with
      | [] => match ret with Some e => type_aexp env e | None => Some [] end
      | AConst x e :: r => match type_aexp env e with Some [t] => type_abody ((x, t) :: env) r ret | _ => None end
      | ADo e :: r => match type_aexp env e with Some _ => type_abody env r ret | None => None end
      end.
  End Exp.
  (** Calls nested at most [n] deep. *)
  Fixpoint instance (n : nat) (f : string) (ts : list valty) : option (list valty * list valty) :=
    match n with
    | 0 => None
    | S n =>
        match afn_named fns f with
        | Some g =>
            let te := combine (af_generics g) ts in
            if Nat.eqb (List.length ts) (List.length (af_generics g)) && distinct_strs (af_generics g) && distinct_strs (map fst (af_params g)) then
              match resolves te (map snd (af_params g)), resolve_ret te (af_ret g) with
              | Some ps, Some r =>
                  match type_abody (instance n) te (combine (map fst (af_params g)) ps) (af_body g) (af_return g) with
                  | Some r' => if list_eqb valty_eqb r' r then Some (ps, r) else None
                  | None => None
                  end
              | _, _ => None
              end
            else None
        | None => match boiler_named f with Some (_, _, b) => builtin_sig b ts | None => None end
        end
    end.
  (** Is a function marked [export] in the generated text? *)
  Definition as_exported (f : string) : bool :=
    match afn_named fns f with Some g => af_export g | None => match boiler_named f with Some (x, _, _) => x | None => false end end.
  (** The type of an exported function. *)
  Definition as_export_type (f : string) : option functy :=
    if as_exported f then match instance 4 f [] with Some (ps, r) => Some (FT ps r) | None => None end else None.
End Types.
(** The library compiles: no two functions with one name, and every exported function compiles,
    with the instances that it needs. *)
Definition as_compiles (fns : list afn) : bool :=
  distinct_strs (map (fun b => snd (fst b)) as_boilerplate ++ map af_name fns)
  && forallb (fun g => negb (af_export g) || match as_export_type fns (af_name g) with Some _ => true | None => false end) fns.

(** ** What it does *)
Section Run.
  Notation store := (store unit).
  Notation res := (res store).
  (** How often a loop may go round. *)
  Variable N : nat.
  Variable fns : list afn.

  (** [$STACK_FREE_PTR] and [$TOTAL_MEMORY], L1-2, are the globals. *)
  Definition as_global (i : nat) (s : store) : res Z :=
    match nth_error (st_globals s) i with Some (VNum TI32 z) => Ok z | _ => Stuck end.
  (** Assignment to a global of lib_boilerplate.ts. *)
  Definition as_set_global (i : nat) (z : Z) (s : store) : store := set_globals s (set_nth i (vi32 (z mod 2 ^ 32)) (st_globals s)).
  (** [grow_memory], L8-17. *)
  Definition as_grow (s : store) : res store :=
    let* m := rget (st_mem s) in
    let (prev, m') := mem_grow m 1 in
    if (prev =? 2 ^ 32 - 1)%Z then Trap s
    else let* t := as_global 1 s in Ok (as_set_global 1 (t + 1) (set_mem s (Some m'))).
  (** [total_used_memory_in_bytes], L20-23. *)
  Definition as_total (s : store) : res Z := let* t := as_global 1 s in Ok ((t * 65536) mod 2 ^ 32)%Z.
  (** [while (after > total_used_memory_in_bytes()) grow_memory();], L29. *)
  Fixpoint as_grow_to (n : nat) (after : Z) (s : store) : res store :=
    match n with
    | 0 => Oof
    | S n => let* t := as_total s in
             if (after >? t)%Z then let* s' := as_grow s in as_grow_to n after s' else Ok s
    end.
  (** [stack_allocate], L26-32, and [stack_deallocate], L35-37. *)
  Definition as_allocate_bytes (b : Z) (s : store) : res (Z * store) :=
    let* p := as_global 0 s in
    let* s' := as_grow_to N ((p + b) mod 2 ^ 32)%Z s in
    Ok (p, as_set_global 0 (p + b) s').
  (** [stack_deallocate], lib_boilerplate.ts L35-37. *)
  Definition as_deallocate_bytes (b : Z) (s : store) : res store :=
    let* p := as_global 0 s in Ok (as_set_global 0 (p - b) s).
  (** [load<T>] and [store<T>] of [ptr + offset * size]. *)
  Definition load_of (t : numty) : loadop := match t with TI32 => I32Load | TI64 => I64Load | TF32 => F32Load | TF64 => F64Load end.
  (** The instruction of [store<T>] (AssemblyScript, not repository code). *)
  Definition store_of (t : numty) : storeop := match t with TI32 => I32Store | TI64 => I64Store | TF32 => F32Store | TF64 => F64Store end.
  (** [ptr + offset * size] on [usize]. *)
  Definition as_addr (p k size : Z) : Z := ((p + (k * size) mod 2 ^ 32) mod 2 ^ 32)%Z.
  (** [load<T>]. *)
  Definition as_read (t : numty) (a : Z) (s : store) : res (list val * store) :=
    let* m := rget (st_mem s) in
    match mem_load m (load_of t) a with Some z => Ok ([VNum t z], s) | None => Trap s end.
  (** [store<T>]. *)
  Definition as_write (t : numty) (a z : Z) (s : store) : res (list val * store) :=
    let* m := rget (st_mem s) in
    match mem_store m (store_of t) a z with Some m' => Ok ([], set_mem s (Some m')) | None => Trap s end.
  (** The functions of lib_boilerplate.ts. *)
  Definition run_builtin (b : builtin) (ts : list valty) (vs : list val) (s : store) : res (list val * store) :=
    match b, ts, vs with
    | BGrow, [], [] => let* s' := as_grow s in Ok ([], s')
    | BTotal, [], [] => let* t := as_total s in Ok ([vi32 t], s)
    | BAllocate, [], [VNum TI32 b] => let* (p, s') := as_allocate_bytes b s in Ok ([vi32 p], s')
    | BDeallocate, [], [VNum TI32 _; VNum TI32 b] => let* s' := as_deallocate_bytes b s in Ok ([], s')
    | BAllocateOf size, [], [VNum TI32 k] => let* (p, s') := as_allocate_bytes ((k * size) mod 2 ^ 32) s in Ok ([vi32 p], s')
    | BDeallocateOf size, [], [VNum TI32 _; VNum TI32 k] => let* s' := as_deallocate_bytes ((k * size) mod 2 ^ 32) s in Ok ([], s')
    | BLoadType, [], [VNum TI32 p; VNum TI32 k] => as_read TI32 (as_addr p k 4) s
    | BStoreType, [], [VNum TI32 p; VNum TI32 k; VNum TI32 z] => as_write TI32 (as_addr p k 4) z s
    | BLoad t, [], [VNum TI32 p; VNum TI32 k] | BLoadAny, [TNum t], [VNum TI32 p; VNum TI32 k] => as_read t (as_addr p k 8) s
    | BStore t, [], [VNum TI32 p; VNum t' z; VNum TI32 k] | BStoreAny, [TNum t], [VNum TI32 p; VNum t' z; VNum TI32 k] =>
        if numty_eqb t t' then as_write t (as_addr p k 8) z s else Stuck
    | _, _, _ => Stuck
    end.
  Section Exp.
    Variable call : string -> list valty -> list val -> store -> res (list val * store).
    Variable te : list (string * valty).
    (** Expressions, left to right. *)
    Fixpoint run_aexp (env : list (string * val)) (e : aexp) (s : store) : res (list val * store) :=
      let args := fix args (es : list aexp) (s : store) : res (list val * store) :=
        match es with
        | [] => Ok ([], s)
        | e :: r => let* (v, s1) := run_aexp env e s in let* (vs, s2) := args r s1 in
                    match v with [w] => Ok (w :: vs, s2) | _ => Stuck end
        end in
      match e with
      | AVar x => let* v := rget (lookup x env) in Ok ([v], s)
      | ANum z => Ok ([vi32 z], s)
      | ACall f ts es => let* us := rget (resolves te ts) in let* (vs, s1) := args es s in call f us vs s1
      end.
    (** Statements, then the returned expression. *)
    Fixpoint run_abody (env : list (string * val)) (ss : list astmt) (ret : option aexp) (s : store) : res (list val * store) :=
      match ss with
      | [] => match ret with Some e => run_aexp env e s | None => Ok ([], s) end
      | AConst x e :: r => let* (v, s1) := run_aexp env e s in match v with [w] => run_abody ((x, w) :: env) r ret s1 | _ => Stuck end
      | ADo e :: r => let* (_, s1) := run_aexp env e s in run_abody env r ret s1
      end.
  End Exp.
  (** Calls nested at most [n] deep. *)
  Fixpoint acall (n : nat) (f : string) (ts : list valty) (vs : list val) (s : store) : res (list val * store) :=
    match n with
    | 0 => Oof
    | S n =>
        match afn_named fns f with
        | Some g =>
            if Nat.eqb (List.length ts) (List.length (af_generics g)) && Nat.eqb (List.length vs) (List.length (af_params g))
            then run_abody (acall n) (combine (af_generics g) ts) (combine (map fst (af_params g)) vs) (af_body g) (af_return g) s
            else Stuck
        | None => match boiler_named f with Some (_, _, b) => run_builtin b ts vs s | None => Stuck end
        end
    end.
  (** An exported function, called from outside. *)
  Definition as_call (f : string) (vs : list val) (s : store) : res (list val * store) :=
    if as_exported fns f then acall 4 f [] vs s else Stuck.
End Run.

(** At the start: no buffers, [p] pages of memory, with any contents, of at most [mx]. *)
Definition as_start (p mx : Z) (f : Z -> Z) : store unit := St (Some (MemSt p mx f)) [vi32 0; vi32 0] [] [] [] tt.
