(** The instrumentation driver: wastrumentation/src/instrument/{mod,function_application}.rs,
    stack_library.rs and the memory helpers of instrument/memory.rs. *)
From Verif Require Export Passes Names Nesting.
Local Open Scope se_scope.

(** function_application.rs L24-26. *)
Definition stack_ns : string := "wastrumentation_stack".
(** [INSTRUMENTATION_ANALYSIS_MODULE], function_application.rs L25. *)
Definition analysis_ns : string := "WASTRUMENTATION_ANALYSIS".
(** [INSTRUMENTATION_INSTRUMENTED_MODULE], function_application.rs L26. *)
Definition instrumented_ns : string := "instrumented_input".

(** [WasmExport] and [WasmImport], analysis/mod.rs L103-116; the namespace of the only
    import, [call_base], is not used by the instrumentation. *)
Record wfun := WF { wf_name : string; wf_args : list numty; wf_results : list numty }.
(** [as_function_type], instrument/mod.rs L332ff. *)
Definition wf_type (e : wfun) : functy := FT (map TNum (wf_args e)) (map TNum (wf_results e)).

(** [AnalysisInterface], analysis/mod.rs L118-203. *)
Record interface := AI { ai_hook : hook -> option wfun; ai_generic : option (wfun * wfun) }.

(** [module.add_function_import]. *)
Definition add_import (ft : functy) (ns name : string) : M nat := add_func (Fn ft (FImport ns name) []).

(** [uses_reference_types], mod.rs L302-316. *)
Definition is_ref (t : valty) : bool := match t with TRef _ => true | TNum _ => false end.
(** [uses_reference_types], mod.rs L302-316. *)
Definition uses_refs (f : func) : bool :=
  existsb is_ref (ft_in (fn_type f)) || existsb is_ref (ft_out (fn_type f)).
(** [function.code().is_some()], as used at mod.rs L138-148. *)
Definition has_code (f : func) : bool := match fn_code f with FPresent _ _ => true | FImport _ _ => false end.

(** Membership of the two target sets, mod.rs L127-148. *)
Definition requested (only : option (list nat)) (i : nat) : bool :=
  match only with None => true | Some ts => existsb (Nat.eqb i) ts end.
(** Targets including imports, mod.rs L127-136. *)
Definition selected_incl (m : module) (only : option (list nat)) (i : nat) : bool :=
  match nth_error (md_funcs m) i with
  | Some f => negb (uses_refs f) && requested only i
  | None => false
  end.
(** Targets with code, mod.rs L138-148. *)
Definition selected (m : module) (only : option (list nat)) (i : nat) : bool :=
  match nth_error (md_funcs m) i with
  | Some f => has_code f && (negb (uses_refs f) && requested only i)
  | None => false
  end.
(** The indices of [module.functions()], mod.rs L127-148. *)
Definition indices (m : module) : list nat := seq 0 (List.length (md_funcs m)).

(** Converting the bodies of the targets, mod.rs L151-162; [infer i] is the external type
    checker on the body of function [i] of the input module. *)
Fixpoint structure_all (infer : nat -> list low -> option (list ity)) (m : module) (is : list nat)
  : conv (list (list tinstr)) :=
  match is with
  | [] => COk []
  | i :: r =>
      match nth_error (md_funcs m) i with
      | Some (Fn _ (FPresent _ body) _) =>
          match structure_typed i (infer i) body with
          | COk b =>
              match structure_all infer m r with
              | COk bs => COk (b :: bs)
              | e => e
              end
          | CErr e => CErr e
          | CPanic => CPanic
          end
      | _ => CPanic
      end
  end.

(** Installing the traps, mod.rs L244-252 and L318-330. *)
Fixpoint install (ai : interface) (hs : list hook) : M (list (hook * nat)) :=
  match hs with
  | [] => se_ret []
  | h :: r =>
      match ai_hook ai h with
      | None => install ai r
      | Some e =>
          f <- add_import (wf_type e) analysis_ns (wf_name e) ;;
          ts <- install ai r ;;
          se_ret ((h, f) :: ts)
      end
  end.

(** Transforming the bodies, mod.rs L254-261. *)
Fixpoint transform_all (ts : list (hook * nat)) (bs : list (list tinstr)) : M (list (list tinstr)) :=
  match bs with
  | [] => se_ret []
  | b :: r =>
      b' <- run_passes ts b ;;
      r' <- transform_all ts r ;;
      se_ret (b' :: r')
  end.

(** Replace function [i]. *)
Fixpoint update {A} (i : nat) (g : A -> A) (l : list A) : list A :=
  match l, i with
  | [], _ => []
  | x :: r, O => g x :: r
  | x :: r, S i' => x :: update i' g r
  end.
(** Assignment to [function.code]. *)
Definition set_code (c : fcode) (f : func) : func := Fn (fn_type f) c (fn_exports f).
(** Assignment of a converted body, mod.rs L263-275; an import is left alone. *)
Definition set_body (body : list low) (f : func) : func :=
  match fn_code f with
  | FPresent locals _ => set_code (FPresent locals body) f
  | FImport _ _ => f
  end.

(** Writing the bodies back, mod.rs L263-275. *)
Fixpoint write_back (is : list nat) (bs : list (list tinstr)) (fs : list func) : list func :=
  match is, bs with
  | i :: is', b :: bs' => write_back is' bs' (update i (set_body (flatten b)) fs)
  | _, _ => fs
  end.

(** ** Call buffers *)

(** [ModuleLinkedStackHooks], stack_library.rs L90-104. *)
Record stack_hooks := SH {
  sh_alloc : nat; sh_free : nat; sh_alloc_types : nat; sh_free_types : nat;
  sh_arg_load : list nat; sh_ret_load : list nat;
  sh_arg_store : list nat; sh_ret_store : list nat; sh_store_rets : nat }.

(** Types of the imports of L113-217. *)
Definition libop_type (ft : functy) (o : libop) : functy :=
  match o with
  | LAlloc => FT (ft_in ft) [t_i32]
  | LFree | LFreeTypes => FT [t_i32] []
  | LAllocTypes => FT [] [t_i32]
  | LLoad SArg i => FT [t_i32] (match nth_error (ft_in ft) i with Some t => [t] | None => [] end)
  | LLoad SRet i => FT [t_i32] (match nth_error (ft_out ft) i with Some t => [t] | None => [] end)
  | LStore SArg i => FT (t_i32 :: match nth_error (ft_in ft) i with Some t => [t] | None => [] end) []
  | LStore SRet i => FT (t_i32 :: match nth_error (ft_out ft) i with Some t => [t] | None => [] end) []
  | LStoreArgs => FT (t_i32 :: ft_in ft) []
  | LStoreRets => FT (t_i32 :: ft_out ft) []
  end.
(** One [module.add_function_import(..)] of stack_library.rs L113-217. *)
Definition import_op (ft : functy) (o : libop) : M nat := add_import (libop_type ft o) stack_ns (op_name ft o).
(** The loops of L145-195. *)
Fixpoint import_ops (ft : functy) (os : list libop) : M (list nat) :=
  match os with
  | [] => se_ret []
  | o :: r => i <- import_op ft o ;; is <- import_ops ft r ;; se_ret (i :: is)
  end.
(** One operation per parameter or result, L145-195. *)
Definition side_ops (mk : nat -> libop) (ts : list valty) : list libop := map mk (seq 0 (List.length ts)).

(** [From<(FunctionType, &mut Module)> for ModuleLinkedStackHooks], L113-217. *)
Definition link_signature (ft : functy) : M stack_hooks :=
  al <- import_op ft LAlloc ;;                                                (* L116-122 *)
  fr <- import_op ft LFree ;;                                                 (* L124-129 *)
  at_ <- import_op ft LAllocTypes ;;                                          (* L131-136 *)
  frt <- import_op ft LFreeTypes ;;                                           (* L138-143 *)
  la <- import_ops ft (side_ops (LLoad SArg) (ft_in ft)) ;;                   (* L145-156 *)
  lr <- import_ops ft (side_ops (LLoad SRet) (ft_out ft)) ;;                  (* L158-169 *)
  sa <- import_ops ft (side_ops (LStore SArg) (ft_in ft)) ;;                  (* L171-182 *)
  sr <- import_ops ft (side_ops (LStore SRet) (ft_out ft)) ;;                 (* L184-195 *)
  sall <- import_op ft LStoreRets ;;                                          (* L197-203 *)
  se_ret (SH al fr at_ frt la lr sa sr sall).

(** The [HashMap<FunctionType, ModuleLinkedStackHooks>] as an association list. *)
Definition links := list (functy * stack_hooks).
(** [HashMap::get], stack_library.rs L24-35 and function_application.rs L61-63. *)
Fixpoint find_link (ls : links) (ft : functy) : option stack_hooks :=
  match ls with
  | [] => None
  | (ft', sh) :: r => if functy_eqb ft ft' then Some sh else find_link r ft
  end.
(** [module.function(idx)]; [None] is its panic. *)
Definition get_func (i : nat) : M func := fun s => match nth_error s i with Some f => Some (f, s) | None => None end.

(** The fold of [StackLibrary::from_module], L24-35. *)
Fixpoint link_all (is : list nat) (acc : links) : M links :=
  match is with
  | [] => se_ret acc
  | i :: r =>
      f <- get_func i ;;
      match find_link acc (fn_type f) with
      | Some _ => link_all r acc
      | None => sh <- link_signature (fn_type f) ;; link_all r (acc ++ [(fn_type f, sh)])
      end
  end.

(** ** Function interception *)

Definition lget (i : nat) : low := LBasic (BLocal LGet i).
(** Instruction [Local(Set, i)]. *)
Definition lset (i : nat) : low := LBasic (BLocal LSet i).
(** Instruction [Call(i)]. *)
Definition lcall (i : nat) : low := LBasic (BCall i).
(** Instruction [Const(Val::I32(z))]. *)
Definition lconst (z : Z) : low := LBasic (BConst TI32 z).

(** The uninstrumented copy, function_application.rs L66-87. *)
Definition copy_of (f : func) : func := Fn (fn_type f) (fn_code f) [].
(** The apply function, L89-112. *)
Definition apply_type : functy := FT [t_i32] [].
(** The apply function, function_application.rs L89-112. *)
Definition apply_fn (sh : stack_hooks) (base : nat) : func :=
  Fn apply_type
     (FPresent [t_i32]
        (lget 0 :: flat_map (fun l => [lget 0; lcall l]) (sh_arg_load sh)
         ++ [lcall base; lcall (sh_store_rets sh); LEnd])) [].
(** The interception body, L117-182. [k]: position in the apply table; [i]: function index. *)
Definition wrapper_body (sh : stack_hooks) (ft : functy) (gapply : nat) (k i argc resc present : Z) : list low :=
  let p := List.length (ft_in ft) in
  map lget (seq 0 p)
  ++ [lcall (sh_alloc sh); lset p; lcall (sh_alloc_types sh); lset (S p);
      lconst k; lconst i; lconst argc; lconst resc; lget p; lget (S p); lconst present; lcall gapply]
  ++ flat_map (fun l => [lget p; lcall l]) (sh_ret_load sh)
  ++ [lget p; lcall (sh_free sh); lget (S p); lcall (sh_free_types sh); LEnd].

(** [*module.function_mut(idx) = ..]; [None] is its panic. *)
Definition set_func (i : nat) (f : func) : M unit :=
  fun s => if Nat.ltb i (List.length s) then Some (tt, update i (fun _ => f) s) else None.

(** One iteration of the loop of L58-183; [k] is [apply_table_funs.len()]. *)
Definition intercept (ls : links) (gapply k i : nat) : M nat :=
  f <- get_func i ;;
  sh <- lift (find_link ls (fn_type f)) ;;                                    (* L61-63 *)
  base <- add_func (copy_of f) ;;
  ap <- add_func (apply_fn sh base) ;;
  argc <- lift (i32_of (List.length (ft_in (fn_type f)))) ;;                  (* L134-136 *)
  resc <- lift (i32_of (List.length (ft_out (fn_type f)))) ;;
  kz <- lift (i32_of k) ;;
  iz <- lift (i32_of i) ;;
  _ <- set_func i (Fn (fn_type f)
         (FPresent [t_i32; t_i32]
            (wrapper_body sh (fn_type f) gapply kz iz argc resc (if has_code f then 0 else 1)%Z))
         (fn_exports f)) ;;
  se_ret ap.
Fixpoint intercept_all (ls : links) (gapply k : nat) (is : list nat) : M (list nat) :=
  match is with
  | [] => se_ret []
  | i :: r => a <- intercept ls gapply k i ;; as_ <- intercept_all ls gapply (S k) r ;; se_ret (a :: as_)
  end.

(** [call_base], L211-229. *)
Definition call_base_fn (e : wfun) (tbl : nat) : func :=
  Fn (wf_type e)
     (FPresent [] [lget 1; lget 0; LBasic (BCallIndirect apply_type tbl); LEnd]) [wf_name e].

(** [function_application::instrument], L31-232, on the functions: apply functions in table
    order and signatures of the buffer library. [tbl]: the index the apply table gets. *)
Definition function_application (is : list nat) (gexp base : wfun) (tbl : nat) : M (list nat * list functy) :=
  g <- add_import (wf_type gexp) analysis_ns (wf_name gexp) ;;
  ls <- link_all is [] ;;
  aps <- intercept_all ls g 0 is ;;
  _ <- lift (if (Z.of_nat (List.length aps) <? 2 ^ 32)%Z then Some tt else None) ;;
  _ <- add_func (call_base_fn base tbl) ;;
  se_ret (aps, map fst ls).

(** The apply table and its element segment, L185-209. *)
Definition apply_table (aps : list nat) : table :=
  Tbl (List.length aps) (Some (List.length aps)) FuncRef None [].
(** The element segment, function_application.rs L197-209. *)
Definition apply_elem (aps : list nat) (tbl : nat) : elem :=
  Elem FuncRef (map (fun a => [LBasic (BRefFunc a); LEnd]) aps)
       (EActive tbl [lconst 0; LEnd]).

(** ** Base memory helpers: memory.rs L373-545 *)
Definition load_helpers : list (string * loadop) :=                           (* L389-407 *)
  [("instrumented_base_load_i32", I32Load); ("instrumented_base_load_i64", I64Load);
   ("instrumented_base_load_f32", F32Load); ("instrumented_base_load_f64", F64Load);
   ("instrumented_base_load_i32_8S", I32Load8S); ("instrumented_base_load_i32_8U", I32Load8U);
   ("instrumented_base_load_i32_16S", I32Load16S); ("instrumented_base_load_i32_16U", I32Load16U);
   ("instrumented_base_load_i64_8S", I64Load8S); ("instrumented_base_load_i64_8U", I64Load8U);
   ("instrumented_base_load_i64_16S", I64Load16S); ("instrumented_base_load_i64_16U", I64Load16U);
   ("instrumented_base_load_i64_32S", I64Load32S); ("instrumented_base_load_i64_32U", I64Load32U)]%string.
Definition store_helpers : list (string * storeop) :=                         (* L447-460 *)
  [("instrumented_base_store_i32", I32Store); ("instrumented_base_store_i64", I64Store);
   ("instrumented_base_store_f32", F32Store); ("instrumented_base_store_f64", F64Store);
   ("instrumented_base_store_i32_8", I32Store8); ("instrumented_base_store_i32_16", I32Store16);
   ("instrumented_base_store_i64_8", I64Store8); ("instrumented_base_store_i64_16", I64Store16);
   ("instrumented_base_store_i64_32", I64Store32)]%string.
(** The export name, memory.rs L489-517. *)
Definition grow_name : string := "instrumented_memory_grow".
(** The export name, memory.rs L519-545. *)
Definition size_name : string := "instrumented_memory_size".

(** [load_type]/[store_type] of the two tables. *)
Definition load_helper_ty (o : loadop) : numty :=
  match o with
  | I32Load | I32Load8S | I32Load8U | I32Load16S | I32Load16U => TI32
  | F32Load => TF32 | F64Load => TF64
  | _ => TI64
  end.
(** [store_type], memory.rs L447-460. *)
Definition store_helper_ty (o : storeop) : numty :=
  match o with
  | I32Store | I32Store8 | I32Store16 => TI32
  | F32Store => TF32 | F64Store => TF64
  | _ => TI64
  end.
(** [Memarg::default]: natural alignment (its exponent), offset 0. *)
Definition load_memarg (o : loadop) : memarg :=
  MA (match o with
      | I32Load8S | I32Load8U | I64Load8S | I64Load8U => 0
      | I32Load16S | I32Load16U | I64Load16S | I64Load16U => 1
      | I32Load | F32Load | I64Load32S | I64Load32U => 2
      | I64Load | F64Load => 3
      end) 0%Z.
(** [Memarg::default] for stores. *)
Definition store_memarg (o : storeop) : memarg :=
  MA (match o with
      | I32Store8 | I64Store8 => 0 | I32Store16 | I64Store16 => 1
      | I32Store | F32Store | I64Store32 => 2 | I64Store | F64Store => 3
      end) 0%Z.

Definition load_helper (mem : bool) (x : string * loadop) : func :=           (* L408-435 *)
  let t := TNum (load_helper_ty (snd x)) in
  Fn (FT [t_i32; t_i32] [t])
     (FPresent []
        (if mem
         then [lget 0; lget 1; LBasic (BBinary I32Add); LBasic (BLoad (snd x) (load_memarg (snd x))); LEnd]
         else [LBasic (BConst (load_helper_ty (snd x)) 0); LEnd]))
     [fst x].
Definition store_helper (mem : bool) (x : string * storeop) : func :=         (* L461-485 *)
  let t := TNum (store_helper_ty (snd x)) in
  Fn (FT [t_i32; t; t_i32] [])
     (FPresent []
        (if mem
         then [lget 0; lget 2; LBasic (BBinary I32Add); lget 1; LBasic (BStore (snd x) (store_memarg (snd x))); LEnd]
         else [LEnd]))
     [fst x].
Definition grow_helper (mem : bool) : func :=                                 (* L489-517 *)
  Fn (FT [t_i32; t_i32] [t_i32])
     (FPresent [] (if mem then [lget 0; LBasic (BMemoryGrow 0); LEnd] else [lconst (2 ^ 32 - 1); LEnd]))
     [grow_name].
Definition size_helper (mem : bool) : func :=                                 (* L519-545 *)
  Fn (FT [t_i32] [t_i32])
     (FPresent [] (if mem then [LBasic (BMemorySize 0); LEnd] else [lconst 0; LEnd]))
     [size_name].
(** All helpers in the order in which they are added, instrument/mod.rs and memory.rs L373-545. *)
Definition memory_helpers (mem : bool) : list func :=
  map (load_helper mem) load_helpers ++ map (store_helper mem) store_helpers
  ++ [grow_helper mem; size_helper mem].

(** [inject_memory_*]; the assertion of L387, L445, L491, L521. *)
Definition inject_memory (mems : nat) : M unit :=
  fun s => if Nat.leb mems 1 then Some (tt, s ++ memory_helpers (Nat.eqb mems 1)) else None.

(** ** [instrument], mod.rs L40-300, between parsing and encoding. [ord_i], [ord_c]: the
    iteration orders of the two hash sets. *)
Inductive iresult := IOk (m : module) (lib : option (list functy)) | IErr (e : lh_error) | IPanic.

(** [instrument], mod.rs L40-300. *)
Definition instrument (ord_i ord_c : list nat -> list nat)
    (infer : nat -> list low -> option (list ity))
    (m : module) (ai : interface) (only : option (list nat)) : iresult :=
  let is_i := ord_i (filter (selected_incl m only) (indices m)) in            (* L127-136 *)
  let is_c := ord_c (filter (selected m only) (indices m)) in                 (* L138-148 *)
  match structure_all infer m is_c with
  | CErr e => IErr e
  | CPanic => IPanic
  | COk bodies =>
      let step1 : M unit :=
        ts <- install ai all_hooks_order ;;
        bs <- transform_all ts bodies ;;
        fun s => Some (tt, write_back is_c bs s) in
      match step1 (md_funcs m) with
      | None => IPanic
      | Some (_, fs1) =>
          match ai_generic ai with
          | None =>
              match inject_memory (List.length (md_mems m)) fs1 with
              | None => IPanic
              | Some (_, fs2) => IOk (set_funcs m fs2) None
              end
          | Some (gexp, base) =>
              let tbl := List.length (md_tables m) in
              match function_application is_i gexp base tbl fs1 with
              | None => IPanic
              | Some ((aps, sigs), fs2) =>
                  match inject_memory (List.length (md_mems m)) fs2 with
                  | None => IPanic
                  | Some (_, fs3) =>
                      IOk (Mod fs3 (md_tables m ++ [apply_table aps]) (md_mems m) (md_globals m)
                               (md_elems m ++ [apply_elem aps tbl]) (md_datas m) (md_start m))
                          (Some sigs)
                  end
              end
          end
      end
  end.
