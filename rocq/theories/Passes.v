(** The instrumentation passes over structured bodies:
    instrument/{block_loop,function_call_indirect,branch_if,simple_operations,memory}.rs
    and the default traversal they share. *)
From Verif Require Export Hooks BrTable.

(** Passes thread the list of functions of the module under transformation
    ([&mut Module]); only the branch-table pass extends it. *)
Definition M (A : Type) : Type := SE (list func) A.
(** Auxiliary: nothing in the repository corresponds to it. *)
Definition lift {A} (o : option A) : M A := fun s => match o with Some a => Some (a, s) | None => None end.
Local Open Scope se_scope.

(** [instrument_with], typed_high_level_body.rs L59-72. Its assertion holds because every
    caller has tested [is_uninstrumented]. *)
Definition gen_meta (m : meta) : meta := Meta (m_fun m) (m_pos m) IUnreach true.
(** A generated instruction: the metadata of the one it stands beside, typed_high_level_body.rs L59-72. *)
Definition gen (m : meta) (b : basic) : tinstr := TBasic (gen_meta m) b.

(** [to_trap_call], L46-55. *)
Definition trap_call (f : nat) (m : meta) : option (list tinstr) :=
  match i64_of (m_pos m) with
  | Some p => Some [gen m (BConst TI64 (Z.of_nat (m_fun m))); gen m (BConst TI64 p); gen m (BCall f)]
  | None => None
  end.

(** Push an [i32] constant obtained by a panicking conversion, then further code. *)
Definition push_i32 (m : meta) (n : nat) : option (list tinstr) :=
  match i32_of n with Some z => Some [gen m (BConst TI32 z)] | None => None end.
(** Push a location operand, typed_high_level_body.rs L51. *)
Definition push_i64 (m : meta) (n : Z) : list tinstr := [gen m (BConst TI64 n)].

(** Auxiliary: nothing in the repository corresponds to it. *)
Definition cat2 (a b : option (list tinstr)) : option (list tinstr) :=
  match a, b with Some x, Some y => Some (x ++ y) | _, _ => None end.

(** [module.add_function], called at branch_if.rs L73-81. *)
Definition add_func (f : func) : M nat := fun s => Some (List.length s, s ++ [f]).

(** Number of inputs and of results, pushed by the block, loop and if hooks. *)
Definition push_arity (m : meta) (ft : functy) : option (list tinstr) :=
  cat2 (push_i32 m (List.length (ft_in ft))) (push_i32 m (List.length (ft_out ft))).

(** Does local/global operator [o] on type [t] match the inferred type? memory.rs L102-205. *)
Definition local_ft (o : localop) (t : numty) : functy :=
  match o with
  | LGet => FT [] [TNum t]
  | LSet => FT [TNum t] []
  | LTee => FT [TNum t] [TNum t]
  end.
(** The type inferred for a global operator, memory.rs L102-205. *)
Definition global_ft (o : globalop) (t : numty) : functy :=
  match o with GGet => FT [] [TNum t] | GSet => FT [TNum t] [] end.
(** Comparison of an inferred type with an expected one, memory.rs L102-205. *)
Definition ity_is (ty : ity) (ft : functy) : bool :=
  match ty with IReach ft' => functy_eqb ft' ft | IUnreach => false end.

(** Derived [PartialEq] of [LocalOp]. *)
Definition localop_eqb (a b : localop) : bool :=
  match a, b with LGet, LGet | LSet, LSet | LTee, LTee => true | _, _ => false end.
(** Derived [PartialEq] of [GlobalOp]. *)
Definition globalop_eqb (a b : globalop) : bool :=
  match a, b with GGet, GGet | GSet, GSet => true | _, _ => false end.
(** Comparison of targets ([target == ..]) in the five passes. *)
Definition hook_eqb (a b : hook) : bool := if hook_eq_dec a b then true else false.

(** What a pass for hook [h] with trap function [f] does with an uninstrumented basic
    instruction; [None]: not a target, the default traversal applies. *)
Definition rewrite_basic (h : hook) (f : nat) (m : meta) (b : basic) : option (M (list tinstr)) :=
  let orig := TBasic m b in
  match h, b with
  | HkSelect, BSelect | HkSelect, BTypedSelect _ =>                           (* block_loop.rs L87-100 *)
      Some (lift (cat2 (trap_call f m) (Some [orig])))
  | HkCallPre, BCall g =>                                                     (* function_call_indirect.rs L37-48 *)
      Some (lift (cat2 (cat2 (push_i32 m g) (trap_call f m)) (Some [orig])))
  | HkCallPost, BCall g =>                                                    (* L49-62 *)
      Some (lift (cat2 (cat2 (Some [orig]) (push_i32 m g)) (trap_call f m)))
  | HkCallIndPre, BCallIndirect _ t =>                                        (* L63-77 *)
      Some (lift (cat2 (cat2 (push_i32 m t) (trap_call f m)) (Some [orig])))
  | HkCallIndPost, BCallIndirect _ t =>                                       (* L78-94 *)
      Some (lift (cat2 (cat2 (Some [orig]) (push_i32 m t)) (trap_call f m)))
  | HkBr, BBr l =>                                                            (* branch_if.rs L56-66 *)
      Some (lift (cat2 (cat2 (Some (push_i64 m (Z.of_nat l))) (trap_call f m)) (Some [orig])))
  | HkBrIf, BBrIf l =>                                                        (* L199-210 *)
      Some (lift (cat2 (cat2 (push_i32 m l) (trap_call f m)) (Some [orig])))
  | HkBrTable, BBrTable table dflt =>                                         (* L67-96 *)
      Some (fn <- lift (br_helper table dflt) ;;
            k <- add_func fn ;;
            lift (cat2 (cat2 (cat2 (Some [gen m (BCall k)]) (push_i32 m dflt)) (trap_call f m)) (Some [orig])))
  | HkReturn, BReturn | HkDrop, BDrop =>                                      (* simple_operations.rs L254-272 *)
      Some (lift (cat2 (trap_call f m) (Some [orig])))
  | HkConst t, BConst t' _ =>                                                 (* L274-280 *)
      if numty_eqb t t' then Some (lift (cat2 (Some [orig]) (trap_call f m))) else None
  | HkUnary _ _, BUnary o =>                                                  (* L282-310 *)
      if hook_eqb h (unop_hook o)
      then Some (lift (cat2 (Some [gen m (BConst TI32 (unop_code o))]) (trap_call f m))) else None
  | HkBinary _, BBinary o =>                                                  (* L312-323 *)
      if hook_eqb h (binop_hook o)
      then Some (lift (cat2 (Some [gen m (BConst TI32 (binop_code o))]) (trap_call f m))) else None
  | HkMemorySize, BMemorySize i =>                                            (* memory.rs L69-80 *)
      Some (lift (cat2 (Some (orig :: push_i64 m (Z.of_nat i))) (trap_call f m)))
  | HkMemoryGrow, BMemoryGrow i =>                                            (* L81-91 *)
      Some (lift (cat2 (Some (push_i64 m (Z.of_nat i))) (trap_call f m)))
  | HkLocal o t, BLocal o' i =>
      if localop_eqb o o' && ity_is (m_ty m) (local_ft o t)
      then match o with
           | LGet =>                                                          (* L106-124 *)
               Some (lift (cat2 (Some (orig :: push_i64 m (Z.of_nat i))) (trap_call f m)))
           | LSet | LTee =>                                                   (* L144-162, L182-199 *)
               Some (lift (cat2 (cat2 (Some (push_i64 m (Z.of_nat i))) (trap_call f m)) (Some [orig])))
           end
      else None
  | HkGlobal o t, BGlobal o' i =>
      if globalop_eqb o o' && ity_is (m_ty m) (global_ft o t)
      then match o with
           | GGet =>                                                          (* L125-143 *)
               Some (lift (cat2 (Some (orig :: push_i64 m (Z.of_nat i))) (trap_call f m)))
           | GSet =>                                                          (* L163-181 *)
               Some (lift (cat2 (cat2 (Some (push_i64 m (Z.of_nat i))) (trap_call f m)) (Some [orig])))
           end
      else None
  | HkStore _, BStore o ma =>                                                 (* L217-227, L263-274 *)
      if hook_eqb h (storeop_hook o)
      then Some (lift (cat2 (Some (push_i64 m (ma_offset ma) ++ [gen m (BConst TI32 (storeop_code o))]))
                            (trap_call f m))) else None
  | HkLoad _, BLoad o ma =>                                                   (* L240-250, L280-296 *)
      if hook_eqb h (loadop_hook o)
      then Some (lift (cat2 (Some (push_i64 m (ma_offset ma) ++ [gen m (BConst TI32 (loadop_code o))]))
                            (trap_call f m))) else None
  | _, _ => None
  end.

Definition map_code (k : list tinstr -> list tinstr) (o : option (list tinstr)) : option (list tinstr) :=
  match o with Some l => Some (k l) | None => None end.

(** What a pass does with a structured instruction, given its already transformed bodies;
    the last case of each is the default traversal's [place_untouched]. *)
Definition wrap_block (h : hook) (f : nat) (m : meta) (ft : functy) (body' : list tinstr) : option (list tinstr) :=
  if m_gen m then Some [TBlock m ft body'] else
  match h with
  | HkBlockPre =>                                                             (* block_loop.rs L31-49 *)
      map_code (fun pre => [TBlock m ft (pre ++ body')]) (cat2 (push_arity m ft) (trap_call f m))
  | HkBlockPost =>                                                            (* L50-58 *)
      map_code (fun post => [TBlock m ft (body' ++ post)]) (trap_call f m)
  | _ => Some [TBlock m ft body']
  end.
Definition wrap_loop (h : hook) (f : nat) (m : meta) (ft : functy) (body' : list tinstr) : option (list tinstr) :=
  if m_gen m then Some [TLoop m ft body'] else
  match h with
  | HkLoopPre =>                                                              (* L59-77 *)
      map_code (fun pre => [TLoop m ft (pre ++ body')]) (cat2 (push_arity m ft) (trap_call f m))
  | HkLoopPost =>                                                             (* L78-86 *)
      map_code (fun post => [TLoop m ft (body' ++ post)]) (trap_call f m)
  | _ => Some [TLoop m ft body']
  end.
Definition wrap_if (h : hook) (f : nat) (m : meta) (ft : functy) (thn' : list tinstr) : option (list tinstr) :=
  if m_gen m then Some [TIf m ft thn' None] else
  match h with
  | HkIfThen =>                                                               (* branch_if.rs L97-119 *)
      map_code (fun pre => pre ++ [TIf m ft thn' None]) (cat2 (push_arity m ft) (trap_call f m))
  | HkIfThenPost =>                                                           (* L120-144 *)
      map_code (fun post => [TIf (gen_meta m) ft (thn' ++ post) (Some post)]) (trap_call f m)
  | _ => Some [TIf m ft thn' None]
  end.
Definition wrap_if_else (h : hook) (f : nat) (m : meta) (ft : functy) (thn' els' : list tinstr)
  : option (list tinstr) :=
  if m_gen m then Some [TIf m ft thn' (Some els')] else
  match h with
  | HkIfThenElse =>                                                           (* L145-171 *)
      map_code (fun pre => pre ++ [TIf m ft thn' (Some els')]) (cat2 (push_arity m ft) (trap_call f m))
  | HkIfThenElsePost =>                                                       (* L172-198 *)
      map_code (fun post => [TIf m ft (thn' ++ post) (Some (els' ++ post))]) (trap_call f m)
  | _ => Some [TIf m ft thn' (Some els')]
  end.

(** One pass over one instruction. The five [transform] functions have the same shape: the
    rewrites above for uninstrumented instructions, then the default traversal
    (block_loop.rs L105-132, function_call_indirect.rs L99-126, branch_if.rs L215-244,
    simple_operations.rs L326-353, memory.rs L300-327). *)
Fixpoint pass1 (h : hook) (f : nat) (i : tinstr) : M (list tinstr) :=
  match i with
  | TBasic m b =>
      match (if m_gen m then None else rewrite_basic h f m b) with
      | Some r => r
      | None => se_ret [i]
      end
  | TBlock m ft body =>
      body' <- se_flat_map (pass1 h f) body ;; lift (wrap_block h f m ft body')
  | TLoop m ft body =>
      body' <- se_flat_map (pass1 h f) body ;; lift (wrap_loop h f m ft body')
  | TIf m ft thn None =>
      thn' <- se_flat_map (pass1 h f) thn ;; lift (wrap_if h f m ft thn')
  | TIf m ft thn (Some els) =>
      thn' <- se_flat_map (pass1 h f) thn ;;
      els' <- se_flat_map (pass1 h f) els ;;
      lift (wrap_if_else h f m ft thn' els')
  end.
(** [transform] on a whole body, instrument/{block_loop,branch_if,function_call_indirect,simple_operations,memory}.rs. *)
Definition pass (h : hook) (f : nat) (body : list tinstr) : M (list tinstr) :=
  se_flat_map (pass1 h f) body.

(** [targets.iter().fold(body, |b, t| t.transform(&b, module))], instrument/mod.rs L254-261. *)
Fixpoint run_passes (ts : list (hook * nat)) (body : list tinstr) : M (list tinstr) :=
  match ts with
  | [] => se_ret body
  | (h, f) :: ts' => body' <- pass h f body ;; run_passes ts' body'
  end.

(** The passes in the order of the trap table, for the hooks that are enabled, with the index
    of the function imported for each: instrument/mod.rs L166-252. *)
Definition passes_of (H : hook -> option nat) : list (hook * nat) :=
  flat_map (fun h => match H h with Some f => [(h, f)] | None => [] end) all_hooks_order.
