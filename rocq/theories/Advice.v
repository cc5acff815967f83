(** Specification of instrumented execution: an interpreter of the *original* module that
    consults the analysis at the documented points. It mentions no instrumented code: the
    hook functions, their operands and the use of their answers follow the interface of
    analysis/mod.rs and its comments. *)
From Verif Require Export Semantics Hooks Names Instrument.
Local Open Scope res_scope.

(** ** The standard interface *)
(** The [interface_*] functions, analysis/mod.rs L205-330. *)
Definition std_hook (h : hook) : wfun := WF (trap_name h) (trap_args h) (trap_results h).
(** The trap called for every intercepted call, [interface_generic_apply], analysis/mod.rs L206-226. *)
Definition generic_apply : wfun := WF "generic_apply" [TI32; TI32; TI32; TI32; TI32; TI32; TI32] [].
(** The function it can call back, same place (L217-223). *)
Definition call_base : wfun := WF "call_base" [TI32; TI32] [].
(** The interface with the given hooks, with or without function interception. *)
Definition std_ai (on : hook -> bool) (generic : bool) : interface :=
  AI (fun h => if on h then Some (std_hook h) else None)
     (if generic then Some (generic_apply, call_base) else None).

(** What can be called: functions of the module, their own code without interception,
    resuming an intercepted function, imports, and the functions provided to the analysis. *)
Inductive callee :=
| CFun (f : nat) | CBase (f : nat) | CApply (f : nat)
| CImport (ft : functy) (ns name : string)
| CCallBase | CLoad (o : loadop) | CStore (o : storeop) | CGrow | CSize.

(** Position of the first occurrence. *)
Fixpoint position (f : nat) (l : list nat) : option nat :=
  match l with
  | [] => None
  | x :: r => if Nat.eqb f x then Some 0 else option_map S (position f r)
  end.

Section Consult.
  Context {X : Type}.
  Notation store := (store X).
  Notation res := (res store).
  Variable num1 : unop -> Z -> option Z.
  Variable num2 : binop -> Z -> Z -> option Z.
  Variable on : hook -> bool.
  Variable ftype : nat -> option functy.
  Variable call : nat -> list val -> store -> res (list val * store).
  (** Call of an analysis hook. *)
  Variable hook_call : hook -> list val -> store -> res (list val * store).
  (** Bound on nested calls and on loop iterations. *)
  Variable fuel : nat.

  Notation exec := (exec num1 num2 ftype call).

  (** Location of the instruction, the last two arguments of every hook. *)
  Definition loc (m : meta) : list val := [vi64 (Z.of_nat (m_fun m)); vi64 (Z.of_nat (m_pos m))].

  (** If the hook is enabled: call it on [k] operands taken from the stack, the given constants
      and the location; its results go on the stack. *)
  Definition consult (h : hook) (k : nat) (consts : list val) (m : meta) (st ls : list val) (s : store) : res conf :=
    if on h then
      let* (ops, st') := rget (popn k st) in
      let* (rs, s') := hook_call h (ops ++ consts ++ loc m) s in
      next (pushn rs st') ls s'
    else next st ls s.
  (** Specification of what the passes insert before an instruction: instrument/simple_operations.rs, memory.rs, branch_if.rs. *)
  Definition before (h : hook) (k : nat) (consts : list val) (m : meta) (b : basic) st ls s : res conf :=
    andthen (consult h k consts m st ls s) (exec b).
  (** The same for hooks that run after the instruction (function_call.rs, function_call_indirect.rs). *)
  Definition after (h : hook) (k : nat) (consts : list val) (m : meta) (b : basic) st ls s : res conf :=
    andthen (exec b st ls s) (consult h k consts m).
  (** The analysis performs the operation. *)
  Definition instead_of (h : hook) (k : nat) (consts : list val) (m : meta) (b : basic) st ls s : res conf :=
    if on h then consult h k consts m st ls s else exec b st ls s.

  (** The hook for a binary operator: instrument/simple_operations.rs L57-205, by operand and result types. *)
  Definition binary_hook (o : binop) : option hook :=
    match binop_in o, binop_out o with
    | TI32, TI32 => Some (HkBinary BkI32) | TI64, TI64 => Some (HkBinary BkI64)
    | TF32, TF32 => Some (HkBinary BkF32) | TF64, TF64 => Some (HkBinary BkF64)
    | TI64, TI32 => Some (HkBinary BkI64I32) | TF32, TI32 => Some (HkBinary BkF32I32)
    | TF64, TI32 => Some (HkBinary BkF64I32) | _, _ => None
    end.

  (** The type annotation computed before execution agrees with the values met. *)
  Definition annotated (m : meta) (ft : functy) : bool :=
    match m_ty m with IReach ft' => functy_eqb ft' ft | IUnreach => false end.

  (** Location operands are pushed as [i64], typed_high_level_body.rs L51. *)
  Definition i64n (n : nat) : val := vi64 (Z.of_nat n).
  (** Indices are pushed as [i32], panicking above 2^31 - 1. *)
  Definition i32n (n : nat) : val := vi32 (Z.of_nat n).

  (** One instruction under the hooks. Specification; the code is Passes.v. *)
  Definition advise (m : meta) (b : basic) (st ls : list val) (s : store) : res conf :=
    match b with
    | BSelect | BTypedSelect _ => before HkSelect 1 [] m b st ls s
    | BCall g =>
        andthen (before HkCallPre 0 [i32n g] m b st ls s) (consult HkCallPost 0 [i32n g] m)
    | BCallIndirect _ t =>
        andthen (before HkCallIndPre 1 [i32n t] m b st ls s) (consult HkCallIndPost 0 [i32n t] m)
    | BBr l => before HkBr 0 [i64n l] m b st ls s
    | BBrIf l => before HkBrIf 1 [i32n l] m b st ls s
    | BBrTable table d =>
        if on HkBrTable then
          let* (i, st') := pop_i32 st in
          if (i <? 0)%Z then Stuck else  (* not a bit pattern *)
          match fuel with
          | O => Oof                     (* the generated helper is a nested call *)
          | S _ =>
              let label := nth (Z.to_nat i) table d in
              let* (rs, s') := hook_call HkBrTable ([vi32 i; i32n label; i32n d] ++ loc m) s in
              exec b (pushn rs st') ls s'
          end
        else exec b st ls s
    | BReturn => before HkReturn 0 [] m b st ls s
    | BDrop => before HkDrop 0 [] m b st ls s
    | BConst t _ => after (HkConst t) 1 [] m b st ls s
    | BUnary o => instead_of (HkUnary (unop_in o) (unop_out o)) 1 [vi32 (unop_code o)] m b st ls s
    | BBinary o =>
        match binary_hook o with
        | Some h => instead_of h 2 [vi32 (binop_code o)] m b st ls s
        | None => Stuck
        end
    | BMemorySize i => after HkMemorySize 1 [i64n i] m b st ls s
    | BMemoryGrow i => instead_of HkMemoryGrow 1 [i64n i] m b st ls s
    | BLocal LGet i =>
        let* v := rget (nth_error ls i) in
        if annotated m (FT [] [typeof v]) then
          match typeof v with
          | TNum t => after (HkLocal LGet t) 1 [i64n i] m b st ls s
          | TRef _ => exec b st ls s
          end
        else Stuck
    | BLocal LSet i =>
        let* v := rget (hd_error st) in
        if annotated m (FT [typeof v] []) then
          match typeof v with
          | TNum t => before (HkLocal LSet t) 1 [i64n i] m b st ls s
          | TRef _ => exec b st ls s
          end
        else Stuck
    | BLocal LTee i =>
        let* v := rget (hd_error st) in
        if annotated m (FT [typeof v] [typeof v]) then
          match typeof v with
          | TNum t => before (HkLocal LTee t) 1 [i64n i] m b st ls s
          | TRef _ => exec b st ls s
          end
        else Stuck
    | BGlobal GGet i =>
        let* v := rget (nth_error (st_globals s) i) in
        if annotated m (FT [] [typeof v]) then
          match typeof v with
          | TNum t => after (HkGlobal GGet t) 1 [i64n i] m b st ls s
          | TRef _ => exec b st ls s
          end
        else Stuck
    | BGlobal GSet i =>
        let* v := rget (hd_error st) in
        if annotated m (FT [typeof v] []) then
          match typeof v with
          | TNum t => before (HkGlobal GSet t) 1 [i64n i] m b st ls s
          | TRef _ => exec b st ls s
          end
        else Stuck
    | BStore o ma =>
        instead_of (HkStore (storeop_ty o)) 2 [vi64 (ma_offset ma); vi32 (storeop_code o)] m b st ls s
    | BLoad o ma =>
        instead_of (HkLoad (loadop_ty o)) 1 [vi64 (ma_offset ma); vi32 (loadop_code o)] m b st ls s
    | _ => exec b st ls s
    end.

  Definition arities (ft : functy) : list val := [i32n (List.length (ft_in ft)); i32n (List.length (ft_out ft))].

  (** Structured instructions: hooks on entry (every iteration of a loop), and on leaving a body
      by falling through its end. *)
  Definition inside (pre post : list val -> list val -> store -> res conf)
      (body : list val -> list val -> store -> res conf) st ls s : res conf :=
    andthen (pre st ls s) (fun st ls s => andthen (body st ls s) post).

  (** Specification of block_loop.rs and branch_if.rs on structured instructions. *)
  Fixpoint advised1 (i : tinstr) (st ls : list val) (s : store) : res conf :=
    match i with
    | TBasic m b => advise m b st ls s
    | TBlock m ft body =>
        run_block (inside (consult HkBlockPre 0 (arities ft) m) (consult HkBlockPost 0 [] m)
                          (run_seq advised1 body)) ft st ls s
    | TLoop m ft body =>
        run_loop fuel (inside (consult HkLoopPre 0 (arities ft) m) (consult HkLoopPost 0 [] m)
                              (run_seq advised1 body)) ft st ls s
    | TIf m ft thn None =>
        andthen (consult HkIfThen 1 (arities ft) m st ls s) (fun st ls s =>
          let* (c, st') := pop_i32 st in
          let post := consult HkIfThenPost 0 [] m in
          if (c =? 0)%Z then run_block post ft st' ls s
          else run_block (inside next post (run_seq advised1 thn)) ft st' ls s)
    | TIf m ft thn (Some els) =>
        andthen (consult HkIfThenElse 1 (arities ft) m st ls s) (fun st ls s =>
          let* (c, st') := pop_i32 st in
          let post := consult HkIfThenElsePost 0 [] m in
          if (c =? 0)%Z then run_block (inside next post (run_seq advised1 els)) ft st' ls s
          else run_block (inside next post (run_seq advised1 thn)) ft st' ls s)
    end.
  (** Auxiliary: nothing in the repository corresponds to it. *)
  Definition advised (body : list tinstr) := run_seq advised1 body.
End Consult.

Section Spec.
  Context {X : Type}.
  Notation store := (store X).
  Notation res := (res store).
  Variable num1 : unop -> Z -> option Z.
  Variable num2 : binop -> Z -> Z -> option Z.
  Variable ext : string -> string -> list val -> xprog X.
  (** The type checker's annotations. *)
  Variable infer : nat -> list low -> option (list ity).
  Variable m : module.
  Variable on : hook -> bool.
  Variable generic : bool.
  Variable only : option (list nat).
  (** The intercepted functions, in the order of the apply table. *)
  Variable is : list nat.

  Definition has_memory : bool := Nat.eqb (List.length (md_mems m)) 1.

  (** Names the analysis, the buffer library and the host can call. *)
  Definition named {A} (name : string) (l : list (string * A)) : option A :=
    option_map snd (find (fun x => String.eqb name (fst x)) l).
  (** Exports of the output module: those of the input, and the ones of function_application.rs L227-229 and memory.rs L432-545. *)
  Definition export_callee (name : string) : option callee :=
    match export_index 0 (md_funcs m) name with
    | Some f => Some (CFun f)
    | None =>
        if generic && String.eqb name "call_base" then Some CCallBase else
        match named name load_helpers with
        | Some o => Some (CLoad o)
        | None =>
            match named name store_helpers with
            | Some o => Some (CStore o)
            | None =>
                if String.eqb name grow_name then Some CGrow
                else if String.eqb name size_name then Some CSize else None
            end
        end
    end.

  (** Read the given slots of the buffer [p]. *)
  Section LoadAll.
    Variable lib_ : libop -> list val -> store -> res (list val * store).
    Fixpoint load_all (os : list libop) (p : val) (s : store) : res (list val * store) :=
      match os with
      | [] => Ok ([], s)
      | o :: r =>
          let* (v, s1) := lib_ o [p] s in
          let* (vs, s2) := load_all r p s1 in
          Ok (v ++ vs, s2)
      end.
  End LoadAll.

  (** WebAssembly specification, not repository code: invoking a function checks the number of its arguments. *)
  Definition fits_args (ft : functy) (args : list val) : bool :=
    Nat.eqb (List.length args) (List.length (ft_in ft)).

  (** One level of calls, given the calls [rec] nested in it. *)
  Section Level.
    Variable n : nat.
    Variable rec : callee -> list val -> store -> res (list val * store).

    Definition reenter (name : string) (args : list val) (s : store) : res (list val * store) :=
      let* c := rget (export_callee name) in rec c args s.
    (** A call of the buffer library through an import added by stack_library.rs L113-217. *)
    Definition lib (ft : functy) (o : libop) : list val -> store -> res (list val * store) :=
      rec (CImport (libop_type ft o) stack_ns (op_name ft o)).
    (** A call of a trap through an import added by the passes (instrument/mod.rs L163-262). *)
    Definition analysis (e : wfun) : list val -> store -> res (list val * store) :=
      rec (CImport (wf_type e) analysis_ns (wf_name e)).

    (** The function's own code. *)
    Definition own (f : nat) (fn : func) (args : list val) (s : store) : res (list val * store) :=
      match fn_code fn with
      | FImport ns name => call_import ext reenter (fn_type fn) ns name args s
      | FPresent locals body =>
          if selected m only f then
            match structure_typed f (infer f) body with
            | COk b =>
                invoke (advised num1 num2 on (ftype_of (md_funcs m)) (fun f => rec (CFun f))
                          (fun h => analysis (std_hook h)) n b)
                       (fn_type fn) locals args s
            | _ => Stuck
            end
          else
            match structure_untyped body with
            | COk b =>
                invoke (run num1 num2 (ftype_of (md_funcs m)) (fun f => rec (CFun f)) n b)
                       (fn_type fn) locals args s
            | _ => Stuck
            end
      end.

    (** Interception: the call is described to the analysis through two buffers; the caller
        gets what the analysis left in the result slots. *)
    Definition intercepted_call (k f : nat) (fn : func) (args : list val) (s : store) : res (list val * store) :=
      let ft := fn_type fn in
      let* (p, s1) := lib ft LAlloc args s in
      let* (tp, s2) := lib ft LAllocTypes [] s1 in
      let* (_, s3) := analysis generic_apply
        ([i32n k; i32n f; i32n (List.length (ft_in ft)); i32n (List.length (ft_out ft))]
         ++ p ++ tp ++ [vi32 (if has_code fn then 0 else 1)]) s2 in
      let* buf := rget (hd_error p) in
      let* (rs, s4) := load_all (lib ft) (side_ops (LLoad SRet) (ft_out ft)) buf s3 in
      let* (_, s5) := lib ft LFree p s4 in
      let* (_, s6) := lib ft LFreeTypes tp s5 in
      Ok (rs, s6).

    (** Resuming an intercepted function on the arguments in its buffer. *)
    Definition resume (f : nat) (fn : func) (buf : val) (s : store) : res (list val * store) :=
      let ft := fn_type fn in
      let* (vs, s1) := load_all (lib ft) (side_ops (LLoad SArg) (ft_in ft)) buf s in
      let* (rs, s2) := rec (CBase f) vs s1 in
      let* (_, s3) := lib ft LStoreRets (buf :: rs) s2 in
      Ok ([], s3).

    (** One level of calls: an original function, an intercepted one, or a helper of the output module. *)
    Definition level (c : callee) (args : list val) (s : store) : res (list val * store) :=
      match c with
      | CImport ft ns name =>
          if fits_args ft args then call_import ext reenter ft ns name args s else Stuck
      | CFun f =>
          let* fn := rget (nth_error (md_funcs m) f) in
          if fits_args (fn_type fn) args then
            match position f is with
            | None => own f fn args s
            | Some k => intercepted_call k f fn args s
            end
          else Stuck
      | CBase f =>
          let* fn := rget (nth_error (md_funcs m) f) in
          if fits_args (fn_type fn) args then own f fn args s else Stuck
      | CApply f =>
          let* fn := rget (nth_error (md_funcs m) f) in
          match args with [buf] => resume f fn buf s | _ => Stuck end
      | CCallBase =>
          match args with
          | [VNum TI32 k; buf] =>
              if Nat.eqb (List.length (st_tables s)) (List.length (md_tables m)) then
                match nth_error is (Z.to_nat k) with
                | Some f => rec (CApply f) [buf] s
                | None => Trap s
                end
              else Stuck
          | _ => Stuck
          end
      | CLoad o =>
          match args with
          | [VNum TI32 a; VNum TI32 off] =>
              if has_memory then
                let* me := rget (st_mem s) in
                match mem_load me o ((a + off) mod 2 ^ 32) with
                | Some z => Ok ([VNum (loadop_ty o) z], s)
                | None => Trap s
                end
              else Ok ([VNum (loadop_ty o) 0], s)
          | _ => Stuck
          end
      | CStore o =>
          match args with
          | [VNum TI32 a; VNum t z; VNum TI32 off] =>
              if numty_eqb t (storeop_ty o) then
                if has_memory then
                  let* me := rget (st_mem s) in
                  match mem_store me o ((a + off) mod 2 ^ 32) z with
                  | Some me' => Ok ([], set_mem s (Some me'))
                  | None => Trap s
                  end
                else Ok ([], s)
              else Stuck
          | _ => Stuck
          end
      | CGrow =>
          match args with
          | [VNum TI32 d; _] =>
              if has_memory then
                let* me := rget (st_mem s) in
                let (r, me') := mem_grow me d in Ok ([vi32 r], set_mem s (Some me'))
              else Ok ([vi32 (2 ^ 32 - 1)], s)
          | _ => Stuck
          end
      | CSize =>
          match args with
          | [_] =>
              if has_memory then let* me := rget (st_mem s) in Ok ([vi32 (ms_pages me)], s)
              else Ok ([vi32 0], s)
          | _ => Stuck
          end
      end.
  End Level.

  (** Calls nested at most [n] deep. *)
  Fixpoint spec (n : nat) (c : callee) (args : list val) (s : store) {struct n} : res (list val * store) :=
    match n with
    | O => Oof
    | S n' => level n' (spec n') c args s
    end.
End Spec.
