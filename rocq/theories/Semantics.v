(** Execution of modules. This is not code of the repository: it is the meaning that
    WebAssembly gives to the modules the repository reads and writes, as far as the
    theorems need it. Simplifications, all visible below:
    - the numeric operators that generated code uses have their meaning from the specification,
      on bit patterns ([unop_sem], [binop_sem]); the others are an arbitrary function [num1],
      [num2] from bit patterns to an optional bit pattern ([None] is a trap);
    - [memory.grow] and [table.grow] succeed whenever the declared limits allow it;
    - at most one memory per module, as the repository asserts (memory.rs L388);
    - imported functions are agents: finite interaction trees that may inspect and change
      their own state [X], the memory and the globals, call exported functions, return
      or trap; [XStuck] is an ill-formed agent. *)
From Verif Require Export Syntax Nesting Bytes.

(** ** Values and stores *)
Inductive val := VNum (t : numty) (z : Z) | VRef (r : refty) (o : option nat).
(** WebAssembly specification, not repository code: types of values. *)
Definition typeof (v : val) : valty := match v with VNum t _ => TNum t | VRef r _ => TRef r end.
(** WebAssembly specification, not repository code: default values. *)
Definition default_val (t : valty) : val :=
  match t with TNum t => VNum t 0 | TRef r => VRef r None end.
(** Auxiliary: nothing in the repository corresponds to it. *)
Definition vi32 (z : Z) : val := VNum TI32 z.
(** Auxiliary: nothing in the repository corresponds to it. *)
Definition vi64 (z : Z) : val := VNum TI64 z.
(** WebAssembly specification, not repository code: widths. *)
Definition bits (t : numty) : Z := match t with TI32 | TF32 => 32 | TI64 | TF64 => 64 end%Z.

(** WebAssembly specification, not repository code: memory instances. *)
Record memst := MemSt { ms_pages : Z; ms_max : Z; ms_bytes : Z -> Z }.
(** WebAssembly specification, not repository code: table instances. *)
Record tblst := TblSt { ts_ref : refty; ts_max : Z; ts_elems : list (option nat) }.

(** WebAssembly specification, not repository code: the store; [st_x] is the state of the environment. *)
Record store (X : Type) := St {
  st_mem : option memst; st_globals : list val; st_tables : list tblst;
  st_elems : list (list (option nat)); st_datas : list (list Z); st_x : X }.
Arguments St {X}.
Arguments st_mem {X}. Arguments st_globals {X}. Arguments st_tables {X}.
Arguments st_elems {X}. Arguments st_datas {X}. Arguments st_x {X}.

(** Auxiliary: nothing in the repository corresponds to it. *)
Definition set_mem {X} (s : store X) m := St m (st_globals s) (st_tables s) (st_elems s) (st_datas s) (st_x s).
(** Auxiliary: nothing in the repository corresponds to it. *)
Definition set_globals {X} (s : store X) g := St (st_mem s) g (st_tables s) (st_elems s) (st_datas s) (st_x s).
(** Auxiliary: nothing in the repository corresponds to it. *)
Definition set_tables {X} (s : store X) t := St (st_mem s) (st_globals s) t (st_elems s) (st_datas s) (st_x s).
(** Auxiliary: nothing in the repository corresponds to it. *)
Definition set_elems {X} (s : store X) e := St (st_mem s) (st_globals s) (st_tables s) e (st_datas s) (st_x s).
(** Auxiliary: nothing in the repository corresponds to it. *)
Definition set_datas {X} (s : store X) d := St (st_mem s) (st_globals s) (st_tables s) (st_elems s) d (st_x s).
(** Auxiliary: nothing in the repository corresponds to it. *)
Definition set_view {X} (s : store X) (x : X) m g := St m g (st_tables s) (st_elems s) (st_datas s) x.

(** ** Results: normal, trap (with the store at that point), ill-formed execution, and
    out of fuel. *)
Inductive res (S A : Type) := Ok (a : A) | Trap (s : S) | Stuck | Oof.
Arguments Ok {S A}. Arguments Trap {S A}. Arguments Stuck {S A}. Arguments Oof {S A}.
(** Auxiliary: nothing in the repository corresponds to it. *)
Definition rbind {S A B} (m : res S A) (k : A -> res S B) : res S B :=
  match m with Ok a => k a | Trap s => Trap s | Stuck => Stuck | Oof => Oof end.
(** Auxiliary: nothing in the repository corresponds to it. *)
Definition rget {S A} (o : option A) : res S A := match o with Some a => Ok a | None => Stuck end.
Declare Scope res_scope.
Notation "'let*' x := m 'in' k" := (rbind m (fun x => k))
  (at level 61, x pattern, m at next level, right associativity) : res_scope.
Local Open Scope res_scope.

(** ** Agents *)
Inductive xprog (X : Type) :=
| XRet (vs : list val)
| XTrap
| XStuck
| XGet (k : X -> option memst -> list val -> xprog X)
| XPut (x : X) (m : option memst) (g : list val) (k : xprog X)
| XCall (name : string) (args : list val) (k : list val -> xprog X).
Arguments XRet {X}. Arguments XTrap {X}. Arguments XStuck {X}. Arguments XGet {X}. Arguments XPut {X}. Arguments XCall {X}.

Section RunX.
  Context {X : Type} (export : string -> list val -> store X -> res (store X) (list val * store X)).
  (** Running an agent; [export] calls an export of the module. *)
  Fixpoint run_x (p : xprog X) (s : store X) : res (store X) (list val * store X) :=
    match p with
    | XRet vs => Ok (vs, s)
    | XTrap => Trap s
    | XStuck => Stuck
    | XGet k => run_x (k (st_x s) (st_mem s) (st_globals s)) s
    | XPut x m g k => run_x k (set_view s x m g)
    | XCall name args k => let* (vs, s') := export name args s in run_x (k vs) s'
    end.
End RunX.

(** ** Instructions *)
Fixpoint set_nth {A} (n : nat) (x : A) (l : list A) : list A :=
  match l, n with
  | [], _ => []
  | _ :: r, O => x :: r
  | y :: r, S n' => y :: set_nth n' x r
  end.

(** Width in bytes and sign extension of the memory operators. *)
Definition loadop_bytes (o : loadop) : nat :=
  match o with
  | I32Load8S | I32Load8U | I64Load8S | I64Load8U => 1
  | I32Load16S | I32Load16U | I64Load16S | I64Load16U => 2
  | I32Load | F32Load | I64Load32S | I64Load32U => 4
  | I64Load | F64Load => 8
  end.
(** WebAssembly specification, not repository code: sign extension of loads. *)
Definition loadop_signed (o : loadop) : bool :=
  match o with I32Load8S | I32Load16S | I64Load8S | I64Load16S | I64Load32S => true | _ => false end.
(** WebAssembly specification, not repository code: widths of stores. *)
Definition storeop_bytes (o : storeop) : nat :=
  match o with
  | I32Store8 | I64Store8 => 1 | I32Store16 | I64Store16 => 2
  | I32Store | F32Store | I64Store32 => 4 | I64Store | F64Store => 8
  end.
(** WebAssembly specification, not repository code: page size. *)
Definition page_size : Z := 65536.

(** Contents of [n] bytes at [a], if in bounds. *)
Definition mem_load (m : memst) (o : loadop) (a : Z) : option Z :=
  let n := loadop_bytes o in
  if (a + Z.of_nat n <=? ms_pages m * page_size)%Z
  then let z := le_read (ms_bytes m) a n in
       Some (if loadop_signed o then sign_extend (8 * Z.of_nat n) (bits (loadop_ty o)) z else z)
  else None.
(** WebAssembly specification, not repository code: stores. *)
Definition mem_store (m : memst) (o : storeop) (a z : Z) : option memst :=
  let n := storeop_bytes o in
  if (a + Z.of_nat n <=? ms_pages m * page_size)%Z
  then Some (MemSt (ms_pages m) (ms_max m) (le_write (ms_bytes m) a n z))
  else None.
(** Previous size in pages, or -1; the memory after. *)
Definition mem_grow (m : memst) (delta : Z) : Z * memst :=
  if (ms_pages m + delta <=? ms_max m)%Z
  then (ms_pages m, MemSt (ms_pages m + delta) (ms_max m) (ms_bytes m))
  else (2 ^ 32 - 1, m)%Z.

(** Overwrite table cells from [i], and [n] bytes from [d]. *)
Definition set_cells (tb : tblst) (i : Z) (cells : list (option nat)) : tblst :=
  TblSt (ts_ref tb) (ts_max tb)
        (firstn (Z.to_nat i) (ts_elems tb) ++ cells ++ skipn (Z.to_nat i + List.length cells) (ts_elems tb)).
(** WebAssembly specification, not repository code: bulk memory instructions. *)
Definition set_bytes (m : memst) (d n : Z) (f : Z -> Z) : memst :=
  MemSt (ms_pages m) (ms_max m)
        (fun a => if (d <=? a) && (a <? d + n) then f (a - d) else ms_bytes m a)%Z.

(** How a body ends: normally, by a branch, by a return. *)
Inductive out := ONext | OBr (l : nat) | ORet.

Section Exec.
  Context {X : Type}.
  Notation store := (store X).
  Notation res := (res store).
  (** Numeric operators. *)
  Variable num1 : unop -> Z -> option Z.
  Variable num2 : binop -> Z -> Z -> option Z.
  (** Types and calls of functions. *)
  Variable ftype : nat -> option functy.
  Variable call : nat -> list val -> store -> res (list val * store).
  (** Bound on loop iterations. *)
  Variable loops : nat.

  Definition unop_sem (o : unop) (z : Z) : option Z :=
    match o with
    | I32Eqz => Some (if (z =? 0)%Z then 1 else 0)%Z
    | I64ExtendI32U | I32ReinterpretF32 | F32ReinterpretI32 | I64ReinterpretF64 | F64ReinterpretI64 => Some z
    | I32WrapI64 => Some (z mod 2 ^ 32)%Z
    | _ => option_map (fun r => r mod 2 ^ bits (unop_out o))%Z (num1 o z)
    end.
  (** WebAssembly specification, not repository code: binary numeric instructions; floating point through [num2]. *)
  Definition binop_sem (o : binop) (a b : Z) : option Z :=
    match o with
    | I32Add => Some ((a + b) mod 2 ^ 32)%Z
    | I32Sub => Some ((a - b) mod 2 ^ 32)%Z
    | I32Mul => Some ((a * b) mod 2 ^ 32)%Z
    | I32Eq => Some (if (a =? b)%Z then 1 else 0)%Z
    | I32GtU => Some (if (b <? a)%Z then 1 else 0)%Z
    | _ => option_map (fun r => r mod 2 ^ bits (binop_out o))%Z (num2 o a b)
    end.

  (** State of a running body: how it continues, operand stack (top first), locals, store. *)
  Definition conf : Type := out * list val * list val * store.
  (** Auxiliary: nothing in the repository corresponds to it. *)
  Definition next (st ls : list val) (s : store) : res conf := Ok (ONext, st, ls, s).

  (** Auxiliary: nothing in the repository corresponds to it. *)
  Definition pop_i32 (st : list val) : res (Z * list val) :=
    match st with VNum TI32 z :: st' => Ok (z, st') | _ => Stuck end.
  (** Auxiliary: nothing in the repository corresponds to it. *)
  Definition pop_ref (st : list val) : res (option nat * list val) :=
    match st with VRef _ o :: st' => Ok (o, st') | _ => Stuck end.

  (** Call with arguments from the stack. *)
  Definition do_call (f : nat) (ft : functy) (st ls : list val) (s : store) : res conf :=
    let* (args, st') := rget (popn (List.length (ft_in ft)) st) in
    let* (rs, s') := call f args s in
    next (pushn rs st') ls s'.

  (** Number of operands of the bulk operators. *)
  Definition bulk_arity (b : basic) : option nat :=
    match b with
    | BTableFill _ | BTableCopy _ _ | BTableInit _ _
    | BMemoryFill | BMemoryCopy | BMemoryInit _ => Some 3
    | BElemDrop _ | BDataDrop _ => Some 0
    | _ => None
    end.

  (** The bulk operators, on operands in source order. *)
  Definition bulk (b : basic) (vs : list val) (s : store) : res store :=
    match b, vs with
    | BTableFill t, [VNum TI32 i; VRef _ o; VNum TI32 n] =>
        let* tb := rget (nth_error (st_tables s) t) in
        if (i + n <=? Z.of_nat (List.length (ts_elems tb)))%Z
        then Ok (set_tables s (set_nth t (set_cells tb i (repeat o (Z.to_nat n))) (st_tables s)))
        else Trap s
    | BTableCopy t1 t2, [VNum TI32 d; VNum TI32 i; VNum TI32 n] =>
        let* tb1 := rget (nth_error (st_tables s) t1) in
        let* tb2 := rget (nth_error (st_tables s) t2) in
        if ((i + n <=? Z.of_nat (List.length (ts_elems tb2))) && (d + n <=? Z.of_nat (List.length (ts_elems tb1))))%Z
        then Ok (set_tables s (set_nth t1
               (set_cells tb1 d (firstn (Z.to_nat n) (skipn (Z.to_nat i) (ts_elems tb2)))) (st_tables s)))
        else Trap s
    | BTableInit t e, [VNum TI32 d; VNum TI32 i; VNum TI32 n] =>
        let* tb := rget (nth_error (st_tables s) t) in
        let* seg := rget (nth_error (st_elems s) e) in
        if ((i + n <=? Z.of_nat (List.length seg)) && (d + n <=? Z.of_nat (List.length (ts_elems tb))))%Z
        then Ok (set_tables s (set_nth t
               (set_cells tb d (firstn (Z.to_nat n) (skipn (Z.to_nat i) seg))) (st_tables s)))
        else Trap s
    | BElemDrop e, [] =>
        let* _ := rget (nth_error (st_elems s) e) in Ok (set_elems s (set_nth e [] (st_elems s)))
    | BMemoryFill, [VNum TI32 d; VNum TI32 v; VNum TI32 n] =>
        let* m := rget (st_mem s) in
        if (d + n <=? ms_pages m * page_size)%Z
        then Ok (set_mem s (Some (set_bytes m d n (fun _ => v mod 256)%Z)))
        else Trap s
    | BMemoryCopy, [VNum TI32 d; VNum TI32 i; VNum TI32 n] =>
        let* m := rget (st_mem s) in
        if ((i + n <=? ms_pages m * page_size) && (d + n <=? ms_pages m * page_size))%Z
        then Ok (set_mem s (Some (set_bytes m d n (fun k => ms_bytes m (i + k))%Z)))
        else Trap s
    | BMemoryInit e, [VNum TI32 d; VNum TI32 i; VNum TI32 n] =>
        let* m := rget (st_mem s) in
        let* seg := rget (nth_error (st_datas s) e) in
        if ((i + n <=? Z.of_nat (List.length seg)) && (d + n <=? ms_pages m * page_size))%Z
        then Ok (set_mem s (Some (set_bytes m d n (fun k => nth (Z.to_nat (i + k)) seg 0)%Z)))
        else Trap s
    | BDataDrop e, [] =>
        let* _ := rget (nth_error (st_datas s) e) in Ok (set_datas s (set_nth e [] (st_datas s)))
    | _, _ => Stuck
    end.

  (** WebAssembly specification, not repository code: instructions without body. *)
  Definition exec (b : basic) (st ls : list val) (s : store) : res conf :=
    match b with
    | BUnreachable => Trap s
    | BNop => next st ls s
    | BBr l => Ok (OBr l, st, ls, s)
    | BBrIf l =>
        let* (c, st') := pop_i32 st in
        if (c =? 0)%Z then next st' ls s else Ok (OBr l, st', ls, s)
    | BBrTable table d =>
        let* (i, st') := pop_i32 st in Ok (OBr (nth (Z.to_nat i) table d), st', ls, s)
    | BReturn => Ok (ORet, st, ls, s)
    | BCall f => let* ft := rget (ftype f) in do_call f ft st ls s
    | BCallIndirect ft t =>
        let* (i, st') := pop_i32 st in
        let* tb := rget (nth_error (st_tables s) t) in
        match nth_error (ts_elems tb) (Z.to_nat i) with
        | Some (Some f) =>
            let* ft' := rget (ftype f) in
            if functy_eqb ft' ft then do_call f ft st' ls s else Trap s
        | _ => Trap s
        end
    | BRefNull r => next (VRef r None :: st) ls s
    | BRefIsNull =>
        let* (o, st') := pop_ref st in
        next (vi32 (match o with None => 1 | Some _ => 0 end) :: st') ls s
    | BRefFunc f => next (VRef FuncRef (Some f) :: st) ls s
    | BDrop => match st with _ :: st' => next st' ls s | [] => Stuck end
    | BSelect | BTypedSelect _ =>
        let* (c, st') := pop_i32 st in
        match st' with
        | v2 :: v1 :: st'' => next ((if (c =? 0)%Z then v2 else v1) :: st'') ls s
        | _ => Stuck
        end
    | BLocal LGet i => let* v := rget (nth_error ls i) in next (v :: st) ls s
    | BLocal LSet i =>
        match st, nth_error ls i with
        | v :: st', Some _ => next st' (set_nth i v ls) s
        | _, _ => Stuck
        end
    | BLocal LTee i =>
        match st, nth_error ls i with
        | v :: st', Some _ => next st (set_nth i v ls) s
        | _, _ => Stuck
        end
    | BGlobal GGet i => let* v := rget (nth_error (st_globals s) i) in next (v :: st) ls s
    | BGlobal GSet i =>
        match st, nth_error (st_globals s) i with
        | v :: st', Some _ => next st' ls (set_globals s (set_nth i v (st_globals s)))
        | _, _ => Stuck
        end
    | BTableGet t =>
        let* (i, st') := pop_i32 st in
        let* tb := rget (nth_error (st_tables s) t) in
        match nth_error (ts_elems tb) (Z.to_nat i) with
        | Some o => next (VRef (ts_ref tb) o :: st') ls s
        | None => Trap s
        end
    | BTableSet t =>
        let* (o, st') := pop_ref st in
        let* (i, st'') := pop_i32 st' in
        let* tb := rget (nth_error (st_tables s) t) in
        match nth_error (ts_elems tb) (Z.to_nat i) with
        | Some _ =>
            next st'' ls (set_tables s (set_nth t
              (TblSt (ts_ref tb) (ts_max tb) (set_nth (Z.to_nat i) o (ts_elems tb))) (st_tables s)))
        | None => Trap s
        end
    | BTableSize t =>
        let* tb := rget (nth_error (st_tables s) t) in
        next (vi32 (Z.of_nat (List.length (ts_elems tb))) :: st) ls s
    | BTableGrow t =>
        let* (n, st') := pop_i32 st in
        let* (o, st'') := pop_ref st' in
        let* tb := rget (nth_error (st_tables s) t) in
        let size := Z.of_nat (List.length (ts_elems tb)) in
        if (size + n <=? ts_max tb)%Z
        then next (vi32 size :: st'') ls (set_tables s (set_nth t
               (TblSt (ts_ref tb) (ts_max tb) (ts_elems tb ++ repeat o (Z.to_nat n))) (st_tables s)))
        else next (vi32 (2 ^ 32 - 1) :: st'') ls s
    | BTableFill _ | BTableCopy _ _ | BTableInit _ _ | BElemDrop _
    | BMemoryFill | BMemoryCopy | BMemoryInit _ | BDataDrop _ =>
        let* k := rget (bulk_arity b) in
        let* (vs, st') := rget (popn k st) in
        let* s' := bulk b vs s in next st' ls s'
    | BLoad o ma =>
        let* (a, st') := pop_i32 st in
        let* m := rget (st_mem s) in
        match mem_load m o (a + ma_offset ma) with
        | Some z => next (VNum (loadop_ty o) z :: st') ls s
        | None => Trap s
        end
    | BStore o ma =>
        match st with
        | VNum t z :: st1 =>
            if numty_eqb t (storeop_ty o) then
              let* (a, st') := pop_i32 st1 in
              let* m := rget (st_mem s) in
              match mem_store m o (a + ma_offset ma) z with
              | Some m' => next st' ls (set_mem s (Some m'))
              | None => Trap s
              end
            else Stuck
        | _ => Stuck
        end
    | BMemorySize _ =>
        let* m := rget (st_mem s) in next (vi32 (ms_pages m) :: st) ls s
    | BMemoryGrow _ =>
        let* (d, st') := pop_i32 st in
        let* m := rget (st_mem s) in
        let (r, m') := mem_grow m d in next (vi32 r :: st') ls (set_mem s (Some m'))
    | BConst t z => next (VNum t z :: st) ls s
    | BUnary o =>
        match st with
        | VNum t z :: st' =>
            if numty_eqb t (unop_in o) then
              match unop_sem o z with
              | Some r => next (VNum (unop_out o) r :: st') ls s
              | None => Trap s
              end
            else Stuck
        | _ => Stuck
        end
    | BBinary o =>
        match st with
        | VNum t2 z2 :: VNum t1 z1 :: st' =>
            if numty_eqb t1 (binop_in o) && numty_eqb t2 (binop_in o) then
              match binop_sem o z1 z2 with
              | Some r => next (VNum (binop_out o) r :: st') ls s
              | None => Trap s
              end
            else Stuck
        | _ => Stuck
        end
    end.

  (** Sequencing: stop at the first instruction that does not continue normally. *)
  Definition andthen (m : res conf) (k : list val -> list val -> store -> res conf) : res conf :=
    let* (o, st, ls, s) := m in
    match o with ONext => k st ls s | _ => Ok (o, st, ls, s) end.
  Section Seq.
    Context {I : Type} (f : I -> list val -> list val -> store -> res conf).
    (** WebAssembly specification, not repository code: sequences. *)
    Fixpoint run_seq (l : list I) (st ls : list val) (s : store) : res conf :=
      match l with
      | [] => next st ls s
      | i :: r => andthen (f i st ls s) (run_seq r)
      end.
  End Seq.

  (** A labelled body, entered with the parameters only; a branch to it leaves with the label's
      arity from the top of its stack. *)
  Section Label.
    Variable body : list val -> list val -> store -> res conf.
    Definition run_block (ft : functy) (st ls : list val) (s : store) : res conf :=
      let* (ps, rest) := rget (popn (List.length (ft_in ft)) st) in
      let* (o, st', ls', s') := body (pushn ps []) ls s in
      match o with
      | ONext => next (st' ++ rest) ls' s'
      | OBr O =>
          let* (rs, _) := rget (popn (List.length (ft_out ft)) st') in
          next (pushn rs rest) ls' s'
      | OBr (S l) => Ok (OBr l, st', ls', s')
      | ORet => Ok (ORet, st', ls', s')
      end.
    (** WebAssembly specification, not repository code: loops, at most [k] iterations. *)
    Fixpoint run_iter (k : nat) (nin : nat) (rest ps ls : list val) (s : store) : res conf :=
      match k with
      | O => Oof
      | S k' =>
          let* (o, st', ls', s') := body (pushn ps []) ls s in
          match o with
          | ONext => next (st' ++ rest) ls' s'
          | OBr O =>
              let* (ps', _) := rget (popn nin st') in run_iter k' nin rest ps' ls' s'
          | OBr (S l) => Ok (OBr l, st', ls', s')
          | ORet => Ok (ORet, st', ls', s')
          end
      end.
    (** WebAssembly specification, not repository code: loops. *)
    Definition run_loop (ft : functy) (st ls : list val) (s : store) : res conf :=
      let* (ps, rest) := rget (popn (List.length (ft_in ft)) st) in
      run_iter loops (List.length (ft_in ft)) rest ps ls s.
  End Label.

  (** WebAssembly specification, not repository code: structured instructions. *)
  Fixpoint run1 (i : uinstr) (st ls : list val) (s : store) : res conf :=
    match i with
    | UBasic b => exec b st ls s
    | UBlock ft body => run_block (run_seq run1 body) ft st ls s
    | ULoop ft body => run_loop (run_seq run1 body) ft st ls s
    | UIf ft thn els =>
        let* (c, st') := pop_i32 st in
        if (c =? 0)%Z
        then run_block (match els with Some e => run_seq run1 e | None => next end) ft st' ls s
        else run_block (run_seq run1 thn) ft st' ls s
    end.
  (** WebAssembly specification, not repository code: bodies. *)
  Definition run (body : list uinstr) := run_seq run1 body.

  (** A function body: its results are what falls through or is returned. *)
  Definition invoke (body : list val -> list val -> store -> res conf)
      (ft : functy) (locals : list valty) (args : list val) (s : store) : res (list val * store) :=
    let* (o, st, _, s') := body [] (args ++ map default_val locals) s in
    let* (rs, rest) := rget (popn (List.length (ft_out ft)) st) in
    match o with
    | ONext => match rest with [] => Ok (rs, s') | _ => Stuck end
    | OBr O | ORet => Ok (rs, s')
    | OBr (S _) => Stuck
    end.
End Exec.

(** Values are bit patterns of their width. *)
Definition in_range (v : val) : bool :=
  match v with VNum t z => (0 <=? z)%Z && (z <? 2 ^ bits t)%Z | VRef _ _ => true end.
(** Values of the given types. *)
Definition vals_ok (ts : list valty) (vs : list val) : bool :=
  list_eqb valty_eqb (map typeof vs) ts && forallb in_range vs.

(** ** Modules *)
Section Module_.
  Context {X : Type}.
  Variable num1 : unop -> Z -> option Z.
  Variable num2 : binop -> Z -> Z -> option Z.
  (** Behaviour of imported functions, by namespace and name. *)
  Variable ext : string -> string -> list val -> xprog X.
  Variable funcs : list func.

  Definition ftype_of (f : nat) : option functy := option_map fn_type (nth_error funcs f).
  (** The function exported under a name. *)
  Fixpoint export_index (n : nat) (fs : list func) (name : string) : option nat :=
    match fs with
    | [] => None
    | f :: r => if existsb (String.eqb name) (fn_exports f) then Some n else export_index (S n) r name
    end.

  (** Calling an import; its results are checked against its declared type. *)
  Definition call_import (export : string -> list val -> store X -> res (store X) (list val * store X))
      (ft : functy) (ns name : string) (args : list val) (s : store X) : res (store X) (list val * store X) :=
    let* (rs, s') := run_x export (ext ns name args) s in
    if vals_ok (ft_out ft) rs then Ok (rs, s') else Stuck.

  (** WebAssembly specification, not repository code: function calls, nested at most [n] deep. *)
  Fixpoint call_fn (n : nat) (f : nat) (args : list val) (s : store X) : res (store X) (list val * store X) :=
    match n with
    | O => Oof
    | S n' =>
        let* fn := rget (nth_error funcs f) in
        if Nat.eqb (List.length args) (List.length (ft_in (fn_type fn))) then
          match fn_code fn with
          | FImport ns name =>
              call_import (fun nm args s => let* g := rget (export_index 0 funcs nm) in call_fn n' g args s)
                (fn_type fn) ns name args s
          | FPresent locals body =>
              match structure_untyped body with
              | COk b =>
                  invoke (run num1 num2 ftype_of (call_fn n') n' b) (fn_type fn) locals args s
              | _ => Stuck
              end
          end
        else Stuck
    end.
End Module_.
