(** Instantiation of a module and sessions with the resulting instance, for the plain semantics
    and for the specification of instrumented execution. Like Semantics.v this is the meaning
    of the modules the repository reads and writes, not code of the repository.
    Simplifications: imported memories, tables and globals are copied in from [imp] (they are
    not shared with other instances); initialisers are a single constant instruction. *)
From Verif Require Export Semantics Advice.
Local Open Scope res_scope.

Record provided := Imp {
  im_mem : string -> string -> option memst;
  im_table : string -> string -> option tblst;
  im_global : string -> string -> option val }.

(** Constant expressions. *)
Definition eval_init (gs : list val) (code : list low) : option val :=
  match code with
  | [LBasic (BConst t z); LEnd] => Some (VNum t z)
  | [LBasic (BGlobal GGet i); LEnd] => nth_error gs i
  | [LBasic (BRefNull r); LEnd] => Some (VRef r None)
  | [LBasic (BRefFunc f); LEnd] => Some (VRef FuncRef (Some f))
  | _ => None
  end.
(** WebAssembly specification, not repository code: constant expressions of reference type. *)
Definition eval_ref (gs : list val) (code : list low) : option (option nat) :=
  match eval_init gs code with Some (VRef _ o) => Some o | _ => None end.
(** WebAssembly specification, not repository code: constant expressions of type i32. *)
Definition eval_i32 (gs : list val) (code : list low) : option Z :=
  match eval_init gs code with Some (VNum TI32 z) => Some z | _ => None end.

(** Auxiliary: nothing in the repository corresponds to it. *)
Fixpoint opt_all {A} (l : list (option A)) : option (list A) :=
  match l with
  | [] => Some []
  | Some a :: r => option_map (cons a) (opt_all r)
  | None :: _ => None
  end.

(** Globals may refer to globals before them. *)
Fixpoint init_globals (imp : provided) (gs : list val) (l : list global) : option (list val) :=
  match l with
  | [] => Some gs
  | g :: r =>
      match (match gl_import g with Some (ns, nm) => im_global imp ns nm | None => eval_init gs (gl_init g) end) with
      | Some v => init_globals imp (gs ++ [v]) r
      | None => None
      end
  end.
(** WebAssembly specification, not repository code: allocation of tables. *)
Definition init_table (imp : provided) (t : table) : option tblst :=
  match tb_import t with
  | Some (ns, nm) => im_table imp ns nm
  | None => Some (TblSt (tb_ref t) (match tb_max t with Some k => Z.of_nat k | None => 2 ^ 32 - 1 end)
                        (repeat None (tb_min t)))
  end.
(** WebAssembly specification, not repository code: allocation of memories. *)
Definition init_mem (imp : provided) (m : memory) : option memst :=
  match mm_import m with
  | Some (ns, nm) => im_mem imp ns nm
  | None => Some (MemSt (Z.of_nat (mm_min m)) (match mm_max m with Some k => Z.of_nat k | None => 65536 end)
                        (fun _ => 0%Z))
  end.
(** WebAssembly specification, not repository code: at most one memory. *)
Definition init_mems (imp : provided) (l : list memory) : option (option memst) :=
  match l with [] => Some None | [m] => option_map Some (init_mem imp m) | _ => None end.

Section Instantiate.
  Context {X : Type}.
  Notation store := (store X).
  Notation res := (res store).

  (** WebAssembly specification, not repository code: element segments. *)
  Definition init_elem (i : nat) (e : elem) (s : store) : res store :=
    match el_mode e with
    | EActive t off =>
        let* o := rget (eval_i32 (st_globals s) off) in
        let* seg := rget (nth_error (st_elems s) i) in
        let* s1 := bulk (BTableInit t i) [vi32 o; vi32 0; vi32 (Z.of_nat (List.length seg))] s in
        bulk (BElemDrop i) [] s1
    | EPassive => Ok s
    | EDeclarative => bulk (BElemDrop i) [] s
    end.
  (** WebAssembly specification, not repository code: element segments, in order. *)
  Fixpoint init_elems (i : nat) (l : list elem) (s : store) : res store :=
    match l with [] => Ok s | e :: r => let* s' := init_elem i e s in init_elems (S i) r s' end.
  (** WebAssembly specification, not repository code: data segments. *)
  Definition init_data (i : nat) (d : data) (s : store) : res store :=
    match dt_active d with
    | Some off =>
        let* o := rget (eval_i32 (st_globals s) off) in
        let* s1 := bulk (BMemoryInit i) [vi32 o; vi32 0; vi32 (Z.of_nat (List.length (dt_bytes d)))] s in
        bulk (BDataDrop i) [] s1
    | None => Ok s
    end.
  (** WebAssembly specification, not repository code: data segments, in order. *)
  Fixpoint init_datas (i : nat) (l : list data) (s : store) : res store :=
    match l with [] => Ok s | d :: r => let* s' := init_data i d s in init_datas (S i) r s' end.

  (** The store before the segments are copied. *)
  Definition allocate (imp : provided) (m : module) (x : X) : option store :=
    match init_globals imp [] (md_globals m), opt_all (map (init_table imp) (md_tables m)),
          init_mems imp (md_mems m) with
    | Some gs, Some ts, Some me =>
        match opt_all (map (fun e => opt_all (map (eval_ref gs) (el_init e))) (md_elems m)) with
        | Some es => Some (St me gs ts es (map dt_bytes (md_datas m)) x)
        | None => None
        end
    | _, _, _ => None
    end.
  (** WebAssembly specification, not repository code: instantiation, before the start function. *)
  Definition instantiate (imp : provided) (m : module) (x : X) : res store :=
    let* s := rget (allocate imp m x) in
    let* s1 := init_elems 0 (md_elems m) s in
    init_datas 0 (md_datas m) s1.

  (** ** Sessions: the host instantiates the module and calls exports. A trap ends the call,
      not the session. *)
  Section Session.
    Variable call : string -> list val -> store -> res (list val * store).
    Fixpoint session (calls : list (string * list val)) (s : store) : res (list (option (list val)) * store) :=
      match calls with
      | [] => Ok ([], s)
      | (name, args) :: r =>
          match call name args s with
          | Ok (vs, s1) => let* (os, s2) := session r s1 in Ok (Some vs :: os, s2)
          | Trap s1 => let* (os, s2) := session r s1 in Ok (None :: os, s2)
          | Stuck => Stuck
          | Oof => Oof
          end
      end.
  End Session.

  Variable num1 : unop -> Z -> option Z.
  Variable num2 : binop -> Z -> Z -> option Z.
  Variable ext : string -> string -> list val -> xprog X.

  (** The session of a module as it is. *)
  Definition run_module (n : nat) (imp : provided) (m : module) (x : X) (calls : list (string * list val)) :=
    let call := call_fn num1 num2 ext (md_funcs m) n in
    let* s := instantiate imp m x in
    let* (_, s1) := match md_start m with Some f => call f [] s | None => Ok ([], s) end in
    session (fun name args s => let* f := rget (export_index 0 (md_funcs m) name) in call f args s) calls s1.

  (** The session the specification prescribes for the module under instrumentation. *)
  Definition spec_module (infer : nat -> list low -> option (list ity)) (on : hook -> bool) (generic : bool)
      (only : option (list nat)) (is : list nat)
      (n : nat) (imp : provided) (m : module) (x : X) (calls : list (string * list val)) :=
    let call := spec num1 num2 ext infer m on generic only is n in
    let* s := instantiate imp m x in
    let* (_, s1) := match md_start m with Some f => call (CFun f) [] s | None => Ok ([], s) end in
    session (fun name args s => let* c := rget (export_callee m generic name) in call c args s) calls s1.
End Instantiate.
