(** The events of a run of the *original* module (C10): which advice the interface promises, in
    which order and on which values, for every instruction executed (analysis/mod.rs L205-330 and
    the arms of [advice!] in wastrumentation-rs-stdlib/src/lib.rs L617-1392). Nothing here refers to
    instrumented code, hook calls or buffers: events are computed along a plain run.

    The two indices of a location are in the order in which the analysis library names them
    (exchanged, see C37). *)
From Verif Require Export Semantics Instrument Instantiate RsStdlib.
From Verif Require Import StackSpec.

Inductive event :=
| EvAdvice (a : advice)
| EvEnter (f : nat) (code : bool) (args : list val)   (* intercepted call, before the function runs *)
| EvLeave (f : nat) (rs : list val).                  (* ... and after it returned *)

(** A reported access whose address does not exceed 32 bits. *)
Definition in_range32 (e : event) : Prop :=
  match e with
  | EvAdvice (AdLoad i off _ _) | EvAdvice (AdStore i _ off _ _) => (i + off < 2 ^ 32)%Z
  | _ => True
  end.

Section Events.
  Context {Y : Type}.
  Notation store := (store Y).
  Notation res := (res store).
  Variable num1 : unop -> Z -> option Z.
  Variable num2 : binop -> Z -> Z -> option Z.
  Variable ftype : nat -> option functy.
  Variable call : nat -> list val -> store -> res (list val * store).
  (** Events of a call. *)
  Variable tcall : nat -> list val -> store -> list event.
  Variable on : hook -> bool.
  Variable loops : nat.
  Notation exec := (exec num1 num2 ftype call).
  Notation run := (run num1 num2 ftype call loops).
  Notation run1 := (run1 num1 num2 ftype call loops).

  Definition at_ (m : meta) : location := Loc (Z.of_nat (m_fun m)) (Z.of_nat (m_pos m)).
  (** The event, if its hook is selected. *)
  Definition if_on (h : hook) (a : advice) : list event := if on h then [EvAdvice a] else [].
  (** Events of what follows, if the execution gets there. *)
  Definition then_ (r : res (@conf Y)) (k : list val -> list val -> store -> list event) : list event :=
    match r with Ok (ONext, st, ls, s) => k st ls s | _ => [] end.

  (** Events inside the function called. *)
  Definition callee_events (f : nat) (ft : functy) (st : list val) (s : store) : list event :=
    match popn (List.length (ft_in ft)) st with Some (args, _) => tcall f args s | None => [] end.
  (** Events inside the functions that an instruction calls. *)
  Definition inner (b : basic) (st : list val) (s : store) : list event :=
    match b, st with
    | BCall f, _ => match ftype f with Some ft => callee_events f ft st s | None => [] end
    | BCallIndirect ft t, VNum TI32 i :: st' =>
        match nth_error (st_tables s) t with
        | Some tb =>
            match nth_error (ts_elems tb) (Z.to_nat i) with
            | Some (Some f) =>
                match ftype f with
                | Some ft' => if functy_eqb ft' ft then callee_events f ft st' s else []
                | None => []
                end
            | _ => []
            end
        | None => []
        end
    | _, _ => []
    end.

  (** Events of an instruction without a body. *)
  Definition events_basic (m : meta) (b : basic) (st ls : list val) (s : store) : list event :=
    let l := at_ m in
    match b, st with
    | BSelect, VNum _ c :: _ | BTypedSelect _, VNum _ c :: _ => if_on HkSelect (AdSelect c l)
    | BCall g, _ =>
        if_on HkCallPre (AdCallPre (Z.of_nat g) l) ++ inner b st s ++
        then_ (exec b st ls s) (fun _ _ _ => if_on HkCallPost (AdCallPost (Z.of_nat g) l))
    | BCallIndirect _ t, VNum _ i :: _ =>
        if_on HkCallIndPre (AdCallIndPre i (Z.of_nat t) l) ++ inner b st s ++
        then_ (exec b st ls s) (fun _ _ _ => if_on HkCallIndPost (AdCallIndPost (Z.of_nat t) l))
    | BBr d, _ => if_on HkBr (AdBr (Z.of_nat d) l)
    | BBrIf d, VNum _ c :: _ => if_on HkBrIf (AdBrIf c (Z.of_nat d) l)
    | BBrTable table d, VNum _ i :: _ =>
        if_on HkBrTable (AdBrTable i (Z.of_nat (nth (Z.to_nat i) table d)) (Z.of_nat d) l)
    | BReturn, _ => if_on HkReturn (AdReturn l)
    | BDrop, _ => if_on HkDrop (AdDrop l)
    | BConst t z, _ => if_on (HkConst t) (AdConst (VNum t z) l)
    | BUnary o, v :: _ => if_on (HkUnary (unop_in o) (unop_out o)) (AdUnary o v l)
    | BBinary o, v2 :: v1 :: _ =>
        match binop_in o, binop_out o with
        | TI32, TI32 => if_on (HkBinary BkI32) (AdBinary o v1 v2 l)
        | TI64, TI64 => if_on (HkBinary BkI64) (AdBinary o v1 v2 l)
        | TF32, TF32 => if_on (HkBinary BkF32) (AdBinary o v1 v2 l)
        | TF64, TF64 => if_on (HkBinary BkF64) (AdBinary o v1 v2 l)
        | TI64, TI32 => if_on (HkBinary BkI64I32) (AdBinary o v1 v2 l)
        | TF32, TI32 => if_on (HkBinary BkF32I32) (AdBinary o v1 v2 l)
        | TF64, TI32 => if_on (HkBinary BkF64I32) (AdBinary o v1 v2 l)
        | _, _ => []
        end
    | BLocal LGet i, _ =>
        match nth_error ls i with
        | Some (VNum t z) => if_on (HkLocal LGet t) (AdLocal (VNum t z) (Z.of_nat i) LGet l)
        | _ => []
        end
    | BLocal o i, VNum t z :: _ => if_on (HkLocal o t) (AdLocal (VNum t z) (Z.of_nat i) o l)
    | BGlobal GGet i, _ =>
        match nth_error (st_globals s) i with
        | Some (VNum t z) => if_on (HkGlobal GGet t) (AdGlobal (VNum t z) (Z.of_nat i) GGet l)
        | _ => []
        end
    | BGlobal GSet i, VNum t z :: _ => if_on (HkGlobal GSet t) (AdGlobal (VNum t z) (Z.of_nat i) GSet l)
    | BLoad o ma, VNum _ a :: _ => if_on (HkLoad (loadop_ty o)) (AdLoad a (ma_offset ma) o l)
    | BStore o ma, v :: VNum _ a :: _ => if_on (HkStore (storeop_ty o)) (AdStore a v (ma_offset ma) o l)
    | BMemorySize i, _ =>
        match st_mem s with
        | Some me => if_on HkMemorySize (AdMemorySize (vi32 (ms_pages me)) (Z.of_nat i) l)
        | None => []
        end
    | BMemoryGrow i, v :: _ => if_on HkMemoryGrow (AdMemoryGrow v (Z.of_nat i) l)
    | _, _ => []
    end.

  (** Sequences and bodies. *)
  Section Seq.
    Variable f : tinstr -> list val -> list val -> store -> list event.
    Fixpoint events_seq (l : list tinstr) (st ls : list val) (s : store) : list event :=
      match l with
      | [] => []
      | i :: r => f i st ls s ++ then_ (run1 (strip i) st ls s) (events_seq r)
      end.
  End Seq.
  Section Body.
    Variable evs : list val -> list val -> store -> list event.
    Variable body : list val -> list val -> store -> res (@conf Y).
    (** Events on entering and on falling through the end of a body. *)
    Definition around (pre post : list event) (st ls : list val) (s : store) : list event :=
      pre ++ evs st ls s ++ then_ (body st ls s) (fun _ _ _ => post).
    (** Events of a body that starts on its parameters alone. *)
    Definition block_events (ft : functy) (st ls : list val) (s : store) : list event :=
      match popn (List.length (ft_in ft)) st with Some (ps, _) => evs (pushn ps []) ls s | None => [] end.
    (** Events of at most [k] rounds of a loop. *)
    Fixpoint iter_events (k nin : nat) (ps ls : list val) (s : store) : list event :=
      match k with
      | O => []
      | S k' =>
          evs (pushn ps []) ls s ++
          match body (pushn ps []) ls s with
          | Ok (OBr O, st', ls', s') =>
              match popn nin st' with Some (ps', _) => iter_events k' nin ps' ls' s' | None => [] end
          | _ => []
          end
      end.
    (** Events of a loop. *)
    Definition loop_events (ft : functy) (st ls : list val) (s : store) : list event :=
      match popn (List.length (ft_in ft)) st with
      | Some (ps, _) => iter_events loops (List.length (ft_in ft)) ps ls s
      | None => []
      end.
  End Body.

  (** Number of parameters. *)
  Definition n_in (ft : functy) : Z := Z.of_nat (List.length (ft_in ft)).
  (** Number of results. *)
  Definition n_out (ft : functy) : Z := Z.of_nat (List.length (ft_out ft)).

  (** Events of an instruction. *)
  Fixpoint events1 (i : tinstr) (st ls : list val) (s : store) : list event :=
    match i with
    | TBasic m b => events_basic m b st ls s
    | TBlock m ft body =>
        block_events (around (events_seq events1 body) (run (map strip body))
          (if_on HkBlockPre (AdBlockPre (n_in ft) (n_out ft) (at_ m))) (if_on HkBlockPost (AdBlockPost (at_ m)))) ft st ls s
    | TLoop m ft body =>
        loop_events (around (events_seq events1 body) (run (map strip body))
          (if_on HkLoopPre (AdLoopPre (n_in ft) (n_out ft) (at_ m))) (if_on HkLoopPost (AdLoopPost (at_ m))))
          (run (map strip body)) ft st ls s
    | TIf m ft thn None =>
        match st with
        | VNum _ c :: st' =>
            if_on HkIfThen (AdIfThen c (n_in ft) (n_out ft) (at_ m)) ++
            let post := if_on HkIfThenPost (AdIfThenPost (at_ m)) in
            if (c =? 0)%Z then block_events (fun _ _ _ => post) ft st' ls s
            else block_events (around (events_seq events1 thn) (run (map strip thn)) [] post) ft st' ls s
        | _ => []
        end
    | TIf m ft thn (Some els) =>
        match st with
        | VNum _ c :: st' =>
            if_on HkIfThenElse (AdIfThenElse c (n_in ft) (n_out ft) (at_ m)) ++
            let post := if_on HkIfThenElsePost (AdIfThenElsePost (at_ m)) in
            if (c =? 0)%Z then block_events (around (events_seq events1 els) (run (map strip els)) [] post) ft st' ls s
            else block_events (around (events_seq events1 thn) (run (map strip thn)) [] post) ft st' ls s
        | _ => []
        end
    end.
  (** Events of a sequence of instructions. *)
  Definition events (body : list tinstr) := events_seq events1 body.
End Events.

(** Events while an imported function runs: those of its calls of exports. *)
Section Agents.
  Context {Y : Type}.
  Variable export : string -> list val -> store Y -> res (store Y) (list val * store Y).
  Variable texport : string -> list val -> store Y -> list event.
  Fixpoint events_x (p : xprog Y) (s : store Y) : list event :=
    match p with
    | XGet k => events_x (k (st_x s) (st_mem s) (st_globals s)) s
    | XPut x m g k => events_x k (set_view s x m g)
    | XCall name args k =>
        texport name args s ++ match export name args s with Ok (vs, s') => events_x (k vs) s' | _ => [] end
    | _ => []
    end.
End Agents.

Section Module_.
  Context {Y : Type}.
  Variable num1 : unop -> Z -> option Z.
  Variable num2 : binop -> Z -> Z -> option Z.
  Variable host : string -> string -> list val -> xprog Y.
  (** Positions and types of the instructions of a body. *)
  Variable infer : nat -> list low -> option (list ity).
  Variable m : module.
  Variable on : hook -> bool.
  Variable generic : bool.
  Variable only : option (list nat).
  Notation call := (call_fn num1 num2 host (md_funcs m)).

  (** Calls that are reported as a whole. *)
  Definition reported (f : nat) : bool := generic && selected_incl m only f.

  (** Events of calling function [f]; no hook is consulted in functions that are not selected. *)
  Fixpoint trace (n : nat) (f : nat) (args : list val) (s : store Y) : list event :=
    match n with
    | O => []
    | S n' =>
        match nth_error (md_funcs m) f with
        | None => []
        | Some fn =>
            let own :=
              match fn_code fn with
              | FImport ns name =>
                  events_x (fun nm args s => rbind (rget (export_index 0 (md_funcs m) nm)) (fun g => call n' g args s))
                           (fun nm args s => match export_index 0 (md_funcs m) nm with Some g => trace n' g args s | None => [] end)
                           (host ns name args) s
              | FPresent locals body =>
                  match structure_typed f (infer f) body with
                  | COk b =>
                      events num1 num2 (ftype_of (md_funcs m)) (call n') (trace n')
                        (if selected m only f then on else fun _ => false) n' b
                        [] (args ++ map default_val locals) s
                  | _ => []
                  end
              end in
            if reported f
            then EvEnter f (has_code fn) args :: own ++
                 match call n f args s with Ok (rs, _) => [EvLeave f rs] | _ => [] end
            else own
        end
    end.

  (** Events of a sequence of calls of exports, and of a whole session with the module. *)
  Fixpoint session_trace (n : nat) (calls : list (string * list val)) (s : store Y) : list event :=
    match calls with
    | [] => []
    | (name, args) :: r =>
        match export_index 0 (md_funcs m) name with
        | Some f =>
            trace n f args s ++
            match call n f args s with Ok (_, s1) | Trap s1 => session_trace n r s1 | _ => [] end
        | None => []
        end
    end.
  (** Events of instantiating the module, with its start function, and then making the calls. *)
  Definition module_trace (n : nat) (imp : provided) (x : Y) (calls : list (string * list val)) : list event :=
    match instantiate imp m x with
    | Ok s =>
        match md_start m with
        | Some f =>
            trace n f [] s ++ match call n f [] s with Ok (_, s1) => session_trace n calls s1 | _ => [] end
        | None => session_trace n calls s
        end
    | _ => []
    end.
End Module_.

(** ** Buffer space *)
Section Usage.
  Variable m : module.
  (** Bytes of the buffers of a call of [f], and those in use after some events: a call has its
      buffers from being intercepted until it returns. *)
  Definition call_bytes (f : nat) : Z :=
    match nth_error (md_funcs m) f with Some fn => frame_bytes (fn_type fn) | None => 0 end.
  (** Bytes in use after the events. *)
  Fixpoint usage (evs : list event) : Z :=
    match evs with
    | [] => 0
    | EvEnter f _ _ :: r => call_bytes f + usage r
    | EvLeave f _ :: r => usage r - call_bytes f
    | EvAdvice _ :: r => usage r
    end.
End Usage.
