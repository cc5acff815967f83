(** Property theorems C07 and C12: the output module behaves as the specification of
    instrumented execution (Advice.v) prescribes. *)
From Coq Require Import Permutation.
From Verif Require Import Semantics Advice WeaveSpec Instantiate InstantiateProofs RunLemmas AdviceRel InstrumentProofs SpecProofs ExModule.
Local Open Scope string_scope.
Local Open Scope list_scope.
Local Open Scope res_scope.

(** [s'] is [s] except for tables and element segments appended to those of [s]. *)
Definition extends {X} (s s' : store X) : Prop :=
  st_mem s' = st_mem s /\ st_globals s' = st_globals s /\ st_datas s' = st_datas s /\ st_x s' = st_x s /\
  (exists ts, st_tables s' = st_tables s ++ ts) /\ (exists es, st_elems s' = st_elems s ++ es).
Lemma extends_emb {X} ts es (s : store X) : extends s (emb ts es s).
Proof. repeat split; simpl; eauto. Qed.

(** C07: for every analysis, buffer library and host ([ext]), every choice of hooks, with and
    without interception: a session with the instrumented module (instantiation, start function,
    any sequence of calls of exports, including those added for the analysis) has the
    outcomes of the session with the *original* module in the interpreter that consults the
    analysis; memory, globals, data segments, agents' state and the module's own tables
    agree at the end. [Stuck] is excluded for valid modules by C16. *)
Theorem C07_sessions : forall X num1 num2 (ext : string -> string -> list val -> xprog X)
    ord_i ord_c infer m on generic only m' lib,
  (forall l, Permutation (ord_i l) l) -> (forall l, Permutation (ord_c l) l) ->
  instrument ord_i ord_c infer m (std_ai on generic) only = IOk m' lib ->
  let intercepted := if generic then ord_i (filter (selected_incl m only) (indices m)) else [] in
  forall fuel imp x calls,
  match spec_module num1 num2 ext infer on generic only intercepted fuel imp m x calls,
        run_module num1 num2 ext fuel imp m' x calls with
  | Ok (outs, s), Ok (outs', s') => outs' = outs /\ extends s s'
  | Trap s, Trap s' => extends s s'
  | Oof, Oof => True
  | Stuck, _ => True
  | _, _ => False
  end.
Proof.
  intros X num1 num2 ext ord_i ord_c infer m on generic only m' lib Pi Pc E is n imp x calls.
  pose proof (@instrument_sessions X num1 num2 ext _ _ _ _ _ _ _ _ _ Pi Pc E n imp x calls) as R.
  fold is in R.
  destruct (spec_module num1 num2 ext infer on generic only is n imp m x calls) as [[os s]|s| |].
  - destruct R as (ts & es & ->). split; [reflexivity|apply extends_emb].
  - destruct R as (ts & es & ->). apply extends_emb.
  - exact I.
  - rewrite R. exact I.
Qed.
Print Assumptions C07_sessions.

(** The same for a single call, from any store. *)
Theorem C07_calls : forall X num1 num2 (ext : string -> string -> list val -> xprog X)
    ord_i ord_c infer m on generic only m' lib,
  (forall l, Permutation (ord_i l) l) -> (forall l, Permutation (ord_c l) l) ->
  instrument ord_i ord_c infer m (std_ai on generic) only = IOk m' lib ->
  let intercepted := if generic then ord_i (filter (selected_incl m only) (indices m)) else [] in
  exists addt adde, forall fuel f args s,
  match spec num1 num2 ext infer m on generic only intercepted fuel (CFun f) args s,
        call_fn num1 num2 ext (md_funcs m') fuel f args
          (St (st_mem s) (st_globals s) (st_tables s ++ addt) (st_elems s ++ adde) (st_datas s) (st_x s)) with
  | Ok (vs, s1), Ok (vs', s2) => vs' = vs /\ extends s1 s2
  | Trap s1, Trap s2 => extends s1 s2
  | Oof, Oof => True
  | Stuck, _ => True
  | _, _ => False
  end.
Proof.
  intros X num1 num2 ext ord_i ord_c infer m on generic only m' lib Pi Pc E is.
  destruct (@instrument_runs X num1 num2 ext _ _ _ _ _ _ _ _ _ Pi Pc E) as (aps & _ & _ & _ & R).
  exists (tabs generic aps), (segs generic). intros n f args s. specialize (R n f args s). fold is in R.
  change (St _ _ _ _ _ _) with (emb (tabs generic aps) (segs generic) s).
  destruct (spec num1 num2 ext infer m on generic only is n (CFun f) args s) as [[os s1]|s1| |]; simpl in R.
  - rewrite R. split; [reflexivity|apply extends_emb].
  - rewrite R. apply extends_emb.
  - exact I.
  - rewrite R. exact I.
Qed.
Print Assumptions C07_calls.

(** C12: the function generated for a branch table, called with any index (an unsigned bit
    pattern), returns the index and the label the branch table takes, and changes nothing. *)
Theorem C12_helper_computes_label : forall X num1 num2 (ext : string -> string -> list val -> xprog X)
    fs n f p table d i s,
  nth_error fs f = Some (helper_fn (p, (table, d))) -> (0 <= i)%Z ->
  call_fn num1 num2 ext fs (S n) f [vi32 i] s =
  Ok ([vi32 i; vi32 (Z.of_nat (match nth_error table (Z.to_nat i) with Some l => l | None => d end))], s).
Proof.
  intros X num1 num2 ext fs n f p table d i s E L. rewrite (@br_helper_call X num1 num2 ext fs n f p table d i s L E).
  destruct (nth_error table (Z.to_nat i)) as [l|] eqn:N.
  - now rewrite (nth_error_nth _ _ _ N).
  - rewrite nth_overflow; [reflexivity|]. now apply nth_error_None.
Qed.
Print Assumptions C12_helper_computes_label.
(** The label is the one the branch instruction itself takes. *)
Theorem C12_label_is_taken : forall X num1 num2 ftype (call : nat -> list val -> store X -> res (store X) (list val * store X))
    table d i st ls s,
  exec num1 num2 ftype call (BBrTable table d) (vi32 i :: st) ls s =
  Ok (OBr (match nth_error table (Z.to_nat i) with Some l => l | None => d end), st, ls, s).
Proof.
  intros X num1 num2 ftype call table d i st ls s. simpl.
  destruct (nth_error table (Z.to_nat i)) as [l|] eqn:N.
  - now rewrite (nth_error_nth _ _ _ N).
  - rewrite nth_overflow; [reflexivity|]. now apply nth_error_None.
Qed.
Print Assumptions C12_label_is_taken.
Example ex_helper :
  call_fn ex_num1 ex_num2 (fun _ _ _ => XTrap) [helper_fn (9, ([3; 0; 4], 1))] 1 0 [vi32 2] (St None [] [] [] [] tt)
  = Ok ([vi32 2; vi32 4], St None [] [] [] [] tt) /\
  call_fn ex_num1 ex_num2 (fun _ _ _ => XTrap) [helper_fn (9, ([3; 0; 4], 1))] 1 0 [vi32 (2 ^ 32 - 1)] (St None [] [] [] [] tt)
  = Ok ([vi32 (2 ^ 32 - 1); vi32 1], St None [] [] [] [] tt).
Proof. split; reflexivity. Qed.

(** An analysis that logs every call it gets and hands values back. *)
Definition ex_log (ns name : string) (args : list val) : xprog (list (string * list val)) :=
  XGet (fun x m g => XPut (x ++ [(name, args)]) m g
    (XRet (match find (fun h => String.eqb (trap_name h) name) all_hooks_order with
           | Some h => match trap_results h with [] => [] | _ => firstn 1 args end
           | None => [] end))).
Definition ex_on (h : hook) : bool :=
  match h with
  | HkCallPre | HkCallIndPre | HkBrTable | HkIfThenElse | HkConst TI32 | HkBlockPre | HkLocal LGet TI32 => true
  | _ => false
  end.
Definition ex_calls : list (string * list val) := [("sum", [vi32 1]); ("poke", [vi32 1]); ("poke", [vi32 0]); ("instrumented_memory_size", [vi32 0])].
Definition ex_session :=
  match ex_out ex_on false None with
  | Some m' => Some (run_module ex_num1 ex_num2 ex_log 9 ex_imports m' [] ex_calls)
  | None => None
  end.
Example ex_sessions :
  match ex_session, spec_module ex_num1 ex_num2 ex_log ex_types ex_on false None [] 9 ex_imports ex_module [] ex_calls with
  | Some (Ok (outs', s')), Ok (outs, s) =>
      outs = [Some [vi32 1]; Some [vi32 100]; Some [vi32 100]; Some [vi32 1]] /\ outs' = outs /\
      List.length (st_x s) = 44 /\ st_x s' = st_x s /\
      firstn 3 (st_x s') = [("trap_local_get_i32", [vi32 1; vi64 0; vi64 1; vi64 0]);
                            ("specialized_if_then_else_k", [vi32 0; vi32 0; vi32 1; vi64 1; vi64 2]);
                            ("trap_local_get_i32", [vi32 1; vi64 0; vi64 1; vi64 5])]
  | _, _ => False
  end.
Proof. vm_compute. repeat split. Qed.
