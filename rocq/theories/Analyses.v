(** Analyses of the repository that keep statistics and otherwise forward everything: the state they
    keep, how each piece of advice changes it, and what their exported functions report.

    The analyses are compiled in release mode (supported-languages/rust/src/compile/compiler.rs L19), in which
    integer arithmetic wraps. Hash maps are association lists; only operations whose result does not
    depend on the iteration order of the map are modelled. *)
From Verif Require Import Semantics RsStdlib StackLib StackSpec System Trace ForwardRel ForwardProofs Recorder RunLemmas SystemProofs AccessProofs.
Local Open Scope string_scope.
Local Open Scope list_scope.
Local Open Scope res_scope.

(** Two's complement of width [k], as a signed number. *)
Definition wrapS (k z : Z) : Z := ((z + 2 ^ (k - 1)) mod 2 ^ k - 2 ^ (k - 1))%Z.

(** ** Advice around intercepted calls that does not look at arguments and results *)
Section Tally.
  Context {Y A : Type}.
  Notation X := (sys (A * Y)).
  Variable obs : A -> event -> A.
  (** [apply (func, args, results) { update; func.apply(); update }] *)
  Definition tally_apply (f : wasm_function) (_ _ : runtime_values) : xprog X :=
    note obs (EvEnter (Z.to_nat (wf_index f)) (is_present f) [])
      (xbind (wasm_function_apply f) (fun _ => note obs (EvLeave (Z.to_nat (wf_index f)) []) (XRet []))).
  (** The update does not look at arguments and results of calls. *)
  Definition blind : Prop := forall a, (forall f c args, obs a (EvEnter f c args) = obs a (EvEnter f c [])) /\
    (forall f rs, obs a (EvLeave f rs) = obs a (EvLeave f [])).
  Lemma tally_notes_calls sigs : blind -> notes_calls obs sigs tally_apply.
  Proof.
    intros B export frs ifs ft q qt args k f code l a s Hl.
    exists l, (fun _ => note obs (EvLeave f []) (XRet [])). split; [exact Hl|]. split.
    - unfold tally_apply. cbn [wf_index]. rewrite run_note, run_x_bind, Nat2Z.id.
      replace (is_present _) with code by (destruct code; reflexivity). rewrite <- (proj1 (B a) f code args).
      unfold wasm_function_apply. cbn [wf_apply wf_sigv run_x].
      destruct (export "call_base" _ _) as [[vs s1]|s1| |]; reflexivity.
    - intros vs rs l2 a2 s2 H2. exists [], l2. split; [|exact H2]. rewrite run_note, (proj2 (B a2) f rs). reflexivity.
  Qed.
End Tally.

(** ** Maps *)
Section Maps.
  Context {K V : Type}.
  Variable eqb : K -> K -> bool.
  Definition kmap := list (K * V).
  Fixpoint kget (k : K) (m : kmap) : option V :=                     (* HashMap::get *)
    match m with [] => None | (k', v) :: r => if eqb k k' then Some v else kget k r end.
  Fixpoint kput (k : K) (v : V) (m : kmap) : kmap :=                 (* HashMap::insert *)
    match m with [] => [(k, v)] | (k', v') :: r => if eqb k k' then (k', v) :: r else (k', v') :: kput k v r end.
  (** [entry(k).and_modify(f).or_insert(d)] *)
  Definition modify_or_insert (k : K) (f : V -> V) (d : V) (m : kmap) : kmap :=
    match kget k m with Some v => kput k (f v) m | None => kput k d m end.
  Hypothesis eqb_eq : forall a b, eqb a b = true <-> a = b.
  Lemma get_put k v m k' : kget k' (kput k v m) = if eqb k' k then Some v else kget k' m.
  Proof.
    induction m as [|[k1 v1] m IH]; cbn [kput kget]; [destruct (eqb k' k); reflexivity|].
    destruct (eqb k k1) eqn:E1; cbn [kget].
    - apply eqb_eq in E1. subst k1. destruct (eqb k' k); reflexivity.
    - rewrite IH. destruct (eqb k' k1) eqn:E2; [|reflexivity]. destruct (eqb k' k) eqn:E3; [|reflexivity].
      apply eqb_eq in E2, E3. subst. rewrite (proj2 (eqb_eq k1 k1) eq_refl) in E1. discriminate.
  Qed.
  Lemma get_modify k f d m k' : kget k' (modify_or_insert k f d m) =
    if eqb k' k then Some (match kget k' m with Some v => f v | None => d end) else kget k' m.
  Proof.
    unfold modify_or_insert. destruct (eqb k' k) eqn:E.
    - apply eqb_eq in E. subst k'. destruct (kget k m) as [v|] eqn:G; rewrite get_put, (proj2 (eqb_eq k k) eq_refl); reflexivity.
    - destruct (kget k m); rewrite get_put, E; reflexivity.
  Qed.
End Maps.
(** Derived [PartialEq] of keys. *)
Definition eqb2 (a b : Z * Z) : bool := Z.eqb (fst a) (fst b) && Z.eqb (snd a) (snd b).
(** Derived [PartialEq] of keys. *)
Definition eqb3 (a b : Z * Z * Z) : bool := eqb2 (fst a) (fst b) && Z.eqb (snd a) (snd b).
Lemma eqb2_eq a b : eqb2 a b = true <-> a = b.
Proof. destruct a, b. unfold eqb2. simpl. rewrite andb_true_iff, !Z.eqb_eq. split; [intros (-> & ->); reflexivity|now injection 1]. Qed.
Lemma eqb3_eq a b : eqb3 a b = true <-> a = b.
Proof. destruct a, b. unfold eqb3. simpl. rewrite andb_true_iff, eqb2_eq, Z.eqb_eq. split; [intros (-> & ->); reflexivity|now injection 1]. Qed.

(** ** call-stack: wastrumentation-instr-lib/tests/analyses/rust/call-stack/src/lib.rs *)
Record call_stack := CS {
  number_of_applies : Z; max_apply_depth : Z; number_of_calls : Z; max_call_depth : Z; apply_stack : Z; calls_stack : Z }.
Definition cs_zero : call_stack := CS 0 0 0 0 0 0.                   (* L35-40 *)
(** The six advices, L45ff. *)
Definition cs_obs (c : call_stack) (e : event) : call_stack :=
  let w := wrapS 32 in
  match e with
  | EvAdvice (AdCallPre _ _) =>                                      (* L42-63 *)
      let cs := w (calls_stack c + 1)%Z in
      CS (number_of_applies c) (max_apply_depth c) (w (number_of_calls c + 1)%Z) (Z.max (max_call_depth c) cs) (apply_stack c) cs
  | EvAdvice (AdCallPost _ _) =>                                     (* L65-77 *)
      CS (number_of_applies c) (max_apply_depth c) (number_of_calls c) (max_call_depth c) (apply_stack c) (w (calls_stack c - 1)%Z)
  | EvEnter _ _ _ =>                                                 (* L79-105 *)
      let s := w (apply_stack c + 1)%Z in
      CS (w (number_of_applies c + 1)%Z) (Z.max (max_apply_depth c) s) (number_of_calls c) (max_call_depth c) s (calls_stack c)
  | EvLeave _ _ =>                                                   (* L105-108 *)
      CS (number_of_applies c) (max_apply_depth c) (number_of_calls c) (max_call_depth c) (w (apply_stack c - 1)%Z) (calls_stack c)
  | _ => c
  end.
Definition cs_on (h : hook) : bool := match h with HkCallPre | HkCallPost => true | _ => false end.

(** ** opcodes: benchmarking-node/input-analyses/rust/opcodes/src/lib.rs *)
(** [InstructionIndex as usize], L21-51, of the arms of [advice!], L53-81. *)
Definition opcode_index (a : advice) : nat :=
  match a with
  | AdIfThenElse _ _ _ _ => 0 | AdIfThenElsePost _ => 1 | AdIfThen _ _ _ _ => 2 | AdIfThenPost _ => 3
  | AdBr _ _ => 4 | AdBrIf _ _ _ => 5 | AdBrTable _ _ _ _ => 6 | AdSelect _ _ => 7
  | AdCallPre _ _ => 8 | AdCallPost _ _ => 9 | AdCallIndPre _ _ _ => 10 | AdCallIndPost _ _ => 11
  | AdUnary _ _ _ => 12 | AdBinary _ _ _ _ => 13 | AdDrop _ => 14 | AdReturn _ => 15 | AdConst _ _ => 16
  | AdLocal _ _ _ _ => 17 | AdGlobal _ _ _ _ => 18 | AdLoad _ _ _ _ => 19 | AdStore _ _ _ _ _ => 20
  | AdMemorySize _ _ _ => 21 | AdMemoryGrow _ _ _ => 22 | AdBlockPre _ _ _ => 23 | AdBlockPost _ => 24
  | AdLoopPre _ _ _ => 25 | AdLoopPost _ => 26
  end.
Definition opcode_count : nat := 27.                                 (* InstructionIndex::COUNT *)
Definition opcodes_zero : list Z := repeat 0%Z opcode_count.         (* L5 *)
(** [COUNTS[i] += 1] on a usize of 32 bits, L7-9. *)
Fixpoint bump (w : Z -> Z) (i : nat) (l : list Z) : list Z :=
  match l, i with
  | [], _ => []
  | c :: r, O => w (c + 1)%Z :: r
  | c :: r, S i' => c :: bump w i' r
  end.
(** Every advice counts its instruction. *)
Definition opcodes_obs (l : list Z) (e : event) : list Z :=
  match e with EvAdvice a => bump (fun z => z mod 2 ^ 32)%Z (opcode_index a) l | _ => l end.
(** [get_count_instr]: panics if the index is out of range, L16-19. *)
Definition get_count_instr (l : list Z) (index : Z) : option Z := nth_error l (Z.to_nat (index mod 2 ^ 32)).
(** All hooks are installed. *)
Definition every_hook (_ : hook) : bool := true.

(** ** cryptominer-detection/src/lib.rs *)
Definition signature_index (o : binop) : option nat :=               (* L20-27 *)
  match o with
  | I32Add | I64Add | F32Add | F64Add => Some 0
  | I32And | I64And => Some 1
  | I32Shl | I64Shl => Some 2
  | I32ShrU | I64ShrU => Some 3
  | I32Xor | I64Xor => Some 4
  | _ => None
  end.
Definition signature_zero : list Z := repeat 0%Z 5.                  (* L5 *)
Definition signature_obs (l : list Z) (e : event) : list Z :=        (* L18-32 *)
  match e with
  | EvAdvice (AdBinary o _ _ _) => match signature_index o with Some i => bump (wrapS 64) i l | None => l end
  | _ => l
  end.
Definition get_signature (l : list Z) (index : Z) : option Z :=      (* L13-16: index.try_into().unwrap() *)
  if (index <? 0)%Z then None else nth_error l (Z.to_nat index).
(** Only [binary] is installed. *)
Definition binary_hooks (h : hook) : bool := match h with HkBinary _ => true | _ => false end.

(** ** coverage-instruction/src/lib.rs *)
Definition location_of (a : advice) : location :=
  match a with
  | AdIfThenElse _ _ _ l | AdIfThenElsePost l | AdIfThen _ _ _ l | AdIfThenPost l | AdBr _ l | AdBrIf _ _ l | AdBrTable _ _ _ l
  | AdSelect _ l | AdCallPre _ l | AdCallPost _ l | AdCallIndPre _ _ l | AdCallIndPost _ l | AdUnary _ _ l | AdBinary _ _ _ l
  | AdDrop l | AdReturn l | AdConst _ l | AdLocal _ _ _ l | AdGlobal _ _ _ l | AdLoad _ _ _ l | AdStore _ _ _ _ l
  | AdMemorySize _ _ l | AdMemoryGrow _ _ l | AdBlockPre _ _ l | AdBlockPost l | AdLoopPre _ _ l | AdLoopPost l => l
  end.
(** [BTreeMap<(i64, i64), bool>]. *)
Definition coverage := @kmap (Z * Z) bool.
(** [location.function_index()] and [location.instruction_index()] as the library names them. *)
Definition key_of (l : location) : Z * Z := (function_index l, instruction_index l).
Definition coverage_obs (m : coverage) (e : event) : coverage :=     (* L10-17, L26-52 *)
  match e with EvAdvice a => kput eqb2 (key_of (location_of a)) true m | _ => m end.
Definition get_coverage (m : coverage) (f i : Z) : Z :=              (* L19-24 *)
  match kget eqb2 (f, i) m with Some _ => 1 | None => 0 end.

(** ** loops/src/lib.rs *)
Definition loop_counts := @kmap (Z * Z) Z.
Definition loops_obs (m : loop_counts) (e : event) : loop_counts :=  (* L13-20, L38 *)
  match e with
  | EvAdvice (AdLoopPre _ _ l) => modify_or_insert eqb2 (key_of l) (fun c => wrapS 32 (c + 1)%Z) 0%Z m
  | _ => m
  end.
Definition loops_get (m : loop_counts) (f i : Z) : Z :=              (* L27-36 *)
  match kget eqb2 (f, i) m with Some c => c | None => (-1)%Z end.
(** Only [loop pre] is installed. *)
Definition loop_hooks (h : hook) : bool := match h with HkLoopPre => true | _ => false end.

(** ** block-profiling/src/lib.rs *)
Definition block_counts := @kmap (Z * Z * Z) Z.
(** The arms of [advice!] with their run-time target, L28-33. *)
Definition block_target (a : advice) : option Z :=
  match a with
  | AdIfThenElse c _ _ _ | AdIfThen c _ _ _ | AdCallIndPre c _ _ => Some c
  | AdCallPre _ _ | AdBlockPre _ _ _ | AdLoopPre _ _ _ => Some 0%Z
  | _ => None
  end.
Definition blocks_obs (m : block_counts) (e : event) : block_counts := (* L10-19 *)
  match e with
  | EvAdvice a =>
      match block_target a with
      | Some t => modify_or_insert eqb3 (key_of (location_of a), t) (fun c => wrapS 64 (c + 1)%Z) 0%Z m
      | None => m
      end
  | _ => m
  end.
Definition blocks_get (m : block_counts) (f i t : Z) : Z :=          (* L21-26 *)
  match kget eqb3 (f, i, t) m with Some c => c | None => 0%Z end.
(** Hooks installed. *)
Definition block_hooks (h : hook) : bool :=
  match h with HkIfThenElse | HkIfThen | HkCallPre | HkCallIndPre | HkBlockPre | HkLoopPre => true | _ => false end.

(** ** globals/src/lib.rs *)
Definition global_counts := @kmap Z (Z * Z).
Definition globals_obs (m : global_counts) (e : event) : global_counts := (* L12-25, L43-45 *)
  match e with
  | EvAdvice (AdGlobal _ i o _) =>
      modify_or_insert Z.eqb i
        (fun c => match o with GGet => (wrapS 32 (fst c + 1)%Z, snd c) | GSet => (fst c, wrapS 32 (snd c + 1)%Z) end) (0, 0)%Z m
  | _ => m
  end.
Definition get_inc (m : global_counts) (g read_or_write : Z) : Z :=  (* L30-41 *)
  match kget Z.eqb g m with
  | Some c => match read_or_write with 0 => fst c | 1 => snd c | _ => -1 end
  | None => (-2)%Z
  end%Z.
(** Only [global] is installed. *)
Definition global_hooks (h : hook) : bool := match h with HkGlobal _ _ => true | _ => false end.

(** ** call-graph/src/lib.rs *)
Definition call_edges := @kmap (Z * Z) unit.
Definition edges_obs (m : call_edges) (e : event) : call_edges :=    (* L10-13, L46-52 *)
  match e with EvAdvice (AdCallPre t l) => kput eqb2 (function_index l, t) tt m | _ => m end.
(** Is an edge in the map? *)
Definition has_edge (m : call_edges) (from to : Z) : bool := match kget eqb2 (from, to) m with Some _ => true | None => false end.
Definition get_total_edges (m : call_edges) : nat := List.length m.  (* L24-28 *)
(** Only [call pre] is installed. *)
Definition call_hooks (h : hook) : bool := match h with HkCallPre => true | _ => false end.

(** ** icount/src/lib.rs *)
Definition icounts := @kmap Z (list Z).
Definition icount_obs (m : icounts) (e : event) : icounts :=         (* L14-21, L81-109 *)
  match e with
  | EvAdvice a => modify_or_insert Z.eqb (function_index (location_of a)) (bump (wrapS 32) (opcode_index a)) opcodes_zero m
  | _ => m
  end.
(** [map.iter().step_by(k).next()]: the first element, whatever [k]; [step_by(0)] panics. L35-48 *)
Definition icount_get (m : icounts) (f k : Z) : option Z :=
  match kget Z.eqb f m with
  | Some l => if (k mod 2 ^ 32 =? 0)%Z then None else Some (match l with c :: _ => c | [] => (-1)%Z end)
  | None => Some (-1)%Z
  end.

(** ** branches/src/lib.rs and coverage-branch/src/lib.rs *)
(** The condition each advice notes: [c.value()], or [e.label()] of [br_table]; coverage-branch also has
    [select]. branches L23-26, coverage-branch L26-30. *)
Definition condition (select : bool) (a : advice) : option Z :=
  match a with
  | AdIfThen c _ _ _ | AdIfThenElse c _ _ _ | AdBrIf c _ _ => Some (signed 32 c)
  | AdBrTable _ e _ _ => Some (signed 32 e)
  | AdSelect c _ => if select then Some (signed 32 c) else None
  | _ => None
  end.
(** The map of conditions met. *)
Definition branch_map := @kmap (Z * Z) Z.
Definition branches_obs (select : bool) (m : branch_map) (e : event) : branch_map := (* L7-14 *)
  match e with
  | EvAdvice a => match condition select a with Some c => kput eqb2 (key_of (location_of a)) c m | None => m end
  | _ => m
  end.
Definition branches_get (m : branch_map) (f i : Z) : Z :=            (* L16-21 *)
  match kget eqb2 (f, i) m with Some c => c | None => (-1)%Z end.
(** Hooks installed by branches, and with [select] by coverage-branch. *)
Definition branch_hooks (select : bool) (h : hook) : bool :=
  match h with HkIfThen | HkIfThenElse | HkBrIf | HkBrTable => true | HkSelect => select | _ => false end.
