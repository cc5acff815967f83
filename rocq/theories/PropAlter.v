(** Property theorems C90: an analysis that decides otherwise makes the program behave as if it had been edited; the WASP files of
    the integration tests that do so (tests/analyses/wasp-as/*-alter.wasp). *)
From Coq Require Import Permutation.
From Verif Require Import Semantics Names Advice Interface Wasp Instantiate NestingSpec Nesting NestingProofs
  Typing ModuleTyping InstantiateTyping Checker ExModule Instrument PropInstrument PropSpec PropTyping
  TypingProofs WeaveTyping SessionProofs WaspAs WaspAsProofs Edit AlterProofs.
Local Open Scope string_scope.
Local Open Scope list_scope.
Local Open Scope res_scope.

(** ** Any analysis that answers the hooks about decisions
    The hooks are those before [select], [if], [br_if], [br_table] and [call_indirect]. If the analysis answers as straight-line
    code would compute, the instrumented module behaves as the module with that code inserted before these instructions. *)
Section Decisions.
  Context {X : Type}.
  Variable num1 : unop -> Z -> option Z.
  Variable num2 : binop -> Z -> Z -> option Z.
  (** The functions of the host and of the analysis. *)
  Variable host : string -> string -> list val -> xprog X.
  Variable analysis : string -> list val -> xprog X.
  Definition beside_analysis (ns name : string) (args : list val) : xprog X :=
    if String.eqb ns analysis_ns then analysis name args else host ns name args.
  Variable I : X -> Prop.
  Variables ord_i ord_c : list nat -> list nat.
  Variable infer : nat -> list low -> option (list ity).
  Variable m : module.
  Variable on : hook -> bool.
  Variable only : option (list nat).
  Variable imp : provided.
  Variable m' : module.
  Variable lib : option (list functy).
  Hypothesis Pi : forall l, Permutation (ord_i l) l.
  Hypothesis Pc : forall l, Permutation (ord_c l) l.
  Hypothesis E : instrument ord_i ord_c infer m (std_ai on false) only = IOk m' lib.
  Hypothesis V : valid m.
  Hypothesis U : in_format m.
  Hypothesis AN : annotates infer m.
  Hypothesis PV : provided_ok m imp.
  Hypothesis HO : hosts_ok host I m (plain_xty m).
  Hypothesis NA : forall f fn ns name, nth_error (md_funcs m) f = Some fn -> fn_code fn = FImport ns name -> ns <> analysis_ns.
  Hypothesis ON : forall h, on h = true -> decision h = true.
  (** The analysis answers by a function of the operand of the instruction. *)
  Variable answer : hook -> Z -> Z.
  Hypothesis AS : forall h c rest, on h = true -> map typeof (vi32 c :: rest) = map TNum (trap_args h) ->
    analysis (trap_name h) (vi32 c :: rest) = XRet [vi32 (answer h c)] /\ (0 <= answer h c < 2 ^ 32)%Z.
  (** The inserted code computes it. *)
  Variable edit : hook -> list basic.
  Hypothesis OFF : forall h, on h = false -> edit h = [].
  Hypothesis ET : edits_typed edit.
  Hypothesis CP : computes (X := X) num1 num2 on edit answer.
  Hypothesis U1 : in_format (edited_module edit m only).
  Notation typed_calls := (Forall (fun c => exists ft, plain_xty m (fst c) = Some ft /\
                                     Forall2 (val_ok (List.length (md_funcs m))) (snd c) (ft_in ft))).
  Notation edited_run := (fun n x calls => run_module num1 num2 host n imp (edited_module edit m only) x calls).
  Notation instrumented_run := (fun n x calls => run_module num1 num2 beside_analysis n imp m' x calls).
  Lemma xty_more name ft : plain_xty m name = Some ft -> spec_xty m false [] name = Some ft.
  Proof using.
    unfold plain_xty, spec_xty, export_callee. destruct (export_index 0 (md_funcs m) name) as [f|]; [|discriminate]. auto.
  Qed.
  Lemma agent_more ts (p : xprog X) : agent_ok (ctx_of m) I (plain_xty m) ts p -> agent_ok (ctx_of m) I (spec_xty m false []) ts p.
  Proof using.
    induction p as [vs| | |k IH|x mm g p IH|name args k IH]; cbn [agent_ok]; auto.
    - intros (A & B & C & D). auto.
    - intros (ft & A & B & C). exists ft. auto using xty_more.
  Qed.
  Lemma decision_args h vs nf : decision h = true -> Forall2 (val_ok nf) vs (map TNum (trap_args h)) ->
    exists c rest, vs = vi32 c :: rest /\ map typeof vs = map TNum (trap_args h).
  Proof using.
    intros D F. assert (T : map typeof vs = map TNum (trap_args h)).
    { clear D. revert F. generalize (map TNum (trap_args h)) as ts. intros ts F. induction F as [|v t vs ts Q F IH]; [reflexivity|]. cbn [map]. rewrite IH. f_equal. exact (proj1 Q). }
    destruct vs as [|[t c|r o] rest].
    - destruct h; discriminate.
    - exists c, rest. split; [|exact T]. f_equal. cbn [map typeof] in T. destruct h; try discriminate D; cbn in T; injection T as -> _; reflexivity.
    - exfalso. destruct h; try discriminate D; discriminate T.
  Qed.
  Theorem C90_decisions : forall n x calls, I x -> typed_calls calls ->
    match edited_run n x calls with
    | Ok (outs, s) => exists s', instrumented_run (S n) x calls = Ok (outs, s') /\ extends s s'
    | Trap s => exists s', instrumented_run (S n) x calls = Trap s' /\ extends s s'
    | Stuck => False
    | Oof => True
    end /\
    match instrumented_run n x calls with
    | Ok (outs, s') => exists s, edited_run n x calls = Ok (outs, s) /\ extends s s'
    | Trap s' => exists s, edited_run n x calls = Trap s /\ extends s s'
    | Stuck => False
    | Oof => True
    end.
  Proof.
    intros n x calls Ix T. cbv beta.
    assert (AG : agents_ok beside_analysis I m on false []).
    { intros ft ns name args [f fn ns0 name0 N C|h O|f []|f fn o []] F; unfold beside_analysis.
      - destruct (String.eqb_spec ns0 analysis_ns) as [Q|_]; [now destruct (NA f N C)|]. apply agent_more. now apply (@HO f fn).
      - rewrite String.eqb_refl. cbn [ft_in ft_out] in *.
        destruct (decision_args h (ON O) F) as (c & rest & -> & Ty). destruct (AS O Ty) as (-> & B). cbn [agent_ok].
        rewrite (trap_decision h (ON O)). constructor; [|constructor]. apply num_ok; cbn; lia. }
    assert (AW : answers beside_analysis on answer).
    { intros h c rest export s O Ty. unfold beside_analysis. rewrite String.eqb_refl. destruct (AS O Ty) as (-> & B). split; [reflexivity|exact B]. }
    assert (T2 : Forall (fun c => exists ft, spec_xty m false [] (fst c) = Some ft /\ Forall2 (val_ok (List.length (md_funcs m))) (snd c) (ft_in ft)) calls).
    { eapply Forall_impl; [|exact T]. intros c (ft & A & B). exists ft. auto using xty_more. }
    assert (SM : forall k, run_module num1 num2 host k imp (edited_module edit m only) x calls =
                           run_module num1 num2 beside_analysis k imp (edited_module edit m only) x calls).
    { intros k. apply run_module_same. intros f fn ns name args N C. pose proof (edited_import edit m only f N C) as N0.
      unfold beside_analysis. destruct (String.eqb_spec ns analysis_ns) as [Q|_]; [now destruct (NA f N0 C)|reflexivity]. }
    assert (NS : forall k, run_module num1 num2 host k imp (edited_module edit m only) x calls <> Stuck).
    { intros k. apply (@plain_module_ok X num1 num2 I); auto using edited_valid, edited_provided.
      - intros f fn ns name args N C F. unfold ctx_of. rewrite edited_mctx.
        rewrite edited_length in F. pose proof (@HO f fn ns name args (edited_import edit m only f N C) C F) as H.
        revert H. generalize (host ns name args) as p. unfold ctx_of. clear. intros p.
        induction p as [vs| | |k IH|x mm g p IH|nm args k IH]; cbn [agent_ok]; auto.
        + intros (A & B & D & H). auto.
        + intros (ft & A & B & D). exists ft. rewrite edited_xty. auto.
      - eapply Forall_impl; [|exact T]. intros c (ft & A & B). exists ft. rewrite edited_xty, edited_length. auto. }
    assert (W : forall k, match spec_module num1 num2 beside_analysis infer on false only [] k imp m x calls,
                                run_module num1 num2 beside_analysis k imp m' x calls with
              | Ok (outs, s), Ok (outs', s') => outs' = outs /\ extends s s'
              | Trap s, Trap s' => extends s s' | Oof, Oof => True | _, _ => False end).
    { intros k. exact (@C16_output_sessions X num1 num2 beside_analysis I infer m on false only ord_i ord_c imp m' lib Pi Pc E V U AN PV AG k x calls Ix T2). }
    split.
    - pose proof (@edited_modules X true num1 num2 beside_analysis infer m AN on ON only edit OFF answer AW CP n imp x calls) as A.
      specialize (W (S n)). unfold fuel' in A. rewrite <- SM in A. specialize (NS n).
      destruct A as [A|[A|[A|A]]]; [contradiction|rewrite A in W; contradiction|rewrite A; exact Logic.I|]. rewrite A in W.
      destruct (run_module num1 num2 host n imp _ x calls) as [[outs s]|s| |]; try exact Logic.I; try contradiction;
        (destruct (run_module num1 num2 beside_analysis (S n) imp m' x calls) as [[outs' s']|s'| |]; try contradiction).
      + destruct W as (-> & W). eauto.
      + eauto.
    - pose proof (@edited_modules X false num1 num2 beside_analysis infer m AN on ON only edit OFF answer AW CP n imp x calls) as A.
      specialize (W n). unfold fuel' in A. rewrite <- SM in A. specialize (NS n).
      destruct A as [A|[A|[A|A]]]; [contradiction|rewrite A in W; contradiction| |].
      + rewrite A in W. destruct (run_module num1 num2 beside_analysis n imp m' x calls) as [[? ?]|?| |]; (contradiction || exact Logic.I).
      + rewrite A in W. destruct (run_module num1 num2 host n imp (edited_module edit m only) x calls) as [[outs s]|s| |];
          (destruct (run_module num1 num2 beside_analysis n imp m' x calls) as [[outs' s']|s'| |]; try contradiction; try exact Logic.I).
        * destruct W as (-> & W). eauto.
        * eauto.
  Qed.
End Decisions.
Print Assumptions C90_decisions.

(** ** The WASP files *)
(** The files tests/analyses/wasp-as/{select,if-then,if-then-else,branch-if,br-table}-alter.wasp. *)
Inductive altering := SelectAlter | IfThenAlter | IfThenElseAlter | BranchIfAlter | BrTableAlter.
(** The files; comments and layout of the guest code are left out. *)
Definition altering_wasp (a : altering) : list advice_def :=
  match a with
  | SelectAlter => [ATrap (TSelect "condition" "if (condition.is_then) { return condition.continue_else; }; if (condition.is_else) { return condition.continue_then; };")]
  | IfThenAlter => [ATrap (TIfThen "condition" "if (condition.is_then) { return condition.continue_skip; }; if (condition.is_skip) { return condition.continue_then; };")]
  | IfThenElseAlter => [ATrap (TIfThenElse "condition" "if (condition.is_then) { return condition.continue_else; }; if (condition.is_else) { return condition.continue_then; };")]
  | BranchIfAlter => [ATrap (TBrIf "condition" "label" "if (condition.is_branch) { return condition.continue_skip; }; if (condition.is_skip) { return condition.continue_branch; };")]
  | BrTableAlter => [ATrap (TBrTable "trg" "dflt" "return trg.target + 1;")]
  end.
(** What the guest code means: *-alter.wasp. *)
Definition altering_guest {X : Type} (t : trap_sig) (sc : scope) : xprog X :=
  match t with
  | TSelect c _ => match lookup c sc with Some (OSelectCondition a b) => two_way a b ELSE_KONTN THEN_KONTN | _ => XStuck end
  | TIfThen c _ => match lookup c sc with Some (OIfThenCondition a b) => two_way a b SKIP_KONTN THEN_KONTN | _ => XStuck end
  | TIfThenElse c _ => match lookup c sc with Some (OIfThenElseCondition a b) => two_way a b ELSE_KONTN THEN_KONTN | _ => XStuck end
  | TBrIf c _ _ => match lookup c sc with Some (OBrIfCondition a b) => two_way a b SKIP_KONTN THEN_KONTN | _ => XStuck end
  | TBrTable x _ _ => match lookup x sc with Some (OBrTableTarget z) => XRet [vi32 (plus32 z 1)] | _ => XStuck end
  | _ => XStuck
  end.
(** What is generated from the file. *)
Definition altering_program (a : altering) : as_program := match generate (altering_wasp a) with Some p => p | None => AsProgram [] [] [] end.
(** The hook each file is about. *)
Definition altered_hook (a : altering) : hook :=
  match a with SelectAlter => HkSelect | IfThenAlter => HkIfThen | IfThenElseAlter => HkIfThenElse | BranchIfAlter => HkBrIf | BrTableAlter => HkBrTable end.
(** What the files come to: the condition is inverted; the next entry of the table is taken. *)
Definition inserted (a : altering) : list basic :=
  match a with BrTableAlter => [BConst TI32 1; BBinary I32Add] | _ => [BUnary I32Eqz] end.
(** The edit: only before the instructions of that hook. *)
Definition altering_edit (a : altering) (h : hook) : list basic := if hook_eqb h (altered_hook a) then inserted a else [].
(** The number the file answers. *)
Definition altering_answer (a : altering) (c : Z) : Z :=
  match a with BrTableAlter => ((c + 1) mod 2 ^ 32)%Z | _ => if (c =? 0)%Z then 1%Z else 0%Z end.
Lemma altering_on a h : advised_by (altering_wasp a) h = hook_eqb h (altered_hook a).
Proof. destruct a, h; reflexivity. Qed.

Lemma altering_typed a : edits_typed (altering_edit a).
Proof.
  intros h C rest. unfold altering_edit. destruct (hook_eqb h (altered_hook a)); [|constructor]. unfold inserted.
  assert (Q : seq_ok C [UBasic (BUnary I32Eqz)] (i32 :: rest) (i32 :: rest)).
  { exact (@seq_ok_basic C (BUnary I32Eqz) [i32] [i32] rest (ty_unary C I32Eqz)). }
  assert (P : seq_ok C [UBasic (BConst TI32 1); UBasic (BBinary I32Add)] (i32 :: rest) (i32 :: rest)).
  { apply (@seq_ok_app C [UBasic (BConst TI32 1)] [UBasic (BBinary I32Add)] _ (i32 :: i32 :: rest)).
    - exact (@seq_ok_basic C (BConst TI32 1) [] [i32] (i32 :: rest) (ty_const C TI32 1)).
    - exact (@seq_ok_basic C (BBinary I32Add) [i32; i32] [i32] rest (ty_binary C I32Add)). }
  destruct a; assumption.
Qed.
Lemma altering_computes {X : Type} num1 num2 a : computes (X := X) num1 num2 (advised_by (altering_wasp a)) (altering_edit a) (fun _ => altering_answer a).
Proof.
  intros h O ftype call loops st ls s. rewrite altering_on in O. unfold altering_edit. rewrite O.
  split; [intros c; now destruct a|].
  intros v T. destruct v as [t z|r o]; destruct a; try (destruct t); try reflexivity; now destruct T.
Qed.
Lemma altering_answers {X : Type} a h c rest : advised_by (altering_wasp a) h = true -> map typeof (vi32 c :: rest) = map TNum (trap_args h) ->
  as_analysis (@altering_guest X) (altering_program a) (trap_name h) (vi32 c :: rest) = XRet [vi32 (altering_answer a c)] /\
  (0 <= altering_answer a c < 2 ^ 32)%Z.
Proof.
  intros O T. split.
  - rewrite altering_on in O. unfold hook_eqb in O. destruct (hook_eq_dec h (altered_hook a)) as [->|]; [|discriminate O]. clear O.
    assert (NU : Forall (fun v => exists t z, v = VNum t z) rest).
    { apply Forall_forall. intros v J. cbn [map] in T. assert (J' : In (typeof v) (tl (map TNum (trap_args (altered_hook a))))) by (rewrite <- T; cbn [tl]; now apply in_map).
      destruct v as [t z|r o]; [eauto|exfalso]. destruct a; cbn in J'; repeat destruct J' as [J'|J']; discriminate || contradiction. }
    assert (L : List.length (vi32 c :: rest) = List.length (trap_args (altered_hook a))) by (rewrite <- (map_length typeof), T; apply map_length).
    destruct a; cbn [altered_hook trap_args List.length] in L; repeat (destruct rest as [|? rest]; try discriminate L); clear L T;
      repeat match goal with H : Forall _ (_ :: _) |- _ => inversion_clear H end;
      repeat match goal with H : exists _, _ |- _ => destruct H as (? & ? & ->) end;
      cbn; try reflexivity; unfold two_way, branches; change BRANCH_FAIL with 0%Z; destruct (c =? 0)%Z; reflexivity.
  - unfold altering_answer. destruct a; try (destruct (c =? 0)%Z; lia).
Qed.

Section Files.
  Context {X : Type}.
  Variable num1 : unop -> Z -> option Z.
  Variable num2 : binop -> Z -> Z -> option Z.
  Variable host : string -> string -> list val -> xprog X.
  Variable I : X -> Prop.
  Variables ord_i ord_c : list nat -> list nat.
  Variable infer : nat -> list low -> option (list ity).
  Variable m : module.
  Variable a : altering.
  Variable ai : interface.
  Hypothesis EI : interface_of_root (altering_wasp a) = Some ai.
  Variable only : option (list nat).
  Variable imp : provided.
  Variable m' : module.
  Variable lib : option (list functy).
  Hypothesis Pi : forall l, Permutation (ord_i l) l.
  Hypothesis Pc : forall l, Permutation (ord_c l) l.
  Hypothesis E : instrument ord_i ord_c infer m ai only = IOk m' lib.
  Hypothesis V : valid m.
  Hypothesis U : in_format m.
  Hypothesis AN : annotates infer m.
  Hypothesis PV : provided_ok m imp.
  Hypothesis HO : hosts_ok host I m (plain_xty m).
  Hypothesis NA : forall f fn ns name, nth_error (md_funcs m) f = Some fn -> fn_code fn = FImport ns name -> ns <> analysis_ns.
  Notation m1 := (edited_module (altering_edit a) m only).
  Hypothesis U1 : in_format m1.
  Notation typed_calls := (Forall (fun c => exists ft, plain_xty m (fst c) = Some ft /\
                                     Forall2 (val_ok (List.length (md_funcs m))) (snd c) (ft_in ft))).
  Notation edited_run := (fun n x calls => run_module num1 num2 host n imp m1 x calls).
  (** The program compiled from the WASP file beside the host. *)
  Notation instrumented_run := (fun n x calls =>
    run_module num1 num2 (beside_analysis host (as_analysis altering_guest (altering_program a))) n imp m' x calls).
  (** The instrumented module with the compiled file beside it behaves as the program with the condition of every such instruction
      inverted, or with one added to the index of every [br_table]. *)
  Theorem C90_files : forall n x calls, I x -> typed_calls calls ->
    match edited_run n x calls with
    | Ok (outs, s) => exists s', instrumented_run (S n) x calls = Ok (outs, s') /\ extends s s'
    | Trap s => exists s', instrumented_run (S n) x calls = Trap s' /\ extends s s'
    | Stuck => False
    | Oof => True
    end /\
    match instrumented_run n x calls with
    | Ok (outs, s') => exists s, edited_run n x calls = Ok (outs, s) /\ extends s s'
    | Trap s' => exists s, edited_run n x calls = Trap s /\ extends s s'
    | Stuck => False
    | Oof => True
    end.
  Proof.
    intros n x calls Ix T.
    assert (E' : instrument ord_i ord_c infer m (std_ai (advised_by (altering_wasp a)) false) only = IOk m' lib).
    { rewrite (@instrument_wasp ord_i ord_c infer m (altering_wasp a) ai only EI) in E.
      replace (instruments_generic_apply (altering_wasp a)) with false in E by (clear; now destruct a). exact E. }
    assert (ON : forall h, advised_by (altering_wasp a) h = true -> decision h = true).
    { intros h O. rewrite altering_on in O. unfold hook_eqb in O. destruct (hook_eq_dec h (altered_hook a)) as [->|]; [|discriminate O]. clear. now destruct a. }
    apply (@C90_decisions X num1 num2 host (as_analysis altering_guest (altering_program a)) I ord_i ord_c infer m (advised_by (altering_wasp a)) only imp m' lib
      Pi Pc E' V U AN PV HO NA ON (fun _ => altering_answer a) (altering_answers a) (altering_edit a)); auto using altering_typed, altering_computes.
    intros h O. rewrite altering_on in O. unfold altering_edit. now rewrite O.
  Qed.
End Files.
Print Assumptions C90_files.

(** ** Examples: programs of the integration tests and what is expected of them
    (tests/input-programs/wat/{select,if-then-simple,if-then-else-simple,br-if-to-blocks,br-table}.wat, test-configurations.json),
    as the functions of one module. *)
(** Instructions. *)
Definition get_ (i : nat) : low := LBasic (BLocal LGet i).
Definition set_ (i : nat) : low := LBasic (BLocal LSet i).
Definition const_ (z : Z) : low := LBasic (BConst TI32 z).
Definition choices_module : module :=
  Mod [Fn (FT [t_i32; t_i32; t_i32] [t_i32]) (FPresent [] [get_ 0; get_ 1; get_ 2; LBasic BSelect; LEnd]) ["select"];
       Fn ex_i32_1 (FPresent [t_i32] [const_ 2; set_ 1; get_ 0; LBasic (BUnary I32Eqz); LIf (FT [] []);
         get_ 1; const_ (2 ^ 32 - 1); LBasic (BBinary I32Add); set_ 1; LEnd; get_ 1; LEnd]) ["if-then"];
       Fn ex_i32_1 (FPresent [] [const_ 0; get_ 0; LBasic (BBinary I32Eq); LIf (FT [] [t_i32]); const_ 1; LElse; const_ 2; LEnd; LEnd]) ["if-then-else"];
       Fn ex_i32_1 (FPresent [t_i32] [const_ 100; set_ 1; LBlock (FT [] []); LBlock (FT [] []);
         get_ 0; const_ 111; LBasic (BBinary I32Eq); LBasic (BBrIf 1); get_ 0; const_ 222; LBasic (BBinary I32Eq); LBasic (BBrIf 0);
         get_ 1; const_ 10; LBasic (BBinary I32Add); set_ 1; LEnd; get_ 1; const_ 1; LBasic (BBinary I32Add); set_ 1; LEnd; get_ 1; LEnd]) ["if-label"];
       Fn ex_i32_1 (FPresent [] [LBlock (FT [] []); LBlock (FT [] []); LBlock (FT [] []); LBlock (FT [] []);
         get_ 0; LBasic (BBrTable [2; 1; 0] 3); LEnd; const_ 2; LBasic BReturn; LEnd; const_ 1; LBasic BReturn; LEnd; const_ 0; LBasic BReturn; LEnd;
         const_ (2 ^ 32 - 1); LEnd]) ["br-table"]]
      [] [] [] [] [] None.
Definition choices_infer (_ : nat) (l : list low) : option (list ity) :=
  Some (map (fun i => match i with
    | LBasic (BLocal LGet _) | LBasic (BConst _ _) => IReach (FT [] [t_i32])
    | LBasic (BLocal LSet _) | LBasic (BBrIf _) | LBasic (BBrTable _ _) | LBasic BReturn => IReach (FT [t_i32] [])
    | LBasic (BUnary _) => IReach (FT [t_i32] [t_i32])
    | LBasic (BBinary _) => IReach (FT [t_i32; t_i32] [t_i32])
    | LBasic BSelect => IReach (FT [t_i32; t_i32; t_i32] [t_i32])
    | _ => IReach (FT [] []) end) l).
Lemma choices_checked : check_funcs choices_module choices_infer = true. Proof. reflexivity. Qed.
Lemma choices_valid : valid choices_module.
Proof.
  constructor; simpl; try (now constructor).
  - exact (proj1 (check_funcs_sound _ _ choices_checked)).
  - split; [constructor|lia].
  - intros [|i] g E; discriminate E.
  - repeat constructor; simpl; intuition discriminate.
Qed.
Lemma choices_in_format : in_format choices_module.
Proof. unfold in_format, u32. simpl. split; [lia|]. repeat split; repeat (constructor; simpl); unfold u32; simpl; try lia. Qed.
Lemma choices_edited_in_format a : in_format (edited_module (altering_edit a) choices_module None).
Proof.
  destruct a; match goal with |- in_format ?e => let e' := eval vm_compute in e in replace e with e' by (vm_compute; reflexivity) end;
    unfold in_format, u32; simpl; (split; [lia|]); repeat split; repeat (constructor; simpl); unfold u32; simpl; try lia.
Qed.
Definition nobody (ns name : string) (args : list val) : xprog unit := XStuck.
Definition outs_of {X} (r : res (store X) (list (option (list val)) * store X)) : option (list (option (list val))) :=
  match r with Ok (outs, _) => Some outs | _ => None end.
Definition choices_calls (a : altering) : list (string * list val) :=
  match a with
  | SelectAlter => [("select", [vi32 111; vi32 999; vi32 0]); ("select", [vi32 111; vi32 999; vi32 1])]
  | IfThenAlter => [("if-then", [vi32 0]); ("if-then", [vi32 1])]
  | IfThenElseAlter => [("if-then-else", [vi32 0]); ("if-then-else", [vi32 1])]
  | BranchIfAlter => [("if-label", [vi32 111]); ("if-label", [vi32 222]); ("if-label", [vi32 333])]
  | BrTableAlter => [("br-table", [vi32 0]); ("br-table", [vi32 1]); ("br-table", [vi32 2]); ("br-table", [vi32 5])]
  end.
(** The results the tests expect of the uninstrumented and of the instrumented program. *)
Definition expected (a : altering) : list Z * list Z :=
  match a with
  | SelectAlter => ([999; 111], [111; 999])
  | IfThenAlter => ([1; 2], [2; 1])
  | IfThenElseAlter => ([1; 2], [2; 1])
  | BranchIfAlter => ([100; 101; 111], [101; 100; 100])
  | BrTableAlter => ([0; 1; 2; 2 ^ 32 - 1], [1; 2; 2 ^ 32 - 1; 2 ^ 32 - 1])
  end%Z.
Definition some_i32 (z : Z) : option (list val) := Some [vi32 z].
Definition choices_output (a : altering) : option module :=
  match interface_of_root (altering_wasp a) with
  | Some ai => match instrument ex_id ex_id choices_infer choices_module ai None with IOk m' _ => Some m' | _ => None end
  | None => None
  end.
Example C90_expected_results : forall a,
  outs_of (run_module ex_num1 ex_num2 nobody 9 ex_imports choices_module tt (choices_calls a)) = Some (map some_i32 (fst (expected a))) /\
  outs_of (run_module ex_num1 ex_num2 nobody 9 ex_imports (edited_module (altering_edit a) choices_module None) tt (choices_calls a)) = Some (map some_i32 (snd (expected a))) /\
  match choices_output a with
  | Some m' => outs_of (run_module ex_num1 ex_num2 (beside_analysis nobody (as_analysis altering_guest (altering_program a))) 9 ex_imports m' tt (choices_calls a))
      = Some (map some_i32 (snd (expected a)))
  | None => False
  end.
Proof. intros []; (split; [|split]); vm_compute; reflexivity. Qed.
(** The addition of br-table-alter.wasp wraps around: the index 2^32-1, which takes the default target, becomes 0, which takes the first. *)
Example C90_br_table_wraps :
  outs_of (run_module ex_num1 ex_num2 nobody 9 ex_imports (edited_module (altering_edit BrTableAlter) choices_module None) tt
    [("br-table", [vi32 (2 ^ 32 - 1)])]) = Some [some_i32 0].
Proof. vm_compute. reflexivity. Qed.
(** The hypotheses of the theorem are met by each of the files with these programs. *)
Example C90_applies : forall a, exists ai m' lib,
  interface_of_root (altering_wasp a) = Some ai /\ instrument ex_id ex_id choices_infer choices_module ai None = IOk m' lib /\
  forall n, match run_module ex_num1 ex_num2 (beside_analysis nobody (as_analysis altering_guest (altering_program a))) n ex_imports m' tt (choices_calls a) with
    | Ok (outs, s') => exists s, run_module ex_num1 ex_num2 nobody n ex_imports (edited_module (altering_edit a) choices_module None) tt (choices_calls a) = Ok (outs, s) /\ extends s s'
    | Trap s' => exists s, run_module ex_num1 ex_num2 nobody n ex_imports (edited_module (altering_edit a) choices_module None) tt (choices_calls a) = Trap s /\ extends s s'
    | Stuck => False
    | Oof => True
    end.
Proof.
  intros a. assert (S : exists m', choices_output a = Some m') by (destruct a; vm_compute; eexists; reflexivity).
  destruct S as (m0 & S). unfold choices_output in S.
  destruct (interface_of_root (altering_wasp a)) as [ai|] eqn:EI; [|discriminate S].
  destruct (instrument ex_id ex_id choices_infer choices_module ai None) as [m' lib| |] eqn:E; [|discriminate S..]. clear m0 S.
  exists ai, m', lib. split; [reflexivity|]. split; [exact E|]. intros n.
  refine (proj2 (@C90_files unit ex_num1 ex_num2 nobody (fun _ => True) ex_id ex_id choices_infer choices_module a ai EI None ex_imports m' lib
    (fun _ => Permutation_refl _) (fun _ => Permutation_refl _) E choices_valid choices_in_format (proj2 (check_funcs_sound _ _ choices_checked)) _ _ _
    (choices_edited_in_format a) n tt (choices_calls a) Logic.I _)).
  - constructor; intros ? ? ? [].
  - intros f fn ns name args N C. do 5 (destruct f as [|f]; [injection N as <-; discriminate C|]). destruct f; discriminate N.
  - intros f fn ns name N C. do 5 (destruct f as [|f]; [injection N as <-; discriminate C|]). destruct f; discriminate N.
  - destruct a; repeat (apply Forall_cons; [eexists; split; [reflexivity|repeat (constructor; simpl; try lia)]|]); apply Forall_nil.
Qed.
