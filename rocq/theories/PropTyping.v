(** Property theorems C16: a valid module under instrumentation never goes wrong. *)
From Coq Require Import Permutation.
From Verif Require Import Typing TypingProofs AdvisedTyping ModuleTyping InstantiateTyping Checker
  Semantics Advice RunLemmas NestingSpec Instantiate ExModule PropSpec.
Local Open Scope string_scope.
Local Open Scope list_scope.
Local Open Scope res_scope.

(** The intercepted functions, in the order the instrumentation numbers them. *)
Definition intercepts (m : module) (generic : bool) (only : option (list nat)) (ord : list nat -> list nat) : list nat :=
  if generic then ord (filter (selected_incl m only) (indices m)) else [].
Lemma filter_len {A} (p : A -> bool) l : List.length (filter p l) <= List.length l.
Proof. induction l as [|a l IH]; simpl; [lia|]. destruct (p a); simpl; lia. Qed.
Lemma intercepts_lt m generic only ord : (forall l, Permutation (ord l) l) ->
  forall f, In f (intercepts m generic only ord) -> f < List.length (md_funcs m).
Proof.
  intros P f Hf. unfold intercepts in Hf. destruct generic; [|destruct Hf].
  apply (Permutation_in _ (P _)) in Hf. apply filter_In in Hf as [Hf _]. unfold indices in Hf. apply in_seq in Hf. lia.
Qed.
Lemma intercepts_u32 m generic only ord : (forall l, Permutation (ord l) l) -> in_format m ->
  u32 (List.length (intercepts m generic only ord)).
Proof.
  intros P (U & _). unfold u32, intercepts in *. destruct generic; [|simpl; lia].
  rewrite (Permutation_length (P _)). pose proof (filter_len (selected_incl m only) (indices m)).
  unfold indices in *. rewrite seq_length in H. lia.
Qed.

(** What a well-typed outcome is: results of the declared types, a well-typed store also after
    a trap, and never stuck. *)
Definition typed_outcome {X} (m : module) (I : X -> Prop) (ts : list valty) (r : res (store X) (list val * store X)) : Prop :=
  match r with
  | Ok (vs, s) => Forall2 (val_ok (List.length (md_funcs m))) vs ts /\ store_ok (mctx m [] []) I s
  | Trap s => store_ok (mctx m [] []) I s
  | Stuck => False
  | Oof => True
  end.
Lemma typed_outcome_of {X} m (I : X -> Prop) ts r : call_res I (ctx_of m) ts r -> typed_outcome m I ts r.
Proof. destruct r as [[vs s]|s| |]; simpl; auto. now rewrite map_length. Qed.

(** C16: any function of a valid module, called under instrumentation from any well-typed
    store, with any hooks enabled, any functions intercepted, any analysis that keeps to
    the types of its interface. *)
Theorem C16_calls : forall X num1 num2 (ext : string -> string -> list val -> xprog X) (I : X -> Prop)
    infer m on generic only ord,
  valid m -> in_format m -> annotates infer m -> (forall l, Permutation (ord l) l) ->
  agents_ok ext I m on generic (intercepts m generic only ord) ->
  forall fuel f fn args s, nth_error (md_funcs m) f = Some fn ->
  Forall2 (val_ok (List.length (md_funcs m))) args (ft_in (fn_type fn)) -> store_ok (mctx m [] []) I s ->
  typed_outcome m I (ft_out (fn_type fn))
    (spec num1 num2 ext infer m on generic only (intercepts m generic only ord) fuel (CFun f) args s).
Proof.
  intros X num1 num2 ext I infer m on generic only ord V U A P G fuel f fn args s N F D.
  apply typed_outcome_of.
  apply (@spec_ok X num1 num2 ext I m V U infer on generic only _ (@intercepts_lt m generic only ord P)
           (@intercepts_u32 m generic only ord P U) A G fuel (CFun f) (fn_type fn)); auto.
  - exact Logic.I.
  - simpl. now rewrite N.
Qed.
Print Assumptions C16_calls.

(** Whole sessions: instantiation, start function, and calls of exports with arguments of
    their types, including the exports the instrumentation adds. *)
Theorem C16_sessions : forall X num1 num2 (ext : string -> string -> list val -> xprog X) (I : X -> Prop)
    infer m on generic only ord imp,
  valid m -> in_format m -> annotates infer m -> provided_ok m imp -> (forall l, Permutation (ord l) l) ->
  agents_ok ext I m on generic (intercepts m generic only ord) ->
  forall fuel x calls, I x ->
  Forall (fun c => exists ft, spec_xty m generic (intercepts m generic only ord) (fst c) = Some ft /\
                              Forall2 (val_ok (List.length (md_funcs m))) (snd c) (ft_in ft)) calls ->
  match spec_module num1 num2 ext infer on generic only (intercepts m generic only ord) fuel imp m x calls with
  | Ok (_, s) | Trap s => store_ok (mctx m [] []) I s
  | Stuck => False
  | Oof => True
  end.
Proof.
  intros X num1 num2 ext I infer m on generic only ord imp V U A PV P G fuel x calls Ix F.
  set (is := intercepts m generic only ord) in *.
  assert (L : forall f, In f is -> f < List.length (md_funcs m)) by now apply intercepts_lt.
  assert (Lu : u32 (List.length is)) by now apply intercepts_u32.
  assert (SP := @spec_ok X num1 num2 ext I m V U infer on generic only is L Lu A G fuel).
  unfold spec_module. pose proof (@instantiate_ok X I m imp V U PV x Ix) as R.
  destruct (instantiate imp m x) as [s|s| |]; simpl in R |- *; auto. destruct R as (D & _).
  assert (ST : call_res I (ctx_of m) [] (match md_start m with
      | Some f => spec num1 num2 ext infer m on generic only is fuel (CFun f) [] s | None => Ok ([], s) end)).
  { pose proof (va_start V) as W. destruct (md_start m) as [f|]; [|simpl; auto].
    apply (SP (CFun f) (FT [] [])); simpl; auto. }
  destruct (match md_start m with Some f => _ | None => _ end) as [[vs s1]|s1| |]; simpl in ST |- *; auto.
  destruct ST as (_ & D1).
  assert (SS := @session_ok X I m (fun name args s => rbind (rget (export_callee m generic name)) (fun c =>
     spec num1 num2 ext infer m on generic only is fuel c args s)) (spec_xty m generic is) calls).
  assert (W : session_res I m (session (fun name args s => rbind (rget (export_callee m generic name)) (fun c =>
     spec num1 num2 ext infer m on generic only is fuel c args s)) calls s1)).
  { apply SS; auto. intros name ft args s' E Fa D'. unfold spec_xty in E.
    destruct (export_callee m generic name) as [c|] eqn:EE; [|discriminate]. simpl.
    apply SP; auto. eapply export_callable; eauto. }
  destruct (session _ calls s1) as [[os s2]|s2| |]; simpl in W |- *; auto.
Qed.
Print Assumptions C16_sessions.

(** With C07: sessions with the *output module* of the instrumentation never go wrong and
    have exactly the outcomes the specification prescribes. *)
Theorem C16_output_sessions : forall X num1 num2 (ext : string -> string -> list val -> xprog X) (I : X -> Prop)
    infer m on generic only ord_i ord_c imp m' lib,
  (forall l, Permutation (ord_i l) l) -> (forall l, Permutation (ord_c l) l) ->
  instrument ord_i ord_c infer m (std_ai on generic) only = IOk m' lib ->
  valid m -> in_format m -> annotates infer m -> provided_ok m imp ->
  agents_ok ext I m on generic (intercepts m generic only ord_i) ->
  forall fuel x calls, I x ->
  Forall (fun c => exists ft, spec_xty m generic (intercepts m generic only ord_i) (fst c) = Some ft /\
                              Forall2 (val_ok (List.length (md_funcs m))) (snd c) (ft_in ft)) calls ->
  match spec_module num1 num2 ext infer on generic only (intercepts m generic only ord_i) fuel imp m x calls,
        run_module num1 num2 ext fuel imp m' x calls with
  | Ok (outs, s), Ok (outs', s') => outs' = outs /\ extends s s'
  | Trap s, Trap s' => extends s s'
  | Oof, Oof => True
  | _, _ => False
  end.
Proof.
  intros X num1 num2 ext I infer m on generic only ord_i ord_c imp m' lib Pi Pc E V U A PV G fuel x calls Ix F.
  pose proof (@C16_sessions X num1 num2 ext I infer m on generic only ord_i imp V U A PV Pi G fuel x calls Ix F) as W.
  pose proof (@C07_sessions X num1 num2 ext ord_i ord_c infer m on generic only m' lib Pi Pc E fuel imp x calls) as R.
  cbv zeta in R. fold (intercepts m generic only ord_i) in R.
  destruct (spec_module _ _ _ _ _ _ _ _ _ _ _ _ _) as [[os s]|s| |]; [exact R|exact R|destruct W|exact R].
Qed.
Print Assumptions C16_output_sessions.

(** The original module, run as it is. *)
Theorem C16_original_calls : forall X num1 num2 (ext : string -> string -> list val -> xprog X) (I : X -> Prop) m,
  valid m -> in_format m -> hosts_ok ext I m (plain_xty m) ->
  forall fuel f fn args s, nth_error (md_funcs m) f = Some fn ->
  Forall2 (val_ok (List.length (md_funcs m))) args (ft_in (fn_type fn)) -> store_ok (mctx m [] []) I s ->
  typed_outcome m I (ft_out (fn_type fn)) (call_fn num1 num2 ext (md_funcs m) fuel f args s).
Proof.
  intros X num1 num2 ext I m V U H fuel f fn args s N F D. apply typed_outcome_of. apply call_fn_ok; auto.
  simpl. now rewrite nth_error_map, N.
Qed.
Print Assumptions C16_original_calls.

(** ** Instructions reported unreachable *)
(** [b'] is [b] with instructions that [b] reports unreachable replaced by anything. *)
Inductive dead_replaced : list tinstr -> list tinstr -> Prop :=
| dr_nil : dead_replaced [] []
| dr_dead m b j r r' : m_ty m = IUnreach -> dead_replaced r r' -> dead_replaced (TBasic m b :: r) (j :: r')
| dr_basic m b r r' : dead_replaced r r' -> dead_replaced (TBasic m b :: r) (TBasic m b :: r')
| dr_block m ft x x' r r' : dead_replaced x x' -> dead_replaced r r' -> dead_replaced (TBlock m ft x :: r) (TBlock m ft x' :: r')
| dr_loop m ft x x' r r' : dead_replaced x x' -> dead_replaced r r' -> dead_replaced (TLoop m ft x :: r) (TLoop m ft x' :: r')
| dr_if m ft x x' r r' : dead_replaced x x' -> dead_replaced r r' -> dead_replaced (TIf m ft x None :: r) (TIf m ft x' None :: r')
| dr_if_else m ft x x' y y' r r' : dead_replaced x x' -> dead_replaced y y' -> dead_replaced r r' ->
    dead_replaced (TIf m ft x (Some y) :: r) (TIf m ft x' (Some y') :: r').

Section Same.
  Context {X : Type}.
  Notation store := (store X).
  Definition same (f g : list val -> list val -> store -> res store (@conf X)) : Prop := forall st ls s, f st ls s = g st ls s.
  Lemma same_block f g ft : same f g -> same (run_block f ft) (run_block g ft).
  Proof. intros H st ls s. unfold run_block. destruct (rget _) as [[ps rest]| | |]; auto. cbn [rbind]. now rewrite H. Qed.
  Lemma same_iter f g nin rest : same f g -> forall k ps ls s, run_iter f k nin rest ps ls s = run_iter g k nin rest ps ls s.
  Proof.
    intros H. induction k as [|k IH]; intros ps ls s; [reflexivity|]. cbn [run_iter]. rewrite H.
    destruct (g (pushn ps []) ls s) as [[[[[|[|l]|] st] ls'] s']| | |]; simpl; auto.
    destruct (popn nin st) as [[rs x]|]; simpl; auto.
  Qed.
  Lemma same_loop k f g ft : same f g -> same (run_loop k f ft) (run_loop k g ft).
  Proof. intros H st ls s. unfold run_loop. destruct (rget _) as [[ps rest]| | |]; auto. cbn [rbind]. now apply same_iter. Qed.
  Lemma same_inside (p q f g : list val -> list val -> store -> res store (@conf X)) : same f g -> same (inside p q f) (inside p q g).
  Proof. intros H st ls s. unfold inside. apply andthen_ext. intros. now rewrite H. Qed.
End Same.

(** C16: execution does not depend on the instructions reported unreachable: none of them is
    ever executed, so none of their hooks is missed. *)
Theorem C16_unreachable_not_executed : forall X num1 num2 on ftype
    (call : nat -> list val -> store X -> res (store X) (list val * store X)) hook_call fuel C b b',
  annotated_ok C true b -> dead_replaced b b' ->
  forall st ls s, advised num1 num2 on ftype call hook_call fuel b st ls s =
                  advised num1 num2 on ftype call hook_call fuel b' st ls s.
Proof.
  intros X num1 num2 on ftype call hook_call fuel C b. revert C. unfold advised.
  induction b as [|m b r IHr|m ft body r IHb IHr|m ft body r IHb IHr|m ft thn r IHt IHr|m ft thn els r IHt IHe IHr]
    using tbody_ind; intros C b' A R st ls s.
  - inversion R. reflexivity.
  - inversion A; subst. inversion R; subst; [congruence|]. cbn [run_seq advised1].
    destruct (jumps b) eqn:J.
    + pose proof (@advise_jumps X num1 num2 on ftype call hook_call fuel m b st ls s J) as NN.
      destruct (advise _ _ _ _ _ _ _ _ _ _ _ _) as [[[[[] ?] ?] ?]| | |]; simpl in *; tauto.
    + apply andthen_ext. intros. simpl in *. eapply IHr; eauto.
  - inversion A; subst. inversion R; subst. cbn [run_seq advised1].
    rewrite (@same_block X (inside _ _ (run_seq (advised1 num1 num2 on ftype call hook_call fuel) body))
       (inside (consult on hook_call HkBlockPre 0 (arities ft) m) (consult on hook_call HkBlockPost 0 [] m)
               (run_seq (advised1 num1 num2 on ftype call hook_call fuel) x'))).
    + apply andthen_ext. intros. eapply IHr; eauto.
    + apply same_inside. intros ? ? ?. eapply IHb; eauto.
  - inversion A; subst. inversion R; subst. cbn [run_seq advised1].
    rewrite (@same_loop X fuel (inside _ _ (run_seq (advised1 num1 num2 on ftype call hook_call fuel) body))
       (inside (consult on hook_call HkLoopPre 0 (arities ft) m) (consult on hook_call HkLoopPost 0 [] m)
               (run_seq (advised1 num1 num2 on ftype call hook_call fuel) x'))).
    + apply andthen_ext. intros. eapply IHr; eauto.
    + apply same_inside. intros ? ? ?. eapply IHb; eauto.
  - inversion A; subst. inversion R; subst. cbn [run_seq advised1].
    match goal with |- andthen ?a _ = andthen ?b _ => replace b with a; [apply andthen_ext; intros; eapply IHr; eauto|] end.
    apply andthen_ext. intros st1 ls1 s1. destruct (pop_i32 st1) as [[c st']| | |]; auto. cbn [rbind].
    destruct (c =? 0)%Z; [reflexivity|]. apply same_block, same_inside. intros ? ? ?. eapply IHt; eauto.
  - inversion A; subst. inversion R; subst. cbn [run_seq advised1].
    match goal with |- andthen ?a _ = andthen ?b _ => replace b with a; [apply andthen_ext; intros; eapply IHr; eauto|] end.
    apply andthen_ext. intros st1 ls1 s1. destruct (pop_i32 st1) as [[c st']| | |]; auto. cbn [rbind].
    destruct (c =? 0)%Z; apply same_block, same_inside; intros ? ? ?; [eapply IHe|eapply IHt]; eauto.
Qed.
Print Assumptions C16_unreachable_not_executed.

(** ** Examples *)
(** The type checker's full annotations of the example module. *)
Definition ex_infer (_ : nat) (l : list low) : option (list ity) :=
  Some (map (fun i => match i with
    | LBasic (BLocal LGet _) | LBasic (BGlobal GGet _) | LBasic (BConst TI32 _) => IReach (FT [] [t_i32])
    | LBasic (BGlobal GSet _) | LBasic (BBrTable _ _) => IReach (FT [t_i32] [])
    | LBasic (BUnary _) | LBasic (BLoad _ _) => IReach (FT [t_i32] [t_i32])
    | LBasic (BCall f) => IReach (match nth_error (md_funcs ex_module) f with Some fn => fn_type fn | None => FT [] [] end)
    | LBasic (BCallIndirect ft _) => IReach (FT (ft_in ft ++ [t_i32]) (ft_out ft))
    | LBasic (BBinary _) => IReach (FT [t_i32; t_i32] [t_i32])
    | LBasic (BStore _ _) => IReach (FT [t_i32; t_i32] [])
    | _ => IReach (FT [] []) end) l).
Lemma ex_checked : check_funcs ex_module ex_infer = true. Proof. reflexivity. Qed.
Lemma ex_annotates : annotates ex_infer ex_module. Proof. exact (proj2 (check_funcs_sound _ _ ex_checked)). Qed.
Lemma ex_valid : valid ex_module.
Proof.
  constructor; simpl.
  - exact (proj1 (check_funcs_sound _ _ ex_checked)).
  - constructor; [unfold table_limits; simpl; lia|constructor].
  - split; [constructor; [unfold mem_limits; simpl; lia|constructor]|lia].
  - intros [|[|i]] g E; simpl in E; try discriminate. injection E as <-. intros _. simpl. auto.
  - repeat (constructor; simpl; try lia).
  - repeat (constructor; simpl; try discriminate).
  - exact Logic.I.
  - repeat constructor; simpl; intuition discriminate.
Qed.
Lemma ex_in_format : in_format ex_module.
Proof. unfold in_format, u32. simpl. split; [lia|]. repeat split; repeat (constructor; simpl); unfold u32; simpl; try lia. Qed.
Lemma ex_provided : provided_ok ex_module ex_imports.
Proof. constructor; intros ? ? ? H E; simpl in H; intuition; subst; discriminate. Qed.

(** An analysis that logs its calls, hands values back, and forwards every intercepted call;
    its buffers always hold zeroes. *)
Definition ex_sigs : list functy := [FT [t_i32] []; ex_i32_1; FT [TRef FuncRef] []].
Definition ex_zero (t : valty) : val := match t with TNum n => VNum n 0 | TRef r => VRef r None end.
Definition ex_ops : list libop := [LAlloc; LAllocTypes; LFree; LFreeTypes; LLoad SArg 0; LLoad SRet 0; LStoreRets].
Definition ex_buffers : list (string * list val) :=
  flat_map (fun ft => map (fun o => (op_name ft o, map ex_zero (ft_out (libop_type ft o)))) ex_ops) ex_sigs.
Definition ex_agent (ns name : string) (args : list val) : xprog (list (string * list val)) :=
  if String.eqb ns stack_ns then
    match find (fun p => String.eqb name (fst p)) ex_buffers with Some p => XRet (snd p) | None => XTrap end
  else if String.eqb name "generic_apply" then
    match args with k :: _ :: _ :: _ :: buf :: _ => XCall "call_base" [k; buf] (fun _ => XRet []) | _ => XTrap end
  else ex_log ns name args.
Lemma ex_zero_ok nf t : val_ok nf (ex_zero t) t. Proof. destruct t as [[]|[]]; repeat split. Qed.
Lemma ex_agents : agents_ok ex_agent (fun _ => True) ex_module ex_on true (intercepts ex_module true None ex_id).
Proof.
  assert (LOG : forall vs nm ts, Forall2 (val_ok 4) (match find (fun h => String.eqb (trap_name h) nm) all_hooks_order with
           | Some h => match trap_results h with [] => [] | _ => firstn 1 vs end
           | None => [] end) ts -> forall ns, agent_ok (ctx_of ex_module) (fun _ => True) (spec_xty ex_module true (intercepts ex_module true None ex_id)) ts (ex_log ns nm vs)).
  { intros vs nm ts H ns. unfold ex_log. simpl. auto. }
  intros ft ns name args [f fn ns' nm N EC|h O|f Hf|f fn o Hf N Ho] F.
  - destruct f as [|[|[|[|[|f]]]]]; simpl in N; try discriminate N; injection N as <-; try discriminate EC.
    injection EC as <- <-. apply LOG. simpl. constructor.
  - destruct h as [| | | | | | | | | | | | | | | | | |t|a r|k| | |k t|k t|t|t]; try discriminate O;
      try (destruct k; try discriminate O); try (destruct t; try discriminate O);
      unfold ex_agent; cbn -[ex_log]; apply LOG; vm_compute find; cbn; try constructor;
      cbn in F; inversion F; subst; constructor; auto.
  - simpl in F. repeat match goal with H : Forall2 _ _ (_ :: _) |- _ => inversion H; subst; clear H end.
    unfold ex_agent. simpl. exists (FT [i32; i32] []). repeat split; auto. repeat (constructor; auto).
  - assert (W : In (fn_type fn) ex_sigs /\ List.length (ft_in (fn_type fn)) = 1 /\ List.length (ft_out (fn_type fn)) <= 1).
    { destruct f as [|[|[|[|[|f]]]]]; simpl in N; try discriminate N; injection N as <-; simpl; repeat split; auto. }
    destruct W as (W & L1 & L2).
    assert (Oin : In o ex_ops).
    { destruct o as [| | | |[] i|[] i| |]; try contradiction; simpl; auto 10; assert (i = 0) by lia; subst; auto 10. }
    unfold ex_agent. rewrite String.eqb_refl.
    assert (Fd : find (fun p => String.eqb (op_name (fn_type fn) o) (fst p)) ex_buffers
                 = Some (op_name (fn_type fn) o, map ex_zero (ft_out (libop_type (fn_type fn) o)))).
    { destruct W as [<-|[<-|[<-|[]]]]; simpl in Oin;
        repeat destruct Oin as [<-|Oin]; try destruct Oin; try reflexivity; simpl in Ho; exfalso; lia. }
    rewrite Fd. simpl. clear.
    generalize (ft_out (libop_type (fn_type fn) o)). induction l; constructor; auto. apply ex_zero_ok.
Qed.
Definition ex_run := spec_module ex_num1 ex_num2 ex_agent ex_infer ex_on true None (intercepts ex_module true None ex_id) 30 ex_imports ex_module [] ex_calls.
(** The hypotheses of the theorems hold of this session, and it does terminate. *)
Example ex_sessions_typed :
  valid ex_module /\ in_format ex_module /\ annotates ex_infer ex_module /\ provided_ok ex_module ex_imports /\
  agents_ok ex_agent (fun _ => True) ex_module ex_on true (intercepts ex_module true None ex_id) /\
  Forall (fun c => exists ft, spec_xty ex_module true (intercepts ex_module true None ex_id) (fst c) = Some ft /\
                              Forall2 (val_ok 4) (snd c) (ft_in ft)) ex_calls /\
  match ex_run with Ok (outs, s) => outs = [Some [vi32 0]; Some [vi32 0]; Some [vi32 0]; Some [vi32 1]] /\ List.length (st_x s) = 31 | _ => False end.
Proof.
  split; [exact ex_valid|]. split; [exact ex_in_format|]. split; [exact ex_annotates|]. split; [exact ex_provided|].
  split; [exact ex_agents|]. split.
  - repeat (apply Forall_cons; [eexists; split; [reflexivity|repeat constructor]|]). apply Forall_nil.
  - vm_compute. split; reflexivity.
Qed.
(** Dead code after a branch may be anything. *)
Definition ex_meta (t : ity) (p : nat) : meta := Meta 0 p t false.
Example ex_dead : 
  let C := mctx ex_module [t_i32] [t_i32] in
  let live := TBasic (ex_meta (IReach (FT [] [t_i32])) 0) (BLocal LGet 0) in
  let jump := TBasic (ex_meta (IReach (FT [t_i32] [])) 1) (BBr 0) in
  let dead := TBasic (ex_meta IUnreach 2) (BLocal LTee 0) in
  annotated_ok C true [live; jump; dead] /\
  dead_replaced [live; jump; dead] [live; jump; TBasic (ex_meta (IReach (FT [] [])) 2) BUnreachable] /\
  (forall t, ~ annotated_ok C true [live; TBasic (ex_meta IUnreach 2) (BLocal t 0)]).
Proof.
  repeat split.
  - eapply an_reach; [reflexivity|now constructor|]. eapply an_reach; [reflexivity| |].
    + change (FT [t_i32] []) with (FT ([] ++ [t_i32]) []). now constructor.
    + apply an_unreach; [reflexivity|constructor].
  - apply dr_basic, dr_basic, dr_dead; [reflexivity|constructor].
  - intros t H. inversion H; subst. match goal with H : annotated_ok _ _ [_] |- _ => inversion H; subst; discriminate end.
Qed.
