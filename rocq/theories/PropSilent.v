(** Property theorems C94: a WASP file without apply advice whose guest code returns nothing leaves the program alone, in particular
    tests/analyses/wasp-as/call_indirect.wasp and empty.wasp. *)
From Coq Require Import Permutation.
From Verif Require Import Semantics Names Advice RsStdlib Interface Wasp PropWasp StackLib StackRun StackOps StackHist StackSpec PropStack System SystemProofs AccessProofs Instantiate Trace TraceProofs
  Typing ModuleTyping InstantiateTyping Checker ExModule InstrumentProofs PropInstrument PropSpec PropTyping ForwardRel ForwardProofs SessionProofs Recorder
  PropTransparent AsLib AsNames AsRun AsTypes AsProofs PropAs WaspAs WaspAsProofs WaspAsSessions WaspAsAccess PropWaspProgram PropWaspAs.
Local Open Scope string_scope.
Local Open Scope list_scope.

(** ** The files *)
(** call_indirect.wasp L1-17; the guest code consists of a comment. *)
Definition call_indirect_wasp : list advice_def :=
  [ATrap (TCall Pre "f" "// No intercession, intercession @ callee site"); ATrap (TCall Post "f" "// No intercession, intercession @ callee site");
   ATrap (TCallIndirectPre "table" "index" "// No intercession, intercession @ callee site");
   ATrap (TCallIndirectPost "table" "// No intercession, intercession @ callee site")].
(** empty.wasp *)
Definition empty_wasp : list advice_def := [].
(** Guest code that returns nothing. *)
Definition silent_guest {X : Type} (t : trap_sig) (sc : scope) : xprog X := XRet [].
(** No apply advice. *)
Definition without_apply (root : list advice_def) : Prop := forall g body, ~ In (ATrap (TApply g body)) root.

(** ** Proofs *)
Lemma silent_notes {Y : Type} t : (forall g body, t <> TApply g body) -> guest_notes (Y := Y) ignore silent_guest t.
Proof.
  intros _ adv sc Sh export l a s. exists []. split; [reflexivity|]. unfold continues. destruct (falls_back adv); [now left|exact Logic.I].
Qed.
Lemma silent_calls {Y : Type} library t : (forall g body, t <> TApply g body) -> guest_calls (Y := Y) ignore library silent_guest t.
Proof. intros H g f x y body ->. now destruct (H (AGen g f x y) body). Qed.
Lemma in_traps root t : In t (traps root) -> In (ATrap t) root.
Proof.
  unfold traps. induction root as [|[] root IH]; cbn; [intros []|..]; intros H.
  all: try (destruct H as [->|H]; [now left|]). all: right; auto.
Qed.

(** Without apply advice no buffers are in use. *)
Lemma no_usage {Y} num1 num2 (host : string -> string -> list val -> xprog Y) infer m on only n imp x calls before after :
  module_trace num1 num2 host infer m on false only n imp x calls = before ++ after -> usage m before = 0%Z.
Proof.
  intros Q. assert (F : Forall (fun e => match e with EvAdvice _ => True | _ => False end) (module_trace num1 num2 host infer m on false only n imp x calls)).
  { apply module_all; [constructor|intros; now apply Forall_app|intros; now repeat constructor|intros ? ? ? ? R; discriminate R|intros ? ? ? ? ? R; discriminate R]. }
  rewrite Q in F. apply Forall_app in F as (F & _). clear Q. induction F as [|[] before K F IH]; try contradiction; [reflexivity|exact IH].
Qed.

Section Sessions.
  Context {Y : Type}.
  Variable num1 : unop -> Z -> option Z.
  Variable num2 : binop -> Z -> Z -> option Z.
  Variables p0 mx : Z.
  Hypothesis Pages : (0 <= p0 <= mx /\ mx <= 65536)%Z.
  Variable f : Z -> Z.
  Variable N : nat.
  Hypothesis Big : (65540 <= Z.of_nat N)%Z.
  Variable host : string -> string -> list val -> xprog Y.
  Variable I : Y -> Prop.
  Variables ord_i ord_c : list nat -> list nat.
  Variable infer : nat -> list low -> option (list ity).
  Variable m : module.
  Variable root : list advice_def.
  Hypothesis NA : without_apply root.
  Variable p : as_program.
  Hypothesis G : generate root = Some p.
  Hypothesis WP : well_formed p.
  Variable ai : interface.
  Hypothesis EI : interface_of_root root = Some ai.
  Variable only : option (list nat).
  Variable imp : provided.
  Variable m' : module.
  Variable lib : option (list functy).
  Hypothesis Pi : forall l, Permutation (ord_i l) l.
  Hypothesis Pc : forall l, Permutation (ord_c l) l.
  Hypothesis E : instrument ord_i ord_c infer m ai only = IOk m' lib.
  Hypothesis V : valid m.
  Hypothesis U : in_format m.
  Hypothesis AN : annotates infer m.
  Hypothesis PV : provided_ok m imp.
  Hypothesis HO : hosts_ok host I m (plain_xty m).
  Notation on := (advised_by root).
  Notation generic := (instruments_generic_apply root).
  Hypothesis CO : compatible m on (intercepts m generic only ord_i).
  Variables n fuel : nat.
  Hypothesis Fu : 5 * n + 2 <= fuel.
  Notation plain_module := (run_module num1 num2 host n imp m).
  Notation module_trace := (module_trace num1 num2 host infer m on generic only n imp).
  Notation typed_calls := (Forall (fun c => exists ft, plain_xty m (fst c) = Some ft /\
                                     Forall2 (val_ok (List.length (md_funcs m))) (snd c) (ft_in ft))).
  Notation space := (as_space num1 num2 p0 mx host infer m on generic only imp n).
  (** The instrumented module with the compiled file. *)
  Notation silently := (fun x => @wasp_run Y num1 num2 N host p imp m' lib fuel unit silent_guest (as_start p0 mx f, (tt, x))).
  Lemma no_apply t : In t (traps root) -> forall g body, t <> TApply g body.
  Proof using NA. intros J g body ->. exact (NA _ _ (in_traps _ _ J)). Qed.
  Lemma not_generic : generic = false.
  Proof using NA.
    apply not_true_is_false. intros X. apply existsb_exists in X as (t & J & X). destruct t; try discriminate X. exact (no_apply J eq_refl).
  Qed.
  Lemma no_space x calls : space x calls.
  Proof using NA Pages.
    intros before after Q. rewrite not_generic in Q. erewrite no_usage by exact Q. clear - Pages. lia.
  Qed.
  (** Results, traps and state are those of the original program. *)
  Theorem C94_silent : forall x calls outs s, I x -> typed_calls calls -> plain_module x calls = Ok (outs, s) ->
    exists s', silently x calls = Ok (outs, s') /\ same_program s s'.
  Proof.
    intros x calls outs s Ix T R.
    destruct (@C71_observes Y num1 num2 p0 mx Pages f N Big host I ord_i ord_c infer m root p G WP ai EI
      only imp m' lib Pi Pc E V U AN PV HO CO n fuel Fu unit ignore silent_guest (fun t J => @silent_notes Y t (no_apply J)) (fun t J => @silent_calls Y _ t (no_apply J))
      x tt calls outs s Ix T R (no_space x calls)) as (s' & A1 & A2 & _). exists s'. auto.
  Qed.
  (** Also if the start function traps. *)
  Theorem C94_failing_start : forall x calls s, I x -> typed_calls calls -> plain_module x calls = Trap s ->
    exists s', silently x calls = Trap s' /\ same_program s s'.
  Proof.
    intros x calls s Ix T R.
    destruct (@C71_failing_start Y num1 num2 p0 mx Pages f N Big host I ord_i ord_c infer m root p G WP ai EI
      only imp m' lib Pi Pc E V U AN PV HO CO n fuel Fu unit ignore silent_guest (fun t J => @silent_notes Y t (no_apply J)) (fun t J => @silent_calls Y _ t (no_apply J))
      x tt calls s Ix T R (no_space x calls)) as (s' & A1 & A2 & _). exists s'. auto.
  Qed.
  (** More generally, guest code that only observes needs no space either: it is run for the events of the original run. *)
  Theorem C94_observes : forall (B : Type) (obs : B -> event -> B) (guest : trap_sig -> scope -> xprog (sys (B * Y))),
    (forall t, In t (traps root) -> guest_notes obs guest t) ->
    forall x a calls outs s, I x -> typed_calls calls -> plain_module x calls = Ok (outs, s) ->
    exists s', @wasp_run Y num1 num2 N host p imp m' lib fuel B guest (as_start p0 mx f, (a, x)) calls = Ok (outs, s') /\ same_program s s' /\
      fst (snd (st_x s')) = fold_left obs (module_trace x calls) a.
  Proof.
    intros B obs guest GN x a calls outs s Ix T R.
    apply (@C71_observes Y num1 num2 p0 mx Pages f N Big host I ord_i ord_c infer m root p G WP ai EI
      only imp m' lib Pi Pc E V U AN PV HO CO n fuel Fu B obs guest GN); auto using no_space.
    intros t J g fi x' y' body ->. now destruct (no_apply J (g := AGen g fi x' y') (body := body)).
  Qed.
End Sessions.
Print Assumptions C94_silent.
Print Assumptions C94_observes.
Print Assumptions C94_failing_start.

(** ** Examples *)
(** The files are covered. *)
Definition silent_program (root : list advice_def) : as_program := match generate root with Some p => p | None => AsProgram [] [] [] end.
Example C94_files : forall root, root = call_indirect_wasp \/ root = empty_wasp ->
  without_apply root /\ generate root = Some (silent_program root) /\ well_formed (silent_program root).
Proof.
  assert (H : forall root, root = call_indirect_wasp \/ root = empty_wasp -> generate root = Some (silent_program root)) by (intros root [->| ->]; reflexivity).
  intros root Q. split; [|split; [auto|]].
  - intros g body J. destruct Q as [->| ->]; cbn in J; repeat destruct J as [J|J]; try discriminate J; exact J.
  - apply (C69_well_formed root (H root Q)); destruct Q as [->| ->]; cbn; repeat constructor; cbn; try discriminate; intuition (subst; discriminate).
Qed.
(** The session of PropTransparent.v, which has indirect calls, with both files. *)
Example C94_sessions :
  option_map fst (ex_wasp call_indirect_wasp (fun _ => silent_guest) tt 0) = Some ([Some [vi32 1]; Some [vi32 100]], [vi32 1]) /\
  option_map fst (ex_wasp empty_wasp (fun _ => silent_guest) tt 0) = Some ([Some [vi32 1]; Some [vi32 100]], [vi32 1]).
Proof. split; vm_compute; reflexivity. Qed.
(** The theorem applies to it. *)
Example C94_applies : forall root, root = call_indirect_wasp \/ root = empty_wasp ->
  exists ai m' lib outs s s', interface_of_root root = Some ai /\ instrument ex_id ex_id ex_infer ex_module ai None = IOk m' lib /\
  run_module ex_num1 ex_num2 ex_host 8 ex_imports ex_module [] ex_session_calls = Ok (outs, s) /\
  wasp_run ex_num1 ex_num2 as_steps ex_host (silent_program root) ex_imports m' lib 42 silent_guest (as_start 0 0 (fun _ => 0%Z), (tt, [])) ex_session_calls = Ok (outs, s') /\
  same_program s s'.
Proof.
  intros root Q. destruct (C94_files Q) as (NA & G & W).
  assert (S : match interface_of_root root with
              | Some ai => match instrument ex_id ex_id ex_infer ex_module ai None with IOk _ _ => True | _ => False end
              | None => False end) by (destruct Q as [->| ->]; vm_compute; exact Logic.I).
  destruct (interface_of_root root) as [ai|] eqn:EI; [|contradiction S].
  destruct (instrument ex_id ex_id ex_infer ex_module ai None) as [m' lib| |] eqn:E; [|contradiction S..]. clear S.
  assert (R : match run_module ex_num1 ex_num2 ex_host 8 ex_imports ex_module [] ex_session_calls with Ok _ => True | _ => False end) by (vm_compute; exact Logic.I).
  destruct (run_module ex_num1 ex_num2 ex_host 8 ex_imports ex_module [] ex_session_calls) as [[outs s]| | |] eqn:Rm; try contradiction R.
  exists ai, m', lib, outs, s.
  destruct (@C94_silent (list val) ex_num1 ex_num2 0 0 ltac:(lia) (fun _ => 0%Z) as_steps) with (host := ex_host) (I := fun _ : list val => True)
    (ord_i := ex_id) (ord_c := ex_id) (infer := ex_infer) (m := ex_module) (root := root) (p := silent_program root) (ai := ai) (only := @None (list nat)) (imp := ex_imports)
    (m' := m') (lib := lib) (n := 8) (fuel := 42) (x := @nil val) (calls := ex_session_calls) (outs := outs) (s := s) as (s' & A & B);
    try exact EI; try exact E; try exact Rm; try exact Logic.I; try exact NA; try exact G; try exact W; try exact ex_valid; try exact ex_in_format; try exact ex_annotates;
    try exact ex_provided; try exact ex_host_ok; try (intros l; apply Permutation_refl); [..|exists s'; split; [reflexivity|]; split; [exact E|]; split; [reflexivity|]; split; [exact A|exact B]].
  - unfold as_steps. rewrite Z2Nat.id; lia.
  - clear - Q. constructor.
    + intros fn ns name Hf EC. simpl in Hf. repeat destruct Hf as [<-|Hf]; try discriminate EC; [|destruct Hf].
      injection EC as <- <-. split; discriminate.
    + intros fn x Hf Hx Hi. simpl in Hf. repeat destruct Hf as [<-|Hf]; try destruct Hf; simpl in Hi;
        repeat destruct Hi as [<-|Hi]; try destruct Hi; destruct Q as [->| ->]; vm_compute in Hx; intuition discriminate.
    + intros fn locals code Hf EC. simpl in Hf. repeat destruct Hf as [<-|Hf]; try discriminate EC; try destruct Hf;
        injection EC as <- <-; split; intros o ma Hi _; simpl in Hi; repeat (destruct Hi as [Hi|Hi]; [try discriminate Hi; injection Hi as <- <-; simpl; lia|]);
        destruct Hi.
    + intros f fn _ Nf. destruct f as [|[|[|[|f]]]]; simpl in Nf; try (injection Nf as <-; simpl; lia). destruct f; discriminate.
  - apply Nat.le_refl.
  - repeat (apply Forall_cons; [eexists; split; [reflexivity|repeat constructor]|]). apply Forall_nil.
Qed.
