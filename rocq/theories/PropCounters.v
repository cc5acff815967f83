(** Property theorems C91: the WASP files of the integration tests that count (tests/analyses/wasp-as/{call_stack,block,loop,
    call_chain_pre,call_chain_post,call_chain_pre_post}.wasp) leave the numbers of the events in their exported globals. *)
From Coq Require Import Permutation.
From Verif Require Import Semantics Names Advice RsStdlib Interface Wasp PropWasp StackLib StackRun StackOps StackHist StackSpec PropStack System SystemProofs AccessProofs Instantiate Trace TraceProofs
  Typing ModuleTyping InstantiateTyping Checker ExModule InstrumentProofs PropInstrument PropSpec PropTyping ForwardRel ForwardProofs SessionProofs Recorder
  PropTransparent AsLib AsNames AsRun AsTypes AsProofs PropAs WaspAs WaspAsProofs WaspAsSessions WaspAsAccess PropWaspProgram PropWaspAs PropSilent.
Local Open Scope string_scope.
Local Open Scope list_scope.
Local Open Scope Z_scope.

(** ** The files *)
(** tests/analyses/wasp-as: call_stack.wasp, block.wasp, loop.wasp, call_chain_pre.wasp, call_chain_post.wasp, call_chain_pre_post.wasp. *)
Inductive counting := CallStackWasp | BlockWasp | LoopWasp | CallChainPre | CallChainPost | CallChainPrePost.
(** The [apply] advice of the call_chain files. *)
Definition chain_apply : advice_def :=
  ATrap (TApply (AGen MutableDynamic "func" "args" "results") "number_of_apply_pre++; func.apply(); number_of_apply_post++;").
(** The globals of the call_chain files. *)
Definition chain_globals : advice_def :=
  AGlobal "export let number_of_calls_pre: i32 = 0; export let number_of_calls_post: i32 = 0; export let number_of_apply_pre: i32 = 0; export let number_of_apply_post: i32 = 0;".
(** The files; comments and layout of the guest code are left out. *)
Definition counting_wasp (c : counting) : list advice_def :=
  match c with
  | CallStackWasp =>
      [AGlobal "export let number_of_applys: i32 = 0; export let max_apply_depth: i32 = 0; let apply_stack: i32 = 0; export let number_of_calls: i32 = 0; export let max_call_depth: i32 = 0; let call_stack: i32 = 0; function max<T>(a: T, b: T): T { return a > b ? a : b; }";
       ATrap (TCall Pre "f" "call_stack += 1; max_call_depth = max(max_call_depth, call_stack); number_of_calls += 1;");
       ATrap (TCall Post "f" "call_stack -= 1;");
       ATrap (TApply (AGen MutableDynamic "func" "args" "results")
         "apply_stack += 1; max_apply_depth = max(max_apply_depth, apply_stack); number_of_applys += 1; func.apply(); apply_stack -= 1;")]
  | BlockWasp =>
      [AGlobal "export let number_of_blocks_pre: i32 = 0;"; AGlobal "export let number_of_block_post: i32 = 0;";
       ATrap (TBlockPre "number_of_blocks_pre++;"); ATrap (TBlockPost "number_of_block_post++;")]
  | LoopWasp =>
      [AGlobal "export let number_of_loops_pre: i32 = 0;"; AGlobal "export let number_of_loop_post: i32 = 0;";
       ATrap (TLoopPre "number_of_loops_pre++;"); ATrap (TLoopPost "number_of_loop_post++;")]
  | CallChainPre => [chain_globals; ATrap (TCall Pre "f" "number_of_calls_pre++;"); chain_apply]
  | CallChainPost => [chain_globals; ATrap (TCall Post "f" "number_of_calls_post++;"); chain_apply]
  | CallChainPrePost =>
      [chain_globals; ATrap (TCall Pre "f" "number_of_calls_pre++;"); ATrap (TCall Post "f" "number_of_calls_post++;"); chain_apply]
  end.

(** ** What the guest code means *)
(** The globals of the guest code, [i32], initially 0. *)
Definition vars := list (string * Z).
(** The value of a global. *)
Fixpoint value (x : string) (v : vars) : Z := match v with [] => 0 | (y, z) :: r => if String.eqb x y then z else value x r end.
(** [x = z] *)
Definition assign (x : string) (z : Z) (v : vars) : vars := (x, z) :: v.
(** [x += d] on [i32] *)
Definition add_to (x : string) (d : Z) (v : vars) : vars := assign x ((value x v + d) mod 2 ^ 32) v.
(** call_stack.wasp L11-13: [max] on [i32] *)
Definition max_i32 (a b : Z) : Z := if as_i32 b <? as_i32 a then a else b.
(** What is done when a call, block or loop is announced, on entering and on leaving a function. *)
Inductive moment := OnCallPre | OnCallPost | OnBlockPre | OnBlockPost | OnLoopPre | OnLoopPost | OnEnter | OnLeave.
(** The guest code of the files: call_stack.wasp L18-22, L26, L41-46; block.wasp, loop.wasp L5-6; call_chain_*.wasp L7-12. *)
Definition does (c : counting) (o : moment) (v : vars) : vars :=
  match c, o with
  | CallStackWasp, OnCallPre =>
      let v1 := add_to "call_stack" 1 v in
      let v2 := assign "max_call_depth" (max_i32 (value "max_call_depth" v1) (value "call_stack" v1)) v1 in
      add_to "number_of_calls" 1 v2
  | CallStackWasp, OnCallPost => add_to "call_stack" (-1) v
  | CallStackWasp, OnEnter =>
      let v1 := add_to "apply_stack" 1 v in
      let v2 := assign "max_apply_depth" (max_i32 (value "max_apply_depth" v1) (value "apply_stack" v1)) v1 in
      add_to "number_of_applys" 1 v2
  | CallStackWasp, OnLeave => add_to "apply_stack" (-1) v
  | BlockWasp, OnBlockPre => add_to "number_of_blocks_pre" 1 v
  | BlockWasp, OnBlockPost => add_to "number_of_block_post" 1 v
  | LoopWasp, OnLoopPre => add_to "number_of_loops_pre" 1 v
  | LoopWasp, OnLoopPost => add_to "number_of_loop_post" 1 v
  | (CallChainPre | CallChainPost | CallChainPrePost), OnCallPre => add_to "number_of_calls_pre" 1 v
  | (CallChainPre | CallChainPost | CallChainPrePost), OnCallPost => add_to "number_of_calls_post" 1 v
  | (CallChainPre | CallChainPost | CallChainPrePost), OnEnter => add_to "number_of_apply_pre" 1 v
  | (CallChainPre | CallChainPost | CallChainPrePost), OnLeave => add_to "number_of_apply_post" 1 v
  | _, _ => v
  end.
(** The guest code of an advice, on its globals and on the object for the function (call_stack.wasp L30-48, call_chain_*.wasp L9-12). *)
Section Code.
  Context {Y : Type}.
  Notation X := (sys (vars * Y)).
  (** Run [h] on the globals, then continue. *)
  Definition then_do (h : vars -> vars) (k : xprog X) : xprog X := XGet (fun x m g => XPut (fst x, (h (fst (snd x)), snd (snd x))) m g k).
  (** What an advice does, by its kind. *)
  Definition counting_guest (c : counting) (t : trap_sig) (sc : scope) : xprog X :=
    match t with
    | TCall Pre _ _ => then_do (does c OnCallPre) (XRet [])
    | TCall Post _ _ => then_do (does c OnCallPost) (XRet [])
    | TBlockPre _ => then_do (does c OnBlockPre) (XRet [])
    | TBlockPost _ => then_do (does c OnBlockPost) (XRet [])
    | TLoopPre _ => then_do (does c OnLoopPre) (XRet [])
    | TLoopPost _ => then_do (does c OnLoopPost) (XRet [])
    | TApply (AGen _ f _ _) _ =>
        then_do (does c OnEnter)
          match lookup f sc with Some o => xbind (o_apply o) (fun _ => then_do (does c OnLeave) (XRet [])) | None => XStuck end
    | _ => XStuck
    end.
End Code.
(** What is generated from the file. *)
Definition counting_program (c : counting) : as_program := match generate (counting_wasp c) with Some p => p | None => AsProgram [] [] [] end.

(** ** What is counted (specification) *)
(** The event is the announcement of a call. *)
Definition call_starts (e : event) : bool := match e with EvAdvice (AdCallPre _ _) => true | _ => false end.
(** ... of the end of a call. *)
Definition call_ends (e : event) : bool := match e with EvAdvice (AdCallPost _ _) => true | _ => false end.
(** ... of a block. *)
Definition block_starts (e : event) : bool := match e with EvAdvice (AdBlockPre _ _ _) => true | _ => false end.
(** ... of the end of a block. *)
Definition block_ends (e : event) : bool := match e with EvAdvice (AdBlockPost _) => true | _ => false end.
(** ... of a loop. *)
Definition loop_starts (e : event) : bool := match e with EvAdvice (AdLoopPre _ _ _) => true | _ => false end.
(** ... of the end of a loop. *)
Definition loop_ends (e : event) : bool := match e with EvAdvice (AdLoopPost _) => true | _ => false end.
(** A function is entered. *)
Definition enters (e : event) : bool := match e with EvEnter _ _ _ => true | _ => false end.
(** A function returns. *)
Definition leaves (e : event) : bool := match e with EvLeave _ _ => true | _ => false end.
(** How many events there are. *)
Definition times (p : event -> bool) (t : list event) : Z := Z.of_nat (List.length (filter p t)).
(** The exported globals that count, and what they count. *)
Definition counted (c : counting) : list (string * (event -> bool)) :=
  match c with
  | CallStackWasp => [("number_of_calls", call_starts); ("number_of_applys", enters)]
  | BlockWasp => [("number_of_blocks_pre", block_starts); ("number_of_block_post", block_ends)]
  | LoopWasp => [("number_of_loops_pre", loop_starts); ("number_of_loop_post", loop_ends)]
  | _ => [("number_of_calls_pre", call_starts); ("number_of_calls_post", call_ends); ("number_of_apply_pre", enters); ("number_of_apply_post", leaves)]
  end.
(** Specification: how many things are open after the events. *)
Definition open (starts ends : event -> bool) (t : list event) : Z := times starts t - times ends t.
(** Specification: [d] is the greatest number of things open at a time. *)
Definition deepest (starts ends : event -> bool) (t : list event) (d : Z) : Prop :=
  (forall t1 t2, t = t1 ++ t2 -> open starts ends t1 <= d) /\ exists t1 t2, t = t1 ++ t2 /\ open starts ends t1 = d.

(** ** Proofs *)
(** What the files do at an event. *)
Definition counts_event (c : counting) (v : vars) (e : event) : vars :=
  match e with
  | EvAdvice (AdCallPre _ _) => does c OnCallPre v
  | EvAdvice (AdCallPost _ _) => does c OnCallPost v
  | EvAdvice (AdBlockPre _ _ _) => does c OnBlockPre v
  | EvAdvice (AdBlockPost _) => does c OnBlockPost v
  | EvAdvice (AdLoopPre _ _ _) => does c OnLoopPre v
  | EvAdvice (AdLoopPost _) => does c OnLoopPost v
  | EvEnter _ _ _ => does c OnEnter v
  | EvLeave _ _ => does c OnLeave v
  | _ => v
  end.
Lemma counting_notes {Y : Type} c t : In t (traps (counting_wasp c)) -> guest_notes (Y := Y) (counts_event c) (counting_guest c) t.
Proof.
  intros J adv sc Sh export l a s. exists [].
  assert (C : continues adv []) by (unfold continues; destruct (falls_back adv); [now left|exact Logic.I]).
  split; [|exact C]. clear C.
  destruct c; cbn in J; repeat destruct J as [<-|J]; try contradiction J; destruct adv; try (now destruct Sh); reflexivity.
Qed.
Lemma counting_calls {Y : Type} library c t : guest_calls (Y := Y) (counts_event c) library (counting_guest c) t.
Proof.
  intros g f x y body -> export frs ifs ft q qt args k fi code l a s sc Nu Sl Hl (Lf & _).
  exists l, (fun _ => then_do (does c OnLeave) (XRet [])). split; [exact Hl|]. split.
  - cbn [counting_guest]. rewrite Lf. cbn [o_apply xbind]. reflexivity.
  - intros vs rs l2 a2 s2 H2. exists [], l2. split; [reflexivity|exact H2].
Qed.
Lemma counting_generated c : generate (counting_wasp c) = Some (counting_program c).
Proof. destruct c; reflexivity. Qed.
Lemma counting_well_formed c : well_formed (counting_program c).
Proof.
  apply (C69_well_formed (counting_wasp c) (counting_generated c)); [destruct c; repeat constructor|].
  split; [|destruct c; repeat constructor; cbn; try discriminate; intuition (subst; discriminate)].
  destruct c; cbn; repeat constructor; cbn; intuition discriminate.
Qed.

Lemma times_app p a b : times p (a ++ b) = times p a + times p b.
Proof. unfold times. rewrite filter_app, app_length. lia. Qed.
Lemma times_one p e : times p [e] = if p e then 1 else 0.
Proof. unfold times. cbn [filter]. now destruct (p e). Qed.
Lemma times_bounds p t : 0 <= times p t <= Z.of_nat (List.length t).
Proof. unfold times. induction t as [|e t IH]; cbn [filter List.length]; [lia|]. destruct (p e); cbn [List.length]; lia. Qed.
Lemma counter_counts (f : vars -> event -> vars) (x : string) (p : event -> bool) :
  (forall v e, value x (f v e) = if p e then (value x v + 1) mod 2 ^ 32 else value x v) ->
  forall t, value x (fold_left f t []) = times p t mod 2 ^ 32.
Proof.
  intros H t. induction t as [|e t IH] using rev_ind; [reflexivity|].
  rewrite fold_left_app. cbn [fold_left]. rewrite H, IH, times_app, times_one. destruct (p e).
  - now rewrite Zplus_mod_idemp_l.
  - now rewrite Z.add_0_r.
Qed.

Lemma prefix_snoc {A} (t : list A) e t1 t2 : t ++ [e] = t1 ++ t2 -> (exists r, t = t1 ++ r) \/ t1 = t ++ [e].
Proof.
  intros Q. destruct t2 as [|x t2] using rev_ind; [right; now rewrite app_nil_r in Q|].
  rewrite app_assoc in Q. apply app_inj_tail in Q as (Q & _). left. eauto.
Qed.
Lemma deepest_snoc starts ends t e d : deepest starts ends t d -> deepest starts ends (t ++ [e]) (Z.max d (open starts ends (t ++ [e]))).
Proof.
  intros (A & t1 & t2 & Q & B). split.
  - intros u1 u2 Q'. destruct (prefix_snoc _ _ _ _ Q') as [(r & Q2)| ->]; [|lia]. specialize (A u1 r Q2). lia.
  - destruct (Z.max_spec d (open starts ends (t ++ [e]))) as [(L & ->)|(L & ->)].
    + exists (t ++ [e]), []. now rewrite app_nil_r.
    + exists t1, (t2 ++ [e]). split; [now rewrite Q, app_assoc|exact B].
Qed.
Lemma depth_deepest (f : vars -> event -> vars) (stack most : string) (starts ends : event -> bool) :
  (forall e, starts e = true -> ends e = false) ->
  (forall v e, value stack (f v e) = if starts e then (value stack v + 1) mod 2 ^ 32 else if ends e then (value stack v + -1) mod 2 ^ 32 else value stack v) ->
  (forall v e, value most (f v e) = if starts e then max_i32 (value most v) (value stack (f v e)) else value most v) ->
  forall t, Z.of_nat (List.length t) < 2 ^ 31 -> deepest starts ends t (value most (fold_left f t [])).
Proof.
  intros D HS HM t L.
  cut (value stack (fold_left f t []) = open starts ends t mod 2 ^ 32 /\ 0 <= value most (fold_left f t []) <= Z.of_nat (List.length t) /\
       deepest starts ends t (value most (fold_left f t []))); [now intros (_ & _ & H)|].
  induction t as [|e t IH] using rev_ind.
  - cbn [fold_left value]. split; [reflexivity|]. split; [cbn [List.length]; lia|]. split.
    + intros t1 t2 Q. destruct t1; [|discriminate Q]. reflexivity || (change (open starts ends []) with 0; lia).
    + exists [], []. split; reflexivity.
  - rewrite app_length in L. cbn [List.length] in L. destruct IH as (A & B & C); [lia|].
    rewrite fold_left_app. cbn [fold_left].
    assert (SV : value stack (f (fold_left f t []) e) = open starts ends (t ++ [e]) mod 2 ^ 32).
    { rewrite HS, A. unfold open. rewrite !times_app, !times_one. destruct (starts e) eqn:Se.
      - rewrite (D e Se), Zplus_mod_idemp_l. apply (f_equal (fun z => z mod 2 ^ 32)). lia.
      - destruct (ends e); [rewrite Zplus_mod_idemp_l|]; apply (f_equal (fun z => z mod 2 ^ 32)); lia. }
    split; [exact SV|].
    pose proof (deepest_snoc e C) as P.
    pose proof (times_bounds starts (t ++ [e])) as B1. pose proof (times_bounds ends (t ++ [e])) as B2. rewrite app_length in B1, B2. cbn [List.length] in B1, B2.
    rewrite HM. rewrite app_length. cbn [List.length]. destruct (starts e) eqn:Se.
    + rewrite SV. set (o := open starts ends (t ++ [e])) in *. assert (Bo : - 2 ^ 31 <= o < 2 ^ 31 /\ o <= Z.of_nat (List.length t + 1)) by (unfold o, open; lia).
      assert (M : max_i32 (value most (fold_left f t [])) (o mod 2 ^ 32) = Z.max (value most (fold_left f t [])) o).
      { clear P. unfold max_i32. set (d := value most (fold_left f t [])) in *.
        assert (I1 : as_i32 d = d) by (unfold as_i32; destruct (Z.ltb_spec d (2 ^ 31)); lia).
        assert (I2 : as_i32 (o mod 2 ^ 32) = o).
        { unfold as_i32. destruct (Z.ltb_spec o 0).
          - assert (Qo : o mod 2 ^ 32 = o + 2 ^ 32) by (symmetry; apply Z.mod_unique with (q := -1); lia). rewrite Qo. destruct (Z.ltb_spec (o + 2 ^ 32) (2 ^ 31)); lia.
          - rewrite Z.mod_small by lia. destruct (Z.ltb_spec o (2 ^ 31)); lia. }
        rewrite I1, I2. destruct (Z.ltb_spec o d); [lia|]. rewrite Z.mod_small by lia. lia. }
      rewrite M. split; [lia|exact P].
    + split; [lia|]. replace (Z.max (value most (fold_left f t [])) (open starts ends (t ++ [e]))) with (value most (fold_left f t [])) in P; [exact P|].
      assert (Q : open starts ends (t ++ [e]) <= open starts ends t) by (unfold open; rewrite !times_app, !times_one, Se; destruct (ends e); lia).
      destruct C as (C & _). specialize (C t [] (eq_sym (app_nil_r t))). lia.
Qed.

(** ** Sessions *)
Section Sessions.
  Context {Y : Type}.
  Variable num1 : unop -> Z -> option Z.
  Variable num2 : binop -> Z -> Z -> option Z.
  Variables p0 mx : Z.
  Hypothesis Pages : (0 <= p0 <= mx /\ mx <= 65536)%Z.
  Variable f : Z -> Z.
  Variable N : nat.
  Hypothesis Big : (65540 <= Z.of_nat N)%Z.
  Variable host : string -> string -> list val -> xprog Y.
  Variable I : Y -> Prop.
  Variables ord_i ord_c : list nat -> list nat.
  Variable infer : nat -> list low -> option (list ity).
  Variable m : module.
  Variable c : counting.
  Variable ai : interface.
  Hypothesis EI : interface_of_root (counting_wasp c) = Some ai.
  Variable only : option (list nat).
  Variable imp : provided.
  Variable m' : module.
  Variable lib : option (list functy).
  Hypothesis Pi : forall l, Permutation (ord_i l) l.
  Hypothesis Pc : forall l, Permutation (ord_c l) l.
  Hypothesis E : instrument ord_i ord_c infer m ai only = IOk m' lib.
  Hypothesis V : valid m.
  Hypothesis U : in_format m.
  Hypothesis AN : annotates infer m.
  Hypothesis PV : provided_ok m imp.
  Hypothesis HO : hosts_ok host I m (plain_xty m).
  Notation on := (advised_by (counting_wasp c)).
  Notation generic := (instruments_generic_apply (counting_wasp c)).
  Hypothesis CO : compatible m on (intercepts m generic only ord_i).
  Variables n fuel : nat.
  Hypothesis Fu : (5 * n + 2 <= fuel)%nat.
  Notation plain_module := (run_module num1 num2 host n imp m).
  Notation module_trace := (module_trace num1 num2 host infer m on generic only n imp).
  Notation typed_calls := (Forall (fun c => exists ft, plain_xty m (fst c) = Some ft /\
                                     Forall2 (val_ok (List.length (md_funcs m))) (snd c) (ft_in ft))).
  Notation space := (as_space num1 num2 p0 mx host infer m on generic only imp n).
  (** The instrumented module with the compiled file, whose globals are initially 0. *)
  Notation counted_run := (fun x => @wasp_run Y num1 num2 N host (counting_program c) imp m' lib fuel vars (counting_guest c) (as_start p0 mx f, ([], x))).
  Lemma counters t x p : In (x, p) (counted c) -> value x (fold_left (counts_event c) t []) = times p t mod 2 ^ 32.
  Proof using.
    intros J. apply counter_counts. intros v e. clear t. revert J. clear. intros J.
    destruct c; cbn in J; repeat destruct J as [J|J]; try contradiction J; injection J as <- <-; destruct e as [[]| |]; reflexivity.
  Qed.
  (** The counters end up as the numbers of events, modulo 2^32. *)
  Theorem C91_counts : forall x calls outs s, I x -> typed_calls calls ->
    plain_module x calls = Ok (outs, s) ->
    space x calls ->
    exists s', counted_run x calls = Ok (outs, s') /\ same_program s s' /\
      forall global what, In (global, what) (counted c) -> value global (fst (snd (st_x s'))) = times what (module_trace x calls) mod 2 ^ 32.
  Proof.
    intros x calls outs s Ix T R Ro.
    destruct (@C71_observes Y num1 num2 p0 mx Pages f N Big host I ord_i ord_c infer m (counting_wasp c) (counting_program c) (counting_generated c) (counting_well_formed c) ai EI
      only imp m' lib Pi Pc E V U AN PV HO CO n fuel Fu vars (counts_event c) (counting_guest c) (fun t => @counting_notes Y c t) (fun t _ => @counting_calls Y _ c t)
      x [] calls outs s Ix T R Ro) as (s' & A1 & A2 & A3). exists s'. split; [exact A1|]. split; [exact A2|].
    intros g p J. rewrite A3. now apply counters.
  Qed.
  (** call_stack.wasp: the greatest depths, if there are fewer than 2^31 events. *)
  Theorem C91_depths : c = CallStackWasp -> forall x calls outs s, I x -> typed_calls calls ->
    plain_module x calls = Ok (outs, s) ->
    space x calls -> Z.of_nat (List.length (module_trace x calls)) < 2 ^ 31 ->
    exists s', counted_run x calls = Ok (outs, s') /\ same_program s s' /\
      deepest call_starts call_ends (module_trace x calls) (value "max_call_depth" (fst (snd (st_x s')))) /\
      deepest enters leaves (module_trace x calls) (value "max_apply_depth" (fst (snd (st_x s')))).
  Proof.
    intros Ec x calls outs s Ix T R Ro L.
    destruct (@C71_observes Y num1 num2 p0 mx Pages f N Big host I ord_i ord_c infer m (counting_wasp c) (counting_program c) (counting_generated c) (counting_well_formed c) ai EI
      only imp m' lib Pi Pc E V U AN PV HO CO n fuel Fu vars (counts_event c) (counting_guest c) (fun t => @counting_notes Y c t) (fun t _ => @counting_calls Y _ c t)
      x [] calls outs s Ix T R Ro) as (s' & A1 & A2 & A3). exists s'. split; [exact A1|]. split; [exact A2|].
    rewrite A3. revert L. generalize (module_trace x calls). intros t L. clear A1 A2 A3 s'. rewrite Ec. clear - L. split.
    - apply depth_deepest with (stack := "call_stack"); [..|exact L]; try (intros v [[]| |]; reflexivity). intros [[]| |]; discriminate || reflexivity.
    - apply depth_deepest with (stack := "apply_stack"); [..|exact L]; try (intros v [[]| |]; reflexivity). intros [[]| |]; discriminate || reflexivity.
  Qed.
  (** Without any assumption on the space: results are never wrong, a call can only trap. *)
  Theorem C91_any_space : forall x calls outs s, I x -> typed_calls calls ->
    plain_module x calls = Ok (outs, s) ->
    same_until (plain_module x) (counted_run x) calls outs (~ space x calls).
  Proof.
    exact (fun x => @C71_any_space Y num1 num2 p0 mx Pages f N Big host I ord_i ord_c infer m (counting_wasp c) (counting_program c) (counting_generated c) (counting_well_formed c) ai EI
      only imp m' lib Pi Pc E V U AN PV HO CO n fuel Fu vars (counts_event c) (counting_guest c) (fun t => @counting_notes Y c t) (fun t _ => @counting_calls Y _ c t) x []).
  Qed.
  (** Also if the start function traps: the counters show what happened before. *)
  Theorem C91_failing_start : forall x calls s, I x -> typed_calls calls -> plain_module x calls = Trap s -> space x calls ->
    exists s', counted_run x calls = Trap s' /\ same_program s s' /\
      forall global what, In (global, what) (counted c) -> value global (fst (snd (st_x s'))) = times what (module_trace x calls) mod 2 ^ 32.
  Proof.
    intros x calls s Ix T R Ro.
    destruct (@C71_failing_start Y num1 num2 p0 mx Pages f N Big host I ord_i ord_c infer m (counting_wasp c) (counting_program c) (counting_generated c) (counting_well_formed c) ai EI
      only imp m' lib Pi Pc E V U AN PV HO CO n fuel Fu vars (counts_event c) (counting_guest c) (fun t => @counting_notes Y c t) (fun t _ => @counting_calls Y _ c t)
      x [] calls s Ix T R Ro) as (s' & A1 & A2 & A3). exists s'. split; [exact A1|]. split; [exact A2|].
    intros g p J. rewrite A3. now apply counters.
  Qed.
  (** The files about blocks and loops need no space. *)
  Theorem C91_no_space : c = BlockWasp \/ c = LoopWasp -> forall x calls outs s, I x -> typed_calls calls -> plain_module x calls = Ok (outs, s) ->
    exists s', counted_run x calls = Ok (outs, s') /\ same_program s s' /\
      forall global what, In (global, what) (counted c) -> value global (fst (snd (st_x s'))) = times what (module_trace x calls) mod 2 ^ 32.
  Proof.
    intros Ec x calls outs s Ix T R. apply (C91_counts Ix T R). intros before after Q.
    assert (G : generic = false) by (clear - Ec; destruct Ec as [->| ->]; reflexivity). rewrite G in Q. erewrite no_usage by exact Q. clear - Pages. lia.
  Qed.
End Sessions.
Print Assumptions C91_counts.
Print Assumptions C91_failing_start.
Print Assumptions C91_no_space.
Print Assumptions C91_depths.
Print Assumptions C91_any_space.

(** ** Examples: programs of the integration tests and what is expected of them
    (tests/input-programs/wat/{call_chain,fib,nested-blocks,nested-loops}.wat, test-configurations.json), as the functions of one module. *)
(** Instructions. *)
Definition get_ (i : nat) : low := LBasic (BLocal LGet i).
Definition set_ (i : nat) : low := LBasic (BLocal LSet i).
Definition const_ (z : Z) : low := LBasic (BConst TI32 z).
Definition calls_ (i : nat) : fcode := FPresent [] [LBasic (BCall i); LEnd].
(** nested-blocks.wat, nested-loops.wat: fourteen of them, one in the other. *)
Definition nested (o : low) : fcode :=
  FPresent [t_i32] ([const_ 0; set_ 0] ++ repeat o 14 ++ [const_ 1; set_ 0] ++ repeat LEnd 14 ++ [get_ 0; LEnd]).
(** call_chain.wat L3-10, fib.wat L3-20, nested-blocks.wat, nested-loops.wat. *)
Definition counted_module : module :=
  Mod [Fn (FT [] []) (calls_ 1) []; Fn (FT [] []) (calls_ 2) []; Fn (FT [] []) (calls_ 3) []; Fn (FT [] []) (calls_ 4) [];
       Fn (FT [] []) (FPresent [] [LEnd]) []; Fn (FT [] []) (calls_ 0) ["main"];
       Fn ex_i32_1 (FPresent [] [get_ 0; const_ 1; LBasic (BBinary I32LeS); LIf (FT [] [t_i32]); const_ 1; LElse;
         get_ 0; const_ 1; LBasic (BBinary I32Sub); LBasic (BCall 6); get_ 0; const_ 2; LBasic (BBinary I32Sub); LBasic (BCall 6);
         LBasic (BBinary I32Add); LEnd; LEnd]) ["fib"];
       Fn (FT [] [t_i32]) (nested (LBlock (FT [] []))) ["nested-blocks"];
       Fn (FT [] [t_i32]) (nested (LLoop (FT [] []))) ["nested-loops"]]
      [] [] [] [] [] None.
(** Signed comparison, which the semantics leaves to its parameter. *)
Definition counted_num2 (o : binop) (a b : Z) : option Z := match o with I32LeS => Some (if as_i32 a <=? as_i32 b then 1 else 0) | _ => None end.
(** Auxiliary: the types of the instructions. *)
Definition counted_infer (_ : nat) (l : list low) : option (list ity) :=
  Some (map (fun i => match i with
    | LBasic (BLocal LGet _) | LBasic (BConst _ _) => IReach (FT [] [t_i32])
    | LBasic (BLocal LSet _) => IReach (FT [t_i32] [])
    | LBasic (BBinary _) => IReach (FT [t_i32; t_i32] [t_i32])
    | LBasic (BCall 6) => IReach (FT [t_i32] [t_i32])
    | _ => IReach (FT [] []) end) l).
Lemma counted_checked : check_funcs counted_module counted_infer = true. Proof. reflexivity. Qed.
Lemma counted_valid : valid counted_module.
Proof.
  constructor; simpl; try (now constructor).
  - exact (proj1 (check_funcs_sound _ _ counted_checked)).
  - split; [constructor|lia].
  - intros [|i] g E; discriminate E.
  - repeat constructor; simpl; intuition discriminate.
Qed.
Lemma counted_in_format : in_format counted_module.
Proof. unfold in_format, u32. simpl. split; [lia|]. repeat split; repeat (constructor; simpl); unfold u32; simpl; try lia. Qed.
(** Nothing is imported. *)
Definition nobody (ns name : string) (args : list val) : xprog unit := XStuck.
(** Depth of the recursion allowed to the model. *)
Definition steps : nat := 22.
(** The session of a test: instrument, run, and look at the globals. *)
Definition counted_session (c : counting) (calls : list (string * list val)) : option (list (option (list val)) * vars) :=
  match interface_of_root (counting_wasp c) with
  | Some ai =>
      match instrument ex_id ex_id counted_infer counted_module ai None with
      | IOk m' lib =>
          match wasp_run ex_num1 counted_num2 as_steps nobody (counting_program c) ex_imports m' lib (5 * steps + 2) (counting_guest c)
                  (as_start 0 1 (fun _ => 0%Z), ([], tt)) calls with
          | Ok (outs, s') => Some (outs, fst (snd (st_x s')))
          | _ => None
          end
      | _ => None
      end
  | None => None
  end.
(** The tests, by analysis: a call, its results, and the values expected of the globals. *)
Definition counted_tests (c : counting) : (string * list val) * list val * list (string * Z) :=
  match c with
  | CallStackWasp => (("fib", [vi32 10]), [vi32 89], [("number_of_calls", 176); ("max_call_depth", 9); ("number_of_applys", 177); ("max_apply_depth", 10)])
  | BlockWasp => (("nested-blocks", []), [vi32 1], [("number_of_blocks_pre", 14); ("number_of_block_post", 14)])
  | LoopWasp => (("nested-loops", []), [vi32 1], [("number_of_loops_pre", 14); ("number_of_loop_post", 14)])
  | CallChainPre => (("main", []), [], [("number_of_calls_pre", 5); ("number_of_calls_post", 0); ("number_of_apply_pre", 6); ("number_of_apply_post", 6)])
  | CallChainPost => (("main", []), [], [("number_of_calls_pre", 0); ("number_of_calls_post", 5); ("number_of_apply_pre", 6); ("number_of_apply_post", 6)])
  | CallChainPrePost => (("main", []), [], [("number_of_calls_pre", 5); ("number_of_calls_post", 5); ("number_of_apply_pre", 6); ("number_of_apply_post", 6)])
  end.
Example C91_expected : forall c,
  match counted_session c [fst (fst (counted_tests c))] with
  | Some (outs, v) => outs = [Some (snd (fst (counted_tests c)))] /\ map (fun t => (fst t, value (fst t) v)) (snd (counted_tests c)) = snd (counted_tests c)
  | None => False
  end.
Proof. intros []; vm_compute; split; reflexivity. Qed.
(** The hypotheses of the theorem are met by each of the files with these programs; the session is that of the tests but for a smaller argument of fib,
    to keep the check of the space used at every event short. *)
Definition short_test (c : counting) : (string * list val) * list val :=
  match c with CallStackWasp => (("fib", [vi32 4]), [vi32 5]) | _ => fst (counted_tests c) end.
(** The events of the session. *)
Definition counted_trace (c : counting) : list event :=
  module_trace ex_num1 counted_num2 nobody counted_infer counted_module (advised_by (counting_wasp c)) (instruments_generic_apply (counting_wasp c)) None steps ex_imports tt
    [fst (short_test c)].
Example C91_applies : forall c, exists ai m' lib outs s s',
  interface_of_root (counting_wasp c) = Some ai /\ instrument ex_id ex_id counted_infer counted_module ai None = IOk m' lib /\
  run_module ex_num1 counted_num2 nobody steps ex_imports counted_module tt [fst (short_test c)] = Ok (outs, s) /\
  wasp_run ex_num1 counted_num2 as_steps nobody (counting_program c) ex_imports m' lib (5 * steps + 2) (counting_guest c)
    (as_start 0 1 (fun _ => 0), ([], tt)) [fst (short_test c)] = Ok (outs, s') /\ same_program s s' /\
  forall global what, In (global, what) (counted c) -> value global (fst (snd (st_x s'))) = times what (counted_trace c) mod 2 ^ 32.
Proof.
  intros c. pose proof (C91_expected c) as S. unfold counted_session in S.
  destruct (interface_of_root (counting_wasp c)) as [ai|] eqn:EI; [|contradiction S].
  destruct (instrument ex_id ex_id counted_infer counted_module ai None) as [m' lib| |] eqn:E; [|contradiction S..]. clear S.
  assert (R : match run_module ex_num1 counted_num2 nobody steps ex_imports counted_module tt [fst (short_test c)] with
              | Ok (outs, s) => outs = [Some (snd (short_test c))] | _ => False end) by (destruct c; vm_compute; reflexivity).
  destruct (run_module ex_num1 counted_num2 nobody steps ex_imports counted_module tt [fst (short_test c)]) as [[outs s]| | |] eqn:Rm; try contradiction R.
  exists ai, m', lib, outs, s.
  destruct (@C91_counts unit ex_num1 counted_num2 0 1 ltac:(lia) (fun _ => 0) as_steps) with (host := nobody) (I := fun _ : unit => True)
    (ord_i := ex_id) (ord_c := ex_id) (infer := counted_infer) (m := counted_module) (c := c) (ai := ai) (only := @None (list nat)) (imp := ex_imports) (m' := m') (lib := lib)
    (n := steps) (fuel := (5 * steps + 2)%nat) (x := tt) (calls := [fst (short_test c)]) (outs := outs) (s := s) as (s' & A & B & C); try exact EI; try exact E; try exact Rm; try exact Logic.I; try exact counted_valid; try exact counted_in_format; try (intros l; apply Permutation_refl); [..|exists s'; split; [reflexivity|]; split; [exact E|]; split; [reflexivity|]; split; [exact A|]; split; [exact B|exact C]].
  - unfold as_steps. rewrite Z2Nat.id; lia.
  - exact (proj2 (check_funcs_sound _ _ counted_checked)).
  - constructor; intros ? ? ? [].
  - intros f fn ns name args N C. do 9 (destruct f as [|f]; [injection N as <-; discriminate C|]). destruct f; discriminate N.
  - constructor.
    + intros fn ns name Hf EC. simpl in Hf. repeat destruct Hf as [<-|Hf]; try discriminate EC. destruct Hf.
    + intros fn x Hf Hx Hi. simpl in Hf. repeat destruct Hf as [<-|Hf]; try destruct Hf; simpl in Hi;
        repeat destruct Hi as [<-|Hi]; try destruct Hi; vm_compute in Hx; intuition discriminate.
    + intros fn locals code Hf EC. simpl in Hf. repeat destruct Hf as [<-|Hf]; try destruct Hf;
        injection EC as <- <-; split; intros o ma Hi _; simpl in Hi; repeat (destruct Hi as [Hi|Hi]; [discriminate Hi|]); destruct Hi.
    + intros f fn _ Nf. do 9 (destruct f as [|f]; [injection Nf as <-; simpl; lia|]). destruct f; discriminate Nf.
  - apply Nat.le_refl.
  - destruct c; (apply Forall_cons; [eexists; split; [reflexivity|repeat (constructor; simpl; try lia)]|apply Forall_nil]).
  - intros b a Eb. pose proof (peak_ok counted_module _ _ Eb) as H. change (usage counted_module b <= ex_peak counted_module (counted_trace c)) in H.
    assert (P : ex_peak counted_module (counted_trace c) <= 100) by (destruct c; vm_compute; discriminate). lia.
Qed.
(** A program whose start function traps after the chain of calls. *)
Definition failing_module : module :=
  Mod [Fn (FT [] []) (calls_ 1) []; Fn (FT [] []) (calls_ 2) []; Fn (FT [] []) (FPresent [] [LEnd]) [];
       Fn (FT [] []) (FPresent [] [LBasic (BCall 0); LBasic (BCall 1); LBasic BUnreachable; LEnd]) ["main"]]
      [] [] [] [] [] (Some 3%nat).
Example C91_failing :
  match run_module ex_num1 counted_num2 nobody steps ex_imports failing_module tt [("main", [])] with Trap _ => True | _ => False end /\
  match interface_of_root (counting_wasp CallChainPrePost) with
  | Some ai =>
      match instrument ex_id ex_id counted_infer failing_module ai None with
      | IOk m' lib =>
          match wasp_run ex_num1 counted_num2 as_steps nobody (counting_program CallChainPrePost) ex_imports m' lib (5 * steps + 2) (counting_guest CallChainPrePost)
                  (as_start 0 1 (fun _ => 0%Z), ([], tt)) [("main", [])] with
          | Trap s' => map (fun x => value x (fst (snd (st_x s')))) ["number_of_calls_pre"; "number_of_calls_post"; "number_of_apply_pre"; "number_of_apply_post"] = [5; 5; 6; 5]
          | _ => False
          end
      | _ => False
      end
  | None => False
  end.
Proof. split; vm_compute; [exact Logic.I|reflexivity]. Qed.
