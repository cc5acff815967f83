(** Where the events of a trace come from: each advice is about an instruction of the module, and its
    location says which one. *)
From Verif Require Import Semantics NestingProofs Trace NestingSpec StackSpec TraceProofs PropStdlib.
Local Open Scope list_scope.

(** What the advice says about an instruction agrees with the instruction; specification, after the
    documentation of the advices in wastrumentation-rs-stdlib/src/lib.rs L617-1392. *)
Definition about (i : low) (a : advice) : Prop :=
  match a with
  | AdSelect _ _ => i = LBasic BSelect \/ exists t, i = LBasic (BTypedSelect t)
  | AdCallPre t _ | AdCallPost t _ => exists g, i = LBasic (BCall g) /\ t = Z.of_nat g
  | AdCallIndPre _ t _ | AdCallIndPost t _ => exists ft tb, i = LBasic (BCallIndirect ft tb) /\ t = Z.of_nat tb
  | AdBr l _ => exists d, i = LBasic (BBr d) /\ l = Z.of_nat d
  | AdBrIf _ l _ => exists d, i = LBasic (BBrIf d) /\ l = Z.of_nat d
  | AdBrTable k l d _ => exists table d', i = LBasic (BBrTable table d') /\ d = Z.of_nat d' /\ l = Z.of_nat (nth (Z.to_nat k) table d')
  | AdReturn _ => i = LBasic BReturn
  | AdDrop _ => i = LBasic BDrop
  | AdConst v _ => exists t z, i = LBasic (BConst t z) /\ v = VNum t z
  | AdUnary o _ _ => i = LBasic (BUnary o)
  | AdBinary o _ _ _ => i = LBasic (BBinary o)
  | AdLocal _ x o _ => exists k, i = LBasic (BLocal o k) /\ x = Z.of_nat k
  | AdGlobal _ x o _ => exists k, i = LBasic (BGlobal o k) /\ x = Z.of_nat k
  | AdLoad _ off o _ => exists ma, i = LBasic (BLoad o ma) /\ off = ma_offset ma
  | AdStore _ _ off o _ => exists ma, i = LBasic (BStore o ma) /\ off = ma_offset ma
  | AdMemorySize _ k _ => exists j, i = LBasic (BMemorySize j) /\ k = Z.of_nat j
  | AdMemoryGrow _ k _ => exists j, i = LBasic (BMemoryGrow j) /\ k = Z.of_nat j
  | AdBlockPre p q _ => exists ft, i = LBlock ft /\ p = n_in ft /\ q = n_out ft
  | AdLoopPre p q _ => exists ft, i = LLoop ft /\ p = n_in ft /\ q = n_out ft
  | AdIfThen _ p q _ | AdIfThenElse _ p q _ => exists ft, i = LIf ft /\ p = n_in ft /\ q = n_out ft
  | AdBlockPost _ => exists ft, i = LBlock ft
  | AdLoopPost _ => exists ft, i = LLoop ft
  | AdIfThenPost _ | AdIfThenElsePost _ => exists ft, i = LIf ft
  end.

Section Places.
  Context {Y : Type}.
  Notation store := (store Y).
  Notation res := (res store).
  Variable num1 : unop -> Z -> option Z.
  Variable num2 : binop -> Z -> Z -> option Z.
  Variable R : event -> Prop.
  Notation P := (Forall R).
  Lemma P_app e1 e2 : P e1 -> P e2 -> P (e1 ++ e2). Proof. intros. now apply Forall_app. Qed.
  Section Body.
    Variable ftype : nat -> option functy.
    Variable call : nat -> list val -> store -> res (list val * store).
    Variable tcall : nat -> list val -> store -> list event.
    Variable on : hook -> bool.
    Variable loops : nat.
    Hypothesis TC : forall f args s, P (tcall f args s).
    (** Advice on an instruction, at its place. *)
    Variable here : tinstr -> Prop.
    Hypothesis HR : forall i a, here i -> about (opening i) a -> advice_location a = at_ (meta_of i) -> (exists h, on h = true) -> R (EvAdvice a).

    Lemma told i h a : here i -> about (opening i) a -> advice_location a = at_ (meta_of i) -> P (if_on on h a).
    Proof. intros H1 H2 H3. unfold if_on. destruct (on h) eqn:E; [|constructor]. constructor; [|constructor]. eapply HR; eauto. Qed.
    Lemma callee_at g ft st s0 : P (callee_events tcall g ft st s0).
    Proof. unfold callee_events. destruct (popn _ _) as [[? ?]|]; [apply TC|constructor]. Qed.
    Lemma inner_at b st s : P (inner ftype tcall b st s).
    Proof.
      destruct b; simpl; try constructor.
      - destruct (ftype _); [apply callee_at|constructor].
      - destruct st as [|[[]|] st]; try constructor. destruct (nth_error _ _); [|constructor]. destruct (nth_error _ _) as [[|]|]; try constructor.
        destruct (ftype _); [|constructor]. destruct (functy_eqb _ _); [apply callee_at|constructor].
    Qed.
    Lemma basic_at m b : here (TBasic m b) -> forall st ls s, P (events_basic num1 num2 ftype call tcall on m b st ls s).
    Proof.
      intros H st ls s. pose proof (@told (TBasic m b)) as TT. cbn [opening meta_of] in TT.
      destruct b; cbn [events_basic];
      repeat match goal with
        | |- P (if_on _ _ _) => apply TT; [exact H|cbn [about]; eauto 10|reflexivity]
        | |- P (_ ++ _) => apply P_app
        | |- P (then_ _ _) => apply then_all; [constructor|intros]
        | |- P (inner _ _ _ _ _) => apply inner_at
        | |- P [] => constructor
        | |- context [match ?x with _ => _ end] => destruct x
        end.
    Qed.
    Lemma body_at b : (forall i, occurs i b -> here i) -> forall st ls s, P (events num1 num2 ftype call tcall on loops b st ls s).
    Proof.
      unfold events.
      induction b as [|m b r IHr|m ft body r IHb IHr|m ft body r IHb IHr|m ft thn r IHt IHr|m ft thn els r IHt IHe IHr]
        using tbody_ind; intros H st ls s; cbn [events_seq events1];
        try (assert (Hr : forall i, occurs i r -> here i) by (intros i O; apply H; now apply oc_next));
        try (specialize (H _ (oc_here _ _)) as H0).
      - constructor.
      - apply P_app; [now apply basic_at|apply then_all; [constructor|auto]].
      - apply P_app; [|apply then_all; [constructor|auto]]. apply block_all; [constructor|]. apply around_all; try (exact P_app); try constructor.
        + eapply told; [exact H0|cbn; eauto|reflexivity].
        + eapply told; [exact H0|cbn; eauto|reflexivity].
        + apply IHb. intros i O. apply H. now apply oc_block.
      - apply P_app; [|apply then_all; [constructor|auto]]. apply loop_all; [constructor|exact P_app|]. apply around_all; try (exact P_app); try constructor.
        + eapply told; [exact H0|cbn; eauto|reflexivity].
        + eapply told; [exact H0|cbn; eauto|reflexivity].
        + apply IHb. intros i O. apply H. now apply oc_loop.
      - assert (Ht : forall i, occurs i thn -> here i) by (intros i O; apply H; now apply oc_then).
        apply P_app; [|apply then_all; [constructor|auto]]. destruct st as [|[t c|] st]; try constructor.
        apply P_app; [eapply told; [exact H0|cbn; eauto|reflexivity]|].
        destruct (c =? 0)%Z; (apply block_all; [constructor|]).
        + intros. eapply told; [exact H0|cbn; eauto|reflexivity].
        + apply around_all; try (exact P_app); try constructor; [eapply told; [exact H0|cbn; eauto|reflexivity]|auto].
      - assert (Ht : forall i, occurs i thn -> here i) by (intros i O; apply H; now apply oc_then).
        assert (He : forall i, occurs i els -> here i) by (intros i O; apply H; now apply oc_else).
        apply P_app; [|apply then_all; [constructor|auto]]. destruct st as [|[t c|] st]; try constructor.
        apply P_app; [eapply told; [exact H0|cbn; eauto|reflexivity]|].
        destruct (c =? 0)%Z; (apply block_all; [constructor|]); (apply around_all; try (exact P_app); try constructor;
          [eapply told; [exact H0|cbn; eauto|reflexivity]|auto]).
    Qed.
  End Body.
End Places.

(** An advice is about the instruction of module [m] at its location, in a selected function. *)
Definition placed (m : module) (only : option (list nat)) (a : advice) : Prop :=
  exists f p fn locals body i, advice_location a = Loc (Z.of_nat f) (Z.of_nat p) /\
    nth_error (md_funcs m) f = Some fn /\ fn_code fn = FPresent locals body /\ nth_error body p = Some i /\
    about i a /\ selected m only f = true.

Section Whole.
  Context {Y : Type}.
  Variable num1 : unop -> Z -> option Z.
  Variable num2 : binop -> Z -> Z -> option Z.
  Variable host : string -> string -> list val -> xprog Y.
  Variable infer : nat -> list low -> option (list ity).
  Variable m : module.
  Variable on : hook -> bool.
  Variable generic : bool.
  Variable only : option (list nat).
  Notation trace := (trace num1 num2 host infer m on generic only).
  Notation plain := (call_fn num1 num2 host (md_funcs m)).
  Definition placed_event (e : event) : Prop := match e with EvAdvice a => placed m only a | _ => True end.
  Notation P := (Forall placed_event).
  Lemma placed_nil : P []. Proof. constructor. Qed.
  Lemma placed_app e1 e2 : P e1 -> P e2 -> P (e1 ++ e2). Proof. intros. now apply Forall_app. Qed.
  Lemma own_placed n : (forall f args s, P (trace n f args s)) -> forall f fn args s, nth_error (md_funcs m) f = Some fn ->
    P (own_events num1 num2 host infer m on generic only n f fn args s).
  Proof.
    intros IH f fn args s N. unfold own_events. destruct (fn_code fn) as [ns name|locals body] eqn:EC.
    - apply events_x_all; auto using placed_nil, placed_app. intros nm a s'. destruct (export_index _ _ _); auto using placed_nil.
    - destruct (structure_typed f (infer f) body) as [b| |] eqn:ES; auto using placed_nil.
      destruct (structure_typed_located _ _ _ ES) as (tys & _ & Loc & _).
      apply (@body_at Y num1 num2 placed_event _ _ _ _ _ IH (fun i => occurs i b)); [|auto].
      intros i a O Ab El (h & Oh). destruct (Loc i O) as (E1 & _ & E2 & _).
      exists f, (m_pos (meta_of i)), fn, locals, body, (opening i). rewrite El. unfold at_. rewrite E1.
      repeat split; auto. destruct (selected m only f); [reflexivity|discriminate Oh].
  Qed.
  Lemma trace_placed n : forall f args s, P (trace n f args s).
  Proof.
    induction n as [|n IH]; intros f args s; [constructor|].
    destruct (nth_error (md_funcs m) f) as [fn|] eqn:E; [|cbn [Trace.trace]; rewrite E; constructor].
    rewrite (trace_S _ _ _ _ _ _ _ _ _ _ _ _ E). pose proof (@own_placed n IH f fn args s E) as W.
    destruct (reported m generic only f); [|exact W]. constructor; [exact Logic.I|]. apply placed_app; [exact W|].
    destruct (plain _ _ _ _) as [[? ?]|?| |]; repeat constructor.
  Qed.
  Lemma session_placed n calls : forall s, P (session_trace num1 num2 host infer m on generic only n calls s).
  Proof.
    induction calls as [|[name args] calls IH]; intros s; cbn [session_trace]; [constructor|].
    destruct (export_index _ _ _); [|constructor]. apply placed_app; [apply trace_placed|].
    destruct (plain _ _ _ _) as [[? ?]|?| |]; auto using placed_nil.
  Qed.
  Lemma module_placed n imp x calls : P (module_trace num1 num2 host infer m on generic only n imp x calls).
  Proof.
    unfold module_trace. destruct (instantiate imp m x) as [s|?| |]; auto using placed_nil. destruct (md_start m); [|apply session_placed].
    apply placed_app; [apply trace_placed|]. destruct (plain _ _ _ _) as [[? ?]|?| |]; auto using placed_nil. apply session_placed.
  Qed.
End Whole.
