(** Which events occur in a trace, and the buffer space they need. *)
From Verif Require Import Semantics NestingProofs Trace NestingSpec StackSpec.
Local Open Scope list_scope.

(** Predicates on lists of events that hold of concatenations. *)
Section Quiet.
  Context {Y : Type}.
  Notation store := (store Y).
  Notation res := (res store).
  Variable num1 : unop -> Z -> option Z.
  Variable num2 : binop -> Z -> Z -> option Z.
  Variable P : list event -> Prop.
  Hypothesis P0 : P [].
  Hypothesis Papp : forall e1 e2, P e1 -> P e2 -> P (e1 ++ e2).

  Lemma then_all (r : res (@conf Y)) k : (forall st ls s, P (k st ls s)) -> P (then_ r k).
  Proof. intros H. destruct r as [[[[[] st] ls] s]|?| |]; simpl; auto. Qed.
  Lemma around_all evs (body : list val -> list val -> store -> res (@conf Y)) pre post :
    P pre -> P post -> (forall st ls s, P (evs st ls s)) -> forall st ls s, P (around evs body pre post st ls s).
  Proof. intros A B C st ls s. unfold around. apply Papp; [auto|]. apply Papp; [auto|]. apply then_all. auto. Qed.
  Lemma block_all (evs : list val -> list val -> store -> list event) ft st ls s :
    (forall st ls s, P (evs st ls s)) -> P (block_events evs ft st ls s).
  Proof. intros H. unfold block_events. destruct (popn _ _) as [[? ?]|]; auto. Qed.
  Lemma loop_all n (evs : list val -> list val -> store -> list event) body ft st ls s :
    (forall st ls s, P (evs st ls s)) -> P (loop_events n evs body ft st ls s).
  Proof.
    intros H. unfold loop_events. destruct (popn _ _) as [[ps ?]|]; auto.
    generalize (List.length (ft_in ft)). intros nin. revert ps ls s. induction n as [|n IH]; intros; simpl; auto.
    apply Papp; [auto|]. destruct (body _ _ _) as [[[[[|[|d]|] st'] ls'] s']|?| |]; auto.
    destruct (popn nin st') as [[ps' ?]|]; auto.
  Qed.

  Section Body.
    Variable ftype : nat -> option functy.
    Variable call : nat -> list val -> store -> res (list val * store).
    Variable tcall : nat -> list val -> store -> list event.
    Variable on : hook -> bool.
    Variable loops : nat.
    Hypothesis BE : forall m b st ls s, P (events_basic num1 num2 ftype call tcall on m b st ls s).
    Hypothesis FE : forall h a, match a with
      | AdBlockPre _ _ _ | AdBlockPost _ | AdLoopPre _ _ _ | AdLoopPost _ | AdIfThen _ _ _ _ | AdIfThenPost _
      | AdIfThenElse _ _ _ _ | AdIfThenElsePost _ => True | _ => False end -> P (if_on on h a).
    Lemma body_all b : forall st ls s, P (events num1 num2 ftype call tcall on loops b st ls s).
    Proof.
      unfold events.
      induction b as [|m b r IHr|m ft body r IHb IHr|m ft body r IHb IHr|m ft thn r IHt IHr|m ft thn els r IHt IHe IHr]
        using tbody_ind; intros st ls s; cbn [events_seq events1].
      - auto.
      - apply Papp; [apply BE|apply then_all; auto].
      - apply Papp; [|apply then_all; auto]. apply block_all, around_all; auto; try (apply FE; exact I).
      - apply Papp; [|apply then_all; auto]. apply loop_all, around_all; auto; try (apply FE; exact I).
      - apply Papp; [|apply then_all; auto]. destruct st as [|[t c|] st]; auto.
        apply Papp; [apply FE; exact I|]. destruct (c =? 0)%Z; apply block_all; [intros; apply FE; exact I|].
        apply around_all; auto; try (apply FE; exact I).
      - apply Papp; [|apply then_all; auto]. destruct st as [|[t c|] st]; auto.
        apply Papp; [apply FE; exact I|]. destruct (c =? 0)%Z; apply block_all; apply around_all; auto; try (apply FE; exact I).
    Qed.
  End Body.

  Lemma events_x_all (export : string -> list val -> store -> res (list val * store)) texport p :
    (forall nm args s, P (texport nm args s)) -> forall s, P (events_x export texport p s).
  Proof.
    intros H. induction p as [| | |k IH|x m g k IH|nm args k IH]; intros s; simpl; auto.
    apply Papp; [auto|]. destruct (export nm args s) as [[? ?]|?| |]; auto.
  Qed.
End Quiet.

Section Whole.
  Context {Y : Type}.
  Variable num1 : unop -> Z -> option Z.
  Variable num2 : binop -> Z -> Z -> option Z.
  Variable host : string -> string -> list val -> xprog Y.
  Variable infer : nat -> list low -> option (list ity).
  Variable m : module.
  Variable on : hook -> bool.
  Variable generic : bool.
  Variable only : option (list nat).
  Notation trace := (trace num1 num2 host infer m on generic only).
  Notation plain := (call_fn num1 num2 host (md_funcs m)).

  (** The events of a call, except those of intercepting it. *)
  Definition own_events (n : nat) (f : nat) (fn : func) (args : list val) (s : store Y) : list event :=
    match fn_code fn with
    | FImport ns name =>
        events_x (fun nm args s => rbind (rget (export_index 0 (md_funcs m) nm)) (fun g => plain n g args s))
                 (fun nm args s => match export_index 0 (md_funcs m) nm with Some g => trace n g args s | None => [] end)
                 (host ns name args) s
    | FPresent locals code =>
        match structure_typed f (infer f) code with
        | COk b =>
            events num1 num2 (ftype_of (md_funcs m)) (plain n) (trace n) (if selected m only f then on else fun _ => false) n b
              [] (args ++ map default_val locals) s
        | _ => []
        end
    end.
  Lemma trace_S n f fn args s : nth_error (md_funcs m) f = Some fn ->
    trace (S n) f args s =
    if reported m generic only f
    then EvEnter f (has_code fn) args :: own_events n f fn args s ++
         match plain (S n) f args s with Ok (rs, _) => [EvLeave f rs] | _ => [] end
    else own_events n f fn args s.
  Proof. intros E. cbn [Trace.trace]. rewrite E. reflexivity. Qed.

  Variable P : list event -> Prop.
  Hypothesis P0 : P [].
  Hypothesis Papp : forall e1 e2, P e1 -> P e2 -> P (e1 ++ e2).
  Hypothesis PA : forall h a, on h = true ->
    match a with AdLoad _ _ _ _ => exists t, h = HkLoad t | AdStore _ _ _ _ _ => exists t, h = HkStore t | _ => True end ->
    P [EvAdvice a].
  Hypothesis PB : forall f c args e, reported m generic only f = true -> P e -> P (EvEnter f c args :: e).
  Hypothesis PC : forall f c args e rs, reported m generic only f = true -> P e -> P (EvEnter f c args :: e ++ [EvLeave f rs]).

  Lemma if_on_all h a : match a with AdLoad _ _ _ _ => exists t, h = HkLoad t | AdStore _ _ _ _ _ => exists t, h = HkStore t | _ => True end ->
    forall on', (forall h, on' h = true -> on h = true) -> P (if_on on' h a).
  Proof. intros H on' S. unfold if_on. destruct (on' h) eqn:E; [|exact P0]. apply (@PA h); auto. Qed.
  Lemma own_all n : (forall f args s, P (trace n f args s)) -> forall f fn args s, P (own_events n f fn args s).
  Proof.
    intros IH f fn args s. unfold own_events. destruct (fn_code fn) as [ns name|locals body].
    - apply events_x_all; auto. intros nm a s'. destruct (export_index _ _ _); auto.
    - destruct (structure_typed f (infer f) body) as [b| |]; auto.
      set (on' := if selected m only f then on else fun _ => false).
      assert (S' : forall h, on' h = true -> on h = true) by (intros h; unfold on'; destruct (selected m only f); [auto|discriminate]).
      clearbody on'. apply body_all; auto.
      + assert (CE : forall g ft st s0, P (callee_events (trace n) g ft st s0)).
        { intros. unfold callee_events. destruct (popn _ _) as [[? ?]|]; auto. }
        assert (IE : forall b0 st s0, P (inner (ftype_of (md_funcs m)) (trace n) b0 st s0)).
        { intros b0 st s0. destruct b0; simpl; auto; [destruct (ftype_of _ _); auto|].
          destruct st as [|[[]|] st]; auto. destruct (nth_error _ _); auto. destruct (nth_error _ _) as [[|]|]; auto.
          destruct (ftype_of _ _); auto. destruct (functy_eqb _ _); auto. }
        intros mt b0 st ls s0. destruct b0; cbn [events_basic];
          repeat match goal with
            | |- P (if_on _ _ _) => apply if_on_all; [eauto|exact S']
            | |- P (_ ++ _) => apply Papp
            | |- P (then_ _ _) => apply then_all; [exact P0|intros]
            | |- P (inner _ _ _ _ _) => apply IE
            | |- P [] => exact P0
            | |- context [match ?x with _ => _ end] => destruct x
            end.
      + intros h a H. apply if_on_all; [|exact S']. destruct a; try contradiction; exact Logic.I.
  Qed.
  Lemma trace_all n : forall f args s, P (trace n f args s).
  Proof.
    induction n as [|n IH]; intros f args s; [exact P0|].
    destruct (nth_error (md_funcs m) f) as [fn|] eqn:E; [|cbn [Trace.trace]; now rewrite E].
    rewrite (@trace_S n f fn args s E). pose proof (@own_all n IH f fn args s) as W.
    destruct (reported m generic only f) eqn:Rf; [|exact W].
    destruct (plain _ _ _ _) as [[? ?]|?| |]; [now apply PC|..]; rewrite app_nil_r; now apply PB.
  Qed.
  Lemma session_all n calls : forall s, P (session_trace num1 num2 host infer m on generic only n calls s).
  Proof.
    induction calls as [|[name args] calls IH]; intros s; cbn [session_trace]; auto.
    destruct (export_index _ _ _); auto. apply Papp; [apply trace_all|].
    destruct (plain _ _ _ _) as [[? ?]|?| |]; auto.
  Qed.
  Lemma module_all n imp x calls : P (module_trace num1 num2 host infer m on generic only n imp x calls).
  Proof.
    unfold module_trace. destruct (instantiate imp m x) as [s|?| |]; auto. destruct (md_start m); [|apply session_all].
    apply Papp; [apply trace_all|]. destruct (plain _ _ _ _) as [[? ?]|?| |]; auto. apply session_all.
  Qed.
End Whole.

(** Without load and store hooks no access is reported. *)
Lemma module_in_range {Y} num1 num2 (host : string -> string -> list val -> xprog Y) infer m on generic only :
  (forall t, on (HkLoad t) = false) -> (forall t, on (HkStore t) = false) -> forall n imp x calls,
  Forall in_range32 (module_trace num1 num2 host infer m on generic only n imp x calls).
Proof.
  intros NL NS n imp x calls. apply module_all.
  - constructor.
  - intros. now apply Forall_app.
  - intros h a H K. constructor; [|constructor]. destruct a; try exact Logic.I; destruct K as (t & ->); [rewrite NL in H|rewrite NS in H]; discriminate.
  - intros. constructor; [exact Logic.I|assumption].
  - intros. constructor; [exact Logic.I|]. apply Forall_app. split; [assumption|]. repeat constructor.
Qed.

(** ** Buffer space *)
Lemma live_app a b : (live (a ++ b) = live a + live b)%Z.
Proof. induction a; simpl; lia. Qed.
Section Usage.
  Variable m : module.
  Notation call_bytes := (call_bytes m).
  Notation usage := (usage m).
  Lemma usage_app e1 e2 : (usage (e1 ++ e2) = usage e1 + usage e2)%Z.
  Proof. induction e1 as [|[] e1 IH]; simpl; lia. Qed.
  Lemma bytes_pos f : (0 <= call_bytes f)%Z.
  Proof. unfold call_bytes, frame_bytes. destruct (nth_error _ _); lia. Qed.
  Lemma bytes_of f fn : nth_error (md_funcs m) f = Some fn -> call_bytes f = frame_bytes (fn_type fn).
  Proof. unfold call_bytes. now intros ->. Qed.
  (** Calls return only after they were entered. *)
  Definition nested (evs : list event) : Prop := forall p q, evs = p ++ q -> (0 <= usage p)%Z.
  Lemma nested_nil : nested [].
  Proof. intros [|] q E; [simpl; lia|discriminate]. Qed.
  Lemma nested_app e1 e2 : nested e1 -> nested e2 -> nested (e1 ++ e2).
  Proof.
    intros H1 H2 p q E. apply app_eq_app in E as (l & [(-> & ->)|(-> & ->)]).
    - now apply (H1 p l).
    - rewrite usage_app. specialize (H1 e1 [] (eq_sym (app_nil_r _))). specialize (H2 l q eq_refl). lia.
  Qed.
  Lemma nested_enter f c args e : nested e -> nested (EvEnter f c args :: e).
  Proof.
    intros H [|x p] q E; [simpl; lia|]. injection E as <- E. simpl. specialize (H p q E). pose proof (bytes_pos f). lia.
  Qed.
  Lemma nested_call f c args e rs : nested e -> nested (EvEnter f c args :: e ++ [EvLeave f rs]).
  Proof.
    intros H [|x p] q E; [simpl; lia|]. injection E as <- E. apply app_eq_app in E as (l & [(-> & E')|(-> & E')]).
    - simpl. specialize (H p l eq_refl). pose proof (bytes_pos f). lia.
    - specialize (H e [] (eq_sym (app_nil_r _))). simpl. rewrite usage_app. pose proof (bytes_pos f).
      destruct l as [|y l]; [simpl; lia|]. injection E' as <- E'. destruct l; [simpl; lia|discriminate].
  Qed.

  Section Of.
    Context {Y : Type}.
    Variable num1 : unop -> Z -> option Z.
    Variable num2 : binop -> Z -> Z -> option Z.
    Variable host : string -> string -> list val -> xprog Y.
    Variable infer : nat -> list low -> option (list ity).
    Variable on : hook -> bool.
    Variable generic : bool.
    Variable only : option (list nat).
    Lemma one_nested a : nested [EvAdvice a].
    Proof. intros [|y p] q E; [simpl; lia|]. injection E as <- E. destruct p; [simpl; lia|discriminate]. Qed.
    Lemma trace_nested n f args s : nested (trace num1 num2 host infer m on generic only n f args s).
    Proof. apply trace_all; auto using nested_nil, nested_app, nested_enter, nested_call, one_nested. Qed.
    Lemma own_nested n f fn args s : nested (own_events num1 num2 host infer m on generic only n f fn args s).
    Proof. apply own_all; auto using nested_nil, nested_app, one_nested, trace_nested. Qed.
  End Of.
End Usage.
