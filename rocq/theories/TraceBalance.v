(** What a run that returns has opened it has closed: sums over the events of a trace in which
    reports of the beginning and the end of calls cancel. *)
From Verif Require Import Semantics NestingProofs Trace TraceProofs NestingSpec RunLemmas ModuleTyping Typing AdvisedTyping StackSpec.
Local Open Scope list_scope.
Local Open Scope Z_scope.
Local Open Scope res_scope.

Definition total (w : event -> Z) (evs : list event) : Z := fold_right (fun e z => w e + z) 0 evs.
Lemma total_app w e1 e2 : total w (e1 ++ e2) = total w e1 + total w e2.
Proof. induction e1 as [|e e1 IH]; simpl; [reflexivity|]. rewrite IH. lia. Qed.
Lemma usage_total m evs : usage m evs =
  total (fun e => match e with EvEnter f _ _ => call_bytes m f | EvLeave f _ => - call_bytes m f | EvAdvice _ => 0 end) evs.
Proof. induction evs as [|[] evs IH]; simpl; lia. Qed.

(** Weights that cancel, given which hooks are on. *)
Record cancels (w : event -> Z) (on : hook -> bool) : Prop := {
  ca_advice : forall a, match a with AdCallPre _ _ | AdCallPost _ _ | AdCallIndPre _ _ _ | AdCallIndPost _ _ => True | _ => w (EvAdvice a) = 0 end;
  ca_call : forall g l, w (EvAdvice (AdCallPre g l)) + w (EvAdvice (AdCallPost g l)) = 0;
  ca_indirect : forall i t l, w (EvAdvice (AdCallIndPre i t l)) + w (EvAdvice (AdCallIndPost t l)) = 0;
  ca_enter : forall f c args rs, w (EvEnter f c args) + w (EvLeave f rs) = 0;
  ca_on : on HkCallPre = on HkCallPost \/ forall g l, w (EvAdvice (AdCallPre g l)) = 0;
  ca_ind_on : on HkCallIndPre = on HkCallIndPost \/ forall i t l, w (EvAdvice (AdCallIndPre i t l)) = 0 }.
Lemma cancels_off w on : cancels w on -> cancels w (fun _ => false).
Proof. intros [H1 H2 H3 H4 H5 H6]. constructor; auto. Qed.

Section Balance.
  Context {Y : Type}.
  Notation store := (store Y).
  Notation res := (res store).
  Variable num1 : unop -> Z -> option Z.
  Variable num2 : binop -> Z -> Z -> option Z.
  Variable w : event -> Z.
  Notation total := (total w).
  Definition level_ok {B} (r : res B) (evs : list event) : Prop := match r with Ok _ => total evs = 0 | _ => True end.

  Lemma lo_bind {B B'} (r : res B) (K : B -> res B') e1 e2 : level_ok r e1 -> (forall b, r = Ok b -> level_ok (K b) e2) -> level_ok (rbind r K) (e1 ++ e2).
  Proof.
    intros H HK. destruct r as [b|s| |]; simpl in *; auto. specialize (HK b eq_refl). unfold level_ok in *.
    destruct (K b); auto. rewrite total_app. lia.
  Qed.
  Lemma lo_get {B B'} (o : option B) (K : B -> res B') e : (forall b, o = Some b -> level_ok (K b) e) -> level_ok (rbind (rget o) K) e.
  Proof. destruct o; simpl; auto. Qed.
  Lemma lo_then (r : res (@conf Y)) k e1 ek : level_ok r e1 -> (forall st ls s, level_ok (k st ls s) (ek st ls s)) ->
    level_ok (andthen r k) (e1 ++ then_ r ek).
  Proof.
    intros H HK. destruct r as [[[[o st] ls] s]|s| |]; simpl in *; auto. destruct o; simpl; rewrite ?app_nil_r; auto.
    specialize (HK st ls s). unfold level_ok in *. destruct (k st ls s); auto. rewrite total_app. lia.
  Qed.
  Lemma lo_block (body : list val -> list val -> store -> res (@conf Y)) evs ft st ls s :
    (forall st ls s, level_ok (body st ls s) (evs st ls s)) -> level_ok (run_block body ft st ls s) (block_events evs ft st ls s).
  Proof.
    intros H. unfold run_block, block_events. destruct (popn _ st) as [[ps rest]|]; [|exact I]. cbn [rget rbind].
    rewrite <- (app_nil_r (evs _ _ _)). apply lo_bind; [apply H|]. intros [[[o st'] ls'] s'] _. destruct o as [|[|d]|]; simpl; auto.
    destruct (popn _ st') as [[? ?]|]; simpl; auto.
  Qed.
  Lemma lo_loop n (body : list val -> list val -> store -> res (@conf Y)) evs ft st ls s :
    (forall st ls s, level_ok (body st ls s) (evs st ls s)) -> level_ok (run_loop n body ft st ls s) (loop_events n evs body ft st ls s).
  Proof.
    intros H. unfold run_loop, loop_events. destruct (popn _ st) as [[ps rest]|]; [|exact I]. cbn [rget rbind].
    generalize (List.length (ft_in ft)). intros nin. revert ps ls s. induction n as [|n IH]; intros ps ls s; [exact I|].
    cbn [run_iter iter_events]. apply lo_bind; [apply H|]. intros [[[o st'] ls'] s'] ->. destruct o as [|[|d]|]; simpl; auto.
    destruct (popn nin st') as [[ps' ?]|]; [apply IH|exact I].
  Qed.
  Lemma lo_around (body : list val -> list val -> store -> res (@conf Y)) evs pre post :
    total pre = 0 -> total post = 0 -> (forall st ls s, level_ok (body st ls s) (evs st ls s)) ->
    forall st ls s, level_ok (body st ls s) (around evs body pre post st ls s).
  Proof.
    intros A B H st ls s. specialize (H st ls s). unfold around, level_ok in *. destruct (body st ls s) as [[[[o ?] ?] ?]|?| |]; auto.
    rewrite !total_app. destruct o; simpl; lia.
  Qed.

  Section Body.
    Variable ftype : nat -> option functy.
    Variable call : nat -> list val -> store -> res (list val * store).
    Variable tcall : nat -> list val -> store -> list event.
    Variable on : hook -> bool.
    Variable loops : nat.
    Hypothesis CA : cancels w on.
    Hypothesis HC : forall f args s, level_ok (call f args s) (tcall f args s).

    Lemma total_if h a : w (EvAdvice a) = 0 -> total (if_on on h a) = 0.
    Proof. intros H. unfold if_on. destruct (on h); simpl; lia. Qed.
    Lemma total_flow h a : match a with AdCallPre _ _ | AdCallPost _ _ | AdCallIndPre _ _ _ | AdCallIndPost _ _ => False | _ => True end ->
      total (if_on on h a) = 0.
    Proof. intros H. apply total_if. pose proof (ca_advice CA a) as W. destruct a; auto; contradiction. Qed.
    Notation exec := (exec num1 num2 ftype call).
    Lemma lo_callee g ft st ls s : level_ok (do_call call g ft st ls s) (callee_events tcall g ft st s).
    Proof.
      unfold do_call, callee_events. destruct (popn _ st) as [[args rest]|]; [|exact I]. cbn [rget rbind].
      rewrite <- (app_nil_r (tcall _ _ _)). apply lo_bind; [apply HC|]. intros [rs s'] _. simpl. reflexivity.
    Qed.
    Lemma call_next g ft st ls s o st1 ls1 s1 : do_call call g ft st ls s = Ok (o, st1, ls1, s1) -> o = ONext.
    Proof.
      unfold do_call. destruct (popn _ st) as [[args rest]|]; [|discriminate]. cbn [rget rbind].
      destruct (call g args s) as [[rs s']|?| |]; try discriminate. cbn [rbind]. unfold next. congruence.
    Qed.
    Lemma lo_call (r : res (@conf Y)) e h h' a a' : level_ok r e -> (forall o st ls s, r = Ok (o, st, ls, s) -> o = ONext) ->
      w (EvAdvice a) + w (EvAdvice a') = 0 -> on h = on h' \/ w (EvAdvice a) = 0 ->
      level_ok r (if_on on h a ++ e ++ then_ r (fun _ _ _ => if_on on h' a')).
    Proof.
      intros H N P O. destruct r as [[[[o st] ls] s]|?| |]; auto. rewrite (N _ _ _ _ eq_refl). simpl in *.
      rewrite !total_app. unfold if_on. destruct O as [->|O]; [destruct (on h')|destruct (on h), (on h')]; simpl; lia.
    Qed.
    Lemma lo_basic m b st ls s : level_ok (exec b st ls s) (events_basic num1 num2 ftype call tcall on m b st ls s).
    Proof.
      assert (Q : forall e, total e = 0 -> level_ok (exec b st ls s) e) by (intros e H; unfold level_ok; destruct (exec b st ls s); auto).
      assert (F : forall h a, match a with AdCallPre _ _ | AdCallPost _ _ | AdCallIndPre _ _ _ | AdCallIndPost _ _ => False | _ => True end ->
        level_ok (exec b st ls s) (if_on on h a)) by (intros; now apply Q, total_flow).
      destruct b; cbn [events_basic]; try (apply Q; reflexivity); try (apply F; exact I);
        try (repeat match goal with |- level_ok _ (match ?x with _ => _ end) => destruct x end; (apply F; exact I) || (apply Q; reflexivity)).
      - apply lo_call.
        + cbn [Semantics.exec inner]. destruct (ftype f) as [ft|]; [|exact I]. apply lo_callee.
        + cbn [Semantics.exec]. destruct (ftype f) as [ft|]; [|discriminate]. apply call_next.
        + apply (ca_call CA).
        + destruct (ca_on CA) as [H|H]; [now left|right; apply H].
      - destruct st as [|[t0 i|] st']; try (apply Q; reflexivity). apply lo_call.
        + cbn [Semantics.exec inner]. destruct t0; try exact I. cbn [pop_i32 rbind].
          destruct (nth_error _ _) as [tb|]; [|exact I]. cbn [rget rbind].
          destruct (nth_error (ts_elems tb) (Z.to_nat i)) as [[g|]|]; try exact I.
          destruct (ftype g) as [ft'|]; [|exact I]. cbn [rget rbind]. destruct (functy_eqb ft' ft); [|exact I]. apply lo_callee.
        + cbn [Semantics.exec]. intros o st1 ls1 s1. destruct t0; try discriminate. cbn [pop_i32 rbind].
          destruct (nth_error _ _) as [tb|]; [|discriminate]. cbn [rget rbind].
          destruct (nth_error (ts_elems tb) (Z.to_nat i)) as [[g|]|]; try discriminate.
          destruct (ftype g) as [ft'|]; [|discriminate]. cbn [rget rbind]. destruct (functy_eqb ft' ft); [|discriminate]. apply call_next.
        + apply (ca_indirect CA).
        + destruct (ca_ind_on CA) as [H|H]; [now left|right; apply H].
    Qed.

    Lemma lo_body b : forall st ls s, level_ok (run num1 num2 ftype call loops (map strip b) st ls s) (events num1 num2 ftype call tcall on loops b st ls s).
    Proof.
      unfold events, run.
      induction b as [|m b r IHr|m ft body r IHb IHr|m ft body r IHb IHr|m ft thn r IHt IHr|m ft thn els r IHt IHe IHr]
        using tbody_ind; intros st ls s; cbn [map run_seq events_seq].
      - reflexivity.
      - apply lo_then; [|exact IHr]. apply lo_basic.
      - apply lo_then; [|exact IHr]. cbn [strip events1 run1]. apply lo_block. intros. apply lo_around; auto; apply total_flow; exact I.
      - apply lo_then; [|exact IHr]. cbn [strip events1 run1]. apply lo_loop. intros. apply lo_around; auto; apply total_flow; exact I.
      - apply lo_then; [|exact IHr]. cbn [strip events1 run1 option_map]. destruct st as [|[t c|] st']; try exact I.
        destruct t; try exact I. cbn [pop_i32 rbind].
        change (run_block ?x) with (run_block x).
        match goal with |- level_ok ?r _ => change r with (rbind (Ok tt) (fun _ : unit => r)) end.
        apply lo_bind; [simpl; apply total_flow; exact I|]. intros _ _.
        destruct (c =? 0); apply lo_block; intros; [simpl; apply total_flow; exact I|]. apply lo_around; auto; apply total_flow; exact I.
      - apply lo_then; [|exact IHr]. cbn [strip events1 run1 option_map]. destruct st as [|[t c|] st']; try exact I.
        destruct t; try exact I. cbn [pop_i32 rbind].
        match goal with |- level_ok ?r _ => change r with (rbind (Ok tt) (fun _ : unit => r)) end.
        apply lo_bind; [simpl; apply total_flow; exact I|]. intros _ _.
        destruct (c =? 0); apply lo_block; intros; apply lo_around; auto; apply total_flow; exact I.
    Qed.
  End Body.

  Lemma lo_host (export : string -> list val -> store -> res (list val * store)) texport p :
    (forall nm args s, level_ok (export nm args s) (texport nm args s)) -> forall s, level_ok (run_x export p s) (events_x export texport p s).
  Proof.
    intros H. induction p as [vs| | |k IH|x m g p IH|nm args k IH]; intros s; cbn [run_x events_x]; auto; try exact I; try reflexivity.
    apply lo_bind; [apply H|]. intros [vs s'] ->. apply IH.
  Qed.

  Variable host : string -> string -> list val -> xprog Y.
  Variable infer : nat -> list low -> option (list ity).
  Variable m : module.
  Variable on : hook -> bool.
  Variable generic : bool.
  Variable only : option (list nat).
  Hypothesis CA : cancels w on.
  Hypothesis AN : annotates infer m.
  Notation trace := (trace num1 num2 host infer m on generic only).
  Notation plain := (call_fn num1 num2 host (md_funcs m)).

  (** A call that returns. *)
  Lemma lo_trace n : forall f args s, level_ok (plain n f args s) (trace n f args s).
  Proof.
    induction n as [|n IH]; intros f args s; [exact I|].
    destruct (nth_error (md_funcs m) f) as [fn|] eqn:Nf; [|cbn [call_fn]; rewrite Nf; exact I].
    rewrite (@trace_S Y num1 num2 host infer m on generic only n f fn args s Nf).
    assert (OW : level_ok (plain (S n) f args s) (own_events num1 num2 host infer m on generic only n f fn args s)).
    { cbn [call_fn]. rewrite Nf. cbn [rget rbind]. destruct (Nat.eqb _ _); [|exact I]. unfold own_events.
      destruct (fn_code fn) as [ns name|locals code] eqn:EC.
      - unfold call_import. rewrite <- (app_nil_r (events_x _ _ _ _)). apply lo_bind.
        + apply lo_host. intros nm a s'. apply lo_get. intros g ->. apply IH.
        + intros [rs s'] _. destruct (vals_ok _ _); reflexivity || exact I.
      - destruct (structure_untyped code) as [b| |] eqn:Sb; try exact I.
        destruct (AN _ Nf EC) as (tys & tb & E1 & E2 & E3 & _). rewrite E3.
        rewrite <- (@strip_typed f (infer f) code tys tb b E1 E2 E3 Sb).
        unfold invoke. rewrite <- (app_nil_r (events _ _ _ _ _ _ _ _ _ _ _)). apply lo_bind.
        + apply lo_body; [|exact IH]. destruct (selected m only f); [exact CA|now apply cancels_off with (on := on)].
        + intros [[[o st] ls] s'] _. apply lo_get. intros [rs rest] _. destruct o as [|[|d]|]; try exact I; try reflexivity.
          destruct rest; reflexivity || exact I. }
    destruct (reported m generic only f); [|exact OW].
    destruct (plain (S n) f args s) as [[rs s']|?| |]; try exact I. cbn [level_ok] in OW |- *.
    cbn [TraceBalance.total fold_right]. fold (total (own_events num1 num2 host infer m on generic only n f fn args s ++ [EvLeave f rs])).
    rewrite total_app, OW. simpl. pose proof (ca_enter CA f (has_code fn) args rs). lia.
  Qed.
End Balance.
