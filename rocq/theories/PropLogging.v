(** Property theorem C89: the analysis logging of the integration tests prints what happens, in order, and changes nothing. The
    system consists of the output module, the buffer library generated for it, the compiled analysis and the host. *)
From Coq Require Import Permutation.
From Verif Require Import Semantics Advice RsStdlib StackLib StackRun StackSpec PropStack System Instantiate Trace TraceProofs TraceBalance TraceLocs
  Typing ModuleTyping InstantiateTyping Checker ExModule PropInstrument PropSpec PropTyping ForwardRel ForwardBody ForwardProofs SessionProofs Recorder
  PropTransparent SystemProofs Analyses AnalysesProofs PropAnalyses PropStdlib Logging.
Local Open Scope string_scope.
Local Open Scope list_scope.
Local Open Scope res_scope.

Section Logged.
  Context {Y : Type}.
  Variable num1 : unop -> Z -> option Z.
  Variable num2 : binop -> Z -> Z -> option Z.
  Variable N : nat.
  Variable host : string -> string -> list val -> xprog Y.
  Variable I : Y -> Prop.
  Variables ord_i ord_c : list nat -> list nat.
  Variable infer : nat -> list low -> option (list ity).
  Variable m : module.
  Variable only : option (list nat).
  Variable imp : provided.
  Variables n fuel : nat.
  Notation sigs lib := (match lib with Some l => l | None => [] end).
  Notation deployment := (deployment N host I ord_i ord_c infer m only imp n fuel).
  Notation ran := (ran num1 num2 host I m imp n).
  Notation trace on generic := (module_trace num1 num2 host infer m on generic only n imp).
  Notation enough_space on generic := (enough_space num1 num2 host infer m on generic only imp n).
  Notation plain := (run_module num1 num2 host n imp m).

  (** A session under the logging analysis, where [print] is what becomes of the lines. *)
  Definition logged {A} (print : A -> line -> A) (m' : module) (lib : option (list functy)) (a : A) (x : Y) calls :=
    run_module num1 num2 (all_agents (Y := Y) (wat_lib num1 num2 (sigs lib) N) (logging_body print num1 num2) (logging_apply print) host)
      fuel imp m' (lib_start tt, (a, x)) calls.

  Section Reader.
    Context {A : Type}.
    (** Someone who reads the headings of the lines. *)
    Variable read : A -> heading -> A.
    Notation print := (fun a ln => read a (heading_of ln)).
    Lemma fold_read evs : forall a, fold_left (reading read) evs a = fold_left read (map heading_for evs) a.
    Proof. induction evs as [|e evs IH]; intros a; [reflexivity|]. cbn. apply IH. Qed.

    (** Whatever the hooks: the program runs as before, and the lines printed are one for each event, in order. If calls trap,
        this needs that no loads are reported, as a load that traps is not printed. *)
    Theorem C89_log : forall on generic m' lib a x calls outs s, deployment on generic m' lib -> ran x calls outs s ->
      ~ In None outs \/ (forall t, on (HkLoad t) = false) /\ Forall in_range32 (trace on generic x calls) ->
      enough_space on generic x calls ->
      exists s', logged print m' lib a x calls = Ok (outs, s') /\ same_program s s' /\
        state_of s' = fold_left read (map heading_for (trace on generic x calls)) a.
    Proof.
      intros on generic m' lib a x calls outs s [Big Pi Pc E V U AN PV HO CO Fu] [Ix T R] W Ro.
      assert (Sg : forall l, lib = Some l -> sigs lib = l) by (intros l ->; reflexivity).
      assert (NT : ~ halts unprinted (In None outs) (trace on generic x calls)).
      { intros [H|[H1 H2]]; [exact (unprinted_false H)|]. destruct W as [W|[W _]]; [exact (W H1)|].
        assert (F : Forall (fun e => match e with EvAdvice (AdLoad _ _ _ _) => False | _ => True end) (trace on generic x calls)).
        { apply module_all.
          - constructor.
          - intros. now apply Forall_app.
          - intros h adv H K. constructor; [|constructor]. destruct adv; try exact Logic.I. destruct K as (t & ->). rewrite W in H. discriminate H.
          - intros. constructor; [exact Logic.I|assumption].
          - intros. constructor; [exact Logic.I|]. apply Forall_app. split; [assumption|]. repeat constructor. }
        apply Exists_exists in H2 as (e & Hi & H2). rewrite Forall_forall in F. specialize (F _ Hi). destruct e as [[]| |]; contradiction. }
      assert (W' : ~ In None outs \/ Forall in_range32 (trace on generic x calls)) by (destruct W as [W|[_ W]]; auto).
      destruct (@guarded_sessions Y A (reading read) (fun _ => True) (fun _ => False) unprinted (fun _ _ H => H) (fun _ _ H => H) unprinted_left unprinted_right (fun _ _ _ => Logic.I) (fun _ _ => Logic.I)
        num1 num2 host I ord_i ord_c infer m on generic only imp m' (sigs lib) (wat_lib num1 num2 (sigs lib) N) (library (sigs lib)) limit True (@wat_implements num1 num2 (sigs lib) N Big) lib Pi Pc E Sg
        (logging_body print num1 num2) (logging_apply print) (@logging_guards Y A read num1 num2) (notes_hands_calls (fun _ => False) (@logging_notes_calls Y A read (library (sigs lib)))) V U AN PV HO CO n fuel Fu x (lib_start tt) a
        calls outs s Ix (start_library lib) T R NT Ro (fun H => H) W') as (s' & l1 & frs & ifs & R' & Ex & _).
      exists s'. split; [exact R'|]. destruct (same_program_of Ex) as (Sm & St). split; [exact Sm|]. rewrite <- fold_read. exact St.
    Qed.
    (** In any case all that can happen is that a call traps because of a lack of space, and that lines of calls that trap are missing. *)
    Theorem C89_no_wrong_result : forall on generic m' lib a x calls outs s, deployment on generic m' lib -> ran x calls outs s ->
      ~ In None outs \/ Forall in_range32 (trace on generic x calls) ->
      same_until (plain x) (logged print m' lib a x) calls outs (In None outs \/ ~ enough_space on generic x calls).
    Proof.
      intros on generic m' lib a x calls outs s [Big Pi Pc E V U AN PV HO CO Fu] [Ix T R] W.
      assert (Sg : forall l, lib = Some l -> sigs lib = l) by (intros l ->; reflexivity).
      assert (Why : halts unprinted (In None outs) (trace on generic x calls) \/ ~ fits limit m 0 (trace on generic x calls) -> In None outs \/ ~ enough_space on generic x calls).
      { intros [[H|[H _]]|H]; [destruct (unprinted_false H)|now left|now right]. }
      destruct (@guarded_any Y A (reading read) (fun _ => True) (fun _ => False) unprinted (fun _ _ H => H) (fun _ _ H => H) unprinted_left unprinted_right (fun _ _ _ => Logic.I) (fun _ _ => Logic.I)
        num1 num2 host I ord_i ord_c infer m on generic only imp m' (sigs lib) (wat_lib num1 num2 (sigs lib) N) (library (sigs lib)) limit True (@wat_implements num1 num2 (sigs lib) N Big) lib Pi Pc E Sg
        (logging_body print num1 num2) (logging_apply print) (@logging_guards Y A read num1 num2) (notes_hands_calls (fun _ => False) (@logging_notes_calls Y A read (library (sigs lib)))) V U AN PV HO CO n fuel Fu x (lib_start tt) a
        calls outs s Ix (start_library lib) T R (or_introl Logic.I) (fun H => H) W) as [(Q & P)|(calls1 & rest & s1 & s' & l1 & P1 & P2 & P3 & P4 & _ & P7)].
      - left. split; [exact (Why Q)|exact P].
      - right. exists calls1, rest, s1, s'. split; [exact P1|]. split; [exact P2|]. split; [exact P3|].
        split; [eapply same_program_of; exact P4|]. destruct P7 as [P7|(c & rest' & s2 & P7 & Q & P8)]; [now left|right].
        exists c, rest', s2. split; [exact P7|]. split; [exact (Why Q)|exact P8].
    Qed.
  End Reader.
End Logged.
Print Assumptions C89_log.
Print Assumptions C89_no_wrong_result.

(** ** The session of ex_recorded (PropTransparent.v), whose hypotheses are those of [ex_forwarding] and [ex_space] *)
(** What is printed, with [print] as given. *)
Definition ex_printed {A} (print : A -> line -> A) (a : A) (infer : nat -> list low -> option (list ity)) (on : hook -> bool) (m : module) (calls : list (string * list val)) :
    option (list (option (list val)) * A) :=
  match instrument ex_id ex_id infer m (std_ai on true) None with
  | IOk m' (Some sigs) =>
      match logged ex_num1 ex_num2 ex_steps ex_host ex_imports 42 print m' (Some sigs) a [] calls with
      | Ok (outs, s) => Some (outs, state_of s)
      | _ => None
      end
  | _ => None
  end.
Example ex_logging :
  ex_printed (fun log ln => log ++ [heading_of ln]) [] ex_infer ex_all ex_module ex_session_calls
    = Some ([Some [vi32 1]; Some [vi32 100]], map heading_for ex_trace) /\
  firstn 3 (map heading_for ex_trace) = [HdPre 1; HdAdvice (AdLocal (vi32 1) 0 LGet (Loc 1 0)); HdAdvice (AdUnary I32Eqz (vi32 1) (Loc 1 1))] /\
  exists log, ex_printed (fun log ln => log ++ [ln]) [] ex_infer ex_all ex_module ex_session_calls = Some ([Some [vi32 1]; Some [vi32 100]], log) /\
    firstn 1 log = [LnPre 1 0 (RV 1 1 0 [TI32; TI32])] /\ map heading_of log = map heading_for ex_trace.
Proof.
  split; [vm_compute; reflexivity|]. split; [vm_compute; reflexivity|].
  eexists. split; [vm_compute; reflexivity|]. split; vm_compute; reflexivity.
Qed.

(** The lines about function application show neither arguments nor results, only their number and types and where they are
    stored: two sessions with other arguments and other results print the same. *)
Definition identity_module : module :=
  Mod [Fn (FT [t_i32] [t_i32]) (FPresent [] [LBasic (BLocal LGet 0); LEnd]) ["f"]] [] [] [] [] [] None.
(** The types of its body. *)
Definition identity_types (f : nat) (l : list low) : option (list ity) := Some (map (fun _ => IReach (FT [] [])) l).
Theorem C89_values_refuted :
  exists lines, 
    ex_printed (fun log ln => log ++ [ln]) [] identity_types (fun _ => false) identity_module [("f", [vi32 5])] = Some ([Some [vi32 5]], lines) /\
    ex_printed (fun log ln => log ++ [ln]) [] identity_types (fun _ => false) identity_module [("f", [vi32 6])] = Some ([Some [vi32 6]], lines) /\
    lines = [LnPre 0 0 (RV 1 1 0 [TI32; TI32]); LnPost 0 0 (RV 1 1 0 [TI32; TI32]) (RV 1 1 0 [TI32; TI32])].
Proof. eexists. split; [vm_compute; reflexivity|]. split; [vm_compute; reflexivity|reflexivity]. Qed.
Print Assumptions C89_values_refuted.
