(** Sessions of programs whose analysis is generated from a WASP file (towards C70, C71). *)
From Coq Require Import Permutation.
From Verif Require Import Semantics Advice RsStdlib StackLib StackNames StackRun StackOps StackSpec StackHist System
  SystemProofs SpecProofs Trace TraceProofs RunLemmas NestingSpec NestingProofs Instantiate
  Typing TypingProofs AdvisedTyping ModuleTyping InstantiateTyping PropInstrument PropSpec PropTyping PropPipeline ImportProofs ForwardRel ForwardBody OwnProofs ForwardProofs
  Interface Wasp SessionProofs WaspAs WaspAsProofs ForwardRel.
Local Open Scope string_scope.
Local Open Scope list_scope.
Local Open Scope res_scope.

(** ** Sessions *)
Section Sessions.
  Context {Y A : Type}.
  Notation X := (sys (A * Y)).
  Variable obs : A -> event -> A.
  Variable num1 : unop -> Z -> option Z.
  Variable num2 : binop -> Z -> Z -> option Z.
  Variable host : string -> string -> list val -> xprog Y.
  Variable I : Y -> Prop.
  Variables ord_i ord_c : list nat -> list nat.
  Variable infer : nat -> list low -> option (list ity).
  Variable m : module.
  Variable root : list advice_def.
  Variable p : as_program.
  Hypothesis G : generate root = Some p.
  Hypothesis UN : forall t, In t (traps root) -> unclashed t.
  Variable only : option (list nat).
  Variable imp : provided.
  Variable m' : module.
  Variable sigs : list functy.
  Variable lc : lib_code.
  Variable library : lib_states.
  Variable limit : Z.
  Variable stops : Prop.
  Hypothesis IM : implements sigs lc library limit stops.
  Variable lib : option (list functy).
  Hypothesis Pi : forall l, Permutation (ord_i l) l.
  Hypothesis Pc : forall l, Permutation (ord_c l) l.
  Variable ai : interface.
  Hypothesis EI : interface_of_root root = Some ai.
  Hypothesis E : instrument ord_i ord_c infer m ai only = IOk m' lib.
  Hypothesis SI : forall l, lib = Some l -> sigs = l.
  Variable guest : trap_sig -> scope -> xprog X.
  Hypothesis GN : forall t, In t (traps root) -> guest_notes obs guest t.
  Hypothesis GC : forall t, In t (traps root) -> guest_calls obs library guest t.
  Notation ana := (as_analysis guest p).
  Notation on := (advised_by root).
  Notation generic := (instruments_generic_apply root).
  Notation is := (intercepts m generic only ord_i).
  Hypothesis V : valid m.
  Hypothesis U : in_format m.
  Hypothesis AN : annotates infer m.
  Hypothesis PV : provided_ok m imp.
  Hypothesis HO : hosts_ok host I m (plain_xty m).
  Hypothesis CO : compatible m on is.
  Variables n fuel : nat.
  Hypothesis Fu : 5 * n + 2 <= fuel.
  Notation C0 := (ctx_of m).
  Notation ok := (val_ok (List.length (md_funcs m))).
  Notation whole := (system lc ana host).
  Notation module_trace := (module_trace num1 num2 host infer m on generic only n).
  Notation fits := (fits limit m).
  Notation usage := (usage m).
  Notation calls_typed := (Forall (fun c => exists ft, plain_xty m (fst c) = Some ft /\ Forall2 ok (snd c) (ft_in ft))).
  Notation good := (fun _ : event => True).
  Notation none := (fun _ : list event => False).
  Notation never := (fun (_ : bool) (_ : list event) => False).

  Lemma E' : instrument ord_i ord_c infer m (std_ai on generic) only = IOk m' lib.
  Proof. rewrite <- (instrument_wasp ord_i ord_c infer m root only EI). exact E. Qed.
  Lemma wasp_intercepted n0 n' :
    own_simulated (fun l => l) (fun _ a => a) (fun _ => True) good none never obs num1 num2 lc library limit stops
      ana host I infer m on generic only is n0 n' ->
    intercepted_simulated (fun l => l) (fun _ a => a) (fun _ => True) good none never obs num1 num2 lc library limit stops
      ana host I infer m on generic only is n0 n'.
  Proof.
    intros OS frs ifs f fn args s l a Hi Nf F SO Hl.
    assert (IS : forall g, In g is <-> reported m generic only g = true) by (intros g; now apply intercepts_reported).
    apply (@intercepted_sim Y A obs num1 num2 sigs lc library limit stops IM good none never (fun _ _ H => H) (fun _ _ H => H) (fun _ _ _ H => H) (fun _ _ _ H => H)
      (fun _ _ _ => Logic.I) (fun _ _ => Logic.I)
      ana (ana "generic_apply") (notes_hands_told none (@wasp_told Y A obs library root p G UN guest GC (@is_generic m generic only is IS f Hi))) (fun _ => eq_refl)
      host I infer m on generic only is V U HO) with (fn := fn); auto.
    - intros x Hx Hi'. apply in_flat_map in Hi' as (g & Hg & Hi'). exact (@co_exports _ _ _ CO g x Hg Hx Hi').
    - intros g gn. apply (@covered ord_i ord_c infer m on generic only m' sigs lib Pi Pc E' SI CO).
  Qed.
  Notation hooks := (@wasp_hooks Y A obs num1 num2 lc limit stops root p G UN guest GN host infer m only is good (fun _ => Logic.I) none never).

  Theorem wasp_sessions x l a calls outs s : I x -> library [] [] l -> calls_typed calls ->
    run_module num1 num2 host n imp m x calls = Ok (outs, s) ->
    fits 0 (module_trace imp x calls) -> ~ In None outs \/ Forall in_range32 (module_trace imp x calls) ->
    exists s' l1 frs1 ifs1, run_module num1 num2 whole fuel imp m' (l, (a, x)) calls = Ok (outs, s') /\
      extends (lift l1 (fold_left obs (module_trace imp x calls) a) s) s' /\
      library frs1 ifs1 l1 /\ (live (map if_type ifs1) <= usage (module_trace imp x calls))%Z.
  Proof.
    intros Ix Hl Tc R Ro W.
    destruct (@simulated_sessions Y A (store unit) A (fun l => l) (fun _ a => a) (fun _ => True) good none never (fun _ _ H => H) (fun _ _ H => H) (fun _ _ _ H => H) (fun _ _ _ H => H)
      obs num1 num2 lc library limit stops host I ord_i ord_c infer m on generic only imp m' sigs lib Pi Pc E' SI ana
      V U AN PV HO CO hooks wasp_intercepted n fuel Fu x l a calls outs s Ix (conj Hl Logic.I) Tc R (@never_halts _ _) Ro (fun H => H) W)
      as (s' & l1 & frs1 & ifs1 & A1 & A2 & (A3 & _) & A4). exists s', l1, frs1, ifs1. auto.
  Qed.
  Theorem wasp_any x l a calls outs s : I x -> library [] [] l -> calls_typed calls ->
    run_module num1 num2 host n imp m x calls = Ok (outs, s) ->
    stops \/ fits 0 (module_trace imp x calls) -> ~ In None outs \/ Forall in_range32 (module_trace imp x calls) ->
    ~ fits 0 (module_trace imp x calls) /\ (forall calls, exists s', run_module num1 num2 whole fuel imp m' (l, (a, x)) calls = Trap s') \/
    exists calls1 rest s1 s' l1,
      calls = calls1 ++ rest /\ run_module num1 num2 host n imp m x calls1 = Ok (firstn (List.length calls1) outs, s1) /\
      run_module num1 num2 whole fuel imp m' (l, (a, x)) calls1 = Ok (firstn (List.length calls1) outs, s') /\
      extends (lift l1 (fold_left obs (module_trace imp x calls1) a) s1) s' /\
      (rest = [] \/ exists c rest' s2, rest = c :: rest' /\ ~ fits 0 (module_trace imp x calls) /\
         run_module num1 num2 whole fuel imp m' (l, (a, x)) (calls1 ++ [c]) = Ok (firstn (List.length calls1) outs ++ [None], s2)).
  Proof.
    intros Ix Hl Tc R SF W.
    destruct (@simulated_any Y A (store unit) A (fun l => l) (fun _ a => a) (fun _ => True) good none never (fun _ _ H => H) (fun _ _ H => H) (fun _ _ _ H => H) (fun _ _ _ H => H)
      obs num1 num2 lc library limit stops host I ord_i ord_c infer m on generic only imp m' sigs lib Pi Pc E' SI ana
      V U AN PV HO CO hooks wasp_intercepted n fuel Fu x l a calls outs s Ix (conj Hl Logic.I) Tc R SF (fun H => H) W)
      as [([Q%never_halts|Q] & P)|(calls1 & rest & s1 & s' & l1 & frs1 & ifs1 & P1 & P2 & P3 & P4 & P5 & P6 & PG & P7)]; [easy|left; split; [exact Q|exact P]|right].
    exists calls1, rest, s1, s', l1. split; [exact P1|]. split; [exact P2|]. split; [exact P3|]. split; [exact P4|].
    destruct P7 as [->|(c & rest' & s2 & -> & [Q%never_halts|Q] & P7)]; [now left|easy|right]. exists c, rest', s2. auto.
  Qed.
  Theorem wasp_trap x l a calls s : I x -> library [] [] l -> calls_typed calls ->
    run_module num1 num2 host n imp m x calls = Trap s -> fits 0 (module_trace imp x calls) -> Forall in_range32 (module_trace imp x calls) ->
    exists s' l1, run_module num1 num2 whole fuel imp m' (l, (a, x)) calls = Trap s' /\
      extends (lift l1 (fold_left obs (module_trace imp x calls) a) s) s'.
  Proof.
    intros Ix Hl Tc R Ro W.
    exact (@simulated_trap Y A (store unit) A (fun l => l) (fun _ a => a) (fun _ => True) good none never (fun _ _ H => H) (fun _ _ H => H) (fun _ _ _ H => H) (fun _ _ _ H => H)
      obs num1 num2 lc library limit stops host I ord_i ord_c infer m on generic only imp m' sigs lib Pi Pc E' SI ana
      V U AN PV HO CO hooks wasp_intercepted n fuel Fu x l a calls s Ix (conj Hl Logic.I) Tc R (@never_halts _ _) Ro (fun H => H) W).
  Qed.
End Sessions.
