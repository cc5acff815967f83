(** What the guest code of a WASP advice finds in scope, and the simulation of programs whose
    analysis is generated from a WASP file (towards C69, C70, C71, C72). *)
From Verif Require Import Semantics Names Advice RsStdlib Interface Wasp StackLib StackNames StackRun StackOps StackSpec StackHist System
  SystemProofs AccessProofs SpecProofs Trace TraceProofs RunLemmas NestingSpec NestingProofs
  Typing TypingProofs AdvisedTyping ModuleTyping PropInstrument PropInterface PropStdlib ForwardRel ForwardBody OwnProofs ForwardProofs
  SessionProofs WaspAs.
Local Open Scope string_scope.
Local Open Scope list_scope.
Local Open Scope res_scope.

(** The hook an advice is for. *)
Definition hook_of (t : trap_sig) : option hook :=
  match t with
  | TApply _ _ => None
  | TCall Pre _ _ => Some HkCallPre | TCall Post _ _ => Some HkCallPost
  | TBlockPre _ => Some HkBlockPre | TBlockPost _ => Some HkBlockPost
  | TLoopPre _ => Some HkLoopPre | TLoopPost _ => Some HkLoopPost
  | TSelect _ _ => Some HkSelect
  | TCallIndirectPre _ _ _ => Some HkCallIndPre | TCallIndirectPost _ _ => Some HkCallIndPost
  | TIfThen _ _ => Some HkIfThen | TIfThenElse _ _ => Some HkIfThenElse
  | TBrIf _ _ _ => Some HkBrIf | TBrTable _ _ _ => Some HkBrTable
  end.
(** The hooks and the interception a WASP file asks for. *)
Definition advised_by (root : list advice_def) (h : hook) : bool :=
  existsb (fun t => match hook_of t with Some h' => if hook_eq_dec h' h then true else false | None => false end) (traps root).

Lemma wrappers_of_map ts : forall ws, wrappers_of ts = Some ws ->
  map fst ws = ts /\ Forall (fun tw => wrapper_of (fst tw) = Some (snd tw)) ws.
Proof.
  induction ts as [|t ts IH]; intros ws E; cbn [wrappers_of] in E; [injection E as <-; split; [reflexivity|constructor]|].
  destruct (wrapper_of t) as [w|] eqn:Ew; [|discriminate]. destruct (wrappers_of ts) as [ws'|]; [|discriminate]. injection E as <-.
  destruct (IH _ eq_refl) as (A & B). split; [cbn [map fst]; now rewrite A|constructor; assumption].
Qed.
Lemma generate_wrappers root p : generate root = Some p ->
  map fst (ap_wrappers p) = traps root /\ Forall (fun tw => wrapper_of (fst tw) = Some (snd tw)) (ap_wrappers p).
Proof.
  unfold generate. destruct (wrappers_of (traps root)) as [ws|] eqn:E; [|discriminate]. intros Q. injection Q as <-. cbn [ap_wrappers].
  now apply wrappers_of_map.
Qed.
Lemma wrapper_header t w : wrapper_of t = Some w -> exported t = WF (wr_name w) (map snd (wr_params w)) (wr_results w).
Proof. destruct t as [[] ?|[] ? ?| | | | | | | | | | |]; cbn [wrapper_of]; intros Q; try discriminate Q; injection Q as <-; reflexivity. Qed.
Lemma wrapper_hook t w h : wrapper_of t = Some w -> wr_name w = trap_name h -> hook_of t = Some h.
Proof.
  destruct t as [[] ?|[] ? ?| | | | | | | | | | |]; cbn [wrapper_of hook_of]; intros Q; try discriminate Q; injection Q as <-; cbn [wr_name]; intros N;
  destruct h; repeat match goal with x : numty |- _ => destruct x | x : binkind |- _ => destruct x
    | x : localop |- _ => destruct x | x : globalop |- _ => destruct x end; (reflexivity || discriminate N).
Qed.
Lemma hook_wrapper t w h : wrapper_of t = Some w -> hook_of t = Some h -> wr_name w = trap_name h.
Proof.
  destruct t as [[] ?|[] ? ?| | | | | | | | | | |]; cbn [wrapper_of hook_of]; intros Q Q'; try discriminate; injection Q as <-; injection Q' as <-; reflexivity.
Qed.

(** The interface of a WASP file in terms of the hooks. *)
Lemma interface_advised root : forall ai ai', wasp_interface root ai = Some ai' ->
  (forall h, ai_hook ai' h = if advised_by root h then Some (std_hook h) else ai_hook ai h) /\
  ai_generic ai' = if instruments_generic_apply root then Some (generic_apply, call_base) else ai_generic ai.
Proof.
  induction root as [|a root IH]; intros ai ai' E; cbn [wasp_interface] in E; [injection E as <-; split; reflexivity|].
  destruct a as [c|t]; [exact (IH _ _ E)|]. destruct (set_trap t ai) as [ai1|] eqn:S1; [|discriminate].
  destruct (IH _ _ E) as (A & B). unfold advised_by, instruments_generic_apply in *. cbn [traps flat_map app existsb]. fold (traps root).
  assert (G : forall h, hook_of t = Some h -> set_trap t ai = Some (set_field h (std_hook h) ai) ->
    (forall h0, ai_hook ai' h0 = if (match hook_of t with Some h' => if hook_eq_dec h' h0 then true else false | None => false end ||
        existsb (fun t => match hook_of t with Some h' => if hook_eq_dec h' h0 then true else false | None => false end) (traps root))
      then Some (std_hook h0) else ai_hook ai h0) /\
    ai_generic ai' = if existsb (fun t => match t with TApply (AGen _ _ _ _) _ => true | _ => false end) (traps root) then Some (generic_apply, call_base) else ai_generic ai).
  { intros h Eh Es. rewrite S1 in Es. injection Es as ->. rewrite Eh. split; [|exact B].
    intros h0. rewrite A. cbn [set_field ai_hook]. match goal with |- (if ?b then _ else _) = _ => destruct b end; destruct (hook_eq_dec h h0), (hook_eq_dec h0 h); cbn [orb]; congruence. }
  destruct t as [[] ?|[] ? ?| | | | | | | | | | |]; cbn [set_trap] in S1; try discriminate S1;
    try (now (eapply G; reflexivity)).
  injection S1 as <-. cbn [hook_of orb set_generic ai_hook ai_generic] in *. split; [exact A|]. rewrite B. match goal with |- (if ?b then _ else _) = _ => now destruct b end.
Qed.
Lemma instrument_wasp ord_i ord_c infer m root ai only : interface_of_root root = Some ai ->
  instrument ord_i ord_c infer m ai only = instrument ord_i ord_c infer m (std_ai (advised_by root) (instruments_generic_apply root)) only.
Proof.
  intros E. destruct (interface_advised root no_interface E) as (A & B). apply instrument_ext.
  - intros h. rewrite A. cbn. now destruct (advised_by root h).
  - rewrite B. cbn. now destruct (instruments_generic_apply root).
Qed.

(** ** Scopes *)
(** The numbers an [i32] boolean stands for. *)
Definition truth (b : bool) : Z := if b then 1%Z else 0%Z.
(** The guest code of [t], told what the hook is told in the form [adv], finds this in scope. The
    two numbers of the location are in the order the hook is given them: function, instruction. *)
Definition located (l : location) (sc : scope) : Prop :=
  lookup "func_index" sc = Some (ONum TI64 (instruction_index l)) /\
  lookup "istr_index" sc = Some (ONum TI64 (function_index l)).
Definition shown (t : trap_sig) (adv : advice) (sc : scope) : Prop :=
  match t, adv with
  | TCall Pre x _, AdCallPre f l | TCall Post x _, AdCallPost f l =>
      lookup x sc = Some (OFunctionIndex f) /\ located l sc
  | TCallIndirectPre x y _, AdCallIndPre i t l =>
      lookup x sc = Some (OFunctionTable t) /\ lookup y sc = Some (OFunctionTableIndex i) /\ located l sc
  | TCallIndirectPost x _, AdCallIndPost t l => lookup x sc = Some (OFunctionTable t) /\ located l sc
  | TIfThen x _, AdIfThen c i r l =>
      lookup x sc = Some (OIfThenCondition (truth (negb (c =? 0)%Z)) (truth (c =? 0)%Z)) /\
      lookup "if_then_input_c" sc = Some (ONum TI32 i) /\ lookup "if_then_arity" sc = Some (ONum TI32 r) /\ located l sc
  | TIfThenElse x _, AdIfThenElse c i r l =>
      lookup x sc = Some (OIfThenElseCondition (truth (negb (c =? 0)%Z)) (truth (c =? 0)%Z)) /\
      lookup "if_then_else_input_c" sc = Some (ONum TI32 i) /\ lookup "if_then_else_arity" sc = Some (ONum TI32 r) /\ located l sc
  | TBrIf x y _, AdBrIf c b l =>
      lookup x sc = Some (OBrIfCondition (truth (negb (c =? 0)%Z)) (truth (c =? 0)%Z)) /\
      lookup y sc = Some (OBrIfLabel b) /\ located l sc
  | TBrTable x y _, AdBrTable i e d l =>
      lookup x sc = Some (OBrTableTarget i) /\ lookup y sc = Some (OBrTableDefault d) /\
      lookup "effective_label" sc = Some (ONum TI32 e) /\ located l sc
  | TSelect x _, AdSelect c l =>
      lookup x sc = Some (OSelectCondition (truth (negb (c =? 0)%Z)) (truth (c =? 0)%Z)) /\ located l sc
  | TBlockPre _, AdBlockPre i r l | TLoopPre _, AdLoopPre i r l =>
      lookup "input_count" sc = Some (ONum TI32 i) /\ lookup "arity" sc = Some (ONum TI32 r) /\ located l sc
  | TBlockPost _, AdBlockPost l | TLoopPost _, AdLoopPost l => located l sc
  | _, _ => False
  end.
(** The same for a call: function [f] of type [ft], the [k]-th to be intercepted, buffers [q] and [qt]. *)
Definition shown_call (fid xid yid : string) (k f : nat) (ft : functy) (code : bool) (q qt : Z) (sc : scope) : Prop :=
  let argc := Z.of_nat (List.length (ft_in ft)) in
  let resc := Z.of_nat (List.length (ft_out ft)) in
  lookup fid sc = Some (OWasmFunction (Z.of_nat k) (Z.of_nat f) q) /\
  lookup xid sc = Some (OArgs argc resc q qt) /\ lookup yid sc = Some (ORess argc resc q qt) /\
  lookup "code_present_serialized" sc = Some (ONum TI32 (if code then 0 else 1)%Z).

(** Names that are not declared twice in the function of the advice. *)
Definition unclashed (t : trap_sig) : Prop := forall w, wrapper_of t = Some w -> NoDup (local_names w).
(** The value the hook goes on with when the guest code returns none. *)
Definition falls_back (adv : advice) : option Z :=
  match adv with
  | AdIfThenElse c _ _ _ | AdIfThen c _ _ _ | AdBrIf c _ _ | AdSelect c _ => Some c
  | AdBrTable t _ _ _ => Some t
  | AdCallIndPre i _ _ => Some i
  | _ => None
  end.
Definition fallback_shown (w : wrapper) (adv : advice) (sc : scope) : Prop :=
  match wr_fallback w, falls_back adv with
  | Some x, Some z => lookup x sc = Some (ONum TI32 z) /\ wr_results w = [TI32]
  | None, None => wr_results w = []
  | _, _ => False
  end.

Lemma NoDup_neq (x : string) l y : NoDup (x :: l) -> In y l -> x <> y.
Proof. intros N I E. subst y. now inversion N. Qed.
Ltac names N :=
  repeat match goal with
  | |- context [String.eqb ?x ?x] => rewrite (String.eqb_refl x)
  | |- context [String.eqb ?x ?y] =>
      first [let v := eval vm_compute in (String.eqb x y) in
             match v with true => change (String.eqb x y) with true | false => change (String.eqb x y) with false end
            |let E := fresh "E" in
             assert (E : String.eqb x y = false);
             [apply String.eqb_neq; let Q := fresh in intros Q; rewrite <- ?Q in N; rewrite ?Q in N; clear - N;
              repeat (let a := fresh in inversion N as [|? ? a N']; subst; clear N; rename N' into N; cbn [In] in a; try (now tauto))
             |rewrite E; clear E]]
  end.

Lemma entered_scope t w h args adv : unclashed t -> wrapper_of t = Some w -> hook_of t = Some h ->
  rfun_advice (rfun_of h) args = Some adv ->
  exists sc, enter_wrapper w args = Some sc /\ shown t adv sc /\ fallback_shown w adv sc.
Proof.
  intros Un Ew Eh E. specialize (Un w Ew). unfold shown, fallback_shown, located.
  destruct t as [[] ?|[] ? ?| | | | | | | | | | |]; cbn [wrapper_of hook_of] in Ew, Eh; try discriminate; injection Ew as <-; injection Eh as <-;
  cbn [rfun_of rfun_advice] in E;
  repeat match type of E with match ?x with _ => _ end = _ => destruct x; try discriminate E end;
  injection E as <-;
  unfold local_names in Un; cbn [wr_params wr_lets map fst snd app] in Un;
  eexists; (split; [unfold enter_wrapper; cbn [wr_params bind_params app wr_lets bind_lets lookups lookup];
    names Un; cbn iota; reflexivity|]).
  all: cbn [new_object wr_fallback falls_back wr_results lookup]; names Un;
    unfold branches, truth, BRANCH_FAIL.
  all: repeat split; cbn [instruction_index function_index location_new]; try reflexivity; repeat (destruct (_ =? _)%Z); reflexivity.
Qed.

Lemma entered_call g f x y body w k fi fn q qt : unclashed (TApply (AGen g f x y) body) -> wrapper_of (TApply (AGen g f x y) body) = Some w ->
  exists sc, enter_wrapper w (described k fi fn q qt) = Some sc /\ shown_call f x y k fi (fn_type fn) (has_code fn) q qt sc /\
    wr_fallback w = None.
Proof.
  intros Un Ew. specialize (Un w Ew). cbn [wrapper_of] in Ew. injection Ew as <-.
  unfold local_names in Un; cbn [wr_params wr_lets map fst snd app] in Un. unfold shown_call, described, i32n, vi32.
  eexists. split.
  - unfold enter_wrapper. cbn [wr_params bind_params app wr_lets bind_lets lookups lookup]. names Un. cbn iota.
    cbn [new_object bind_lets lookups lookup]. names Un. cbn iota. cbn [new_object]. reflexivity.
  - cbn [lookup wr_fallback]. names Un. repeat split.
Qed.

(** ** Guest code that notes what it sees *)
(** Allowed outcomes: none, or the one the program would take by itself. *)
Definition continues (adv : advice) (r : list val) : Prop :=
  match falls_back adv with
  | Some z => r = [] \/ r = [vi32 z] \/ decides adv = true /\ exists z', r = [vi32 z'] /\ (z' =? 0)%Z = (z =? 0)%Z /\ (0 <= z' < 2 ^ 32)%Z
  | None => True
  end.
Section Guest.
  Context {Y A : Type}.
  Notation X := (sys (A * Y)).
  Variable obs : A -> event -> A.
  Variable library : lib_states.
  Variable guest : trap_sig -> scope -> xprog X.
  Definition guest_notes (t : trap_sig) : Prop := forall adv sc, shown t adv sc -> forall export l a s,
    exists r, run_x export (guest t sc) (lift l a s) = Ok (r, lift l (obs a (EvAdvice adv)) s) /\ continues adv r.
  Definition guest_calls (t : trap_sig) : Prop := forall g fid xid yid body, t = TApply (AGen g fid xid yid) body ->
    forall export frs ifs ft q qt args k f code l a s sc, numeric_sig ft = true -> (slots ft <= 8191)%Z ->
    library ((ft, q, qt) :: frs) (fresh ft args :: ifs) l -> shown_call fid xid yid k f ft code q qt sc ->
    exists l1 rest, library ((ft, q, qt) :: frs) (fresh ft args :: ifs) l1 /\
      run_x export (guest t sc) (lift l a s) =
      (let* (vs, s1) := export "call_base" [vi32 (Z.of_nat k); vi32 q] (lift l1 (obs a (EvEnter f code args)) s) in
       run_x export (rest vs) s1) /\
      forall vs rs l2 a2 s2, library ((ft, q, qt) :: frs) (IF ft (map Some rs) (map Some args) :: ifs) l2 ->
        exists vs' l3, run_x export (rest vs) (lift l2 a2 s2) = Ok (vs', lift l3 (obs a2 (EvLeave f rs)) s2) /\
          library ((ft, q, qt) :: frs) (IF ft (map Some rs) (map Some args) :: ifs) l3.
End Guest.

Section Program.
  Context {Y A : Type}.
  Notation X := (sys (A * Y)).
  Variable obs : A -> event -> A.
  Variable num1 : unop -> Z -> option Z.
  Variable num2 : binop -> Z -> Z -> option Z.
  Variable sigs : list functy.
  Variable lc : lib_code.
  Variable library : lib_states.
  Variable limit : Z.
  Variable stops : Prop.
  Hypothesis IM : implements sigs lc library limit stops.
  Variable root : list advice_def.
  Variable p : as_program.
  Hypothesis G : generate root = Some p.
  Hypothesis UN : forall t, In t (traps root) -> unclashed t.
  Variable guest : trap_sig -> scope -> xprog X.
  Hypothesis GN : forall t, In t (traps root) -> guest_notes obs guest t.
  Hypothesis GC : forall t, In t (traps root) -> guest_calls obs library guest t.
  Notation ana := (as_analysis guest p).
  Notation on := (advised_by root).
  Notation generic := (instruments_generic_apply root).
  Notation own_lib := (fun l : store unit => l).
  Notation own_state := (fun (_ : store unit) (a : A) => a).

  Lemma find_wrapper name : (exists t, In t (traps root) /\ option_map wr_name (wrapper_of t) = Some name) ->
    exists t w, In t (traps root) /\ wrapper_of t = Some w /\ wr_name w = name /\ forall args, ana name args = wrapper_run guest t w args.
  Proof.
    intros (t & Ht & Et). destruct (generate_wrappers _ G) as (M & F). unfold as_analysis.
    destruct (find (fun w => String.eqb name (wr_name (snd w))) (ap_wrappers p)) as [[t1 w1]|] eqn:Ef.
    - apply find_some in Ef as (Hi & Q). cbn [snd] in Q. apply String.eqb_eq in Q. exists t1, w1.
      rewrite Forall_forall in F. split; [rewrite <- M; exact (in_map fst _ _ Hi)|]. split; [exact (F _ Hi)|]. split; [congruence|reflexivity].
    - exfalso. rewrite <- M in Ht. apply in_map_iff in Ht as ([t1 w1] & Q & Hi). cbn in Q. subst t1.
      pose proof (find_none _ _ Ef _ Hi) as N. rewrite Forall_forall in F. specialize (F _ Hi). cbn [fst snd] in F, N. rewrite F in Et.
      cbn in Et. injection Et as <-. rewrite String.eqb_refl in N. discriminate.
  Qed.
  Lemma find_hook h : on h = true -> exists t w, In t (traps root) /\ wrapper_of t = Some w /\ hook_of t = Some h /\
    forall args, ana (trap_name h) args = wrapper_run guest t w args.
  Proof.
    intros H. unfold advised_by in H. apply existsb_exists in H as (t & Ht & Q).
    destruct (hook_of t) as [h'|] eqn:Eh; [|discriminate]. destruct (hook_eq_dec h' h) as [->|]; [|discriminate].
    destruct (@find_wrapper (trap_name h)) as (t1 & w1 & A1 & A2 & A3 & A4).
    - exists t. split; [exact Ht|]. destruct (wrapper_of t) as [w|] eqn:Ew; [cbn; f_equal; eapply hook_wrapper; eassumption|].
      destruct t as [[] ?|[] ? ?| | | | | | | | | | |]; discriminate.
    - exists t1, w1. split; [exact A1|]. split; [exact A2|]. split; [eapply wrapper_hook; eassumption|exact A4].
  Qed.
  Lemma find_apply : generic = true -> exists g f x y body w, In (TApply (AGen g f x y) body) (traps root) /\ wrapper_of (TApply (AGen g f x y) body) = Some w /\
    forall args, ana "generic_apply" args = wrapper_run guest (TApply (AGen g f x y) body) w args.
  Proof.
    intros H. unfold instruments_generic_apply in H. apply existsb_exists in H as (t & Ht & Q).
    destruct (@find_wrapper "generic_apply") as (t1 & w1 & A1 & A2 & A3 & A4).
    - exists t. split; [exact Ht|]. destruct t as [[] ?|[] ? ?| | | | | | | | | | |]; try discriminate Q. reflexivity.
    - destruct t1 as [[] ?|[] ? ?| | | | | | | | | | |]; cbn [wrapper_of] in A2; try discriminate A2; injection A2 as <-; try discriminate A3.
      do 6 eexists. split; [exact A1|]. split; [reflexivity|exact A4].
  Qed.

  Variable host : string -> string -> list val -> xprog Y.
  Variable I : Y -> Prop.
  Variable infer : nat -> list low -> option (list ity).
  Variable m : module.
  Variable only : option (list nat).
  Variable is : list nat.
  Variable good : event -> Prop.
  Hypothesis AllGood : forall e, good e.
  Variable Fo : list event -> Prop.
  Variable T : bool -> list event -> Prop.
  Notation spec' := (spec num1 num2 (system lc ana host) infer m on generic only is).

  Lemma results_of h t w adv : wrapper_of t = Some w -> hook_of t = Some h -> forall vs : list val, forall z, falls_back adv = Some z ->
    (exists args, rfun_advice (rfun_of h) args = Some adv) -> rfun_results (rfun_of h) = [TI32].
  Proof.
    intros Ew Eh vs z Fb (args & E).
    destruct t as [[] ?|[] ? ?| | | | | | | | | | |]; cbn [wrapper_of hook_of] in Ew, Eh; try discriminate; injection Eh as <-; try reflexivity;
    cbn [rfun_of rfun_advice] in E; repeat match type of E with match ?x with _ => _ end = _ => destruct x; try discriminate E end;
    injection E as <-; discriminate Fb.
  Qed.
  Lemma no_results h t w adv : wrapper_of t = Some w -> hook_of t = Some h -> falls_back adv = None ->
    (exists args, rfun_advice (rfun_of h) args = Some adv) -> rfun_results (rfun_of h) = [] /\ forward_body (X := X) num1 num2 adv = XRet [].
  Proof.
    intros Ew Eh Fb (args & E).
    destruct t as [[] ?|[] ? ?| | | | | | | | | | |]; cbn [wrapper_of hook_of] in Ew, Eh; try discriminate; injection Eh as <-;
    cbn [rfun_of rfun_advice] in E; repeat match type of E with match ?x with _ => _ end = _ => destruct x; try discriminate E end;
    injection E as <-; try discriminate Fb; split; reflexivity.
  Qed.

  Lemma wasp_hooks n1 (Lb : store unit -> Prop) ifs h' : (forall h, h' h = true -> on h = true) ->
    hooks_sim own_lib own_state obs good Lb (lost limit m Fo T stops ifs) num1 num2 h' (fun h => analysis (spec' (S n1)) (std_hook h)) (reenter m generic (spec' n1)).
  Proof.
    intros Hon h args adv l a s Hh _ E Ln Sz. unfold analysis. cbn [spec level std_hook wf_type wf_name wf_args wf_results].
    assert (F : fits_args (FT (map TNum (trap_args h)) (map TNum (trap_results h))) args = true).
    { unfold fits_args. cbn [ft_in]. rewrite map_length, Ln. apply Nat.eqb_refl. }
    unfold wf_type, std_hook. cbn [wf_args wf_results]. rewrite F. set (ex := reenter m generic _) in *. clearbody ex. unfold call_import, system, agents.
    change (String.eqb analysis_ns stack_ns) with false. change (String.eqb analysis_ns analysis_ns) with true. cbn iota.
    destruct (@find_hook h (Hon _ Hh)) as (t & w & Ht & Ew & Eh & ->).
    destruct (@entered_scope t w h args adv (UN _ Ht) Ew Eh E) as (sc & Es & Sh & Fs).
    unfold wrapper_run. rewrite Es. destruct (GN _ Ht _ _ Sh ex l a s) as (r & Er & Cr).
    left. rewrite run_x_bind, Er. cbn [rbind]. unfold fallback_shown in Fs. unfold continues in Cr.
    destruct (falls_back adv) as [z|] eqn:Fb.
    - destruct (wr_fallback w) as [x|]; [|destruct Fs]. destruct Fs as (Lx & _). pose proof (@results_of h t w adv Ew Eh [] z Fb (ex_intro _ args E)) as Rr.
      assert (FW : forall z adv', falls_back adv' = Some z -> forward_body (X := X) num1 num2 adv' = XRet [vi32 z]).
      { intros z' [] Q; try discriminate Q; injection Q as <-; reflexivity. }
      destruct Cr as [->|[->|(De & z' & -> & Zz & Rz)]].
      + exists adv. split; [constructor|]. split; [apply AllGood|]. rewrite Lx, (FW _ _ Fb). cbn [run_x xbind rbind rfun_return]. unfold rfun_return. rewrite Rr. reflexivity.
      + exists adv. split; [constructor|]. split; [apply AllGood|]. rewrite (FW _ _ Fb). cbn [run_x xbind rbind rfun_return]. unfold rfun_return. rewrite Rr. reflexivity.
      + exists (with_condition z' adv). split.
        { apply sc_other with (c := z); [|exact Zz|exact Rz]. destruct adv; try discriminate De; exact Fb. }
        split; [apply AllGood|]. rewrite (FW z' (with_condition z' adv)) by (destruct adv; try discriminate De; reflexivity).
        cbn [run_x xbind rbind rfun_return]. unfold rfun_return. rewrite Rr. reflexivity.
    - destruct (wr_fallback w) as [x|]; [destruct Fs|]. destruct (@no_results h t w adv Ew Eh Fb (ex_intro _ args E)) as (Rr & FW).
      exists adv. split; [constructor|]. split; [apply AllGood|]. rewrite FW. cbn [run_x xbind]. unfold rfun_return. rewrite Rr. reflexivity.
  Qed.
  Lemma wasp_told : generic = true -> notes_told obs library (ana "generic_apply").
  Proof.
    intros Ge ex frs ifs fn q qt args k f l a s Nu Sl Hl. destruct (find_apply Ge) as (g & fid & xid & yid & body & w & Ht & Ew & EA).
    destruct (@entered_call g fid xid yid body w k f fn q qt (UN _ Ht) Ew) as (sc & Es & Sh & Fb).
    destruct (@GC _ Ht g fid xid yid body eq_refl ex frs ifs (fn_type fn) q qt args k f (has_code fn) l a s sc Nu Sl Hl Sh) as (l1 & rest & H1 & E1 & R1).
    exists l1, rest. split; [exact H1|]. split; [|exact R1]. rewrite EA. unfold wrapper_run. rewrite Es, Fb, run_x_bind, E1.
    destruct (let* _ := _ in _) as [[vs s1]|s1| |]; reflexivity.
  Qed.
End Program.
