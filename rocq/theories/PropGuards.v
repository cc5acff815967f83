(** Property theorems C60-C65: analyses of the repository that check or count memory accesses
    (safe-heap, memstats), and those that note branches (branches, coverage-branch). The system consists
    of the output module, the buffer library generated for it, the compiled analysis and the host. *)
From Coq Require Import Permutation.
From Verif Require Import Semantics Advice RsStdlib StackLib StackRun StackSpec PropStack System Instantiate Trace TraceProofs TraceBalance
  Typing ModuleTyping InstantiateTyping Checker ExModule PropInstrument PropSpec PropTyping ForwardRel ForwardBody ForwardProofs SessionProofs Recorder
  PropTransparent SystemProofs Analyses AnalysesProofs PropAnalyses Guards Bytes.
Local Open Scope string_scope.
Local Open Scope list_scope.
Local Open Scope res_scope.

(** ** Beginnings of sessions *)
Lemma session_begins {X} (call : string -> list val -> store X -> res (store X) (list val * store X)) a b : forall s outs s',
  Instantiate.session call (a ++ b) s = Ok (outs, s') ->
  exists s1, Instantiate.session call a s = Ok (firstn (List.length a) outs, s1).
Proof.
  induction a as [|[name args] a IH]; intros s outs s' H; [exists s; reflexivity|]. cbn [app Instantiate.session] in *.
  destruct (call name args s) as [[vs s1]|s1| |]; try discriminate H.
  - destruct (Instantiate.session call (a ++ b) s1) as [[os s2]|?| |] eqn:E; try discriminate H. cbn [rbind] in H. injection H as <- <-.
    destruct (IH _ _ _ E) as (s3 & ->). eexists. reflexivity.
  - destruct (Instantiate.session call (a ++ b) s1) as [[os s2]|?| |] eqn:E; try discriminate H. cbn [rbind] in H. injection H as <- <-.
    destruct (IH _ _ _ E) as (s3 & ->). eexists. reflexivity.
Qed.
Lemma module_begins {X} num1 num2 (ext : string -> string -> list val -> xprog X) n imp m x a b outs s' :
  run_module num1 num2 ext n imp m x (a ++ b) = Ok (outs, s') ->
  exists s1, run_module num1 num2 ext n imp m x a = Ok (firstn (List.length a) outs, s1).
Proof.
  unfold run_module. destruct (instantiate imp m x) as [s| | |]; try discriminate. cbn [rbind].
  destruct (match md_start m with Some f => _ | None => _ end) as [[vs s1]| | |]; try discriminate. cbn [rbind]. apply session_begins.
Qed.

Section Checked.
  Context {Y : Type}.
  Variable num1 : unop -> Z -> option Z.
  Variable num2 : binop -> Z -> Z -> option Z.
  Variable N : nat.
  Variable host : string -> string -> list val -> xprog Y.
  Variable I : Y -> Prop.
  Variables ord_i ord_c : list nat -> list nat.
  Variable infer : nat -> list low -> option (list ity).
  Variable m : module.
  Variable only : option (list nat).
  Variable imp : provided.
  Variables n fuel : nat.
  Notation sigs lib := (match lib with Some l => l | None => [] end).
  Notation deployment := (deployment N host I ord_i ord_c infer m only imp n fuel).
  Notation ran := (ran num1 num2 host I m imp n).
  Notation trace on := (module_trace num1 num2 host infer m on false only n imp).
  Notation plain := (run_module num1 num2 host n imp m).

  (** A session under an analysis without advice on function application. *)
  Definition guarded {A} (obs : A -> event -> A) (body : advice -> xprog (sys (A * Y))) (m' : module) (lib : option (list functy)) (a : A) (x : Y) calls :=
    run_module num1 num2 (all_agents (Y := Y) (wat_lib num1 num2 (sigs lib) N) body (tally_apply obs) host) fuel imp m' (lib_start tt, (a, x)) calls.

  Section Any.
    Context {A : Type}.
    Variable obs : A -> event -> A.
    Hypothesis B : blind obs.
    Variable good : event -> Prop.
    Hypothesis GE : forall f c args, good (EvEnter f c args).
    Hypothesis GL : forall f rs, good (EvLeave f rs).
    Variable bad : event -> Prop.
    Variable body : advice -> xprog (sys (A * Y)).
    Hypothesis HB : guards_advice obs num1 num2 good (fun _ => False) (fun _ => Exists bad) body.
    Variable on : hook -> bool.
    Variable m' : module.
    Variable lib : option (list functy).
    Hypothesis D : deployment on false m' lib.
    Lemma TL (b0 : bool) e1 e2 : Exists bad e1 -> Exists bad (e1 ++ e2). Proof. intros H. apply Exists_app. now left. Qed.
    Lemma TR (b0 : bool) e1 e2 : Exists bad e2 -> Exists bad (e1 ++ e2). Proof. intros H. apply Exists_app. now right. Qed.
    Lemma same_sigs l : lib = Some l -> sigs lib = l. Proof. intros ->. reflexivity. Qed.

    Lemma guarded_state x a calls outs s : ran x calls outs s -> ~ Exists bad (trace on x calls) ->
      ~ In None outs \/ Forall in_range32 (trace on x calls) ->
      exists s', guarded obs body m' lib a x calls = Ok (outs, s') /\ same_program s s' /\
        state_of s' = fold_left obs (trace on x calls) a.
    Proof.
      destruct D as [Big Pi Pc E V U AN PV HO CO Fu]. intros [Ix T R] NT W.
      destruct (@guarded_sessions Y A obs good (fun _ => False) (fun _ => Exists bad) (fun _ _ H => H) (fun _ _ H => H) TL TR GE GL
        num1 num2 host I ord_i ord_c infer m on false only imp m' (sigs lib) (wat_lib num1 num2 (sigs lib) N) (library (sigs lib)) limit True (@wat_implements num1 num2 (sigs lib) N Big) lib Pi Pc E same_sigs
        body (tally_apply obs) HB (notes_hands_calls (fun _ => False) (@tally_notes_calls Y A obs (library (sigs lib)) B)) V U AN PV HO CO n fuel Fu x (lib_start tt) a
        calls outs s Ix (start_library lib) T R (fun H => NT (halts_const H)) (@no_buffers Y num1 num2 host I infer m only imp n on x calls) (fun H => H) W) as (s' & l1 & frs & ifs & R' & Ex & _).
      exists s'. split; [exact R'|]. eapply same_program_of; exact Ex.
    Qed.
    Lemma guarded_until x a calls outs s : ran x calls outs s ->
      ~ In None outs \/ Forall in_range32 (trace on x calls) ->
      same_until (plain x) (guarded obs body m' lib a x) calls outs (Exists bad (trace on x calls)) /\
      (~ In None outs -> forall s', guarded obs body m' lib a x calls = Ok (outs, s') -> Forall good (trace on x calls)).
    Proof.
      destruct D as [Big Pi Pc E V U AN PV HO CO Fu]. intros [Ix T R] W.
      pose proof (@no_buffers Y num1 num2 host I infer m only imp n on x calls) as NB.
      assert (Why : halts (fun _ => Exists bad) (In None outs) (trace on x calls) \/ ~ fits limit m 0 (trace on x calls) -> Exists bad (trace on x calls)).
      { intros [H|H]; [exact (halts_const H)|]. exfalso. exact (H NB). }
      destruct (@guarded_any Y A obs good (fun _ => False) (fun _ => Exists bad) (fun _ _ H => H) (fun _ _ H => H) TL TR GE GL
        num1 num2 host I ord_i ord_c infer m on false only imp m' (sigs lib) (wat_lib num1 num2 (sigs lib) N) (library (sigs lib)) limit True (@wat_implements num1 num2 (sigs lib) N Big) lib Pi Pc E same_sigs
        body (tally_apply obs) HB (notes_hands_calls (fun _ => False) (@tally_notes_calls Y A obs (library (sigs lib)) B)) V U AN PV HO CO n fuel Fu x (lib_start tt) a
        calls outs s Ix (start_library lib) T R (or_introl Logic.I) (fun H => H) W) as [(Q & P)|(calls1 & rest & s1 & s' & l1 & P1 & P2 & P3 & P4 & PG & P7)].
      - split.
        + left. split; [exact (Why Q)|exact P].
        + intros _ s' H. destruct (P calls) as (s1 & H1). unfold guarded in H. rewrite H1 in H. discriminate H.
      - split.
        + right. exists calls1, rest, s1, s'. split; [exact P1|]. split; [exact P2|]. split; [exact P3|].
          split; [eapply same_program_of; exact P4|]. destruct P7 as [P7|(c & rest' & s2 & P7 & Q & P8)]; [now left|right].
          exists c, rest', s2. split; [exact P7|]. split; [exact (Why Q)|exact P8].
        + intros NN s'' H. destruct P7 as [->|(c & rest' & s2 & -> & Q & P8)].
          * rewrite app_nil_r in P1. subst calls1. apply PG. intros H'. apply NN. revert H'. generalize (List.length calls). clear.
            intros k H. rewrite <- (firstn_skipn k outs). apply in_or_app. now left.
          * exfalso. apply NN. change (calls1 ++ c :: rest') with (calls1 ++ [c] ++ rest') in P1. rewrite app_assoc in P1. subst calls.
            destruct (module_begins _ _ _ _ _ _ _ _ _ H) as (s3 & H3). unfold guarded in H3.
            rewrite H3 in P8. injection P8 as P8 _. rewrite <- (firstn_skipn (List.length (calls1 ++ [c])) outs). apply in_or_app. left.
            rewrite P8. apply in_or_app. right. now left.
    Qed.
    Lemma guarded_start x a calls s : I x -> typed_calls m calls -> plain x calls = Trap s ->
      Forall in_range32 (trace on x calls) -> exists s', guarded obs body m' lib a x calls = Trap s'.
    Proof.
      destruct D as [Big Pi Pc E V U AN PV HO CO Fu]. intros Ix T R W.
      exact (@guarded_trap_any Y A obs good (fun _ => False) (fun _ => Exists bad) (fun _ _ H => H) (fun _ _ H => H) TL TR GE GL
        num1 num2 host I ord_i ord_c infer m on false only imp m' (sigs lib) (wat_lib num1 num2 (sigs lib) N) (library (sigs lib)) limit True (@wat_implements num1 num2 (sigs lib) N Big) lib Pi Pc E same_sigs
        body (tally_apply obs) HB (notes_hands_calls (fun _ => False) (@tally_notes_calls Y A obs (library (sigs lib)) B)) V U AN PV HO CO n fuel Fu x (lib_start tt) a
        calls s Ix (start_library lib) T R (or_introl Logic.I) (fun H => H) W).
    Qed.
  End Any.

  (** ** C60 and C61: safe-heap *)
  Definition safe_heap (m' : module) (lib : option (list functy)) (x : Y) calls :=
    guarded ignore (safe_heap_body num1 num2) m' lib tt x calls.
  Lemma ignore_blind : blind ignore. Proof. intros a. split; reflexivity. Qed.
  Lemma calm_enter f c args : ~ misaligned (EvEnter f c args). Proof. intros []. Qed.
  Lemma calm_leave f rs : ~ misaligned (EvLeave f rs). Proof. intros []. Qed.
  (** A program whose accesses are all aligned and as wide as their values (and none of which ends at
      byte 2^32) runs under safe-heap as it does without. *)
  Theorem C60_checked_program : forall m' lib x calls outs s, deployment access_hooks false m' lib -> ran x calls outs s ->
    let t := trace access_hooks x calls in
    ~ Exists suspicious t -> ~ In None outs \/ Forall in_range32 t ->
    exists s', safe_heap m' lib x calls = Ok (outs, s') /\ same_program s s'.
  Proof.
    intros m' lib x calls outs s D R t NS W.
    destruct (guarded_state ignore_blind calm_enter calm_leave (@safe_heap_guards Y num1 num2) D tt R NS W) as (s' & R' & Sm & _).
    exists s'. split; [exact R'|exact Sm].
  Qed.
  (** Any other program goes the same way up to a call, if any, that safe-heap stops. *)
  Theorem C60_no_wrong_result : forall m' lib x calls outs s, deployment access_hooks false m' lib -> ran x calls outs s ->
    let t := trace access_hooks x calls in ~ In None outs \/ Forall in_range32 t ->
    same_until (plain x) (safe_heap m' lib x) calls outs (Exists suspicious t).
  Proof.
    intros m' lib x calls outs s D R t W.
    exact (proj1 (guarded_until ignore_blind calm_enter calm_leave (@safe_heap_guards Y num1 num2) D tt R W)).
  Qed.
  Theorem C60_failing_start : forall m' lib x calls s, deployment access_hooks false m' lib -> I x -> typed_calls m calls ->
    plain x calls = Trap s -> Forall in_range32 (trace access_hooks x calls) -> exists s', safe_heap m' lib x calls = Trap s'.
  Proof.
    intros m' lib x calls s D Ix T R W.
    exact (guarded_start ignore_blind calm_enter calm_leave (@safe_heap_guards Y num1 num2) D tt Ix T R W).
  Qed.
  (** If a session is not stopped, the address operand of every access is a multiple of the value's size. *)
  Theorem C61_aligned : forall m' lib x calls outs s s', deployment access_hooks false m' lib -> ran x calls outs s ->
    ~ In None outs -> safe_heap m' lib x calls = Ok (outs, s') ->
    forall i off o v o' l, (In (EvAdvice (AdLoad i off o l)) (trace access_hooks x calls) -> (i mod value_bytes (loadop_ty o) = 0)%Z) /\
      (In (EvAdvice (AdStore i v off o' l)) (trace access_hooks x calls) -> (i mod value_bytes (storeop_ty o') = 0)%Z).
  Proof.
    intros m' lib x calls outs s s' D R NN H i off o v o' l.
    pose proof (proj2 (guarded_until ignore_blind calm_enter calm_leave (@safe_heap_guards Y num1 num2) D tt R (or_introl NN)) NN s' H) as G.
    rewrite Forall_forall in G. split; intros Hi; specialize (G _ Hi); cbn in G.
    - destruct (Z.eq_dec (i mod value_bytes (loadop_ty o)) 0); [assumption|contradiction].
    - destruct (Z.eq_dec (i mod value_bytes (storeop_ty o')) 0); [assumption|contradiction].
  Qed.

  (** ** C63: memstats *)
  Variable room : Z -> bool.
  (** A vector of 8-byte elements occupies less than 2^31 bytes. *)
  Hypothesis RO : forall k, room k = true -> (8 * k < 2 ^ 31)%Z.
  Definition counting (m' : module) (lib : option (list functy)) (x : Y) calls :=
    guarded (memstats_obs room) (memstats_body room num1 num2) m' lib memstats_zero x calls.
  Lemma memstats_blind : blind (memstats_obs room). Proof. intros a. split; reflexivity. Qed.
  (** For every byte, the report is the number of loads and of stores that include it; for bytes above all those
      accessed there is no answer. *)
  Theorem C63_counts : forall m' lib x calls outs s, deployment access_hooks false m' lib -> ran x calls outs s ->
    let t := trace access_hooks x calls in
    ~ Exists (cramped room) t -> ~ In None outs \/ Forall in_range32 t ->
    exists s', counting m' lib x calls = Ok (outs, s') /\ same_program s s' /\
      forall b, (0 <= b < 2 ^ 32)%Z ->
        get_read_at (state_of s') b = (if existsb (reaches read_range b) t then Some (wrapS 32 (count (touches read_range b) t)) else None) /\
        get_write_at (state_of s') b = (if existsb (reaches write_range b) t then Some (wrapS 32 (count (touches write_range b) t)) else None).
  Proof.
    intros m' lib x calls outs s D R t NC W.
    destruct (guarded_state memstats_blind (fun _ _ _ => Logic.I) (fun _ _ => Logic.I) (@memstats_guards room RO Y num1 num2) D memstats_zero R NC W) as (s' & R' & Sm & St).
    exists s'. split; [exact R'|]. split; [exact Sm|]. rewrite St. fold t. destruct (tallied_all RO NC) as (Hr & Hw).
    assert (G : forall v range, tallied v range t -> forall b, (0 <= b < 2 ^ 32)%Z ->
      at_i32 v b = if existsb (reaches range b) t then Some (wrapS 32 (count (touches range b) t)) else None).
    { intros v range H b Rb. destruct (H b (proj1 Rb)) as (E & L). unfold at_i32, element in *. rewrite Z.mod_small by exact Rb. rewrite <- L.
      destruct (b <? v_len v)%Z; [|reflexivity]. rewrite E, wrapS_narrow. reflexivity. }
    intros b Rb. split; [exact (G _ _ Hr b Rb)|exact (G _ _ Hw b Rb)].
  Qed.
  Theorem C63_no_wrong_result : forall m' lib x calls outs s, deployment access_hooks false m' lib -> ran x calls outs s ->
    let t := trace access_hooks x calls in ~ In None outs \/ Forall in_range32 t ->
    same_until (plain x) (counting m' lib x) calls outs (Exists (cramped room) t).
  Proof.
    intros m' lib x calls outs s D R t W.
    exact (proj1 (guarded_until memstats_blind (fun _ _ _ => Logic.I) (fun _ _ => Logic.I) (@memstats_guards room RO Y num1 num2) D memstats_zero R W)).
  Qed.

  (** ** C65: branches and coverage-branch *)
  Lemma branches_blind select : blind (branches_obs select). Proof. intros a. split; reflexivity. Qed.
  (** The decision of a branching instruction [i] of function [f]: the condition of an if, of [br_if], of [select],
      or the label [br_table] jumps to; numbers of 32 bits, as signed integers. *)
  Definition decides (select : bool) (f i : nat) (e : event) : option Z :=
    if located f i e then
      match e with
      | EvAdvice (AdIfThen c _ _ _) | EvAdvice (AdIfThenElse c _ _ _) | EvAdvice (AdBrIf c _ _) | EvAdvice (AdBrTable _ c _ _) => Some (signed 32 c)
      | EvAdvice (AdSelect c _) => if select then Some (signed 32 c) else None
      | _ => None
      end
    else None.
  Theorem C65_last_decision : forall select m' lib x calls outs s, deployment (branch_hooks select) false m' lib -> ran x calls outs s ->
    let t := trace (branch_hooks select) x calls in
    exists s', watched num1 num2 N host imp fuel (branches_obs select) m' lib [] x calls = Ok (outs, s') /\ same_program s s' /\
      forall f i, branches_get (state_of s') (Z.of_nat i) (Z.of_nat f) =
        match last_said (decides select f i) t with Some c => c | None => (-1)%Z end.
  Proof.
    intros select m' lib x calls outs s D R t.
    destruct (@analysis_state_calm Y num1 num2 N host I ord_i ord_c infer m only imp n fuel _ _ (branches_blind select) (branch_hooks select) m' lib x [] calls outs s (fun _ => eq_refl) (fun _ => eq_refl) D R) as (s' & Ru & Sm & St).
    exists s'. split; [exact Ru|]. split; [exact Sm|]. fold t in St. rewrite St. clear St. intros f i. unfold branches_get.
    rewrite branches_last. cbn [kget].
    assert (E : forall t0, last_said (fun e => match e with EvAdvice a => if eqb2 (Z.of_nat i, Z.of_nat f) (key_of (location_of a)) then condition select a else None | _ => None end) t0
      = last_said (decides select f i) t0).
    { induction t0 as [|e t0 IH]; [reflexivity|]. cbn [last_said]. rewrite IH. destruct (last_said (decides select f i) t0); [reflexivity|].
      destruct e as [a| |]; try reflexivity. unfold decides. rewrite located_key. destruct (eqb2 _ _); [|reflexivity]. destruct a; reflexivity. }
    rewrite E. destruct (last_said (decides select f i) t); reflexivity.
  Qed.
End Checked.
Print Assumptions C60_checked_program.
Print Assumptions C60_no_wrong_result.
Print Assumptions C60_failing_start.
Print Assumptions C61_aligned.
Print Assumptions C63_counts.
Print Assumptions C63_no_wrong_result.
Print Assumptions C65_last_decision.

(** ** Examples and witnesses *)
Definition heap_module : module :=
  Mod [Fn ex_i32_1 (FPresent [] [LBasic (BLocal LGet 0); LBasic (BLoad I32Load (MA 2 0)); LEnd]) ["word"];
       Fn ex_i32_1 (FPresent [] [LBasic (BLocal LGet 0); LBasic (BLoad I32Load (MA 0 1)); LEnd]) ["skew"];
       Fn ex_i32_1 (FPresent [] [LBasic (BLocal LGet 0); LBasic (BLoad I32Load8U (MA 0 0)); LEnd]) ["byte"];
       Fn (FT [t_i32; t_i32] []) (FPresent [] [LBasic (BLocal LGet 0); LBasic (BLocal LGet 1); LBasic (BStore I32Store (MA 2 4)); LEnd]) ["put"];
       Fn (FT [t_i32] []) (FPresent [] [LBlock (FT [] []); LBasic (BLocal LGet 0); LBasic (BBrIf 0); LEnd; LEnd]) ["jump"]]
      [] [Mem 4097 None None ["memory"]] [] [] [Data [1; 2; 3; 4; 5; 6; 7; 8]%Z (Some [LBasic (BConst TI32 8); LEnd])] None.
Definition heap_infer (_ : nat) (l : list low) : option (list ity) :=
  Some (map (fun i => match i with
    | LBasic (BLocal LGet _) => IReach (FT [] [t_i32])
    | LBasic (BLoad _ _) => IReach (FT [t_i32] [t_i32])
    | LBasic (BStore _ _) => IReach (FT [t_i32; t_i32] [])
    | LBasic (BBrIf _) => IReach (FT [t_i32] [])
    | _ => IReach (FT [] []) end) l).
Lemma heap_checked : check_funcs heap_module heap_infer = true. Proof. reflexivity. Qed.
Lemma heap_valid : valid heap_module.
Proof.
  constructor; simpl.
  - exact (proj1 (check_funcs_sound _ _ heap_checked)).
  - constructor.
  - split; [constructor; [unfold mem_limits; simpl; lia|constructor]|lia].
  - intros [|i] g E; discriminate E.
  - constructor.
  - repeat (constructor; simpl; try discriminate).
  - exact Logic.I.
  - repeat constructor; simpl; intuition discriminate.
Qed.
Lemma heap_in_format : in_format heap_module.
Proof. unfold in_format, u32. simpl. split; [lia|]. repeat split; repeat (constructor; simpl); unfold u32; simpl; try lia. Qed.
Lemma heap_compatible : compatible heap_module every_hook (intercepts heap_module false None ex_id).
Proof.
  constructor.
  - intros fn ns name Hf EC. simpl in Hf. repeat destruct Hf as [<-|Hf]; try discriminate EC; destruct Hf.
  - intros fn x Hf Hx Hi. simpl in Hf. repeat destruct Hf as [<-|Hf]; try destruct Hf; simpl in Hi;
      repeat destruct Hi as [<-|Hi]; try destruct Hi; vm_compute in Hx; intuition discriminate.
  - intros fn locals code Hf EC. simpl in Hf. repeat destruct Hf as [<-|Hf]; try discriminate EC; try destruct Hf;
      injection EC as <- <-; split; intros o ma Hi _; simpl in Hi; repeat (destruct Hi as [Hi|Hi]; [try discriminate Hi; injection Hi as <- <-; simpl; lia|]); destruct Hi.
  - intros f fn [].
Qed.
Notation heap_deployment := (deployment ex_steps silent (fun _ => True) ex_id ex_id heap_infer heap_module None ex_imports 8 42).
Notation heap_trace on calls := (module_trace ex_num1 ex_num2 silent heap_infer heap_module on false None 8 ex_imports tt calls).
Notation heap_ran := (ran ex_num1 ex_num2 silent (fun _ => True) heap_module ex_imports 8 tt).
Notation heap_safely := (safe_heap ex_num1 ex_num2 ex_steps silent ex_imports 42).
Notation heap_counted room := (counting ex_num1 ex_num2 ex_steps silent ex_imports 42 room).
Lemma heap_deployed on m' : instrument ex_id ex_id heap_infer heap_module (std_ai on false) None = IOk m' None -> heap_deployment on false m' None.
Proof.
  intros E. constructor.
  - unfold ex_steps. lia.
  - intros. apply Permutation_refl.
  - intros. apply Permutation_refl.
  - exact E.
  - exact heap_valid.
  - exact heap_in_format.
  - exact (proj2 (check_funcs_sound _ _ heap_checked)).
  - constructor; intros ? ? ? H E'; simpl in H; intuition; subst; discriminate.
  - intros f fn ns name args Nf EC F. do 5 (destruct f as [|f]; [injection Nf as <-; discriminate EC|]). destruct f; discriminate Nf.
  - apply compatible_less with (on := every_hook); [reflexivity|exact heap_compatible].
  - lia.
Qed.
Definition outs_of {X} (r : res (store X) (list (option (list val)) * store X)) : option (list (option (list val))) :=
  match r with Ok (outs, _) => Some outs | _ => None end.
Lemma outs_of_ok {X} (r : res (store X) (list (option (list val)) * store X)) outs : outs_of r = Some outs -> exists s, r = Ok (outs, s).
Proof. destruct r as [[os s]|?| |]; intros H; try discriminate H. injection H as <-. now exists s. Qed.
Lemma heap_runs calls outs : Forall (fun c => exists ft, plain_xty heap_module (fst c) = Some ft /\ Forall2 (val_ok 5) (snd c) (ft_in ft)) calls ->
  outs_of (run_module ex_num1 ex_num2 silent 8 ex_imports heap_module tt calls) = Some outs -> exists s, heap_ran calls outs s.
Proof. intros T H. apply outs_of_ok in H as (s & H). exists s. constructor; [exact Logic.I|exact T|exact H]. Qed.
Ltac typed := repeat (apply Forall_cons; [eexists; split; [reflexivity|repeat (constructor; simpl; try lia)]|]); apply Forall_nil.
Ltac heap_output on m' E :=
  destruct (instrument ex_id ex_id heap_infer heap_module (std_ai on false) None) as [m' lib| |] eqn:E; [|vm_compute in E; discriminate E..];
  assert (lib = None) by (vm_compute in E; injection E as _ <-; reflexivity); subst lib.
Definition suspiciousb (e : event) : bool :=
  match e with
  | EvAdvice (AdLoad i off o _) =>
      negb (i mod value_bytes (loadop_ty o) =? 0) || (Z.of_nat (loadop_bytes o) <? value_bytes (loadop_ty o)) || (2 ^ 31 <=? i)
  | EvAdvice (AdStore i _ off o _) =>
      negb (i mod value_bytes (storeop_ty o) =? 0) || (Z.of_nat (storeop_bytes o) <? value_bytes (storeop_ty o)) || (2 ^ 31 <=? i)
  | _ => false
  end%Z.
Lemma suspiciousb_ok evs : existsb suspiciousb evs = false -> ~ Exists suspicious evs.
Proof.
  intros H E. apply Exists_exists in E as (e & He & Se). assert (F : suspiciousb e = true); [|rewrite <- not_true_iff_false in H; apply H, existsb_exists; eauto].
  destruct e as [[]| |]; cbn in Se |- *; try (exfalso; destruct Se as [Se|[Se|Se]]; exact Se).
  - destruct Se as [M|[M|(M & _)]]; [apply Z.eqb_neq in M; now rewrite M|apply Z.ltb_lt in M|apply Z.leb_le in M]; rewrite M, ?orb_true_r; reflexivity.
  - destruct Se as [M|[M|(M & _)]]; [apply Z.eqb_neq in M; now rewrite M|apply Z.ltb_lt in M|apply Z.leb_le in M]; rewrite M, ?orb_true_r; reflexivity.
Qed.

Lemma one_returned (vs : list val) : ~ In None [Some vs]. Proof. intros [H|[]]. discriminate H. Qed.

(** C60 and C61: accesses of aligned words, and one of a word that is not aligned. *)
Definition word_calls : list (string * list val) := [("word", [vi32 8]); ("put", [vi32 16; vi32 5]); ("word", [vi32 20])].
Definition word_outs : list (option (list val)) := [Some [vi32 67305985]; Some []; Some [vi32 5]].
Definition odd_calls : list (string * list val) := [("word", [vi32 8]); ("word", [vi32 9]); ("word", [vi32 8])].
Example ex_safe_heap : exists m' s s' s2, heap_deployment access_hooks false m' None /\
  heap_ran word_calls word_outs s /\ ~ Exists suspicious (heap_trace access_hooks word_calls) /\ ~ In None word_outs /\
  List.length (heap_trace access_hooks word_calls) = 3 /\ heap_safely m' None tt word_calls = Ok (word_outs, s') /\
  heap_ran odd_calls [Some [vi32 67305985]; Some [vi32 84148994]; Some [vi32 67305985]] s2 /\
  outs_of (heap_safely m' None tt odd_calls) = Some [Some [vi32 67305985]; None; Some [vi32 67305985]].
Proof.
  heap_output access_hooks m' E.
  destruct (@heap_runs word_calls word_outs) as (s & R); [typed|vm_compute; reflexivity|].
  destruct (@heap_runs odd_calls [Some [vi32 67305985]; Some [vi32 84148994]; Some [vi32 67305985]]) as (s2 & R2); [typed|vm_compute; reflexivity|].
  assert (NS : ~ Exists suspicious (heap_trace access_hooks word_calls)) by (apply suspiciousb_ok; vm_compute; reflexivity).
  assert (NN : ~ In None word_outs) by (intros H; repeat (destruct H as [H|H]; [discriminate H|]); destruct H).
  destruct (@C60_checked_program _ _ _ _ _ _ _ _ _ _ _ _ _ _ m' None _ _ _ _ (heap_deployed _ E) R NS (or_introl NN)) as (s' & R' & _).
  exists m', s, s', s2. split; [exact (heap_deployed _ E)|]. split; [exact R|]. split; [exact NS|]. split; [exact NN|].
  split; [vm_compute; reflexivity|]. split; [exact R'|]. split; [exact R2|].
  vm_compute in E. injection E as <-. vm_compute. reflexivity.
Qed.

(** C62 is violated: accesses through a null pointer are not rejected ... *)
Theorem C62_null_refuted : exists m' s s' l, heap_deployment access_hooks false m' None /\
  heap_ran [("word", [vi32 0])] [Some [vi32 0]] s /\
  In (EvAdvice (AdLoad 0 0 I32Load l)) (heap_trace access_hooks [("word", [vi32 0])]) /\
  heap_safely m' None tt [("word", [vi32 0])] = Ok ([Some [vi32 0]], s').
Proof.
  heap_output access_hooks m' E.
  destruct (@heap_runs [("word", [vi32 0])] [Some [vi32 0]]) as (s & R); [typed|vm_compute; reflexivity|].
  assert (NS : ~ Exists suspicious (heap_trace access_hooks [("word", [vi32 0])])) by (apply suspiciousb_ok; vm_compute; reflexivity).
  destruct (@C60_checked_program _ _ _ _ _ _ _ _ _ _ _ _ _ _ m' None _ _ _ _ (heap_deployed _ E) R NS (or_introl (@one_returned _))) as (s' & R' & _).
  exists m', s, s', (place 0 1). split; [exact (heap_deployed _ E)|]. split; [exact R|]. split; [vm_compute; auto|exact R'].
Qed.
(** ... nor are words read at an odd address, if it is the sum of an aligned operand and an odd offset ... *)
Theorem C62_odd_address_refuted : exists m' s s' l, heap_deployment access_hooks false m' None /\
  heap_ran [("skew", [vi32 8])] [Some [vi32 84148994]] s /\
  In (EvAdvice (AdLoad 8 1 I32Load l)) (heap_trace access_hooks [("skew", [vi32 8])]) /\
  heap_safely m' None tt [("skew", [vi32 8])] = Ok ([Some [vi32 84148994]], s').
Proof.
  heap_output access_hooks m' E.
  destruct (@heap_runs [("skew", [vi32 8])] [Some [vi32 84148994]]) as (s & R); [typed|vm_compute; reflexivity|].
  assert (NS : ~ Exists suspicious (heap_trace access_hooks [("skew", [vi32 8])])) by (apply suspiciousb_ok; vm_compute; reflexivity).
  destruct (@C60_checked_program _ _ _ _ _ _ _ _ _ _ _ _ _ _ m' None _ _ _ _ (heap_deployed _ E) R NS (or_introl (@one_returned _))) as (s' & R' & _).
  exists m', s, s', (place 1 1). split; [exact (heap_deployed _ E)|]. split; [exact R|]. split; [vm_compute; auto|exact R'].
Qed.
(** ... while single bytes, which are always aligned, are rejected at odd addresses. *)
Theorem C62_byte_refuted : exists m' s s', heap_deployment access_hooks false m' None /\
  heap_ran [("byte", [vi32 9])] [Some [vi32 2]] s /\ heap_safely m' None tt [("byte", [vi32 9])] = Ok ([None], s').
Proof.
  heap_output access_hooks m' E.
  destruct (@heap_runs [("byte", [vi32 9])] [Some [vi32 2]]) as (s & R); [typed|vm_compute; reflexivity|].
  assert (H : outs_of (heap_safely m' None tt [("byte", [vi32 9])]) = Some [None]).
  { pose proof E as E'. vm_compute in E'. injection E' as <-. vm_compute. reflexivity. }
  apply outs_of_ok in H as (s' & H). exists m', s, s'. split; [exact (heap_deployed _ E)|]. split; [exact R|exact H].
Qed.

(** C63: counts of a session. *)
Definition max_room (k : Z) : bool := (8 * k <? 2 ^ 31)%Z.
Lemma max_room_ok k : max_room k = true -> (8 * k < 2 ^ 31)%Z. Proof. apply Z.ltb_lt. Qed.
Definition crampedb (e : event) : bool :=
  match read_range e, write_range e with
  | Some (a, n), _ | None, Some (a, n) => negb (max_room (a + n))
  | None, None => false
  end.
Lemma crampedb_ok evs : existsb crampedb evs = false -> ~ Exists (cramped max_room) evs.
Proof.
  intros H E. apply Exists_exists in E as (e & He & a & k & Re & Ro). assert (F : crampedb e = true); [|rewrite <- not_true_iff_false in H; apply H, existsb_exists; eauto].
  unfold crampedb. destruct e as [[]| |]; destruct Re as [Re|Re]; try discriminate Re; injection Re as <- <-; cbn [read_range write_range]; now rewrite Ro.
Qed.
Definition byte_calls : list (string * list val) := [("word", [vi32 8]); ("byte", [vi32 9]); ("put", [vi32 16; vi32 5])].
Definition byte_outs : list (option (list val)) := [Some [vi32 67305985]; Some [vi32 2]; Some []].
Example ex_memstats : exists m' s s', heap_deployment access_hooks false m' None /\ heap_ran byte_calls byte_outs s /\
  ~ Exists (cramped max_room) (heap_trace access_hooks byte_calls) /\
  heap_counted max_room m' None tt byte_calls = Ok (byte_outs, s') /\
  get_read_at (state_of s') 8 = Some 1%Z /\ get_read_at (state_of s') 9 = Some 2%Z /\ get_read_at (state_of s') 7 = Some 0%Z /\
  get_write_at (state_of s') 23 = Some 1%Z.
Proof.
  heap_output access_hooks m' E.
  destruct (@heap_runs byte_calls byte_outs) as (s & R); [typed|vm_compute; reflexivity|].
  assert (NC : ~ Exists (cramped max_room) (heap_trace access_hooks byte_calls)) by (apply crampedb_ok; vm_compute; reflexivity).
  assert (NN : ~ In None byte_outs) by (intros H; repeat (destruct H as [H|H]; [discriminate H|]); destruct H).
  destruct (@C63_counts _ _ _ _ _ _ _ _ _ _ _ _ _ _ max_room max_room_ok m' None _ _ _ _ (heap_deployed _ E) R NC (or_introl NN)) as (s' & R' & _ & K).
  exists m', s, s'. split; [exact (heap_deployed _ E)|]. split; [exact R|]. split; [exact NC|]. split; [exact R'|].
  split; [rewrite (proj1 (K 8%Z ltac:(lia))); vm_compute; reflexivity|]. split; [rewrite (proj1 (K 9%Z ltac:(lia))); vm_compute; reflexivity|].
  split; [rewrite (proj1 (K 7%Z ltac:(lia))); vm_compute; reflexivity|]. rewrite (proj2 (K 23%Z ltac:(lia))); vm_compute; reflexivity.
Qed.
(** C64 is violated: a program that works on the 4097th page is stopped, as the counters of the bytes below would
    take more than 2^31 bytes ... *)
Theorem C64_refuted : exists m' s s', heap_deployment access_hooks false m' None /\
  heap_ran [("word", [vi32 (2 ^ 28)])] [Some [vi32 0]] s /\
  heap_counted max_room m' None tt [("word", [vi32 (2 ^ 28)])] = Ok ([None], s').
Proof.
  heap_output access_hooks m' E.
  destruct (@heap_runs [("word", [vi32 (2 ^ 28)])] [Some [vi32 0]]) as (s & R); [typed|vm_compute; reflexivity|].
  assert (H : outs_of (heap_counted max_room m' None tt [("word", [vi32 (2 ^ 28)])]) = Some [None]).
  { pose proof E as E'. vm_compute in E'. injection E' as <-. vm_compute. reflexivity. }
  apply outs_of_ok in H as (s' & H). exists m', s, s'. split; [exact (heap_deployed _ E)|]. split; [exact R|exact H].
Qed.
(** ... and asking for a byte of the memory that is above all those accessed panics instead of reporting 0. *)
Theorem C64_no_answer_refuted : exists m' s s', heap_deployment access_hooks false m' None /\ heap_ran byte_calls byte_outs s /\
  heap_counted max_room m' None tt byte_calls = Ok (byte_outs, s') /\
  count (touches read_range 12) (heap_trace access_hooks byte_calls) = 0%Z /\ get_read_at (state_of s') 12 = None.
Proof.
  heap_output access_hooks m' E.
  destruct (@heap_runs byte_calls byte_outs) as (s & R); [typed|vm_compute; reflexivity|].
  assert (NC : ~ Exists (cramped max_room) (heap_trace access_hooks byte_calls)) by (apply crampedb_ok; vm_compute; reflexivity).
  assert (NN : ~ In None byte_outs) by (intros H; repeat (destruct H as [H|H]; [discriminate H|]); destruct H).
  destruct (@C63_counts _ _ _ _ _ _ _ _ _ _ _ _ _ _ max_room max_room_ok m' None _ _ _ _ (heap_deployed _ E) R NC (or_introl NN)) as (s' & R' & _ & K).
  exists m', s, s'. split; [exact (heap_deployed _ E)|]. split; [exact R|]. split; [exact R'|].
  split; [vm_compute; reflexivity|]. rewrite (proj1 (K 12%Z ltac:(lia))); vm_compute; reflexivity.
Qed.

(** C65 is violated: the branch at position 2 of function 4 is taken, and the report for it is -1, as for one that
    was never executed: its indices are exchanged, and -1 is a possible condition, too. *)
Definition jump_calls : list (string * list val) := [("jump", [vi32 7]); ("jump", [vi32 (2 ^ 32 - 1)])].
Notation heap_noted := (watched ex_num1 ex_num2 ex_steps silent ex_imports 42 (branches_obs false)).
Theorem C65_refuted : exists m' s s' s2 s2', heap_deployment (branch_hooks false) false m' None /\
  heap_ran (firstn 1 jump_calls) [Some []] s /\ heap_noted m' None [] tt (firstn 1 jump_calls) = Ok ([Some []], s') /\
  last_said (decides false 4 2) (heap_trace (branch_hooks false) (firstn 1 jump_calls)) = Some 7%Z /\
  branches_get (state_of s') 4 2 = (-1)%Z /\ branches_get (state_of s') 2 4 = 7%Z /\
  heap_ran jump_calls [Some []; Some []] s2 /\ heap_noted m' None [] tt jump_calls = Ok ([Some []; Some []], s2') /\
  branches_get (state_of s2') 2 4 = (-1)%Z.
Proof.
  heap_output (branch_hooks false) m' E.
  destruct (@heap_runs (firstn 1 jump_calls) [Some []]) as (s & R); [typed|vm_compute; reflexivity|].
  destruct (@heap_runs jump_calls [Some []; Some []]) as (s2 & R2); [typed|vm_compute; reflexivity|].
  destruct (@C65_last_decision _ _ _ _ _ _ _ _ _ _ _ _ _ _ false m' None _ _ _ _ (heap_deployed _ E) R) as (s' & R' & _ & K).
  destruct (@C65_last_decision _ _ _ _ _ _ _ _ _ _ _ _ _ _ false m' None _ _ _ _ (heap_deployed _ E) R2) as (s2' & R2' & _ & K2).
  exists m', s, s', s2, s2'. split; [exact (heap_deployed _ E)|]. split; [exact R|]. split; [exact R'|]. split; [vm_compute; reflexivity|].
  split; [exact (K 2 4)|]. split; [exact (K 4 2)|]. split; [exact R2|]. split; [exact R2'|].
  exact (K2 4 2).
Qed.
Print Assumptions C62_null_refuted.
Print Assumptions C62_odd_address_refuted.
Print Assumptions C62_byte_refuted.
Print Assumptions C64_refuted.
Print Assumptions C64_no_answer_refuted.
Print Assumptions C65_refuted.
