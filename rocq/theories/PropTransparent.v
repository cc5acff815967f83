(** Property theorems C08, C09, C10: what an analysis that forwards everything does to the
    program, and what a recording analysis sees of it. The system consists of the output module,
    the buffer library generated for it, the compiled analysis and the host (System.v). *)
From Coq Require Import Permutation.
From Verif Require Import Semantics Advice RsStdlib StackLib StackRun StackSpec PropStack System SystemProofs Instantiate Trace TraceProofs
  Typing ModuleTyping InstantiateTyping Checker ExModule PropInstrument PropSpec PropTyping ForwardRel ForwardProofs SessionProofs Recorder.
Local Open Scope string_scope.
Local Open Scope list_scope.

(** The program's part of the state of the system is [s]; tables and element segments of the
    instrumentation come after those of the program. *)
Definition same_program {A Y} (s : store Y) (s' : store (sys (A * Y))) : Prop :=
  st_mem s' = st_mem s /\ st_globals s' = st_globals s /\ st_datas s' = st_datas s /\ snd (snd (st_x s')) = st_x s /\
  (exists ts, st_tables s' = st_tables s ++ ts) /\ (exists es, st_elems s' = st_elems s ++ es).
Lemma same_program_of {A Y} l (a : A) (s : store Y) s' : extends (lift l a s) s' -> same_program s s' /\ fst (snd (st_x s')) = a.
Proof. intros (A1 & A2 & A3 & A4 & A5 & A6). unfold same_program. rewrite A4. cbn in *. auto 10. Qed.

(** [other] goes through the session [calls] as [plain] does, which returns [outs]; or it does so up
    to some call that traps, or traps at instantiation already, and then [why]. *)
Definition same_until {A Y} (plain : list (string * list val) -> res (store Y) (list (option (list val)) * store Y))
    (other : list (string * list val) -> res (store (sys (A * Y))) (list (option (list val)) * store (sys (A * Y))))
    (calls : list (string * list val)) (outs : list (option (list val))) (why : Prop) : Prop :=
  why /\ (forall calls', exists s', other calls' = Trap s') \/
  exists calls1 rest s s', calls = calls1 ++ rest /\
    plain calls1 = Ok (firstn (List.length calls1) outs, s) /\ other calls1 = Ok (firstn (List.length calls1) outs, s') /\ same_program s s' /\
    (rest = [] \/ exists c rest' s2, rest = c :: rest' /\ why /\ other (calls1 ++ [c]) = Ok (firstn (List.length calls1) outs ++ [None], s2)).

Lemma snoc_all {B} (l : list B) : forall acc, fold_left (fun log e => log ++ [e]) l acc = acc ++ l.
Proof. induction l as [|e l IH]; intros acc; cbn; [now rewrite app_nil_r|]. rewrite IH, <- app_assoc. reflexivity. Qed.

Section Transparent.
  Context {Y : Type}.
  Variable num1 : unop -> Z -> option Z.
  Variable num2 : binop -> Z -> Z -> option Z.
  (** Steps the buffer library may take per call (its loops are bounded by the pages it grows). *)
  Variable N : nat.
  Hypothesis Big : (70010 <= Z.of_nat N)%Z.
  Variable host : string -> string -> list val -> xprog Y.
  Variable I : Y -> Prop.
  Variables ord_i ord_c : list nat -> list nat.
  Variable infer : nat -> list low -> option (list ity).
  Variable m : module.
  Variable on : hook -> bool.
  Variable generic : bool.
  Variable only : option (list nat).
  Variable imp : provided.
  Variable m' : module.
  Variable lib : option (list functy).
  Hypothesis Pi : forall l, Permutation (ord_i l) l.
  Hypothesis Pc : forall l, Permutation (ord_c l) l.
  (** [m'] is the output of the instrumentation, with the library it asks for, if any. *)
  Hypothesis E : instrument ord_i ord_c infer m (std_ai on generic) only = IOk m' lib.
  Hypothesis V : valid m.
  Hypothesis U : in_format m.
  Hypothesis AN : annotates infer m.
  Hypothesis PV : provided_ok m imp.
  Hypothesis HO : hosts_ok host I m (plain_xty m).
  Notation is := (intercepts m generic only ord_i).
  Hypothesis CO : compatible m on is.
  Notation sigs := (match lib with Some l => l | None => [] end).
  Variables n fuel : nat.
  Hypothesis Fu : 5 * n + 2 <= fuel.
  Notation plain_module := (run_module num1 num2 host n imp m).
  Notation module_trace := (module_trace num1 num2 host infer m on generic only n imp).
  Notation typed_calls := (Forall (fun c => exists ft, plain_xty m (fst c) = Some ft /\
                                     Forall2 (val_ok (List.length (md_funcs m))) (snd c) (ft_in ft))).

  (** Intercepted calls need buffer space while they are pending: at no point of the run may that be
      more than the memory of the buffer library can grow to. Calls abandoned by a trap stay pending. *)
  Definition enough_space (x : Y) (calls : list (string * list val)) : Prop :=
    forall before after, module_trace x calls = before ++ after -> (usage m before <= limit)%Z.

  Lemma sigs_of l : lib = Some l -> sigs = l.
  Proof. intros ->. reflexivity. Qed.
  Lemma start_library : library sigs [] [] (lib_start tt).
  Proof. exists 0%Z, 1%Z, (fun _ => 0%Z). split; [reflexivity|]. apply start_inv. Qed.

  (** The system with the forwarding analysis: tests/analyses/rust/forward. *)
  Definition forwarding := all_agents (Y := Y) (A := unit) (wat_lib num1 num2 sigs N) (forward_body num1 num2) forward_apply host.

  (** C08: a session of the original module in which no call traps has the same results under the
      forwarding analysis, and memory, globals, tables and the host's state are the same afterwards. *)
  Theorem C08_forwarding : forall x calls outs s, I x -> typed_calls calls ->
    plain_module x calls = Ok (outs, s) -> ~ In None outs ->
    enough_space x calls ->
    exists s', run_module num1 num2 forwarding fuel imp m' (lib_start tt, (tt, x)) calls = Ok (outs, s') /\ same_program s s'.
  Proof.
    intros x calls outs s Ix T R NN Ro.
    destruct (@observed_sessions Y unit ignore num1 num2 host I ord_i ord_c infer m on generic only imp m' sigs (wat_lib num1 num2 sigs N) (library sigs) limit True (@wat_implements num1 num2 sigs N Big) lib Pi Pc E sigs_of
      (forward_body num1 num2) forward_apply (forward_notes_advice num1 num2) (@forward_notes_calls Y (library sigs)) V U AN PV HO CO n fuel Fu x (lib_start tt) tt
      calls outs s Ix start_library T R Ro (or_introl NN)) as (s' & l1 & frs & ifs & R' & Ex & _).
    exists s'. split; [exact R'|]. eapply same_program_of; exact Ex.
  Qed.

  (** Without any assumption on the buffer space: results are never wrong, and the program's state
      is right after every call; all that can happen is that some call traps instead. *)
  Theorem C08_any_space : forall x calls outs s, I x -> typed_calls calls ->
    plain_module x calls = Ok (outs, s) -> ~ In None outs \/ Forall in_range32 (module_trace x calls) ->
    same_until (plain_module x) (run_module num1 num2 forwarding fuel imp m' (lib_start tt, (tt, x))) calls outs (~ enough_space x calls).
  Proof.
    intros x calls outs s Ix T R W.
    destruct (@observed_any Y unit ignore num1 num2 host I ord_i ord_c infer m on generic only imp m' sigs (wat_lib num1 num2 sigs N) (library sigs) limit True (@wat_implements num1 num2 sigs N Big) lib Pi Pc E sigs_of
      (forward_body num1 num2) forward_apply (forward_notes_advice num1 num2) (@forward_notes_calls Y (library sigs)) V U AN PV HO CO n fuel Fu x (lib_start tt) tt
      calls outs s Ix start_library T R (or_introl Logic.I) W) as [(Q & P)|(calls1 & rest & s1 & s' & l1 & P1 & P2 & P3 & P4 & P5)]; [left|right].
    - split; [exact Q|exact P].
    - exists calls1, rest, s1, s'. split; [exact P1|]. split; [exact P2|]. split; [exact P3|]. split; [|exact P5].
      eapply same_program_of; exact P4.
  Qed.

  (** C09, the part that holds: traps are preserved too, in any number of calls, as long as the
      addresses of reported accesses do not exceed 32 bits. *)
  Theorem C09_traps_preserved : forall x calls outs s, I x -> typed_calls calls ->
    plain_module x calls = Ok (outs, s) -> Forall in_range32 (module_trace x calls) ->
    enough_space x calls ->
    exists s', run_module num1 num2 forwarding fuel imp m' (lib_start tt, (tt, x)) calls = Ok (outs, s') /\ same_program s s'.
  Proof.
    intros x calls outs s Ix T R W Ro.
    destruct (@observed_sessions Y unit ignore num1 num2 host I ord_i ord_c infer m on generic only imp m' sigs (wat_lib num1 num2 sigs N) (library sigs) limit True (@wat_implements num1 num2 sigs N Big) lib Pi Pc E sigs_of
      (forward_body num1 num2) forward_apply (forward_notes_advice num1 num2) (@forward_notes_calls Y (library sigs)) V U AN PV HO CO n fuel Fu x (lib_start tt) tt
      calls outs s Ix start_library T R Ro (or_intror W)) as (s' & l1 & frs & ifs & R' & Ex & _).
    exists s'. split; [exact R'|]. eapply same_program_of; exact Ex.
  Qed.
  (** Instantiation that traps, also in the start function. *)
  Theorem C09_failing_start : forall x calls s, I x -> typed_calls calls ->
    plain_module x calls = Trap s -> Forall in_range32 (module_trace x calls) ->
    enough_space x calls ->
    exists s', run_module num1 num2 forwarding fuel imp m' (lib_start tt, (tt, x)) calls = Trap s' /\ same_program s s'.
  Proof.
    intros x calls s Ix T R W Ro.
    destruct (@observed_trap Y unit ignore num1 num2 host I ord_i ord_c infer m on generic only imp m' sigs (wat_lib num1 num2 sigs N) (library sigs) limit True (@wat_implements num1 num2 sigs N Big) lib Pi Pc E sigs_of
      (forward_body num1 num2) forward_apply (forward_notes_advice num1 num2) (@forward_notes_calls Y (library sigs)) V U AN PV HO CO n fuel Fu x (lib_start tt) tt
      calls s Ix start_library T R Ro W) as (s' & l1 & R' & Ex).
    exists s'. split; [exact R'|]. eapply same_program_of; exact Ex.
  Qed.
  (** Without hooks on loads and stores no condition on addresses is left. *)
  Theorem C09_without_access_hooks : forall x calls outs s, I x -> typed_calls calls ->
    (forall t, on (HkLoad t) = false) -> (forall t, on (HkStore t) = false) ->
    plain_module x calls = Ok (outs, s) ->
    enough_space x calls ->
    exists s', run_module num1 num2 forwarding fuel imp m' (lib_start tt, (tt, x)) calls = Ok (outs, s') /\ same_program s s'.
  Proof.
    intros x calls outs s Ix T NL NS R Ro. eapply C09_traps_preserved; eauto. now apply module_in_range.
  Qed.

  (** The system with a recording analysis: state [A], updated by [obs] on every event. *)
  Section Recording.
    Context {A : Type}.
    Variable obs : A -> event -> A.
    Definition recording := all_agents (Y := Y) (wat_lib num1 num2 sigs N) (record_body obs num1 num2) (record_apply obs (wat_lib num1 num2 sigs N)) host.
    (** C10: the analysis has seen exactly the events of the run of the original program, in order. *)
    Theorem C10_events : forall x a calls outs s, I x -> typed_calls calls ->
      plain_module x calls = Ok (outs, s) -> ~ In None outs \/ Forall in_range32 (module_trace x calls) ->
      enough_space x calls ->
      exists s', run_module num1 num2 recording fuel imp m' (lib_start tt, (a, x)) calls = Ok (outs, s') /\
        same_program s s' /\ fst (snd (st_x s')) = fold_left obs (module_trace x calls) a.
    Proof.
      intros x a calls outs s Ix T R W Ro.
      destruct (@observed_sessions Y A obs num1 num2 host I ord_i ord_c infer m on generic only imp m' sigs (wat_lib num1 num2 sigs N) (library sigs) limit True (@wat_implements num1 num2 sigs N Big) lib Pi Pc E sigs_of
        (record_body obs num1 num2) (record_apply obs (wat_lib num1 num2 sigs N)) (@record_notes_advice Y A obs num1 num2)
        (@record_notes_calls Y A obs (wat_lib num1 num2 sigs N) sigs (library sigs) limit True (@wat_implements num1 num2 sigs N Big)) V U AN PV HO CO n fuel Fu x (lib_start tt) a
        calls outs s Ix start_library T R Ro W) as (s' & l1 & frs & ifs & R' & Ex & _).
      exists s'. split; [exact R'|]. eapply same_program_of; exact Ex.
    Qed.
  End Recording.
  (** A log of all events. *)
  Corollary C10_log : forall x calls outs s, I x -> typed_calls calls ->
    plain_module x calls = Ok (outs, s) -> ~ In None outs \/ Forall in_range32 (module_trace x calls) ->
    enough_space x calls ->
    exists s', run_module num1 num2 (recording (fun log e => log ++ [e])) fuel imp m' (lib_start tt, ([], x)) calls = Ok (outs, s') /\
      fst (snd (st_x s')) = module_trace x calls.
  Proof.
    intros x calls outs s Ix T R W Ro.
    destruct (@C10_events (list event) (fun log e => log ++ [e]) x [] calls outs s Ix T R W Ro) as (s' & R' & _ & L).
    exists s'. split; [exact R'|]. rewrite L. apply (@snoc_all event _ []).
  Qed.
End Transparent.
Print Assumptions C08_forwarding.
Print Assumptions C08_any_space.
Print Assumptions C09_traps_preserved.
Print Assumptions C09_failing_start.
Print Assumptions C09_without_access_hooks.
Print Assumptions C10_events.
Print Assumptions C10_log.

(** ** Examples *)
Definition ex_steps : nat := Z.to_nat 70010.
Definition ex_host (ns name : string) (args : list val) : xprog (list val) := XGet (fun x m g => XPut (x ++ args) m g (XRet [])).
Definition ex_session_calls : list (string * list val) := [("sum", [vi32 1]); ("poke", [vi32 1])].
Definition ex_all (h : hook) : bool := true.
(** The most space used at any point. *)
Definition ex_peak (m : module) (evs : list event) : Z :=
  fold_left Z.max (map (fun k => usage m (firstn k evs)) (seq 0 (S (List.length evs)))) 0%Z.
Lemma peak_max l : forall a, (a <= fold_left Z.max l a)%Z /\ forall z, In z l -> (z <= fold_left Z.max l a)%Z.
Proof.
  induction l as [|y l IH]; intros a; simpl; [split; [lia|intros z []]|]. destruct (IH (Z.max a y)) as (A & B).
  split; [lia|]. intros z [->|H]; [lia|now apply B].
Qed.
Lemma peak_ok m evs b a : evs = b ++ a -> (usage m b <= ex_peak m evs)%Z.
Proof.
  intros ->. unfold ex_peak. apply (proj2 (peak_max _ _)). apply in_map_iff. exists (List.length b). split.
  - f_equal. rewrite firstn_app, Nat.sub_diag, firstn_all. simpl. apply app_nil_r.
  - apply in_seq. rewrite app_length. lia.
Qed.
Definition ex_fwd : option (list (option (list val)) * list val) :=
  match instrument ex_id ex_id ex_infer ex_module (std_ai ex_all true) None with
  | IOk m' (Some sigs) =>
      match run_module ex_num1 ex_num2 (forwarding ex_num1 ex_num2 ex_steps ex_host (Some sigs)) 42 ex_imports m' (lib_start tt, (tt, [])) ex_session_calls with
      | Ok (outs, s') => Some (outs, snd (snd (st_x s')))
      | _ => None
      end
  | _ => None
  end.
Lemma ex_host_ok : hosts_ok ex_host (fun _ => True) ex_module (plain_xty ex_module).
Proof.
  intros [|[|[|[|f]]]] fn ns name args Nf EC F; simpl in Nf; try (injection Nf as <-; discriminate EC).
  - injection Nf as <-. simpl. auto.
  - destruct f; discriminate Nf.
Qed.
Lemma ex_compatible : compatible ex_module ex_all (intercepts ex_module true None ex_id).
Proof.
  constructor.
  - intros fn ns name Hf EC. simpl in Hf. repeat destruct Hf as [<-|Hf]; try discriminate EC; [|destruct Hf].
    injection EC as <- <-. split; discriminate.
  - intros fn x Hf Hx Hi. simpl in Hf. repeat destruct Hf as [<-|Hf]; try destruct Hf; simpl in Hi;
      repeat destruct Hi as [<-|Hi]; try destruct Hi; vm_compute in Hx; intuition discriminate.
  - intros fn locals code Hf EC. simpl in Hf. repeat destruct Hf as [<-|Hf]; try discriminate EC; try destruct Hf;
      injection EC as <- <-; split; intros o ma Hi _; simpl in Hi; repeat (destruct Hi as [Hi|Hi]; [try discriminate Hi; injection Hi as <- <-; simpl; lia|]);
      destruct Hi.
  - intros f fn Hf Nf. destruct f as [|[|[|[|f]]]]; simpl in Nf; try (injection Nf as <-; simpl; lia). destruct f; discriminate.
Qed.
(** C08: all hooks on, all functions intercepted; the hypotheses hold, and the results are those of the original. *)
Example ex_forwarding :
  valid ex_module /\ in_format ex_module /\ annotates ex_infer ex_module /\ provided_ok ex_module ex_imports /\
  hosts_ok ex_host (fun _ => True) ex_module (plain_xty ex_module) /\
  compatible ex_module ex_all (intercepts ex_module true None ex_id) /\
  Forall (fun c => exists ft, plain_xty ex_module (fst c) = Some ft /\ Forall2 (val_ok 4) (snd c) (ft_in ft)) ex_session_calls /\
  (match run_module ex_num1 ex_num2 ex_host 8 ex_imports ex_module [] ex_session_calls with
   | Ok (outs, s) => outs = [Some [vi32 1]; Some [vi32 100]] /\ st_x s = [vi32 1]
   | _ => False
   end) /\
  ex_fwd = Some ([Some [vi32 1]; Some [vi32 100]], [vi32 1]).
Proof.
  split; [exact ex_valid|]. split; [exact ex_in_format|]. split; [exact ex_annotates|]. split; [exact ex_provided|].
  split; [exact ex_host_ok|]. split; [exact ex_compatible|]. split.
  - repeat (apply Forall_cons; [eexists; split; [reflexivity|repeat constructor]|]). apply Forall_nil.
  - split; [vm_compute; split; reflexivity|]. vm_compute. reflexivity.
Qed.

(** C10: the log of the same session: 76 events, those of the original run. *)
Definition ex_log_of (on : hook -> bool) : option (list event) :=
  match instrument ex_id ex_id ex_infer ex_module (std_ai on true) None with
  | IOk m' (Some sigs) =>
      match run_module ex_num1 ex_num2 (recording ex_num1 ex_num2 ex_steps ex_host (Some sigs) (fun log e => log ++ [e])) 42 ex_imports m'
              (lib_start tt, ([], [])) ex_session_calls with
      | Ok (_, s') => Some (fst (snd (st_x s')))
      | _ => None
      end
  | _ => None
  end.
Definition ex_trace := module_trace ex_num1 ex_num2 ex_host ex_infer ex_module ex_all true None 8 ex_imports [] ex_session_calls.
Example ex_space : enough_space ex_num1 ex_num2 ex_host ex_infer ex_module ex_all true None ex_imports 8 [] ex_session_calls /\
  ex_peak ex_module ex_trace = 72%Z.
Proof.
  assert (P : ex_peak ex_module ex_trace = 72%Z) by (vm_compute; reflexivity).
  split; [|exact P]. intros b a E. pose proof (peak_ok ex_module _ _ E) as H. fold ex_trace in H. rewrite P in H. unfold limit. lia.
Qed.
Example ex_recorded : ex_log_of ex_all = Some ex_trace /\ List.length ex_trace = 62 /\
  firstn 3 ex_trace = [EvEnter 1 true [vi32 1]; EvAdvice (AdLocal (vi32 1) 0 LGet (Loc 1 0)); EvAdvice (AdUnary I32Eqz (vi32 1) (Loc 1 1))].
Proof. split; [vm_compute; reflexivity|]. split; vm_compute; reflexivity. Qed.

(** C09: a host that lets the second call of "log" trap; that call is abandoned with the buffers of
    two functions, 36 bytes, still in use, and the calls after it work as before. *)
Definition ex_moody (ns name : string) (args : list val) : xprog (list val) :=
  XGet (fun x m g => match x with [] => XPut args m g (XRet []) | _ => XTrap end).
Definition ex_trap_calls : list (string * list val) := [("poke", [vi32 1]); ("poke", [vi32 1]); ("sum", [vi32 1])].
Definition ex_trap_trace := module_trace ex_num1 ex_num2 ex_moody ex_infer ex_module ex_all true None 8 ex_imports [] ex_trap_calls.
Definition ex_trap_fwd : option (list (option (list val)) * list val) :=
  match instrument ex_id ex_id ex_infer ex_module (std_ai ex_all true) None with
  | IOk m' (Some sigs) =>
      match run_module ex_num1 ex_num2 (forwarding ex_num1 ex_num2 ex_steps ex_moody (Some sigs)) 42 ex_imports m' (lib_start tt, (tt, [])) ex_trap_calls with
      | Ok (outs, s') => Some (outs, snd (snd (st_x s')))
      | _ => None
      end
  | _ => None
  end.
Definition in_range32b (e : event) : bool :=
  match e with
  | EvAdvice (AdLoad i off _ _) | EvAdvice (AdStore i _ off _ _) => (i + off <? 2 ^ 32)%Z
  | _ => true
  end.
Lemma in_range32b_ok evs : forallb in_range32b evs = true -> Forall in_range32 evs.
Proof.
  intros H. apply Forall_forall. intros e He. rewrite forallb_forall in H. specialize (H e He).
  destruct e as [[]| |]; simpl in *; auto; now apply Z.ltb_lt.
Qed.
Lemma ex_moody_ok : hosts_ok ex_moody (fun _ => True) ex_module (plain_xty ex_module).
Proof.
  intros [|[|[|[|f]]]] fn ns name args Nf EC F; simpl in Nf; try (injection Nf as <-; discriminate EC).
  - injection Nf as <-. simpl. intros [|? ?] mm gg ? ?; simpl; auto.
  - destruct f; discriminate Nf.
Qed.
Example ex_traps :
  hosts_ok ex_moody (fun _ => True) ex_module (plain_xty ex_module) /\
  (match run_module ex_num1 ex_num2 ex_moody 8 ex_imports ex_module [] ex_trap_calls with
   | Ok (outs, s) => outs = [Some [vi32 100]; None; Some [vi32 1]] /\ st_x s = [vi32 1]
   | _ => False
   end) /\
  ex_trap_fwd = Some ([Some [vi32 100]; None; Some [vi32 1]], [vi32 1]) /\
  Forall in_range32 ex_trap_trace /\ usage ex_module ex_trap_trace = 36%Z /\
  enough_space ex_num1 ex_num2 ex_moody ex_infer ex_module ex_all true None ex_imports 8 [] ex_trap_calls.
Proof.
  split; [exact ex_moody_ok|].
  split; [vm_compute; split; reflexivity|]. split; [vm_compute; reflexivity|].
  split; [apply in_range32b_ok; vm_compute; reflexivity|]. split; [vm_compute; reflexivity|].
  assert (P : ex_peak ex_module ex_trap_trace = 84%Z) by (vm_compute; reflexivity).
  intros b a E. pose proof (peak_ok ex_module _ _ E) as H. fold ex_trap_trace in H. rewrite P in H. unfold limit. lia.
Qed.

(** ** C09: traps are not always preserved *)
(** [load] reads at address 2^32 - 8 with static offset 8, out of bounds of any memory. *)
Definition wrap_module : module :=
  Mod [Fn (FT [] [t_i32]) (FPresent [] [LBasic (BConst TI32 (2 ^ 32 - 8)); LBasic (BLoad I32Load (MA 2 8)); LEnd]) ["load"]]
      [] [Mem 1 None None ["memory"]] [] [] [Data [1; 2; 3; 4]%Z (Some [LBasic (BConst TI32 0); LEnd])] None.
Definition wrap_infer (_ : nat) (l : list low) : option (list ity) :=
  Some (map (fun i => match i with
    | LBasic (BConst TI32 _) => IReach (FT [] [t_i32])
    | LBasic (BLoad _ _) => IReach (FT [t_i32] [t_i32])
    | _ => IReach (FT [] []) end) l).
Definition wrap_on (h : hook) : bool := match h with HkLoad TI32 => true | _ => false end.
Lemma wrap_checked : check_funcs wrap_module wrap_infer = true. Proof. reflexivity. Qed.
Lemma wrap_valid : valid wrap_module.
Proof.
  constructor; simpl.
  - exact (proj1 (check_funcs_sound _ _ wrap_checked)).
  - constructor.
  - split; [constructor; [unfold mem_limits; simpl; lia|constructor]|lia].
  - intros [|i] g E; discriminate E.
  - constructor.
  - repeat (constructor; simpl; try discriminate).
  - exact Logic.I.
  - repeat constructor; simpl; intuition discriminate.
Qed.
Lemma wrap_in_format : in_format wrap_module.
Proof. unfold in_format, u32. simpl. split; [lia|]. repeat split; repeat (constructor; simpl); unfold u32; simpl; try lia. Qed.
Lemma wrap_compatible : compatible wrap_module wrap_on (intercepts wrap_module false None ex_id).
Proof.
  constructor.
  - intros fn ns name [<-|[]] EC. discriminate EC.
  - intros fn x [<-|[]] Hx [<-|[]]. vm_compute in Hx. intuition discriminate.
  - intros fn locals code [<-|[]] EC. injection EC as <- <-. split; intros o ma Hi _; simpl in Hi;
      repeat (destruct Hi as [Hi|Hi]; [try discriminate Hi; injection Hi as <- <-; simpl; lia|]); destruct Hi.
  - intros f fn [].
Qed.

(** C09 is violated: a valid module, compatible with the analysis, and a call that traps in the
    original, but returns a value when loads are reported to the forwarding analysis: the exported
    load adds address and offset modulo 2^32. *)
Theorem C09_refuted : exists m infer on m', valid m /\ in_format m /\ annotates infer m /\ provided_ok m ex_imports /\
  compatible m on (intercepts m false None ex_id) /\
  instrument ex_id ex_id infer m (std_ai on false) None = IOk m' None /\
  exists name s s' v,
    run_module ex_num1 ex_num2 (fun _ _ _ => XTrap) 3 ex_imports m tt [(name, [])] = Ok ([None], s) /\
    run_module ex_num1 ex_num2 (forwarding ex_num1 ex_num2 ex_steps (fun _ _ _ => XTrap) None) 17 ex_imports m' (lib_start tt, (tt, tt)) [(name, [])]
    = Ok ([Some [v]], s') /\ v = vi32 67305985.
Proof.
  destruct (instrument ex_id ex_id wrap_infer wrap_module (std_ai wrap_on false) None) as [m' lib| |] eqn:E; [|vm_compute in E; discriminate E..].
  assert (L : lib = None) by (vm_compute in E; injection E as _ <-; reflexivity). subst lib.
  exists wrap_module, wrap_infer, wrap_on, m'.
  split; [exact wrap_valid|]. split; [exact wrap_in_format|]. split; [exact (proj2 (check_funcs_sound _ _ wrap_checked))|].
  split; [constructor; intros ? ? ? H E'; simpl in H; intuition; subst; discriminate|].
  split; [exact wrap_compatible|]. split; [exact E|].
  assert (P : match run_module ex_num1 ex_num2 (fun _ _ _ => XTrap) 3 ex_imports wrap_module tt [("load", [])] with Ok (outs, _) => outs = [None] | _ => False end)
    by (vm_compute; reflexivity).
  assert (Q : match run_module ex_num1 ex_num2 (forwarding ex_num1 ex_num2 ex_steps (fun _ _ _ => XTrap) None) 17 ex_imports m'
                (lib_start tt, (tt, tt)) [("load", [])] with Ok (outs, _) => outs = [Some [vi32 67305985]] | _ => False end).
  { vm_compute in E. injection E as <-. vm_compute. reflexivity. }
  clear E. exists "load".
  destruct (run_module ex_num1 ex_num2 (fun _ _ _ => XTrap) 3 ex_imports wrap_module tt [("load", [])]) as [[outs s]|?| |]; try contradiction.
  destruct (run_module ex_num1 ex_num2 (forwarding _ _ _ _ _) 17 ex_imports m' (lib_start tt, (tt, tt)) [("load", [])]) as [[outs' s']|?| |]; try contradiction.
  subst. exists s, s', (vi32 67305985). repeat split.
Qed.
Print Assumptions C09_refuted.
