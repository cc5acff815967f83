(** Property theorems C77-C79: the locations an analysis is told, and the analysis memory-tracing. The system
    consists of the output module, the buffer library generated for it, the compiled analysis and the host. *)
From Coq Require Import Permutation.
From Verif Require Import Semantics Advice RsStdlib StackLib StackRun StackSpec PropStack System Instantiate Trace TraceProofs TraceBalance TraceLocs
  Typing ModuleTyping InstantiateTyping Checker ExModule PropInstrument PropSpec PropTyping ForwardRel ForwardBody ForwardProofs SessionProofs Recorder
  PropTransparent SystemProofs Analyses AnalysesProofs PropAnalyses PropStdlib Guards PropGuards Tracing.
Local Open Scope string_scope.
Local Open Scope list_scope.
Local Open Scope res_scope.

Lemma nth_skipped {A} k : forall (l : list A) i, nth_error (skipn k l) i = nth_error l (k + i).
Proof. induction k as [|k IH]; intros [|x l] i; try reflexivity; [destruct i; reflexivity|apply IH]. Qed.

Section Traced.
  Context {Y : Type}.
  Variable num1 : unop -> Z -> option Z.
  Variable num2 : binop -> Z -> Z -> option Z.
  Variable N : nat.
  Variable host : string -> string -> list val -> xprog Y.
  Variable I : Y -> Prop.
  Variables ord_i ord_c : list nat -> list nat.
  Variable infer : nat -> list low -> option (list ity).
  Variable m : module.
  Variable only : option (list nat).
  Variable imp : provided.
  Variables n fuel : nat.
  Notation sigs lib := (match lib with Some l => l | None => [] end).
  Notation deployment := (deployment N host I ord_i ord_c infer m only imp n fuel).
  Notation ran := (ran num1 num2 host I m imp n).
  Notation trace on := (module_trace num1 num2 host infer m on false only n imp).
  Notation plain := (run_module num1 num2 host n imp m).

  (** ** C77: whatever an analysis is told is about the instruction at the place it is told *)
  Theorem C77_places : forall on generic m' lib x calls outs s, deployment on generic m' lib -> ran x calls outs s ->
    ~ In None outs \/ Forall in_range32 (module_trace num1 num2 host infer m on generic only n imp x calls) ->
    enough_space num1 num2 host infer m on generic only imp n x calls ->
    exists s', run_module num1 num2 (recording num1 num2 N host lib (fun log e => log ++ [e])) fuel imp m' (lib_start tt, ([], x)) calls = Ok (outs, s') /\
      forall a, In (EvAdvice a) (fst (snd (st_x s'))) ->
        exists f p fn locals body i, advice_location a = Loc (Z.of_nat f) (Z.of_nat p) /\
          nth_error (md_funcs m) f = Some fn /\ fn_code fn = FPresent locals body /\ nth_error body p = Some i /\
          about i a /\ selected m only f = true.
  Proof.
    intros on generic m' lib x calls outs s [Big Pi Pc E V U AN PV HO CO Fu] [Ix T R] W Ro.
    destruct (@C10_log Y num1 num2 N Big host I ord_i ord_c infer m on generic only imp m' lib Pi Pc E V U AN PV HO CO n fuel Fu x calls outs s Ix T R W Ro) as (s' & R' & L).
    exists s'. split; [exact R'|]. rewrite L. intros a Hi.
    pose proof (module_placed num1 num2 host infer m on generic only n imp x calls) as P. rewrite Forall_forall in P. exact (P _ Hi).
  Qed.

  (** ** C78: memory-tracing *)
  Definition tracing_run (m' : module) (lib : option (list functy)) (x : Y) calls :=
    guarded num1 num2 N host imp fuel tracing_obs (tracing_body num1 num2) m' lib tracing_zero x calls.
  Lemma its_sigs (lib : option (list functy)) l : lib = Some l -> sigs lib = l. Proof. intros ->. reflexivity. Qed.
  Lemma tracing_blind : blind tracing_obs. Proof. intros a. split; reflexivity. Qed.
  (** After a session in which no call traps: all accesses are counted, the last million of them are in the
      buffer, in order, and the program has run as without the analysis. *)
  Theorem C78_trace : forall m' lib x calls outs s, deployment access_hooks false m' lib -> ran x calls outs s -> ~ In None outs ->
    let all := accesses_of (trace access_hooks x calls) in
    let total := Z.of_nat (List.length all) in
    let kept := Z.min total 1000000 in
    exists s', tracing_run m' lib x calls = Ok (outs, s') /\ same_program s s' /\
      total_accesses (state_of s') = wrapS 64 total /\
      get_total_accesses_from_buffer (state_of s') = Some kept /\
      (forall k, (0 <= k < kept)%Z -> get_nth_access (state_of s') k = nth_error all (Z.to_nat (total - kept + k))) /\
      (forall k, (kept <= k < 2 ^ 32)%Z -> get_nth_access (state_of s') k = None).
  Proof.
    intros m' lib x calls outs s [Big Pi Pc E V U AN PV HO CO Fu] [Ix T R] NN all total kept.
    assert (NT : ~ halts unnoted (In None outs) (trace access_hooks x calls)).
    { intros [H|[H _]]; [|exact (NN H)]. exact (never_distant num1 num2 host infer access_hooks false only n imp x calls U H). }
    destruct (@guarded_sessions Y tracing tracing_obs (fun _ => True) (fun _ => False) unnoted (fun _ _ H => H) (fun _ _ H => H) unnoted_left unnoted_right (fun _ _ _ => Logic.I) (fun _ _ => Logic.I)
      num1 num2 host I ord_i ord_c infer m access_hooks false only imp m' (sigs lib) (wat_lib num1 num2 (sigs lib) N) (library (sigs lib)) limit True (@wat_implements num1 num2 (sigs lib) N Big) lib Pi Pc E (@its_sigs lib)
      (tracing_body num1 num2) (tally_apply tracing_obs) (@tracing_guards Y num1 num2) (notes_hands_calls (fun _ => False) (@tally_notes_calls Y tracing tracing_obs (library (sigs lib)) tracing_blind)) V U AN PV HO CO n fuel Fu x (lib_start tt) tracing_zero
      calls outs s Ix (start_library lib) T R NT (@no_buffers Y num1 num2 host I infer m only imp n access_hooks x calls) (fun H => H) (or_introl NN)) as (s' & l1 & frs & ifs & R' & Ex & _).
    exists s'. split; [exact R'|]. destruct (same_program_of Ex) as (Sm & St). split; [exact Sm|].
    fold (state_of s') in St. rewrite traced_all in St. fold all in St. rewrite St. clear St Sm Ex R' NT.
    assert (C : Z.of_nat (Z.to_nat ring_capacity) = 1000000%Z) by (rewrite Z2Nat.id; [reflexivity|discriminate]).
    unfold total_accesses, get_total_accesses_from_buffer, get_nth_access. cbn [tr_accesses tr_count].
    revert C. generalize (Z.to_nat ring_capacity). intros c C.
    assert (L : Z.of_nat (List.length (skipn (List.length all - c) all)) = kept) by (rewrite skipn_length; unfold kept, total; lia).
    split; [reflexivity|]. rewrite L. split; [rewrite (proj2 (Z.ltb_lt _ _)) by (unfold kept; lia); reflexivity|].
    split; intros k Rk; unfold signed; change (2 ^ (32 - 1))%Z with (2 ^ 31)%Z.
    - rewrite (proj2 (Z.ltb_lt k _)) by (unfold kept in Rk; lia). rewrite (proj2 (Z.ltb_ge k 0)) by lia.
      rewrite nth_skipped. f_equal. unfold kept, total in *. lia.
    - destruct (Z.ltb_spec k (2 ^ 31)) as [H|H].
      + rewrite (proj2 (Z.ltb_ge k 0)) by (unfold kept, total in *; lia). apply nth_error_None. unfold kept, total in *. lia.
      + rewrite (proj2 (Z.ltb_lt _ 0)) by lia. reflexivity.
  Qed.
  (** The exported getters tell of each access kept where it was made, at which address, and whether it was a store (1) or a load (0). *)
  Theorem C78_getters : forall m' lib x calls outs s, deployment access_hooks false m' lib -> ran x calls outs s -> ~ In None outs ->
    let all := accesses_of (trace access_hooks x calls) in
    let total := Z.of_nat (List.length all) in
    let kept := Z.min total 1000000 in
    exists s', tracing_run m' lib x calls = Ok (outs, s') /\
      forall k, (0 <= k < kept)%Z -> exists a, nth_error all (Z.to_nat (total - kept + k)) = Some a /\
        get_nth_funct_index (state_of s') k = Some (ac_funct a) /\ get_nth_instr_index (state_of s') k = Some (ac_instr a) /\
        get_nth_address (state_of s') k = Some (ac_address a) /\
        get_nth_operation (state_of s') k = Some (if ac_write a then 1 else 0)%Z.
  Proof.
    intros m' lib x calls outs s D R NN all total kept. destruct (@C78_trace m' lib x calls outs s D R NN) as (s' & R' & _ & _ & _ & In1 & _).
    fold all in In1. fold total in In1. fold kept in In1.
    exists s'. split; [exact R'|]. intros k Rk. specialize (In1 k Rk).
    unfold get_nth_funct_index, get_nth_instr_index, get_nth_address, get_nth_operation. rewrite In1.
    destruct (nth_error all (Z.to_nat (total - kept + k))) as [a|] eqn:Ea.
    - exists a. cbn [option_map]. repeat split.
    - exfalso. apply nth_error_None in Ea. unfold total in *. lia.
  Qed.
  (** Sessions in which calls trap go the same way at least up to a call that traps. *)
  Theorem C78_no_wrong_result : forall m' lib x calls outs s, deployment access_hooks false m' lib -> ran x calls outs s ->
    Forall in_range32 (trace access_hooks x calls) ->
    same_until (plain x) (tracing_run m' lib x) calls outs (In None outs).
  Proof.
    intros m' lib x calls outs s [Big Pi Pc E V U AN PV HO CO Fu] [Ix T R] W.
    assert (Why : halts unnoted (In None outs) (trace access_hooks x calls) \/ ~ fits limit m 0 (trace access_hooks x calls) -> In None outs).
    { intros [[H|[H _]]|H]; [|exact H|].
      - exfalso. exact (never_distant num1 num2 host infer access_hooks false only n imp x calls U H).
      - exfalso. exact (H (@no_buffers Y num1 num2 host I infer m only imp n access_hooks x calls)). }
    destruct (@guarded_any Y tracing tracing_obs (fun _ => True) (fun _ => False) unnoted (fun _ _ H => H) (fun _ _ H => H) unnoted_left unnoted_right (fun _ _ _ => Logic.I) (fun _ _ => Logic.I)
      num1 num2 host I ord_i ord_c infer m access_hooks false only imp m' (sigs lib) (wat_lib num1 num2 (sigs lib) N) (library (sigs lib)) limit True (@wat_implements num1 num2 (sigs lib) N Big) lib Pi Pc E (@its_sigs lib)
      (tracing_body num1 num2) (tally_apply tracing_obs) (@tracing_guards Y num1 num2) (notes_hands_calls (fun _ => False) (@tally_notes_calls Y tracing tracing_obs (library (sigs lib)) tracing_blind)) V U AN PV HO CO n fuel Fu x (lib_start tt) tracing_zero
      calls outs s Ix (start_library lib) T R (or_introl Logic.I) (fun H => H) (or_intror W)) as [(Q & P)|(calls1 & rest & s1 & s' & l1 & P1 & P2 & P3 & P4 & _ & P7)].
    - left. split; [exact (Why Q)|exact P].
    - right. exists calls1, rest, s1, s'. split; [exact P1|]. split; [exact P2|]. split; [exact P3|].
      split; [eapply same_program_of; exact P4|]. destruct P7 as [P7|(c & rest' & s2 & P7 & Q & P8)]; [now left|right].
      exists c, rest', s2. split; [exact P7|]. split; [exact (Why Q)|exact P8].
  Qed.

  (** ** C79: the names of the indices are exchanged *)
  Theorem C79_indices_refuted : forall m' lib x calls outs s, deployment access_hooks false m' lib -> ran x calls outs s -> ~ In None outs ->
    exists s', tracing_run m' lib x calls = Ok (outs, s') /\
      forall k, (0 <= k < 2 ^ 31)%Z -> get_nth_access (state_of s') k <> None ->
        exists f p fn locals body o ma o' ma', nth_error (md_funcs m) f = Some fn /\ fn_code fn = FPresent locals body /\
          get_nth_funct_index (state_of s') k = Some (Z.of_nat p) /\ get_nth_instr_index (state_of s') k = Some (Z.of_nat f) /\
          (get_nth_operation (state_of s') k = Some 0%Z /\ nth_error body p = Some (LBasic (BLoad o ma)) \/
           get_nth_operation (state_of s') k = Some 1%Z /\ nth_error body p = Some (LBasic (BStore o' ma'))).
  Proof.
    intros m' lib x calls outs s D R NN. destruct (@C78_trace m' lib x calls outs s D R NN) as (s' & R' & _ & _ & _ & In1 & Out).
    exists s'. split; [exact R'|]. intros k Rk G.
    set (all := accesses_of _) in *. set (kept := Z.min _ _) in *.
    destruct (Z.lt_ge_cases k kept) as [K|K]; [|exfalso; apply G, Out; lia].
    specialize (In1 k (conj (proj1 Rk) K)). destruct (nth_error all _) as [a|] eqn:Ea; [|congruence].
    unfold get_nth_funct_index, get_nth_instr_index, get_nth_operation. rewrite In1. cbn [option_map].
    apply nth_error_In in Ea. unfold all, accesses_of in Ea. apply in_flat_map in Ea as (e & He & Ha).
    pose proof (module_placed num1 num2 host infer m access_hooks false only n imp x calls) as P. rewrite Forall_forall in P. specialize (P _ He).
    destruct e as [adv| |]; try contradiction. cbn [placed_event] in P. destruct P as (f & p & fn & locals & body & i & El & E1 & E2 & E3 & Ab & _).
    destruct adv; try contradiction; cbn [access_of] in Ha; destruct Ha as [<-|[]]; cbn [advice_location] in El; subst l; destruct Ab as (ma & -> & _);
      cbn [ac_funct ac_instr ac_write function_index instruction_index].
    - exists f, p, fn, locals, body, o, ma, I32Store, ma. repeat split; auto.
    - exists f, p, fn, locals, body, I32Load, ma, o, ma. repeat split; auto.
  Qed.
End Traced.
Print Assumptions C77_places.
Print Assumptions C78_trace.
Print Assumptions C78_getters.
Print Assumptions C78_no_wrong_result.
Print Assumptions C79_indices_refuted.

(** ** Examples and witnesses *)
Definition roam_module : module :=
  Mod [Fn ex_i32_1 (FPresent [] [LBasic (BLocal LGet 0); LBasic (BMemoryGrow 0); LEnd]) ["grow"];
       Fn (FT [t_i32; t_i32] []) (FPresent [] [LBasic (BLocal LGet 0); LBasic (BLocal LGet 1); LBasic (BStore I32Store (MA 2 4)); LEnd]) ["put"];
       Fn ex_i32_1 (FPresent [] [LBasic (BLocal LGet 0); LBasic (BLoad I32Load (MA 2 0)); LEnd]) ["word"]]
      [] [Mem 1 None None ["memory"]] [] [] [Data [1; 2; 3; 4; 5; 6; 7; 8]%Z (Some [LBasic (BConst TI32 8); LEnd])] None.
Definition roam_infer (_ : nat) (l : list low) : option (list ity) :=
  Some (map (fun i => match i with
    | LBasic (BLocal LGet _) => IReach (FT [] [t_i32])
    | LBasic (BLoad _ _) | LBasic (BMemoryGrow _) => IReach (FT [t_i32] [t_i32])
    | LBasic (BStore _ _) => IReach (FT [t_i32; t_i32] [])
    | _ => IReach (FT [] []) end) l).
Lemma roam_checked : check_funcs roam_module roam_infer = true. Proof. reflexivity. Qed.
Lemma roam_valid : valid roam_module.
Proof.
  constructor; simpl.
  - exact (proj1 (check_funcs_sound _ _ roam_checked)).
  - constructor.
  - split; [constructor; [unfold mem_limits; simpl; lia|constructor]|lia].
  - intros [|i] g E; discriminate E.
  - constructor.
  - repeat (constructor; simpl; try discriminate).
  - exact Logic.I.
  - repeat constructor; simpl; intuition discriminate.
Qed.
Lemma roam_in_format : in_format roam_module.
Proof. unfold in_format, u32. simpl. split; [lia|]. repeat split; repeat (constructor; simpl); unfold u32; simpl; try lia. Qed.
Lemma roam_compatible : compatible roam_module every_hook (intercepts roam_module false None ex_id).
Proof.
  constructor.
  - intros fn ns name Hf EC. simpl in Hf. repeat destruct Hf as [<-|Hf]; try discriminate EC; destruct Hf.
  - intros fn x Hf Hx Hi. simpl in Hf. repeat destruct Hf as [<-|Hf]; try destruct Hf; simpl in Hi;
      repeat destruct Hi as [<-|Hi]; try destruct Hi; vm_compute in Hx; intuition discriminate.
  - intros fn locals code Hf EC. simpl in Hf. repeat destruct Hf as [<-|Hf]; try discriminate EC; try destruct Hf;
      injection EC as <- <-; split; intros o ma Hi _; simpl in Hi; repeat (destruct Hi as [Hi|Hi]; [try discriminate Hi; injection Hi as <- <-; simpl; lia|]); destruct Hi.
  - intros f fn [].
Qed.
Notation roam_deployment := (deployment ex_steps silent (fun _ => True) ex_id ex_id roam_infer roam_module None ex_imports 8 42).
Notation roam_trace on calls := (module_trace ex_num1 ex_num2 silent roam_infer roam_module on false None 8 ex_imports tt calls).
Notation roam_ran := (ran ex_num1 ex_num2 silent (fun _ => True) roam_module ex_imports 8 tt).
Notation roam_traced := (tracing_run ex_num1 ex_num2 ex_steps silent ex_imports 42).
Lemma roam_deployed on m' : instrument ex_id ex_id roam_infer roam_module (std_ai on false) None = IOk m' None -> roam_deployment on false m' None.
Proof.
  intros E. constructor.
  - unfold ex_steps. lia.
  - intros. apply Permutation_refl.
  - intros. apply Permutation_refl.
  - exact E.
  - exact roam_valid.
  - exact roam_in_format.
  - exact (proj2 (check_funcs_sound _ _ roam_checked)).
  - constructor; intros ? ? ? H E'; simpl in H; intuition; subst; discriminate.
  - intros f fn ns name args Nf EC F. do 3 (destruct f as [|f]; [injection Nf as <-; discriminate EC|]). destruct f; discriminate Nf.
  - apply compatible_less with (on := every_hook); [reflexivity|exact roam_compatible].
  - lia.
Qed.
Lemma roam_runs calls outs : Forall (fun c => exists ft, plain_xty roam_module (fst c) = Some ft /\ Forall2 (val_ok 3) (snd c) (ft_in ft)) calls ->
  outs_of (run_module ex_num1 ex_num2 silent 8 ex_imports roam_module tt calls) = Some outs -> exists s, roam_ran calls outs s.
Proof. intros T H. apply outs_of_ok in H as (s & H). exists s. constructor; [exact Logic.I|exact T|exact H]. Qed.
Ltac roam_output on m' E :=
  destruct (instrument ex_id ex_id roam_infer roam_module (std_ai on false) None) as [m' lib| |] eqn:E; [|vm_compute in E; discriminate E..];
  assert (lib = None) by (vm_compute in E; injection E as _ <-; reflexivity); subst lib.

(** C78: two loads and a store. *)
Definition roam_calls : list (string * list val) := [("word", [vi32 8]); ("put", [vi32 16; vi32 5]); ("word", [vi32 20])].
Definition roam_outs : list (option (list val)) := [Some [vi32 67305985]; Some []; Some [vi32 5]].
Lemma roam_returned : ~ In None roam_outs. Proof. intros H. repeat (destruct H as [H|H]; [discriminate H|]). exact H. Qed.
Example ex_tracing : exists m' s s', roam_deployment access_hooks false m' None /\ roam_ran roam_calls roam_outs s /\ ~ In None roam_outs /\
  roam_traced m' None tt roam_calls = Ok (roam_outs, s') /\ total_accesses (state_of s') = 3%Z /\
  get_nth_address (state_of s') 0 = Some 8%Z /\ get_nth_operation (state_of s') 0 = Some 0%Z /\
  get_nth_address (state_of s') 1 = Some 20%Z /\ get_nth_operation (state_of s') 1 = Some 1%Z /\
  get_nth_address (state_of s') 2 = Some 20%Z /\ get_nth_access (state_of s') 3 = None.
Proof.
  roam_output access_hooks m' E.
  destruct (@roam_runs roam_calls roam_outs) as (s & R); [typed|vm_compute; reflexivity|].
  destruct (@C78_trace _ _ _ _ _ _ _ _ _ _ _ _ _ _ m' None _ _ _ _ (roam_deployed _ E) R roam_returned) as (s' & R' & _ & C & _ & In1 & Out).
  assert (Al : accesses_of (roam_trace access_hooks roam_calls) = [Acc 1 2 8 false; Acc 2 1 20 true; Acc 1 2 20 false]) by (vm_compute; reflexivity).
  rewrite Al in *. exists m', s, s'. split; [exact (roam_deployed _ E)|]. split; [exact R|]. split; [exact roam_returned|]. split; [exact R'|].
  unfold get_nth_address, get_nth_operation. rewrite C, !In1, Out by (vm_compute; (split; congruence) || (split; [discriminate|reflexivity])).
  repeat split.
Qed.
(** C77: the same session with all hooks, logged. *)
Example ex_places : exists m' s s', roam_deployment every_hook false m' None /\ roam_ran roam_calls roam_outs s /\
  run_module ex_num1 ex_num2 (recording ex_num1 ex_num2 ex_steps silent None (fun log e => log ++ [e])) 42 ex_imports m' (lib_start tt, ([], tt)) roam_calls = Ok (roam_outs, s') /\
  List.length (fst (snd (st_x s'))) = 7 /\
  In (EvAdvice (AdStore 16 (vi32 5) 4 I32Store (Loc 1 2))) (fst (snd (st_x s'))) /\
  option_map (fun fn => match fn_code fn with FPresent _ body => nth_error body 2 | _ => None end) (nth_error (md_funcs roam_module) 1)
    = Some (Some (LBasic (BStore I32Store (MA 2 4)))).
Proof.
  roam_output every_hook m' E.
  destruct (@roam_runs roam_calls roam_outs) as (s & R); [typed|vm_compute; reflexivity|]. pose proof (roam_deployed _ E) as D. pose proof R as R0.
  destruct D as [Big Pi Pc _ V U AN PV HO CO Fu]. destruct R as [Ix T R].
  destruct (@C10_log unit ex_num1 ex_num2 ex_steps Big silent (fun _ => True) ex_id ex_id roam_infer roam_module every_hook false None ex_imports m' None Pi Pc E V U AN PV HO CO 8 42 Fu tt roam_calls roam_outs s Ix T R (or_introl roam_returned)) as (s' & R' & L).
  { exact (@no_buffers unit ex_num1 ex_num2 silent (fun _ => True) roam_infer roam_module None ex_imports 8 every_hook tt roam_calls). }
  exists m', s, s'. split; [exact (roam_deployed _ E)|]. split; [exact R0|]. split; [exact R'|]. rewrite L.
  split; [vm_compute; reflexivity|]. split; [vm_compute; auto 20|reflexivity].
Qed.

(** C79: an access in the upper half of a large memory is noted with a negative address. *)
Definition far_calls : list (string * list val) := [("grow", [vi32 32769]); ("word", [vi32 2147483648])].
Theorem C79_negative_refuted : exists m' s s', roam_deployment access_hooks false m' None /\
  roam_ran far_calls [Some [vi32 1]; Some [vi32 0]] s /\
  (exists l, In (EvAdvice (AdLoad 2147483648 0 I32Load l)) (roam_trace access_hooks far_calls)) /\
  roam_traced m' None tt far_calls = Ok ([Some [vi32 1]; Some [vi32 0]], s') /\
  total_accesses (state_of s') = 1%Z /\ get_nth_address (state_of s') 0 = Some (-2147483648)%Z.
Proof.
  roam_output access_hooks m' E.
  destruct (@roam_runs far_calls [Some [vi32 1]; Some [vi32 0]]) as (s & R); [typed|vm_compute; reflexivity|].
  assert (NN : ~ In None [Some [vi32 1]; Some [vi32 0]]) by (intros [H|[H|[]]]; discriminate H).
  destruct (@C78_trace _ _ _ _ _ _ _ _ _ _ _ _ _ _ m' None _ _ _ _ (roam_deployed _ E) R NN) as (s' & R' & _ & C & _ & In1 & Out).
  assert (Al : accesses_of (roam_trace access_hooks far_calls) = [Acc 1 2 (-2147483648) false]) by (vm_compute; reflexivity).
  rewrite Al in *. exists m', s, s'. split; [exact (roam_deployed _ E)|]. split; [exact R|]. split; [eexists; vm_compute; auto|]. split; [exact R'|].
  unfold get_nth_address. rewrite C, !In1 by (vm_compute; (split; congruence) || (split; [discriminate|reflexivity])). split; reflexivity.
Qed.
(** ... and an access that traps is not noted at all. *)
Definition lost_calls : list (string * list val) := [("word", [vi32 65536])].
Theorem C79_trapping_refuted : exists m' s s', roam_deployment access_hooks false m' None /\
  roam_ran lost_calls [None] s /\
  List.length (accesses_of (roam_trace access_hooks lost_calls)) = 1 /\
  roam_traced m' None tt lost_calls = Ok ([None], s') /\ total_accesses (state_of s') = 0%Z.
Proof.
  roam_output access_hooks m' E.
  destruct (@roam_runs lost_calls [None]) as (s & R); [typed|vm_compute; reflexivity|].
  assert (H : match roam_traced m' None tt lost_calls with Ok (outs, s') => outs = [None] /\ total_accesses (state_of s') = 0%Z | _ => False end).
  { pose proof E as E'. vm_compute in E'. injection E' as <-. vm_compute. split; reflexivity. }
  destruct (roam_traced m' None tt lost_calls) as [[outs s']|?| |] eqn:Er; try contradiction. destruct H as [-> H].
  exists m', s, s'. split; [exact (roam_deployed _ E)|]. split; [exact R|]. split; [vm_compute; reflexivity|]. split; [exact Er|exact H].
Qed.
Print Assumptions C79_negative_refuted.
Print Assumptions C79_trapping_refuted.
