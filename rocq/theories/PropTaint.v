(** Property theorems C80-C82: the analysis taint. The system consists of the output module, the buffer library generated
    for it, the compiled analysis and the host. *)
From Coq Require Import Permutation.
From Verif Require Import Semantics Advice RsStdlib StackLib StackRun StackSpec PropStack System Instantiate Trace TraceProofs TraceBalance
  Typing ModuleTyping InstantiateTyping Checker ExModule PropInstrument PropSpec PropTyping ForwardRel ForwardBody ForwardProofs SessionProofs Recorder
  PropTransparent SystemProofs Analyses AnalysesProofs PropAnalyses PropStdlib Guards PropGuards PropDenan Taint.
Local Open Scope string_scope.
Local Open Scope list_scope.
Local Open Scope res_scope.

(** Functions entered, and direct calls returned from. *)
Definition enters (evs : list event) : nat := List.length (filter (fun e => match e with EvEnter _ _ _ => true | _ => false end) evs).
Definition returns (evs : list event) : nat := List.length (filter (fun e => match e with EvAdvice (AdCallPost _ _) => true | _ => false end) evs).

Section Frames.
  Variable room : Z -> bool.
  Notation frames a := (List.length (mi_stack a)).
  Lemma frames_pop_value a : frames (snd (pop_value a)) = frames a.
  Proof. unfold pop_value. destruct (mi_stack a) as [|[[|[|? ?] ?] ?] ?] eqn:E; cbn; rewrite ?E; reflexivity. Qed.
  Lemma frames_push v a : frames (push_value v a) = frames a.
  Proof. unfold push_value. destruct (mi_stack a) as [|[[|? ?] ?] ?] eqn:E; cbn; rewrite ?E; reflexivity. Qed.
  Lemma frames_pop_block a : frames (snd (pop_block a)) = frames a.
  Proof. unfold pop_block. destruct (mi_stack a) as [|[[|? ?] ?] ?] eqn:E; cbn; rewrite ?E; reflexivity. Qed.
  Lemma frames_begin a : frames (begin_block a) = frames a.
  Proof. unfold begin_block. destruct (mi_stack a) as [|[? ?] ?] eqn:E; cbn; rewrite ?E; reflexivity. Qed.
  Lemma frames_end b a : frames (end_block b a) = frames a.
  Proof.
    rewrite <- (frames_pop_block a). unfold end_block. destruct (pop_block a) as [[[|v vs]|] a']; [reflexivity| |reflexivity]. destruct b; reflexivity.
  Qed.
  Lemma frames_locals i v a : frames (locals_set i v a) = frames a.
  Proof. unfold locals_set. destruct (mi_stack a) as [|[? ?] ?] eqn:E; cbn; rewrite ?E; reflexivity. Qed.
  Lemma frames_globals i v a : frames (globals_set i v a) = frames a.
  Proof. destruct v; reflexivity. Qed.
  Lemma frames_args k : forall a, frames (snd (pop_args k a)) = frames a.
  Proof.
    induction k as [|k IH]; intros a; [reflexivity|]. cbn [pop_args]. destruct (pop_value a) as [t a1] eqn:E. specialize (IH a1).
    destruct (pop_args k a1) as [ts a2]. cbn [snd] in *. rewrite IH. pose proof (frames_pop_value a) as H. rewrite E in H. exact H.
  Qed.
  Lemma frames_get i off a p : memory_get room i off a = Some p -> frames (snd p) = frames a.
  Proof. unfold memory_get. destruct (effective i off); [|discriminate]. destruct (extend _ _ _); [|discriminate]. intros E. injection E as <-. reflexivity. Qed.
  Lemma frames_set i v off a a' : memory_set room i v off a = Some a' -> frames a' = frames a.
  Proof. unfold memory_set. destruct (effective i off); [|discriminate]. destruct (extend _ _ _); [|discriminate]. intros E. injection E as <-. reflexivity. Qed.
  Lemma frames_step a e : frames (taint_obs room a e) =
    match e with EvEnter _ _ _ => S (frames a) | EvAdvice (AdCallPost _ _) => pred (frames a) | _ => frames a end.
  Proof.
    destruct e as [adv|f c args|f rs]; cbn [taint_obs]; [|unfold enter_frame; pose proof (frames_args (List.length args) a) as H;
      destruct (pop_args (List.length args) a); cbn [snd] in H; cbn; now rewrite H|reflexivity].
    destruct adv; cbn [taint_step]; rewrite ?frames_push, ?frames_end, ?frames_begin, ?frames_pop_block, ?frames_pop_value; try reflexivity.
    - destruct (mi_return _); cbn [set_return mi_stack]; rewrite ?frames_push; cbn; destruct (mi_stack a); reflexivity.
    - destruct (_ =? 0)%Z; rewrite ?frames_pop_block, ?frames_pop_value; reflexivity.
    - pose proof (frames_pop_value (snd (pop_value a))) as H2. destruct (pop_value (snd (pop_value a))) as [t2 a2]. cbn [snd] in H2.
      pose proof (frames_pop_value a2) as H3. destruct (pop_value a2) as [t1 a3]. cbn [snd] in H3.
      rewrite frames_push. rewrite H3, H2, frames_pop_value. reflexivity.
    - pose proof (frames_pop_value a) as H. destruct (pop_value a) as [t a1]. cbn [snd] in H. now rewrite frames_push.
    - pose proof (frames_pop_value a) as H. destruct (pop_value a) as [t a1]. cbn [snd] in H.
      pose proof (frames_pop_value a1) as H2. destruct (pop_value a1) as [t2 a2]. cbn [snd] in H2. rewrite frames_push. congruence.
    - pose proof (frames_pop_value a) as H. destruct (mi_return a); [|reflexivity]. destruct (mi_stack a) as [|[[|? ?] ?] ?] eqn:Es; rewrite ?Es; try reflexivity.
      destruct (pop_value a) as [t a1]. exact H.
    - destruct o; rewrite ?frames_push; try reflexivity;
        (pose proof (frames_pop_value a) as H; destruct (pop_value a) as [t a1]; cbn [snd] in H; now rewrite frames_locals).
    - destruct o; [unfold globals_get; now rewrite frames_push|].
      pose proof (frames_pop_value a) as H; destruct (pop_value a) as [t a1]; cbn [snd] in H. now rewrite frames_globals.
    - destruct (memory_get room index offset (snd (pop_value a))) as [p|] eqn:E; [|reflexivity]. cbn [option_map].
      rewrite frames_push, (frames_get _ _ _ E). apply frames_pop_value.
    - pose proof (frames_pop_value a) as H. destruct (pop_value a) as [t a1]. cbn [snd] in H.
      destruct (memory_set room index _ offset (snd (pop_value a1))) as [a'|] eqn:E; [|reflexivity].
      rewrite (frames_set _ _ _ _ E), frames_pop_value. exact H.
  Qed.
  Lemma frames_left evs : forall a, frames a + enters evs <= frames (fold_left (taint_obs room) evs a) + returns evs.
  Proof.
    induction evs as [|e evs IH]; intros a; cbn [fold_left]; [unfold enters, returns; cbn; lia|].
    specialize (IH (taint_obs room a e)). rewrite frames_step in IH. unfold enters, returns in *. cbn [filter].
    destruct e as [[]| |]; cbn [List.length] in *; lia.
  Qed.
End Frames.

Section Tainted.
  Context {Y : Type}.
  Variable num1 : unop -> Z -> option Z.
  Variable num2 : binop -> Z -> Z -> option Z.
  Variable N : nat.
  Variable host : string -> string -> list val -> xprog Y.
  Variable I : Y -> Prop.
  Variables ord_i ord_c : list nat -> list nat.
  Variable infer : nat -> list low -> option (list ity).
  Variable m : module.
  Variable only : option (list nat).
  Variable imp : provided.
  Variables n fuel : nat.
  Variable room : Z -> bool.
  Notation sigs lib := (match lib with Some l => l | None => [] end).
  Notation deployment := (deployment N host I ord_i ord_c infer m only imp n fuel every_hook true).
  Notation ran := (ran num1 num2 host I m imp n).
  Notation trace := (module_trace num1 num2 host infer m every_hook true only n imp).
  Notation plain := (run_module num1 num2 host n imp m).
  Notation roomy := (enough_space num1 num2 host infer m every_hook true only imp n).
  Notation bad := (Exists (unmirrored room)).
  (** A session under taint. *)
  Definition under_taint (m' : module) (lib : option (list functy)) (x : Y) calls :=
    run_module num1 num2 (all_agents (Y := Y) (wat_lib num1 num2 (sigs lib) N) (taint_body room num1 num2)
      (taint_apply (wat_lib num1 num2 (sigs lib) N)) host) fuel imp m' (lib_start tt, (mirror_zero, x)) calls.
  Lemma BL (_b : bool) e1 e2 : bad e1 -> bad (e1 ++ e2). Proof. intros H. apply Exists_app. now left. Qed.
  Lemma BR (_b : bool) e1 e2 : bad e2 -> bad (e1 ++ e2). Proof. intros H. apply Exists_app. now right. Qed.

  Lemma taint_state : forall m' lib x calls outs s, deployment m' lib -> ran x calls outs s ->
    ~ bad (trace x calls) -> roomy x calls -> ~ In None outs \/ Forall in_range32 (trace x calls) ->
    exists s', under_taint m' lib x calls = Ok (outs, s') /\ same_program s s' /\ state_of s' = fold_left (taint_obs room) (trace x calls) mirror_zero.
  Proof.
    intros m' lib x calls outs s [Big Pi Pc E V U AN PV HO CO Fu] [Ix T R] NB Ro W.
    assert (Sg : forall l, lib = Some l -> sigs lib = l) by (intros l ->; reflexivity).
    destruct (@guarded_sessions Y mirror (taint_obs room) (fun _ => True) (fun _ => False) (fun _ => bad) (fun _ _ H => H) (fun _ _ H => H) BL BR (fun _ _ _ => Logic.I) (fun _ _ => Logic.I)
      num1 num2 host I ord_i ord_c infer m every_hook true only imp m' (sigs lib) (wat_lib num1 num2 (sigs lib) N) (library (sigs lib)) limit True (@wat_implements num1 num2 (sigs lib) N Big) lib Pi Pc E Sg
      _ _ (@taint_guards room Y num1 num2) (notes_hands_calls (fun _ => False) (@taint_notes_calls room Y _ (sigs lib) _ _ _ (@wat_implements num1 num2 (sigs lib) N Big)))
      V U AN PV HO CO n fuel Fu x (lib_start tt) mirror_zero calls outs s Ix (start_library lib) T R (fun H => NB (halts_const H)) Ro (fun H => H) W) as (s' & l1 & frs & ifs & R' & Ex & _).
    exists s'. split; [exact R'|]. eapply same_program_of; exact Ex.
  Qed.
  (** ** C80: the program is not affected *)
  Theorem C80_transparent : forall m' lib x calls outs s, deployment m' lib -> ran x calls outs s ->
    ~ bad (trace x calls) -> roomy x calls -> ~ In None outs \/ Forall in_range32 (trace x calls) ->
    exists s', under_taint m' lib x calls = Ok (outs, s') /\ same_program s s'.
  Proof.
    intros m' lib x calls outs s D R NB Ro W. destruct (@taint_state m' lib x calls outs s D R NB Ro W) as (s' & R' & Sm & _). eauto.
  Qed.
  (** Whatever the session accesses, and whatever the space for buffers: the same up to a call that traps. *)
  Theorem C80_no_wrong_result : forall m' lib x calls outs s, deployment m' lib -> ran x calls outs s ->
    ~ In None outs \/ Forall in_range32 (trace x calls) ->
    same_until (plain x) (under_taint m' lib x) calls outs (bad (trace x calls) \/ ~ roomy x calls).
  Proof.
    intros m' lib x calls outs s [Big Pi Pc E V U AN PV HO CO Fu] [Ix T R] W.
    assert (Sg : forall l, lib = Some l -> sigs lib = l) by (intros l ->; reflexivity).
    assert (Why : halts (fun _ => bad) (In None outs) (trace x calls) \/ ~ roomy x calls -> bad (trace x calls) \/ ~ roomy x calls).
    { intros [H|H]; [left; exact (halts_const H)|now right]. }
    destruct (@guarded_any Y mirror (taint_obs room) (fun _ => True) (fun _ => False) (fun _ => bad) (fun _ _ H => H) (fun _ _ H => H) BL BR (fun _ _ _ => Logic.I) (fun _ _ => Logic.I)
      num1 num2 host I ord_i ord_c infer m every_hook true only imp m' (sigs lib) (wat_lib num1 num2 (sigs lib) N) (library (sigs lib)) limit True (@wat_implements num1 num2 (sigs lib) N Big) lib Pi Pc E Sg
      _ _ (@taint_guards room Y num1 num2) (notes_hands_calls (fun _ => False) (@taint_notes_calls room Y _ (sigs lib) _ _ _ (@wat_implements num1 num2 (sigs lib) N Big)))
      V U AN PV HO CO n fuel Fu x (lib_start tt) mirror_zero calls outs s Ix (start_library lib) T R (or_introl Logic.I) (fun H => H) W)
      as [(Q & P)|(calls1 & rest & s1 & s' & l1 & P1 & P2 & P3 & P4 & _ & P7)]; [left; split; [exact (Why Q)|exact P]|right].
    exists calls1, rest, s1, s'. split; [exact P1|]. split; [exact P2|]. split; [exact P3|]. split; [eapply same_program_of; exact P4|].
    destruct P7 as [->|(c & rest' & s2 & -> & Q & P7)]; [now left|right]. exists c, rest', s2. split; [reflexivity|]. split; [exact (Why Q)|exact P7].
  Qed.

  (** ** C81: nothing is ever labelled as tainted *)
  Theorem C81_no_taint : forall m' lib x calls outs s, deployment m' lib -> ran x calls outs s ->
    ~ bad (trace x calls) -> roomy x calls -> ~ In None outs \/ Forall in_range32 (trace x calls) ->
    exists s', under_taint m' lib x calls = Ok (outs, s') /\
      let a := state_of s' in
      (forall f b, In f (mi_stack a) -> In b (fr_blocks f) -> ~ In true b) /\
      (forall f, In f (mi_stack a) -> ~ In (Some true) (fr_locals f)) /\
      (forall i, sh_at (mi_memory a) i = false) /\ ~ In true (mi_globals a) /\ mi_return a <> Some true.
  Proof.
    intros m' lib x calls outs s D R NB Ro W. destruct (@taint_state m' lib x calls outs s D R NB Ro W) as (s' & R' & _ & St).
    exists s'. split; [exact R'|]. cbn zeta. rewrite St. destruct (taint_clean room (trace x calls) zero_clean) as (C1 & C2 & C3 & C4).
    split; [|split; [|split; [exact C2|split; [|exact C4]]]].
    - intros f b Hf Hb Ht. rewrite Forall_forall in C1. destruct (C1 f Hf) as (B & _). rewrite Forall_forall in B. specialize (B b Hb).
      rewrite Forall_forall in B. discriminate (B true Ht).
    - intros f Hf Ht. rewrite Forall_forall in C1. destruct (C1 f Hf) as (_ & L). rewrite Forall_forall in L. exact (L _ Ht eq_refl).
    - intros Ht. rewrite Forall_forall in C3. discriminate (C3 true Ht).
  Qed.

  (** ** C82: the mirror's frames are not those of the program; only the return from a direct call removes one *)
  Theorem C82_frames_refuted : forall m' lib x calls outs s, deployment m' lib -> ran x calls outs s ->
    ~ bad (trace x calls) -> roomy x calls -> ~ In None outs \/ Forall in_range32 (trace x calls) ->
    exists s', under_taint m' lib x calls = Ok (outs, s') /\
      enters (trace x calls) <= List.length (mi_stack (state_of s')) + returns (trace x calls).
  Proof.
    intros m' lib x calls outs s D R NB Ro W. destruct (@taint_state m' lib x calls outs s D R NB Ro W) as (s' & R' & _ & St).
    exists s'. split; [exact R'|]. rewrite St. pose proof (frames_left room (trace x calls) mirror_zero) as H. exact H.
  Qed.
End Tainted.
Print Assumptions C80_transparent.
Print Assumptions C80_no_wrong_result.
Print Assumptions C81_no_taint.
Print Assumptions C82_frames_refuted.

(** ** Examples and witnesses *)
Notation calc_deployment := (deployment ex_steps silent (fun _ => True) ex_id ex_id calc_infer calc_module None ex_imports 8 42 every_hook true).
Notation calc_trace calls := (module_trace ex_num1 toy_num2 silent calc_infer calc_module every_hook true None 8 ex_imports tt calls).
Notation calc_roomy := (enough_space ex_num1 toy_num2 silent calc_infer calc_module every_hook true None ex_imports 8 tt).
Notation calc_ran := (ran ex_num1 toy_num2 silent (fun _ => True) calc_module ex_imports 8 tt).
Notation calc_taint room := (under_taint ex_num1 toy_num2 ex_steps silent ex_imports 42 room).
Definition a_megabyte (z : Z) : bool := (z <=? 2 ^ 20)%Z.
Lemma calc_taint_deployed m' lib : instrument ex_id ex_id calc_infer calc_module (std_ai every_hook true) None = IOk m' lib -> calc_deployment m' lib.
Proof.
  intros E. constructor.
  - unfold ex_steps. lia.
  - intros. apply Permutation_refl.
  - intros. apply Permutation_refl.
  - exact E.
  - exact calc_valid.
  - exact calc_in_format.
  - exact (proj2 (check_funcs_sound _ _ calc_checked)).
  - constructor; intros ? ? ? H E'; simpl in H; intuition; subst; discriminate.
  - intros f fn ns name args Nf EC F. do 4 (destruct f as [|f]; [injection Nf as <-; discriminate EC|]). destruct f; discriminate Nf.
  - exact calc_compatible.
  - lia.
Qed.
Lemma calc_mirrored calls : forallb (fun e => match e with
    | EvAdvice (AdLoad i off _ _) | EvAdvice (AdStore i _ off _ _) => (i <? 2 ^ 31)%Z && a_megabyte (i + off + 1)
    | _ => true end) (calc_trace calls) = true -> ~ Exists (unmirrored a_megabyte) (calc_trace calls).
Proof.
  intros H E. apply Exists_exists in E as (e & He & U). rewrite forallb_forall in H. specialize (H e He).
  destruct e as [[]| |]; try contradiction U; cbn [unmirrored] in U; apply andb_prop in H as (H1 & H2); apply Z.ltb_lt in H1; destruct U as [U|U]; try lia; congruence.
Qed.
Lemma calc_space calls z : ex_peak calc_module (calc_trace calls) = z -> (z <= limit)%Z -> calc_roomy calls.
Proof. intros P L b a E. pose proof (peak_ok calc_module _ _ E) as H. rewrite P in H. lia. Qed.
Lemma plain_returned : ~ In None plain_outs. Proof. intros H. repeat (destruct H as [H|H]; [discriminate H|]). exact H. Qed.
Lemma calc_plain : exists s, calc_ran plain_calls plain_outs s.
Proof.
  assert (H : outs_of (run_module ex_num1 toy_num2 silent 8 ex_imports calc_module tt plain_calls) = Some plain_outs) by (vm_compute; reflexivity).
  apply outs_of_ok in H as (s & H). exists s. constructor; [exact Logic.I|typed|exact H].
Qed.
(** C80-C82: a division, an inverse (which calls the division), a store and a load. Four frames are left, though no
    function is running; the inverse's result has no label, for the return from the division has removed the block it
    belongs to; and the label of the inverse's argument is that of the first division's result. *)
Definition left_over : list frame := [Fr [[false]] [None]; Fr [[]] [None; None]; Fr [] [Some false]; Fr [[]] [None; None]].
Theorem C82_values_refuted : exists m' lib s s', calc_deployment m' lib /\ calc_ran plain_calls plain_outs s /\
  ~ Exists (unmirrored a_megabyte) (calc_trace plain_calls) /\ calc_roomy plain_calls /\ ~ In None plain_outs /\
  calc_taint a_megabyte m' lib tt plain_calls = Ok (plain_outs, s') /\
  enters (calc_trace plain_calls) = 5 /\ returns (calc_trace plain_calls) = 1 /\
  mi_stack (state_of s') = left_over /\ sh_len (mi_memory (state_of s')) = 13%Z.
Proof.
  destruct (instrument ex_id ex_id calc_infer calc_module (std_ai every_hook true) None) as [m' lib| |] eqn:E; [|vm_compute in E; discriminate E..].
  destruct calc_plain as (s & R).
  assert (NB : ~ Exists (unmirrored a_megabyte) (calc_trace plain_calls)) by (apply calc_mirrored; vm_compute; reflexivity).
  assert (Sp : calc_roomy plain_calls) by (apply (@calc_space plain_calls 60); [vm_compute; reflexivity|unfold limit; lia]).
  destruct (@taint_state _ _ _ _ _ _ _ _ _ _ _ _ _ _ a_megabyte m' lib _ _ _ _ (calc_taint_deployed E) R NB Sp (or_introl plain_returned)) as (s' & R' & _ & St).
  exists m', lib, s, s'. split; [exact (calc_taint_deployed E)|]. split; [exact R|]. split; [exact NB|]. split; [exact Sp|]. split; [exact plain_returned|].
  split; [exact R'|]. split; [vm_compute; reflexivity|]. split; [vm_compute; reflexivity|]. rewrite St. split; vm_compute; reflexivity.
Qed.
Print Assumptions C82_values_refuted.
(** C80: an access far out does not fit in the labels; the program without the analysis runs on, with it the call traps. *)
Definition tight (z : Z) : bool := (z <=? 12)%Z.
Example ex_taint_stops : exists m' lib s s', calc_deployment m' lib /\ calc_ran plain_calls plain_outs s /\
  Exists (unmirrored tight) (calc_trace plain_calls) /\
  calc_taint tight m' lib tt plain_calls = Ok ([Some [f32 one]; Some [f32 one]; None; None], s').
Proof.
  destruct (instrument ex_id ex_id calc_infer calc_module (std_ai every_hook true) None) as [m' lib| |] eqn:E; [|vm_compute in E; discriminate E..].
  destruct calc_plain as (s & R).
  assert (H : outs_of (calc_taint tight m' lib tt plain_calls) = Some [Some [f32 one]; Some [f32 one]; None; None]).
  { pose proof E as E'. vm_compute in E'. injection E' as <- <-. vm_compute. reflexivity. }
  apply outs_of_ok in H as (s' & H).
  exists m', lib, s, s'. split; [exact (calc_taint_deployed E)|]. split; [exact R|]. split; [|exact H].
  apply Exists_exists. exists (EvAdvice (AdStore 8 (f32 one) 4 F32Store (Loc 2 2))). split; [vm_compute; auto 30|]. right. reflexivity.
Qed.
