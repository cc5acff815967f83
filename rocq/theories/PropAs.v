(** Property theorems C66 to C68: the call-buffer library that is generated as AssemblyScript source.
    The AssemblyScript compiler is not part of the model: the source is given a meaning in AsLib.v. *)
From Coq Require Import Permutation.
From Verif Require Import Semantics Advice RsStdlib StackLib StackRun StackOps StackHist StackSpec PropStack System SystemProofs Instantiate Trace TraceProofs
  Typing ModuleTyping InstantiateTyping Checker ExModule InstrumentProofs PropInstrument PropSpec PropTyping ForwardRel ForwardProofs SessionProofs Recorder
  Memo MemoProofs MemoSession PropMemo PropTransparent RustRun RustProofs PropRust AsLib AsNames AsRun AsTypes AsProofs.
Local Open Scope string_scope.
Local Open Scope list_scope.

(** ** C66: the source compiles, and exports what instrumented modules and analyses import *)
(** It compiles exactly if no signature has reference types (and slot numbers are within [usize]). *)
Theorem C66_compiles : forall sigs, as_compiles (as_lib sigs) = true <->
  forall ft t, In ft sigs -> (Z.of_nat (List.length (ft_in ft) + List.length (ft_out ft)) < 2 ^ 32)%Z /\
    (In t (ft_in ft ++ ft_out ft) -> exists n, t = TNum n).
Proof.
  intros sigs. rewrite as_lib_compiles, Forall_forall. split.
  - intros H ft t Hft. destruct (H ft Hft) as [N S]. unfold slots in S. split; [lia|]. intros It. destruct (num_sig _ N) as [No Ni].
    apply in_app_or in It as [It|It]; apply In_nth_error in It; destruct It as (i & E); [exact (@num_nth _ _ _ Ni E)|exact (@num_nth _ _ _ No E)].
  - intros H ft Hft. split; [|unfold slots; destruct (H ft t_i32 Hft); lia].
    assert (K : forall l, incl l (ft_in ft ++ ft_out ft) -> existsb is_ref l = false).
    { intros l Inc. destruct (existsb is_ref l) eqn:X; [|reflexivity]. apply existsb_exists in X. destruct X as (t & It & Rt).
      destruct (proj2 (H ft t Hft) (Inc t It)) as (n & ->). discriminate Rt. }
    unfold numeric_sig. rewrite (K (ft_in ft)), (K (ft_out ft)); [reflexivity|apply incl_appr, incl_refl|apply incl_appl, incl_refl].
Qed.
Print Assumptions C66_compiles.
(** If it does, every import of the output module from the buffer library is there, with the right type. *)
Theorem C66_exports : forall sigs ft o, as_compiles (as_lib sigs) = true -> In ft sigs -> In o (sig_ops ft) ->
  as_export_type (as_lib sigs) (op_name ft o) = Some (libop_type ft o).
Proof.
  intros sigs ft o C Hft Ho. apply as_lib_compiles in C. rewrite Forall_forall in C. destruct (C ft Hft) as [Nm Sm].
  exact (@as_export_op sigs ft Hft Nm Sm o Ho).
Qed.
Print Assumptions C66_exports.
(** And the accessors of the analysis. *)
Theorem C66_accessors : forall sigs,
  (forall t, as_export_type (as_lib sigs) (stack_load_name t) = Some (FT [t_i32; t_i32] [TNum t])) /\
  (forall t, as_export_type (as_lib sigs) (stack_store_name t) = Some (FT [t_i32; TNum t; t_i32] [])) /\
  as_export_type (as_lib sigs) "wastrumentation_stack_load_type" = Some (FT [t_i32; t_i32] [t_i32]).
Proof. intros sigs. split; [|split]; [intros t; apply as_accessors..|apply as_type_accessor]. Qed.
Print Assumptions C66_accessors.
(** Two signatures with the same counts share the functions per count; one with a reference does not compile. *)
Example ex_c66 :
  let a := FT [TNum TI32; TNum TF64] [TNum TI64] in let b := FT [TNum TF32; TNum TF32] [TNum TF32] in
  as_compiles (as_lib [a; b; a; FT [] []]) = true /\ List.length (as_lib [a; b]) = 33 /\
  as_export_type (as_lib [a; b]) (op_name b (LStore SArg 1)) = Some (FT [t_i32; TNum TF32] []) /\
  as_compiles (as_lib [a; FT [TRef FuncRef] []]) = false.
Proof. vm_compute. repeat split. Qed.

(** ** C67: the library behaves as a stack of separate frames *)
(** A memory of [p0] pages that can grow to [mx]; the steps per call suffice for the loop that asks for pages. *)
Section Histories.
  Variables p0 mx : Z.
  Hypothesis Pages : (0 <= p0 <= mx /\ mx <= 65536)%Z.
  Variable f : Z -> Z.
  Variable N : nat.
  Hypothesis Big : (65540 <= Z.of_nat N)%Z.
  Variable sigs : list functy.
  Notation lc := (as_call N (as_lib sigs)).
  Theorem C67_implements : implements sigs lc (as_states p0 mx sigs) (65536 * Z.min 65535 (mx - p0)) True.
  Proof. rewrite Z.mul_comm. exact (@as_implements p0 mx Pages N Big sigs). Qed.
  Definition as_history := as_states p0 mx sigs.

  Lemma as_hist es : forall frs ifs obs ifs' s, as_history frs ifs s -> ideal es ifs = Some (obs, ifs') -> uses_only sigs es ->
    (forall ft, In ft (entered es) -> (slots ft <= 8191)%Z) \/ (peak es (map if_type ifs) <= 65536 * Z.min 65535 (mx - p0))%Z ->
    (live (map if_type ifs) <= 65536 * Z.min 65535 (mx - p0))%Z ->
    (exists vs frs' s', perform lc es frs s = Ok (vs, frs', s') /\ Forall2 sees obs vs /\ as_history frs' ifs' s' /\
       (peak es (map if_type ifs) <= 65536 * Z.min 65535 (mx - p0))%Z) \/
    (exists s', perform lc es frs s = Trap s' /\ (65536 * Z.min 65535 (mx - p0) < peak es (map if_type ifs))%Z).
  Proof.
    induction es as [|e es IH]; intros frs ifs obs ifs' s H I U Sm Lv.
    - injection I as <- <-. left. exists [], frs, s. split; [reflexivity|]. split; [constructor|]. split; [exact H|exact Lv].
    - cbn [ideal] in I. destruct (ideal_step e ifs) as [[o st1]|] eqn:S1; [|discriminate].
      destruct (ideal es st1) as [[os st2]|] eqn:S2; [|discriminate]. injection I as <- <-. pose proof (step_types _ _ S1) as T1.
      assert (D : (forall ft, In ft (entered [e]) -> In ft sigs /\ (live (map if_type ifs) + frame_bytes ft <= 65536 * Z.min 65535 (mx - p0))%Z) \/
                  exists ft args, e = EEnter ft args /\ In ft sigs /\ (65536 * Z.min 65535 (mx - p0) < live (map if_type ifs) + frame_bytes ft)%Z).
      { destruct e as [ft' args| | | | |]; [|left; intros ft []..].
        assert (Hs : In ft' sigs) by (apply U; now left).
        destruct (Z.le_gt_cases (live (map if_type ifs) + frame_bytes ft') (65536 * Z.min 65535 (mx - p0))) as [Le|Gt].
        - left. intros ft [<-|[]]. auto.
        - right. exists ft', args. split; [reflexivity|]. split; [exact Hs|lia]. }
      destruct D as [D|(ft & args & -> & Hs & Full)].
      + destruct (@im_step _ _ _ _ _ C67_implements e frs ifs o st1 s H S1 D) as (vs & frs1 & s1 & E1 & O1 & H1).
        assert (U1 : uses_only sigs es).
        { intros ft Hft. apply U. unfold entered in *. cbn [flat_map]. apply in_or_app. now right. }
        assert (Sm1 : (forall ft, In ft (entered es) -> (slots ft <= 8191)%Z) \/ (peak es (map if_type st1) <= 65536 * Z.min 65535 (mx - p0))%Z).
        { destruct Sm as [Sm|P].
          - left. intros ft Hft. apply Sm. unfold entered in *. cbn [flat_map]. apply in_or_app. now right.
          - right. rewrite T1. destruct e; cbn [peak] in P |- *; try exact P; lia. }
        assert (Lv1 : (live (map if_type st1) <= 65536 * Z.min 65535 (mx - p0))%Z).
        { rewrite T1. destruct e as [ft' args| | | | |]; try exact Lv.
          - cbn [live]. destruct (D ft'); [now left|]. lia.
          - destruct (map if_type ifs) as [|a l]; cbn [tl live] in *; [exact Lv|]. assert (0 <= frame_bytes a)%Z by (unfold frame_bytes; lia). lia. }
        destruct (IH frs1 st1 os st2 s1 H1 S2 U1 Sm1 Lv1) as [(ws & frs2 & s2 & E2 & O2 & H2 & P2)|(s2 & E2 & P2)].
        * left. exists (vs ++ ws), frs2, s2. cbn [perform]. rewrite E1. cbn [rbind]. rewrite E2. cbn [rbind].
          split; [reflexivity|]. split; [now apply Forall2_app|]. split; [exact H2|]. rewrite T1 in P2.
          destruct e; cbn [peak] in *; try exact P2; lia.
        * right. exists s2. cbn [perform]. rewrite E1. cbn [rbind]. rewrite E2. cbn [rbind]. split; [reflexivity|]. rewrite T1 in P2.
          destruct e; cbn [peak] in *; try exact P2; lia.
      + right.
        assert (Fp : (65536 * Z.min 65535 (mx - p0) < peak (EEnter ft args :: es) (map if_type ifs))%Z).
        { cbn [peak]. pose proof (live_below es (ft :: map if_type ifs)) as Lk. cbn [live] in Lk. lia. }
        destruct Sm as [Sm|P]; [|lia]. cbn [ideal_step] in S1.
        destruct (numeric_sig ft && vals_ok (ft_in ft) args) eqn:C; [|discriminate]. apply andb_true_iff in C as [Nm Va].
        destruct (@im_full _ _ _ _ _ C67_implements Logic.I frs ifs s ft args H Hs Nm Va) as [(s' & E)|(q & s1 & s' & E & Q & E')].
        * apply Sm. now left.
        * exact Full.
        * exists s'. cbn [perform perform_step]. rewrite E. split; [reflexivity|exact Fp].
        * exists s'. cbn [perform perform_step]. rewrite E. cbn [rbind pointer rget vi32]. rewrite E'. split; [reflexivity|exact Fp].
  Qed.

  Lemma pages_pos : (0 <= 65536 * Z.min 65535 (mx - p0))%Z.
  Proof. lia. Qed.
  (** What holds of the buffers that are live: they do not overlap and lie in memory. *)
  Definition well_placed (frs : list frame) (s : store unit) : Prop :=
    all_apart (buffers frs) /\
    exists pages g, st_mem s = Some (MemSt pages mx g) /\ forall b, In b (buffers frs) -> (snd b = 0 \/ 0 <= fst b /\ fst b + snd b <= 65536 * pages)%Z.
  Lemma placed frs ifs s : as_history frs ifs s -> well_placed frs s /\ map (fun fr => fst (fst fr)) frs = map if_type ifs.
  Proof.
    intros (p & t & g & -> & S & T & P & F). split; [split|].
    - apply ord_apart, apart_buffers. exact (stacked_apart _ _ S).
    - exists (p0 + t)%Z, g. split; [reflexivity|]. intros b Hb.
      assert (B : (snd b = 0 \/ 0 <= fst b /\ fst b + snd b <= p)%Z); [|lia].
      clear - S Hb. revert p S Hb. induction frs as [|[[ft q] qt] frs IH]; intros p S Hb; [destruct Hb|]. cbn [stacked] in S. destruct S as [[-> ->] S].
      unfold buffers in Hb. cbn [flat_map] in Hb. apply in_app_or in Hb as [Hb|Hb]; fold (slots ft) in Hb; pose proof (stacked_pos _ _ S); pose proof (slots_pos ft).
      + destruct Hb as [<-|[<-|[]]]; cbn [fst snd]; right; lia.
      + destruct (IH q S Hb); [now left|right; lia].
    - clear - F. induction F as [|[[ft q] qt] ifr frs ifs H F IH]; [reflexivity|]. cbn [map fst]. rewrite IH. f_equal. exact (fi_type H).
  Qed.
  (** Over any history whose live buffers never need more bytes than there are in the pages that can
      be added, all observations are those of the ideal, and live buffers do not overlap. *)
  Theorem C67_separate_frames : forall es obs ifs,
    uses_only sigs es -> ideal es [] = Some (obs, ifs) -> (peak es [] <= 65536 * Z.min 65535 (mx - p0))%Z ->
    exists vs frs s, perform lc es [] (as_start p0 mx f) = Ok (vs, frs, s) /\ Forall2 sees obs vs /\
      map (fun fr => fst (fst fr)) frs = map if_type ifs /\ well_placed frs s.
  Proof.
    intros es obs ifs U I P.
    destruct (@as_hist es [] [] obs ifs _ (@as_initial p0 mx Pages sigs p0 f eq_refl) I U (or_intror P) pages_pos)
      as [(vs & frs & s & E & O & H & _)|(s & _ & C)]; [|cbn [map] in C; lia].
    destruct (placed H). exists vs, frs, s. auto.
  Qed.
  (** When every call has returned the free pointer is back at the start. *)
  Theorem C67_released : forall es obs,
    uses_only sigs es -> ideal es [] = Some (obs, []) -> (peak es [] <= 65536 * Z.min 65535 (mx - p0))%Z ->
    exists vs s, perform lc es [] (as_start p0 mx f) = Ok (vs, [], s) /\ Forall2 sees obs vs /\ nth_error (st_globals s) 0 = Some (vi32 0).
  Proof.
    intros es obs U I P.
    destruct (@as_hist es [] [] obs [] _ (@as_initial p0 mx Pages sigs p0 f eq_refl) I U (or_intror P) pages_pos)
      as [(vs & frs & s & E & O & H & _)|(s & _ & C)]; [|cbn [map] in C; lia].
    destruct H as (p & t & g & -> & S & T & Pt & F). inversion F; subst. cbn [stacked] in S. subst p. exists vs. eexists. split; [exact E|]. auto.
  Qed.
  (** With fewer than 8192 slots per signature a history that does not fit traps. *)
  Theorem C67_bounded_signatures : forall es obs ifs,
    uses_only sigs es -> ideal es [] = Some (obs, ifs) ->
    (forall ft, In ft (entered es) -> List.length (ft_out ft) + List.length (ft_in ft) < Z.to_nat 8192) ->
    (exists vs frs s, perform lc es [] (as_start p0 mx f) = Ok (vs, frs, s) /\ Forall2 sees obs vs /\ well_placed frs s /\
       (peak es [] <= 65536 * Z.min 65535 (mx - p0))%Z) \/
    (exists s, perform lc es [] (as_start p0 mx f) = Trap s /\ (65536 * Z.min 65535 (mx - p0) < peak es [])%Z).
  Proof.
    intros es obs ifs U I Small.
    assert (Sm : forall ft, In ft (entered es) -> (slots ft <= 8191)%Z) by (intros ft H; specialize (Small ft H); unfold slots; lia).
    destruct (@as_hist es [] [] obs ifs _ (@as_initial p0 mx Pages sigs p0 f eq_refl) I U (or_introl Sm) pages_pos)
      as [(vs & frs & s & E & O & H & P)|H]; [left|right; exact H].
    destruct (placed H). exists vs, frs, s. auto.
  Qed.
End Histories.
Print Assumptions C67_implements.
Print Assumptions C67_separate_frames.
Print Assumptions C67_released.
Print Assumptions C67_bounded_signatures.

(** A history with nested calls, in a memory without pages that may grow to one; without that page it traps. *)
Definition as_steps : nat := Z.to_nat 65540.
Definition ex_as_lib := as_call as_steps (as_lib [ft_inner; ft_outer]).
Example ex_c67 :
  ideal ex_history [] = Some ([Some (VNum TI32 2); Some (VNum TI32 0); Some (VNum TF32 2143289345); Some (VNum TI64 99); Some (VNum TI32 8)]%Z, []) /\
  (peak ex_history [] <= 65536 * Z.min 65535 (1 - 0))%Z /\ uses_only [ft_inner; ft_outer] ex_history /\
  match perform ex_as_lib ex_history [] (as_start 0 1 (fun _ => 77%Z)) with
  | Ok (vs, frs, s) => vs = [VNum TI32 2; VNum TI32 0; VNum TF32 2143289345; VNum TI64 99; VNum TI32 8]%Z /\ frs = [] /\
                       option_map ms_pages (st_mem s) = Some 1%Z /\ st_globals s = [vi32 0; vi32 1]
  | _ => False
  end /\
  match perform ex_as_lib ex_history [] (as_start 1 1 (fun _ => 77%Z)) with Trap _ => True | _ => False end.
Proof.
  split; [reflexivity|]. split; [vm_compute; discriminate|].
  split; [intros ft [<-|[<-|[]]]; cbn; auto|]. vm_compute. repeat split.
Qed.

(** ** C68: with this library, too, forwarding changes nothing, recording sees the events of the
    run, and memoizing pure functions has the same results *)
Section Sessions.
  Context {Y : Type}.
  Variable num1 : unop -> Z -> option Z.
  Variable num2 : binop -> Z -> Z -> option Z.
  Variables p0 mx : Z.
  Hypothesis Pages : (0 <= p0 <= mx /\ mx <= 65536)%Z.
  Variable f : Z -> Z.
  Variable N : nat.
  Hypothesis Big : (65540 <= Z.of_nat N)%Z.
  Variable host : string -> string -> list val -> xprog Y.
  Variable I : Y -> Prop.
  Variables ord_i ord_c : list nat -> list nat.
  Variable infer : nat -> list low -> option (list ity).
  Variable m : module.
  Variable on : hook -> bool.
  Variable generic : bool.
  Variable only : option (list nat).
  Variable imp : provided.
  Variable m' : module.
  Variable lib : option (list functy).
  Hypothesis Pi : forall l, Permutation (ord_i l) l.
  Hypothesis Pc : forall l, Permutation (ord_c l) l.
  Hypothesis E : instrument ord_i ord_c infer m (std_ai on generic) only = IOk m' lib.
  Hypothesis V : valid m.
  Hypothesis U : in_format m.
  Hypothesis AN : annotates infer m.
  Hypothesis PV : provided_ok m imp.
  Hypothesis HO : hosts_ok host I m (plain_xty m).
  Notation is := (intercepts m generic only ord_i).
  Hypothesis CO : compatible m on is.
  Notation sigs := (match lib with Some l => l | None => [] end).
  Variables n fuel : nat.
  Hypothesis Fu : 5 * n + 2 <= fuel.
  Notation plain_module := (run_module num1 num2 host n imp m).
  Notation module_trace := (module_trace num1 num2 host infer m on generic only n imp).
  Notation typed_calls := (Forall (fun c => exists ft, plain_xty m (fst c) = Some ft /\
                                     Forall2 (val_ok (List.length (md_funcs m))) (snd c) (ft_in ft))).
  Notation lc := (as_call N (as_lib sigs)).
  Notation IM := (@C67_implements p0 mx Pages N Big sigs).
  Notation l0 := (as_start p0 mx f).
  Notation holds := (as_states p0 mx sigs).
  Notation bytes := (65536 * Z.min 65535 (mx - p0))%Z.
  (** At no point of the run do pending calls need more than the pages that can be added. *)
  Definition as_space (x : Y) (calls : list (string * list val)) : Prop :=
    forall before after, module_trace x calls = before ++ after -> (usage m before <= 65536 * Z.min 65535 (mx - p0))%Z.
  Lemma as_sigs l : lib = Some l -> sigs = l.
  Proof. intros ->. reflexivity. Qed.
  Lemma as_starts : holds [] [] l0.
  Proof. exact (@as_initial p0 mx Pages sigs p0 f eq_refl). Qed.

  Definition as_forwarding := all_agents (Y := Y) (A := unit) lc (forward_body num1 num2) forward_apply host.
  Theorem C68_forwarding : forall x calls outs s, I x -> typed_calls calls ->
    plain_module x calls = Ok (outs, s) -> ~ In None outs \/ Forall in_range32 (module_trace x calls) ->
    as_space x calls ->
    exists s', run_module num1 num2 as_forwarding fuel imp m' (l0, (tt, x)) calls = Ok (outs, s') /\ same_program s s'.
  Proof.
    intros x calls outs s Ix T R W Ro.
    destruct (@observed_sessions Y unit ignore num1 num2 host I ord_i ord_c infer m on generic only imp m' sigs lc holds bytes True IM lib Pi Pc E as_sigs
      (forward_body num1 num2) forward_apply (forward_notes_advice num1 num2) (@forward_notes_calls Y holds) V U AN PV HO CO n fuel Fu x l0 tt
      calls outs s Ix as_starts T R Ro W) as (s' & l1 & frs & ifs & R' & Ex & _).
    exists s'. split; [exact R'|]. eapply same_program_of; exact Ex.
  Qed.
  (** Without any assumption on the space: results are never wrong, a call can only trap. *)
  Theorem C68_any_space : forall x calls outs s, I x -> typed_calls calls ->
    plain_module x calls = Ok (outs, s) -> ~ In None outs \/ Forall in_range32 (module_trace x calls) ->
    same_until (plain_module x) (run_module num1 num2 as_forwarding fuel imp m' (l0, (tt, x))) calls outs (~ as_space x calls).
  Proof.
    intros x calls outs s Ix T R W.
    destruct (@observed_any Y unit ignore num1 num2 host I ord_i ord_c infer m on generic only imp m' sigs lc holds bytes True IM lib Pi Pc E as_sigs
      (forward_body num1 num2) forward_apply (forward_notes_advice num1 num2) (@forward_notes_calls Y holds) V U AN PV HO CO n fuel Fu x l0 tt
      calls outs s Ix as_starts T R (or_introl Logic.I) W) as [(Q & P)|(calls1 & rest & s1 & s' & l1 & P1 & P2 & P3 & P4 & P5)]; [left|right].
    - split; [exact Q|exact P].
    - exists calls1, rest, s1, s'. split; [exact P1|]. split; [exact P2|]. split; [exact P3|]. split; [|exact P5].
      eapply same_program_of; exact P4.
  Qed.
  Theorem C68_failing_start : forall x calls s, I x -> typed_calls calls ->
    plain_module x calls = Trap s -> Forall in_range32 (module_trace x calls) ->
    as_space x calls ->
    exists s', run_module num1 num2 as_forwarding fuel imp m' (l0, (tt, x)) calls = Trap s' /\ same_program s s'.
  Proof.
    intros x calls s Ix T R W Ro.
    destruct (@observed_trap Y unit ignore num1 num2 host I ord_i ord_c infer m on generic only imp m' sigs lc holds bytes True IM lib Pi Pc E as_sigs
      (forward_body num1 num2) forward_apply (forward_notes_advice num1 num2) (@forward_notes_calls Y holds) V U AN PV HO CO n fuel Fu x l0 tt
      calls s Ix as_starts T R Ro W) as (s' & l1 & R' & Ex).
    exists s'. split; [exact R'|]. eapply same_program_of; exact Ex.
  Qed.
  Section Recording.
    Context {B : Type}.
    Variable obs : B -> event -> B.
    Definition as_recording := all_agents (Y := Y) lc (record_body obs num1 num2) (record_apply obs lc) host.
    Theorem C68_events : forall x a calls outs s, I x -> typed_calls calls ->
      plain_module x calls = Ok (outs, s) -> ~ In None outs \/ Forall in_range32 (module_trace x calls) ->
      as_space x calls ->
      exists s', run_module num1 num2 as_recording fuel imp m' (l0, (a, x)) calls = Ok (outs, s') /\
        same_program s s' /\ fst (snd (st_x s')) = fold_left obs (module_trace x calls) a.
    Proof.
      intros x a calls outs s Ix T R W Ro.
      destruct (@observed_sessions Y B obs num1 num2 host I ord_i ord_c infer m on generic only imp m' sigs lc holds bytes True IM lib Pi Pc E as_sigs
        (record_body obs num1 num2) (record_apply obs lc) (@record_notes_advice Y B obs num1 num2)
        (@record_notes_calls Y B obs lc sigs holds bytes True IM) V U AN PV HO CO n fuel Fu x l0 a
        calls outs s Ix as_starts T R Ro W) as (s' & l1 & frs & ifs & R' & Ex & _).
      exists s'. split; [exact R'|]. eapply same_program_of; exact Ex.
    Qed.
  End Recording.
End Sessions.
Print Assumptions C68_forwarding.
Print Assumptions C68_any_space.
Print Assumptions C68_failing_start.
Print Assumptions C68_events.
Theorem C68_memoization : forall Y num1 num2 p0 mx, (0 <= p0 <= mx /\ mx <= 65536)%Z -> forall f N, (65540 <= Z.of_nat N)%Z ->
  forall host (I : Y -> Prop) ord_i ord_c infer m only imp m' sigs,
  (forall l, Permutation (ord_i l) l) -> (forall l, Permutation (ord_c l) l) ->
  instrument ord_i ord_c infer m (std_ai (fun _ => false) true) only = IOk m' (Some sigs) ->
  valid m -> in_format m -> annotates infer m -> provided_ok m imp -> hosts_ok host I m (plain_xty m) ->
  compatible m (fun _ => false) (intercepts m true only ord_i) ->
  forall n fuel, 5 * n + 2 <= fuel -> forall x calls outs s, I x ->
  Forall (fun c => exists ft, plain_xty m (fst c) = Some ft /\ Forall2 (val_ok (List.length (md_funcs m))) (snd c) (ft_in ft)) calls ->
  pure_interception (Y := Y) num1 num2 host ord_i m only ->
  run_module num1 num2 host n imp m x calls = Ok (outs, s) ->
  same_until (run_module num1 num2 host n imp m x)
    (run_module num1 num2 (memoizing (Y := Y) host (as_call N (as_lib sigs))) fuel imp m' (as_start p0 mx f, (empty_memo, x))) calls outs
    (~ few_calls num1 num2 host infer m only imp n x calls \/ ~ as_space num1 num2 p0 mx host infer m (fun _ => false) true only imp n x calls).
Proof.
  intros Y num1 num2 p0 mx Pages f N Big host I ord_i ord_c infer m only imp m' sigs Pi Pc E V U AN PV HO CO n fuel Fu x calls outs s Ix T PU R.
  destruct (@memoized_any Y num1 num2 host I ord_i ord_c infer m only imp m' sigs (as_call N (as_lib sigs)) (as_states p0 mx sigs) _ True
    (@C67_implements p0 mx Pages N Big sigs) (as_start p0 mx f) (@as_initial p0 mx Pages sigs p0 f eq_refl) Pi Pc E V U AN PV HO CO n fuel Fu x calls outs s Ix T PU R (or_introl Logic.I))
    as [H|(calls1 & rest & s1 & s' & P1 & P2 & P3 & P4 & _ & P6)]; [left; exact H|right].
  exists calls1, rest, s1, s'. auto.
Qed.
Print Assumptions C68_memoization.

(** The session of PropTransparent.v, with this library: in one page, and without any, where a call traps. *)
Definition ex_as_fwd (mx : Z) : option (list (option (list val)) * list val * list val) :=
  match instrument ex_id ex_id ex_infer ex_module (std_ai ex_all true) None with
  | IOk m' (Some sigs) =>
      match run_module ex_num1 ex_num2 (as_forwarding ex_num1 ex_num2 as_steps ex_host (Some sigs)) 42 ex_imports m' (as_start 0 mx (fun _ => 0%Z), (tt, [])) ex_session_calls with
      | Ok (outs, s') => Some (outs, snd (snd (st_x s')), st_globals (fst (st_x s')))
      | _ => None
      end
  | _ => None
  end.
Example ex_c68 :
  as_space ex_num1 ex_num2 0 1 ex_host ex_infer ex_module ex_all true None ex_imports 8 [] ex_session_calls /\
  ex_as_fwd 1 = Some ([Some [vi32 1]; Some [vi32 100]], [vi32 1], [vi32 0; vi32 1]) /\
  option_map (fun r => fst (fst r)) (ex_as_fwd 0) <> Some [Some [vi32 1]; Some [vi32 100]].
Proof.
  split; [|split; [vm_compute; reflexivity|vm_compute; discriminate]].
  intros b a E. pose proof (peak_ok ex_module _ _ E) as H. fold ex_trace in H. rewrite (proj2 ex_space) in H. lia.
Qed.

(** Memoization of [down] of PropMemo.v with this library: two hits. *)
Definition ex_as_memo : option (list (option (list val)) * Z) :=
  match instrument ex_id ex_id down_infer down_module (std_ai (fun _ => false) true) (Some [0]) with
  | IOk m' (Some sigs) =>
      match run_module ex_num1 ex_num2 (memoizing no_host (as_call as_steps (as_lib sigs))) 62 ex_imports m' (as_start 0 65536 (fun _ => 0%Z), (empty_memo, tt))
              [("down", [vi32 0]); ("down", [vi32 0]); ("down", [vi32 0])] with
      | Ok (outs, s') => Some (outs, m_hits (fst (snd (st_x s'))))
      | _ => None
      end
  | _ => None
  end.
Example ex_c68_memo : ex_as_memo = Some ([Some [vi32 0]; Some [vi32 0]; Some [vi32 0]], 2%Z).
Proof. vm_compute. reflexivity. Qed.
