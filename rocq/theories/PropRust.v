(** Property theorems C55 to C59: the call-buffer library that is generated as Rust source, which is
    the one the command line uses. The Rust compiler and the allocator [wee_alloc] are not part of the
    model: the source is given a meaning in RustLib.v, and the allocator is any that keeps the contract
    stated there. *)
From Coq Require Import Permutation.
From Verif Require Import Semantics Advice RsStdlib StackLib StackRun StackOps StackHist StackSpec PropStack System SystemProofs Instantiate Trace TraceProofs
  Typing ModuleTyping InstantiateTyping Checker ExModule InstrumentProofs PropInstrument PropSpec PropTyping ForwardRel ForwardProofs SessionProofs Recorder
  Memo MemoProofs MemoSession PropMemo PropTransparent RustLib RustNames RustRun RustProofs RustTypes RustHeap.
Local Open Scope string_scope.
Local Open Scope list_scope.

(** ** C55: the source compiles, and exports what instrumented modules and analyses import *)
(** It compiles exactly if no signature has reference types (and slot numbers are within [usize]). *)
Theorem C55_compiles : forall sigs, rust_compiles (rust_lib sigs) = true <->
  forall ft t, In ft sigs -> (Z.of_nat (List.length (ft_in ft) + List.length (ft_out ft)) < 2 ^ 32)%Z /\
    (In t (ft_in ft ++ ft_out ft) -> exists n, t = TNum n).
Proof.
  intros sigs. rewrite rust_lib_compiles, Forall_forall. split.
  - intros H ft t Hft. destruct (H ft Hft) as [N S]. unfold slots in S. split; [lia|]. intros It. destruct (num_sig _ N) as [No Ni].
    apply in_app_or in It as [It|It]; apply In_nth_error in It; destruct It as (i & E); [exact (@num_nth _ _ _ Ni E)|exact (@num_nth _ _ _ No E)].
  - intros H ft Hft. split; [|unfold slots; destruct (H ft t_i32 Hft); lia].
    assert (K : forall l, incl l (ft_in ft ++ ft_out ft) -> existsb is_ref l = false).
    { intros l Inc. destruct (existsb is_ref l) eqn:X; [|reflexivity]. apply existsb_exists in X. destruct X as (t & It & Rt).
      destruct (proj2 (H ft t Hft) (Inc t It)) as (n & ->). discriminate Rt. }
    unfold numeric_sig. rewrite (K (ft_in ft)), (K (ft_out ft)); [reflexivity|apply incl_appr, incl_refl|apply incl_appl, incl_refl].
Qed.
Print Assumptions C55_compiles.
(** So every import of the output module from the buffer library is there, with the right type. *)
Theorem C55_exports : forall sigs ft o, In ft sigs -> In o (sig_ops ft) ->
  exists g, fn_named (rust_lib sigs) (op_name ft o) = Some g /\ rf_export g = true /\ wasm_sig g = libop_type ft o.
Proof. exact rust_exports. Qed.
Print Assumptions C55_exports.
(** And the accessors of the analysis. *)
Theorem C55_accessors : forall sigs, 
  (forall t, exists g, fn_named (rust_lib sigs) (stack_load_name t) = Some g /\ rf_export g = true /\ wasm_sig g = FT [t_i32; t_i32] [TNum t]) /\
  (forall t, exists g, fn_named (rust_lib sigs) (stack_store_name t) = Some g /\ rf_export g = true /\ wasm_sig g = FT [t_i32; TNum t; t_i32] []) /\
  (exists g, fn_named (rust_lib sigs) "wastrumentation_stack_load_type" = Some g /\ rf_export g = true /\ wasm_sig g = FT [t_i32; t_i32] [t_i32]).
Proof.
  intros sigs. split; [|split].
  - intros t. exists (load_boiler t). split; [destruct t; reflexivity|]. split; reflexivity.
  - intros t. exists (store_boiler t). split; [destruct t; reflexivity|]. split; reflexivity.
  - eexists. split; [reflexivity|]. split; reflexivity.
Qed.
Print Assumptions C55_accessors.
(** Two signatures with the same counts share the functions per count; one with a reference does not compile. *)
Example ex_c55 :
  let a := FT [TNum TI32; TNum TF64] [TNum TI64] in let b := FT [TNum TF32; TNum TF32] [TNum TF32] in
  rust_compiles (rust_lib [a; b; a; FT [] []]) = true /\ List.length (rust_lib [a; b]) = 49 /\
  option_map wasm_sig (fn_named (rust_lib [a; b]) (op_name b (LStore SArg 1))) = Some (FT [t_i32; TNum TF32] []) /\
  rust_compiles (rust_lib [a; FT [TRef FuncRef] []]) = false.
Proof. vm_compute. repeat split. Qed.

(** ** C56: the library behaves as a stack of separate frames *)
Section Histories.
  Variable A : allocator.
  Variable junk : store unit -> numty -> Z -> Z.
  Variable heap : list (Z * Z) -> store unit -> Prop.
  Variable cap : Z.
  Hypothesis Al : allocates A heap cap.
  Hypothesis Cap : (cap < 2 ^ 32)%Z.
  Variable sigs : list functy.
  Hypothesis Zero : none_asked sigs \/ allocates_none A heap.
  Notation lc := (rust_call A junk (rust_lib sigs)).
  Definition rust_holds := rust_states sigs heap.

  Theorem C56_implements : implements sigs lc rust_holds cap False.
  Proof. exact (@rust_implements A junk sigs heap cap Al Cap Zero). Qed.

  Lemma live_below es : forall st, (live st <= peak es st)%Z.
  Proof. induction es as [|e es IH]; intros st; [cbn [peak]; lia|]. cbn [peak]. destruct e; try exact (IH st); lia. Qed.
  Lemma history es : forall frs ifs obs ifs' s, rust_holds frs ifs s -> ideal es ifs = Some (obs, ifs') -> uses_only sigs es ->
    (peak es (map if_type ifs) <= cap)%Z ->
    exists vs frs' s', perform lc es frs s = Ok (vs, frs', s') /\ Forall2 sees obs vs /\ rust_holds frs' ifs' s'.
  Proof.
    induction es as [|e es IH]; intros frs ifs obs ifs' s H I U P.
    - injection I as <- <-. exists [], frs, s. split; [reflexivity|]. split; [constructor|exact H].
    - cbn [ideal] in I. destruct (ideal_step e ifs) as [[o st1]|] eqn:S1; [|discriminate].
      destruct (ideal es st1) as [[os st2]|] eqn:S2; [|discriminate]. injection I as <- <-. pose proof (step_types _ _ S1) as T1.
      destruct (@im_step _ _ _ _ _ C56_implements e frs ifs o st1 s H S1) as (vs & frs1 & s1 & E1 & O1 & H1).
      + intros ft Hft. destruct e as [ft' args| | | | |]; cbn in Hft; try contradiction. destruct Hft as [->|[]].
        split; [apply U; now left|]. cbn [peak] in P. pose proof (live_below es (ft :: map if_type ifs)) as Lk. cbn [live] in Lk. lia.
      + destruct (IH frs1 st1 os st2 s1 H1 S2) as (ws & frs2 & s2 & E2 & O2 & H2).
        * intros ft Hft. apply U. unfold entered in *. cbn [flat_map]. apply in_or_app. now right.
        * rewrite T1. destruct e; cbn [peak] in P |- *; try exact P; lia.
        * exists (vs ++ ws), frs2, s2. cbn [perform]. rewrite E1. cbn [rbind]. rewrite E2. cbn [rbind].
          split; [reflexivity|]. split; [now apply Forall2_app|exact H2].
  Qed.
  Lemma apart_buffers frs : all_apart (blocks frs) -> ForallOrdPairs apart (buffers frs).
  Proof.
    intros Ap. induction frs as [|[[ft q] qt] frs IH]; [constructor|].
    unfold blocks in Ap. cbn [flat_map] in Ap. destruct (@apart_split _ _ Ap) as (A1 & A2 & A3). specialize (IH A2).
    assert (Z12 : forall b, In b (buffers frs) -> snd b = 0%Z \/ In b (blocks frs)).
    { clear. intros b I. induction frs as [|[[ft q] qt] frs IH]; [destruct I|]. unfold buffers, blocks in *. cbn [flat_map] in *.
      apply in_app_or in I as [I|I].
      - unfold frame_blocks, slots. destruct (Z.eqb_spec (Z.of_nat (List.length (ft_out ft) + List.length (ft_in ft))) 0) as [Z0|Nz].
        + left. rewrite Z0 in I. destruct I as [<-|[<-|[]]]; reflexivity.
        + right. apply in_or_app. left. destruct I as [<-|[<-|[]]]; [right; now left|now left].
      - destruct (IH I); [now left|right; apply in_or_app; now right]. }
    unfold buffers. cbn [flat_map]. fold (buffers frs). unfold frame_blocks in A1, A3. fold (slots ft).
    destruct (Z.eqb_spec (slots ft) 0) as [Z0|Nz].
    - rewrite Z0. cbn [app]. constructor; [|constructor; [|exact IH]]; apply Forall_forall; intros b _; unfold apart; cbn [snd]; auto.
    - cbn [app]. constructor; [|constructor; [|exact IH]]; apply Forall_forall; intros b I.
      + destruct I as [<-|I].
        * apply apart_sym. exact (A1 0 1 _ _ eq_refl eq_refl ltac:(lia)).
        * destruct (Z12 b I) as [Zb|Ib]; [unfold apart; auto|]. apply A3; [right; now left|exact Ib].
      + destruct (Z12 b I) as [Zb|Ib]; [unfold apart; auto|]. apply A3; [now left|exact Ib].
  Qed.
  (** Over any history whose live buffers never exceed the capacity of the allocator, all
      observations are those of the ideal, live buffers do not overlap and lie in memory that was
      asked for. *)
  Theorem C56_separate_frames : forall s es obs ifs, heap [] s ->
    uses_only sigs es -> ideal es [] = Some (obs, ifs) -> (peak es [] <= cap)%Z ->
    exists vs frs s', perform lc es [] s = Ok (vs, frs, s') /\ Forall2 sees obs vs /\
      map (fun fr => fst (fst fr)) frs = map if_type ifs /\ all_apart (buffers frs) /\
      exists bs, heap bs s' /\ total bs = live (map if_type ifs).
  Proof.
    intros s es obs ifs H U I P. destruct (@history es [] [] obs ifs s) as (vs & frs & s' & E & O & H' & F); auto.
    { split; [exact H|constructor]. }
    exists vs, frs, s'. split; [exact E|]. split; [exact O|]. split; [|split].
    - clear - F. induction F as [|[[ft q] qt] ifr frs ifs H F IH]; [reflexivity|]. cbn [map fst]. rewrite IH. f_equal. exact (fi_type H).
    - apply ord_apart, apart_buffers. exact (ac_apart Al H').
    - exists (blocks frs). split; [exact H'|exact (total_live F)].
  Qed.
  (** In particular, when every call has returned all buffers are freed. *)
  Corollary C56_released : forall s es obs, heap [] s ->
    uses_only sigs es -> ideal es [] = Some (obs, []) -> (peak es [] <= cap)%Z ->
    exists vs s', perform lc es [] s = Ok (vs, [], s') /\ Forall2 sees obs vs /\ heap [] s'.
  Proof.
    intros s es obs H U I P. destruct (@history es [] [] obs [] s) as (vs & frs & s' & E & O & H' & F); auto.
    { split; [exact H|constructor]. }
    inversion F; subst. exists vs, s'. auto.
  Qed.
End Histories.
Print Assumptions C56_implements.
Print Assumptions C56_separate_frames.
Print Assumptions C56_released.

(** A history with nested calls, with the allocator of RustHeap.v: what is observed, and that all
    cells are free again. *)
Definition no_junk (s : store unit) (t : numty) (z : Z) : Z := 3735928559.
Definition ex_rust_lib := rust_call (cells many) no_junk (rust_lib [ft_inner; ft_outer]).
Example ex_c56 :
  allocates (cells many) cells_heap cell /\ cells_heap [] cells_start /\ none_asked [ft_inner; ft_outer] /\
  ideal ex_history [] = Some ([Some (VNum TI32 2); Some (VNum TI32 0); Some (VNum TF32 2143289345); Some (VNum TI64 99); Some (VNum TI32 8)]%Z, []) /\
  (peak ex_history [] <= cell)%Z /\ uses_only [ft_inner; ft_outer] ex_history /\
  match perform ex_rust_lib ex_history [] cells_start with
  | Ok (vs, frs, s) => vs = [VNum TI32 2; VNum TI32 0; VNum TF32 2143289345; VNum TI64 99; VNum TI32 8]%Z /\ frs = [] /\ st_globals s = []
  | _ => False
  end.
Proof.
  split; [exact cells_allocate|]. split; [exact cells_empty|].
  split; [intros ft [<-|[<-|[]]]; discriminate|]. split; [reflexivity|]. split; [vm_compute; discriminate|].
  split; [intros ft [<-|[<-|[]]]; cbn; auto|]. vm_compute. repeat split.
Qed.

(** ** C57: with this library, too, forwarding changes nothing, recording sees the events of the
    run, and memoizing pure functions has the same results *)
Section Sessions.
  Context {Y : Type}.
  Variable num1 : unop -> Z -> option Z.
  Variable num2 : binop -> Z -> Z -> option Z.
  Variable A : allocator.
  Variable junk : store unit -> numty -> Z -> Z.
  Variable heap : list (Z * Z) -> store unit -> Prop.
  Variable cap : Z.
  Hypothesis Al : allocates A heap cap.
  Hypothesis Cap : (cap < 2 ^ 32)%Z.
  (** The library at the start. *)
  Variable l0 : store unit.
  Hypothesis Start : heap [] l0.
  Variable host : string -> string -> list val -> xprog Y.
  Variable I : Y -> Prop.
  Variables ord_i ord_c : list nat -> list nat.
  Variable infer : nat -> list low -> option (list ity).
  Variable m : module.
  Variable on : hook -> bool.
  Variable generic : bool.
  Variable only : option (list nat).
  Variable imp : provided.
  Variable m' : module.
  Variable lib : option (list functy).
  Hypothesis Pi : forall l, Permutation (ord_i l) l.
  Hypothesis Pc : forall l, Permutation (ord_c l) l.
  Hypothesis E : instrument ord_i ord_c infer m (std_ai on generic) only = IOk m' lib.
  Hypothesis V : valid m.
  Hypothesis U : in_format m.
  Hypothesis AN : annotates infer m.
  Hypothesis PV : provided_ok m imp.
  Hypothesis HO : hosts_ok host I m (plain_xty m).
  Notation is := (intercepts m generic only ord_i).
  Hypothesis CO : compatible m on is.
  Notation sigs := (match lib with Some l => l | None => [] end).
  Hypothesis Zero : none_asked sigs \/ allocates_none A heap.
  Variables n fuel : nat.
  Hypothesis Fu : 5 * n + 2 <= fuel.
  Notation plain_module := (run_module num1 num2 host n imp m).
  Notation module_trace := (module_trace num1 num2 host infer m on generic only n imp).
  Notation typed_calls := (Forall (fun c => exists ft, plain_xty m (fst c) = Some ft /\
                                     Forall2 (val_ok (List.length (md_funcs m))) (snd c) (ft_in ft))).
  Notation lc := (rust_call A junk (rust_lib sigs)).
  Notation IM := (@C56_implements A junk heap cap Al Cap sigs Zero).
  (** At no point of the run do pending calls need more than the allocator can provide. *)
  Definition rust_space (x : Y) (calls : list (string * list val)) : Prop :=
    forall before after, module_trace x calls = before ++ after -> (usage m before <= cap)%Z.
  Lemma same_sigs l : lib = Some l -> sigs = l.
  Proof. intros ->. reflexivity. Qed.
  Lemma starts : rust_holds heap sigs [] [] l0.
  Proof. split; [exact Start|constructor]. Qed.

  Definition rust_forwarding := all_agents (Y := Y) (A := unit) lc (forward_body num1 num2) forward_apply host.
  Theorem C57_forwarding : forall x calls outs s, I x -> typed_calls calls ->
    plain_module x calls = Ok (outs, s) -> ~ In None outs \/ Forall in_range32 (module_trace x calls) ->
    rust_space x calls ->
    exists s', run_module num1 num2 rust_forwarding fuel imp m' (l0, (tt, x)) calls = Ok (outs, s') /\ same_program s s'.
  Proof.
    intros x calls outs s Ix T R W Ro.
    destruct (@observed_sessions Y unit ignore num1 num2 host I ord_i ord_c infer m on generic only imp m' sigs lc (rust_holds heap sigs) cap False IM lib Pi Pc E same_sigs
      (forward_body num1 num2) forward_apply (forward_notes_advice num1 num2) (@forward_notes_calls Y (rust_holds heap sigs)) V U AN PV HO CO n fuel Fu x l0 tt
      calls outs s Ix starts T R Ro W) as (s' & l1 & frs & ifs & R' & Ex & _).
    exists s'. split; [exact R'|]. eapply same_program_of; exact Ex.
  Qed.
  Theorem C57_failing_start : forall x calls s, I x -> typed_calls calls ->
    plain_module x calls = Trap s -> Forall in_range32 (module_trace x calls) ->
    rust_space x calls ->
    exists s', run_module num1 num2 rust_forwarding fuel imp m' (l0, (tt, x)) calls = Trap s' /\ same_program s s'.
  Proof.
    intros x calls s Ix T R W Ro.
    destruct (@observed_trap Y unit ignore num1 num2 host I ord_i ord_c infer m on generic only imp m' sigs lc (rust_holds heap sigs) cap False IM lib Pi Pc E same_sigs
      (forward_body num1 num2) forward_apply (forward_notes_advice num1 num2) (@forward_notes_calls Y (rust_holds heap sigs)) V U AN PV HO CO n fuel Fu x l0 tt
      calls s Ix starts T R Ro W) as (s' & l1 & R' & Ex).
    exists s'. split; [exact R'|]. eapply same_program_of; exact Ex.
  Qed.
  Section Recording.
    Context {B : Type}.
    Variable obs : B -> event -> B.
    Definition rust_recording := all_agents (Y := Y) lc (record_body obs num1 num2) (record_apply obs lc) host.
    Theorem C57_events : forall x a calls outs s, I x -> typed_calls calls ->
      plain_module x calls = Ok (outs, s) -> ~ In None outs \/ Forall in_range32 (module_trace x calls) ->
      rust_space x calls ->
      exists s', run_module num1 num2 rust_recording fuel imp m' (l0, (a, x)) calls = Ok (outs, s') /\
        same_program s s' /\ fst (snd (st_x s')) = fold_left obs (module_trace x calls) a.
    Proof.
      intros x a calls outs s Ix T R W Ro.
      destruct (@observed_sessions Y B obs num1 num2 host I ord_i ord_c infer m on generic only imp m' sigs lc (rust_holds heap sigs) cap False IM lib Pi Pc E same_sigs
        (record_body obs num1 num2) (record_apply obs lc) (@record_notes_advice Y B obs num1 num2)
        (@record_notes_calls Y B obs lc sigs (rust_holds heap sigs) cap False IM) V U AN PV HO CO n fuel Fu x l0 a
        calls outs s Ix starts T R Ro W) as (s' & l1 & frs & ifs & R' & Ex & _).
      exists s'. split; [exact R'|]. eapply same_program_of; exact Ex.
    Qed.
  End Recording.
End Sessions.
Print Assumptions C57_forwarding.
Print Assumptions C57_failing_start.
Print Assumptions C57_events.
Theorem C57_memoization : forall Y num1 num2 A junk heap cap, allocates A heap cap -> (cap < 2 ^ 32)%Z -> forall l0, heap [] l0 ->
  forall host (I : Y -> Prop) ord_i ord_c infer m only imp m' sigs,
  (forall l, Permutation (ord_i l) l) -> (forall l, Permutation (ord_c l) l) ->
  instrument ord_i ord_c infer m (std_ai (fun _ => false) true) only = IOk m' (Some sigs) ->
  none_asked sigs \/ allocates_none A heap ->
  valid m -> in_format m -> annotates infer m -> provided_ok m imp -> hosts_ok host I m (plain_xty m) ->
  compatible m (fun _ => false) (intercepts m true only ord_i) ->
  forall n fuel, 5 * n + 2 <= fuel -> forall x calls outs s, I x ->
  Forall (fun c => exists ft, plain_xty m (fst c) = Some ft /\ Forall2 (val_ok (List.length (md_funcs m))) (snd c) (ft_in ft)) calls ->
  pure_interception (Y := Y) num1 num2 host ord_i m only ->
  run_module num1 num2 host n imp m x calls = Ok (outs, s) ->
  rust_space num1 num2 cap host infer m (fun _ => false) true only imp n x calls -> few_calls num1 num2 host infer m only imp n x calls ->
  exists s', run_module num1 num2 (memoizing (Y := Y) host (rust_call A junk (rust_lib sigs))) fuel imp m' (l0, (empty_memo, x)) calls = Ok (outs, s') /\
    same_program s s' /\ forall k rs, In (k, rs) (m_cache (fst (snd (st_x s')))) -> right_entry num1 num2 host m k rs.
Proof.
  intros Y num1 num2 A junk heap cap Al Cap l0 Start host I ord_i ord_c infer m only imp m' sigs Pi Pc E Zero V U AN PV HO CO n fuel Fu x calls outs s Ix T PU R Sp Fc.
  exact (@memoized_within Y num1 num2 host I ord_i ord_c infer m only imp m' sigs (rust_call A junk (rust_lib sigs)) (rust_holds heap sigs) cap False
    (@C56_implements A junk heap cap Al Cap sigs Zero) l0 (conj Start (Forall2_nil _)) Pi Pc E V U AN PV HO CO n fuel Fu x calls outs s Ix T PU R Sp Fc).
Qed.
Print Assumptions C57_memoization.

(** The session of PropTransparent.v, with this library. *)
Definition ex_rust_fwd : option (list (option (list val)) * list val * bool) :=
  match instrument ex_id ex_id ex_infer ex_module (std_ai ex_all true) None with
  | IOk m' (Some sigs) =>
      match run_module ex_num1 ex_num2 (rust_forwarding ex_num1 ex_num2 (cells many) no_junk ex_host (Some sigs)) 42 ex_imports m' (cells_start, (tt, [])) ex_session_calls with
      | Ok (outs, s') => Some (outs, snd (snd (st_x s')), match st_globals (fst (st_x s')) with [] => true | _ => false end)
      | _ => None
      end
  | _ => None
  end.
Example ex_c57 :
  allocates_none (cells many) cells_heap /\
  rust_space ex_num1 ex_num2 cell ex_host ex_infer ex_module ex_all true None ex_imports 8 [] ex_session_calls /\
  ex_rust_fwd = Some ([Some [vi32 1]; Some [vi32 100]], [vi32 1], true).
Proof.
  split; [exact cells_allocate_none|]. split; [|vm_compute; reflexivity].
  intros b a E. pose proof (peak_ok ex_module _ _ E) as H. fold ex_trace in H. rewrite (proj2 ex_space) in H. unfold cell. lia.
Qed.

(** Memoization of [down] of PropMemo.v with this library: two hits. *)
Definition ex_rust_memo : option (list (option (list val)) * Z) :=
  match instrument ex_id ex_id down_infer down_module (std_ai (fun _ => false) true) (Some [0]) with
  | IOk m' (Some sigs) =>
      match run_module ex_num1 ex_num2 (memoizing no_host (rust_call (cells many) no_junk (rust_lib sigs))) 62 ex_imports m' (cells_start, (empty_memo, tt))
              [("down", [vi32 0]); ("down", [vi32 0]); ("down", [vi32 0])] with
      | Ok (outs, s') => Some (outs, m_hits (fst (snd (st_x s'))))
      | _ => None
      end
  | _ => None
  end.
Example ex_c57_memo : ex_rust_memo = Some ([Some [vi32 0]; Some [vi32 0]; Some [vi32 0]], 2%Z).
Proof. vm_compute. reflexivity. Qed.

(** ** C58: the library does not notice that there is no memory left *)
(** [ALLOC.alloc] returns a null pointer then, and the library does not check: buffers are put at
    address 0, on top of each other. The module adds its two arguments; the allocator has no cells. *)
Definition add_module : module :=
  Mod [Fn (FT [t_i32; t_i32] [t_i32]) (FPresent [] [LBasic (BLocal LGet 0); LBasic (BLocal LGet 1); LBasic (BBinary I32Add); LEnd]) ["add"]]
      [] [] [] [] [] None.
Definition add_infer (_ : nat) (l : list low) : option (list ity) :=
  Some (map (fun i => match i with
    | LBasic (BLocal LGet _) => IReach (FT [] [t_i32])
    | LBasic (BBinary _) => IReach (FT [t_i32; t_i32] [t_i32])
    | _ => IReach (FT [] []) end) l).
Lemma add_checked : check_funcs add_module add_infer = true. Proof. reflexivity. Qed.
Lemma add_valid : valid add_module.
Proof.
  constructor; simpl.
  - exact (proj1 (check_funcs_sound _ _ add_checked)).
  - constructor.
  - split; [constructor|lia].
  - intros [|i] g E; discriminate E.
  - constructor.
  - constructor.
  - exact Logic.I.
  - repeat constructor; simpl; intuition discriminate.
Qed.
Lemma add_in_format : in_format add_module.
Proof. unfold in_format, u32. simpl. split; [lia|]. repeat split; repeat (constructor; simpl); unfold u32; simpl; try lia. Qed.
Lemma add_compatible : compatible add_module (fun _ => false) (intercepts add_module true None ex_id).
Proof.
  constructor.
  - intros fn ns name [<-|[]] EC. discriminate EC.
  - intros fn x [<-|[]] Hx [<-|[]]. vm_compute in Hx. intuition discriminate.
  - intros fn locals code _ _. split; intros o ma _ H; discriminate H.
  - intros f fn [<-|[]] Nf. injection Nf as <-. simpl. lia.
Qed.
Definition add_num2 (o : binop) (a b : Z) : option Z := match o with I32Add => Some ((a + b) mod 2 ^ 32)%Z | _ => None end.
Definition add_out (A : allocator) (calls : list (string * list val)) :=
  match instrument ex_id ex_id add_infer add_module (std_ai (fun _ => false) true) None with
  | IOk m' lib => match run_module ex_num1 add_num2 (rust_forwarding ex_num1 add_num2 A no_junk no_host lib) 17 ex_imports m' (cells_start, (tt, tt)) calls with
                  | Ok (outs, _) => Some outs | _ => None end
  | _ => None
  end.

Lemma out_of_memory A calls outs : add_out A calls = Some outs ->
  exists m' sigs s', instrument ex_id ex_id add_infer add_module (std_ai (fun _ => false) true) None = IOk m' (Some sigs) /\
    run_module ex_num1 add_num2 (rust_forwarding ex_num1 add_num2 A no_junk no_host (Some sigs)) 17 ex_imports m' (cells_start, (tt, tt)) calls = Ok (outs, s').
Proof.
  unfold add_out. assert (L : match instrument ex_id ex_id add_infer add_module (std_ai (fun _ => false) true) None with IOk _ None => False | _ => True end)
    by (vm_compute; exact Logic.I).
  destruct instrument as [m' [sigs|]| |]; try contradiction; intros H; try discriminate H.
  destruct run_module as [[os s']|?| |] eqn:R; try discriminate H. injection H as <-. exists m', sigs, s'. split; [reflexivity|exact R].
Qed.
(** C58 is violated: with an allocator that always answers that there is no memory, the call of a
    function that adds its arguments returns the wrong sum, instead of trapping. *)
Theorem C58_refuted : exists A m infer m' sigs,
  (forall size align s, (0 < size)%Z -> al_alloc A size align s = Ok (0%Z, s)) /\
  valid m /\ in_format m /\ annotates infer m /\ provided_ok m ex_imports /\
  compatible m (fun _ => false) (intercepts m true None ex_id) /\
  instrument ex_id ex_id infer m (std_ai (fun _ => false) true) None = IOk m' (Some sigs) /\ rust_compiles (rust_lib sigs) = true /\
  exists s s',
    run_module ex_num1 add_num2 no_host 3 ex_imports m tt [("add", [vi32 3; vi32 4])] = Ok ([Some [vi32 7]], s) /\
    run_module ex_num1 add_num2 (rust_forwarding ex_num1 add_num2 A no_junk no_host (Some sigs)) 17 ex_imports m' (cells_start, (tt, tt)) [("add", [vi32 3; vi32 4])]
    = Ok ([Some [vi32 4]], s').
Proof.
  destruct (@out_of_memory (cells 0) [("add", [vi32 3; vi32 4])] [Some [vi32 4]]) as (m' & sigs & s' & E & R); [vm_compute; reflexivity|].
  exists (cells 0), add_module, add_infer, m', sigs.
  split. { intros size align s P. cbn [al_alloc cells]. destruct (Z.eqb_spec size 0); [lia|]. destruct (cell <? size)%Z; reflexivity. }
  split; [exact add_valid|]. split; [exact add_in_format|]. split; [exact (proj2 (check_funcs_sound _ _ add_checked))|].
  split; [constructor; intros ? ? ? H E'; simpl in H; intuition; subst; discriminate|].
  split; [exact add_compatible|]. split; [exact E|].
  split. { clear R. vm_compute in E. injection E as _ <-. vm_compute. reflexivity. }
  assert (P : match run_module ex_num1 add_num2 no_host 3 ex_imports add_module tt [("add", [vi32 3; vi32 4])] with Ok (outs, _) => outs = [Some [vi32 7]] | _ => False end)
    by (vm_compute; reflexivity).
  clear E. destruct (run_module ex_num1 add_num2 no_host 3 ex_imports add_module tt _) as [[outs s]|?| |]; try contradiction. subst outs.
  exists s, s'. split; [reflexivity|exact R].
Qed.
Print Assumptions C58_refuted.

(** ** C59: requests of zero bytes *)
(** Rust's [GlobalAlloc::alloc] must not be asked for zero bytes. The library does that for the
    signature without arguments and results, and only for that one. [strict A] is [A], but traps on
    such requests: *)
Theorem C59_other_signatures : forall A junk heap cap, allocates A heap cap -> (cap < 2 ^ 32)%Z ->
  forall sigs, ~ In (FT [] []) sigs -> forall s es obs ifs, heap [] s ->
  uses_only sigs es -> ideal es [] = Some (obs, ifs) -> (peak es [] <= cap)%Z ->
  exists vs frs s', perform (rust_call (strict A) junk (rust_lib sigs)) es [] s = Ok (vs, frs, s') /\ Forall2 sees obs vs.
Proof.
  intros A junk heap cap Al Cap sigs No s es obs ifs H U I P.
  destruct (@C56_separate_frames (strict A) junk heap cap (strict_allocates Al) Cap sigs) with (s := s) (es := es) (obs := obs) (ifs := ifs)
    as (vs & frs & s' & E & O & _); auto.
  - left. intros ft Hft ->. exact (No Hft).
  - exists vs, frs, s'. auto.
Qed.
Print Assumptions C59_other_signatures.
Example ex_c59 : ~ In (FT [] []) [ft_inner; ft_outer] /\ allocates (cells many) cells_heap cell /\ cells_heap [] cells_start /\
  uses_only [ft_inner; ft_outer] ex_history /\ (peak ex_history [] <= cell)%Z /\
  match ideal ex_history [], perform (rust_call (strict (cells many)) no_junk (rust_lib [ft_inner; ft_outer])) ex_history [] cells_start with
  | Some (obs, []), Ok (vs, [], s) => List.length vs = 5 /\ obs = map Some vs
  | _, _ => False
  end.
Proof.
  split; [intros [E|[E|[]]]; discriminate E|]. split; [exact cells_allocate|]. split; [exact cells_empty|].
  split; [intros ft [<-|[<-|[]]]; cbn; auto|]. split; [vm_compute; discriminate|]. vm_compute. repeat split.
Qed.
(** C59 is violated: already the first call of a function without arguments and results asks for
    zero bytes, whatever the allocator. *)
Theorem C59_refuted : exists ft, forall A junk (s : store unit), rust_compiles (rust_lib [ft]) = true /\
  (exists obs ifs, ideal [EEnter ft []] [] = Some (obs, ifs)) /\
  exists s', perform (rust_call (strict A) junk (rust_lib [ft])) [EEnter ft []] [] s = Trap s'.
Proof.
  exists (FT [] []). intros A junk s. split; [reflexivity|]. split; [eexists _, _; reflexivity|]. exists s. reflexivity.
Qed.
Print Assumptions C59_refuted.
