(** Property theorems C38 and C46-C53: what analyses of the repository report about a program.
    The system consists of the output module, the buffer library generated for it, the compiled
    analysis and the host (System.v). *)
From Coq Require Import Permutation.
From Verif Require Import Semantics Advice RsStdlib StackLib StackRun StackSpec PropStack System Instantiate Trace TraceProofs TraceBalance
  Typing ModuleTyping InstantiateTyping Checker ExModule PropInstrument PropSpec PropTyping ForwardRel ForwardProofs SessionProofs Recorder
  PropTransparent SystemProofs Analyses AnalysesProofs.
Local Open Scope string_scope.
Local Open Scope list_scope.

(** Kinds of executed instructions, in the order in which [opcodes] numbers them. *)
Notation kind pat := (fun e => match e with EvAdvice pat => true | _ => false end).
Definition kinds : list (event -> bool) :=
  [kind (AdIfThenElse _ _ _ _); kind (AdIfThenElsePost _); kind (AdIfThen _ _ _ _); kind (AdIfThenPost _);
   kind (AdBr _ _); kind (AdBrIf _ _ _); kind (AdBrTable _ _ _ _); kind (AdSelect _ _);
   kind (AdCallPre _ _); kind (AdCallPost _ _); kind (AdCallIndPre _ _ _); kind (AdCallIndPost _ _);
   kind (AdUnary _ _ _); kind (AdBinary _ _ _ _); kind (AdDrop _); kind (AdReturn _); kind (AdConst _ _);
   kind (AdLocal _ _ _ _); kind (AdGlobal _ _ _ _); kind (AdLoad _ _ _ _); kind (AdStore _ _ _ _ _);
   kind (AdMemorySize _ _ _); kind (AdMemoryGrow _ _ _); kind (AdBlockPre _ _ _); kind (AdBlockPost _);
   kind (AdLoopPre _ _ _); kind (AdLoopPost _)].
(** Execution of one of some binary operators. *)
Definition executes (ops : list binop) (e : event) : bool :=
  match e with EvAdvice (AdBinary o _ _ _) => if in_dec binop_eq_dec o ops then true else false | _ => false end.
(** Advice about instruction [i] of function [f]. *)
Definition loc_eqb (a b : location) : bool :=
  Z.eqb (instruction_index a) (instruction_index b) && Z.eqb (function_index a) (function_index b).
Definition place (f i : nat) : location := at_ (Meta f i (IReach (FT [] [])) false).
Definition located (f i : nat) (e : event) : bool :=
  match e with EvAdvice a => loc_eqb (location_of a) (place f i) | _ => false end.
Definition entered_loop (f i : nat) (e : event) : bool :=
  match e with EvAdvice (AdLoopPre _ _ _) => located f i e | _ => false end.
(** A call, a block, a loop, or a branch on [t], at instruction [i] of function [f]. *)
Definition takes (f i : nat) (t : Z) (e : event) : bool :=
  located f i e &&
  match e with
  | EvAdvice (AdIfThenElse c _ _ _) | EvAdvice (AdIfThen c _ _ _) | EvAdvice (AdCallIndPre c _ _) => Z.eqb c t
  | EvAdvice (AdCallPre _ _) | EvAdvice (AdBlockPre _ _ _) | EvAdvice (AdLoopPre _ _ _) => Z.eqb t 0
  | _ => false
  end.

Section Deployed.
  Context {Y : Type}.
  Variable num1 : unop -> Z -> option Z.
  Variable num2 : binop -> Z -> Z -> option Z.
  Variable N : nat.
  Variable host : string -> string -> list val -> xprog Y.
  Variable I : Y -> Prop.
  Variables ord_i ord_c : list nat -> list nat.
  Variable infer : nat -> list low -> option (list ity).
  Variable m : module.
  Variable only : option (list nat).
  Variable imp : provided.
  Variables n fuel : nat.
  Notation sigs lib := (match lib with Some l => l | None => [] end).

  (** [m'] is the output of instrumenting the valid module [m] for hooks [on], and function
      application if [generic], together with its buffer library. *)
  Record deployment (on : hook -> bool) (generic : bool) (m' : module) (lib : option (list functy)) : Prop := {
    de_steps : (70010 <= Z.of_nat N)%Z;
    de_ord_i : forall l, Permutation (ord_i l) l;
    de_ord_c : forall l, Permutation (ord_c l) l;
    de_output : instrument ord_i ord_c infer m (std_ai on generic) only = IOk m' lib;
    de_valid : valid m;
    de_format : in_format m;
    de_types : annotates infer m;
    de_imports : provided_ok m imp;
    de_host : hosts_ok host I m (plain_xty m);
    de_compatible : compatible m on (intercepts m generic only ord_i);
    de_fuel : 5 * n + 2 <= fuel }.
  Notation trace on generic := (module_trace num1 num2 host infer m on generic only n imp).
  Definition typed_calls (calls : list (string * list val)) : Prop :=
    Forall (fun c => exists ft, plain_xty m (fst c) = Some ft /\ Forall2 (val_ok (List.length (md_funcs m))) (snd c) (ft_in ft)) calls.
  (** A session of the original program. *)
  Record ran (x : Y) (calls : list (string * list val)) (outs : list (option (list val))) (s : store Y) : Prop := {
    se_host : I x;
    se_typed : typed_calls calls;
    se_plain : run_module num1 num2 host n imp m x calls = Ok (outs, s) }.

  (** The system with an analysis of state [A]. *)
  Definition under {A} (obs : A -> event -> A) (lib : option (list functy)) :=
    all_agents (Y := Y) (wat_lib num1 num2 (sigs lib) N) (record_body obs num1 num2) (tally_apply obs) host.
  Definition watched {A} (obs : A -> event -> A) (m' : module) (lib : option (list functy)) (a : A) (x : Y) calls :=
    run_module num1 num2 (under obs lib) fuel imp m' (lib_start tt, (a, x)) calls.
  (** What the analysis' state is in the end. *)
  Definition state_of {A} (s : store (sys (A * Y))) : A := fst (snd (st_x s)).

  Theorem analysis_state {A} (obs : A -> event -> A) (B : blind obs) on generic m' lib x a calls outs s :
    deployment on generic m' lib -> ran x calls outs s ->
    ~ In None outs \/ Forall in_range32 (trace on generic x calls) ->
    enough_space num1 num2 host infer m on generic only imp n x calls ->
    exists s', watched obs m' lib a x calls = Ok (outs, s') /\ same_program s s' /\
      state_of s' = fold_left obs (trace on generic x calls) a.
  Proof.
    intros [Big Pi Pc E V U AN PV HO CO Fu] [Ix T R] W Ro.
    assert (Sg : forall l, lib = Some l -> sigs lib = l) by (intros l ->; reflexivity).
    destruct (@observed_sessions Y A obs num1 num2 host I ord_i ord_c infer m on generic only imp m' (sigs lib) (wat_lib num1 num2 (sigs lib) N) (library (sigs lib)) limit True (@wat_implements num1 num2 (sigs lib) N Big) lib Pi Pc E Sg
      (record_body obs num1 num2) (tally_apply obs) (@record_notes_advice Y A obs num1 num2)
      (@tally_notes_calls Y A obs (library (sigs lib)) B) V U AN PV HO CO n fuel Fu x (lib_start tt) a
      calls outs s Ix (start_library lib) T R Ro W) as (s' & l1 & frs & ifs & R' & Ex & _).
    exists s'. split; [exact R'|]. eapply same_program_of; exact Ex.
  Qed.

  (** Without function application there are no buffers. *)
  Lemma no_buffers on x calls : enough_space num1 num2 host infer m on false only imp n x calls.
  Proof.
    assert (F : Forall (fun e => match e with EvAdvice _ => True | _ => False end) (trace on false x calls)).
    { apply module_all; try (intros; discriminate).
      - constructor.
      - intros. now apply Forall_app.
      - intros. repeat constructor. }
    intros b a E. rewrite E in F. apply Forall_app in F. destruct F as [F _].
    replace (usage m b) with 0%Z; [unfold limit; lia|]. clear E. induction F as [|[]]; simpl; auto; contradiction.
  Qed.
  Lemma analysis_state_calm {A} (obs : A -> event -> A) (B : blind obs) on m' lib x a calls outs s :
    (forall t, on (HkLoad t) = false) -> (forall t, on (HkStore t) = false) ->
    deployment on false m' lib -> ran x calls outs s ->
    exists s', watched obs m' lib a x calls = Ok (outs, s') /\ same_program s s' /\
      state_of s' = fold_left obs (trace on false x calls) a.
  Proof.
    intros L S D Se. apply analysis_state; auto using no_buffers. right. now apply module_in_range.
  Qed.

  (** ** C38: call-stack *)
  (** The deepest nesting within any of the calls of a session. *)
  Section Depth.
    Variable on : hook -> bool.
    Variable generic : bool.
    Variable w : event -> Z.
    Notation tr := (Trace.trace num1 num2 host infer m on generic only n).
    Notation plain := (call_fn num1 num2 host (md_funcs m) n).
    Fixpoint calls_depth (calls : list (string * list val)) (s : store Y) : Z :=
      match calls with
      | [] => 0
      | (name, args) :: r =>
          match export_index 0 (md_funcs m) name with
          | Some f => Z.max (peak w (tr f args s)) match plain f args s with Ok (_, s1) | Trap s1 => calls_depth r s1 | _ => 0%Z end
          | None => 0
          end
      end.
    Definition depth (x : Y) (calls : list (string * list val)) : Z :=
      match instantiate imp m x with
      | Ok s =>
          match md_start m with
          | Some f => Z.max (peak w (tr f [] s)) match plain f [] s with Ok (_, s1) => calls_depth calls s1 | _ => 0%Z end
          | None => calls_depth calls s
          end
      | _ => 0
      end.
    Hypothesis Lv : forall f args s, TraceBalance.level_ok w (plain f args s) (tr f args s).
    Lemma calls_level : forall calls s outs s', Instantiate.session (fun name args s => rbind (rget (export_index 0 (md_funcs m) name)) (fun f => plain f args s)) calls s = Ok (outs, s') -> ~ In None outs ->
      let t := session_trace num1 num2 host infer m on generic only n calls s in
      peak w t = calls_depth calls s /\ total w t = 0%Z.
    Proof.
      induction calls as [|[name args] calls IH]; intros s outs s' R NN; cbn [session_trace calls_depth] in *; [split; reflexivity|].
      cbn [Instantiate.session] in R. destruct (export_index 0 (md_funcs m) name) as [f|] eqn:Ef; [|discriminate]. cbn [rget rbind] in R.
      pose proof (Lv f args s) as L. destruct (plain f args s) as [[vs s1]|s1| |] eqn:Ec; try discriminate R.
      - destruct (Instantiate.session _ calls s1) as [[os s2]|?| |] eqn:Es; try discriminate R. injection R as <- <-.
        destruct (IH s1 os s2 Es) as [P1 P2]; [intros H; apply NN; now right|]. cbn [TraceBalance.level_ok] in L.
        cbv zeta. rewrite peak_app, total_app, L, P1, P2. split; lia.
      - exfalso. destruct (Instantiate.session _ calls s1) as [[os s2]|?| |] eqn:Es; try discriminate R. injection R as <- <-. apply NN. now left.
    Qed.
    Lemma module_level x calls outs s : run_module num1 num2 host n imp m x calls = Ok (outs, s) -> ~ In None outs ->
      let t := trace on generic x calls in peak w t = depth x calls /\ total w t = 0%Z.
    Proof.
      unfold run_module, module_trace, depth. destruct (instantiate imp m x) as [s0|?| |]; try discriminate. cbn [rbind].
      destruct (md_start m) as [f|].
      - pose proof (Lv f [] s0) as L. destruct (plain f [] s0) as [[vs s1]|?| |]; try discriminate. cbn [rbind].
        intros R NN. destruct (calls_level _ _ R NN) as [P1 P2]. cbn [TraceBalance.level_ok] in L. cbv zeta. rewrite peak_app, total_app, L, P1, P2. split; lia.
      - cbn [rbind]. intros R NN. exact (calls_level _ _ R NN).
    Qed.
  End Depth.
  Lemma apply_cancels : cancels apply_weight cs_on.
  Proof. constructor; intros; simpl; auto. destruct a; simpl; auto. Qed.
  Lemma call_cancels : cancels call_weight cs_on.
  Proof. constructor; intros; simpl; auto. destruct a; simpl; auto. Qed.
  Lemma cs_blind : blind cs_obs.
  Proof. intros a. split; reflexivity. Qed.

  (** In a session of less than 2^31 events in which no call traps, the analysis reports the number
      of calls intercepted, the number of direct calls executed, and the deepest nesting of
      each; no call is left pending. *)
  Theorem C38_counters : forall m' lib x calls outs s, deployment cs_on true m' lib -> ran x calls outs s -> ~ In None outs ->
    enough_space num1 num2 host infer m cs_on true only imp n x calls ->
    let t := trace cs_on true x calls in
    (Z.of_nat (List.length t) < 2 ^ 31)%Z ->
    exists s', watched cs_obs m' lib cs_zero x calls = Ok (outs, s') /\ same_program s s' /\
      number_of_applies (state_of s') = count is_enter t /\
      max_apply_depth (state_of s') = depth cs_on true apply_weight x calls /\
      number_of_calls (state_of s') = count is_call t /\
      max_call_depth (state_of s') = depth cs_on true call_weight x calls /\
      apply_stack (state_of s') = 0%Z /\ calls_stack (state_of s') = 0%Z.
  Proof.
    intros m' lib x calls outs s D R NN Sp t Lt.
    destruct (analysis_state cs_blind cs_zero D R (or_introl NN) Sp) as (s' & Ru & Sm & St). exists s'. split; [exact Ru|]. split; [exact Sm|].
    fold t in St. rewrite (cs_from_zero _ Lt) in St. rewrite St. cbn [number_of_applies max_apply_depth number_of_calls max_call_depth apply_stack calls_stack].
    destruct (@module_level cs_on true apply_weight (lo_trace num1 num2 host true only apply_cancels (de_types D) n) x calls outs s (se_plain R) NN) as [A1 A2].
    destruct (@module_level cs_on true call_weight (lo_trace num1 num2 host true only call_cancels (de_types D) n) x calls outs s (se_plain R) NN) as [B1 B2].
    fold t in A1, A2, B1, B2. auto 10.
  Qed.

  (** ** C54: buffers *)
  Definition bytes_weight (e : event) : Z :=
    match e with EvEnter f _ _ => call_bytes m f | EvLeave f _ => - call_bytes m f | EvAdvice _ => 0%Z end.
  Lemma bytes_cancel on : cancels bytes_weight on.
  Proof. constructor; intros; simpl; auto; [destruct a; auto|lia]. Qed.
  (** After a session in which no call traps, the allocator of the buffer library is back where it
      started, whatever the program, its host and the order of calls. *)
  Theorem C54_released {A} : forall (obs : A -> event -> A) on generic m' lib x a calls outs s, blind obs ->
    deployment on generic m' lib -> ran x calls outs s -> ~ In None outs ->
    enough_space num1 num2 host infer m on generic only imp n x calls ->
    exists s', watched obs m' lib a x calls = Ok (outs, s') /\ same_program s s' /\
      nth_error (st_globals (fst (st_x s'))) 0 = Some (vi32 0).
  Proof.
    intros obs on generic m' lib x a calls outs s B [Big Pi Pc E V U AN PV HO CO Fu] [Ix T R] NN Ro.
    assert (Sg : forall l, lib = Some l -> sigs lib = l) by (intros l ->; reflexivity).
    destruct (@observed_sessions Y A obs num1 num2 host I ord_i ord_c infer m on generic only imp m' (sigs lib) (wat_lib num1 num2 (sigs lib) N) (library (sigs lib)) limit True (@wat_implements num1 num2 (sigs lib) N Big) lib Pi Pc E Sg
      (record_body obs num1 num2) (tally_apply obs) (@record_notes_advice Y A obs num1 num2)
      (@tally_notes_calls Y A obs (library (sigs lib)) B) V U AN PV HO CO n fuel Fu x (lib_start tt) a
      calls outs s Ix (start_library lib) T R Ro (or_introl NN)) as (s' & l1 & frs & ifs & R' & Ex & (p & pg & f & El & Hi) & Lv).
    exists s'. split; [exact R'|]. split; [eapply same_program_of; exact Ex|].
    destruct Ex as (_ & _ & _ & Ex & _). rewrite Ex. cbn [lift st_x fst]. subst l1. cbn [L st_globals nth_error].
    rewrite (library_live num1 num2 N Hi). repeat f_equal.
    destruct (@module_level on generic bytes_weight (lo_trace num1 num2 host generic only (bytes_cancel on) AN n) x calls outs s R NN) as [_ Z0].
    rewrite (usage_total m) in Lv. fold bytes_weight in Lv. cbv zeta in Z0. rewrite Z0 in Lv.
    assert (0 <= live (map if_type ifs))%Z; [|lia]. generalize (map if_type ifs). intros l. induction l as [|ft l IH]; simpl; [lia|]. unfold frame_bytes. lia.
  Qed.

  (** ** C46: opcodes *)
  Lemma opcodes_blind : blind opcodes_obs. Proof. intros a. split; reflexivity. Qed.
  Lemma kinds_index k p : nth_error kinds k = Some p -> forall e, p e = has_index k e.
  Proof.
    intros H e. do 27 (destruct k as [|k]; [simpl in H; injection H as <-; destruct e as [[]| |]; reflexivity|]). destruct k; discriminate H.
  Qed.
  Theorem C46_histogram : forall m' lib x calls outs s, deployment every_hook false m' lib -> ran x calls outs s ->
    let t := trace every_hook false x calls in
    ~ In None outs \/ Forall in_range32 t ->
    exists s', watched opcodes_obs m' lib opcodes_zero x calls = Ok (outs, s') /\ same_program s s' /\
      (forall k p, nth_error kinds k = Some p -> get_count_instr (state_of s') (Z.of_nat k) = Some (count p t mod 2 ^ 32)%Z) /\
      (forall k, (27 <= k < 2 ^ 32)%Z -> get_count_instr (state_of s') k = None).
  Proof.
    intros m' lib x calls outs s D R t W.
    destruct (analysis_state opcodes_blind opcodes_zero D R W (no_buffers _ _ _)) as (s' & Ru & Sm & St).
    exists s'. split; [exact Ru|]. split; [exact Sm|]. fold t in St. rewrite St. clear St.
    assert (Wr := wraps_mod 32).
    assert (G : forall j, nth_error (fold_left opcodes_obs t opcodes_zero) j =
      option_map (fun c => (c + count (has_index j) t) mod 2 ^ 32)%Z (nth_error opcodes_zero j)).
    { intros j. rewrite (@array_counts _ Wr (fun e => match e with EvAdvice a => Some (opcode_index a) | _ => None end)).
      - destruct (nth_error opcodes_zero j); [|reflexivity]. cbn [option_map]. do 3 f_equal. unfold count.
        apply (f_equal (fun l => Z.of_nat (List.length l))). apply filter_ext. intros []; reflexivity.
      - intros l []; reflexivity.
      - destruct (nth_error opcodes_zero j) as [c|] eqn:E; [|now left]. right. exists 0%Z.
        apply nth_error_In, repeat_spec in E. now subst c. }
    unfold get_count_instr. split.
    - intros k p H. pose proof (proj1 (nth_error_Some _ _) (ltac:(congruence) : nth_error kinds k <> None)) as Hk. change (List.length kinds) with 27 in Hk.
      rewrite Z.mod_small, Nat2Z.id by lia. rewrite G. unfold opcodes_zero. rewrite (nth_error_repeat 0%Z) by exact Hk. cbn [option_map].
      rewrite Z.add_0_l. do 2 f_equal. unfold count. apply (f_equal (fun l => Z.of_nat (List.length l))).
      apply filter_ext. intros e. symmetry. now apply kinds_index.
    - intros k H. rewrite Z.mod_small by lia. rewrite G. replace (nth_error opcodes_zero (Z.to_nat k)) with (@None Z); [reflexivity|].
      symmetry. apply nth_error_None. change (List.length opcodes_zero) with 27. lia.
  Qed.

  (** ** C47: cryptominer-detection *)
  Lemma signature_blind : blind signature_obs. Proof. intros a. split; reflexivity. Qed.
  Definition signature_classes : list (list binop) :=
    [[I32Add; I64Add; F32Add; F64Add]; [I32And; I64And]; [I32Shl; I64Shl]; [I32ShrU; I64ShrU]; [I32Xor; I64Xor]].
  Theorem C47_signature : forall m' lib x calls outs s, deployment binary_hooks false m' lib -> ran x calls outs s ->
    let t := trace binary_hooks false x calls in (Z.of_nat (List.length t) < 2 ^ 63)%Z ->
    exists s', watched signature_obs m' lib signature_zero x calls = Ok (outs, s') /\ same_program s s' /\
      (forall k ops, nth_error signature_classes k = Some ops -> get_signature (state_of s') (Z.of_nat k) = Some (count (executes ops) t)) /\
      (forall index, (index < 0 \/ 5 <= index)%Z -> get_signature (state_of s') index = None).
  Proof.
    intros m' lib x calls outs s D R t Lt.
    destruct (@analysis_state_calm _ _ signature_blind binary_hooks m' lib x signature_zero calls outs s (fun _ => eq_refl) (fun _ => eq_refl) D R) as (s' & Ru & Sm & St).
    exists s'. split; [exact Ru|]. split; [exact Sm|]. fold t in St. rewrite St. clear St.
    assert (Wr : wraps (wrapS 64)) by (apply wraps_signed; reflexivity).
    split; [|intros index Hi; unfold get_signature; destruct (Z.ltb_spec index 0); [reflexivity|];
      assert (Zn : nth_error signature_zero (Z.to_nat index) = None) by (apply nth_error_None; change (List.length signature_zero) with 5; lia);
      rewrite (@array_counts _ Wr (fun e => match e with EvAdvice (AdBinary o _ _ _) => signature_index o | _ => None end));
      [now rewrite Zn|intros l [[]| |]; reflexivity|now left]].
    intros k ops H. pose proof (proj1 (nth_error_Some _ _) (ltac:(congruence) : nth_error signature_classes k <> None)) as Hk. change (List.length signature_classes) with 5 in Hk.
    unfold get_signature. replace (Z.of_nat k <? 0)%Z with false by (symmetry; apply Z.ltb_ge; lia). rewrite Nat2Z.id.
    assert (Z0 : nth_error signature_zero k = Some 0%Z) by (apply nth_error_repeat; exact Hk).
    rewrite (@array_counts _ Wr (fun e => match e with EvAdvice (AdBinary o _ _ _) => signature_index o | _ => None end)).
    - rewrite Z0. cbn [option_map]. rewrite Z.add_0_l. f_equal.
      replace (count _ t) with (count (executes ops) t).
      + apply wrapS_small; [reflexivity|]. pose proof (count_nonneg (executes ops) t). pose proof (count_le (executes ops) t). cbn. lia.
      + unfold count. apply (f_equal (fun l => Z.of_nat (List.length l))). apply filter_ext. intros e.
        do 5 (destruct k as [|k]; [simpl in H; injection H as <-; destruct e as [[]| |]; try reflexivity; destruct o; reflexivity|]). lia.
    - intros l [[]| |]; reflexivity.
    - right. exists 0%Z. rewrite Z0. reflexivity.
  Qed.

  (** ** C48: coverage-instruction *)
  Lemma coverage_blind : blind coverage_obs. Proof. intros a. split; reflexivity. Qed.
  Lemma located_key f i a : located f i (EvAdvice a) = eqb2 (Z.of_nat i, Z.of_nat f) (key_of (location_of a)).
  Proof.
    unfold located, loc_eqb, eqb2, place, at_, key_of. simpl. rewrite andb_comm. f_equal; apply Z.eqb_sym.
  Qed.
  (** What is reported for function [i] and instruction [f] is the coverage of instruction [i] of function [f]. *)
  Theorem C48_exchanged : forall m' lib x calls outs s, deployment every_hook false m' lib -> ran x calls outs s ->
    let t := trace every_hook false x calls in
    ~ In None outs \/ Forall in_range32 t ->
    exists s', watched coverage_obs m' lib [] x calls = Ok (outs, s') /\ same_program s s' /\
      forall f i, get_coverage (state_of s') (Z.of_nat i) (Z.of_nat f) = if existsb (located f i) t then 1%Z else 0%Z.
  Proof.
    intros m' lib x calls outs s D R t W.
    destruct (analysis_state coverage_blind [] D R W (no_buffers _ _ _)) as (s' & Ru & Sm & St).
    exists s'. split; [exact Ru|]. split; [exact Sm|]. fold t in St. rewrite St. clear St. intros f i. unfold get_coverage.
    rewrite (@inserted _ eqb2 eqb2_eq (fun e => match e with EvAdvice a => Some (key_of (location_of a)) | _ => None end) _ true coverage_obs (ltac:(intros ? []; reflexivity))).
    replace (existsb (located f i) t) with (existsb (hits eqb2 (fun e => match e with EvAdvice a => Some (key_of (location_of a)) | _ => None end) (Z.of_nat i, Z.of_nat f)) t).
    - destruct (existsb _ t); reflexivity.
    - generalize t. intros t0. induction t0 as [|e t' IH]; [reflexivity|]. simpl. rewrite IH. f_equal. destruct e; try reflexivity. symmetry. apply located_key.
  Qed.

  (** ** C49: loops *)
  Lemma loops_blind : blind loops_obs. Proof. intros a. split; reflexivity. Qed.
  (** Every count is one too low, and indices are exchanged. *)
  Theorem C49_off_by_one : forall m' lib x calls outs s, deployment loop_hooks false m' lib -> ran x calls outs s ->
    let t := trace loop_hooks false x calls in
    exists s', watched loops_obs m' lib [] x calls = Ok (outs, s') /\ same_program s s' /\
      forall f i, loops_get (state_of s') (Z.of_nat i) (Z.of_nat f) = wrapS 32 (count (entered_loop f i) t - 1).
  Proof.
    intros m' lib x calls outs s D R t.
    destruct (@analysis_state_calm _ _ loops_blind loop_hooks m' lib x [] calls outs s (fun _ => eq_refl) (fun _ => eq_refl) D R) as (s' & Ru & Sm & St).
    exists s'. split; [exact Ru|]. split; [exact Sm|]. fold t in St. rewrite St. clear St. intros f i. unfold loops_get.
    assert (Wr : wraps (wrapS 32)) by (apply wraps_signed; reflexivity).
    set (key e := match e with EvAdvice (AdLoopPre _ _ l) => Some (key_of l) | _ => None end).
    rewrite (@keyed_counts _ eqb2 eqb2_eq key _ Wr) by (intros ? [[]| |]; reflexivity). cbv zeta.
    replace (count (hits eqb2 key (Z.of_nat i, Z.of_nat f)) t) with (count (entered_loop f i) t).
    - destruct (count (entered_loop f i) t =? 0)%Z eqn:E; [|reflexivity]. apply Z.eqb_eq in E. rewrite E. reflexivity.
    - unfold count. apply (f_equal (fun l => Z.of_nat (List.length l))). apply filter_ext. intros [[]| |]; try reflexivity. apply located_key.
  Qed.

  (** ** C50: block-profiling *)
  Lemma blocks_blind : blind blocks_obs. Proof. intros a. split; reflexivity. Qed.
  Theorem C50_off_by_one : forall m' lib x calls outs s, deployment block_hooks false m' lib -> ran x calls outs s ->
    let t := trace block_hooks false x calls in (Z.of_nat (List.length t) < 2 ^ 63)%Z ->
    exists s', watched blocks_obs m' lib [] x calls = Ok (outs, s') /\ same_program s s' /\
      forall f i c, blocks_get (state_of s') (Z.of_nat i) (Z.of_nat f) c = Z.max 0 (count (takes f i c) t - 1).
  Proof.
    intros m' lib x calls outs s D R t Lt.
    destruct (@analysis_state_calm _ _ blocks_blind block_hooks m' lib x [] calls outs s (fun _ => eq_refl) (fun _ => eq_refl) D R) as (s' & Ru & Sm & St).
    exists s'. split; [exact Ru|]. split; [exact Sm|]. fold t in St. rewrite St. clear St. intros f i c. unfold blocks_get.
    assert (Wr : wraps (wrapS 64)) by (apply wraps_signed; reflexivity).
    set (key e := match e with EvAdvice a => match block_target a with Some t => Some (key_of (location_of a), t) | None => None end | _ => None end).
    rewrite (@keyed_counts _ eqb3 eqb3_eq key _ Wr) by (intros ? [a| |]; try reflexivity; unfold blocks_obs, key; destruct (block_target a); reflexivity). cbv zeta.
    replace (count (hits eqb3 key (Z.of_nat i, Z.of_nat f, c)) t) with (count (takes f i c) t).
    - pose proof (count_nonneg (takes f i c) t). pose proof (count_le (takes f i c) t).
      destruct (count (takes f i c) t =? 0)%Z eqn:E; [apply Z.eqb_eq in E; lia|]. apply Z.eqb_neq in E.
      rewrite wrapS_small; [lia|reflexivity|cbn; lia].
    - unfold count. apply (f_equal (fun l => Z.of_nat (List.length l))). apply filter_ext. intros [a| |]; try reflexivity.
      unfold takes, hits, key. rewrite located_key. destruct a; cbn [block_target location_of]; unfold eqb3; cbn [fst snd]; rewrite ?andb_false_r; try reflexivity;
        f_equal; apply Z.eqb_sym.
  Qed.

  (** ** C51: globals *)
  Lemma globals_blind : blind globals_obs. Proof. intros a. split; reflexivity. Qed.
  (** The first access of each global is not counted. *)
  Theorem C51_first_lost : forall m' lib x calls outs s, deployment global_hooks false m' lib -> ran x calls outs s ->
    let t := trace global_hooks false x calls in
    exists s', watched globals_obs m' lib [] x calls = Ok (outs, s') /\ same_program s s' /\
      forall g, match accesses (Z.of_nat g) t with
        | [] => get_inc (state_of s') (Z.of_nat g) 0 = (-2)%Z /\ get_inc (state_of s') (Z.of_nat g) 1 = (-2)%Z
        | _ :: later => get_inc (state_of s') (Z.of_nat g) 0 = wrapS 32 (count is_get later) /\
                        get_inc (state_of s') (Z.of_nat g) 1 = wrapS 32 (count is_set later)
        end.
  Proof.
    intros m' lib x calls outs s D R t.
    destruct (@analysis_state_calm _ _ globals_blind global_hooks m' lib x [] calls outs s (fun _ => eq_refl) (fun _ => eq_refl) D R) as (s' & Ru & Sm & St).
    exists s'. split; [exact Ru|]. split; [exact Sm|]. fold t in St. rewrite St. clear St. intros g. unfold get_inc. rewrite globals_counts.
    destruct (accesses (Z.of_nat g) t); split; reflexivity.
  Qed.

  (** ** C52: call-graph *)
  Lemma edges_blind : blind edges_obs. Proof. intros a. split; reflexivity. Qed.
  (** The reported origin of an edge is the position of the call within its function. *)
  Definition calls_to (from : Z) (g : nat) (e : event) : bool :=
    match e with EvAdvice (AdCallPre g' l) => Z.eqb from (function_index l) && Z.eqb (Z.of_nat g) g' | _ => false end.
  Theorem C52_edges : forall m' lib x calls outs s, deployment call_hooks false m' lib -> ran x calls outs s ->
    let t := trace call_hooks false x calls in
    exists s', watched edges_obs m' lib [] x calls = Ok (outs, s') /\ same_program s s' /\
      forall i g, has_edge (state_of s') i (Z.of_nat g) = existsb (calls_to i g) t.
  Proof.
    intros m' lib x calls outs s D R t.
    destruct (@analysis_state_calm _ _ edges_blind call_hooks m' lib x [] calls outs s (fun _ => eq_refl) (fun _ => eq_refl) D R) as (s' & Ru & Sm & St).
    exists s'. split; [exact Ru|]. split; [exact Sm|]. fold t in St. rewrite St. clear St. intros i g. unfold has_edge.
    rewrite (@inserted _ eqb2 eqb2_eq (fun e => match e with EvAdvice (AdCallPre g l) => Some (function_index l, g) | _ => None end) _ tt edges_obs (ltac:(intros ? [[]| |]; reflexivity))).
    replace (existsb (calls_to i g) t) with (existsb (hits eqb2 (fun e => match e with EvAdvice (AdCallPre g l) => Some (function_index l, g) | _ => None end) (i, Z.of_nat g)) t).
    - destruct (existsb _ t); reflexivity.
    - generalize t. intros t0. induction t0 as [|e t' IH]; [reflexivity|]. simpl. rewrite IH. f_equal. destruct e as [[]| |]; reflexivity.
  Qed.

  (** ** C53: icount *)
  Lemma icount_blind : blind icount_obs. Proof. intros a. split; reflexivity. Qed.
  (** Whatever kind is asked for, the answer is about if-else instructions, at position [i] of all functions; kind 0 panics. *)
  Theorem C53_answers : forall m' lib x calls outs s, deployment every_hook false m' lib -> ran x calls outs s ->
    let t := trace every_hook false x calls in
    ~ In None outs \/ Forall in_range32 t ->
    exists s', watched icount_obs m' lib [] x calls = Ok (outs, s') /\ same_program s s' /\
      forall i k, (0 <= k < 2 ^ 31)%Z -> icount_get (state_of s') i k =
        match filter (fun e => match e with EvAdvice a => Z.eqb i (function_index (location_of a)) | _ => false end) t with
        | [] => Some (-1)%Z
        | _ :: later => if Z.eqb k 0 then None else Some (wrapS 32 (count (kind (AdIfThenElse _ _ _ _)) later))
        end.
  Proof.
    intros m' lib x calls outs s D R t W.
    destruct (analysis_state icount_blind [] D R W (no_buffers _ _ _)) as (s' & Ru & Sm & St).
    exists s'. split; [exact Ru|]. split; [exact Sm|]. fold t in St. rewrite St. clear St. intros i k Hk. unfold icount_get.
    rewrite icount_counts. unfold in_function. destruct (filter _ t) as [|e later]; [reflexivity|].
    rewrite Z.mod_small by lia. destruct (k =? 0)%Z; [reflexivity|].
    pose proof (@icount_nth 0 later ltac:(unfold opcode_count; lia)) as H0. destruct (fold_left icount_step later opcodes_zero) as [|c r]; [discriminate H0|].
    simpl in H0. injection H0 as ->. do 2 f_equal. unfold count. apply (f_equal (fun l => Z.of_nat (List.length l))). apply filter_ext. intros [[]| |]; reflexivity.
  Qed.
End Deployed.
Print Assumptions C38_counters.
Print Assumptions C54_released.
Print Assumptions C46_histogram.
Print Assumptions C47_signature.
Print Assumptions C48_exchanged.
Print Assumptions C49_off_by_one.
Print Assumptions C50_off_by_one.
Print Assumptions C51_first_lost.
Print Assumptions C52_edges.
Print Assumptions C53_answers.

(** ** Examples and witnesses *)
Lemma compatible_less m on on' is : (forall h, on' h = true -> on h = true) -> compatible m on is -> compatible m on' is.
Proof.
  intros L [A B C D]. constructor; auto. intros fn locals code H E. destruct (C fn locals code H E) as [P Q]. split; eauto.
Qed.
(** [spin 1] goes round its loop twice, reading the global each time, and then calls function 0. *)
Definition spin_code : list low :=
  [LBasic BNop; LLoop (FT [] []); LBasic (BGlobal GGet 0); LBasic BDrop; LBasic (BLocal LGet 0); LBasic (BConst TI32 0);
   LBasic (BLocal LSet 0); LBasic (BBrIf 0); LEnd; LBasic (BCall 0);
   LBasic (BConst TI32 1); LBasic (BConst TI32 2); LBasic (BBinary I32Xor); LBasic BDrop; LEnd].
Definition spin_module : module :=
  Mod [Fn (FT [] []) (FPresent [] [LBasic BNop; LEnd]) []; Fn (FT [t_i32] []) (FPresent [] spin_code) ["spin"]]
      [] [] [Glb t_i32 true [LBasic (BConst TI32 7); LEnd] None []] [] [] None.
Definition spin_infer (_ : nat) (l : list low) : option (list ity) :=
  Some (map (fun i => match i with
    | LBasic (BConst TI32 _) | LBasic (BLocal LGet _) | LBasic (BGlobal GGet _) => IReach (FT [] [t_i32])
    | LBasic (BLocal LSet _) | LBasic BDrop | LBasic (BBrIf _) => IReach (FT [t_i32] [])
    | LBasic (BBinary _) => IReach (FT [t_i32; t_i32] [t_i32])
    | _ => IReach (FT [] []) end) l).
Lemma spin_checked : check_funcs spin_module spin_infer = true. Proof. reflexivity. Qed.
Lemma spin_valid : valid spin_module.
Proof.
  constructor; simpl.
  - exact (proj1 (check_funcs_sound _ _ spin_checked)).
  - constructor.
  - split; [constructor|lia].
  - intros [|[|i]] g E; simpl in E; try discriminate. injection E as <-. intros _. simpl. auto.
  - constructor.
  - constructor.
  - exact Logic.I.
  - repeat constructor; simpl; intuition discriminate.
Qed.
Lemma spin_in_format : in_format spin_module.
Proof. unfold in_format, u32. simpl. split; [lia|]. repeat split; repeat (constructor; simpl); unfold u32; simpl; try lia. Qed.
Lemma spin_compatible : compatible spin_module every_hook (intercepts spin_module false None ex_id).
Proof.
  constructor.
  - intros fn ns name Hf EC. simpl in Hf. repeat destruct Hf as [<-|Hf]; try discriminate EC; destruct Hf.
  - intros fn x Hf Hx Hi. simpl in Hf. repeat destruct Hf as [<-|Hf]; try destruct Hf; simpl in Hi;
      repeat destruct Hi as [<-|Hi]; try destruct Hi; vm_compute in Hx; intuition discriminate.
  - intros fn locals code Hf EC. simpl in Hf. repeat destruct Hf as [<-|Hf]; try discriminate EC; try destruct Hf;
      injection EC as <- <-; split; intros o ma Hi _; simpl in Hi; repeat (destruct Hi as [Hi|Hi]; [discriminate Hi|]); destruct Hi.
  - intros f fn [].
Qed.

Definition silent (ns name : string) (args : list val) : xprog unit := XTrap.
Definition spin_calls : list (string * list val) := [("spin", [vi32 1])].
Notation spin_deployment := (deployment ex_steps silent (fun _ => True) ex_id ex_id spin_infer spin_module None ex_imports 8 42).
Notation spin_trace on := (module_trace ex_num1 ex_num2 silent spin_infer spin_module on false None 8 ex_imports tt spin_calls).
Notation spin_ran := (ran ex_num1 ex_num2 silent (fun _ => True) spin_module ex_imports 8 tt spin_calls [Some []]).
Lemma spin_runs : exists s, spin_ran s.
Proof.
  assert (P : match run_module ex_num1 ex_num2 silent 8 ex_imports spin_module tt spin_calls with Ok (outs, _) => outs = [Some []] | _ => False end)
    by (vm_compute; reflexivity).
  destruct (run_module ex_num1 ex_num2 silent 8 ex_imports spin_module tt spin_calls) as [[outs s]|?| |] eqn:E; try contradiction.
  subst outs. exists s. constructor; [exact Logic.I| |exact E].
  apply Forall_cons; [|constructor]. eexists. split; [reflexivity|]. repeat constructor.
Qed.
Lemma spin_deployed on m' : instrument ex_id ex_id spin_infer spin_module (std_ai on false) None = IOk m' None -> spin_deployment on false m' None.
Proof.
  intros E. constructor.
  - unfold ex_steps. lia.
  - intros. apply Permutation_refl.
  - intros. apply Permutation_refl.
  - exact E.
  - exact spin_valid.
  - exact spin_in_format.
  - exact (proj2 (check_funcs_sound _ _ spin_checked)).
  - constructor; intros ? ? ? H E'; simpl in H; intuition; subst; discriminate.
  - intros [|[|f]] fn ns name args Nf EC F; simpl in Nf; try (injection Nf as <-; discriminate EC). destruct f; discriminate Nf.
  - apply compatible_less with (on := every_hook); [reflexivity|exact spin_compatible].
  - lia.
Qed.
Ltac spin_output on m' E :=
  destruct (instrument ex_id ex_id spin_infer spin_module (std_ai on false) None) as [m' lib| |] eqn:E; [|vm_compute in E; discriminate E..];
  assert (lib = None) by (vm_compute in E; injection E as _ <-; reflexivity); subst lib.
Lemma spin_all_returned : ~ In None [@Some (list val) []].
Proof. intros [H|[]]. discriminate H. Qed.

(** C46: two loop entries, four constants; C47: one xor. *)
Example ex_opcodes : exists m' s s', spin_deployment every_hook false m' None /\ spin_ran s /\
  watched ex_num1 ex_num2 ex_steps silent ex_imports 42 opcodes_obs m' None opcodes_zero tt spin_calls = Ok ([Some []], s') /\
  get_count_instr (state_of s') 25 = Some 2%Z /\ get_count_instr (state_of s') 16 = Some 4%Z /\ get_count_instr (state_of s') 27 = None.
Proof.
  spin_output every_hook m' E. destruct spin_runs as (s & R).
  destruct (@C46_histogram _ _ _ _ _ _ _ _ _ _ _ _ _ _ m' None _ _ _ _ (spin_deployed _ E) R (or_introl spin_all_returned)) as (s' & Ru & _ & K & O).
  exists m', s, s'. split; [exact (spin_deployed _ E)|]. split; [exact R|]. split; [exact Ru|].
  split; [exact (K 25 _ eq_refl)|]. split; [exact (K 16 _ eq_refl)|]. apply O. lia.
Qed.
Example ex_signature : exists m' s s', spin_deployment binary_hooks false m' None /\ spin_ran s /\
  watched ex_num1 ex_num2 ex_steps silent ex_imports 42 signature_obs m' None signature_zero tt spin_calls = Ok ([Some []], s') /\
  get_signature (state_of s') 4 = Some 1%Z /\ get_signature (state_of s') 0 = Some 0%Z.
Proof.
  spin_output binary_hooks m' E. destruct spin_runs as (s & R).
  destruct (@C47_signature _ _ _ _ _ _ _ _ _ _ _ _ _ _ m' None _ _ _ _ (spin_deployed _ E) R (ltac:(vm_compute; reflexivity))) as (s' & Ru & _ & K & _).
  exists m', s, s'. split; [exact (spin_deployed _ E)|]. split; [exact R|]. split; [exact Ru|].
  split; [exact (K 4 _ eq_refl)|exact (K 0 _ eq_refl)].
Qed.

(** C48 is violated: the call at position 9 of function 1 is executed, yet reported as not covered. *)
Theorem C48_refuted : exists m' s s', spin_deployment every_hook false m' None /\ spin_ran s /\
  watched ex_num1 ex_num2 ex_steps silent ex_imports 42 coverage_obs m' None [] tt spin_calls = Ok ([Some []], s') /\
  existsb (located 1 9) (spin_trace every_hook) = true /\
  get_coverage (state_of s') 1 9 = 0%Z /\ get_coverage (state_of s') 9 1 = 1%Z.
Proof.
  spin_output every_hook m' E. destruct spin_runs as (s & R).
  destruct (@C48_exchanged _ _ _ _ _ _ _ _ _ _ _ _ _ _ m' None _ _ _ _ (spin_deployed _ E) R (or_introl spin_all_returned)) as (s' & Ru & _ & K).
  exists m', s, s'. split; [exact (spin_deployed _ E)|]. split; [exact R|]. split; [exact Ru|].
  split; [vm_compute; reflexivity|]. split; [exact (K 9 1)|exact (K 1 9)].
Qed.
(** C49 is violated: the loop at position 1 of function 1 is entered twice, the report says once. *)
Theorem C49_refuted : exists m' s s', spin_deployment loop_hooks false m' None /\ spin_ran s /\
  watched ex_num1 ex_num2 ex_steps silent ex_imports 42 loops_obs m' None [] tt spin_calls = Ok ([Some []], s') /\
  count (entered_loop 1 1) (spin_trace loop_hooks) = 2%Z /\ loops_get (state_of s') 1 1 = 1%Z.
Proof.
  spin_output loop_hooks m' E. destruct spin_runs as (s & R).
  destruct (@C49_off_by_one _ _ _ _ _ _ _ _ _ _ _ _ _ _ m' None _ _ _ _ (spin_deployed _ E) R) as (s' & Ru & _ & K).
  exists m', s, s'. split; [exact (spin_deployed _ E)|]. split; [exact R|]. split; [exact Ru|].
  split; [vm_compute; reflexivity|exact (K 1 1)].
Qed.
(** C50 is violated in the same way. *)
Theorem C50_refuted : exists m' s s', spin_deployment block_hooks false m' None /\ spin_ran s /\
  watched ex_num1 ex_num2 ex_steps silent ex_imports 42 blocks_obs m' None [] tt spin_calls = Ok ([Some []], s') /\
  count (takes 1 1 0) (spin_trace block_hooks) = 2%Z /\ blocks_get (state_of s') 1 1 0 = 1%Z.
Proof.
  spin_output block_hooks m' E. destruct spin_runs as (s & R).
  destruct (@C50_off_by_one _ _ _ _ _ _ _ _ _ _ _ _ _ _ m' None _ _ _ _ (spin_deployed _ E) R (ltac:(vm_compute; reflexivity))) as (s' & Ru & _ & K).
  exists m', s, s'. split; [exact (spin_deployed _ E)|]. split; [exact R|]. split; [exact Ru|].
  split; [vm_compute; reflexivity|exact (K 1 1 0%Z)].
Qed.
(** C51 is violated: global 0 is read twice, the report says once. *)
Theorem C51_refuted : exists m' s s', spin_deployment global_hooks false m' None /\ spin_ran s /\
  watched ex_num1 ex_num2 ex_steps silent ex_imports 42 globals_obs m' None [] tt spin_calls = Ok ([Some []], s') /\
  accesses 0 (spin_trace global_hooks) = [GGet; GGet] /\ get_inc (state_of s') 0 0 = 1%Z.
Proof.
  spin_output global_hooks m' E. destruct spin_runs as (s & R).
  destruct (@C51_first_lost _ _ _ _ _ _ _ _ _ _ _ _ _ _ m' None _ _ _ _ (spin_deployed _ E) R) as (s' & Ru & _ & K).
  assert (A : accesses 0 (spin_trace global_hooks) = [GGet; GGet]) by (vm_compute; reflexivity).
  exists m', s, s'. split; [exact (spin_deployed _ E)|]. split; [exact R|]. split; [exact Ru|]. split; [exact A|].
  specialize (K 0). cbv zeta in K. change (Z.of_nat 0) with 0%Z in K. rewrite A in K. exact (proj1 K).
Qed.
(** C52 is violated: function 1 calls function 0, the report says function 9 does. *)
Theorem C52_refuted : exists m' s s', spin_deployment call_hooks false m' None /\ spin_ran s /\
  watched ex_num1 ex_num2 ex_steps silent ex_imports 42 edges_obs m' None [] tt spin_calls = Ok ([Some []], s') /\
  In (EvAdvice (AdCallPre 0 (place 1 9))) (spin_trace call_hooks) /\
  has_edge (state_of s') 1 0 = false /\ has_edge (state_of s') 9 0 = true.
Proof.
  spin_output call_hooks m' E. destruct spin_runs as (s & R).
  destruct (@C52_edges _ _ _ _ _ _ _ _ _ _ _ _ _ _ m' None _ _ _ _ (spin_deployed _ E) R) as (s' & Ru & _ & K).
  exists m', s, s'. split; [exact (spin_deployed _ E)|]. split; [exact R|]. split; [exact Ru|].
  split; [vm_compute; auto|]. split; [exact (K 1%Z 0)|exact (K 9%Z 0)].
Qed.
(** C53 is violated: four constants are executed in function 1, the report says none. *)
Theorem C53_refuted : exists m' s s', spin_deployment every_hook false m' None /\ spin_ran s /\
  watched ex_num1 ex_num2 ex_steps silent ex_imports 42 icount_obs m' None [] tt spin_calls = Ok ([Some []], s') /\
  count (fun e => match e with EvAdvice (AdConst _ l) => Z.eqb (instruction_index l) 1 | _ => false end) (spin_trace every_hook) = 4%Z /\
  icount_get (state_of s') 1 16 = Some 0%Z /\ icount_get (state_of s') 1 0 = None.
Proof.
  spin_output every_hook m' E. destruct spin_runs as (s & R).
  destruct (@C53_answers _ _ _ _ _ _ _ _ _ _ _ _ _ _ m' None _ _ _ _ (spin_deployed _ E) R (or_introl spin_all_returned)) as (s' & Ru & _ & K).
  exists m', s, s'. split; [exact (spin_deployed _ E)|]. split; [exact R|]. split; [exact Ru|].
  split; [vm_compute; reflexivity|]. split.
  - rewrite (K 1%Z 16%Z) by lia. vm_compute. reflexivity.
  - rewrite (K 1%Z 0%Z) by lia. vm_compute. reflexivity.
Qed.
Print Assumptions C48_refuted.
Print Assumptions C49_refuted.
Print Assumptions C50_refuted.
Print Assumptions C51_refuted.
Print Assumptions C52_refuted.
Print Assumptions C53_refuted.
