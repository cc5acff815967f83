(** C30: what the final merge is given. *)
From Coq Require Import Permutation.
From Verif Require Import Pipeline InstrumentProofs ExModule Advice.
Local Open Scope string_scope.
Local Open Scope list_scope.

(** Position of the module the user asks to be the first one. *)
Definition first_choice (sel : option primary) : option string :=
  match sel with
  | Some PInstrumentation => Some "wastrumentation_stack"
  | Some PTarget => Some "instrumented_input"
  | Some PAnalysis => Some "WASTRUMENTATION_ANALYSIS"
  | None => None
  end.

Lemma lib_iff_generic ord_i ord_c infer m ai only m' lib :
  instrument ord_i ord_c infer m ai only = IOk m' lib -> (lib = None <-> ai_generic ai = None).
Proof.
  unfold instrument. intros E.
  destruct (structure_all _ _ _); try discriminate.
  match type of E with match ?X with _ => _ end = _ => destruct X as [[? ?]|]; [|discriminate] end.
  destruct (ai_generic ai) as [[g b]|].
  - destruct (function_application _ _ _ _ _) as [[[? ?] ?]|]; [|discriminate].
    destruct (inject_memory _ _) as [[? ?]|]; [|discriminate]. injection E as _ <-. split; discriminate.
  - destruct (inject_memory _ _) as [[? ?]|]; [|discriminate]. injection E as _ <-. tauto.
Qed.

Lemma merge_args B A L (T : tools B A L) sel t a clib out :
  merge T sel t a clib = Some out ->
  exists args, t_merge T args = Some out /\
    Permutation args ((t, target_ns) :: (a, analysis_ns) :: match clib with Some l => [(l, stack_ns)] | None => [] end) /\
    (forall ns, first_choice sel = Some ns -> In ns (map snd args) -> hd_error (map snd args) = Some ns) /\
    (sel = None -> hd_error args = Some (t, target_ns)).
Proof.
  unfold merge. intros E.
  destruct sel as [[]|], clib as [c|];
    cbn [option_map merge_arguments flatten flat_map app] in E;
    (eexists; split; [exact E|]; split; [|split]).
  all: try (intros ? F I; injection F as <-; cbn in I |- *; intuition discriminate).
  all: try (intros; discriminate).
  all: try reflexivity.
  all: cbn.
  - apply (Permutation_app_comm [(c, stack_ns)] [(t, target_ns); (a, analysis_ns)]).
  - apply perm_swap.
  - apply perm_swap.
  - apply perm_skip, perm_swap.
Qed.

(** Whenever the pipeline delivers a module, wasm-merge was given: the instrumented program
    and the compiled analysis, and the compiled buffer library exactly if the analysis
    intercepts function application; each once, under three different namespaces; and the
    chosen primary module in front if it exists. *)
Theorem C30_merge_order : forall B A L (T : tools B A L) program analysis ai only sel out,
  wastrument T program analysis ai only sel = Done out ->
  exists m m' lib analysis_wasm args,
    t_parse T program = Some m /\
    t_compile_analysis T analysis = Some analysis_wasm /\
    instrument (t_ord_i T) (t_ord_c T) (t_infer T) m ai only = IOk m' lib /\
    t_merge T args = Some out /\
    (exists libs,
      Permutation args ((t_encode T m', "instrumented_input") :: (analysis_wasm, "WASTRUMENTATION_ANALYSIS") :: libs) /\
      match lib with
      | Some sigs => exists l, t_compile_lib T (t_generate T sigs) = Some l /\ libs = [(l, "wastrumentation_stack")]
      | None => libs = []
      end) /\
    NoDup (map snd args) /\
    (In "wastrumentation_stack" (map snd args) <-> ai_generic ai <> None) /\
    (forall ns, first_choice sel = Some ns -> In ns (map snd args) -> hd_error (map snd args) = Some ns) /\
    (sel = None -> hd_error args = Some (t_encode T m', "instrumented_input")).
Proof.
  intros B A L T program analysis ai only sel out E. unfold wastrument in E.
  destruct (t_compile_analysis T analysis) as [aw|] eqn:Ea; [|discriminate].
  destruct (t_parse T program) as [m|] eqn:Ep; [|discriminate].
  destruct (instrument _ _ _ m ai only) as [m' lib| |] eqn:Ei; try discriminate.
  assert (Lg := lib_iff_generic _ _ _ _ _ _ Ei).
  exists m, m', lib, aw.
  assert (Q : exists clib, match lib with
                           | Some sigs => exists l, t_compile_lib T (t_generate T sigs) = Some l /\ clib = Some l
                           | None => clib = None end /\ merge T sel (t_encode T m') aw clib = Some out).
  { destruct lib as [sigs|]; cbn in E.
    - destruct (t_compile_lib T (t_generate T sigs)) as [l|]; [|discriminate]. cbn in E.
      destruct (merge _ _ _ _ _) eqn:Em; [|discriminate]. injection E as ->. exists (Some l). split; [now exists l|exact Em].
    - destruct (merge _ _ _ _ _) eqn:Em; [|discriminate]. injection E as ->. exists None. now split. }
  destruct Q as (clib & Hl & Em). clear E.
  assert (Hg : clib = None <-> ai_generic ai = None).
  { rewrite <- Lg. destruct lib; [destruct Hl as (x & _ & ->)|subst clib; tauto]. split; discriminate. }
  destruct (merge_args _ _ _ _ _ Em) as (args & Ma & P & F1 & F2). exists args.
  split; [reflexivity|]. split; [reflexivity|]. split; [exact Ei|]. split; [exact Ma|].
  assert (Ps := Permutation_map snd P).
  split; [|split; [|split; [|split; [exact F1|exact F2]]]].
  - eexists. split; [exact P|]. destruct lib as [sigs|]; [destruct Hl as (x & C & ->)|subst clib; reflexivity].
    exists x. now split.
  - apply Permutation_sym in Ps. eapply Permutation_NoDup; [exact Ps|].
    destruct clib; cbn [map snd]; repeat constructor; cbn [In]; intuition discriminate.
  - assert (I : In "wastrumentation_stack" (map snd args) <-> clib <> None).
    { split; intros I.
      - apply (Permutation_in _ Ps) in I. destruct clib; [discriminate|]. cbn in I. intuition discriminate.
      - apply Permutation_sym in Ps. apply (Permutation_in _ Ps). destruct clib; [|congruence]. cbn. tauto. }
    rewrite I. destruct clib, (ai_generic ai); intuition congruence.
Qed.

(** *** Example: interception on, analysis first, three modules; and the choice of the
    buffer library as primary module when there is none, in which case the program comes
    first. *)
Definition ex_tools : tools module unit (list functy) :=
  Tools (fun m => Some m) (fun m => m) ex_types (fun l => l) (fun l => rev l)
        (fun _ => Some ex_module) (fun s => s) (fun _ => Some ex_module)
        (fun args => match args with
                     | [(_, "WASTRUMENTATION_ANALYSIS"); (m, "instrumented_input"); (_, "wastrumentation_stack")] => Some m
                     | [(m, "instrumented_input"); (_, "WASTRUMENTATION_ANALYSIS")] => Some m
                     | _ => None
                     end).
Example ex_pipeline :
  (exists m lib, instrument (fun l => l) (fun l => rev l) ex_types ex_module (std_ai (fun _ => true) true) None = IOk m lib /\
     wastrument ex_tools ex_module tt (std_ai (fun _ => true) true) None (Some PAnalysis) = Done m) /\
  (exists m lib, instrument (fun l => l) (fun l => rev l) ex_types ex_module (std_ai (fun _ => true) false) None = IOk m lib /\
     wastrument ex_tools ex_module tt (std_ai (fun _ => true) false) None (Some PInstrumentation) = Done m).
Proof. split; do 2 eexists; split; vm_compute; reflexivity. Qed.

Print Assumptions C30_merge_order.

(** ** C44: failures are reported by the stage that failed, and only by it *)
(** The stages before the library and the merge succeed. *)
Definition instruments {B A L} (T : tools B A L) program analysis ai only (m' : module) (lib : option (list functy)) (aw : B) : Prop :=
  t_compile_analysis T analysis = Some aw /\
  exists m, t_parse T program = Some m /\ instrument (t_ord_i T) (t_ord_c T) (t_infer T) m ai only = IOk m' lib.
(** The modules merged: program, analysis and, if there is one, the library, with the
    selected one in front. *)
Definition merged {B} (sel : option primary) (target analysis : B) (lib : list B) : list (B * string) :=
  let t := (target, "instrumented_input") in
  let a := (analysis, "WASTRUMENTATION_ANALYSIS") in
  let l := map (fun b => (b, "wastrumentation_stack")) lib in
  match sel with
  | Some PTarget => t :: a :: l
  | Some PAnalysis => a :: t :: l
  | Some PInstrumentation => l ++ [t; a]
  | None => t :: l ++ [a]
  end.
Definition compiles {B A L} (T : tools B A L) (lib : option (list functy)) (libs : list B) : Prop :=
  match lib with
  | Some sigs => exists l, t_compile_lib T (t_generate T sigs) = Some l /\ libs = [l]
  | None => libs = []
  end.

Theorem C44_failing_stage : forall B A L (T : tools B A L) program analysis ai only sel,
  let run := wastrument T program analysis ai only sel in
  (run = ErrAnalysis <-> t_compile_analysis T analysis = None) /\
  (run = ErrInstrument <-> t_compile_analysis T analysis <> None /\
     (t_parse T program = None \/
      exists m e, t_parse T program = Some m /\ instrument (t_ord_i T) (t_ord_c T) (t_infer T) m ai only = IErr e)) /\
  (run = Panicked <-> t_compile_analysis T analysis <> None /\
     exists m, t_parse T program = Some m /\ instrument (t_ord_i T) (t_ord_c T) (t_infer T) m ai only = IPanic) /\
  (run = ErrLib <-> exists m' sigs aw, instruments T program analysis ai only m' (Some sigs) aw /\
     t_compile_lib T (t_generate T sigs) = None) /\
  (run = ErrMerge <-> exists m' lib aw libs, instruments T program analysis ai only m' lib aw /\ compiles T lib libs /\
     t_merge T (merged sel (t_encode T m') aw libs) = None) /\
  (forall out, run = Done out <-> exists m' lib aw libs, instruments T program analysis ai only m' lib aw /\ compiles T lib libs /\
     t_merge T (merged sel (t_encode T m') aw libs) = Some out).
Proof.
  intros B A L T program analysis ai only sel run.
  assert (M : forall t a l, merge T sel t a l = t_merge T (merged sel t a (match l with Some x => [x] | None => [] end))).
  { intros t a l. unfold merge, merged, merge_arguments, flatten. destruct sel as [[]|], l; reflexivity. }
  assert (C : forall lib libs, compiles T lib libs ->
            (match lib with Some sigs => option_map Some (t_compile_lib T (t_generate T sigs)) | None => Some None end)
            = Some (match libs with x :: _ => Some x | [] => None end)).
  { intros [sigs|] libs; simpl; [intros (l & -> & ->); reflexivity|now intros ->]. }
  assert (C1 : forall lib libs, compiles T lib libs -> match match libs with x :: _ => Some x | [] => None end with Some x => [x] | None => [] end = libs).
  { intros [sigs|] libs; simpl; [intros (l & _ & ->); reflexivity|now intros ->]. }
  assert (Back : forall m' lib aw libs, instruments T program analysis ai only m' lib aw -> compiles T lib libs ->
            wastrument T program analysis ai only sel
            = match t_merge T (merged sel (t_encode T m') aw libs) with Some o => Done o | None => ErrMerge end).
  { intros m' lib aw libs (E1 & m & E2 & E3) Cl. unfold wastrument. rewrite E1, E2, E3, (C _ _ Cl), M, (C1 _ _ Cl). reflexivity. }
  assert (Fwd : forall r, wastrument T program analysis ai only sel = r ->
    match r with
    | ErrAnalysis => t_compile_analysis T analysis = None
    | ErrInstrument => t_compile_analysis T analysis <> None /\
       (t_parse T program = None \/
        exists m e, t_parse T program = Some m /\ instrument (t_ord_i T) (t_ord_c T) (t_infer T) m ai only = IErr e)
    | Panicked => t_compile_analysis T analysis <> None /\
       exists m, t_parse T program = Some m /\ instrument (t_ord_i T) (t_ord_c T) (t_infer T) m ai only = IPanic
    | ErrLib => exists m' sigs aw, instruments T program analysis ai only m' (Some sigs) aw /\
       t_compile_lib T (t_generate T sigs) = None
    | ErrMerge => exists m' lib aw libs, instruments T program analysis ai only m' lib aw /\ compiles T lib libs /\
       t_merge T (merged sel (t_encode T m') aw libs) = None
    | Done o => exists m' lib aw libs, instruments T program analysis ai only m' lib aw /\ compiles T lib libs /\
       t_merge T (merged sel (t_encode T m') aw libs) = Some o
    end).
  { intros r <-. unfold wastrument, instruments.
    destruct (t_compile_analysis T analysis) as [aw|] eqn:Ea; [|reflexivity].
    destruct (t_parse T program) as [m|] eqn:Ep; [|split; [discriminate|now left]].
    destruct (instrument _ _ _ m ai only) as [m' lib|e|] eqn:Ei;
      [|split; [discriminate|right; eauto]|split; [discriminate|eauto]].
    destruct lib as [sigs|]; cbn [option_map].
    - destruct (t_compile_lib T (t_generate T sigs)) as [l|] eqn:El; cbn [option_map]; [|eauto 10].
      rewrite M. destruct (t_merge T _) as [o|] eqn:Em; exists m', (Some sigs), aw, [l]; repeat split; simpl; eauto.
    - rewrite M. destruct (t_merge T _) as [o|] eqn:Em; exists m', None, aw, []; repeat split; simpl; eauto. }
  split; [|split; [|split; [|split; [|split]]]].
  - split; [apply (Fwd ErrAnalysis)|]. intros E. unfold run, wastrument. now rewrite E.
  - split; [apply (Fwd ErrInstrument)|]. intros (E1 & E2). unfold run, wastrument. destruct (t_compile_analysis T analysis); [|congruence].
    destruct E2 as [->|(m & e & -> & ->)]; reflexivity.
  - split; [apply (Fwd Panicked)|]. intros (E1 & m & E2 & E3). unfold run, wastrument. destruct (t_compile_analysis T analysis); [|congruence].
    now rewrite E2, E3.
  - split; [apply (Fwd ErrLib)|]. intros (m' & sigs & aw & (E1 & m & E2 & E3) & E4). unfold run, wastrument. rewrite E1, E2, E3. cbn. now rewrite E4.
  - split; [apply (Fwd ErrMerge)|]. intros (m' & lib & aw & libs & E1 & E2 & E3). unfold run. now rewrite (Back _ _ _ _ E1 E2), E3.
  - intros out. split; [apply (Fwd (Done out))|]. intros (m' & lib & aw & libs & E1 & E2 & E3). unfold run. now rewrite (Back _ _ _ _ E1 E2), E3.
Qed.
Print Assumptions C44_failing_stage.
(** Each outcome occurs. *)
Definition ex_failing (k : nat) : tools module unit (list functy) :=
  Tools (fun m => if Nat.eqb k 1 then None else Some m) (fun m => m) ex_types (fun l => l) (fun l => rev l)
        (fun _ => if Nat.eqb k 0 then None else Some ex_module) (fun s => s)
        (fun _ => if Nat.eqb k 2 then None else Some ex_module)
        (fun args => if Nat.eqb k 3 then None else option_map fst (hd_error args)).
Definition ex_outcome (k : nat) (m : module) : nat :=
  match wastrument (ex_failing k) m tt (std_ai (fun _ => true) true) None (Some PAnalysis) with
  | Done _ => 0 | ErrAnalysis => 1 | ErrInstrument => 2 | ErrLib => 3 | ErrMerge => 4 | Panicked => 5
  end.
(** A body that ends inside a block. *)
Definition ex_unclosed : module :=
  Mod [Fn (FT [] []) (FPresent [] [LBlock (FT [] []); LEnd]) []] [] [] [] [] [] None.
Example ex_outcomes :
  map (fun k => ex_outcome k ex_module) [0; 1; 2; 3; 4] = [1; 2; 3; 4; 0] /\ ex_outcome 4 ex_unclosed = 5.
Proof. vm_compute. split; reflexivity. Qed.
