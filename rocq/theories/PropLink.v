(** C87: after merging, no import of the three modules from each other is left. *)
From Verif Require Import ImportProofs InstrumentProofs SpecProofs StackRun PropStack PropRust PropAs PropInterface PropInstrument PropStdlib WeavePropProofs ExModule Link.
From Coq Require Import Permutation.
Local Open Scope string_scope.
Local Open Scope list_scope.

(** The namespaces under which modules are merged. *)
Definition namespaces : list string := ["WASTRUMENTATION_ANALYSIS"; "instrumented_input"; "wastrumentation_stack"].
(** What an analysis may import from the other two modules. *)
Definition externs : list (string * string * functy) :=
  map (fun x => ("instrumented_input", fst x, snd x)) base_externs ++ apply_externs.

(** ** What analyses import *)
Definition helper_type (mem : bool) (nm : string) : option functy :=
  match export_index 0 (memory_helpers mem) nm with
  | Some k => option_map fn_type (nth_error (memory_helpers mem) k)
  | None => None
  end.
Definition extern_ok (x : string * string * functy) : bool :=
  if String.eqb (fst (fst x)) "wastrumentation_stack" then existsb (fun y => if string_dec (snd (fst y)) (snd (fst x)) then functy_eqb (snd y) (snd x) && String.eqb (fst (fst y)) (fst (fst x)) else false) apply_externs else
  String.eqb (fst (fst x)) "instrumented_input" && existsb (String.eqb (snd (fst x))) ("call_base" :: memory_names) &&
  if String.eqb (snd (fst x)) "call_base" then functy_eqb (snd x) (FT [t_i32; t_i32] [])
  else forallb (fun mem => match helper_type mem (snd (fst x)) with Some ft => functy_eqb ft (snd x) | None => false end) [true; false].
Lemma externs_ok : forallb extern_ok externs = true.
Proof. vm_compute. reflexivity. Qed.
Lemma extern_cases ns nm ft : In (ns, nm, ft) externs ->
  ns = "wastrumentation_stack" /\ In (ns, nm, ft) apply_externs \/
  ns = "instrumented_input" /\ In nm ("call_base" :: memory_names) /\
    (nm = "call_base" /\ ft = FT [t_i32; t_i32] [] \/ nm <> "call_base" /\ forall mem, helper_type mem nm = Some ft).
Proof.
  intros I. pose proof (proj1 (forallb_forall _ _) externs_ok _ I) as Q. clear I. unfold extern_ok in Q. cbn [fst snd] in Q.
  revert Q. generalize apply_externs, ("call_base" :: memory_names). intros xs l Q.
  destruct (String.eqb_spec ns "wastrumentation_stack") as [->|N].
  - left. split; [reflexivity|]. apply existsb_exists in Q. destruct Q as ([[ns' nm'] ft'] & J & Q). cbn [fst snd] in Q.
    destruct (string_dec nm' nm) as [->|]; [|discriminate]. apply andb_true_iff in Q. destruct Q as [Q1 Q2]. apply functy_eqb_eq in Q1.
    apply String.eqb_eq in Q2. now subst.
  - right. apply andb_true_iff in Q. destruct Q as [Q Q3]. apply andb_true_iff in Q. destruct Q as [Q1 Q2]. apply String.eqb_eq in Q1.
    split; [exact Q1|]. apply existsb_exists in Q2. destruct Q2 as (y & Iy & Q2). apply String.eqb_eq in Q2. subst y. split; [exact Iy|].
    destruct (String.eqb_spec nm "call_base") as [->|M].
    + left. split; [reflexivity|]. now apply functy_eqb_eq in Q3.
    + right. split; [exact M|]. intros mem. pose proof (proj1 (forallb_forall _ _) Q3 mem) as R. cbv beta in R.
      destruct (helper_type mem nm) as [t|]; [|destruct mem; exfalso; discriminate R; cbn; auto].
      f_equal. apply functy_eqb_eq, R. destruct mem; cbn; auto.
Qed.
Lemma base_not_call : forallb (fun x => negb (String.eqb (fst x) "call_base")) base_externs = true.
Proof. vm_compute. reflexivity. Qed.
Lemma call_base_apply ft : In ("instrumented_input", "call_base", ft) externs -> In ("instrumented_input", "call_base", ft) apply_externs.
Proof.
  unfold externs. intros I. apply in_app_or in I. destruct I as [I|I]; [exfalso|exact I]. apply in_map_iff in I.
  destruct I as ([x t] & I & J). pose proof (proj1 (forallb_forall _ _) base_not_call _ J) as Q. injection I as -> _. discriminate Q.
Qed.
Lemma apply_cases i : In i apply_externs -> fst i = ("instrumented_input", "call_base") \/ fst (fst i) = "wastrumentation_stack".
Proof.
  unfold apply_externs. intros [<-|[<-|I]]; [now left|now right|]. right. apply in_app_or in I.
  destruct I as [I|I]; apply in_map_iff in I; destruct I as (t & <- & _); reflexivity.
Qed.
Lemma helpers_not_call mem : ~ In "call_base" (flat_map fn_exports (memory_helpers mem)).
Proof. destruct mem; vm_compute; intros X; repeat destruct X as [X|X]; try discriminate X; destruct X. Qed.

(** ** The library *)
Lemma some_inj A (x y : A) : Some x = Some y -> x = y.
Proof. congruence. Qed.
Definition accessor_of (x : string * string * functy) (w : wfn) : bool :=
  match w_export w with Some e => String.eqb e (snd (fst x)) && functy_eqb (w_type w) (snd x) | None => false end.
Lemma boiler_accessors : forallb (fun x => String.eqb (fst (fst x)) "instrumented_input" || existsb (accessor_of x) boilerplate) apply_externs = true.
Proof. vm_compute. reflexivity. Qed.
Lemma boiler_accessor nm ft : In ("wastrumentation_stack", nm, ft) apply_externs ->
  exists w, In w boilerplate /\ w_export w = Some nm /\ w_type w = ft.
Proof.
  generalize boiler_accessors. generalize apply_externs, boilerplate. intros xs ws B I. rewrite forallb_forall in B.
  specialize (B _ I). cbn [fst snd String.eqb Ascii.eqb Bool.eqb orb] in B. apply existsb_exists in B. destruct B as (w & Iw & Q).
  exists w. unfold accessor_of in Q. destruct (w_export w) as [e|]; [|discriminate]. apply andb_true_iff in Q. destruct Q as [Q1 Q2].
  apply String.eqb_eq in Q1. apply functy_eqb_eq in Q2. cbn in Q1, Q2. subst. auto.
Qed.
Lemma numeric_library b sigs ex : library_exports b sigs = Some ex ->
  (forall sg o, In sg sigs -> In o (sig_ops sg) -> lib_name sg o = op_name sg o -> ex (op_name sg o) = Some (libop_type sg o)) /\
  (forall nm ft, In ("wastrumentation_stack", nm, ft) apply_externs -> ex nm = Some ft).
Proof.
  intros E. destruct b; cbn [library_exports] in E.
  - destruct (@lib_starts unit tt sigs) as (lm & El & _ & Ef). rewrite El in E. injection E as <-.
    unfold module_export. rewrite Ef. split.
    + intros sg o Is Io N. rewrite <- N. destruct (@op_exported sigs sg o Is Io) as (k & f & -> & B & C).
      rewrite B. cbn. now rewrite C.
    + intros nm ft I.
      destruct (boiler_accessor I) as (w & Iw & Ew & Tw).
      destruct (@fn_exported sigs w nm (in_or_app _ _ _ (or_introl Iw)) Ew) as (k & -> & B). rewrite B. cbn. now rewrite Tw.
  - destruct (rust_compiles _); [|discriminate]. apply some_inj in E. subst ex. split; unfold rust_export.
    + intros sg o Is Io _. destruct (@C55_exports sigs sg o Is Io) as (g & -> & -> & ->). reflexivity.
    + destruct (C55_accessors sigs) as (Ld & St & Ty). intros nm ft I. unfold apply_externs in I. destruct I as [I|[I|I]].
      * discriminate I.
      * injection I as <- <-. destruct Ty as (g & -> & -> & ->). reflexivity.
      * apply in_app_or in I. destruct I as [I|I]; apply in_map_iff in I; destruct I as (t & I & _); injection I as <- <-.
        -- destruct (Ld t) as (g & -> & -> & ->). reflexivity.
        -- destruct (St t) as (g & -> & -> & ->). reflexivity.
  - destruct (as_compiles _) eqn:C; [|discriminate]. apply some_inj in E. subst ex. split.
    + intros sg o Is Io _. now apply C66_exports.
    + destruct (C66_accessors sigs) as (Ld & St & Ty). intros nm ft I. unfold apply_externs in I. destruct I as [I|[I|I]].
      * discriminate I.
      * injection I as <- <-. exact Ty.
      * apply in_app_or in I. destruct I as [I|I]; apply in_map_iff in I; destruct I as (t & I & _); injection I as <- <-.
        -- apply Ld.
        -- apply St.
Qed.

(** ** The instrumented input *)
Lemma module_export_app fs fs' nm m m' : md_funcs m = fs -> md_funcs m' = fs' -> forall pre, fs' = pre ++ fs ->
  export_index 0 pre nm = None -> module_export m' nm = module_export m nm.
Proof.
  intros <- Ef pre -> N. unfold module_export. rewrite Ef. rewrite export_index_app, N.
  assert (G : forall n l, export_index n l nm = option_map (fun k => n + k) (export_index 0 l nm)).
  { intros n l. revert n. induction l as [|f l IH]; intros n; [reflexivity|]. cbn [export_index].
    destruct (existsb _ _); [cbn; now rewrite Nat.add_0_r|]. rewrite IH, (IH 1). destruct (export_index 0 l nm); cbn; [f_equal; lia|reflexivity]. }
  rewrite G. destruct (export_index 0 (md_funcs m) nm) as [k|]; [|reflexivity]. cbn [option_map].
  rewrite nth_error_app2 by lia. now replace (0 + List.length pre + k - List.length pre) with k by lia.
Qed.
Lemma export_index_none fs nm n : ~ In nm (flat_map fn_exports fs) -> export_index n fs nm = None.
Proof.
  revert n. induction fs as [|f fs IH]; intros n N; [reflexivity|]. cbn [export_index flat_map] in *.
  destruct (existsb _ _) eqn:E.
  - destruct N. apply in_or_app. left. apply existsb_exists in E. destruct E as (x & I & Q). apply String.eqb_eq in Q. now subst.
  - apply IH. intros I. apply N, in_or_app. now right.
Qed.
Lemma sig_exports a b : map sig_of a = map sig_of b -> flat_map fn_exports a = flat_map fn_exports b.
Proof.
  revert b. induction a as [|f a IH]; intros [|g b] E; try discriminate; [reflexivity|]. cbn in E |- *. injection E as _ E1 E2.
  now rewrite E1, (IH _ E2).
Qed.

Section Linked.
  Variables ord_i ord_c : list nat -> list nat.
  Variable infer : nat -> list low -> option (list ity).
  Variable m : module.
  Variable hs : list shook.
  Variable only : option (list nat).
  Variable m' : module.
  Variable lib : option (list functy).
  Hypothesis Pi : forall l, Permutation (ord_i l) l.
  Hypothesis Pc : forall l, Permutation (ord_c l) l.
  (** The input: it imports nothing from the namespaces, and exports no function under a name that the instrumentation uses. *)
  Hypothesis Foreign : forall ft ns nm, imports m ft ns nm -> ~ In ns namespaces.
  Hypothesis Fresh : forall nm, In nm (flat_map fn_exports (md_funcs m)) -> ~ In nm ("call_base" :: memory_names).
  Hypothesis E : instrument ord_i ord_c infer m (interface_from hs) only = IOk m' lib.

  Lemma target_exports nm ft : In ("instrumented_input", nm, ft) externs ->
    (nm = "call_base" -> In SGenericApply hs) -> module_export m' nm = Some ft.
  Proof.
    intros I G. destruct (@instrument_layout ord_i ord_c infer m (interface_from hs) only m' lib Pi Pc E) as (H & hf & aps & LY & _).
    destruct (ly_shape LY) as (olds & mid & Efs & _ & Sg & U). rewrite interface_from_generic in Efs.
    destruct (extern_cases I) as [[Q _]|(_ & Nm & Q)]; [discriminate Q|].
    set (tail := _ ++ memory_helpers _) in Efs.
    rewrite (@module_export_app tail (md_funcs m') nm (Mod tail [] [] [] [] [] None) m' eq_refl eq_refl (olds ++ mid)).
    - unfold module_export. cbn [md_funcs]. unfold tail. clearbody tail. destruct Q as [[-> ->]|[N Q]].
      + destruct (in_dec shook_eq_dec SGenericApply hs) as [|F]; [|destruct F; auto]. reflexivity.
      + specialize (Q (Nat.eqb (List.length (md_mems m)) 1)). unfold helper_type in Q. revert Q. generalize (memory_helpers (Nat.eqb (List.length (md_mems m)) 1)).
        intros l Q. destruct (in_dec shook_eq_dec SGenericApply hs) as [F|F]; cbn [app].
        * cbn [export_index fn_exports call_base_fn wf_name call_base existsb].
          destruct (String.eqb_spec nm "call_base"); [contradiction|]. cbn [orb].
          assert (Sh : forall l n, export_index (S n) l nm = option_map S (export_index n l nm)).
          { induction l0 as [|g l0 IH]; intros n1; [reflexivity|]. cbn [export_index]. destruct (existsb _ _); [reflexivity|apply IH]. }
          rewrite Sh. destruct (export_index 0 l nm); [|discriminate]. exact Q.
        * exact Q.
    - rewrite Efs. unfold tail. now rewrite <- app_assoc.
    - rewrite export_index_app, (export_index_sig _ _ 0 nm Sg).
      rewrite (@export_index_none (md_funcs m) nm 0); [|intros In_; now apply (Fresh In_)]. now apply export_index_unexported.
  Qed.

  Lemma parts_imports ns nm ft : In (ns, nm, ft) (pt_imports (part_of target_ns m')) <-> imported_by (md_funcs m') ft ns nm.
  Proof.
    cbn [part_of pt_imports]. rewrite in_flat_map. unfold import_of, imported_by. split.
    - intros (f & I & J). destruct f as [t [ns' nm'|] ex]; cbn in J; [|destruct J]. destruct J as [J|[]]. injection J as <- <- <-.
      apply In_nth_error in I. destruct I as (i & I). eauto.
    - intros (i & ex & J). apply nth_error_In in J. eexists. split; [exact J|]. now left.
  Qed.
  Lemma input_imports ft ns nm : imported_by (md_funcs m) ft ns nm <-> imports m ft ns nm.
  Proof.
    unfold imported_by, imports. split.
    - intros (i & ex & J). apply nth_error_In in J. eexists. split; [exact J|]. auto.
    - intros ([t c ex] & J & <- & K). cbn in K |- *. subst c. apply In_nth_error in J. destruct J as (i & J). eauto.
  Qed.
  Lemma no_analysis_imports : analysis_imports m = [].
  Proof.
    unfold analysis_imports. apply imports_none, Forall_forall. intros f I. unfold from_analysis.
    destruct (fn_code f) as [ns nm|] eqn:Ef; [|reflexivity]. destruct (string_dec ns _) as [->|]; [|reflexivity].
    destruct (@Foreign (fn_type f) "WASTRUMENTATION_ANALYSIS" nm); [exists f; auto|now left].
  Qed.
  Lemma lib_generic : lib = None <-> ~ In SGenericApply hs.
  Proof.
    pose proof E as E0. unfold instrument in E0.
    destruct (structure_all _ _ _) as [bodies| |]; try discriminate.
    match type of E0 with match ?X with _ => _ end = _ => destruct X as [[[] fs1]|]; [|discriminate] end.
    rewrite interface_from_generic in E0. destruct (in_dec shook_eq_dec SGenericApply hs) as [G|G].
    - match type of E0 with match ?X with _ => _ end = _ => destruct X as [[[ap sg] fs2]|]; [|discriminate] end.
      match type of E0 with match ?X with _ => _ end = _ => destruct X as [[[] fs3]|]; [|discriminate] end.
      injection E0 as _ <-. split; [discriminate|contradiction].
    - match type of E0 with match ?X with _ => _ end = _ => destruct X as [[[] fs3]|]; [|discriminate] end.
      injection E0 as _ <-. tauto.
  Qed.

  (** The analysis, which is given the first of the three namespaces. *)
  Variable an : part.
  Hypothesis Name : pt_name an = "WASTRUMENTATION_ANALYSIS".
  Hypothesis Externs : forall ns nm ft, In (ns, nm, ft) (pt_imports an) -> In ns namespaces -> In (ns, nm, ft) externs.
  Variable b : backend.
  Variable ps : list part.
  Hypothesis Ps : merged b an m' lib = Some ps.

  Lemma provider_cases : exists rest, ps = an :: part_of target_ns m' :: rest /\
    match lib with
    | None => rest = []
    | Some sigs => exists ex, library_exports b sigs = Some ex /\ rest = [Part stack_ns [] ex]
    end.
  Proof.
    unfold merged in Ps. destruct lib as [sigs|].
    - destruct (library_exports b sigs) as [ex|]; [|discriminate]. injection Ps as <-. eexists. split; [reflexivity|]. eauto.
    - injection Ps as <-. eexists. split; reflexivity.
  Qed.
  Lemma provider_analysis nm : provider ps "WASTRUMENTATION_ANALYSIS" nm = pt_export an nm.
  Proof. destruct provider_cases as (r & -> & _). unfold provider. cbn [find]. now rewrite Name. Qed.
  Lemma provider_target nm : provider ps "instrumented_input" nm = module_export m' nm.
  Proof. destruct provider_cases as (r & -> & _). unfold provider. cbn [find]. rewrite Name. reflexivity. Qed.
  Lemma provider_stack nm : provider ps "wastrumentation_stack" nm =
    match lib with Some sigs => match library_exports b sigs with Some ex => ex nm | None => None end | None => None end.
  Proof.
    destruct provider_cases as (r & -> & R). unfold provider. cbn [find]. rewrite Name. cbn [String.eqb part_of pt_name].
    destruct lib as [sigs|].
    - destruct R as (ex & -> & ->). reflexivity.
    - rewrite R. reflexivity.
  Qed.
  Lemma provider_other ns nm : ~ In ns namespaces -> provider ps ns nm = None.
  Proof.
    intros N. destruct provider_cases as (r & -> & R). unfold provider.
    destruct (find _ _) as [p|] eqn:F; [|reflexivity]. exfalso. apply find_some in F. destruct F as [I Q]. apply String.eqb_eq in Q. apply N.
    rewrite <- Q. destruct I as [<-|[<-|I]]; [rewrite Name; now left|now right; left|].
    destruct lib as [sigs|]; [destruct R as (ex & _ & ->); destruct I as [<-|[]]; now right; right; left|subst r; destruct I].
  Qed.
  Lemma all_imports ns nm ft : In (ns, nm, ft) (flat_map pt_imports ps) <-> In (ns, nm, ft) (pt_imports an) \/ imported_by (md_funcs m') ft ns nm.
  Proof.
    rewrite <- parts_imports. destruct provider_cases as (r & -> & R). cbn [flat_map]. rewrite !in_app_iff.
    assert (Z : flat_map pt_imports r = []) by (destruct lib as [sigs|]; [destruct R as (ex & _ & ->)|subst r]; reflexivity).
    rewrite Z. cbn [In]. tauto.
  Qed.
  Lemma left_over_spec ns nm ft : In (ns, nm, ft) (left_over ps) <->
    (In (ns, nm, ft) (pt_imports an) \/ imported_by (md_funcs m') ft ns nm) /\ provider ps ns nm = None.
  Proof.
    unfold left_over. rewrite filter_In, all_imports. cbn [fst snd]. destruct (provider ps ns nm); intuition congruence.
  Qed.

  (** The analysis exports what the hooks need, and imports what only a generic apply gives if that is among the hooks. *)
  Definition serves : Prop :=
    (forall nm ft, wanted hs nm ft -> pt_export an nm = Some ft) /\
    (In SGenericApply hs \/ forall i, In i (pt_imports an) -> ~ In i apply_externs).

  Lemma connected : serves -> forall ns nm ft, In (ns, nm, ft) (flat_map pt_imports ps) -> In ns namespaces -> provider ps ns nm = Some ft.
  Proof.
    intros [W Ap] ns nm ft I N. apply all_imports in I. destruct I as [I|I].
    - assert (G : In (ns, nm, ft) apply_externs -> In SGenericApply hs) by (destruct Ap as [A|A]; [auto|intros J; now destruct (A _ I)]).
      pose proof (@Externs _ _ _ I N) as X.
      destruct (extern_cases X) as [[-> X']|(-> & _ & _)].
      + rewrite provider_stack.
        destruct provider_cases as (r & _ & R). pose proof lib_generic as Lg. destruct lib as [sigs|].
        * destruct R as (ex & Ex & _). rewrite Ex. now apply (numeric_library b sigs Ex).
        * destruct (proj1 Lg eq_refl). auto.
      + rewrite provider_target. apply target_exports; [exact X|]. intros ->. apply G, call_base_apply, X.
    - destruct (@import_origin ord_i ord_c infer m (interface_from hs) only m' lib Pi Pc E) as [Or _].
      assert (An : ns = "WASTRUMENTATION_ANALYSIS" -> provider ps ns nm = Some ft).
      { intros ->. rewrite provider_analysis. apply W. apply (proj1 (C23_imports_exact _ _ _ _ _ _ Pi Pc no_analysis_imports E)).
        destruct I as (i & ex & I). apply nth_error_In in I. unfold analysis_imports. apply in_flat_map. eexists. split; [exact I|].
        now left. }
      destruct (Or _ _ _ I) as [J|h e J1 J2 J3 J4|e c J1 J2 J3 J4|sg o J1 J2 J3 J4 J5].
      + apply input_imports in J. now destruct (Foreign J).
      + now apply An.
      + now apply An.
      + subst. rewrite provider_stack. destruct provider_cases as (r & _ & R).
        pose proof (fun sigs (Q : lib = Some sigs) => @C22_signatures_numeric ord_i ord_c infer m (interface_from hs) only m' sigs Pi Pc
                      (eq_trans E (f_equal (IOk m') Q))) as Nm.
        destruct lib as [sigs|]; [|destruct J1]. destruct R as (ex & Ex & _). rewrite Ex.
        apply (proj1 (numeric_library b sigs Ex)); auto. now apply (Nm sigs).
  Qed.

  (** Then nothing that is left to be imported comes from the namespaces: it is an import of the input, or of the analysis from
      elsewhere. Every other import is connected to a function of its type. *)
  Theorem C87_closed : serves ->
    (forall ns nm ft, In (ns, nm, ft) (left_over ps) ->
       ~ In ns namespaces /\ (imports m ft ns nm \/ In (ns, nm, ft) (pt_imports an))) /\
    (forall p ns nm ft, In p ps -> In (ns, nm, ft) (pt_imports p) -> In ns namespaces ->
       exists q, In q ps /\ pt_name q = ns /\ pt_export q nm = Some ft).
  Proof.
    intros Sv. pose proof (connected Sv) as Co. split.
    - intros ns nm ft I. pose proof I as I0. apply left_over_spec in I. destruct I as [I P].
      assert (N : ~ In ns namespaces).
      { intros N. rewrite (Co ns nm ft) in P; [discriminate P| |exact N]. now apply all_imports. }
      split; [exact N|]. destruct I as [I|I]; [now right|left].
      destruct (@import_origin ord_i ord_c infer m (interface_from hs) only m' lib Pi Pc E) as [Or _].
      destruct (Or _ _ _ I) as [J|h e J1 J2 J3 J4|e c J1 J2 J3 J4|sg o J1 J2 J3 J4 J5].
      + now apply input_imports.
      + destruct N. subst. now left.
      + destruct N. subst. now left.
      + destruct N. subst. now right; right; left.
    - intros p ns nm ft Ip Ii N. assert (I : In (ns, nm, ft) (flat_map pt_imports ps)) by (apply in_flat_map; eauto).
      pose proof (Co ns nm ft I N) as P. unfold provider in P. destruct (find _ ps) as [q|] eqn:F; [|discriminate].
      apply find_some in F. destruct F as [F1 F2]. apply String.eqb_eq in F2. eauto.
  Qed.

  (** Conversely, what the analysis lacks is left to be imported; and so is what it needs a generic apply for. *)
  Theorem C87_missing :
    (forall nm ft, wanted hs nm ft -> pt_export an nm = None -> In ("WASTRUMENTATION_ANALYSIS", nm, ft) (left_over ps)) /\
    (forall i, ~ In SGenericApply hs -> In i (pt_imports an) -> In i apply_externs -> In i (left_over ps)).
  Proof.
    split.
    - intros nm ft W N. apply left_over_spec. rewrite provider_analysis. split; [right|exact N].
      apply (proj1 (C23_imports_exact _ _ _ _ _ _ Pi Pc no_analysis_imports E)) in W. unfold analysis_imports in W.
      apply in_flat_map in W. destruct W as ([t c ex] & I & J). unfold from_analysis in J. cbn [fn_code fn_type] in J.
      destruct c as [ns' nm'|]; [|destruct J]. destruct (string_dec ns' _) as [->|]; [|destruct J].
      destruct J as [J|[]]. injection J as <- <-. apply In_nth_error in I. destruct I as (i & I). exists i, ex. exact I.
    - intros [[ns nm] ft] G I A. apply left_over_spec. split; [now left|].
      destruct (apply_cases A) as [Q|Q]; cbn [fst snd] in Q.
      + injection Q as -> ->. rewrite provider_target. unfold module_export.
        destruct (@instrument_layout ord_i ord_c infer m (interface_from hs) only m' lib Pi Pc E) as (H & hf & aps & LY & _).
        destruct (ly_shape LY) as (olds & mid & Efs & _ & Sg & U). rewrite interface_from_generic in Efs.
        destruct (in_dec shook_eq_dec SGenericApply hs) as [|_]; [contradiction|]. cbn [app] in Efs. rewrite Efs.
        rewrite export_index_app, (export_index_sig _ _ 0 "call_base" Sg).
        rewrite (@export_index_none (md_funcs m) "call_base" 0); [|intros In_; apply (Fresh In_); now left].
        rewrite export_index_app, (export_index_unexported _ _ U).
        rewrite export_index_none; [reflexivity|apply helpers_not_call].
      + subst ns. rewrite provider_stack. now rewrite (proj2 lib_generic G).
  Qed.
End Linked.
Print Assumptions C87_closed.
Print Assumptions C87_missing.

(** ** Analyses written with [advice!] *)
Lemma trap_in_arm h : In (trap_name h) (advice_arm (family h)) /\ trap_name h <> "generic_apply".
Proof.
  split; [|intros Q; revert Q];
  destruct h; repeat match goal with x : numty |- _ => destruct x | x : binkind |- _ => destruct x
                         | x : localop |- _ => destruct x | x : globalop |- _ => destruct x end; try (discriminate || (cbn; tauto)).
Qed.
Lemma arm_trap s nm : In nm (advice_arm s) -> s = SGenericApply /\ nm = "generic_apply" \/ exists h, family h = s /\ trap_name h = nm.
Proof.
  assert (A : forallb (fun s => forallb (fun nm => (if shook_eq_dec s SGenericApply then String.eqb nm "generic_apply" else false) ||
       existsb (fun h => (if shook_eq_dec (family h) s then true else false) && String.eqb (trap_name h) nm) all_hooks_order) (advice_arm s)) all_shooks = true)
    by (vm_compute; reflexivity).
  intros I. rewrite forallb_forall in A. assert (Is : In s all_shooks) by (destruct s; cbn; tauto).
  specialize (A _ Is). rewrite forallb_forall in A. specialize (A _ I). apply orb_true_iff in A. destruct A as [A|A].
  - left. destruct (shook_eq_dec s SGenericApply); [|discriminate]. now apply String.eqb_eq in A.
  - right. apply existsb_exists in A. destruct A as (h & _ & A). exists h. destruct (shook_eq_dec (family h) s); [|discriminate].
    now apply String.eqb_eq in A.
Qed.
Lemma trap_family h h' : trap_name h = trap_name h' -> family h = family h'.
Proof.
  intros N. assert (A : forallb (fun h => forallb (fun h' => negb (String.eqb (trap_name h) (trap_name h')) || if shook_eq_dec (family h) (family h') then true else false)
     all_hooks_order) all_hooks_order = true) by (vm_compute; reflexivity).
  rewrite forallb_forall in A. specialize (A h (all_hooks_complete h)). rewrite forallb_forall in A. specialize (A h' (all_hooks_complete h')).
  rewrite N, String.eqb_refl in A. cbn [negb orb] in A. destruct (shook_eq_dec (family h) (family h')); [assumption|discriminate].
Qed.

(** It exports what the hooks need exactly if it gives an advice for each of them. *)
Theorem C87_advices : forall arms hs,
  (forall nm ft, wanted hs nm ft -> advice_export arms nm = Some ft) <-> incl hs arms.
Proof.
  intros arms hs. split.
  - intros W s Is.
    assert (H : exists nm ft, wanted hs nm ft /\ In nm (advice_arm s)).
    { destruct (shook_eq_dec s SGenericApply) as [->|N]; [exists "generic_apply"; eexists; split; [now apply want_generic|now left]|].
      destruct (advice_arm s) as [|nm l] eqn:Ea; [destruct s; discriminate Ea|].
      assert (I : In nm (advice_arm s)) by (rewrite Ea; now left). destruct (arm_trap s nm I) as [[Q _]|(h & Hf & Hn)]; [contradiction|].
      exists nm. eexists. split; [|now left]. rewrite <- Hn. apply want_hook. now rewrite Hf. }
    destruct H as (nm & ft & Hw & I). pose proof (W _ _ Hw) as X. unfold advice_export in X. destruct (existsb _ arms) eqn:Ex; [|discriminate].
    apply existsb_exists in Ex. destruct Ex as (s' & Is' & Ex). apply existsb_exists in Ex. destruct Ex as (x & Ix & Q). apply String.eqb_eq in Q. subst x.
    replace s with s'; [exact Is'|].
    destruct (arm_trap s nm I) as [[-> ->]|(h & <- & <-)], (arm_trap s' _ Ix) as [[-> Q]|(h' & <- & Q)]; try reflexivity.
    + now destruct (proj2 (trap_in_arm h')).
    + now destruct (proj2 (trap_in_arm h)).
    + now apply trap_family.
  - intros Inc nm ft [h F|F].
    + destruct (trap_in_arm h) as [I N]. unfold advice_export.
      replace (existsb _ arms) with true by (symmetry; apply existsb_exists; exists (family h); split; [now apply Inc|];
        apply existsb_exists; exists (trap_name h); split; [exact I|apply String.eqb_refl]).
      destruct (String.eqb_spec (trap_name h) "generic_apply"); [contradiction|].
      destruct (proj1 C43_exports_match_hooks h) as (r & Er & Ea & Es). unfold rs_function, named in Er.
      destruct (find _ rs_exports) as [[x r']|]; [|discriminate]. injection Er as ->. cbn [option_map snd]. now rewrite Ea, Es.
    + unfold advice_export. replace (existsb _ arms) with true by (symmetry; apply existsb_exists; exists SGenericApply; split; [now apply Inc|reflexivity]).
      reflexivity.
Qed.
Print Assumptions C87_advices.

(** ** An input with a memory and a table, an analysis of loads and calls, and each of the libraries *)
Definition ex_analysis (imps : list (string * string * functy)) (arms : list shook) : part :=
  Part "WASTRUMENTATION_ANALYSIS" imps (advice_export arms).
Definition ex_used : list (string * string * functy) :=
  [("instrumented_input", "call_base", FT [t_i32; t_i32] []); ("instrumented_input", "instrumented_base_load_i32_8S", FT [t_i32; t_i32] [t_i32]);
   ("wastrumentation_stack", "wastrumentation_stack_load_f64", FT [t_i32; t_i32] [TNum TF64]); ("host", "report", FT [t_i32] [])].
Definition ex_linked (b : backend) (hs : list shook) (an : part) : option (list (string * string * functy)) :=
  match instrument (fun l => l) (fun l => rev l) ex_types ex_module (interface_from hs) None with
  | IOk m' lib => option_map left_over (merged b an m' lib)
  | _ => None
  end.
Example ex_c87 :
  Forall (fun x => In (fst (fst x)) namespaces -> In x externs) ex_used /\
  Forall (fun f => match fn_code f with FImport ns _ => ~ In ns namespaces | _ => True end) (md_funcs ex_module) /\
  Forall (fun nm => ~ In nm ("call_base" :: memory_names)) (flat_map fn_exports (md_funcs ex_module)) /\
  Forall (fun b => ex_linked b [SGenericApply; SLoad] (ex_analysis ex_used [SLoad; SGenericApply]) =
                   Some (("host", "report", FT [t_i32] []) :: flat_map import_of (md_funcs ex_module))) [WatBackend; RustBackend; AsBackend].
Proof.
  split; [repeat (apply Forall_cons; [intros N; try (exfalso; destruct N as [N|[N|[N|[]]]]; discriminate N);
    cbn [externs app map base_externs apply_externs In fst snd]; repeat (try (left; reflexivity); right)|]); apply Forall_nil|].
  split; [repeat (apply Forall_cons; [cbn [fn_code]; try exact Logic.I; intros [N|[N|[N|[]]]]; discriminate N|]); apply Forall_nil|].
  split; [repeat (apply Forall_cons; [intros N; repeat (destruct N as [N|N]; [discriminate N|]); exact N|]); apply Forall_nil|].
  repeat (apply Forall_cons; [vm_compute; reflexivity|]). apply Forall_nil.
Qed.

(** ** Without the right hooks
    All hooks, which is what the command-line tool takes if none are given, for an analysis of loads and stores; and an analysis
    that calls functions through [apply] with hooks that do not include the generic apply. *)
Theorem C87_hooks_refuted :
  (exists l, ex_linked WatBackend all_shooks (ex_analysis [] [SLoad; SStore]) = Some l /\
     In ("WASTRUMENTATION_ANALYSIS", "drop_trap", FT [TNum TI64; TNum TI64] []) l) /\
  (exists l, ex_linked WatBackend [SLoad] (ex_analysis ex_used [SLoad; SGenericApply]) = Some l /\
     In ("instrumented_input", "call_base", FT [t_i32; t_i32] []) l /\
     In ("wastrumentation_stack", "wastrumentation_stack_load_f64", FT [t_i32; t_i32] [TNum TF64]) l).
Proof. split; (eexists; split; [vm_compute; reflexivity|]); cbn; tauto. Qed.
Print Assumptions C87_hooks_refuted.
