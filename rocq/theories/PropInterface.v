(** C23: the interface derived from the selected hooks, and the imports it leads to. *)
From Coq Require Import Permutation.
From Verif Require Import Nesting NestingSpec NestingProofs WeaveSpec WeaveProofs WeavePropProofs.
From Verif Require Import InstrumentProofs Interface ExModule.
Local Open Scope se_scope.
Local Open Scope string_scope.
Local Open Scope list_scope.

(** ** Specification *)
(** The selectable hook a trap function belongs to. *)
Definition family (h : hook) : shook :=
  match h with
  | HkBlockPre => SBlockPre | HkBlockPost => SBlockPost
  | HkLoopPre => SLoopPre | HkLoopPost => SLoopPost
  | HkSelect => SSelect
  | HkCallPre => SCallPre | HkCallPost => SCallPost
  | HkCallIndPre => SCallIndirectPre | HkCallIndPost => SCallIndirectPost
  | HkIfThen => SIfThen | HkIfThenPost => SIfThenPost
  | HkIfThenElse => SIfThenElse | HkIfThenElsePost => SIfThenElsePost
  | HkBr => SBranch | HkBrIf => SBranchIf | HkBrTable => SBranchTable
  | HkDrop => SDrop | HkReturn => SReturn
  | HkConst _ => SConst | HkUnary _ _ => SUnary | HkBinary _ => SBinary
  | HkMemorySize => SMemorySize | HkMemoryGrow => SMemoryGrow
  | HkLocal _ _ => SLocal | HkGlobal _ _ => SGlobal
  | HkStore _ => SStore | HkLoad _ => SLoad
  end.

(** Name and type of a function imported from the analysis. *)
Definition from_analysis (f : func) : list (string * functy) :=
  match fn_code f with
  | FImport ns nm => if string_dec ns "WASTRUMENTATION_ANALYSIS" then [(nm, fn_type f)] else []
  | FPresent _ _ => []
  end.
Definition analysis_imports (m : module) : list (string * functy) := flat_map from_analysis (md_funcs m).

(** What selecting [s] must make available: its trap functions, or [generic_apply]. *)
Inductive wanted (hs : list shook) : string -> functy -> Prop :=
| want_hook h : In (family h) hs ->
    wanted hs (trap_name h) (FT (map TNum (trap_args h)) (map TNum (trap_results h)))
| want_generic : In SGenericApply hs ->
    wanted hs "generic_apply" (FT (repeat (TNum TI32) 7) []).

(** ** The interface *)
Lemma fold_set_field l ai h :
  ai_hook (fold_left (fun ai h => set_field h (std_hook h) ai) l ai) h
  = if in_dec hook_eq_dec h l then Some (std_hook h) else ai_hook ai h.
Proof.
  revert ai. induction l as [|x l IH]; intros ai; [reflexivity|]. cbn [fold_left]. rewrite IH.
  unfold set_field. cbn [ai_hook]. destruct (hook_eq_dec h x) as [->|N].
  - destruct (in_dec hook_eq_dec x l), (in_dec hook_eq_dec x (x :: l)) as [|F]; try reflexivity; destruct F; now left.
  - destruct (in_dec hook_eq_dec h l) as [I|I], (in_dec hook_eq_dec h (x :: l)) as [J|J]; try reflexivity.
    + destruct J. now right.
    + destruct J; congruence.
Qed.
Lemma fold_set_generic l ai :
  ai_generic (fold_left (fun ai h => set_field h (std_hook h) ai) l ai) = ai_generic ai.
Proof. revert ai. induction l as [|x l IH]; intros ai; [reflexivity|]. cbn [fold_left]. now rewrite IH. Qed.

Lemma fields_family s h : In h (fields_of s) <-> family h = s /\ s <> SGenericApply.
Proof.
  split.
  - intros I. destruct s; cbn [fields_of In] in I; intuition (subst; cbn; congruence).
  - intros [<- _]. destruct h; cbn [family fields_of In];
    repeat match goal with x : numty |- _ => destruct x | x : binkind |- _ => destruct x
                         | x : localop |- _ => destruct x | x : globalop |- _ => destruct x end; tauto.
Qed.

Lemma select_hook_field ai s h :
  ai_hook (select_hook ai s) h = if shook_eq_dec (family h) s then Some (std_hook h) else ai_hook ai h.
Proof.
  destruct (shook_eq_dec s SGenericApply) as [->|N].
  - cbn. destruct (shook_eq_dec (family h) SGenericApply) as [E|]; [|reflexivity]. destruct h; discriminate.
  - replace (select_hook ai s) with (fold_left (fun ai h => set_field h (std_hook h) ai) (fields_of s) ai)
      by (destruct s; try reflexivity; congruence).
    rewrite fold_set_field. pose proof (fields_family s h) as F.
    destruct (in_dec hook_eq_dec h (fields_of s)) as [I|I], (shook_eq_dec (family h) s) as [J|J]; try reflexivity; tauto.
Qed.
Lemma select_hook_generic ai s :
  ai_generic (select_hook ai s)
  = if shook_eq_dec s SGenericApply then Some (generic_apply, call_base) else ai_generic ai.
Proof. destruct s; cbn [select_hook]; try rewrite fold_set_generic; reflexivity. Qed.

Lemma interface_from_fields hs h :
  ai_hook (interface_from hs) h = if in_dec shook_eq_dec (family h) hs then Some (std_hook h) else None.
Proof.
  unfold interface_from. change (@None wfun) with (ai_hook no_interface h). generalize no_interface.
  induction hs as [|s hs IH]; intros ai; [reflexivity|]. cbn [fold_left]. rewrite IH, select_hook_field.
  destruct (shook_eq_dec (family h) s) as [<-|N].
  - destruct (in_dec shook_eq_dec (family h) hs), (in_dec shook_eq_dec (family h) (family h :: hs)) as [|F]; try reflexivity; destruct F; now left.
  - destruct (in_dec shook_eq_dec (family h) hs) as [I|I], (in_dec shook_eq_dec (family h) (s :: hs)) as [J|J]; try reflexivity.
    + destruct J. now right.
    + destruct J; congruence.
Qed.
Lemma interface_from_generic hs :
  ai_generic (interface_from hs) = if in_dec shook_eq_dec SGenericApply hs then Some (generic_apply, call_base) else None.
Proof.
  unfold interface_from. change (@None (wfun * wfun)) with (ai_generic no_interface). generalize no_interface.
  induction hs as [|s hs IH]; intros ai; [reflexivity|]. cbn [fold_left]. rewrite IH, select_hook_generic.
  destruct (shook_eq_dec s SGenericApply) as [->|N].
  - destruct (in_dec shook_eq_dec SGenericApply hs), (in_dec shook_eq_dec SGenericApply (SGenericApply :: hs)) as [|F]; try reflexivity; destruct F; now left.
  - destruct (in_dec shook_eq_dec SGenericApply hs) as [I|I], (in_dec shook_eq_dec SGenericApply (s :: hs)) as [J|J]; try reflexivity.
    + destruct J. now right.
    + destruct J; congruence.
Qed.

(** ** The instrumentation only looks at the fields *)
Lemma install_ext ai ai' hs s : (forall h, ai_hook ai h = ai_hook ai' h) -> install ai hs s = install ai' hs s.
Proof.
  intros E. revert s. induction hs as [|h hs IH]; intros s; [reflexivity|]. cbn [install]. rewrite (E h).
  destruct (ai_hook ai' h); [|apply IH]. unfold se_bind. destruct (add_import _ _ _ s) as [[f s']|]; [|reflexivity].
  now rewrite IH.
Qed.
Lemma instrument_ext ord_i ord_c infer m ai ai' only :
  (forall h, ai_hook ai h = ai_hook ai' h) -> ai_generic ai = ai_generic ai' ->
  instrument ord_i ord_c infer m ai only = instrument ord_i ord_c infer m ai' only.
Proof.
  intros E G. unfold instrument. destruct (structure_all _ _ _); try reflexivity.
  generalize all_hooks_order. intros hs. unfold se_bind.
  rewrite (install_ext ai ai' hs (md_funcs m) E). now rewrite G.
Qed.

(** ** Imports of the output *)
Lemma imports_write_back is bs fs : flat_map from_analysis (write_back is bs fs) = flat_map from_analysis fs.
Proof.
  revert bs fs. induction is as [|i is IH]; intros [|b bs] fs; try reflexivity. cbn [write_back]. rewrite IH.
  clear. revert i. induction fs as [|f fs IH]; intros [|i]; try reflexivity; cbn [update flat_map]; [|now rewrite IH].
  f_equal. unfold set_body, from_analysis. destruct f as [ft [|] ex]; reflexivity.
Qed.
Lemma imports_none fs : Forall (fun f => from_analysis f = []) fs -> flat_map from_analysis fs = [].
Proof. induction 1 as [|f fs E F IH]; [reflexivity|]. cbn [flat_map]. now rewrite E, IH. Qed.

Lemma imports_transform ts bodies s bs s' :
  NoDup (map fst ts) -> if_then_first (map fst ts) ->
  Forall (fun b => NoDup (map fst (br_tables b))) bodies ->
  transform_all ts bodies s = Some (bs, s') -> flat_map from_analysis s' = flat_map from_analysis s.
Proof.
  intros ND IT. revert s bs s'. induction bodies as [|b r IH]; intros s bs s' NB E.
  - now injection E as <- <-.
  - inversion NB as [|? ? Nb Nr]; subst. cbn [transform_all] in E. unfold se_bind, se_ret in E.
    destruct (run_passes_weave ts b s ND IT Nb) as (c & _ & Ec). rewrite Ec in E.
    destruct c; [|discriminate].
    match type of E with match ?X with _ => _ end = _ => destruct X as [[r' s2]|] eqn:Er; [|discriminate] end.
    injection E as <- <-. rewrite (IH _ _ _ Nr Er), flat_map_app.
    match goal with |- _ ++ ?Y = _ => replace Y with (@nil (string * functy)); [apply app_nil_r|] end.
    symmetry. apply imports_none. destruct (is_enabled _ _); [|constructor].
    clear. induction (br_tables b); cbn [map]; constructor; auto.
Qed.
Lemma imports_hooks ai hs :
  flat_map from_analysis (hook_imports ai hs)
  = flat_map (fun h => match ai_hook ai h with Some e => [(wf_name e, wf_type e)] | None => [] end) hs.
Proof.
  unfold hook_imports. induction hs as [|h hs IH]; [reflexivity|]. cbn [flat_map].
  rewrite flat_map_app, IH. f_equal. now destruct (ai_hook ai h).
Qed.
Lemma imports_link_all is acc s ls s' :
  link_all is acc s = Some (ls, s') -> flat_map from_analysis s' = flat_map from_analysis s.
Proof.
  revert acc s. induction is as [|i is IH]; intros acc s E; [now injection E as <- <-|].
  cbn [link_all] in E. unfold se_bind, get_func in E.
  destruct (nth_error s i) as [f|] eqn:Ef; [|discriminate].
  destruct (find_link acc (fn_type f)) as [sh|] eqn:Efl; [now apply IH in E|].
  destruct (@link_signature_spec (fn_type f) s 0 (Nat.le_0_l _)) as (sh & El & _). rewrite El in E.
  apply IH in E. rewrite E, flat_map_app.
  match goal with |- _ ++ ?Y = _ => replace Y with (@nil (string * functy)); [apply app_nil_r|] end.
  symmetry. apply imports_none. clear. induction (sig_ops (fn_type f)); cbn [map]; constructor; auto.
Qed.
Lemma imports_update fs i f g : nth_error fs i = Some f -> from_analysis (g f) = from_analysis f ->
  flat_map from_analysis (update i g fs) = flat_map from_analysis fs.
Proof.
  revert i. induction fs as [|x fs IH]; intros [|i] E Q; try discriminate; cbn [update flat_map].
  - injection E as ->. now rewrite Q.
  - now rewrite (IH i E Q).
Qed.
Lemma imports_intercept_all ls g n is : forall k s aps s',
  n <= List.length s -> (forall i, In i is -> i < n) ->
  (forall i f, i < n -> nth_error s i = Some f -> from_analysis f = []) ->
  intercept_all ls g k is s = Some (aps, s') -> flat_map from_analysis s' = flat_map from_analysis s.
Proof.
  induction is as [|i is IH]; intros k s aps s' L B Q E; [now injection E as <- <-|].
  cbn [intercept_all] in E. unfold se_bind, se_ret in E.
  destruct (intercept ls g k i s) as [[ap s1]|] eqn:Ei; [|discriminate].
  destruct (intercept_all ls g (S k) is s1) as [[aps' s2]|] eqn:Er; [|discriminate]. injection E as <- <-.
  assert (I : i < n) by (apply B; now left).
  destruct (@intercept_spec ls g k i s n ap s1 L I Ei) as (f & Ef & If & G1 & Same1).
  assert (Qf := Q _ _ I Ef).
  assert (W : forall sh g k i, from_analysis (wrapper_fn sh f g k i) = []).
  { intros. reflexivity. }
  rewrite (IH (S k) s1 aps' s2); auto.
  - unfold intercept, se_bind, get_func, lift, add_func, se_ret, set_func in Ei. rewrite Ef in Ei.
    destruct (find_link ls (fn_type f)) as [sh|]; [|discriminate].
    destruct (i32_of (List.length (ft_in (fn_type f)))) as [argc|]; [|discriminate].
    destruct (i32_of (List.length (ft_out (fn_type f)))) as [resc|]; [|discriminate].
    destruct (i32_of k) as [kz|]; [|discriminate]. destruct (i32_of i) as [iz|]; [|discriminate].
    match type of Ei with match (if ?c then _ else _) with _ => _ end = _ => destruct c; [|discriminate] end.
    injection Ei as <- <-.
    rewrite (@imports_update _ i f); [| |rewrite Qf; reflexivity].
    + rewrite !flat_map_app. cbn [flat_map]. 
      replace (from_analysis (copy_of f)) with (@nil (string * functy)) by (rewrite <- Qf; destruct f as [ft [] ex]; reflexivity).
      now rewrite !app_nil_r.
    + apply nth_error_app_l. now apply nth_error_app_l.
  - eapply grows_length; exact G1.
  - intros j J. apply B. now right.
  - intros j h J Eh. destruct (Nat.eq_dec j i) as [->|N].
    + destruct If as (sh & bs & _ & E1 & _). rewrite E1 in Eh. injection Eh as <-. reflexivity.
    + rewrite Same1 in Eh by assumption. eapply Q; eassumption.
Qed.

Lemma imports_instrument ord_i ord_c infer m ai only m' lib :
  (forall l, Permutation (ord_i l) l) -> (forall l, Permutation (ord_c l) l) ->
  analysis_imports m = [] ->
  instrument ord_i ord_c infer m ai only = IOk m' lib ->
  analysis_imports m'
  = flat_map (fun h => match ai_hook ai h with Some e => [(wf_name e, wf_type e)] | None => [] end) all_hooks_order
    ++ match ai_generic ai with Some (e, _) => [(wf_name e, wf_type e)] | None => [] end.
Proof.
  intros Pi Pc None_ E. unfold instrument in E. unfold analysis_imports in *.
  set (is_i := ord_i (filter (selected_incl m only) (indices m))) in *.
  set (is_c := ord_c (filter (selected m only) (indices m))) in *.
  destruct (structure_all infer m is_c) as [bodies| |] eqn:Es; try discriminate.
  match type of E with match ?X with _ => _ end = _ => destruct X as [[[] fs1]|] eqn:E1; [|discriminate] end.
  assert (ND := all_hooks_NoDup). assert (IT := all_hooks_if_then_first). assert (Al := all_hooks_complete).
  revert E1 ND IT Al. generalize all_hooks_order as hs. intros hs E1 ND IT Al.
  assert (I1 : flat_map from_analysis fs1
    = flat_map (fun h => match ai_hook ai h with Some e => [(wf_name e, wf_type e)] | None => [] end) hs).
  { unfold se_bind in E1.
    destruct (install_spec ai hs (md_funcs m)) as (ts & Ei & Ef & _). rewrite Ei in E1.
    match type of E1 with match ?X with _ => _ end = _ => destruct X as [[bs s1]|] eqn:Et; [|discriminate] end.
    injection E1 as <-. rewrite imports_write_back.
    rewrite (@imports_transform ts bodies (md_funcs m ++ hook_imports ai hs) bs s1); [| | | |exact Et].
    - now rewrite flat_map_app, None_, imports_hooks.
    - rewrite Ef. now apply NoDup_filter.
    - rewrite Ef. now apply if_then_first_filter.
    - assert (F2 := structure_all_spec _ _ _ Es).
      clear - F2. induction F2 as [|i b is bodies (ft & lo & body & ex & _ & S) F IH]; constructor; auto.
      destruct (structure_typed_located _ _ _ S) as (tys & _ & _ & NDp). now apply br_tables_positions. }
  destruct (@step1_spec _ infer m ai only is_c bodies fs1 ND IT Al (Pc _) Es E1) as (H & hf & G & _ & _ & _ & Hw).
  set (n := List.length (md_funcs m)) in *.
  assert (Ln : n <= List.length fs1) by (eapply grows_length; eassumption).
  assert (Hm : forall b, flat_map from_analysis (memory_helpers b) = []).
  { intros b. apply imports_none. destruct b; unfold memory_helpers; rewrite ?Forall_app, ?Forall_map; repeat split;
    try (apply Forall_forall; intros; reflexivity); repeat constructor. }
  destruct (ai_generic ai) as [[gexp base]|] eqn:Eg.
  - destruct (function_application is_i gexp base (List.length (md_tables m)) fs1) as [[[aps sigs] fs2]|] eqn:Efa; [|discriminate].
    unfold inject_memory in E. destruct (Nat.leb _ 1); [|discriminate]. injection E as <- <-. cbn [md_funcs].
    rewrite flat_map_app, Hm, app_nil_r.
    unfold function_application, se_bind, add_import, add_func, lift, se_ret in Efa.
    set (sg := fs1 ++ [Fn (wf_type gexp) (FImport analysis_ns (wf_name gexp)) []]) in *.
    destruct (link_all is_i [] sg) as [[ls sl]|] eqn:Ell; [|discriminate].
    destruct (intercept_all ls (List.length fs1) 0 is_i sl) as [[aps' si]|] eqn:Eia; [|discriminate].
    destruct (Z.of_nat (List.length aps') <? 2 ^ 32)%Z; [|discriminate]. injection Efa as <- <- <-.
    assert (Lsg : n <= List.length sg) by (unfold sg; rewrite app_length; lia).
    destruct (@link_all_spec is_i [] sg ls sl n Lsg (Forall_nil _) Ell) as ((newl & Esl & _) & _).
    rewrite flat_map_app. cbn [flat_map]. change (from_analysis (call_base_fn base (List.length (md_tables m)))) with (@nil (string * functy)).
    rewrite !app_nil_r.
    rewrite (@imports_intercept_all ls (List.length fs1) n is_i 0 sl aps' si); [| | | |exact Eia].
    + rewrite (imports_link_all _ _ _ Ell). unfold sg. rewrite flat_map_app, I1. reflexivity.
    + rewrite Esl, app_length. lia.
    + intros i I. assert (In i (filter (selected_incl m only) (indices m))) as J
        by (eapply Permutation_in; [apply Pi|exact I]).
      apply filter_In in J. destruct J as [_ J]. unfold selected_incl in J.
      destruct (nth_error (md_funcs m) i) eqn:Q; [|discriminate]. apply nth_error_Some. congruence.
    + intros i f Li Ef. destruct (nth_error (md_funcs m) i) as [f0|] eqn:Q; [|apply nth_error_None in Q; unfold n in Li; lia].
      assert (Ei : nth_error sl i = Some (woven_fn H hf infer m only i f0)).
      { rewrite Esl. unfold sg. do 2 apply nth_error_app_l. now apply Hw. }
      rewrite Ei in Ef. injection Ef as <-.
      assert (Q0 : from_analysis f0 = []).
      { clear - None_ Q. revert i Q. induction (md_funcs m) as [|x l IH]; intros [|i] Q; try discriminate;
        cbn [flat_map] in None_; apply app_eq_nil in None_; destruct None_ as [A B].
        - now injection Q as <-.
        - now apply (IH B i). }
      clear - Q0. unfold woven_fn, woven, from_analysis in *. destruct f0 as [ft [ns nm|lo body] ex]; cbn [fn_code] in *; [exact Q0|].
      cbn [fn_code]. destruct (selected m only i); [destruct (structure_typed i (infer i) body)|]; reflexivity.
  - unfold inject_memory in E. destruct (Nat.leb _ 1); [|discriminate]. injection E as <- <-. cbn [set_funcs md_funcs].
    now rewrite flat_map_app, Hm, I1.
Qed.

(** ** C23 *)
(** The interface has exactly the fields of the selected hooks: each trap under its own name
    and type when its hook is selected, nothing otherwise. *)
Theorem C23_interface_exact : forall hs h,
  (In (family h) hs -> ai_hook (interface_from hs) h = Some (WF (trap_name h) (trap_args h) (trap_results h))) /\
  (~ In (family h) hs -> ai_hook (interface_from hs) h = None) /\
  (In SGenericApply hs <-> ai_generic (interface_from hs) <> None).
Proof.
  intros hs h. rewrite interface_from_fields, interface_from_generic. unfold std_hook.
  destruct (in_dec shook_eq_dec (family h) hs), (in_dec shook_eq_dec SGenericApply hs); intuition (try congruence).
Qed.

(** The iteration order of the hash set and repetitions do not matter to the instrumentation;
    the instrumented module is the one the other theorems speak about. *)
Theorem C23_set_determines : forall hs ord_i ord_c infer m only,
  instrument ord_i ord_c infer m (interface_from hs) only
  = instrument ord_i ord_c infer m
      (std_ai (fun h => if in_dec shook_eq_dec (family h) hs then true else false)
              (if in_dec shook_eq_dec SGenericApply hs then true else false)) only.
Proof.
  intros hs ord_i ord_c infer m only. apply instrument_ext.
  - intros h. rewrite interface_from_fields. cbn. now destruct (in_dec _ _ _).
  - rewrite interface_from_generic. cbn. now destruct (in_dec _ _ _).
Qed.

Fixpoint distinctb {A} (dec : forall x y : A, {x = y} + {x <> y}) (l : list A) : bool :=
  match l with
  | [] => true
  | x :: l' => (if in_dec dec x l' then false else true) && distinctb dec l'
  end.
Lemma distinctb_NoDup {A} dec (l : list A) : distinctb dec l = true -> NoDup l.
Proof.
  induction l as [|x l IH]; cbn [distinctb]; intros E; constructor; apply andb_prop in E as [E1 E2]; auto.
  now destruct (in_dec dec x l).
Qed.
Lemma trap_names_distinct : NoDup (map trap_name all_hooks_order).
Proof. apply (@distinctb_NoDup _ string_dec). vm_compute. reflexivity. Qed.
Lemma trap_name_generic h : trap_name h <> "generic_apply".
Proof.
  destruct h; repeat match goal with x : numty |- _ => destruct x | x : binkind |- _ => destruct x
    | x : localop |- _ => destruct x | x : globalop |- _ => destruct x end; discriminate.
Qed.
Lemma NoDup_map_filter {A B} (f : A -> B) p l : NoDup (map f l) -> NoDup (map f (filter p l)).
Proof.
  induction l as [|x l IH]; cbn [map filter]; intros N; [constructor|]. inversion N as [|? ? NI N']; subst.
  destruct (p x); auto. cbn [map]. constructor; auto. intros I. apply NI. apply in_map_iff in I.
  destruct I as (y & <- & I). apply filter_In in I. apply in_map. tauto.
Qed.

(** For an input that imports nothing from the analysis namespace: the functions the output
    imports from the analysis are exactly the wanted ones, and no name is imported twice. *)
Theorem C23_imports_exact : forall ord_i ord_c infer m hs only m' lib,
  (forall l, Permutation (ord_i l) l) -> (forall l, Permutation (ord_c l) l) ->
  analysis_imports m = [] ->
  instrument ord_i ord_c infer m (interface_from hs) only = IOk m' lib ->
  (forall nm ft, In (nm, ft) (analysis_imports m') <-> wanted hs nm ft) /\
  NoDup (map fst (analysis_imports m')).
Proof.
  intros ord_i ord_c infer m hs only m' lib Pi Pc N E.
  rewrite (imports_instrument _ _ _ _ _ _ Pi Pc N E). rewrite interface_from_generic.
  assert (Ex : forall l, flat_map (fun h => match ai_hook (interface_from hs) h with
              Some e => [(wf_name e, wf_type e)] | None => [] end) l
    = map (fun h => (trap_name h, FT (map TNum (trap_args h)) (map TNum (trap_results h))))
          (filter (fun h => if in_dec shook_eq_dec (family h) hs then true else false) l)).
  { induction l as [|h l IH]; [reflexivity|]. cbn [flat_map filter]. rewrite interface_from_fields, IH.
    now destruct (in_dec shook_eq_dec (family h) hs). }
  rewrite Ex. clear Ex. split.
  - intros nm ft. rewrite in_app_iff, in_map_iff. split.
    + intros [(h & Q & I)|I].
      * injection Q as <- <-. apply filter_In in I. destruct I as [_ I].
        destruct (in_dec shook_eq_dec (family h) hs); [|discriminate]. now constructor.
      * destruct (in_dec shook_eq_dec SGenericApply hs); [|destruct I]. destruct I as [I|[]].
        injection I as <- <-. now constructor.
    + intros [h I|I].
      * left. exists h. split; [reflexivity|]. apply filter_In. split; [apply all_hooks_complete|].
        now destruct (in_dec shook_eq_dec (family h) hs).
      * right. destruct (in_dec shook_eq_dec SGenericApply hs); [now left|tauto].
  - rewrite map_app, map_map. cbn [fst].
    assert (ND := NoDup_map_filter _ (fun h => if in_dec shook_eq_dec (family h) hs then true else false) _ trap_names_distinct).
    destruct (in_dec shook_eq_dec SGenericApply hs); [|now rewrite app_nil_r].
    cbn [map fst wf_name generic_apply]. eapply Permutation_NoDup; [apply Permutation_cons_append|].
    constructor; [|exact ND]. intros I. apply in_map_iff in I. destruct I as (h & Q & _). now apply trap_name_generic in Q.
Qed.

(** *** Example: three selected hooks, one repeated, on the example module. *)
Definition ex_hooks : list shook := [SLoad; SGenericApply; SReturn; SLoad].
Example ex_interface_imports :
  analysis_imports ex_module = [] /\
  match instrument (fun l => l) (fun l => rev l) ex_types ex_module (interface_from ex_hooks) None with
  | IOk m' _ => map fst (analysis_imports m')
      = ["return_trap"; "trap_f32_load"; "trap_f64_load"; "trap_i32_load"; "trap_i64_load"; "generic_apply"]
  | _ => False
  end.
Proof. vm_compute. repeat split. Qed.
Example ex_all_hooks : List.length (filter (fun h => match ai_hook (interface_from all_shooks) h with Some _ => true | None => false end) all_hooks_order) = 75.
Proof. vm_compute. reflexivity. Qed.

Print Assumptions C23_interface_exact.
Print Assumptions C23_set_determines.
Print Assumptions C23_imports_exact.
