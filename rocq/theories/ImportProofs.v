(** Where the imports of an instrumented module come from. *)
From Verif Require Import Nesting NestingSpec NestingProofs WeaveSpec WeaveProofs WeavePropProofs InstrumentProofs.
From Coq Require Import Permutation.
Local Open Scope se_scope.

Definition imported_by (fs : list func) (ft : functy) (ns nm : string) : Prop :=
  exists i ex, nth_error fs i = Some (Fn ft (FImport ns nm) ex).

(** An import of the input, of the analysis, or of the buffer library. *)
Inductive origin (m : module) (ai : interface) (sigs : list functy) (ft : functy) (ns nm : string) : Prop :=
| from_input : imported_by (md_funcs m) ft ns nm -> origin m ai sigs ft ns nm
| from_hook h e : ai_hook ai h = Some e -> ft = wf_type e -> ns = analysis_ns -> nm = wf_name e -> origin m ai sigs ft ns nm
| from_generic e b : ai_generic ai = Some (e, b) -> ft = wf_type e -> ns = analysis_ns -> nm = wf_name e -> origin m ai sigs ft ns nm
| from_stack sg o : In sg sigs -> In o (sig_ops sg) -> ft = libop_type sg o -> ns = stack_ns -> nm = op_name sg o ->
    origin m ai sigs ft ns nm.

Lemma nth_error_firstn' {A} n (l : list A) i : i < n -> nth_error (firstn n l) i = nth_error l i.
Proof. revert l i. induction n as [|n IH]; intros l i L; [lia|]. destruct l, i; cbn; auto. apply IH. lia. Qed.

Section Origin.
  Variable m : module.
  Variable ai : interface.
  Definition ok (sigs : list functy) (f : func) : Prop :=
    match fn_code f with FImport ns nm => origin m ai sigs (fn_type f) ns nm | FPresent _ _ => True end.
  Lemma ok_more sigs sigs' f : incl sigs sigs' -> ok sigs f -> ok sigs' f.
  Proof.
    unfold ok. intros I. destruct (fn_code f); [|auto]. intros [A|h e A B C D|e b A B C D|sg o A B C D E].
    - now apply from_input.
    - eapply from_hook; eassumption.
    - eapply from_generic; eassumption.
    - eapply from_stack; try eassumption. now apply I.
  Qed.

  Lemma ok_input sigs : Forall (ok sigs) (md_funcs m).
  Proof.
    apply Forall_forall. intros f I. unfold ok. destruct (fn_code f) as [ns nm|] eqn:E; [|exact Logic.I].
    apply from_input. apply In_nth_error in I. destruct I as (i & I). exists i, (fn_exports f).
    rewrite I. destruct f; cbn in *; congruence.
  Qed.
  Lemma ok_hooks sigs hs : Forall (ok sigs) (hook_imports ai hs).
  Proof.
    apply Forall_forall. intros f I. unfold hook_imports in I. apply in_flat_map in I. destruct I as (h & _ & I).
    destruct (ai_hook ai h) as [e|] eqn:E; [|destruct I]. destruct I as [<-|[]].
    cbn. now apply from_hook with h e.
  Qed.
  Lemma ok_transform sigs ts bodies s bs s' : NoDup (map fst ts) -> if_then_first (map fst ts) ->
    Forall (fun b => NoDup (map fst (br_tables b))) bodies ->
    transform_all ts bodies s = Some (bs, s') -> Forall (ok sigs) s -> Forall (ok sigs) s'.
  Proof.
    intros ND IT. revert s bs. induction bodies as [|b r IH]; intros s bs NB E F.
    - now injection E as <- <-.
    - inversion NB as [|? ? Nb Nr]; subst. cbn [transform_all] in E. unfold se_bind, se_ret in E.
      destruct (run_passes_weave ts b s ND IT Nb) as (c & _ & Ec). rewrite Ec in E. destruct c; [|discriminate].
      set (s1 := s ++ _) in E. destruct (transform_all ts r s1) as [[r' s2]|] eqn:Er; [|discriminate]. injection E as <- <-.
      eapply IH; [exact Nr|exact Er|]. apply Forall_app. split; [exact F|].
      destruct (is_enabled _ _); [|constructor]. clear. induction (br_tables b); constructor; [exact I|assumption].
  Qed.
  Lemma ok_update sigs i g fs : (forall f, ok sigs f -> ok sigs (g f)) -> Forall (ok sigs) fs -> Forall (ok sigs) (update i g fs).
  Proof.
    intros G. revert i. induction fs as [|f fs IH]; intros [|i] F; cbn; inversion F; subst; constructor; auto.
  Qed.
  Lemma ok_write_back sigs is bs fs : Forall (ok sigs) fs -> Forall (ok sigs) (write_back is bs fs).
  Proof.
    revert bs fs. induction is as [|i is IH]; intros [|b bs] fs F; cbn; auto. apply IH, ok_update; [|exact F].
    intros f. unfold ok, set_body, set_code. destruct f as [ft [|] ex]; auto.
  Qed.
  Lemma ok_link is acc s ls s' : link_all is acc s = Some (ls, s') -> Forall (ok (map fst acc)) s ->
    (forall i, In i is -> i < List.length s) ->
    Forall (ok (map fst ls)) s' /\
    (exists new, s' = s ++ new) /\
    incl (map fst ls) (map fst acc ++ flat_map (fun i => match nth_error s i with Some f => [fn_type f] | None => [] end) is).
  Proof.
    revert acc s. induction is as [|i is IH]; intros acc s E F B.
    - injection E as <- <-. split; [exact F|]. split; [exists []; now rewrite app_nil_r|]. cbn. rewrite app_nil_r. apply incl_refl.
    - cbn [link_all] in E. unfold se_bind, get_func in E. destruct (nth_error s i) as [f|] eqn:Ef; [|discriminate].
      destruct (find_link acc (fn_type f)) as [sh|] eqn:Efl.
      + destruct (IH _ _ E F) as (A & B' & C); [intros j J; apply B; now right|]. split; [exact A|]. split; [exact B'|]. cbn [flat_map]. rewrite Ef.
        intros x I. apply C in I. apply in_app_or in I. apply in_or_app. destruct I; [auto|right]. now right.
      + destruct (link_signature_spec (fn_type f) s (le_n _)) as (sh & El & _). rewrite El in E.
        set (s1 := s ++ map (op_import (fn_type f)) (sig_ops (fn_type f))) in *.
        destruct (IH (acc ++ [(fn_type f, sh)]) s1 E) as (A & (new & ->) & C).
        * rewrite map_app. cbn [map fst]. apply Forall_app. split.
          -- eapply Forall_impl; [|exact F]. intros g. apply ok_more, incl_appl, incl_refl.
          -- apply Forall_forall. intros g I. apply in_map_iff in I. destruct I as (o & <- & I). cbn.
             apply from_stack with (fn_type f) o; auto. apply in_or_app. right. now left.
        * intros j J. unfold s1. rewrite app_length. specialize (B j (or_intror J)). lia.
        * split; [exact A|]. split; [eexists; unfold s1; rewrite <- app_assoc; reflexivity|].
          cbn [flat_map]. rewrite Ef. intros x I. apply C in I. rewrite map_app in I. cbn [map fst] in I.
          apply in_app_or in I. apply in_or_app. destruct I as [I|I].
          -- apply in_app_or in I. destruct I as [I|[<-|[]]]; [auto|right]. now left.
          -- apply in_flat_map in I. destruct I as (j & Ij & I).
             destruct (nth_error s j) as [h|] eqn:Ej.
             ++ right. apply in_or_app. right. apply in_flat_map. exists j. split; [exact Ij|]. rewrite Ej.
                assert (Q : nth_error s1 j = Some h) by (unfold s1; now apply nth_error_app_l). rewrite Q in I. exact I.
             ++ apply nth_error_None in Ej. specialize (B j (or_intror Ij)). lia.
  Qed.

  Lemma ok_intercept sigs ls g k i s ap s' : intercept ls g k i s = Some (ap, s') -> Forall (ok sigs) s -> Forall (ok sigs) s'.
  Proof.
    intros E F. unfold intercept, se_bind, get_func, lift, add_func, se_ret, set_func in E.
    destruct (nth_error s i) as [f|] eqn:Ef; [|discriminate].
    destruct (find_link ls (fn_type f)) as [sh|]; [|discriminate].
    destruct (i32_of (List.length (ft_in (fn_type f)))) as [argc|]; [|discriminate].
    destruct (i32_of (List.length (ft_out (fn_type f)))) as [resc|]; [|discriminate].
    destruct (i32_of k) as [kz|]; [|discriminate]. destruct (i32_of i) as [iz|]; [|discriminate].
    destruct (Nat.ltb _ _); [|discriminate]. injection E as <- <-.
    apply ok_update; [intros; exact I|]. rewrite <- app_assoc. apply Forall_app. split; [exact F|].
    constructor; [|repeat constructor]. rewrite Forall_forall in F. apply nth_error_In in Ef. apply F in Ef.
    destruct f; exact Ef.
  Qed.
  Lemma ok_intercept_all sigs ls g is : forall k s aps s', intercept_all ls g k is s = Some (aps, s') ->
    Forall (ok sigs) s -> Forall (ok sigs) s'.
  Proof.
    induction is as [|i is IH]; intros k s aps s' E F; [now injection E as <- <-|].
    cbn [intercept_all] in E. unfold se_bind, se_ret in E.
    destruct (intercept ls g k i s) as [[ap s1]|] eqn:Ei; [|discriminate].
    destruct (intercept_all ls g (S k) is s1) as [[aps' s2]|] eqn:Er; [|discriminate]. injection E as <- <-.
    eapply IH; [exact Er|]. eapply ok_intercept; eassumption.
  Qed.
  Lemma ok_memory sigs b : Forall (ok sigs) (memory_helpers b).
  Proof.
    unfold memory_helpers. repeat (apply Forall_app; split); try (apply Forall_forall; intros f I; apply in_map_iff in I; destruct I as (x & <- & _); exact Logic.I).
    repeat constructor.
  Qed.
End Origin.

Lemma ok_step1 hs infer m ai is_c bodies fs1 sigs : NoDup hs -> if_then_first hs -> structure_all infer m is_c = COk bodies ->
  (ts <- install ai hs ;;
   bs <- transform_all ts bodies ;;
   fun s => Some (tt, write_back is_c bs s)) (md_funcs m) = Some (tt, fs1) ->
  Forall (ok m ai sigs) fs1.
Proof.
  intros NDhs IThs Es E1.
  unfold se_bind in E1. destruct (install_spec ai hs (md_funcs m)) as (ts & Ei & Ef & _). rewrite Ei in E1.
  destruct (transform_all ts bodies (md_funcs m ++ hook_imports ai hs)) as [[bs s1]|] eqn:Et; [|discriminate].
  injection E1 as <-. apply ok_write_back.
  assert (F2 := structure_all_spec _ _ _ Es).
  eapply ok_transform; [| | |exact Et|].
  - rewrite Ef. apply NoDup_filter, NDhs.
  - rewrite Ef. apply if_then_first_filter, IThs.
  - clear - F2. induction F2 as [|i b is bodies (ft & lo & body & ex & _ & S) F IH]; constructor; auto.
    destruct (structure_typed_located _ _ _ S) as (tys & _ & _ & ND). now apply br_tables_positions.
  - apply Forall_app. split; [apply ok_input|apply ok_hooks].
Qed.

Theorem import_origin ord_i ord_c infer m ai only m' lib :
  (forall l, Permutation (ord_i l) l) -> (forall l, Permutation (ord_c l) l) ->
  instrument ord_i ord_c infer m ai only = IOk m' lib ->
  (forall ft ns nm, imported_by (md_funcs m') ft ns nm ->
     origin m ai (match lib with Some sigs => sigs | None => [] end) ft ns nm) /\
  (forall sigs sg, lib = Some sigs -> In sg sigs ->
     exists i f, selected_incl m only i = true /\ nth_error (md_funcs m) i = Some f /\ fn_type f = sg).
Proof.
  intros Pi Pc E. unfold instrument in E.
  set (is_i := ord_i (filter (selected_incl m only) (indices m))) in *.
  set (is_c := ord_c (filter (selected m only) (indices m))) in *.
  destruct (structure_all infer m is_c) as [bodies| |] eqn:Es; try discriminate.
  match type of E with match ?X with _ => _ end = _ => destruct X as [[[] fs1]|] eqn:E1; [|discriminate] end.
  destruct (@step1_spec _ infer m ai only is_c bodies fs1 all_hooks_NoDup all_hooks_if_then_first all_hooks_complete (Pc _) Es E1) as (H & hf & G & _).
  pose proof (fun sigs => @ok_step1 _ infer m ai is_c bodies fs1 sigs all_hooks_NoDup all_hooks_if_then_first Es E1) as F1.
  assert (Fin : forall sigs fs, Forall (ok m ai sigs) fs -> forall ft ns nm, imported_by fs ft ns nm -> origin m ai sigs ft ns nm).
  { intros sigs fs F ft ns nm (i & ex & N). apply nth_error_In in N. rewrite Forall_forall in F. exact (F _ N). }
  destruct (ai_generic ai) as [[gexp base]|] eqn:Eg.
  - destruct (function_application is_i gexp base (List.length (md_tables m)) fs1) as [[[aps sigs] fs2]|] eqn:Efa; [|discriminate].
    unfold inject_memory in E. destruct (Nat.leb_spec (List.length (md_mems m)) 1) as [Lm|]; [|discriminate].
    injection E as <- <-. cbn [md_funcs].
    unfold function_application, se_bind, add_import, add_func, lift, se_ret in Efa.
    change (Fn (wf_type gexp) (FImport analysis_ns (wf_name gexp)) []) with (hook_import gexp) in Efa.
    set (sg := fs1 ++ [hook_import gexp]) in *.
    destruct (link_all is_i [] sg) as [[ls sl]|] eqn:Ell; [|discriminate].
    destruct (intercept_all ls (List.length fs1) 0 is_i sl) as [[aps' si]|] eqn:Eia; [|discriminate].
    destruct (Z.of_nat (List.length aps') <? 2 ^ 32)%Z; [|discriminate]. injection Efa as <- <- <-.
    assert (InI : forall i, In i is_i -> selected_incl m only i = true).
    { intros i I. apply selected_incl_In. eapply Permutation_in; [apply Pi|exact I]. }
    assert (Ty : forall i, In i is_i -> exists f f1, nth_error (md_funcs m) i = Some f /\ nth_error sg i = Some f1 /\ fn_type f1 = fn_type f).
    { intros i I. apply InI in I. unfold selected_incl in I. destruct (nth_error (md_funcs m) i) as [f|] eqn:Ef; [|discriminate].
      assert (Li : i < List.length (md_funcs m)) by (apply nth_error_Some; congruence).
      destruct G as (_ & S & _). apply (f_equal (fun l => nth_error l i)) in S. rewrite !nth_error_map in S.
      rewrite (@nth_error_firstn' _ _ _ _ Li), (@nth_error_firstn' _ _ _ _ Li), Ef in S.
      destruct (nth_error fs1 i) as [f1|] eqn:E1'; [|discriminate]. cbn in S. injection S as S1 S2.
      exists f, f1. split; [reflexivity|]. split; [unfold sg; now apply nth_error_app_l|exact S1]. }
    destruct (@ok_link m ai is_i [] sg ls sl Ell) as (Fl & (new & ->) & Incl).
    { apply Forall_app. split; [apply F1|]. constructor; [|constructor]. cbn. now apply from_generic with gexp base. }
    { intros i I. destruct (Ty i I) as (f & f1 & _ & E' & _). apply nth_error_Some. congruence. }
    split.
    + apply Fin. apply Forall_app. split; [|apply ok_memory]. apply Forall_app. split; [|repeat constructor].
      eapply ok_intercept_all; eassumption.
    + intros sigs s [= <-] I. apply Incl in I. cbn [map app] in I. apply in_flat_map in I. destruct I as (i & Ii & I).
      destruct (Ty i Ii) as (f & f1 & A & B & C). rewrite B in I. destruct I as [<-|[]]. exists i, f. auto.
  - unfold inject_memory in E. destruct (Nat.leb_spec (List.length (md_mems m)) 1) as [Lm|]; [|discriminate].
    injection E as <- <-. split; [|discriminate]. cbn [set_funcs md_funcs]. apply Fin. apply Forall_app. split; [apply F1|apply ok_memory].
Qed.

(** Every selected function's signature is among those the library is generated for. *)
Theorem sigs_cover ord_i ord_c infer m ai only m' sigs :
  (forall l, Permutation (ord_i l) l) -> (forall l, Permutation (ord_c l) l) ->
  instrument ord_i ord_c infer m ai only = IOk m' (Some sigs) ->
  forall i f, selected_incl m only i = true -> nth_error (md_funcs m) i = Some f -> In (fn_type f) sigs.
Proof.
  intros Pi Pc E. unfold instrument in E.
  set (is_i := ord_i (filter (selected_incl m only) (indices m))) in *.
  set (is_c := ord_c (filter (selected m only) (indices m))) in *.
  destruct (structure_all infer m is_c) as [bodies| |] eqn:Es; try discriminate.
  match type of E with match ?X with _ => _ end = _ => destruct X as [[[] fs1]|] eqn:E1; [|discriminate] end.
  destruct (@step1_spec _ infer m ai only is_c bodies fs1 all_hooks_NoDup all_hooks_if_then_first all_hooks_complete (Pc _) Es E1) as (H & hf & G & _).
  destruct (ai_generic ai) as [[gexp base]|] eqn:Eg.
  2: { destruct (inject_memory (List.length (md_mems m)) fs1) as [[? ?]|] in E; discriminate. }
  destruct (function_application is_i gexp base (List.length (md_tables m)) fs1) as [[[aps sigs'] fs2]|] eqn:Efa; [|discriminate].
  destruct (inject_memory _ fs2) as [[? fs3]|]; [|discriminate]. injection E as <- ->.
  unfold function_application, se_bind, add_import, add_func, lift, se_ret in Efa.
  set (sg := fs1 ++ _) in *.
  destruct (link_all is_i [] sg) as [[ls sl]|] eqn:Ell; [|discriminate].
  destruct (intercept_all ls (List.length fs1) 0 is_i sl) as [[aps' si]|] eqn:Eia; [|discriminate].
  destruct (Z.of_nat (List.length aps') <? 2 ^ 32)%Z; [|discriminate]. injection Efa as <- <- <-.
  intros i f Sel Ef.
  assert (Li : i < List.length (md_funcs m)) by (apply nth_error_Some; congruence).
  destruct G as (_ & S & _). apply (f_equal (fun l => nth_error l i)) in S. rewrite !nth_error_map in S.
  rewrite (@nth_error_firstn' _ _ _ _ Li), (@nth_error_firstn' _ _ _ _ Li), Ef in S.
  destruct (nth_error fs1 i) as [f1|] eqn:E1'; [|discriminate]. cbn in S. injection S as S1 S2. rewrite <- S1.
  destruct (@link_all_spec is_i [] sg ls sl 0 (Nat.le_0_l _) (Forall_nil _) Ell) as (_ & _ & _ & Lf).
  destruct (Lf i f1) as (sh & F); [|unfold sg; now apply nth_error_app_l|].
  - eapply Permutation_in; [apply Permutation_sym, Pi|]. now apply selected_incl_In.
  - apply find_link_In in F. apply in_map_iff. exists (fn_type f1, sh). auto.
Qed.
