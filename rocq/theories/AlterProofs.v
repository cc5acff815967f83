(** The edited program is valid if the inserted code turns one [i32] into another, and does not notice other providers of the imports
    it does not have (towards C90). *)
From Verif Require Import Semantics Advice Nesting NestingProofs RunLemmas Instrument Instantiate Interface Typing TypingProofs
  AdvisedTyping ModuleTyping InstantiateTyping WeaveTyping Handles Edit.
Local Open Scope string_scope.
Local Open Scope list_scope.
Local Open Scope res_scope.

(** ** Validity *)
Section Valid.
  Variable edit : hook -> list basic.
  (** The inserted code replaces an [i32] on top of the stack by another. *)
  Definition edits_typed : Prop := forall h C rest, seq_ok C (map UBasic (edit h)) (i32 :: rest) (i32 :: rest).
  Hypothesis ET : edits_typed.
  Lemma edited_basic C b ft rest : btype C b ft ->
    seq_ok C (map UBasic (before_basic edit b) ++ [UBasic b]) (rev (ft_in ft) ++ rest) (rev (ft_out ft) ++ rest).
  Proof.
    intros B. assert (N : before_basic edit b = [] -> seq_ok C (map UBasic (before_basic edit b) ++ [UBasic b]) (rev (ft_in ft) ++ rest) (rev (ft_out ft) ++ rest)).
    { intros ->. cbn [map app]. apply seq_ok_one. now constructor. }
    assert (Y : forall h ts, before_basic edit b = edit h -> ft_in ft = ts ++ [i32] ->
      seq_ok C (map UBasic (before_basic edit b) ++ [UBasic b]) (rev (ft_in ft) ++ rest) (rev (ft_out ft) ++ rest)).
    { intros h ts Q F. rewrite Q. eapply seq_ok_app; [|apply seq_ok_one; constructor; exact B].
      rewrite F, rev_app_distr. cbn [rev app]. apply ET. }
    destruct B; cbn [before_basic] in *; try (now apply N).
    - now apply (Y HkBrIf lt).
    - apply (Y HkBrTable (a ++ lt)); [reflexivity|]. apply app_assoc.
    - now apply (Y HkCallIndPre (ft_in ft)).
    - now apply (Y HkSelect [TNum t; TNum t]).
    - now apply (Y HkSelect [t; t]).
  Qed.
  Lemma edited_seq C b ts ts' : seq_ok C b ts ts' -> seq_ok C (edited edit b) ts ts'.
  Proof.
    intros H. unfold edited.
    apply (@seq_ok_ind' (fun C i ft _ => forall rest, seq_ok C (edited1 edit i) (rev (ft_in ft) ++ rest) (rev (ft_out ft) ++ rest))
                        (fun C b ts ts' _ => seq_ok C (flat_map (edited1 edit) b) ts ts')); auto; clear H C b ts ts'.
    - intros C b ft B rest. now apply edited_basic.
    - intros C ft body _ IH rest. apply seq_ok_one. now constructor.
    - intros C ft body _ IH rest. apply seq_ok_one. now constructor.
    - intros C ft thn _ IH Q rest. cbn [edited1]. eapply seq_ok_app; [|apply seq_ok_one; constructor; [exact IH|exact Q]].
      cbn [ft_in]. rewrite rev_app_distr. cbn [rev app]. apply ET.
    - intros C ft thn els _ IH1 _ IH2 rest. cbn [edited1]. eapply seq_ok_app; [|apply seq_ok_one; constructor; [exact IH1|exact IH2]].
      cbn [ft_in]. rewrite rev_app_distr. cbn [rev app]. apply ET.
    - intros. constructor.
    - intros C i r ft rest ts _ IH1 _ IH2. cbn [flat_map]. eapply seq_ok_app; [apply IH1|exact IH2].
  Qed.
  Variable m : module.
  Variable only : option (list nat).
  Notation m1 := (edited_module edit m only).
  Lemma edited_types : map fn_type (md_funcs m1) = map fn_type (md_funcs m).
  Proof using.
    unfold edited_module, set_funcs. cbn [md_funcs]. generalize 0. generalize (selected m only). intros w.
    induction (md_funcs m) as [|fn r IH]; intros k; [reflexivity|]. cbn [edited_from map]. rewrite IH. f_equal.
    destruct (w k); [apply edited_func_type|reflexivity].
  Qed.
  Lemma edited_length : List.length (md_funcs m1) = List.length (md_funcs m).
  Proof using. now rewrite <- (map_length fn_type), edited_types, map_length. Qed.
  Lemma edited_mctx ls ret : mctx m1 ls ret = mctx m ls ret.
  Proof using. unfold mctx. now rewrite edited_types. Qed.
  Lemma edited_init gs c t : init_ok m gs c t -> init_ok m1 gs c t.
  Proof using. unfold init_ok. now rewrite edited_length. Qed.
  Lemma edited_exports : flat_map fn_exports (md_funcs m1) = flat_map fn_exports (md_funcs m).
  Proof using.
    unfold edited_module, set_funcs. cbn [md_funcs]. generalize 0. generalize (selected m only). intros w.
    induction (md_funcs m) as [|fn r IH]; intros k; [reflexivity|]. cbn [edited_from flat_map]. rewrite IH. f_equal.
    destruct (w k); [apply edited_func_exports|reflexivity].
  Qed.
  Lemma edited_ok fn : func_ok m fn -> func_ok m1 (edited_func edit fn) /\ func_ok m1 fn.
  Proof.
    unfold func_ok, edited_func. destruct (fn_code fn) as [ns nm|locals body] eqn:C; [intros _; rewrite C; auto|].
    intros (b & S & T). cbn [fn_code fn_type]. rewrite edited_mctx. split; [|eauto]. exists (edited edit b). split; [|now apply edited_seq].
    unfold edited_body. rewrite S. apply structure_untyped_flatten.
  Qed.
  Lemma edited_valid : valid m -> valid m1.
  Proof.
    intros V. constructor.
    - apply Forall_forall. intros fn J. apply In_nth_error in J as (f & N). rewrite m1_nth in N.
      destruct (nth_error (md_funcs m) f) as [fn0|] eqn:N0; [|discriminate N]. cbn [option_map] in N. injection N as <-.
      pose proof (va_funcs V) as F. rewrite Forall_forall in F. destruct (@edited_ok fn0 (F _ (nth_error_In _ _ N0))).
      destruct (selected m only f); assumption.
    - exact (va_tables V).
    - exact (va_mems V).
    - intros i g N Q. apply edited_init. exact (va_globals V i N Q).
    - eapply Forall_impl; [|exact (va_elems V)]. intros e (A & B). split.
      + eapply Forall_impl; [|exact A]. intros c. apply edited_init.
      + destruct (el_mode e); auto. destruct B as (B1 & B2). split; [exact B1|]. now apply edited_init.
    - eapply Forall_impl; [|exact (va_datas V)]. intros d. unfold data_ok. destruct (dt_active d); auto. intros (A & B). split; [exact A|]. now apply edited_init.
    - pose proof (va_start V) as W. change (md_start m1) with (md_start m). destruct (md_start m) as [f|]; [|exact Logic.I].
      rewrite <- W, <- !nth_error_map, edited_types. reflexivity.
    - rewrite edited_exports. exact (va_exports V).
  Qed.
  Lemma edited_provided imp : provided_ok m imp -> provided_ok m1 imp.
  Proof using. intros [A B D]. constructor; rewrite ?edited_length; assumption. Qed.
  Lemma edited_xty name : plain_xty m1 name = plain_xty m name.
  Proof using.
    unfold plain_xty, edited_module, set_funcs. cbn [md_funcs]. rewrite edited_export. destruct (export_index 0 (md_funcs m) name) as [f|]; [|reflexivity].
    rewrite <- !nth_error_map. f_equal. exact edited_types.
  Qed.
  Lemma edited_import f fn ns name : nth_error (md_funcs m1) f = Some fn -> fn_code fn = FImport ns name ->
    nth_error (md_funcs m) f = Some fn.
  Proof using.
    intros N C. rewrite m1_nth in N. destruct (nth_error (md_funcs m) f) as [fn0|] eqn:N0; [|discriminate N]. cbn [option_map] in N. injection N as <-.
    destruct (selected m only f); [|reflexivity]. unfold edited_func in *. destruct (fn_code fn0) eqn:C0; [reflexivity|discriminate C].
  Qed.
End Valid.

(** ** Valid programs do not go wrong *)
Section Plain.
  Context {X : Type}.
  Variable num1 : unop -> Z -> option Z.
  Variable num2 : binop -> Z -> Z -> option Z.
  Variable I : X -> Prop.
  Lemma plain_module_ok (ext : string -> string -> list val -> xprog X) m imp : valid m -> in_format m -> provided_ok m imp ->
    hosts_ok ext I m (plain_xty m) -> forall n x calls, I x ->
    Forall (fun c => exists ft, plain_xty m (fst c) = Some ft /\ Forall2 (val_ok (List.length (md_funcs m))) (snd c) (ft_in ft)) calls ->
    run_module num1 num2 ext n imp m x calls <> Stuck.
  Proof.
    intros V U PV HO n x calls Ix F.
    pose proof (@call_fn_ok X num1 num2 ext I m V U HO n) as SP.
    unfold run_module. pose proof (@instantiate_ok X I m imp V U PV x Ix) as R.
    destruct (instantiate imp m x) as [s|s| |]; simpl in R |- *; try discriminate; [|contradiction]. destruct R as (D & _).
    assert (ST : call_res I (ctx_of m) [] (match md_start m with
      | Some f => call_fn num1 num2 ext (md_funcs m) n f [] s | None => Ok ([], s) end)).
    { pose proof (va_start V) as W. destruct (md_start m) as [f|]; [|simpl; auto].
      apply (SP f (FT [] [])); simpl; auto. now rewrite nth_error_map. }
    destruct (match md_start m with Some f => _ | None => _ end) as [[vs s1]|s1| |]; simpl in ST |- *; try discriminate; [|contradiction].
    destruct ST as (_ & D1).
    assert (W : session_res I m (session (fun name args s => rbind (rget (export_index 0 (md_funcs m) name)) (fun f =>
       call_fn num1 num2 ext (md_funcs m) n f args s)) calls s1)).
    { apply (@session_ok X I m _ (plain_xty m)); auto. intros name ft args s' E Fa D'. unfold plain_xty in E.
      destruct (export_index 0 (md_funcs m) name) as [f|]; [|discriminate]. simpl. apply SP; auto. simpl. now rewrite nth_error_map. }
    intros Q. rewrite Q in W. exact W.
  Qed.
  (** Providers of imports that the module does not have do not matter. *)
  Variables ext ext' : string -> string -> list val -> xprog X.
  Variable m : module.
  Hypothesis SAME : forall f fn ns name args, nth_error (md_funcs m) f = Some fn -> fn_code fn = FImport ns name -> ext ns name args = ext' ns name args.
  Lemma call_fn_same n : forall f args s, call_fn num1 num2 ext (md_funcs m) n f args s = call_fn num1 num2 ext' (md_funcs m) n f args s.
  Proof.
    induction n as [|n IH]; intros f args s; [reflexivity|]. cbn [call_fn].
    destruct (nth_error (md_funcs m) f) as [fn|] eqn:N; [|reflexivity]. cbn [rget rbind]. destruct (Nat.eqb _ _); [|reflexivity].
    destruct (fn_code fn) as [ns name|locals body] eqn:C.
    - unfold call_import. rewrite (@SAME f fn ns name args N C). apply bind_ext; [|reflexivity].
      generalize (ext' ns name args) as p. intros p. revert s. induction p as [vs| | |k IHk|x mm g k IHk|nm args' k IHk]; intros s; cbn [run_x]; auto.
      apply bind_ext; [|intros [vs s']; apply IHk]. apply bind_ext; [reflexivity|]. intros g. apply IH.
    - destruct (structure_untyped body); [|reflexivity..]. apply invoke_ext. now apply run_ext.
  Qed.
  Lemma run_module_same n imp x calls : run_module num1 num2 ext n imp m x calls = run_module num1 num2 ext' n imp m x calls.
  Proof.
    unfold run_module. apply bind_ext; [reflexivity|]. intros s. apply bind_ext; [destruct (md_start m); [apply call_fn_same|reflexivity]|].
    intros [vs s1]. clear s vs. revert s1. induction calls as [|[name args] calls IH]; intros s; [reflexivity|]. cbn [session].
    assert (Q : rbind (rget (export_index 0 (md_funcs m) name)) (fun f => call_fn num1 num2 ext (md_funcs m) n f args s) =
                rbind (rget (export_index 0 (md_funcs m) name)) (fun f => call_fn num1 num2 ext' (md_funcs m) n f args s))
      by (apply bind_ext; [reflexivity|intros g; apply call_fn_same]).
    rewrite Q. clear Q.
    generalize (rbind (rget (export_index 0 (md_funcs m) name)) (fun f => call_fn num1 num2 ext' (md_funcs m) n f args s)). intros r.
    destruct r as [[vs s1]|s1| |]; try reflexivity; (apply bind_ext; [apply IH|reflexivity]).
  Qed.
End Plain.
