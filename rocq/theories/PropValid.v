(** Properties C14 and C15: what is injected has the types of the functions it calls, and the
    instrumented module validates. *)
From Coq Require Import Permutation.
From Verif Require Import Typing WeaveTyping ValidOutput WeaveSpec WeaveProofs WeavePropProofs InstrumentProofs
  PropInstrument Interface PropInterface Advice ExModule Checker PropTyping.
Local Open Scope string_scope.
Local Open Scope list_scope.

(** C14: the passes turn code of some type into code of that type, wherever every trap
    function called ([ts], functions of the module [s]) has the type the interface declares for
    its hook: operands and results of every injected call agree with its type. The module being
    rewritten ([C']) may provide more than the original ([C]). *)
Theorem C14_passes_preserve_types : forall ts body s body' s' C C' r t1 t2,
  NoDup (map fst ts) -> if_then_first (map fst ts) -> NoDup (map fst (br_tables body)) ->
  (forall h f, In (h, f) ts ->
     exists fn, nth_error s f = Some fn /\ fn_type fn = FT (map TNum (trap_args h)) (map TNum (trap_results h))) ->
  run_passes ts body s = Some (body', s') ->
  ctx_le C C' -> (forall f fn, nth_error s' f = Some fn -> nth_error (c_funcs C') f = Some (fn_type fn)) ->
  annotated_ok C r body -> seq_ok C (map strip body) t1 t2 ->
  seq_ok C' (map strip body') t1 t2.
Proof.
  intros ts body s body' s' C C' r t1 t2 ND IT NB HT E LE FT_ AN S.
  destruct (run_passes_weave ts body s ND IT NB) as (c & _ & Ec). rewrite Ec in E. destruct c; [|discriminate].
  injection E as <- <-.
  eapply weave_ok; [exact LE| | |exact S|exact AN].
  - intros h f Eh. assert (I : In (h, f) ts).
    { clear - Eh. unfold enabled_in in Eh. revert Eh.
      assert (G : forall H0, fold_left (fun H t => enable H (fst t) (snd t)) ts H0 h = Some f -> In (h, f) ts \/ H0 h = Some f).
      { induction ts as [|[h' f'] ts IH]; intros H0 Eh; [now right|]. cbn [fold_left fst snd] in Eh.
        destruct (IH _ Eh) as [I|I]; [left; now right|]. unfold enable in I.
        destruct (hook_eq_dec h h') as [->|]; [|now right]. injection I as ->. left. now left. }
      intros Eh. destruct (G _ Eh); [assumption|discriminate]. }
    destruct (HT h f I) as (fn & N & T). rewrite (FT_ f fn); [now rewrite T|]. now apply nth_error_app_l.
  - intros p x I Hn.
    rewrite (FT_ _ (helper_fn (p, x))); [reflexivity|].
    unfold is_enabled. destruct (enabled_in ts HkBrTable); [|congruence]. rewrite <- (app_nil_r (s ++ _)). now apply helper_index_nth.
Qed.
Print Assumptions C14_passes_preserve_types.

(** Each selected hook is imported with the type declared for it. *)
Lemma typed_from hs : typed_interface (interface_from hs).
Proof.
  split.
  - intros h e. rewrite interface_from_fields. destruct (in_dec shook_eq_dec (family h) hs); [|discriminate].
    intros [= <-]. reflexivity.
  - intros e b. rewrite interface_from_generic. destruct (in_dec shook_eq_dec SGenericApply hs); [|discriminate].
    intros [= <- <-]. split; reflexivity.
Qed.
Lemma typed_std on generic : typed_interface (std_ai on generic).
Proof.
  split.
  - intros h e. cbn. destruct (on h); [|discriminate]. intros [= <-]. reflexivity.
  - intros e b. cbn. destruct generic; [|discriminate]. intros [= <- <-]. split; reflexivity.
Qed.

(** C15: the output module validates: every body, including what follows an unconditional jump,
    every generated function, the apply table and its element segment. Export names are
    distinct unless the input already uses one of the added names (see C26). *)
Theorem C15_output_validates : forall ord_i ord_c infer m hs only m' lib,
  (forall l, Permutation (ord_i l) l) -> (forall l, Permutation (ord_c l) l) ->
  valid m -> annotates infer m ->
  instrument ord_i ord_c infer m (interface_from hs) only = IOk m' lib ->
  (forall x, In x ("call_base" :: memory_names) -> ~ In x (flat_map fn_exports (md_funcs m))) ->
  valid m'.
Proof.
  intros ord_i ord_c infer m hs only m' lib Pi Pc V AN E NC.
  pose proof (@output_funcs _ _ _ _ _ _ _ _ Pi Pc V AN (typed_from hs) E) as VF.
  pose proof (@output_context _ _ _ _ _ _ _ _ Pi Pc E) as LE.
  destruct (@instrument_layout _ _ _ _ _ _ _ _ Pi Pc E) as (H & hf & aps & LY & Et & Ee & Em & Eg & Ed & Es & Lm).
  assert (Lf : List.length (md_funcs m) <= List.length (md_funcs m')).
  { pose proof (extends_list_len (le_funcs (LE [] []))) as L. cbn in L. now rewrite !map_length in L. }
  assert (IO : forall gs code t, init_ok m gs code t -> init_ok m' gs code t).
  { intros gs code t. unfold init_ok. destruct code as [|[] [|[] [|]]]; auto. destruct b; auto. intros [A B]. split; [exact A|lia]. }
  constructor.
  - exact VF.
  - rewrite Et. apply Forall_app. split; [exact (va_tables V)|].
    rewrite interface_from_generic in *.
    destruct (in_dec shook_eq_dec SGenericApply hs) as [In_|]; [|constructor]. constructor; [|constructor].
    unfold table_limits, apply_table. cbn. split; [lia|].
    rewrite (ly_aps LY). clear - E Pi In_. revert E. unfold instrument.
    set (is_i := ord_i _).
    destruct (structure_all _ _ _); try discriminate.
    match goal with |- match ?X with _ => _ end = _ -> _ => destruct X as [[[] fs1]|]; [|discriminate] end.
    rewrite interface_from_generic. destruct (in_dec _ _ _); [|contradiction].
    destruct (function_application is_i _ _ _ fs1) as [[[aps sigs] fs2]|] eqn:Efa; [|discriminate]. intros _.
    unfold function_application, se_bind, add_import, add_func, lift, se_ret in Efa.
    destruct (link_all is_i [] _) as [[ls sl]|]; [|discriminate].
    destruct (intercept_all ls _ 0 is_i sl) as [[aps' si]|] eqn:Eia; [|discriminate].
    destruct (Z.ltb_spec (Z.of_nat (List.length aps')) (2 ^ 32)) as [L|]; [|discriminate].
    assert (Len : forall ls g is k s a s', intercept_all ls g k is s = Some (a, s') -> List.length a = List.length is).
    { clear. induction is as [|i is IH]; intros k s a s' E; [now injection E as <- <-|].
      cbn [intercept_all] in E. unfold se_bind, se_ret in E.
      destruct (intercept ls g k i s) as [[ap s1]|]; [|discriminate].
      destruct (intercept_all ls g (S k) is s1) as [[aps' s2]|] eqn:Er; [|discriminate]. injection E as <- <-.
      simpl. f_equal. eapply IH; exact Er. }
    rewrite <- (Len _ _ _ _ _ _ _ Eia). exact L.
  - rewrite Em. exact (va_mems V).
  - rewrite Eg. intros i g N I. rewrite Eg. apply IO. exact (va_globals V i N I).
  - rewrite Ee. apply Forall_app. split.
    + eapply Forall_impl; [|exact (va_elems V)]. intros e [A B]. split.
      * rewrite Eg. eapply Forall_impl; [|exact A]. intros c. apply IO.
      * destruct (el_mode e) as [tb off| |]; auto. destruct B as [B1 B2]. split; [|rewrite Eg; now apply IO].
        rewrite Et. destruct (nth_error (md_tables m) tb) eqn:N; [|discriminate]. now rewrite (@nth_error_app_l _ _ _ _ _ N).
    + rewrite interface_from_generic in *.
      destruct (in_dec shook_eq_dec SGenericApply hs) as [In_|]; [|constructor]. constructor; [|constructor].
      split; cbn.
      * apply Forall_forall. intros c I. apply in_map_iff in I. destruct I as (a & <- & I). split; [reflexivity|].
        apply In_nth_error in I. destruct I as (k & N).
        assert (Lk : k < List.length aps) by (apply nth_error_Some; congruence). rewrite (ly_aps LY) in Lk.
        apply nth_error_Some in Lk. destruct (nth_error (ord_i _) k) as [i|] eqn:Ei; [|congruence].
        destruct (ly_wrapped LY k Ei) as (f & ap & gx & bx & g & ls & _ & _ & Na & _ & _ & sh & base & _ & _ & _ & _ & Nap & _).
        apply nth_error_Some. rewrite N in Na. injection Na as ->. congruence.
      * rewrite Et, nth_error_app2, Nat.sub_diag by lia. split; [reflexivity|]. split; reflexivity.
  - rewrite Ed. eapply Forall_impl; [|exact (va_datas V)]. intros d. unfold data_ok. destruct (dt_active d); [|auto].
    rewrite Em, Eg. intros [A B]. split; [exact A|now apply IO].
  - rewrite Es. pose proof (va_start V) as VS. destruct (md_start m) as [f|]; [|exact VS].
    destruct (nth_error (md_funcs m) f) as [fn|] eqn:N; [|discriminate]. injection VS as VS.
    pose proof (le_funcs (LE [] []) f) as Q. cbn in Q. rewrite !nth_error_map, N in Q. rewrite <- VS. exact (Q _ eq_refl).
  - destruct (ly_shape LY) as (olds & mid & -> & _ & S & U). rewrite !flat_map_app.
    assert (A : flat_map fn_exports olds = flat_map fn_exports (md_funcs m)).
    { rewrite !flat_map_concat_map. f_equal. change fn_exports with (fun f => snd (sig_of f)).
      rewrite <- !(map_map sig_of snd). now rewrite S. }
    assert (B : flat_map fn_exports mid = []).
    { clear - U. induction U as [|f l Uf U IH]; [reflexivity|]. simpl. rewrite Uf. exact IH. }
    rewrite A, B, app_nil_l.
    assert (D : flat_map fn_exports (memory_helpers (Nat.eqb (List.length (md_mems m)) 1)) = memory_names)
      by (destruct (Nat.eqb _ _); reflexivity).
    rewrite D, interface_from_generic.
    assert (NDm : NoDup ("call_base" :: memory_names)).
    { repeat (constructor; [simpl; intuition discriminate|]). constructor. }
    assert (Cat : forall a b : list string, NoDup a -> NoDup b -> (forall x, In x b -> ~ In x a) -> NoDup (a ++ b)).
    { clear. intros a b Na Nb D. induction Na as [|x a N Na IH]; [exact Nb|]. simpl. constructor.
      - rewrite in_app_iff. intros [I|I]; [contradiction|]. apply (D x I). now left.
      - apply IH. intros y I J. apply (D y I). now right. }
    apply Cat; [exact (va_exports V)| |].
    + destruct (in_dec _ _ _); [exact NDm|]. now inversion NDm.
    + intros x I. apply NC. destruct (in_dec _ _ _); [exact I|]. now right.
Qed.
Print Assumptions C15_output_validates.

(** ** Examples *)
Definition ex_all_selected : list shook :=
  [SGenericApply; SBlockPre; SBlockPost; SLoopPre; SLoopPost; SSelect; SCallPre; SCallPost; SCallIndirectPre;
   SCallIndirectPost; SIfThen; SIfThenPost; SIfThenElse; SIfThenElsePost; SBranch; SBranchIf; SBranchTable; SDrop;
   SReturn; SConst; SUnary; SBinary; SMemorySize; SMemoryGrow; SLocal; SGlobal; SStore; SLoad].
Example ex_c15 :
  valid ex_module /\ annotates ex_infer ex_module /\
  (forall x, In x ("call_base" :: memory_names) -> ~ In x (flat_map fn_exports (md_funcs ex_module))) /\
  match instrument ex_id ex_id ex_infer ex_module (interface_from ex_all_selected) None with
  | IOk m' _ => List.length (md_funcs m') = 129
  | _ => False
  end.
Proof.
  split; [exact ex_valid|]. split; [exact ex_annotates|]. split; [|vm_compute; reflexivity].
  intros x I J. cbn in J. destruct J as [<-|[<-|[<-|[]]]]; cbn in I; intuition discriminate.
Qed.

(** Code after a jump is rewritten too and keeps its (arbitrary) types. *)
Definition ex_dead_body : list tinstr :=
  [TBasic (Meta 0 0 (IReach (FT [] [])) false) BReturn;
   TBasic (Meta 0 1 IUnreach false) (BBinary F64Add);
   TBasic (Meta 0 2 IUnreach false) (BLocal LTee 0);
   TBasic (Meta 0 3 IUnreach false) BDrop].
Definition ex_ts : list (hook * nat) := [(HkReturn, 0); (HkBinary BkF64, 1); (HkLocal LTee TF64, 2); (HkDrop, 3)].
Definition ex_tfuncs : list func := map (fun x => Fn (hook_type (fst x)) (FImport "a" "b") []) ex_ts.
Example ex_c14 :
  let C := Ctx [] [] false [] [] 0 [TNum TF64] [[]] [] in
  let C' := Ctx (map fn_type ex_tfuncs) [] false [] [] 0 [TNum TF64] [[]] [] in
  ctx_le C C' /\ annotated_ok C true ex_dead_body /\ seq_ok C (map strip ex_dead_body) [] [] /\
  exists body', run_passes ex_ts ex_dead_body ex_tfuncs = Some (body', ex_tfuncs) /\
    List.length body' = 13 /\ seq_ok C' (map strip body') [] [].
Proof.
  cbn zeta.
  assert (LE : ctx_le (Ctx [] [] false [] [] 0 [TNum TF64] [[]] [])
                      (Ctx (map fn_type ex_tfuncs) [] false [] [] 0 [TNum TF64] [[]] [])).
  { constructor; cbn; auto; try (intros ? ? N; exact N). intros [|i] a N; discriminate N. }
  assert (AN : annotated_ok (Ctx [] [] false [] [] 0 [TNum TF64] [[]] []) true ex_dead_body).
  { eapply an_reach; [reflexivity|exact (ty_return (Ctx [] [] false [] [] 0 [TNum TF64] [[]] []) [] [])|].
    cbn. repeat (apply an_unreach; [reflexivity|]). apply an_nil. }
  assert (S : seq_ok (Ctx [] [] false [] [] 0 [TNum TF64] [[]] []) (map strip ex_dead_body) [] []).
  { cbn. set (C := Ctx _ _ _ _ _ _ _ _ _).
    apply (@so_basic C BReturn [] [TNum TF64; TNum TF64] []); [exact (ty_return C [] [TNum TF64; TNum TF64])|].
    apply (@so_basic C (BBinary F64Add) [TNum TF64; TNum TF64] [TNum TF64] []); [exact (ty_binary C F64Add)|].
    apply (@so_basic C (BLocal LTee 0) [TNum TF64] [TNum TF64] []); [now apply ty_local_tee|].
    apply (@so_basic C BDrop [TNum TF64] [] []); [apply ty_drop|constructor]. }
  split; [exact LE|]. split; [exact AN|]. split; [exact S|].
  assert (R : exists body', run_passes ex_ts ex_dead_body ex_tfuncs = Some (body', ex_tfuncs) /\ List.length body' = 13)
    by (eexists; split; vm_compute; reflexivity).
  destruct R as (body' & R & L). exists body'. split; [exact R|]. split; [exact L|].
  eapply C14_passes_preserve_types; [| | | |exact R|exact LE| |exact AN|exact S].
  - repeat (constructor; [simpl; intuition discriminate|]). constructor.
  - simpl. intuition discriminate.
  - constructor.
  - intros h f I. simpl in I. repeat destruct I as [[= <- <-]|I]; try destruct I; eexists; split; reflexivity.
  - intros f fn N. cbn [c_funcs]. now rewrite nth_error_map, N.
Qed.
