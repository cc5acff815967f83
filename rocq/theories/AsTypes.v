(** Which generated AssemblyScript libraries compile, and with what types their functions are exported. *)
From Verif Require Import AsLib AsNames AsRun RustNames RustRun RustTypes StackNames StackAsm StackOps StackHist StackRun InstrumentProofs RsStdlib.
Local Open Scope string_scope.
Local Open Scope list_scope.

Lemma tys_refl ts : list_eqb valty_eqb ts ts = true.
Proof. apply list_eqb_eq; [apply valty_eqb_eq|reflexivity]. Qed.

Section Types.
  Variable sigs : list functy.
  Notation fns := (as_lib sigs).
  Notation inst := (instance fns).
  Fixpoint type_aargs ins te env (es : list aexp) : option (list valty) :=
    match es with
    | [] => Some []
    | e :: r => match type_aexp ins te env e, type_aargs ins te env r with Some [t], Some ts => Some (t :: ts) | _, _ => None end
    end.
  Lemma aargs_typed ins te env es : (fix args (es : list aexp) : option (list valty) :=
      match es with
      | [] => Some []
      | e :: r => match type_aexp ins te env e, args r with Some [t], Some ts => Some (t :: ts) | _, _ => None end
      end) es = type_aargs ins te env es.
  Proof. induction es as [|e es IH]; [reflexivity|]. cbn [type_aargs]. now rewrite <- IH. Qed.
  Lemma type_acall ins te env f ts es us ps r : resolves te ts = Some us -> ins f us = Some (ps, r) -> type_aargs ins te env es = Some ps ->
    type_aexp ins te env (ACall f ts es) = Some r.
  Proof. intros R E A. cbn [type_aexp]. rewrite R, E, aargs_typed, A. now rewrite tys_refl. Qed.
  Lemma type_anum ins te env z : (0 <= z < 2 ^ 32)%Z -> type_aexp ins te env (ANum z) = Some [t_i32].
  Proof. intros H. cbn [type_aexp]. destruct (Z.leb_spec 0 z), (Z.ltb_spec z (2 ^ 32)); try lia. reflexivity. Qed.
  Lemma type_avar ins te env x t : lookup x env = Some t -> type_aexp ins te env (AVar x) = Some [t].
  Proof. intros E. cbn [type_aexp]. now rewrite E. Qed.
  Lemma type_ados ins te env (es : list aexp) ret : (forall e, In e es -> exists t, type_aexp ins te env e = Some t) ->
    type_abody ins te env (map ADo es) ret = type_abody ins te env [] ret.
  Proof.
    induction es as [|e es IH]; intros H; [reflexivity|]. cbn [map type_abody].
    destruct (H e (or_introl eq_refl)) as (t & ->). apply IH. intros e' I. apply H. now right.
  Qed.
  Lemma inst_boiler n f x b ts : boiler_named f = Some (x, f, b) -> inst (S n) f ts = builtin_sig b ts.
  Proof.
    intros E. cbn [instance]. rewrite as_not_found, E; [reflexivity|]. apply find_some in E. destruct E as [I _].
    apply in_map_iff. exists (x, f, b). split; [reflexivity|exact I].
  Qed.
  Lemma inst_fn n f g ts ps r : afn_named fns f = Some g -> List.length ts = List.length (af_generics g) ->
    NoDup (af_generics g) -> NoDup (map fst (af_params g)) ->
    resolves (combine (af_generics g) ts) (map snd (af_params g)) = Some ps ->
    resolve_ret (combine (af_generics g) ts) (af_ret g) = Some r ->
    type_abody (inst n) (combine (af_generics g) ts) (combine (map fst (af_params g)) ps) (af_body g) (af_return g) = Some r ->
    inst (S n) f ts = Some (ps, r).
  Proof.
    intros F Lt G P Rp Rr B. cbn [instance]. rewrite F, Lt, Nat.eqb_refl, (proj2 (distinct_strs_NoDup _) G), (proj2 (distinct_strs_NoDup _) P). cbn [andb].
    rewrite Rp, Rr, B. now rewrite tys_refl.
  Qed.
  Lemma generics_nodup r a : NoDup (as_generics r a).
  Proof.
    unfold as_generics. apply nodup_app.
    - apply nodup_map; [|apply seq_NoDup]. intros i j E. now apply type_var_inj in E.
    - apply nodup_map; [|apply seq_NoDup]. intros i j E. now apply type_var_inj in E.
    - intros x I J. apply in_map_iff in I, J. destruct I as (i & <- & _), J as (j & E & _). apply type_var_inj in E. now destruct E.
  Qed.

  Variable ft : functy.
  Hypothesis Hft : In ft sigs.
  Hypothesis Num : numeric_sig ft = true.
  Hypothesis Small : (slots ft < 2 ^ 32)%Z.
  Notation r := (List.length (ft_out ft)).
  Notation a := (List.length (ft_in ft)).
  Notation te := (te ft).
  Notation all := (ft_out ft ++ ft_in ft).
  Lemma gfound g : In g (as_generic r a) -> afn_named fns (af_name g) = Some g.
  Proof. exact (@agen sigs ft Hft g). Qed.
  Lemma sfound g : In g (as_special ft) -> afn_named fns (af_name g) = Some g.
  Proof. exact (@aspec sigs ft Hft g). Qed.
  Lemma params_resolve sd (ts := side_types ft sd) :
    resolves te (map snd (map (fun n => (arg_var n, AParam (type_var sd n))) (seq 0 (List.length ts)))) = Some ts.
  Proof.
    rewrite map_map. cbn [snd]. apply resolves_map.
    assert (G : forall l k, (forall j t, nth_error l j = Some t -> lookup (type_var sd (k + j)) te = Some t) ->
      Forall2 (fun t u => resolve te t = Some u) (map (fun x => AParam (type_var sd x)) (seq k (List.length l))) l).
    { induction l as [|t l IH]; intros k H; [constructor|]. cbn [List.length seq map]. constructor.
      - cbn [resolve]. rewrite <- (H 0 t eq_refl). now rewrite Nat.add_0_r.
      - apply IH. intros j u E. rewrite <- (H (S j) u E). do 2 f_equal. lia. }
    apply (G ts 0). intros j t E. exact (@te_lookup ft sd j t E).
  Qed.
  Lemma typed_resolve te' ts : numeric ts -> resolves te' (map snd (as_typed ts)) = Some ts.
  Proof.
    intros H. unfold as_typed. rewrite map_map. cbn [snd]. apply resolves_map. unfold enum. generalize 0.
    induction ts as [|t ts IH]; intros k; [constructor|]. unfold numeric in H. cbn [existsb] in H. apply orb_false_iff in H. destruct H as [H1 H2].
    cbn [List.length seq combine map snd]. constructor; [|now apply IH]. destruct t; [reflexivity|discriminate H1].
  Qed.
  Lemma args_typed ins te' env ts : (forall i t, nth_error ts i = Some t -> lookup (arg_var i) env = Some t) -> type_aargs ins te' env (as_args ts) = Some ts.
  Proof.
    intros H. unfold as_args, enum.
    enough (G : forall k ts, (forall i t, nth_error ts i = Some t -> lookup (arg_var (k + i)) env = Some t) ->
      type_aargs ins te' env (map (fun it => AVar (arg_var (fst it))) (combine (seq k (List.length ts)) ts)) = Some ts) by (now apply (G 0)).
    clear. intros k ts. revert k. induction ts as [|t ts IH]; intros k H; [reflexivity|]. cbn [List.length seq combine map fst type_aargs].
    rewrite type_avar with (t := t) by (rewrite <- (H 0 t eq_refl); now rewrite Nat.add_0_r).
    rewrite IH; [reflexivity|]. intros i u E. rewrite <- (H (S i) u E). do 2 f_equal. lia.
  Qed.
  Lemma arg_names (f : nat -> aty) n : map fst (map (fun k => (arg_var k, f k)) (seq 0 n)) = map arg_var (seq 0 n).
  Proof. rewrite map_map. reflexivity. Qed.
  Lemma slot_small sd i : i < List.length (side_types ft sd) -> (0 <= index_offset r sd i < 2 ^ 32)%Z.
  Proof. unfold slots in Small. intros L. unfold index_offset. destruct sd; cbn [side_types] in L; lia. Qed.
  Lemma side_num sd i t : nth_error (side_types ft sd) i = Some t -> exists n, t = TNum n.
  Proof. exact (@num_side ft sd i t Num). Qed.

  Lemma type_store n env sd i ty x off : nth_error (side_types ft sd) i = Some ty ->
    (0 <= off < 2 ^ 32)%Z -> forall p, lookup p env = Some t_i32 -> lookup x env = Some ty ->
    type_aexp (inst (S n)) te env (ACall "wastrumentation_memory_store" [AParam (type_var sd i)] [AVar p; AVar x; ANum off]) = Some [].
  Proof.
    intros E O p Lp Lx. destruct (side_num _ _ E) as (t & ->).
    apply type_acall with (us := [TNum t]) (ps := [t_i32; TNum t; t_i32]).
    - cbn [resolves resolve]. now rewrite (@te_lookup ft sd i (TNum t) E).
    - now rewrite (@inst_boiler n _ false BStoreAny).
    - cbn [type_aargs]. rewrite (type_avar _ _ _ _ Lp), (type_avar _ _ _ _ Lx), type_anum by exact O. reflexivity.
  Qed.
  Lemma generic_alloc n : inst (S (S n)) ("allocate_" ++ count_name r a)%string all = Some (ft_in ft, [t_i32]).
  Proof.
    unfold slots in Small. eapply inst_fn; [apply (@gfound (as_allocate_generic r a)); now left|symmetry; apply generics_len|apply generics_nodup| | |reflexivity|].
    - cbn [as_allocate_generic af_params]. rewrite arg_names. apply args_nodup.
    - exact (@params_resolve SArg).
    - cbn [as_allocate_generic af_params af_body af_return af_generics type_abody]. fold te. rewrite arg_names.
      rewrite (@type_acall _ _ _ _ [] _ [] [t_i32] [t_i32]); [|reflexivity|now rewrite (@inst_boiler n _ false (BAllocateOf 8))|cbn [type_aargs]; now rewrite type_anum by lia].
      rewrite <- (map_map (fun n => ACall "wastrumentation_memory_store" [AParam (type_var SArg n)] [AVar "stack_begin"; AVar (arg_var n); ANum (Z.of_nat (r + n))]) ADo).
      rewrite type_ados; [reflexivity|]. intros e Ie. apply in_map_iff in Ie. destruct Ie as (i & <- & Ii). apply in_seq in Ii.
      destruct (nth_error (ft_in ft) i) as [ty|] eqn:Et; [|apply nth_error_None in Et; lia]. exists [].
      apply (@type_store n _ SArg i ty); auto; [lia|]. change (lookup (arg_var i) (args_env (ft_in ft)) = Some ty). now rewrite lookup_arg.
  Qed.
  Lemma generic_types n : inst (S (S n)) ("allocate_signature_types_buffer_" ++ count_name r a)%string [] = Some ([], [t_i32]).
  Proof.
    unfold slots in Small. eapply inst_fn; [apply (@gfound (as_types_generic r a)); do 5 (apply in_or_app; right); simpl; tauto|reflexivity|constructor|constructor|reflexivity|reflexivity|].
    cbn [as_types_generic af_params af_body af_return af_generics type_abody].
    rewrite (@type_acall _ _ _ _ [] _ [] [t_i32] [t_i32]); [reflexivity|reflexivity|now rewrite (@inst_boiler n _ false (BAllocateOf 4))|cbn [type_aargs]; now rewrite type_anum by lia].
  Qed.
  Lemma generic_free n : inst (S (S n)) ("free_values_" ++ count_name r a)%string all = Some ([t_i32], []).
  Proof.
    unfold slots in Small. eapply inst_fn; [apply (@gfound (as_free_generic r a)); do 5 (apply in_or_app; right); simpl; tauto|symmetry; apply generics_len|apply generics_nodup| |reflexivity|reflexivity|].
    - repeat constructor. intros [].
    - cbn [as_free_generic af_params af_body af_return af_generics type_abody map fst snd combine].
      rewrite (@type_acall _ _ _ _ [] _ [] [t_i32; t_i32] []); [reflexivity|reflexivity|now rewrite (@inst_boiler n _ false (BDeallocateOf 8))|].
      cbn [type_aargs]. rewrite type_avar with (t := t_i32) by reflexivity. now rewrite type_anum by lia.
  Qed.
  Lemma generic_free_types n : inst (S (S n)) ("free_types_" ++ count_name r a)%string [] = Some ([t_i32], []).
  Proof.
    unfold slots in Small. eapply inst_fn; [apply (@gfound (as_free_types_generic r a)); do 5 (apply in_or_app; right); simpl; tauto|reflexivity|constructor| |reflexivity|reflexivity|].
    - repeat constructor. intros [].
    - cbn [as_free_types_generic af_params af_body af_return af_generics type_abody map fst snd combine].
      rewrite (@type_acall _ _ _ _ [] _ [] [t_i32; t_i32] []); [reflexivity|reflexivity|now rewrite (@inst_boiler n _ false (BDeallocateOf 4))|].
      cbn [type_aargs]. rewrite type_avar with (t := t_i32) by reflexivity. now rewrite type_anum by lia.
  Qed.
  Lemma generic_load n sd i ty : nth_error (side_types ft sd) i = Some ty -> inst (S (S n)) (load_count_name sd i r a) all = Some ([t_i32], [ty]).
  Proof.
    intros E. assert (Li : i < List.length (side_types ft sd)) by (apply nth_error_Some; congruence). pose proof (slot_small sd Li) as Sl.
    destruct (side_num _ _ E) as (t & ->).
    eapply inst_fn; [apply (@gfound _ (@side_agen_load ft sd i Li))|symmetry; apply generics_len|apply generics_nodup| |reflexivity| |].
    - repeat constructor. intros [].
    - cbn [as_load_generic af_ret af_generics resolve_ret resolve]. fold te. now rewrite (@te_lookup ft sd i (TNum t) E).
    - cbn [as_load_generic af_params af_body af_return af_generics type_abody map fst snd combine]. fold te.
      apply type_acall with (us := [TNum t]) (ps := [t_i32; t_i32]).
      + cbn [resolves resolve]. now rewrite (@te_lookup ft sd i (TNum t) E).
      + now rewrite (@inst_boiler n _ false BLoadAny).
      + cbn [type_aargs]. rewrite type_avar with (t := t_i32) by reflexivity. now rewrite type_anum by exact Sl.
  Qed.
  Lemma generic_store n sd i ty : nth_error (side_types ft sd) i = Some ty -> inst (S (S n)) (store_count_name sd i r a) all = Some ([t_i32; ty], []).
  Proof.
    intros E. assert (Li : i < List.length (side_types ft sd)) by (apply nth_error_Some; congruence). pose proof (slot_small sd Li) as Sl.
    eapply inst_fn; [apply (@gfound _ (@side_agen_store ft sd i Li))|symmetry; apply generics_len|apply generics_nodup| | |reflexivity|].
    - cbn [as_store_generic af_params map fst]. constructor; [|constructor; [intros []|constructor]]. intros [X|[]]. destruct sd; discriminate X.
    - cbn [as_store_generic af_params map snd af_generics resolves resolve]. fold te. now rewrite (@te_lookup ft sd i ty E).
    - cbn [as_store_generic af_params af_body af_return af_generics type_abody map fst snd combine]. fold te.
      apply (@type_store n _ sd i ty); auto. destruct sd; cbn [slot_var]; unfold lookup; cbn -[decimal]; now rewrite String.eqb_refl.
  Qed.
  Lemma generic_rets n : inst (S (S (S n))) ("store_rets_" ++ count_name r a)%string all = Some (t_i32 :: ft_out ft, []).
  Proof.
    eapply inst_fn; [apply (@gfound (as_store_rets_generic r a)); do 5 (apply in_or_app; right); simpl; tauto|symmetry; apply generics_len|apply generics_nodup| | |reflexivity|].
    - cbn [as_store_rets_generic af_params map fst]. rewrite arg_names. apply ptr_args_nodup. intros i X. discriminate X.
    - cbn [as_store_rets_generic af_params map snd af_generics resolves resolve]. fold te. now rewrite (@params_resolve SRet : resolves te (map snd (map _ (seq 0 r))) = _).
    - cbn [as_store_rets_generic af_params af_body af_return af_generics map fst snd combine]. fold te. rewrite arg_names.
      rewrite <- (map_map (fun n => ACall (store_count_name SRet n r a) (as_generic_args r a) [AVar "stack_ptr"; AVar (arg_var n)]) ADo).
      rewrite type_ados; [reflexivity|]. intros e Ie. apply in_map_iff in Ie. destruct Ie as (i & <- & Ii). apply in_seq in Ii.
      destruct (nth_error (ft_out ft) i) as [ty|] eqn:Et; [|apply nth_error_None in Et; lia]. exists [].
      apply type_acall with (us := all) (ps := [t_i32; ty]).
      + apply generics_resolve.
      + exact (@generic_store n SRet i ty Et).
      + cbn [type_aargs]. rewrite type_avar with (t := t_i32) by reflexivity.
        rewrite type_avar with (t := ty) by (change (lookup (arg_var i) (args_env (ft_out ft)) = Some ty); now rewrite lookup_arg). reflexivity.
  Qed.

  (** ** Exported functions *)
  Lemma export_of f g ps rs : afn_named fns f = Some g -> af_export g = true -> af_generics g = [] ->
    NoDup (map fst (af_params g)) -> resolves [] (map snd (af_params g)) = Some ps -> resolve_ret [] (af_ret g) = Some rs ->
    type_abody (inst 3) [] (combine (map fst (af_params g)) ps) (af_body g) (af_return g) = Some rs ->
    as_export_type fns f = Some (FT ps rs).
  Proof.
    intros F X G P Rp Rr B. unfold as_export_type, as_exported. rewrite F, X.
    rewrite (@inst_fn 3 f g [] ps rs F) by (rewrite ?G; auto; constructor). reflexivity.
  Qed.
  Lemma as_export_load sd i ty : nth_error (side_types ft sd) i = Some ty -> as_export_type fns (op_name ft (LLoad sd i)) = Some (FT [t_i32] [ty]).
  Proof.
    intros E. destruct (side_num _ _ E) as (t & ->).
    eapply export_of; [apply (@sfound _ (@side_aload ft sd i _ E))|reflexivity|reflexivity|repeat constructor; intros []|reflexivity|reflexivity|].
    cbn [as_load af_params af_body af_return type_abody map fst snd combine].
    apply type_acall with (us := all) (ps := [t_i32]); [now apply types_resolve|now apply (@generic_load 1)|reflexivity].
  Qed.
  Lemma as_export_store sd i ty : nth_error (side_types ft sd) i = Some ty -> as_export_type fns (op_name ft (LStore sd i)) = Some (FT [t_i32; ty] []).
  Proof.
    intros E. destruct (side_num _ _ E) as (t & ->).
    eapply export_of; [apply (@sfound _ (@side_astore ft sd i _ E))|reflexivity|reflexivity| |reflexivity|reflexivity|].
    - cbn [as_store af_params map fst]. constructor; [|constructor; [intros []|constructor]]. intros [X|[]]. discriminate X.
    - cbn [as_store af_params af_body af_return type_abody map fst snd combine].
      apply type_acall with (us := all) (ps := [t_i32; TNum t]); [now apply types_resolve|now apply (@generic_store 1)|].
      cbn [type_aargs]. rewrite type_avar with (t := t_i32) by reflexivity.
      rewrite type_avar with (t := TNum t) by (unfold lookup; cbn -[decimal]; now rewrite String.eqb_refl). reflexivity.
  Qed.
  Lemma as_export_op o : In o (sig_ops ft) -> as_export_type fns (op_name ft o) = Some (libop_type ft o).
  Proof.
    destruct (num_sig _ Num) as [No Ni]. intros Io. unfold sig_ops in Io. apply in_app_or in Io. destruct Io as [Io|Io].
    { cbn in Io. destruct Io as [<-|[<-|[<-|[<-|[]]]]]; cbn [libop_type].
      - eapply export_of; [apply (@sfound (as_allocate ft)); now left|reflexivity|reflexivity| |exact (@typed_resolve [] _ Ni)|reflexivity|].
        + cbn [as_allocate af_params]. rewrite as_typed_names. apply args_nodup.
        + cbn [as_allocate af_params af_body af_return type_abody]. rewrite as_typed_names.
          apply type_acall with (us := all) (ps := ft_in ft); [now apply types_resolve|apply (@generic_alloc 1)|]. apply args_typed.
          intros i t E. change (lookup (arg_var i) (args_env (ft_in ft)) = Some t). now rewrite lookup_arg.
      - eapply export_of; [apply (@sfound (as_free ft)); do 5 (apply in_or_app; right); simpl; tauto|reflexivity|reflexivity|repeat constructor; intros []|reflexivity|reflexivity|].
        cbn [as_free af_params af_body af_return type_abody map fst combine].
        apply type_acall with (us := all) (ps := [t_i32]); [now apply types_resolve|apply (@generic_free 1)|reflexivity].
      - eapply export_of; [apply (@sfound (as_allocate_types ft)); do 5 (apply in_or_app; right); simpl; tauto|reflexivity|reflexivity|constructor|reflexivity|reflexivity|].
        cbn [as_allocate_types af_params af_body af_return type_abody map fst combine].
        rewrite (@type_acall _ _ _ _ [] _ [] [] [t_i32]); [|reflexivity|apply (@generic_types 1)|reflexivity].
        rewrite <- (map_map (fun it => ACall "wastrumentation_stack_store_type" [] [AVar "types_buffer"; ANum (Z.of_nat (fst it)); ANum (runtime_enum_value (snd it))]) ADo).
        rewrite type_ados; [reflexivity|]. intros e Ie. apply in_map_iff in Ie. destruct Ie as ([i t] & <- & Ii). apply enum_in in Ii. exists [].
        assert (Li : i < List.length all) by (apply nth_error_Some; congruence). rewrite app_length in Li. unfold slots in Small.
        apply type_acall with (us := []) (ps := [t_i32; t_i32; t_i32]); [reflexivity|now rewrite (@inst_boiler 2 _ true BStoreType)|].
        cbn [type_aargs fst snd]. rewrite type_avar with (t := t_i32) by reflexivity. rewrite !type_anum; [reflexivity| |lia]. destruct t as [[]|[]]; cbn; lia.
      - eapply export_of; [apply (@sfound (as_free_types ft)); do 5 (apply in_or_app; right); simpl; tauto|reflexivity|reflexivity|repeat constructor; intros []|reflexivity|reflexivity|].
        cbn [as_free_types af_params af_body af_return type_abody map fst combine].
        apply type_acall with (us := []) (ps := [t_i32]); [reflexivity|apply (@generic_free_types 1)|reflexivity]. }
    assert (Sd : forall mk (ts : list valty), In o (side_ops mk ts) -> exists j t, o = mk j /\ nth_error ts j = Some t).
    { intros mk ts J. unfold side_ops in J. apply in_map_iff in J. destruct J as (j & <- & J). apply in_seq in J.
      destruct (nth_error ts j) as [t|] eqn:Ej; [eauto|apply nth_error_None in Ej; lia]. }
    apply in_app_or in Io. destruct Io as [Io|Io].
    { destruct (Sd _ _ Io) as (j & t & -> & E). cbn [libop_type]. rewrite E. now apply (@as_export_load SArg). }
    apply in_app_or in Io. destruct Io as [Io|Io].
    { destruct (Sd _ _ Io) as (j & t & -> & E). cbn [libop_type]. rewrite E. now apply (@as_export_load SRet). }
    apply in_app_or in Io. destruct Io as [Io|Io].
    { destruct (Sd _ _ Io) as (j & t & -> & E). cbn [libop_type]. rewrite E. now apply (@as_export_store SArg). }
    apply in_app_or in Io. destruct Io as [Io|Io].
    { destruct (Sd _ _ Io) as (j & t & -> & E). cbn [libop_type]. rewrite E. now apply (@as_export_store SRet). }
    destruct Io as [<-|[]]. cbn [libop_type].
    eapply export_of; [apply (@sfound (as_store_rets ft)); do 5 (apply in_or_app; right); simpl; tauto|reflexivity|reflexivity| | |reflexivity|].
    - cbn [as_store_rets af_params map fst]. rewrite as_typed_names. apply ptr_args_nodup. intros i X. discriminate X.
    - cbn [as_store_rets af_params map snd resolves resolve]. now rewrite (@typed_resolve [] _ No).
    - cbn [as_store_rets af_params af_body af_return type_abody map fst combine]. rewrite as_typed_names.
      apply type_acall with (us := all) (ps := t_i32 :: ft_out ft); [now apply types_resolve|apply (@generic_rets 0)|].
      cbn [type_aargs]. rewrite type_avar with (t := t_i32) by reflexivity. rewrite args_typed; [reflexivity|].
      intros i t E. change (lookup (arg_var i) (args_env (ft_out ft)) = Some t). now rewrite lookup_arg.
  Qed.
End Types.

Lemma as_accessors sigs t :
  as_export_type (as_lib sigs) (stack_load_name t) = Some (FT [t_i32; t_i32] [TNum t]) /\
  as_export_type (as_lib sigs) (stack_store_name t) = Some (FT [t_i32; TNum t; t_i32] []).
Proof.
  assert (G : forall f b ps rs, boiler_named f = Some (true, f, b) -> builtin_sig b [] = Some (ps, rs) -> as_export_type (as_lib sigs) f = Some (FT ps rs)).
  { intros f b ps rs E B. unfold as_export_type, as_exported. rewrite as_not_found, E.
    - now rewrite (@inst_boiler sigs 3 f true b [] E), B.
    - apply find_some in E. destruct E as [I _]. apply in_map_iff. exists (true, f, b). split; [reflexivity|exact I]. }
  split; [apply (G _ (AsLib.BLoad t))|apply (G _ (AsLib.BStore t))]; try reflexivity; destruct t; reflexivity.
Qed.
Lemma as_type_accessor sigs : as_export_type (as_lib sigs) "wastrumentation_stack_load_type" = Some (FT [t_i32; t_i32] [t_i32]).
Proof.
  unfold as_export_type, as_exported. rewrite as_not_found by (simpl; tauto).
  change (boiler_named "wastrumentation_stack_load_type") with (Some (true, "wastrumentation_stack_load_type", BLoadType)). cbv iota.
  now rewrite (@inst_boiler sigs 3 "wastrumentation_stack_load_type" true BLoadType [] eq_refl).
Qed.

Lemma as_for_in sigs : forall counts done g, In g (as_lib_for counts done sigs) ->
  exists ft, In ft sigs /\ (In g (as_generic (List.length (ft_out ft)) (List.length (ft_in ft))) \/ In g (as_special ft)).
Proof.
  induction sigs as [|ft sigs IH]; intros counts done g I; [destruct I|]. cbn [as_lib_for] in I.
  apply in_app_or in I as [I|I]; [|apply in_app_or in I as [I|I]].
  - exists ft. split; [now left|]. left. destruct (existsb _ counts); [destruct I|exact I].
  - exists ft. split; [now left|]. right. destruct (existsb _ done); [destruct I|exact I].
  - destruct (IH _ _ _ I) as (ft' & I' & H). exists ft'. split; [now right|exact H].
Qed.
Lemma generic_private r a g : In g (as_generic r a) -> af_export g = false.
Proof.
  unfold as_generic. intros I.
  repeat match type of I with In _ (_ ++ _) => apply in_app_or in I; destruct I as [I|I] end;
    try (apply in_map_iff in I; destruct I as (i & <- & _); reflexivity); repeat (destruct I as [<-|I]; [reflexivity|]); destruct I.
Qed.
Lemma special_op ft g : In g (as_special ft) -> exists o, In o (sig_ops ft) /\ af_name g = op_name ft o.
Proof.
  unfold as_special, sig_ops. intros I.
  assert (Sd : forall mk (ts : list valty) i t, In (i, t) (enum ts) -> In (mk i) (side_ops mk ts)).
  { intros mk ts i t J. unfold side_ops. apply in_map, in_seq. apply enum_in in J. assert (i < List.length ts) by (apply nth_error_Some; congruence). lia. }
  repeat match type of I with In _ (_ ++ _) => apply in_app_or in I; destruct I as [I|I] end.
  - destruct I as [<-|[]]. exists LAlloc. split; [cbn; tauto|reflexivity].
  - apply in_map_iff in I. destruct I as ([i t] & <- & J). exists (LLoad SArg i). split; [|reflexivity]. do 1 (apply in_or_app; right). apply in_or_app. left. eapply Sd. exact J.
  - apply in_map_iff in I. destruct I as ([i t] & <- & J). exists (LLoad SRet i). split; [|reflexivity]. do 2 (apply in_or_app; right). apply in_or_app. left. eapply Sd. exact J.
  - apply in_map_iff in I. destruct I as ([i t] & <- & J). exists (LStore SArg i). split; [|reflexivity]. do 3 (apply in_or_app; right). apply in_or_app. left. eapply Sd. exact J.
  - apply in_map_iff in I. destruct I as ([i t] & <- & J). exists (LStore SRet i). split; [|reflexivity]. do 4 (apply in_or_app; right). apply in_or_app. left. eapply Sd. exact J.
  - destruct I as [<-|[<-|[<-|[<-|[]]]]].
    + exists LFree. split; [cbn; tauto|reflexivity].
    + exists LStoreRets. split; [do 5 (apply in_or_app; right); cbn; tauto|reflexivity].
    + exists LAllocTypes. split; [cbn; tauto|reflexivity].
    + exists LFreeTypes. split; [cbn; tauto|reflexivity].
Qed.

Theorem as_lib_compiles sigs : as_compiles (as_lib sigs) = true <->
  Forall (fun ft => numeric_sig ft = true /\ (slots ft < 2 ^ 32)%Z) sigs.
Proof.
  unfold as_compiles. fold boiler_names. rewrite (proj2 (distinct_strs_NoDup _) (as_names_nodup sigs)). cbn [andb]. rewrite forallb_forall. split.
  - intros H. apply Forall_forall. intros ft Hft.
    specialize (H (as_allocate ft) (@as_special_in sigs ft _ Hft (or_introl eq_refl))). cbn [as_allocate af_export af_name negb orb] in H.
    destruct (as_export_type (as_lib sigs) (op_name ft LAlloc)) as [sg|] eqn:X; [clear H|discriminate]. unfold as_export_type, as_exported in X.
    assert (Fd : afn_named (as_lib sigs) (op_name ft LAlloc) = Some (as_allocate ft)) by (apply (@aspec sigs ft Hft (as_allocate ft)); now left).
    rewrite Fd in X. cbn [as_allocate af_export] in X. destruct (instance (as_lib sigs) 4 (op_name ft LAlloc) []) as [[ps rs]|] eqn:Y; [clear X|discriminate].
    remember 3 as three. cbn [instance] in Y. rewrite Fd in Y. cbn [as_allocate af_generics af_params af_ret af_body af_return type_abody type_aexp] in Y.
    destruct (_ && _ && _); [|discriminate]. destruct (resolves _ (map snd _)) as [qs|]; [|discriminate].
    destruct (resolve_ret _ _) as [us|]; [|discriminate].
    destruct (resolves (combine [] []) (as_types ft)) as [vs|] eqn:R; [|discriminate].
    assert (Nm : numeric_sig ft = true).
    { assert (K : forall l ws, resolves (combine (@nil string) (@nil valty)) (map AW l) = Some ws -> existsb is_ref l = false).
      { induction l as [|t l IH]; intros ws E; [reflexivity|]. cbn [map resolves] in E. cbn [existsb].
        destruct t as [n|x]; cbn [resolve] in E; [|discriminate]. destruct (resolves _ (map AW l)) as [w|] eqn:E'; [|discriminate]. cbn. exact (IH w eq_refl). }
      specialize (K _ _ R). rewrite existsb_app in K. apply orb_false_iff in K. destruct K as [K1 K2]. unfold numeric_sig. now rewrite K1, K2. }
    split; [exact Nm|]. rewrite (@types_resolve ft Nm) in R. injection R as <-.
    subst three. destruct (instance (as_lib sigs) 3 ("allocate_" ++ count_name (List.length (ft_out ft)) (List.length (ft_in ft))) (ft_out ft ++ ft_in ft)) as [[p1 r1]|] eqn:Z1; [clear Y|discriminate].
    assert (Fg : afn_named (as_lib sigs) ("allocate_" ++ count_name (List.length (ft_out ft)) (List.length (ft_in ft))) = Some (as_allocate_generic (List.length (ft_out ft)) (List.length (ft_in ft))))
      by (apply (@agen sigs ft Hft (as_allocate_generic _ _)); now left).
    remember 2 as two. cbn [instance] in Z1. rewrite Fg in Z1. cbn [as_allocate_generic af_generics af_params af_ret af_body af_return type_abody] in Z1.
    destruct (_ && _ && _); [|discriminate]. destruct (resolves _ (map snd _)) as [qs'|]; [|discriminate].
    destruct (resolve_ret _ _) as [us'|]; [|discriminate].
    cbn [type_aexp resolves] in Z1. change (slots ft) with (Z.of_nat (List.length (ft_out ft) + List.length (ft_in ft))).
    destruct (Z.ltb_spec (Z.of_nat (List.length (ft_out ft) + List.length (ft_in ft))) (2 ^ 32)) as [L|L]; [exact L|exfalso].
    rewrite andb_false_r in Z1. destruct (instance (as_lib sigs) two "stack_allocate_values" []) as [[? ?]|]; discriminate Z1.
  - intros H g I. destruct (af_export g) eqn:Ex; [|reflexivity]. cbn [negb orb]. apply as_for_in in I. destruct I as (ft & Hft & I).
    rewrite Forall_forall in H. destruct (H ft Hft) as [Num Sm]. destruct I as [I|I].
    + rewrite (@generic_private _ _ _ I) in Ex. discriminate.
    + destruct (@special_op _ _ I) as (o & Io & ->). now rewrite (@as_export_op sigs ft Hft Num Sm o Io).
Qed.
