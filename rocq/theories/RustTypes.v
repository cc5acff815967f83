(** Which generated Rust libraries compile, and with what types their functions are exported. *)
From Verif Require Import RustLib RustNames StackNames StackAsm StackOps StackHist StackRun RustRun InstrumentProofs.
Local Open Scope string_scope.
Local Open Scope list_scope.

Lemma rty_eqb_refl t : rty_eqb t t = true.
Proof. destruct t as [[[]|[]]| | | |]; reflexivity. Qed.
Lemma tys_eqb_refl l : tys_eqb l l = true.
Proof. induction l as [|t l IH]; [reflexivity|]. cbn [tys_eqb]. now rewrite rty_eqb_refl, IH. Qed.

Section Types.
  Variable fns : list rfn.
  Notation type_exp := (RustLib.type_exp fns).
  Notation type_body := (RustLib.type_body fns).
  Fixpoint type_args (env : list (string * rty)) (es : list rexp) : option (list rty) :=
    match es with
    | [] => Some []
    | e :: r => match type_exp env e, type_args env r with Some t, Some ts => Some (t :: ts) | _, _ => None end
    end.
  Lemma args_eq env es : (fix args (es : list rexp) : option (list rty) :=
      match es with
      | [] => Some []
      | e :: r => match type_exp env e, args r with Some t, Some ts => Some (t :: ts) | _, _ => None end
      end) es = type_args env es.
  Proof. induction es as [|e es IH]; [reflexivity|]. cbn [type_args]. now rewrite <- IH. Qed.
  Lemma type_call env f es g : fn_named fns f = Some g -> type_args env es = Some (map snd (rf_params g)) ->
    type_exp env (RCall f es) = Some (rf_ret g).
  Proof.
    intros F A. cbn [RustLib.type_exp]. rewrite F. cbn [option_map rust_sig]. rewrite args_eq, A. now rewrite tys_eqb_refl.
  Qed.
  Lemma type_op env o es ps t : rop_type o = Some (ps, t) -> type_args env es = Some ps -> type_exp env (ROp o es) = Some t.
  Proof. intros F A. cbn [RustLib.type_exp]. rewrite F, args_eq, A. now rewrite tys_eqb_refl. Qed.
  Lemma type_num env z : (0 <= z < 2 ^ 32)%Z -> type_exp env (RNum z) = Some RUsize.
  Proof. intros H. cbn [RustLib.type_exp]. destruct (Z.leb_spec 0 z), (Z.ltb_spec z (2 ^ 32)); try lia. reflexivity. Qed.
  Lemma type_dos env (es : list rexp) tl : (forall e, In e es -> exists t, type_exp env e = Some t) ->
    type_body env (map RDo es) tl = type_body env [] tl.
  Proof.
    induction es as [|e es IH]; intros H; [reflexivity|]. cbn [map RustLib.type_body].
    destruct (H e (or_introl eq_refl)) as (t & ->). apply IH. intros e' I. apply H. now right.
  Qed.
End Types.

Lemma lookup_in {B} (env : list (string * B)) x v : NoDup (map fst env) -> In (x, v) env -> lookup x env = Some v.
Proof.
  induction env as [|[y w] env IH]; intros N I; [destruct I|]. cbn [lookup map fst] in *. inversion N as [|? ? Ny Ne]; subst.
  destruct I as [I|I].
  - injection I as -> ->. now rewrite String.eqb_refl.
  - destruct (String.eqb_spec x y) as [->|_]; [|auto]. exfalso. apply Ny. now apply (in_map fst) in I.
Qed.
Lemma arg_var_inj i j : arg_var i = arg_var j -> i = j.
Proof. unfold arg_var. intros E. injection E as E. now apply decimal_inj. Qed.
Lemma args_nodup n : NoDup (map arg_var (seq 0 n)).
Proof. apply nodup_map; [intros; now apply arg_var_inj|apply seq_NoDup]. Qed.
Lemma ptr_args_nodup x n : (forall i, x <> arg_var i) -> NoDup (x :: map arg_var (seq 0 n)).
Proof. intros H. constructor; [|apply args_nodup]. intros I. apply in_map_iff in I. destruct I as (i & E & _). now apply (H i). Qed.
Lemma typed_params_names ts : map fst (typed_params ts) = map arg_var (seq 0 (List.length ts)).
Proof. unfold typed_params. rewrite map_map, <- enum_fst, map_map. reflexivity. Qed.
Lemma typed_params_types ts : map snd (typed_params ts) = map RW ts.
Proof.
  unfold typed_params. rewrite map_map. cbn [snd]. rewrite <- (map_map snd RW). f_equal. unfold enum.
  generalize 0. induction ts as [|t ts IH]; intros k; [reflexivity|].
  cbn [List.length seq combine map snd]. f_equal. apply IH.
Qed.
Lemma value_params_types n : map snd (map (fun n => (arg_var n, RValue)) (seq 0 n)) = repeat RValue n.
Proof. rewrite map_map. cbn [snd]. generalize 0. induction n as [|n IH]; intros k; [reflexivity|]. cbn [seq map repeat]. f_equal. apply IH. Qed.
Lemma value_params_names n : map fst (map (fun n => (arg_var n, RValue)) (seq 0 n)) = map arg_var (seq 0 n).
Proof. rewrite map_map. reflexivity. Qed.

Section Lib.
  Variable sigs : list functy.
  Notation fns := (rust_lib sigs).
  Lemma found_boiler g : In g rust_boilerplate -> fn_named fns (rf_name g) = Some g.
  Proof. intros I. apply rust_found, boiler_in, I. Qed.
  Ltac boiler := reflexivity.
  Lemma boiler_typed g : In g rust_boilerplate -> type_fn fns g = true.
  Proof. intros I. simpl in I. repeat (destruct I as [<-|I]; [reflexivity|]). destruct I. Qed.

  Definition small (r a : nat) : Prop := (Z.of_nat (r + a) < 2 ^ 32)%Z.
  Section Generic.
    Variables r a : nat.
    Hypothesis Small : small r a.
    Hypothesis Found : forall g, In g (rust_generic r a) -> fn_named fns (rf_name g) = Some g.
    Lemma generic_typed g : In g (rust_generic r a) -> type_fn fns g = true.
    Proof.
      unfold small in Small. intros I. unfold rust_generic in I.
      repeat match type of I with In _ (_ ++ _) => apply in_app_or in I; destruct I as [I|I] end.
      - destruct I as [<-|[]]. unfold rust_allocate_generic. destruct (Nat.eqb_spec (r + a) 0) as [Z0|Nz]; [reflexivity|].
        unfold type_fn. cbn [rf_params rf_ret rf_body rf_tail known_type].
        rewrite (proj2 (distinct_strs_NoDup _)) by (rewrite value_params_names; apply args_nodup).
        replace (forallb _ _) with true
          by (symmetry; apply forallb_forall; intros p Ip; apply in_map_iff in Ip; destruct Ip as (? & <- & _); reflexivity).
        cbn [andb RustLib.type_body].
        erewrite type_call; [|boiler|cbn [type_args]; rewrite type_num by lia; reflexivity]. cbn [rf_ret].
        rewrite <- (map_map (fun n => RCall "wastrumentation_memory_store" [RVar "frame_ptr"; RVar (arg_var n); RNum (Z.of_nat (r + n))]) RDo).
        rewrite type_dos; [reflexivity|]. intros e Ie. apply in_map_iff in Ie. destruct Ie as (n & <- & Sn). apply in_seq in Sn. exists RUnit.
        erewrite type_call; [|boiler|]; [reflexivity|]. cbn [type_args]. rewrite type_num by lia.
        change (type_exp fns _ (RVar "frame_ptr")) with (Some RUsize).
        replace (type_exp fns _ (RVar (arg_var n))) with (Some RValue); [reflexivity|].
        change (Some RValue = lookup (arg_var n) (map (fun n => (arg_var n, RValue)) (seq 0 a))). symmetry. apply lookup_in.
        + rewrite value_params_names. apply args_nodup.
        + apply in_map_iff. exists n. split; [reflexivity|]. apply in_seq. lia.
      - apply in_map_iff in I. destruct I as (n & <- & Sn). apply in_seq in Sn. unfold type_fn, rust_load_generic.
        cbn [rf_params rf_ret rf_body rf_tail forallb known_type snd map fst andb RustLib.type_body].
        erewrite type_call; [|boiler|cbn [type_args]; rewrite type_num by lia; reflexivity]. reflexivity.
      - apply in_map_iff in I. destruct I as (n & <- & Sn). apply in_seq in Sn. unfold type_fn, rust_load_generic.
        cbn [rf_params rf_ret rf_body rf_tail forallb known_type snd map fst andb RustLib.type_body].
        erewrite type_call; [|boiler|cbn [type_args]; rewrite type_num by lia; reflexivity]. reflexivity.
      - apply in_map_iff in I. destruct I as (n & <- & Sn). apply in_seq in Sn. unfold type_fn, rust_store_generic.
        cbn [rf_params rf_ret rf_body rf_tail forallb known_type snd map fst andb RustLib.type_body].
        erewrite type_call; [|boiler|]; [reflexivity|]. cbn [type_args]. rewrite type_num by lia.
        replace (type_exp fns _ (RVar (slot_var SArg n))) with (Some RValue); [reflexivity|].
        change (Some RValue = lookup (slot_var SArg n) [(slot_var SArg n, RValue)]). cbn [lookup]. now rewrite String.eqb_refl.
      - apply in_map_iff in I. destruct I as (n & <- & Sn). apply in_seq in Sn. unfold type_fn, rust_store_generic.
        cbn [rf_params rf_ret rf_body rf_tail forallb known_type snd map fst andb RustLib.type_body].
        erewrite type_call; [|boiler|]; [reflexivity|]. cbn [type_args]. rewrite type_num by lia.
        replace (type_exp fns _ (RVar (slot_var SRet n))) with (Some RValue); [reflexivity|].
        change (Some RValue = lookup (slot_var SRet n) [(slot_var SRet n, RValue)]). cbn [lookup]. now rewrite String.eqb_refl.
      - destruct I as [<-|[<-|[<-|[<-|[]]]]].
        + unfold rust_free_generic. destruct (Nat.eqb_spec (r + a) 0) as [Z0|Nz]; [reflexivity|].
          unfold type_fn. cbn [rf_params rf_ret rf_body rf_tail forallb known_type snd map fst andb RustLib.type_body].
          erewrite type_call; [|boiler|]; [reflexivity|]. cbn [type_args]. rewrite type_num by lia. reflexivity.
        + unfold type_fn, rust_store_rets_generic. cbn [rf_params rf_ret rf_body rf_tail forallb known_type snd map andb].
          rewrite value_params_names. rewrite (proj2 (distinct_strs_NoDup _)) by (apply ptr_args_nodup; destruct r; intros i E; discriminate E).
          replace (forallb _ _) with true
            by (symmetry; apply forallb_forall; intros p Ip; apply in_map_iff in Ip; destruct Ip as (? & <- & _); reflexivity).
          cbn [andb].
          rewrite <- (map_map (fun n => RCall (store_count_name SRet n r a) [RVar "stack_ptr"; RVar (arg_var n)]) RDo).
          rewrite type_dos; [reflexivity|]. intros e Ie. apply in_map_iff in Ie. destruct Ie as (n & <- & Sn). exists RUnit.
          erewrite type_call; [|apply (@Found (rust_store_generic r a SRet n))|].
          * reflexivity.
          * unfold rust_generic. do 4 (apply in_or_app; right). apply in_or_app. left. now apply in_map.
          * destruct r as [|r']; [destruct Sn|]. cbn [type_args rust_store_generic rf_params map snd].
            change (type_exp fns _ (RVar "stack_ptr")) with (Some RUsize).
            replace (type_exp fns _ (RVar (arg_var n))) with (Some RValue); [reflexivity|].
            change (Some RValue = lookup (arg_var n) (map (fun n => (arg_var n, RValue)) (seq 0 (S r')))). symmetry. apply lookup_in.
            -- rewrite value_params_names. apply args_nodup.
            -- apply in_map_iff. exists n. split; [reflexivity|exact Sn].
        + unfold type_fn, rust_types_generic. cbn [rf_params rf_ret rf_body rf_tail forallb known_type snd map fst andb RustLib.type_body].
          erewrite type_call; [|boiler|]; [reflexivity|]. cbn [type_args]. rewrite type_num by lia. reflexivity.
        + unfold type_fn, rust_free_types_generic. cbn [rf_params rf_ret rf_body rf_tail forallb known_type snd map fst andb RustLib.type_body].
          erewrite type_call; [|boiler|]; [reflexivity|]. cbn [type_args]. rewrite type_num by lia. reflexivity.
    Qed.
  End Generic.

  Section Special.
    Variable ft : functy.
    Hypothesis Hft : In ft sigs.
    Hypothesis Num : numeric_sig ft = true.
    Notation r := (List.length (ft_out ft)).
    Notation a := (List.length (ft_in ft)).
    Hypothesis Small : small r a.
    Lemma generic_found g : In g (rust_generic r a) -> fn_named fns (rf_name g) = Some g.
    Proof. intros I. apply rust_found. now apply (@generic_in_lib sigs ft). Qed.
    Lemma known_params ts : numeric ts -> forallb (fun p : string * rty => known_type (snd p)) (typed_params ts) = true.
    Proof.
      intros N. apply forallb_forall. intros p Ip. unfold typed_params in Ip. apply in_map_iff in Ip. destruct Ip as ([i t] & <- & I).
      apply enum_in in I. destruct (@num_nth _ _ _ N I) as (n & E). cbn [fst snd] in *. now rewrite E.
    Qed.
    Lemma converted_typed ts env : numeric ts -> (forall i t, nth_error ts i = Some t -> lookup (arg_var i) env = Some (RW t)) ->
      type_args fns env (converted ts) = Some (repeat RValue (List.length ts)).
    Proof.
      intros N L. unfold converted.
      assert (G : forall l, (forall i t, In (i, t) l -> lookup (arg_var i) env = Some (RW t) /\ exists n, t = TNum n) ->
        type_args fns env (map (fun it => ROp (ONew (snd it)) [RVar (arg_var (fst it))]) l) = Some (repeat RValue (List.length l))).
      { induction l as [|[i t] l IH]; intros H; [reflexivity|]. cbn [map type_args fst snd List.length repeat].
        destruct (H i t (or_introl eq_refl)) as (Lk & n & ->). rewrite IH by (intros; apply H; now right).
        erewrite type_op; [reflexivity|reflexivity|]. cbn [type_args RustLib.type_exp]. now rewrite Lk. }
      rewrite G; [now rewrite enum_len|]. intros i t I. apply enum_in in I. split; [now apply L|]. exact (@num_nth _ _ _ N I).
    Qed.
    Lemma params_lookup ts i t : nth_error ts i = Some t -> lookup (arg_var i) (typed_params ts) = Some (RW t).
    Proof.
      intros E. apply lookup_in; [rewrite typed_params_names; apply args_nodup|]. unfold typed_params. apply in_map_iff. exists (i, t).
      split; [reflexivity|]. now apply enum_in.
    Qed.
    Lemma load_typed sd i t : nth_error (side_types ft sd) i = Some (TNum t) -> type_fn fns (rust_load ft sd (i, TNum t)) = true.
    Proof.
      intros E. assert (Li : i < List.length (side_types ft sd)) by (apply nth_error_Some; congruence).
      unfold type_fn, rust_load. cbn [rf_params rf_ret rf_body rf_tail forallb known_type snd map fst andb RustLib.type_body].
      erewrite type_call; [|apply (@generic_found (rust_load_generic r a sd i))|reflexivity].
      - cbn [rf_ret rust_load_generic]. destruct t; reflexivity.
      - unfold rust_generic. apply in_or_app. right. destruct sd; cbn [side_types] in Li.
        + apply in_or_app. right. apply in_or_app. left. apply in_map, in_seq. lia.
        + apply in_or_app. left. apply in_map, in_seq. lia.
    Qed.
    Lemma store_typed sd i t : nth_error (side_types ft sd) i = Some (TNum t) -> type_fn fns (rust_store ft sd (i, TNum t)) = true.
    Proof.
      intros E. assert (Li : i < List.length (side_types ft sd)) by (apply nth_error_Some; congruence).
      unfold type_fn, rust_store. cbn [rf_params rf_ret rf_body rf_tail forallb known_type snd map fst andb RustLib.type_body].
      erewrite type_call; [|apply (@generic_found (rust_store_generic r a sd i))|]; [reflexivity| |].
      - unfold rust_generic. do 3 (apply in_or_app; right). destruct sd; cbn [side_types] in Li.
        + apply in_or_app. right. apply in_or_app. left. apply in_map, in_seq. lia.
        + apply in_or_app. left. apply in_map, in_seq. lia.
      - cbn [type_args]. erewrite type_op; [|reflexivity|].
        + reflexivity.
        + cbn [type_args RustLib.type_exp].
          change (match lookup (arg_var i) [(arg_var i, RW (TNum t))] with Some t => Some [t] | None => None end = Some [RW (TNum t)]).
          cbn [lookup]. now rewrite String.eqb_refl.
    Qed.
    Lemma special_typed g : In g (rust_special ft) -> type_fn fns g = true.
    Proof.
      destruct (num_sig _ Num) as [No Ni]. unfold small in Small. intros I. unfold rust_special in I.
      repeat match type of I with In _ (_ ++ _) => apply in_app_or in I; destruct I as [I|I] end.
      - destruct I as [<-|[]]. unfold type_fn, rust_allocate. cbn [rf_params rf_ret rf_body rf_tail known_type RustLib.type_body].
        rewrite known_params, typed_params_names, (proj2 (distinct_strs_NoDup _) (args_nodup _)) by exact Ni. cbn [andb].
        assert (Fd : fn_named fns ("allocate_" ++ count_name r a) = Some (rust_allocate_generic r a)).
        { replace ("allocate_" ++ count_name r a)%string with (rf_name (rust_allocate_generic r a)).
          - apply generic_found. now left.
          - unfold rust_allocate_generic. destruct (Nat.eqb _ _); reflexivity. }
        erewrite type_call; [|exact Fd|].
        + unfold rust_allocate_generic. destruct (Nat.eqb _ _); reflexivity.
        + rewrite converted_typed; [|exact Ni|apply params_lookup]. f_equal. unfold rust_allocate_generic.
          destruct (Nat.eqb_spec (r + a) 0) as [Z0|Nz]; cbn [rf_params]; [|now rewrite value_params_types].
          replace a with 0 by lia. reflexivity.
      - apply in_map_iff in I. destruct I as ([i t] & <- & I). apply enum_in in I. destruct (@num_nth _ _ _ Ni I) as (n & ->). now apply load_typed.
      - apply in_map_iff in I. destruct I as ([i t] & <- & I). apply enum_in in I. destruct (@num_nth _ _ _ No I) as (n & ->). now apply load_typed.
      - apply in_map_iff in I. destruct I as ([i t] & <- & I). apply enum_in in I. destruct (@num_nth _ _ _ Ni I) as (n & ->). now apply store_typed.
      - apply in_map_iff in I. destruct I as ([i t] & <- & I). apply enum_in in I. destruct (@num_nth _ _ _ No I) as (n & ->). now apply store_typed.
      - destruct I as [<-|[<-|[<-|[<-|[]]]]].
        + unfold type_fn, rust_free. cbn [rf_params rf_ret rf_body rf_tail forallb known_type snd map fst andb RustLib.type_body].
          assert (Fd : fn_named fns ("free_values_" ++ count_name r a) = Some (rust_free_generic r a)).
          { replace ("free_values_" ++ count_name r a)%string with (rf_name (rust_free_generic r a)).
            - apply generic_found. unfold rust_generic. do 5 (apply in_or_app; right). simpl. tauto.
            - unfold rust_free_generic. destruct (Nat.eqb _ _); reflexivity. }
          erewrite type_call; [|exact Fd|]; unfold rust_free_generic; [destruct (Nat.eqb (r + a) 0); reflexivity|]. unfold rust_free_generic. destruct (Nat.eqb _ _); reflexivity.
        + unfold type_fn, rust_store_rets. cbn [rf_params rf_ret rf_body rf_tail known_type snd map fst forallb RustLib.type_body].
          rewrite known_params, typed_params_names, (proj2 (distinct_strs_NoDup _)) by (try exact No; apply ptr_args_nodup; intros i E; discriminate E).
          cbn [andb].
          erewrite type_call; [|apply (@generic_found (rust_store_rets_generic r a))|]; [reflexivity| |].
          * unfold rust_generic. do 5 (apply in_or_app; right). simpl. tauto.
          * cbn [type_args rust_store_rets_generic rf_params map snd]. rewrite converted_typed; [|exact No|].
            -- change (type_exp fns _ (RVar "stack_ptr")) with (Some RUsize). cbv iota. now rewrite value_params_types.
            -- intros i t E. change (lookup (arg_var i) (typed_params (ft_out ft)) = Some (RW t)). now apply params_lookup.
        + unfold type_fn, rust_allocate_types. cbn [rf_params rf_ret rf_body rf_tail known_type snd map fst forallb andb RustLib.type_body].
          change (distinct_strs []) with true. cbv iota.
          erewrite type_call; [|apply (@generic_found (rust_types_generic r a))|reflexivity].
          2:{ unfold rust_generic. do 5 (apply in_or_app; right). simpl. tauto. }
          cbn [rf_ret rust_types_generic].
          rewrite <- (map_map (fun it => RCall "wastrumentation_stack_store_type" [RVar "types_buffer"; RNum (Z.of_nat (fst it)); RVariant (snd it)]) RDo).
          rewrite type_dos; [reflexivity|]. intros e Ie. apply in_map_iff in Ie. destruct Ie as ([i t] & <- & Ii). apply enum_in in Ii. exists RUnit.
          assert (Li : i < List.length (ft_out ft ++ ft_in ft)) by (apply nth_error_Some; congruence). rewrite app_length in Li.
          erewrite type_call; [|boiler|]; [reflexivity|]. cbn [type_args fst snd]. rewrite type_num by lia. reflexivity.
        + unfold type_fn, rust_free_types. cbn [rf_params rf_ret rf_body rf_tail forallb known_type snd map fst andb RustLib.type_body].
          erewrite type_call; [|apply (@generic_found (rust_free_types_generic r a))|]; [reflexivity| |reflexivity].
          unfold rust_generic. do 5 (apply in_or_app; right). simpl. tauto.
    Qed.
  End Special.
End Lib.

Lemma lib_for_in sigs : forall counts done g, In g (rust_lib_for counts done sigs) ->
  exists ft, In ft sigs /\ (In g (rust_generic (List.length (ft_out ft)) (List.length (ft_in ft))) \/ In g (rust_special ft)).
Proof.
  induction sigs as [|ft sigs IH]; intros counts done g I; [destruct I|]. cbn [rust_lib_for] in I.
  apply in_app_or in I as [I|I]; [|apply in_app_or in I as [I|I]].
  - exists ft. split; [now left|]. left. destruct (existsb _ counts); [destruct I|exact I].
  - exists ft. split; [now left|]. right. destruct (existsb _ done); [destruct I|exact I].
  - destruct (IH _ _ _ I) as (ft' & I' & H). exists ft'. split; [now right|exact H].
Qed.

Theorem rust_lib_compiles sigs : rust_compiles (rust_lib sigs) = true <->
  Forall (fun ft => numeric_sig ft = true /\ (slots ft < 2 ^ 32)%Z) sigs.
Proof.
  unfold rust_compiles. rewrite (proj2 (distinct_strs_NoDup _) (rust_names_nodup sigs)). cbn [andb]. rewrite forallb_forall. split.
  - intros H. apply Forall_forall. intros ft Hft. split.
    + assert (K : forall sd i t, nth_error (side_types ft sd) i = Some t -> exists n, t = TNum n).
      { intros sd i t E. specialize (H (rust_store ft sd (i, t))). destruct t as [n|rt]; [eauto|]. exfalso.
        assert (X : type_fn (rust_lib sigs) (rust_store ft sd (i, TRef rt)) = true).
        { apply H. apply (@special_in_lib sigs ft _ Hft). unfold rust_special. do 3 (apply in_or_app; right). destruct sd; cbn [side_types] in E.
          - apply in_or_app. right. apply in_or_app. left. apply in_map. now apply enum_in.
          - apply in_or_app. left. apply in_map. now apply enum_in. }
        unfold type_fn in X. cbn [rust_store rf_params forallb known_type snd andb] in X. discriminate X. }
      assert (K' : forall sd, existsb is_ref (side_types ft sd) = false).
      { intros sd. destruct (existsb is_ref (side_types ft sd)) eqn:X; [|reflexivity]. apply existsb_exists in X. destruct X as (t & It & Rt).
        apply In_nth_error in It. destruct It as (i & E). destruct (K sd i t E) as (n & ->). discriminate Rt. }
      unfold numeric_sig. pose proof (K' SArg) as K1. pose proof (K' SRet) as K2. cbn [side_types] in K1, K2. now rewrite K1, K2.
    + specialize (H (rust_types_generic (List.length (ft_out ft)) (List.length (ft_in ft)))).
      assert (X : type_fn (rust_lib sigs) (rust_types_generic (List.length (ft_out ft)) (List.length (ft_in ft))) = true).
      { apply H. apply (@generic_in_lib sigs ft _ Hft). unfold rust_generic. do 5 (apply in_or_app; right). simpl. tauto. }
      unfold type_fn, rust_types_generic in X. cbn [rf_params rf_ret rf_body rf_tail forallb known_type map andb RustLib.type_body RustLib.type_exp] in X.
      change (slots ft) with (Z.of_nat (List.length (ft_out ft) + List.length (ft_in ft))).
      destruct (Z.ltb_spec (Z.of_nat (List.length (ft_out ft) + List.length (ft_in ft))) (2 ^ 32)) as [L|L]; [exact L|exfalso].
      destruct (option_map rust_sig (fn_named (rust_lib sigs) "stack_allocate_types")) as [[ps t]|];
        rewrite andb_false_r in X; discriminate X.
  - intros H g I. apply in_app_or in I as [I|I]; [now apply boiler_typed|]. apply lib_for_in in I. destruct I as (ft & Hft & I).
    rewrite Forall_forall in H. destruct (H ft Hft) as [Num Sm]. destruct I as [I|I].
    + refine (@generic_typed sigs _ _ Sm _ g I). intros g' I'. exact (@generic_found sigs ft Hft g' I').
    + exact (@special_typed sigs ft Hft Num Sm g I).
Qed.

(** Every operation of a signature is exported, under the name and with the type that instrumented
    modules import. *)
Theorem rust_exports sigs ft o : In ft sigs -> In o (sig_ops ft) ->
  exists g, fn_named (rust_lib sigs) (op_name ft o) = Some g /\ rf_export g = true /\ wasm_sig g = libop_type ft o.
Proof.
  intros Hft Io.
  assert (W : exists g, In g (rust_special ft) /\ rf_name g = op_name ft o /\ rf_export g = true /\ wasm_sig g = libop_type ft o).
  { assert (Fp : forall ts, flat_map (fun p : string * rty => wasm_types (snd p)) (typed_params ts) = ts).
    { intros ts. rewrite <- (map_id ts) at 2. rewrite flat_map_concat_map, <- (map_map snd wasm_types), typed_params_types, map_map.
      rewrite map_id. induction ts as [|t ts IH]; [reflexivity|]. cbn [map List.concat]. rewrite IH. reflexivity. }
    unfold sig_ops in Io.
    assert (Hs : forall mk mkf ts, In o (side_ops mk ts) ->
       (forall j t, nth_error ts j = Some t -> rf_name (mkf (j, t)) = op_name ft (mk j) /\ rf_export (mkf (j, t)) = true /\ wasm_sig (mkf (j, t)) = libop_type ft (mk j)) ->
       incl (map mkf (enum ts)) (rust_special ft) ->
       exists g, In g (rust_special ft) /\ rf_name g = op_name ft o /\ rf_export g = true /\ wasm_sig g = libop_type ft o).
    { intros mk mkf ts J Ok_ Inc. unfold side_ops in J. apply in_map_iff in J. destruct J as (j & <- & J). apply in_seq in J.
      destruct (nth_error ts j) as [t|] eqn:Ej; [|apply nth_error_None in Ej; lia].
      exists (mkf (j, t)). split; [apply Inc; apply in_map; now apply enum_in|]. now apply Ok_. }
    apply in_app_or in Io. destruct Io as [Io|Io].
    { cbn in Io. destruct Io as [<-|[<-|[<-|[<-|[]]]]].
      - exists (rust_allocate ft). split; [unfold rust_special; apply in_or_app; left; now left|]. split; [reflexivity|]. split; [reflexivity|].
        unfold wasm_sig. cbn [rust_allocate rf_params rf_ret wasm_types]. now rewrite Fp.
      - exists (rust_free ft). split; [|repeat split]. unfold rust_special. do 5 (apply in_or_app; right). cbn. tauto.
      - exists (rust_allocate_types ft). split; [|repeat split]. unfold rust_special. do 5 (apply in_or_app; right). cbn. tauto.
      - exists (rust_free_types ft). split; [|repeat split]. unfold rust_special. do 5 (apply in_or_app; right). cbn. tauto. }
    apply in_app_or in Io. destruct Io as [Io|Io].
    { eapply (Hs (LLoad SArg) (rust_load ft SArg)); [exact Io| |].
      - intros j t Ej. cbn [libop_type]. rewrite Ej. repeat split.
      - intros w Hw. unfold rust_special. apply in_or_app. right. apply in_or_app. now left. }
    apply in_app_or in Io. destruct Io as [Io|Io].
    { eapply (Hs (LLoad SRet) (rust_load ft SRet)); [exact Io| |].
      - intros j t Ej. cbn [libop_type]. rewrite Ej. repeat split.
      - intros w Hw. unfold rust_special. do 2 (apply in_or_app; right). apply in_or_app. now left. }
    apply in_app_or in Io. destruct Io as [Io|Io].
    { eapply (Hs (LStore SArg) (rust_store ft SArg)); [exact Io| |].
      - intros j t Ej. cbn [libop_type]. rewrite Ej. repeat split.
      - intros w Hw. unfold rust_special. do 3 (apply in_or_app; right). apply in_or_app. now left. }
    apply in_app_or in Io. destruct Io as [Io|Io].
    { eapply (Hs (LStore SRet) (rust_store ft SRet)); [exact Io| |].
      - intros j t Ej. cbn [libop_type]. rewrite Ej. repeat split.
      - intros w Hw. unfold rust_special. do 4 (apply in_or_app; right). apply in_or_app. now left. }
    destruct Io as [<-|[]]. exists (rust_store_rets ft). split; [unfold rust_special; do 5 (apply in_or_app; right); cbn; tauto|].
    split; [reflexivity|]. split; [reflexivity|]. unfold wasm_sig. cbn [rust_store_rets rf_params rf_ret wasm_types flat_map snd]. now rewrite Fp. }
  destruct W as (g & Ig & En & Ex & Ty). exists g. split; [|auto]. rewrite <- En. apply rust_found. now apply (@special_in_lib sigs ft).
Qed.
