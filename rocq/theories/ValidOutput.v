(** The output of the instrumentation validates (C15): the woven bodies and every generated
    function, in the context of the output module. *)
From Coq Require Import Permutation.
From Verif Require Import Typing AdvisedTyping WeaveTyping Nesting NestingSpec NestingProofs WeaveSpec WeaveProofs
  WeavePropProofs RunLemmas InstrumentProofs ImportProofs AdviceProofs ModuleTyping.
Local Open Scope se_scope.

(** Straight-line code. *)
Lemma so_basic C b i o rest r ts : btype C b (FT i o) -> seq_ok C r (rev o ++ rest) ts ->
  seq_ok C (UBasic b :: r) (rev i ++ rest) ts.
Proof. intros B S. exact (@so_cons C (UBasic b) r (FT i o) rest ts (io_basic B) S). Qed.

Section Context.
  Variable K : list functy.
  Variable Tb : list refty.
  Variable mem : bool.
  Variable gl : list (valty * bool).
  Variable El : list refty.
  Variable nd : nat.
  Definition cx (locals ret : list valty) : ctx := Ctx K Tb mem gl El nd locals [ret] ret.
  Definition gok (f : func) : Prop :=
    match fn_code f with
    | FImport _ _ => True
    | FPresent locals body =>
        exists b, structure_untyped body = COk b /\
          seq_ok (cx (ft_in (fn_type f) ++ locals) (ft_out (fn_type f))) b [] (rev (ft_out (fn_type f)))
    end.
  Lemma gok_basics ft locals bs ex :
    seq_ok (cx (ft_in ft ++ locals) (ft_out ft)) (map UBasic bs) [] (rev (ft_out ft)) ->
    gok (Fn ft (FPresent locals (map LBasic bs ++ [LEnd])) ex).
  Proof. intros S. exists (map UBasic bs). split; [apply structure_basics|exact S]. Qed.

  (** *** Branch table helpers *)
  Fixpoint under (k : nat) (C : ctx) : ctx := match k with O => C | S k' => under k' (label C []) end.
  Lemma under_label k C : under k (label C []) = label (under k C) [].
  Proof. revert C. induction k as [|k IH]; intros C; [reflexivity|]. cbn [under]. apply IH. Qed.
  Lemma under_labels k C : c_labels (under k C) = repeat [] k ++ c_labels C.
  Proof. revert C. induction k as [|k IH]; intros C; [reflexivity|]. cbn [under]. rewrite under_label. cbn. now rewrite IH. Qed.
  Lemma under_locals k C : c_locals (under k C) = c_locals C.
  Proof. revert C. induction k as [|k IH]; intros C; [reflexivity|]. cbn [under]. now rewrite IH. Qed.

  Lemma lget_ok C i t rest r ts : nth_error (c_locals C) i = Some t -> seq_ok C r (t :: rest) ts ->
    seq_ok C (UBasic (BLocal LGet i) :: r) rest ts.
  Proof. intros N S. exact (@so_basic C (BLocal LGet i) [] [t] rest r ts (ty_local_get C _ N) S). Qed.
  Lemma const_ok C n z rest r ts : seq_ok C r (TNum n :: rest) ts -> seq_ok C (UBasic (BConst n z) :: r) rest ts.
  Proof. intros S. exact (@so_basic C (BConst n z) [] [TNum n] rest r ts (ty_const C n z) S). Qed.

  Lemma nest_ok inner rxs : forall C, nth_error (c_locals C) 0 = Some i32 -> c_ret C = [i32; i32] ->
    seq_ok (under (S (List.length rxs)) C) inner [] [] -> seq_ok C (nest inner rxs) [] [].
  Proof.
    induction rxs as [|x rxs IH]; intros C L R I; cbn [nest List.length under] in *.
    - apply (@seq_ok_one C (UBlock ft_empty inner) ft_empty []). now constructor.
    - apply (@seq_ok_one C (UBlock ft_empty (nest inner rxs ++ case_code x)) ft_empty []). constructor.
      eapply seq_ok_app; [apply IH; auto|].
      unfold case_code. eapply lget_ok; [exact L|]. apply const_ok.
      pose proof (ty_return (label C []) [] []) as T. cbn [c_ret label] in T. rewrite R in T.
      exact (@seq_ok_one (label C []) (UBasic BReturn) (FT ([] ++ [i32; i32]) []) [] (io_basic T)).
  Qed.
  Lemma gok_helper x : gok (helper_fn x).
  Proof.
    destruct x as [p [table d]]. unfold gok, helper_fn. cbn [fn_code fst snd fn_type ft_in ft_out br_helper_type rev app].
    set (C := cx _ _).
    assert (L : nth_error (c_locals C) 0 = Some i32) by reflexivity.
    destruct table as [|x [|y table]].
    - exists [UBasic (BLocal LGet 0); UBasic (BConst TI32 (Z.of_nat d))]. split.
      + apply (structure_untyped_flatten [UBasic (BLocal LGet 0); UBasic (BConst TI32 (Z.of_nat d))]).
      + eapply lget_ok; [exact L|]. apply const_ok. constructor.
    - set (b := [UBasic (BLocal LGet 0); UBasic (BLocal LGet 0); UBasic (BUnary I32Eqz);
                 UIf (FT [] [t_i32]) [UBasic (BConst TI32 (Z.of_nat x))] (Some [UBasic (BConst TI32 (Z.of_nat d))])]).
      exists b. split; [apply (structure_untyped_flatten b)|]. unfold b.
      eapply lget_ok; [exact L|]. eapply lget_ok; [exact L|].
      apply (@so_basic C (BUnary I32Eqz) [i32] [i32] [i32]); [apply (ty_unary C I32Eqz)|].
      apply (@so_cons C _ [] (FT ([] ++ [i32]) [t_i32]) [i32]); [|constructor].
      apply (@io_if_else C (FT [] [t_i32])); apply const_ok; constructor.
    - set (t := x :: y :: table). set (n := List.length t).
      set (inner := [UBasic (BLocal LGet 0); UBasic (BBrTable (seq 0 n) n)]).
      set (b := nest inner (rev (map Z.of_nat t)) ++ [UBasic (BLocal LGet 0); UBasic (BConst TI32 (Z.of_nat d))]).
      exists b. split.
      + rewrite <- (structure_untyped_flatten b). f_equal. unfold uflatten, b. rewrite uflat_app, nest_flat.
        assert (Eb : br_helper_body (map Z.of_nat t) (Z.of_nat d) =
          map (fun _ => LBlock ft_empty) (map Z.of_nat t)
          ++ [LBlock ft_empty; LBasic (BLocal LGet 0);
              LBasic (BBrTable (seq 0 (List.length (map Z.of_nat t))) (List.length (map Z.of_nat t))); LEnd]
          ++ flat_map (fun x => [LBasic (BLocal LGet 0); LBasic (BConst TI32 x); LBasic BReturn; LEnd]) (map Z.of_nat t)
          ++ [LBasic (BLocal LGet 0); LBasic (BConst TI32 (Z.of_nat d)); LEnd]) by reflexivity.
        rewrite Eb, map_length. fold n. rewrite <- !app_assoc. reflexivity.
      + unfold b. eapply seq_ok_app.
        * apply nest_ok; [exact L|reflexivity|]. rewrite rev_length, map_length. fold n.
          unfold inner. eapply lget_ok; [now rewrite under_locals|].
          assert (T : btype (under (S n) C) (BBrTable (seq 0 n) n) (FT ([] ++ [] ++ [i32]) [])).
          { constructor. apply Forall_forall. intros l I. rewrite under_labels.
            assert (l < S n) by (destruct I as [E|I]; [rewrite <- E; apply Nat.lt_succ_diag_r|apply in_seq in I; exact (Nat.lt_lt_succ_r _ _ (proj2 I))]).
            rewrite nth_error_app1 by (now rewrite repeat_length). now apply nth_error_repeat. }
          exact (@seq_ok_one _ (UBasic (BBrTable (seq 0 n) n)) (FT ([] ++ [] ++ [i32]) []) [] (io_basic T)).
        * eapply lget_ok; [exact L|]. apply const_ok. constructor.
  Qed.

  (** *** Memory helpers *)
  Lemma gok_memory : Forall gok (memory_helpers mem).
  Proof.
    unfold memory_helpers. repeat (apply Forall_app; split).
    - apply Forall_forall. intros f I. apply in_map_iff in I. destruct I as ([nm o] & <- & _).
      unfold load_helper. cbn [fst snd]. destruct mem eqn:M.
      + apply (@gok_basics _ [] [BLocal LGet 0; BLocal LGet 1; BBinary I32Add; BLoad o (load_memarg o)]).
        cbn [map ft_in ft_out app rev]. eapply lget_ok; [reflexivity|]. eapply lget_ok; [reflexivity|].
        apply (@so_basic _ (BBinary I32Add) [i32; i32] [i32] []); [apply (ty_binary _ I32Add)|].
        replace (load_helper_ty o) with (loadop_ty o) by (now destruct o).
        apply (@so_basic _ (BLoad o (load_memarg o)) [i32] [TNum (loadop_ty o)] []); [|constructor].
        constructor; [exact M|]. destruct o; repeat constructor.
      + apply (@gok_basics _ [] [BConst (load_helper_ty o) 0]). cbn [map]. apply const_ok. constructor.
    - apply Forall_forall. intros f I. apply in_map_iff in I. destruct I as ([nm o] & <- & _).
      unfold store_helper. cbn [fst snd]. destruct mem eqn:M.
      + apply (@gok_basics _ [] [BLocal LGet 0; BLocal LGet 2; BBinary I32Add; BLocal LGet 1; BStore o (store_memarg o)]).
        cbn [map ft_in ft_out app rev]. eapply lget_ok; [reflexivity|]. eapply lget_ok; [reflexivity|].
        apply (@so_basic _ (BBinary I32Add) [i32; i32] [i32] []); [apply (ty_binary _ I32Add)|].
        eapply lget_ok; [reflexivity|].
        replace (store_helper_ty o) with (storeop_ty o) by (now destruct o).
        apply (@so_basic _ (BStore o (store_memarg o)) [i32; TNum (storeop_ty o)] [] []); [|constructor].
        constructor; [exact M|]. destruct o; repeat constructor.
      + apply (@gok_basics _ [] []). constructor.
    - constructor; [|constructor; [|constructor]].
      + unfold grow_helper. destruct mem eqn:M.
        * apply (@gok_basics _ [] [BLocal LGet 0; BMemoryGrow 0]). cbn [map]. eapply lget_ok; [reflexivity|].
          apply (@so_basic _ (BMemoryGrow 0) [i32] [i32] []); [now constructor|constructor].
        * apply (@gok_basics _ [] [BConst TI32 (2 ^ 32 - 1)]). cbn [map]. apply const_ok. constructor.
      + unfold size_helper. destruct mem eqn:M.
        * apply (@gok_basics _ [] [BMemorySize 0]). cbn [map].
          apply (@so_basic _ (BMemorySize 0) [] [i32] []); [now constructor|constructor].
        * apply (@gok_basics _ [] [BConst TI32 0]). cbn [map]. apply const_ok. constructor.
  Qed.

  (** *** Interception *)
  Definition typed_at (f : nat) (ft : functy) : Prop := nth_error K f = Some ft.
  Lemma call_ok C f i o rest r ts : c_funcs C = K -> typed_at f (FT i o) -> seq_ok C r (rev o ++ rest) ts ->
    seq_ok C (UBasic (BCall f) :: r) (rev i ++ rest) ts.
  Proof. intros E N S. apply so_basic with o; [|exact S]. constructor. now rewrite E. Qed.

  Lemma loads_seq C l tys ls : c_funcs C = K -> nth_error (c_locals C) l = Some i32 ->
    Forall2 (fun t f => typed_at f (FT [i32] [t])) tys ls ->
    forall st, seq_ok C (map UBasic (flat_map (fun f => [BLocal LGet l; BCall f]) ls)) st (rev tys ++ st).
  Proof.
    intros E N F. induction F as [|t f tys ls T F IH]; intros st; [constructor|].
    cbn [flat_map app map rev]. eapply lget_ok; [exact N|].
    eapply (@call_ok C f [i32] [t] st); [exact E|exact T|]. cbn [rev app].
    rewrite <- app_assoc. apply IH.
  Qed.
  Lemma gets_seq C tys0 tys rest : c_locals C = tys0 ++ tys ++ rest ->
    forall st, seq_ok C (map UBasic (map (BLocal LGet) (seq (List.length tys0) (List.length tys)))) st (rev tys ++ st).
  Proof.
    revert tys0. induction tys as [|t tys IH]; intros tys0 E st; [constructor|].
    cbn [List.length seq map rev]. eapply lget_ok.
    - rewrite E, nth_error_app2, Nat.sub_diag by lia. reflexivity.
    - rewrite <- app_assoc. specialize (IH (tys0 ++ [t])). rewrite app_length, Nat.add_1_r in IH.
      apply IH. now rewrite E, <- app_assoc.
  Qed.

  (** The buffer operations, at the indices of [sh]. *)
  Record ops_typed (ft : functy) (sh : stack_hooks) : Prop := {
    ot_alloc : typed_at (sh_alloc sh) (FT (ft_in ft) [i32]);
    ot_free : typed_at (sh_free sh) (FT [i32] []);
    ot_alloc_types : typed_at (sh_alloc_types sh) (FT [] [i32]);
    ot_free_types : typed_at (sh_free_types sh) (FT [i32] []);
    ot_arg_load : Forall2 (fun t f => typed_at f (FT [i32] [t])) (ft_in ft) (sh_arg_load sh);
    ot_ret_load : Forall2 (fun t f => typed_at f (FT [i32] [t])) (ft_out ft) (sh_ret_load sh);
    ot_store_rets : typed_at (sh_store_rets sh) (FT (i32 :: ft_out ft) []) }.

  Lemma gok_apply ft sh base ex : ops_typed ft sh -> typed_at base ft ->
    gok (Fn apply_type (FPresent [t_i32]
        (lget 0 :: flat_map (fun l => [lget 0; lcall l]) (sh_arg_load sh)
         ++ [lcall base; lcall (sh_store_rets sh); LEnd])) ex).
  Proof.
    intros OT B.
    set (bs := BLocal LGet 0 :: flat_map (fun l => [BLocal LGet 0; BCall l]) (sh_arg_load sh) ++ [BCall base; BCall (sh_store_rets sh)]).
    replace (lget 0 :: _) with (map LBasic bs ++ [LEnd]).
    2: { unfold bs. cbn [map app]. f_equal. rewrite map_app, <- app_assoc. cbn [map app]. f_equal.
         generalize (sh_arg_load sh). induction l as [|x l IH]; [reflexivity|]. cbn. now rewrite IH. }
    apply gok_basics. unfold bs. cbn [map]. eapply lget_ok; [reflexivity|]. rewrite map_app.
    eapply seq_ok_app; [eapply loads_seq; [reflexivity|reflexivity|exact (ot_arg_load OT)]|].
    cbn [map]. destruct ft as [i o]. cbn [ft_in ft_out] in *.
    eapply call_ok; [reflexivity|exact B|].
    change (rev o ++ [i32]) with (rev (i32 :: o)).
    exact (@seq_ok_basic _ _ (i32 :: o) [] [] (ty_call (cx _ _) _ (ot_store_rets OT))) || (rewrite <- (app_nil_r (rev (i32 :: o))) at 1;
    eapply call_ok; [reflexivity|exact (ot_store_rets OT)|constructor]).
  Qed.

  Definition generic_type : functy := FT [i32; i32; i32; i32; i32; i32; i32] [].
  Lemma gok_wrapper ft sh g k i argc resc pr ex : ops_typed ft sh -> typed_at g generic_type ->
    gok (Fn ft (FPresent [t_i32; t_i32] (wrapper_body sh ft g k i argc resc pr)) ex).
  Proof.
    intros OT G. unfold wrapper_body. set (p := List.length (ft_in ft)).
    set (bs := map (BLocal LGet) (seq 0 p) ++
      [BCall (sh_alloc sh); BLocal LSet p; BCall (sh_alloc_types sh); BLocal LSet (S p);
       BConst TI32 k; BConst TI32 i; BConst TI32 argc; BConst TI32 resc; BLocal LGet p; BLocal LGet (S p); BConst TI32 pr; BCall g] ++
      flat_map (fun l => [BLocal LGet p; BCall l]) (sh_ret_load sh) ++
      [BLocal LGet p; BCall (sh_free sh); BLocal LGet (S p); BCall (sh_free_types sh)]).
    match goal with |- gok (Fn ft (FPresent _ ?b) ex) => replace b with (map LBasic bs ++ [LEnd]) end.
    2: { unfold bs. rewrite !map_app, map_map, <- !app_assoc. cbn [map app]. do 13 f_equal.
         generalize (sh_ret_load sh). induction l as [|x l IH]; [reflexivity|]. cbn. now rewrite IH. }
    apply gok_basics. set (C := cx _ _).
    assert (L0 : c_locals C = ft_in ft ++ [i32; i32]) by reflexivity.
    assert (L1 : nth_error (c_locals C) p = Some i32).
    { rewrite L0, nth_error_app2, Nat.sub_diag by (unfold p; lia). reflexivity. }
    assert (L2 : nth_error (c_locals C) (S p) = Some i32).
    { rewrite L0, nth_error_app2 by (unfold p; lia). replace (S p - _) with 1 by (unfold p; lia). reflexivity. }
    unfold bs. rewrite map_app. eapply seq_ok_app; [apply (@gets_seq C [] (ft_in ft) [i32; i32] L0)|].
    rewrite app_nil_r, !map_app. cbn [map].
    assert (Set1 : forall j rest r ts, nth_error (c_locals C) j = Some i32 -> seq_ok C r rest ts ->
              seq_ok C (UBasic (BLocal LSet j) :: r) (i32 :: rest) ts).
    { intros j rest r ts N S. exact (@so_basic C (BLocal LSet j) [i32] [] rest r ts (ty_local_set C _ N) S). }
    rewrite <- (app_nil_r (rev (ft_in ft))). cbn [app].
    eapply call_ok; [reflexivity|exact (ot_alloc OT)|]. cbn [rev app].
    apply Set1; [exact L1|].
    eapply (@call_ok C _ [] [i32] []); [reflexivity|exact (ot_alloc_types OT)|]. cbn [rev app].
    apply Set1; [exact L2|]. do 4 apply const_ok.
    eapply lget_ok; [exact L1|]. eapply lget_ok; [exact L2|]. apply const_ok.
    eapply (@call_ok C g [i32; i32; i32; i32; i32; i32; i32] [] []); [reflexivity|exact G|]. cbn [rev app].
    eapply seq_ok_app; [eapply loads_seq; [reflexivity|exact L1|exact (ot_ret_load OT)]|]. rewrite app_nil_r.
    eapply lget_ok; [exact L1|].
    eapply (@call_ok C _ [i32] [] (rev (ft_out ft))); [reflexivity|exact (ot_free OT)|]. cbn [rev app].
    eapply lget_ok; [exact L2|].
    eapply (@call_ok C _ [i32] [] (rev (ft_out ft))); [reflexivity|exact (ot_free_types OT)|]. constructor.
  Qed.
  Lemma gok_call_base e tbl : wf_type e = FT [i32; i32] [] -> nth_error Tb tbl = Some FuncRef ->
    gok (call_base_fn e tbl).
  Proof.
    intros W T. unfold call_base_fn. rewrite W.
    apply (@gok_basics (FT [i32; i32] []) [] [BLocal LGet 1; BLocal LGet 0; BCallIndirect apply_type tbl]). cbn [map].
    eapply lget_ok; [reflexivity|]. eapply lget_ok; [reflexivity|].
    apply (@so_basic _ (BCallIndirect apply_type tbl) [i32; i32] [] []); [|constructor].
    exact (@ty_call_indirect (cx [i32; i32] []) apply_type tbl T).
  Qed.

  (** ** The stages *)
  Definition known (fs : list func) : Prop := extends_list (map fn_type fs) K.
  Lemma known_at fs i f : known fs -> nth_error fs i = Some f -> typed_at i (fn_type f).
  Proof. intros E N. apply E. now rewrite nth_error_map, N. Qed.
  Lemma known_prefix fs fs' l : map fn_type fs' = map fn_type fs ++ l -> known fs' -> known fs.
  Proof. unfold known. intros -> E. eapply extends_list_trans; [apply extends_list_app|exact E]. Qed.

  Lemma sh_typed fs n ft sh : known fs -> sh_ok fs n ft sh -> ops_typed ft sh.
  Proof.
    intros KN [[A _] [B _] [C _] [D _] E F [G _]]. unfold op_at in *.
    assert (Side : forall mk tys ls, (forall j, libop_type ft (mk j) = FT [i32] (match nth_error tys j with Some t => [t] | None => [] end)) ->
        Forall2 (fun o i => op_at fs ft o i /\ n <= i) (side_ops mk tys) ls ->
        Forall2 (fun t f => typed_at f (FT [i32] [t])) tys ls).
    { intros mk tys ls T. unfold side_ops.
      assert (Gen : forall k pre post ls, List.length pre = k -> tys = pre ++ post ->
        Forall2 (fun o i => op_at fs ft o i /\ n <= i) (map mk (seq k (List.length post))) ls ->
        Forall2 (fun t f => typed_at f (FT [i32] [t])) post ls).
      { intros k pre post. revert k pre. induction post as [|t post IH]; intros k pre ls' Lp Ep F2; cbn [List.length seq map] in F2;
          inversion F2 as [|? x ? ls2 [P _] F2']; subst; constructor.
        - apply (@known_at _ _ _ KN) in P. cbn [op_import fn_type] in P. rewrite T in P.
          rewrite nth_error_app2, Nat.sub_diag in P by lia. exact P.
        - apply (IH (S (List.length pre)) (pre ++ [t])); [rewrite app_length; simpl; lia|now rewrite <- app_assoc|exact F2']. }
      intros F2. exact (@Gen 0 [] tys ls eq_refl eq_refl F2). }
    constructor.
    - exact (@known_at _ _ _ KN A).
    - exact (@known_at _ _ _ KN B).
    - exact (@known_at _ _ _ KN C).
    - exact (@known_at _ _ _ KN D).
    - apply (Side (LLoad SArg)); [reflexivity|exact E].
    - apply (Side (LLoad SRet)); [reflexivity|exact F].
    - exact (@known_at _ _ _ KN G).
  Qed.

  Lemma gok_update i g fs : (forall f, nth_error fs i = Some f -> gok (g f)) -> Forall gok fs -> Forall gok (update i g fs).
  Proof.
    revert i. induction fs as [|f fs IH]; intros [|i] G F; cbn; inversion F; subst; constructor; auto.
  Qed.
  Lemma types_update i (g : func -> func) fs : (forall f, nth_error fs i = Some f -> fn_type (g f) = fn_type f) ->
    map fn_type (update i g fs) = map fn_type fs.
  Proof.
    revert i. induction fs as [|f fs IH]; intros [|i] G; cbn; [reflexivity|reflexivity| |].
    - f_equal. now apply G.
    - f_equal. now apply IH.
  Qed.
  Lemma intercept_types ls g k i s ap s' : intercept ls g k i s = Some (ap, s') ->
    exists f, nth_error s i = Some f /\ map fn_type s' = map fn_type s ++ [fn_type f; apply_type].
  Proof.
    intros E. unfold intercept, se_bind, get_func, lift, add_func, se_ret, set_func in E.
    destruct (nth_error s i) as [f|] eqn:Ef; [|discriminate].
    destruct (find_link ls (fn_type f)) as [sh|]; [|discriminate].
    destruct (i32_of (List.length (ft_in (fn_type f)))) as [argc|]; [|discriminate].
    destruct (i32_of (List.length (ft_out (fn_type f)))) as [resc|]; [|discriminate].
    destruct (i32_of k) as [kz|]; [|discriminate]. destruct (i32_of i) as [iz|]; [|discriminate].
    destruct (Nat.ltb _ _); [|discriminate]. injection E as <- <-.
    exists f. split; [reflexivity|]. rewrite types_update.
    - rewrite <- app_assoc, map_app. reflexivity.
    - intros f' N. rewrite <- app_assoc, (@nth_error_app_l _ _ _ _ _ Ef) in N. injection N as <-. reflexivity.
  Qed.
  Lemma gok_intercept ls g k i s ap s' : intercept ls g k i s = Some (ap, s') ->
    Forall (fun x => ops_typed (fst x) (snd x)) ls -> typed_at g generic_type -> known s' ->
    Forall gok s -> Forall gok s'.
  Proof.
    intros E LS TG KN F. destruct (@intercept_types _ _ _ _ _ _ _ E) as (f0 & Ef0 & Ty).
    unfold intercept, se_bind, get_func, lift, add_func, se_ret, set_func in E.
    destruct (nth_error s i) as [f|] eqn:Ef; [|discriminate]. injection Ef0 as <-.
    destruct (find_link ls (fn_type f)) as [sh|] eqn:Fl; [|discriminate].
    destruct (i32_of (List.length (ft_in (fn_type f)))) as [argc|]; [|discriminate].
    destruct (i32_of (List.length (ft_out (fn_type f)))) as [resc|]; [|discriminate].
    destruct (i32_of k) as [kz|]; [|discriminate]. destruct (i32_of i) as [iz|]; [|discriminate].
    destruct (Nat.ltb _ _); [|discriminate]. injection E as <- <-.
    assert (OT : ops_typed (fn_type f) sh).
    { apply find_link_In in Fl. rewrite Forall_forall in LS. exact (LS _ Fl). }
    assert (TB : typed_at (List.length s) (fn_type f)).
    { apply KN. rewrite Ty, nth_error_app2, map_length, Nat.sub_diag by (rewrite map_length; lia). reflexivity. }
    apply gok_update; [intros; now apply gok_wrapper|]. rewrite <- app_assoc. apply Forall_app. split; [exact F|].
    constructor; [|constructor; [|constructor]].
    - rewrite Forall_forall in F. apply nth_error_In in Ef. apply F in Ef. destruct f; exact Ef.
    - now apply gok_apply with (fn_type f).
  Qed.
  Lemma intercept_all_types ls g is : forall k s aps s', intercept_all ls g k is s = Some (aps, s') ->
    exists l, map fn_type s' = map fn_type s ++ l.
  Proof.
    induction is as [|i is IH]; intros k s aps s' E.
    - injection E as <- <-. exists []. now rewrite app_nil_r.
    - cbn [intercept_all] in E. unfold se_bind, se_ret in E.
      destruct (intercept ls g k i s) as [[ap s1]|] eqn:Ei; [|discriminate].
      destruct (intercept_all ls g (S k) is s1) as [[aps' s2]|] eqn:Er; [|discriminate]. injection E as <- <-.
      destruct (@intercept_types _ _ _ _ _ _ _ Ei) as (f & _ & Ty1).
      destruct (IH _ _ _ _ Er) as (l & Ty2). eexists. rewrite Ty2, Ty1, <- app_assoc. reflexivity.
  Qed.
  Lemma gok_intercept_all ls g is : forall k s aps s', intercept_all ls g k is s = Some (aps, s') ->
    Forall (fun x => ops_typed (fst x) (snd x)) ls -> typed_at g generic_type -> known s' ->
    Forall gok s -> Forall gok s'.
  Proof.
    induction is as [|i is IH]; intros k s aps s' E LS TG KN F; [now injection E as <- <-|].
    cbn [intercept_all] in E. unfold se_bind, se_ret in E.
    destruct (intercept ls g k i s) as [[ap s1]|] eqn:Ei; [|discriminate].
    destruct (intercept_all ls g (S k) is s1) as [[aps' s2]|] eqn:Er; [|discriminate]. injection E as <- <-.
    destruct (@intercept_all_types _ _ _ _ _ _ _ Er) as (l & Ty).
    eapply IH; eauto. eapply gok_intercept; eauto. eapply known_prefix; eassumption.
  Qed.
End Context.

(** ** The woven bodies *)
Definition plain_new (f : func) : Prop := (exists ns nm, fn_code f = FImport ns nm) \/ exists x, f = helper_fn x.
Lemma transform_new ts bodies s bs s' : NoDup (map fst ts) -> if_then_first (map fst ts) ->
  Forall (fun b => NoDup (map fst (br_tables b))) bodies ->
  transform_all ts bodies s = Some (bs, s') -> exists new, s' = s ++ new /\ Forall plain_new new.
Proof.
  intros ND IT. revert s bs. induction bodies as [|b r IH]; intros s bs NB E.
  - injection E as <- <-. exists []. rewrite app_nil_r. auto.
  - inversion NB as [|? ? Nb Nr]; subst. cbn [transform_all] in E. unfold se_bind, se_ret in E.
    destruct (run_passes_weave ts b s ND IT Nb) as (c & _ & Ec). rewrite Ec in E. destruct c; [|discriminate].
    match type of E with context [s ++ ?x] => set (nw := x) in E end.
    destruct (transform_all ts r (s ++ nw)) as [[r' s2]|] eqn:Er; [|discriminate]. injection E as <- <-.
    destruct (IH _ _ Nr Er) as (new & -> & F). exists (nw ++ new). split; [now rewrite app_assoc|].
    apply Forall_app. split; [|exact F]. unfold nw. destruct (is_enabled _ _); [|constructor].
    apply Forall_forall. intros f I. apply in_map_iff in I. destruct I as (x & <- & _). right. eauto.
Qed.
Lemma write_back_skipn n is : forall bs fs, (forall i, In i is -> i < n) -> skipn n (write_back is bs fs) = skipn n fs.
Proof.
  induction is as [|i is IH]; intros [|b bs] fs B; cbn; try reflexivity.
  rewrite IH by (intros j J; apply B; now right). apply update_skipn, B. now left.
Qed.
Lemma step1_new hs infer m ai only is_c bodies fs1 : NoDup hs -> if_then_first hs ->
  Permutation is_c (filter (selected m only) (indices m)) ->
  structure_all infer m is_c = COk bodies ->
  (ts <- install ai hs ;;
   bs <- transform_all ts bodies ;;
   fun s => Some (tt, write_back is_c bs s)) (md_funcs m) = Some (tt, fs1) ->
  Forall plain_new (skipn (List.length (md_funcs m)) fs1).
Proof.
  intros NDhs IThs Perm Es E1.
  unfold se_bind in E1. destruct (install_spec ai hs (md_funcs m)) as (ts & Ei & Ef & _). rewrite Ei in E1.
  destruct (transform_all ts bodies (md_funcs m ++ hook_imports ai hs)) as [[bs s1]|] eqn:Et; [|discriminate].
  injection E1 as <-.
  assert (F2 := structure_all_spec _ _ _ Es).
  destruct (@transform_new ts bodies (md_funcs m ++ hook_imports ai hs) bs s1) as (new & -> & F); [| | |exact Et|].
  - rewrite Ef. apply NoDup_filter, NDhs.
  - rewrite Ef. apply if_then_first_filter, IThs.
  - clear - F2. induction F2 as [|i b is bodies (ft & lo & body & ex & _ & S) F IH]; constructor; auto.
    destruct (structure_typed_located _ _ _ S) as (tys & _ & _ & ND). now apply br_tables_positions.
  - rewrite write_back_skipn.
    + rewrite <- app_assoc, skipn_app, skipn_all, Nat.sub_diag. simpl. apply Forall_app. split; [|exact F].
      unfold hook_imports. apply Forall_forall. intros f I. apply in_flat_map in I. destruct I as (h & _ & I).
      destruct (ai_hook ai h); [|destruct I]. destruct I as [<-|[]]. left. eexists. eexists. reflexivity.
    + intros i I. eapply Permutation_in in I; [|exact Perm]. apply filter_In in I. destruct I as [I _].
      unfold indices in I. apply in_seq in I. lia.
Qed.

(** The interface gives every function the type of its hook. *)
Definition typed_interface (ai : interface) : Prop :=
  (forall h e, ai_hook ai h = Some e -> wf_type e = hook_type h) /\
  (forall e b, ai_generic ai = Some (e, b) -> wf_type e = generic_type /\ wf_type b = FT [i32; i32] []).

Lemma gok_woven K Tb mem gl El nd infer m only H hf i f :
  (forall locals ret, ctx_le (mctx m locals ret) (cx K Tb mem gl El nd locals ret)) ->
  valid m -> annotates infer m -> hooks_in H K ->
  (forall locals body b p x, fn_code f = FPresent locals body -> selected m only i = true ->
     structure_typed i (infer i) body = COk b -> In (p, x) (br_tables b) -> H HkBrTable <> None ->
     nth_error K (hf i p) = Some br_helper_type) ->
  nth_error (md_funcs m) i = Some f -> gok K Tb mem gl El nd (woven_fn H hf infer m only i f).
Proof.
  intros LE V AN HK HH Ef. pose proof (va_funcs V) as VF. rewrite Forall_forall in VF.
  specialize (VF f (nth_error_In _ _ Ef)). unfold func_ok in VF.
  unfold gok, woven_fn, woven. cbn [fn_code fn_type].
  destruct (fn_code f) as [|locals body] eqn:Ec; [exact Logic.I|].
  destruct VF as (b & Eb & S).
  assert (Plain : exists b0, structure_untyped body = COk b0 /\
     seq_ok (cx K Tb mem gl El nd (ft_in (fn_type f) ++ locals) (ft_out (fn_type f))) b0 [] (rev (ft_out (fn_type f)))).
  { exists b. split; [exact Eb|]. eapply seq_ok_le; [exact S|apply LE]. }
  destruct (selected m only i) eqn:Sel; [|exact Plain].
  destruct (AN i f locals body Ef Ec) as (tys & tb & E1 & E2 & St & A). rewrite St.
  exists (map strip (weave H (hf i) tb)). split.
  - rewrite <- (structure_untyped_flatten (map strip _)). now rewrite flatten_strip.
  - assert (Es : map strip tb = b).
    { exact (@strip_typed i (infer i) body tys tb b E1 E2 St Eb). }
    rewrite <- Es in S. eapply weave_ok; [apply LE|exact HK| |exact S|exact A].
    intros p x I Hn. cbn. eapply HH; eauto.
Qed.

(** ** The output module *)
Lemma grows_types n fs fs' : grows n fs fs' -> exists l, map fn_type fs' = map fn_type fs ++ l.
Proof.
  intros (L & E & new & S & _). exists (map fn_type new).
  rewrite <- (firstn_skipn n fs'), <- (firstn_skipn n fs) at 1. rewrite S, !map_app, <- app_assoc. f_equal.
  apply (f_equal (map fst)) in E. rewrite !map_map in E. exact E.
Qed.

Section Output.
  Variables (ord_i ord_c : list nat -> list nat) (infer : nat -> list low -> option (list ity)).
  Variables (m : module) (ai : interface) (only : option (list nat)) (m' : module) (lib : option (list functy)).
  Hypothesis Pi : forall l, Permutation (ord_i l) l.
  Hypothesis Pc : forall l, Permutation (ord_c l) l.
  Hypothesis V : valid m.
  Hypothesis AN : annotates infer m.
  Hypothesis TI : typed_interface ai.
  Hypothesis E : instrument ord_i ord_c infer m ai only = IOk m' lib.

  Lemma output_context locals ret :
    ctx_le (mctx m locals ret) (mctx m' locals ret).
  Proof.
    destruct (@instrument_layout _ _ _ _ _ _ _ _ Pi Pc E) as (H & hf & aps & LY & Et & Ee & Em & Eg & Ed & _).
    destruct (ly_shape LY) as (olds & mid & Es & Lo & So & _).
    constructor; cbn; try reflexivity.
    - rewrite Es, map_app. replace (map fn_type olds) with (map fn_type (md_funcs m)); [apply extends_list_app|].
      apply (f_equal (map fst)) in So. rewrite !map_map in So. symmetry. exact So.
    - rewrite Et, map_app. apply extends_list_app.
    - now rewrite Em.
    - rewrite Eg. apply extends_list_refl.
    - rewrite Ee, map_app. apply extends_list_app.
    - now rewrite Ed.
  Qed.

  Lemma output_funcs : Forall (func_ok m') (md_funcs m').
  Proof.
    pose proof output_context as LE. revert E LE. unfold instrument.
    set (is_i := ord_i (filter (selected_incl m only) (indices m))) in *.
    set (is_c := ord_c (filter (selected m only) (indices m))) in *.
    destruct (structure_all infer m is_c) as [bodies| |] eqn:Es; try discriminate.
    match goal with |- match ?X with _ => _ end = _ -> _ => destruct X as [[[] fs1]|] eqn:E1; [|discriminate] end.
    destruct (@step1_spec _ infer m ai only is_c bodies fs1 all_hooks_NoDup all_hooks_if_then_first all_hooks_complete (Pc _) Es E1)
      as (H & hf & G & Hh & Hc & Hp & Hw).
    pose proof (@step1_new _ infer m ai only is_c bodies fs1 all_hooks_NoDup all_hooks_if_then_first (Pc _) Es E1) as New.
    set (n := List.length (md_funcs m)) in *.
    assert (F1 : forall Tb mem gl El nd K,
      (forall locals ret, ctx_le (mctx m locals ret) (cx K Tb mem gl El nd locals ret)) -> known K fs1 ->
      Forall (gok K Tb mem gl El nd) fs1).
    { intros Tb mem gl El nd K LE KN. apply Forall_forall. intros f I. apply In_nth_error in I. destruct I as (i & N).
      destruct (Nat.lt_ge_cases i n) as [Li|Li].
      - destruct (nth_error (md_funcs m) i) as [f0|] eqn:E0; [|apply nth_error_None in E0; unfold n in Li; lia].
        rewrite (Hw i f0 E0) in N. injection N as <-.
        apply gok_woven; auto.
        + intros h j Eh. specialize (Hh h). destruct (ai_hook ai h) as [e|] eqn:Ea; [|congruence].
          destruct Hh as (j' & Ej & Nj & _). assert (j' = j) by congruence. subst j'.
          apply (@known_at _ _ _ _ KN) in Nj. unfold typed_at in Nj. rewrite Nj. cbn. f_equal. now apply TI.
        + intros locals body b p x Ec Sel St Ib Hn. destruct (Hp i f0 locals body b p x E0 Ec Sel St Ib Hn) as [Nh _].
          exact (@known_at _ _ _ _ KN Nh).
      - assert (P : plain_new f).
        { rewrite Forall_forall in New. apply New. apply nth_error_In with (n := i - n).
          rewrite nth_error_skipn. now replace (n + (i - n)) with i by lia. }
        destruct P as [(ns & nm & Ec)|(x & ->)]; [unfold gok; now rewrite Ec|apply gok_helper]. }
    destruct (ai_generic ai) as [[gexp base]|] eqn:Eg.
    - destruct (function_application is_i gexp base (List.length (md_tables m)) fs1) as [[[aps sigs] fs2]|] eqn:Efa; [|discriminate].
      unfold inject_memory. destruct (Nat.leb_spec (List.length (md_mems m)) 1) as [Lm|]; [|discriminate].
      intros [= Em' _] LE.
      unfold function_application, se_bind, add_import, add_func, lift, se_ret in Efa.
      change (Fn (wf_type gexp) (FImport analysis_ns (wf_name gexp)) []) with (hook_import gexp) in Efa.
      set (sg := fs1 ++ [hook_import gexp]) in *.
      destruct (link_all is_i [] sg) as [[ls sl]|] eqn:Ell; [|discriminate].
      destruct (intercept_all ls (List.length fs1) 0 is_i sl) as [[aps' si]|] eqn:Eia; [|discriminate].
      destruct (Z.of_nat (List.length aps') <? 2 ^ 32)%Z; [|discriminate]. injection Efa as Ea Eb Ec. subst aps' sigs fs2.
      set (K := map fn_type (md_funcs m')).
      set (fs := (si ++ [call_base_fn base (List.length (md_tables m))]) ++ memory_helpers (Nat.eqb (List.length (md_mems m)) 1)) in *.
      assert (Ef : md_funcs m' = fs) by (now rewrite <- Em').
      destruct TI as [_ TG]. destruct (TG _ _ Eg) as [Tg Tb0].
      assert (Kfs : known K fs) by (unfold K, known; rewrite Ef; apply extends_list_refl).
      assert (Ksi : known K si).
      { eapply known_prefix; [|exact Kfs]. unfold fs. rewrite <- app_assoc. now rewrite map_app. }
      destruct (@intercept_all_types _ _ _ _ _ _ _ Eia) as (l1 & Ty1).
      assert (Ksl : known K sl) by (eapply known_prefix; eassumption).
      destruct (@link_all_spec is_i [] sg ls sl 0 (Nat.le_0_l _) (Forall_nil _) Ell) as ((newl & -> & _) & Lok & _).
      assert (Ksg : known K sg) by (eapply known_prefix; [|exact Ksl]; apply map_app).
      assert (K1 : known K fs1) by (eapply known_prefix; [|exact Ksg]; apply map_app).
      assert (Emem : Nat.eqb (List.length (md_mems m)) 1 = Nat.leb 1 (List.length (md_mems m'))).
      { rewrite <- Em'. cbn [md_mems]. destruct (List.length (md_mems m)) as [|[|k]]; try reflexivity. lia. }
      rewrite Ef. apply Forall_impl with
        (P := gok K (map tb_ref (md_tables m')) (Nat.leb 1 (List.length (md_mems m')))
                (map (fun g => (gl_type g, gl_mut g)) (md_globals m')) (map el_type (md_elems m')) (List.length (md_datas m'))).
      { intros f Hf. exact Hf. }
      unfold fs. apply Forall_app. split; [apply Forall_app; split|].
      + eapply gok_intercept_all; [exact Eia| | |exact Ksi|].
        * eapply Forall_impl; [|exact Lok]. intros x Hs. exact (@sh_typed K _ _ _ _ Ksl Hs).
        * unfold generic_type in Tg. assert (N : nth_error sg (List.length fs1) = Some (hook_import gexp)).
          { unfold sg. rewrite nth_error_app2, Nat.sub_diag by lia. reflexivity. }
          apply (@known_at _ _ _ _ Ksg) in N. cbn [hook_import fn_type] in N. rewrite Tg in N. exact N.
        * unfold sg. apply Forall_app. split; [apply Forall_app; split; [|repeat constructor]|].
          -- apply F1; [exact LE|exact K1].
          -- clear - Ell. revert Ell. unfold sg. generalize (fs1 ++ [hook_import gexp]) as s. intros s Ell.
             assert (Imp : forall is acc s ls s', link_all is acc s = Some (ls, s') ->
                exists new, s' = s ++ new /\ Forall (fun f => exists ns nm, fn_code f = FImport ns nm) new).
             { clear. induction is as [|i is IH]; intros acc s ls s' E.
               - injection E as <- <-. exists []. rewrite app_nil_r. auto.
               - cbn [link_all] in E. unfold se_bind, get_func in E. destruct (nth_error s i) as [f|]; [|discriminate].
                 destruct (find_link acc (fn_type f)); [now apply IH in E|].
                 destruct (link_signature_spec (fn_type f) s (le_n _)) as (sh & El & _). rewrite El in E.
                 apply IH in E. destruct E as (new & -> & F). eexists. split; [rewrite <- app_assoc; reflexivity|].
                 apply Forall_app. split; [|exact F]. apply Forall_forall. intros g I. apply in_map_iff in I.
                 destruct I as (o & <- & _). eexists. eexists. reflexivity. }
             destruct (Imp _ _ _ _ _ Ell) as (new & En & F). apply app_inv_head in En. subst newl.
             eapply Forall_impl; [|exact F]. intros f (ns & nm & Ec). unfold gok. now rewrite Ec.
      + constructor; [|constructor]. apply gok_call_base; [exact Tb0|].
        rewrite <- Em'. cbn [md_tables]. rewrite map_app, nth_error_app2, map_length, Nat.sub_diag by (rewrite map_length; lia). reflexivity.
      + rewrite Emem. apply gok_memory.
    - unfold inject_memory. destruct (Nat.leb_spec (List.length (md_mems m)) 1) as [Lm|]; [|discriminate].
      intros [= Em' _] LE.
      set (K := map fn_type (md_funcs m')).
      assert (Ef : md_funcs m' = fs1 ++ memory_helpers (Nat.eqb (List.length (md_mems m)) 1)) by (now rewrite <- Em').
      assert (Kfs : known K (md_funcs m')) by (apply extends_list_refl).
      assert (K1 : known K fs1) by (eapply known_prefix; [|exact Kfs]; rewrite Ef; apply map_app).
      assert (Emem : Nat.eqb (List.length (md_mems m)) 1 = Nat.leb 1 (List.length (md_mems m'))).
      { rewrite <- Em'. cbn [md_mems set_funcs]. destruct (List.length (md_mems m)) as [|[|k]]; try reflexivity. lia. }
      apply Forall_impl with
        (P := gok K (map tb_ref (md_tables m')) (Nat.leb 1 (List.length (md_mems m')))
                (map (fun g => (gl_type g, gl_mut g)) (md_globals m')) (map el_type (md_elems m')) (List.length (md_datas m'))).
      { intros f Hf. exact Hf. }
      rewrite Ef. apply Forall_app. split; [|rewrite Emem; apply gok_memory].
      apply F1; [exact LE|exact K1].
  Qed.
End Output.
