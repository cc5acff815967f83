(** The output module runs as the specification says (C07). *)
From Coq Require Import Permutation.
From Verif Require Import Semantics Advice WeaveSpec NestingSpec NestingProofs RunLemmas AdviceRel AdviceProofs InstrumentProofs.
Local Open Scope res_scope.

Lemma position_Some f l k : position f l = Some k -> nth_error l k = Some f.
Proof.
  revert k. induction l as [|x l IH]; intros k E; simpl in E; [discriminate|].
  destruct (Nat.eqb_spec f x) as [->|N]; [injection E as <-; reflexivity|].
  destruct (position f l) as [j|]; [|discriminate]. injection E as <-. simpl. auto.
Qed.
Lemma position_None f l : position f l = None -> ~ In f l.
Proof.
  induction l as [|x l IH]; intros E; [now intros []|]. simpl in E.
  destruct (Nat.eqb_spec f x) as [->|N]; [discriminate|].
  destruct (position f l); [discriminate|]. intros [->|I]; [congruence|]. now apply IH.
Qed.

(** Source bodies carry no generated instruction. *)
Lemma located_source b : (forall i, occurs i b -> m_gen (meta_of i) = false) -> source b.
Proof.
  induction b as [|m b r IHr|m ft b r IHb IHr|m ft b r IHb IHr|m ft t r IHt IHr|m ft t e r IHt IHe IHr] using tbody_ind;
    intros O; [exact I|..].
  - split; [apply (O (TBasic m b)); constructor|]. apply IHr. intros i Oi. apply O. now constructor.
  - split; [split|].
    + apply (O (TBlock m ft b)). constructor.
    + apply IHb. intros i Oi. apply O. now apply oc_block.
    + apply IHr. intros i Oi. apply O. now constructor.
  - split; [split|].
    + apply (O (TLoop m ft b)). constructor.
    + apply IHb. intros i Oi. apply O. now apply oc_loop.
    + apply IHr. intros i Oi. apply O. now constructor.
  - split; [split; [|split]|].
    + apply (O (TIf m ft t None)). constructor.
    + apply IHt. intros i Oi. apply O. now apply oc_then.
    + exact I.
    + apply IHr. intros i Oi. apply O. now constructor.
  - split; [split; [|split]|].
    + apply (O (TIf m ft t (Some e))). constructor.
    + apply IHt. intros i Oi. apply O. now apply oc_then.
    + apply IHe. intros i Oi. apply O. now apply oc_else.
    + apply IHr. intros i Oi. apply O. now constructor.
Qed.
Lemma structured_source f infer body b : structure_typed f infer body = COk b -> source b.
Proof.
  intros E. destruct (structure_typed_located _ _ _ E) as (tys & _ & O & _).
  apply located_source. intros i Oi. now destruct (O i Oi) as (_ & G & _).
Qed.

(** ** Exports *)
Lemma export_index_app a b n name :
  export_index n (a ++ b) name =
  match export_index n a name with Some i => Some i | None => export_index (n + List.length a) b name end.
Proof.
  revert n. induction a as [|f a IH]; intros n; simpl; [now rewrite Nat.add_0_r|].
  destruct (existsb (String.eqb name) (fn_exports f)); [reflexivity|].
  rewrite IH. now rewrite Nat.add_succ_r.
Qed.
Lemma export_index_sig a b n name : map sig_of a = map sig_of b -> export_index n a name = export_index n b name.
Proof.
  revert b n. induction a as [|f a IH]; intros [|g b] n E; try discriminate; [reflexivity|].
  simpl in E. injection E as E1 E2 E3. simpl. rewrite E2. destruct (existsb _ _); auto.
Qed.
Lemma export_index_unexported a n name : Forall unexported a -> export_index n a name = None.
Proof. revert n. induction a as [|f a IH]; intros n F; inversion F; subst; simpl; [reflexivity|]. rewrite H1. simpl. auto. Qed.
Lemma export_index_ge a n name i : export_index n a name = Some i -> n <= i /\ exists f, nth_error a (i - n) = Some f.
Proof.
  revert n. induction a as [|f a IH]; intros n; simpl; [discriminate|].
  destruct (existsb _ _).
  - intros E. injection E as <-. split; [lia|]. rewrite Nat.sub_diag. simpl. eauto.
  - intros E. destruct (IH _ E) as (L & g & G). split; [lia|]. exists g. replace (i - n) with (S (i - S n)) by lia. exact G.
Qed.
Lemma export_index_named {A} (g : string * A -> func) l n name : (forall x, fn_exports (g x) = [fst x]) ->
  match find (fun x => String.eqb name (fst x)) l with
  | Some x => exists k, export_index n (map g l) name = Some (n + k) /\ nth_error (map g l) k = Some (g x)
  | None => export_index n (map g l) name = None
  end.
Proof.
  intros E. revert n. induction l as [|x l IH]; intros n; [reflexivity|].
  simpl. rewrite E. simpl. rewrite orb_false_r. destruct (String.eqb name (fst x)).
  - exists 0. rewrite Nat.add_0_r. auto.
  - specialize (IH (S n)). destruct (find _ l) as [y|].
    + destruct IH as (k & A1 & A2). exists (S k). rewrite A1. split; [f_equal; lia|exact A2].
    + exact IH.
Qed.

(** ** The code around an intercepted function
    For any interpretation [C] of callees that agrees with the imports of the module. *)
Lemma vals_ok_length ts vs : vals_ok ts vs = true -> List.length vs = List.length ts.
Proof.
  unfold vals_ok. intros E. apply andb_true_iff in E. destruct E as [E _].
  apply (list_eqb_eq _ valty_eqb_eq) in E. rewrite <- E. now rewrite map_length.
Qed.

Ltac lib_call R rs s1 :=
  match type of R with AdviceRel.rel _ _ _ ?x _ => destruct x as [[rs s1]|s1| |] eqn:?; simpl in R;
    [rewrite R; cbn [rbind AdviceRel.er]|rewrite R; reflexivity|exact I|rewrite R; reflexivity] end.

Section Glue.
  Context {X : Type}.
  Notation store := (store X).
  Notation res := (res store).
  Variable num1 : unop -> Z -> option Z.
  Variable num2 : binop -> Z -> Z -> option Z.
  Variable ext : string -> string -> list val -> xprog X.
  Variable xts : list tblst.
  Variable xes : list (list (option nat)).
  Variable fs : list func.
  Variable nf : nat.
  Notation rel := (@rel X xts xes).
  Notation crel := (@crel X xts xes).
  Notation emb := (@emb X xts xes).
  Notation er := (@er X xts xes).
  Notation call_fn := (call_fn num1 num2 ext fs).
  Variable n : nat.
  Variable C : callee -> list val -> store -> res (list val * store).
  Hypothesis CI : forall ft ns name i, nth_error fs i = Some (Fn ft (FImport ns name) []) ->
    crel (C (CImport ft ns name)) (call_fn n i).
  Hypothesis CO : forall ft ns name args s rs s', C (CImport ft ns name) args s = Ok (rs, s') -> vals_ok (ft_out ft) rs = true.

  (** Loading slots. *)
  Lemma loads_step ft os idx buf st ls s r j :
    Forall2 (fun o i => op_at fs ft o i /\ nf <= i) os idx ->
    Forall (fun o => ft_in (libop_type ft o) = [t_i32]) os ->
    nth_error ls j = Some buf ->
    match load_all (lib C ft) os buf s with
    | Ok (vs, s') =>
        run num1 num2 (ftype_of fs) (call_fn n) n
          (flat_map (fun l => [UBasic (BLocal LGet j); UBasic (BCall l)]) idx ++ r) st ls (emb s)
        = run num1 num2 (ftype_of fs) (call_fn n) n r (pushn vs st) ls (emb s')
    | Trap s' =>
        run num1 num2 (ftype_of fs) (call_fn n) n
          (flat_map (fun l => [UBasic (BLocal LGet j); UBasic (BCall l)]) idx ++ r) st ls (emb s) = Trap (emb s')
    | Stuck => True
    | Oof =>
        run num1 num2 (ftype_of fs) (call_fn n) n
          (flat_map (fun l => [UBasic (BLocal LGet j); UBasic (BCall l)]) idx ++ r) st ls (emb s) = Oof
    end.
  Proof.
    intros F. revert st s. induction F as [|o i os idx [Oi _] F IHF]; intros st s Fi Ej.
    - reflexivity.
    - inversion Fi as [|? ? Fo Fi']; subst. cbn [load_all flat_map app].
      rewrite run_get with (v := buf) by exact Ej.
      change (buf :: st) with (pushn [buf] st).
      rewrite run_call with (ft := libop_type ft o);
        [|unfold ftype_of; now rewrite Oi|now rewrite Fo].
      pose proof (@CI (libop_type ft o) stack_ns (op_name ft o) i Oi [buf] s) as R.
      unfold lib at 1. destruct (C _ [buf] s) as [[v s1]|s1| |]; simpl in R.
      2: { rewrite R. reflexivity. } 2: exact I. 2: { rewrite R. reflexivity. }
      rewrite R. cbn [rbind er].
      specialize (IHF (pushn v st) s1 Fi' Ej).
      destruct (load_all (lib C ft) os buf s1) as [[vs s2]|s2| |]; cbn [rbind]; try exact IHF.
      rewrite IHF, pushn_app. reflexivity.
  Qed.

  Lemma side_ops_in ft s ts : Forall (fun o => ft_in (libop_type ft o) = [t_i32]) (side_ops (LLoad s) ts).
  Proof.
    unfold side_ops. apply Forall_forall. intros o Io. apply in_map_iff in Io. destruct Io as (k & <- & _).
    destruct s; reflexivity.
  Qed.

  Lemma one_result vs t : vals_ok [t] vs = true -> exists v, vs = [v].
  Proof. intros E. apply vals_ok_length in E. destruct vs as [|v [|]]; try discriminate. eauto. Qed.
  Lemma no_result vs : vals_ok [] vs = true -> vs = [].
  Proof. intros E. apply vals_ok_length in E. destruct vs; [reflexivity|discriminate]. Qed.

  Lemma load_all_length ft os p s vs s' : load_all (lib C ft) os p s = Ok (vs, s') ->
    Forall (fun o => exists t, ft_out (libop_type ft o) = [t]) os -> List.length vs = List.length os.
  Proof.
    revert s vs. induction os as [|o os IHo]; intros s0 vs E F; simpl in E.
    - injection E as <- <-. reflexivity.
    - inversion F as [|? ? (t & Fo) F']; subst. unfold lib at 1 in E.
      destruct (C _ [p] s0) as [[v s1]| | |] eqn:Ev; try discriminate. cbn [rbind] in E.
      destruct (load_all _ os p s1) as [[vs' s2]| | |] eqn:El; try discriminate. cbn [rbind] in E.
      injection E as <- <-. apply CO, vals_ok_length in Ev. rewrite Fo in Ev.
      rewrite app_length, Ev, (IHo _ _ El F'). reflexivity.
  Qed.
  Lemma load_all_ret ft p s vs s' :
    load_all (lib C ft) (side_ops (LLoad SRet) (ft_out ft)) p s = Ok (vs, s') ->
    List.length vs = List.length (ft_out ft).
  Proof.
    intros E. apply load_all_length in E.
    - rewrite E. unfold side_ops. now rewrite map_length, seq_length.
    - unfold side_ops. apply Forall_forall. intros o Io. apply in_map_iff in Io. destruct Io as (j & <- & Ij).
      apply in_seq in Ij. simpl. destruct (nth_error (ft_out ft) j) as [t|] eqn:Q; [eauto|].
      apply nth_error_None in Q. lia.
  Qed.
  Lemma load_all_arg ft p s vs s' :
    load_all (lib C ft) (side_ops (LLoad SArg) (ft_in ft)) p s = Ok (vs, s') ->
    List.length vs = List.length (ft_in ft).
  Proof.
    intros E. apply load_all_length in E.
    - rewrite E. unfold side_ops. now rewrite map_length, seq_length.
    - unfold side_ops. apply Forall_forall. intros o Io. apply in_map_iff in Io. destruct Io as (j & <- & Ij).
      apply in_seq in Ij. simpl. destruct (nth_error (ft_in ft) j) as [t|] eqn:Q; [eauto|].
      apply nth_error_None in Q. lia.
  Qed.

  Lemma run_cons_lget i : LBasic (BLocal LGet i) = lget i. Proof. reflexivity. Qed.

  Lemma wrapper_step sh fn w gi k f args s :
    sh_ok fs nf (fn_type fn) sh -> nth_error fs gi = Some (hook_import generic_apply) ->
    fn_type w = fn_type fn -> has_code w = has_code fn ->
    nth_error fs f = Some (wrapper_fn sh w gi k f) ->
    fits_args (fn_type fn) args = true ->
    rel er (intercepted_call C k f fn args s) (call_fn (S n) f args (emb s)).
  Proof.
    intros SH Eg Tw Cw Ew Fa. set (ft := fn_type fn) in *.
    cbn [Semantics.call_fn]. rewrite Ew. cbn [rget rbind wrapper_fn fn_type fn_code]. rewrite Tw.
    fold ft. unfold fits_args in Fa. rewrite Fa. apply Nat.eqb_eq in Fa.
    rewrite Cw. set (present := (if has_code fn then 0 else 1)%Z).
    set (p := List.length (ft_in ft)) in *.
    set (code := map (fun i => UBasic (BLocal LGet i)) (seq 0 p)
      ++ [UBasic (BCall (sh_alloc sh)); UBasic (BLocal LSet p); UBasic (BCall (sh_alloc_types sh)); UBasic (BLocal LSet (S p));
          UBasic (BConst TI32 (Z.of_nat k)); UBasic (BConst TI32 (Z.of_nat f)); UBasic (BConst TI32 (Z.of_nat p));
          UBasic (BConst TI32 (Z.of_nat (List.length (ft_out ft))));
          UBasic (BLocal LGet p); UBasic (BLocal LGet (S p)); UBasic (BConst TI32 present); UBasic (BCall gi)]
      ++ flat_map (fun l => [UBasic (BLocal LGet p); UBasic (BCall l)]) (sh_ret_load sh)
      ++ [UBasic (BLocal LGet p); UBasic (BCall (sh_free sh)); UBasic (BLocal LGet (S p)); UBasic (BCall (sh_free_types sh))]).
    assert (Ecode : structure_untyped (wrapper_body sh ft gi (Z.of_nat k) (Z.of_nat f) (Z.of_nat p) (Z.of_nat (List.length (ft_out ft))) present) = COk code).
    { rewrite <- (structure_untyped_flatten code). f_equal. unfold uflatten, code, wrapper_body. fold p.
      rewrite !uflat_app. rewrite <- !app_assoc. f_equal.
      { clear. generalize 0. induction p; intros a; [reflexivity|]. simpl. now rewrite IHp. }
      simpl. do 12 f_equal. f_equal.
      clear. induction (sh_ret_load sh) as [|l r IHr]; [reflexivity|]. simpl. now rewrite IHr. }
    rewrite Ecode. unfold invoke, code.
    assert (El : args ++ map default_val [t_i32; t_i32] = [] ++ args ++ [vi32 0; vi32 0]) by reflexivity.
    rewrite El. change (seq 0 p) with (seq (List.length (@nil val)) p). rewrite <- Fa, run_gets, Fa. simpl ([] ++ _).
    unfold intercepted_call. fold ft. fold p. fold present.
    (* allocate *)
    pose proof (ok_alloc SH) as [Oa _]. simpl ([_; _; _; _; _; _; _; _; _; _; _; _] ++ _).
    rewrite run_call with (ft := libop_type ft LAlloc); [|unfold ftype_of; now rewrite Oa|exact Fa].
    pose proof (@CI _ _ _ _ Oa args s) as R1. unfold lib at 1. lib_call R1 pv s1.
    destruct (one_result _ _ (@CO _ _ _ _ _ _ _ Heqr)) as (pt & ->). clear R1 Heqr.
    change (pushn [pt] []) with [pt].
    rewrite run_set with (w := vi32 0) by (rewrite nth_error_app2, Fa, Nat.sub_diag by lia; reflexivity).
    (* allocate types *)
    pose proof (ok_alloc_types SH) as [Ot _].
    match goal with |- context [run ?a ?b ?c ?d ?e (UBasic (BCall ?g) :: ?r) [] ?l ?t] =>
      change (run a b c d e (UBasic (BCall g) :: r) [] l t) with (run a b c d e (UBasic (BCall g) :: r) (pushn [] []) l t) end.
    rewrite run_call with (ft := libop_type ft LAllocTypes); [|unfold ftype_of; now rewrite Ot|reflexivity].
    pose proof (@CI _ _ _ _ Ot [] s1) as R1. unfold lib at 1. lib_call R1 tv s2.
    destruct (one_result _ _ (@CO _ _ _ _ _ _ _ Heqr)) as (tp & ->). clear R1 Heqr.
    assert (Es1 : set_nth p pt (args ++ [vi32 0; vi32 0]) = args ++ [pt; vi32 0]).
    { rewrite <- Fa. clear. induction args as [|a args IHa]; [reflexivity|]. simpl. now rewrite IHa. }
    rewrite Es1. change (pushn [tp] []) with [tp].
    rewrite run_set with (w := vi32 0) by (rewrite nth_error_app2 by lia; replace (S p - List.length args) with 1 by lia; reflexivity).
    assert (Es2 : set_nth (S p) tp (args ++ [pt; vi32 0]) = args ++ [pt; tp]).
    { rewrite <- Fa. clear. induction args as [|a args IHa]; [reflexivity|]. simpl in *. now rewrite IHa. }
    rewrite Es2. set (ls := args ++ [pt; tp]).
    assert (Gp : nth_error ls p = Some pt) by (unfold ls; rewrite nth_error_app2 by lia; now rewrite Fa, Nat.sub_diag).
    assert (Gt : nth_error ls (S p) = Some tp).
    { unfold ls. rewrite nth_error_app2 by lia. replace (S p - List.length args) with 1 by lia. reflexivity. }
    rewrite !run_const. rewrite run_get with (v := pt) by exact Gp. rewrite run_get with (v := tp) by exact Gt. rewrite run_const.
    (* the analysis *)
    match goal with |- context [run _ _ _ _ _ (UBasic (BCall gi) :: _) ?stk _ _] =>
      change stk with (pushn ([i32n k; i32n f; i32n p; i32n (List.length (ft_out ft)); pt; tp; vi32 present]) []) end.
    rewrite run_call with (ft := wf_type generic_apply); [|unfold ftype_of; now rewrite Eg|reflexivity].
    pose proof (@CI _ _ _ _ Eg [i32n k; i32n f; i32n p; i32n (List.length (ft_out ft)); pt; tp; vi32 present] s2) as R1.
    unfold analysis. simpl ([_; _; _; _] ++ _). lib_call R1 gv s3.
    pose proof (no_result _ (@CO _ _ _ _ _ _ _ Heqr)) as ->. clear R1 Heqr.
    change (pushn [] []) with (@nil val). simpl (rget (hd_error _)). cbn [rbind].
    (* results *)
    pose proof (@loads_step ft _ _ pt [] ls s3
      [UBasic (BLocal LGet p); UBasic (BCall (sh_free sh)); UBasic (BLocal LGet (S p)); UBasic (BCall (sh_free_types sh))]
      p (ok_ret_load SH) (side_ops_in _ _ _) Gp) as RL.
    destruct (load_all (lib C ft) (side_ops (LLoad SRet) (ft_out ft)) pt s3) as [[rs s4]|s4| |] eqn:ELoad;
      [rewrite RL; clear RL; cbn [rbind]|rewrite RL; reflexivity|exact I|rewrite RL; reflexivity].
    assert (Lrs : List.length rs = List.length (ft_out ft)) by (eapply load_all_ret; exact ELoad).
    rewrite run_get with (v := pt) by exact Gp.
    (* free *)
    pose proof (ok_free SH) as [Of _]. change (pt :: pushn rs []) with (pushn [pt] (pushn rs [])).
    rewrite run_call with (ft := libop_type ft LFree); [|unfold ftype_of; now rewrite Of|reflexivity].
    pose proof (@CI _ _ _ _ Of [pt] s4) as R1. unfold lib at 1. lib_call R1 v5 s5.
    pose proof (no_result _ (@CO _ _ _ _ _ _ _ Heqr)) as ->. clear R1 Heqr.
    change (pushn [] (pushn rs [])) with (pushn rs []).
    rewrite run_get with (v := tp) by exact Gt.
    pose proof (ok_free_types SH) as [Oft _]. change (tp :: pushn rs []) with (pushn [tp] (pushn rs [])).
    rewrite run_call with (ft := libop_type ft LFreeTypes); [|unfold ftype_of; now rewrite Oft|reflexivity].
    pose proof (@CI _ _ _ _ Oft [tp] s5) as R1. unfold lib at 1. lib_call R1 v6 s6.
    pose proof (no_result _ (@CO _ _ _ _ _ _ _ Heqr)) as ->. clear R1 Heqr.
    change (pushn [] (pushn rs [])) with (pushn rs []).
    unfold run. cbn [run_seq next rbind]. rewrite <- Lrs, popn_pushn. reflexivity.
  Qed.

  Lemma resume_step sh f fn base i buf s :
    crel (C (CBase f)) (call_fn n base) ->
    (forall args s rs s', C (CBase f) args s = Ok (rs, s') -> List.length rs = List.length (ft_out (fn_type fn))) ->
    ftype_of fs base = Some (fn_type fn) ->
    sh_ok fs nf (fn_type fn) sh -> nth_error fs i = Some (apply_fn sh base) ->
    rel er (resume C f fn buf s) (call_fn (S n) i [buf] (emb s)).
  Proof.
    intros Rb Lb Eb SH Ei. set (ft := fn_type fn) in *.
    cbn [Semantics.call_fn]. rewrite Ei. cbn [rget rbind apply_fn fn_type fn_code apply_type ft_in List.length Nat.eqb].
    set (code := UBasic (BLocal LGet 0) :: flat_map (fun l => [UBasic (BLocal LGet 0); UBasic (BCall l)]) (sh_arg_load sh)
      ++ [UBasic (BCall base); UBasic (BCall (sh_store_rets sh))]).
    match goal with |- context [structure_untyped ?b] => assert (Ecode : structure_untyped b = COk code) end.
    { rewrite <- (structure_untyped_flatten code). f_equal. unfold uflatten, code.
      cbn [uflat flat_map uflat1 app]. f_equal. fold uflat. change (flat_map uflat1) with uflat. rewrite uflat_app, <- app_assoc. f_equal.
      clear. induction (sh_arg_load sh) as [|l r IHr]; [reflexivity|]. simpl. now rewrite IHr. }
    rewrite Ecode. unfold invoke, code. cbn [map app default_val].
    set (ls := [buf; VNum TI32 0]).
    match goal with |- context [run _ _ _ _ _ _ [] ?l _] => change l with ls end.
    rewrite run_get with (v := buf) by reflexivity. unfold resume. fold ft.
    pose proof (@loads_step ft _ _ buf [buf] ls s [UBasic (BCall base); UBasic (BCall (sh_store_rets sh))]
      0 (ok_arg_load SH) (side_ops_in _ _ _) eq_refl) as RL.
    destruct (load_all (lib C ft) (side_ops (LLoad SArg) (ft_in ft)) buf s) as [[vs s1]|s1| |] eqn:ELoad;
      [rewrite RL; clear RL; cbn [rbind]|rewrite RL; reflexivity|exact I|rewrite RL; reflexivity].
    apply load_all_arg in ELoad.
    rewrite run_call with (ft := ft); [|exact Eb|exact ELoad].
    pose proof (Rb vs s1) as R1. lib_call R1 rs s2.
    assert (Lr : List.length rs = List.length (ft_out ft)) by (eapply Lb; exact Heqr). clear Heqr R1.
    change [buf] with (pushn [buf] []) at 1. rewrite <- pushn_app.
    pose proof (ok_store_rets SH) as [Os _].
    rewrite run_call with (ft := libop_type ft LStoreRets);
      [|unfold ftype_of; now rewrite Os|simpl; now rewrite Lr].
    pose proof (@CI _ _ _ _ Os ([buf] ++ rs) s2) as R1.
    unfold lib. change ([buf] ++ rs) with (buf :: rs) in R1 |- *. lib_call R1 v3 s3.
    pose proof (no_result _ (@CO _ _ _ _ _ _ _ Heqr)) as ->. clear R1 Heqr.
    reflexivity.
  Qed.

End Glue.

Section Main.
  Context {X : Type}.
  Notation store := (store X).
  Notation res := (res store).
  Variable num1 : unop -> Z -> option Z.
  Variable num2 : binop -> Z -> Z -> option Z.
  Variable ext : string -> string -> list val -> xprog X.
  Variable infer : nat -> list low -> option (list ity).
  Variable m : module.
  Variable on : hook -> bool.
  Variable generic : bool.
  Variable only : option (list nat).
  Variable is : list nat.
  Variable H : hook -> option nat.
  Variable hf : nat -> nat -> nat.
  Variable aps : list nat.
  Variable fs : list func.
  Hypothesis LY : layout infer m (std_ai on generic) only is H hf aps fs.
  Hypothesis Hgen : generic = false -> is = [].

  Definition apply_tab : tblst := TblSt FuncRef (Z.of_nat (List.length aps)) (map Some aps).
  Definition tabs : list tblst := if generic then [apply_tab] else [].
  Definition segs : list (list (option nat)) := if generic then [[]] else [].
  Notation rel := (@rel X tabs segs).
  Notation brel := (@brel X tabs segs).
  Notation crel := (@crel X tabs segs).
  Notation emb := (@emb X tabs segs).
  Notation ec := (@ec X tabs segs).
  Notation er := (@er X tabs segs).
  Notation spec := (spec num1 num2 ext infer m on generic only is).
  Notation call_fn := (call_fn num1 num2 ext fs).
  Notation nf := (List.length (md_funcs m)).

  Inductive rep : callee -> nat -> Prop :=
  | rep_fun f : rep (CFun f) f
  | rep_base f fn i : nth_error (md_funcs m) f = Some fn ->
      nth_error fs i = Some (copy_of (woven_fn H hf infer m only f fn)) -> rep (CBase f) i
  | rep_apply f fn sh base i : nth_error (md_funcs m) f = Some fn -> rep (CBase f) base ->
      nth_error fs base = Some (copy_of (woven_fn H hf infer m only f fn)) ->
      sh_ok fs nf (fn_type fn) sh -> nth_error fs i = Some (apply_fn sh base) -> rep (CApply f) i
  | rep_import ft ns name i : nth_error fs i = Some (Fn ft (FImport ns name) []) -> rep (CImport ft ns name) i
  | rep_call_base i : generic = true ->
      nth_error fs i = Some (call_base_fn call_base (List.length (md_tables m))) -> rep CCallBase i
  | rep_load x i : nth_error fs i = Some (load_helper (has_memory m) x) -> rep (CLoad (snd x)) i
  | rep_store x i : nth_error fs i = Some (store_helper (has_memory m) x) -> rep (CStore (snd x)) i
  | rep_grow i : nth_error fs i = Some (grow_helper (has_memory m)) -> rep CGrow i
  | rep_size i : nth_error fs i = Some (size_helper (has_memory m)) -> rep CSize i.

  Lemma old_fn f fn : nth_error (md_funcs m) f = Some fn ->
    exists fn', nth_error fs f = Some fn' /\ fn_type fn' = fn_type fn.
  Proof.
    intros E. destruct (ly_shape LY) as (olds & mid & -> & _ & S & _).
    assert (E' : nth_error (map sig_of olds) f = Some (sig_of fn)) by (rewrite S; now apply map_nth_error).
    rewrite nth_error_map in E'. destruct (nth_error olds f) as [fn'|] eqn:Q; [|discriminate].
    simpl in E'. exists fn'. split; [now apply nth_error_app_l|]. now injection E'.
  Qed.
  Lemma old_ftype f ft : ftype_of (md_funcs m) f = Some ft -> ftype_of fs f = Some ft.
  Proof.
    unfold ftype_of. destruct (nth_error (md_funcs m) f) as [fn|] eqn:E; [|discriminate].
    intros Q. injection Q as <-. destruct (old_fn _ E) as (fn' & -> & T). simpl. now rewrite T.
  Qed.

  Lemma export_rep name c : export_callee m generic name = Some c ->
    exists i, export_index 0 fs name = Some i /\ rep c i.
  Proof.
    unfold export_callee. destruct (ly_shape LY) as (olds & mid & Efs & Lo & S & U).
    rewrite Efs. rewrite export_index_app, (export_index_sig _ _ 0 name S).
    destruct (export_index 0 (md_funcs m) name) as [f|].
    { intros E. injection E as <-. exists f. split; [reflexivity|constructor]. }
    rewrite Nat.add_0_l, export_index_app, (export_index_unexported _ _ U).
    set (mh := memory_helpers (Nat.eqb (List.length (md_mems m)) 1)) in *.
    set (cb := match ai_generic (std_ai on generic) with Some (_, b) => [call_base_fn b (List.length (md_tables m))] | None => [] end) in *.
    assert (Nm : forall k g, nth_error mh k = Some g -> nth_error fs (List.length olds + List.length mid + List.length cb + k) = Some g).
    { intros k g Q. rewrite Efs. rewrite nth_error_app2 by lia. rewrite nth_error_app2 by lia. rewrite nth_error_app2 by lia.
      rewrite <- Q. f_equal. lia. }
    intros E. rewrite export_index_app.
    assert (Cb : cb = if generic then [call_base_fn call_base (List.length (md_tables m))] else []).
    { unfold cb, std_ai. simpl. destruct generic; reflexivity. }
    destruct (generic && String.eqb name "call_base") eqn:Eb.
    - injection E as <-. apply andb_true_iff in Eb. destruct Eb as [Eg En].
      rewrite Cb, Eg. simpl. rewrite En. simpl. eexists. split; [reflexivity|]. constructor; [exact Eg|].
      rewrite Efs, Cb, Eg. rewrite nth_error_app2 by lia. rewrite nth_error_app2 by lia.
      replace (List.length olds + List.length mid - List.length olds - List.length mid) with 0 by lia. reflexivity.
    - assert (N0 : forall n, export_index n cb name = None).
      { intros n. rewrite Cb. destruct generic; [|reflexivity]. simpl in Eb |- *. now rewrite Eb. }
      rewrite N0. set (n0 := List.length olds + List.length mid + List.length cb) in *.
      unfold mh, memory_helpers. unfold mh, memory_helpers in Nm. rewrite export_index_app.
      pose proof (@export_index_named _ (load_helper (has_memory m)) load_helpers n0 name (fun _ => eq_refl)) as PL.
      unfold named in E. unfold has_memory in PL at 1.
      destruct (find _ load_helpers) as [x|].
      + injection E as <-. destruct PL as (k & A1 & A2). fold (has_memory m) in A1 |- *. rewrite A1.
        eexists. split; [reflexivity|]. apply rep_load. apply Nm. now apply nth_error_app_l.
      + fold (has_memory m) in PL |- *. rewrite PL. cbn [option_map] in E. rewrite map_length.
        pose proof (@export_index_named _ (store_helper (has_memory m)) store_helpers (n0 + List.length load_helpers) name (fun _ => eq_refl)) as PS.
        rewrite export_index_app. destruct (find _ store_helpers) as [x|].
        * injection E as <-. destruct PS as (k & A1 & A2). rewrite A1. eexists. split; [reflexivity|].
          apply rep_store. rewrite <- Nat.add_assoc. apply Nm. rewrite nth_error_app2 by (rewrite map_length; lia).
          rewrite map_length, Nat.add_comm, Nat.add_sub. now apply nth_error_app_l.
        * rewrite PS. cbn [option_map] in E. rewrite map_length.
          cbn [export_index fn_exports grow_helper size_helper existsb]. rewrite !orb_false_r.
          destruct (String.eqb name grow_name).
          -- injection E as <-. eexists. split; [reflexivity|]. apply rep_grow.
             rewrite <- Nat.add_assoc. apply Nm. reflexivity.
          -- destruct (String.eqb name size_name); [|discriminate]. injection E as <-. eexists. split; [reflexivity|].
             apply rep_size. rewrite <- Nat.add_assoc, <- Nat.add_succ_r. apply Nm. reflexivity.
  Qed.

  Lemma spec_import n ft ns name args s rs s' : spec n (CImport ft ns name) args s = Ok (rs, s') ->
    vals_ok (ft_out ft) rs = true.
  Proof.
    destruct n as [|n]; [discriminate|]. cbn [Advice.spec level]. destruct (fits_args ft args); [|discriminate].
    unfold call_import. destruct (run_x _ _ _) as [[rs' s'']|s''| |]; try discriminate. cbn [rbind].
    destruct (vals_ok (ft_out ft) rs') eqn:E; [|discriminate]. intros Q. injection Q as <- <-. exact E.
  Qed.
  (** ** One level *)
  Section Step.
    Variable n : nat.
    Hypothesis IH : forall c i, rep c i -> crel (spec n c) (call_fn n i).

    Lemma reenter_rel name : crel (reenter m generic (spec n) name)
      (fun args s => let* g := rget (export_index 0 fs name) in call_fn n g args s).
    Proof.
      intros args s. unfold reenter. destruct (export_callee m generic name) as [c|] eqn:E; [|exact I].
      destruct (export_rep _ E) as (i & -> & R). simpl. now apply IH.
    Qed.
    Lemma import_step ft ns name i : nth_error fs i = Some (Fn ft (FImport ns name) []) ->
      crel (spec n (CImport ft ns name)) (call_fn n i).
    Proof. intros E. apply IH. now constructor. Qed.

    Lemma own_step f fn i fn' args s :
      nth_error (md_funcs m) f = Some fn -> nth_error fs i = Some fn' ->
      fn_type fn' = fn_type fn -> fn_code fn' = woven H hf infer m only f fn ->
      fits_args (fn_type fn) args = true ->
      rel er (own num1 num2 ext infer m on generic only n (spec n) f fn args s) (call_fn (S n) i args (emb s)).
    Proof.
      intros Ef Ei Et Ec Fa. cbn [Semantics.call_fn]. rewrite Ei. cbn [rget rbind]. rewrite Et, Ec.
      unfold fits_args in Fa. rewrite Fa. unfold own, woven.
      destruct (fn_code fn) as [ns name|locals body] eqn:Ecode.
      - apply rel_call_import. exact reenter_rel.
      - destruct (selected m only f) eqn:Es.
        + destruct (ly_converted LY _ Ef Ecode Es) as (b & Eb). rewrite Eb.
          replace (structure_untyped (flatten (weave H (hf f) b))) with (COk (map strip (weave H (hf f) b)))
            by (rewrite <- flatten_strip; now rewrite structure_untyped_flatten).
          apply rel_invoke.
          apply rel_advised.
          * exact old_ftype.
          * intros g. apply IH. constructor.
          * intros h Eh. generalize (ly_hooks LY h). unfold std_ai. simpl. now rewrite Eh.
          * intros h Eh. generalize (ly_hooks LY h). unfold std_ai. simpl. rewrite Eh.
            intros (j & Ej & Nj). exists j. split; [exact Ej|]. split; [unfold ftype_of; now rewrite Nj|].
            now apply import_step.
          * exact (structured_source _ _ _ Eb).
          * intros Eon p t d Ib.
            assert (Hh : H HkBrTable <> None).
            { generalize (ly_hooks LY HkBrTable). unfold std_ai. simpl. rewrite Eon. intros (j & Ej & _). congruence. }
            pose proof (ly_helpers LY _ _ _ Ef Ecode Es Eb Ib Hh) as Nh.
            split; [unfold ftype_of; now rewrite Nh|].
            intros z s0 Hz. destruct n as [|n']; [reflexivity|]. now apply br_helper_call with p.
        + destruct (structure_untyped body) as [b| |]; try exact I.
          apply rel_invoke. apply rel_run; [exact old_ftype|]. intros g. apply IH. constructor.
    Qed.

    Lemma invoke_length B ft locals args s rs s' :
      @invoke X B ft locals args s = Ok (rs, s') -> List.length rs = List.length (ft_out ft).
    Proof.
      unfold invoke. destruct (B _ _ _) as [[[[o st] ls] s1]| | |]; try discriminate. cbn [rbind].
      destruct (popn _ st) as [[rs' rest]|] eqn:P; [|discriminate]. cbn [rget rbind].
      apply popn_Some in P. destruct P as [P _].
      destruct o as [|[|]|]; try (destruct rest); try discriminate; intros Q; injection Q as <- <-; exact P.
    Qed.
    Lemma own_length k f fn args s rs s' :
      own num1 num2 ext infer m on generic only k (spec k) f fn args s = Ok (rs, s') ->
      List.length rs = List.length (ft_out (fn_type fn)).
    Proof.
      unfold own. destruct (fn_code fn) as [ns nm|locals body].
      - unfold call_import. destruct (run_x _ _ _) as [[rs' s'']| | |]; try discriminate. cbn [rbind].
        destruct (vals_ok _ rs') eqn:V; [|discriminate]. intros Q. injection Q as <- <-. now apply vals_ok_length.
      - destruct (selected m only f).
        + destruct (structure_typed _ _ _); try discriminate. apply invoke_length.
        + destruct (structure_untyped _); try discriminate. apply invoke_length.
    Qed.
    Lemma base_length k f fn args s rs s' : nth_error (md_funcs m) f = Some fn ->
      spec k (CBase f) args s = Ok (rs, s') -> List.length rs = List.length (ft_out (fn_type fn)).
    Proof.
      intros Ef. destruct k as [|k]; [discriminate|]. cbn [Advice.spec level]. rewrite Ef. cbn [rget rbind].
      destruct (fits_args _ _); [|discriminate]. apply own_length.
    Qed.

    Lemma apply_nil k f args s rs s' : spec k (CApply f) args s = Ok (rs, s') -> rs = [].
    Proof.
      destruct k as [|k]; [discriminate|]. cbn [Advice.spec level].
      destruct (nth_error _ f) as [fn|]; [|discriminate]. cbn [rget rbind]. destruct args as [|buf [|]]; try discriminate.
      unfold resume. destruct (load_all _ _ _ _) as [[vs s1]| | |]; try discriminate. cbn [rbind].
      destruct (spec k _ _ _) as [[vs' s2]| | |]; try discriminate. cbn [rbind].
      unfold lib. destruct (spec k _ _ _) as [[vs'' s3]| | |]; try discriminate. cbn [rbind]. congruence.
    Qed.
    Lemma call_base_step i args s : generic = true ->
      nth_error fs i = Some (call_base_fn call_base (List.length (md_tables m))) ->
      (forall k f, nth_error is k = Some f -> exists ap, nth_error aps k = Some ap /\ rep (CApply f) ap /\ ftype_of fs ap = Some apply_type) ->
      rel er (level num1 num2 ext infer m on generic only is n (spec n) CCallBase args s) (call_fn (S n) i args (emb s)).
    Proof.
      intros G Ei Aps. cbn [level]. destruct args as [|[[]|] [|buf [|]]]; try exact I.
      destruct (Nat.eqb_spec (List.length (st_tables s)) (List.length (md_tables m))) as [L|]; [|exact I].
      cbn [Semantics.call_fn]. rewrite Ei. cbn [rget rbind call_base_fn fn_type fn_code wf_type wf_args wf_results call_base ft_in ft_out map List.length Nat.eqb].
      change (structure_untyped _) with (COk (map UBasic [BLocal LGet 1; BLocal LGet 0; BCallIndirect apply_type (List.length (md_tables m))])).
      unfold invoke. cbn [map app].
      rewrite run_get with (v := buf) by reflexivity. rewrite run_get with (v := VNum TI32 z) by reflexivity.
      assert (Et : nth_error (st_tables (emb s)) (List.length (md_tables m)) = Some apply_tab).
      { cbn [AdviceRel.emb st_tables]. rewrite <- L, nth_error_app2, Nat.sub_diag by lia. unfold tabs. now rewrite G. }
      unfold run. cbn [run_seq run1 exec pop_i32 rbind]. rewrite Et. cbn [rget rbind apply_tab ts_elems].
      rewrite nth_error_map. destruct (nth_error is (Z.to_nat z)) as [f|] eqn:Ef.
      - destruct (Aps _ _ Ef) as (ap & -> & Rf & Tf). cbn [option_map rget rbind]. rewrite Tf. cbn [rget rbind].
        rewrite (proj2 (functy_eqb_eq _ _) eq_refl). unfold do_call.
        change (popn _ [buf]) with (Some ([buf], @nil val)). cbn [rget rbind].
        pose proof (IH Rf [buf] s) as R1. lib_call R1 rs s1.
        rewrite (apply_nil _ _ _ _ Heqr). reflexivity.
      - assert (nth_error aps (Z.to_nat z) = None) as ->.
        { apply nth_error_None. rewrite (ly_aps LY). now apply nth_error_None. }
        reflexivity.
    Qed.
    
    Lemma load_step x i args s : nth_error fs i = Some (load_helper (has_memory m) x) ->
      rel er (level num1 num2 ext infer m on generic only is n (spec n) (CLoad (snd x)) args s) (call_fn (S n) i args (emb s)).
    Proof.
      intros Ei. cbn [level]. destruct args as [|[[]|] [|[[]|] [|]]]; try exact I.
      cbn [Semantics.call_fn]. rewrite Ei. destruct x as [nm o]. cbn [snd rget rbind load_helper fn_type fn_code ft_in List.length Nat.eqb].
      assert (Ety : load_helper_ty o = loadop_ty o) by (destruct o; reflexivity). rewrite Ety.
      assert (Ema : ma_offset (load_memarg o) = 0%Z) by reflexivity.
      destruct (has_memory m).
      - change (structure_untyped _) with (COk [UBasic (BLocal LGet 0); UBasic (BLocal LGet 1); UBasic (BBinary I32Add); UBasic (BLoad o (load_memarg o))]).
        unfold invoke, run. cbn [run_seq run1 exec nth_error app map rget rbind next andthen binop_in binop_sem numty_eqb binop_out pop_i32 andb].
        rewrite Ema, Z.add_0_r. cbn [AdviceRel.emb st_mem].
        destruct (st_mem s) as [me|]; [|exact I]. cbn [rget rbind].
        destruct (mem_load me o _) as [w|]; reflexivity.
      - reflexivity.
    Qed.
    Lemma store_step x i args s : nth_error fs i = Some (store_helper (has_memory m) x) ->
      rel er (level num1 num2 ext infer m on generic only is n (spec n) (CStore (snd x)) args s) (call_fn (S n) i args (emb s)).
    Proof.
      intros Ei. cbn [level]. destruct args as [|[[]|] [|[t z|] [|[[]|] [|]]]]; try exact I.
      destruct x as [nm o]. cbn [snd]. destruct (numty_eqb t (storeop_ty o)) eqn:Et; [|exact I].
      cbn [Semantics.call_fn]. rewrite Ei. cbn [snd rget rbind store_helper fn_type fn_code ft_in List.length Nat.eqb].
      assert (Ema : ma_offset (store_memarg o) = 0%Z) by reflexivity.
      destruct (has_memory m).
      - change (structure_untyped _) with (COk [UBasic (BLocal LGet 0); UBasic (BLocal LGet 2); UBasic (BBinary I32Add); UBasic (BLocal LGet 1); UBasic (BStore o (store_memarg o))]).
        unfold invoke, run. cbn [run_seq run1 exec nth_error app map rget rbind next andthen binop_in binop_sem numty_eqb binop_out pop_i32 andb].
        rewrite Et. cbn [rbind]. rewrite Ema, Z.add_0_r. cbn [AdviceRel.emb st_mem].
        destruct (st_mem s) as [me|]; [|exact I]. cbn [rget rbind].
        destruct (mem_store me o _ _) as [w|]; reflexivity.
      - reflexivity.
    Qed.
    Lemma grow_step i args s : nth_error fs i = Some (grow_helper (has_memory m)) ->
      rel er (level num1 num2 ext infer m on generic only is n (spec n) CGrow args s) (call_fn (S n) i args (emb s)).
    Proof.
      intros Ei. cbn [level]. destruct args as [|[[]|] [|v [|]]]; try exact I.
      cbn [Semantics.call_fn]. rewrite Ei. cbn [snd rget rbind grow_helper fn_type fn_code ft_in List.length Nat.eqb].
      destruct (has_memory m).
      - change (structure_untyped _) with (COk [UBasic (BLocal LGet 0); UBasic (BMemoryGrow 0)]).
        unfold invoke, run. cbn [run_seq run1 exec nth_error app map rget rbind next andthen pop_i32].
        cbn [AdviceRel.emb st_mem]. destruct (st_mem s) as [me|]; [|exact I]. cbn [rget rbind].
        destruct (mem_grow me z) as [w me']; reflexivity.
      - reflexivity.
    Qed.
    Lemma size_step i args s : nth_error fs i = Some (size_helper (has_memory m)) ->
      rel er (level num1 num2 ext infer m on generic only is n (spec n) CSize args s) (call_fn (S n) i args (emb s)).
    Proof.
      intros Ei. cbn [level]. destruct args as [|v [|]]; try exact I.
      cbn [Semantics.call_fn]. rewrite Ei. cbn [snd rget rbind size_helper fn_type fn_code ft_in List.length Nat.eqb].
      destruct (has_memory m).
      - change (structure_untyped _) with (COk [UBasic (BMemorySize 0)]).
        unfold invoke, run. cbn [run_seq run1 exec nth_error app map rget rbind next andthen pop_i32].
        cbn [AdviceRel.emb st_mem]. destruct (st_mem s) as [me|]; [|exact I]. reflexivity.
      - reflexivity.
    Qed.
  End Step.

  Lemma wrapped k f : nth_error is k = Some f ->
    exists fn sh gi base ap, nth_error (md_funcs m) f = Some fn /\ generic = true /\
      sh_ok fs nf (fn_type fn) sh /\ nth_error fs gi = Some (hook_import generic_apply) /\
      nth_error fs f = Some (wrapper_fn sh (woven_fn H hf infer m only f fn) gi k f) /\
      nth_error fs base = Some (copy_of (woven_fn H hf infer m only f fn)) /\
      nth_error aps k = Some ap /\ nth_error fs ap = Some (apply_fn sh base).
  Proof.
    intros E. destruct (ly_wrapped LY _ E) as (fn & ap & gexp & b & gi & ls & Ef & Eg & Ea & Egi & Lk & sh & base & F & W & B & _ & A & _).
    assert (G : generic = true) by (destruct generic; [reflexivity|]; rewrite (Hgen eq_refl) in E; destruct k; discriminate).
    unfold std_ai in Eg. simpl in Eg. rewrite G in Eg. injection Eg as <- <-.
    assert (SH : sh_ok fs nf (fn_type fn) sh).
    { apply find_link_In in F. unfold links_ok in Lk. rewrite Forall_forall in Lk. exact (Lk _ F). }
    exists fn, sh, gi, base, ap. auto 10.
  Qed.

  Theorem spec_runs n c i : rep c i -> crel (spec n c) (call_fn n i).
  Proof.
    revert c i. induction n as [|n IH]; intros c i R args s; [reflexivity|].
    cbn [Advice.spec].
    destruct R as [f|f fn i Ef Ei|f fn sh base i Ef Rb Eb SH Ei|ft ns name i Ei|i G Ei|x i Ei|x i Ei|i Ei|i Ei].
    - cbn [level]. destruct (nth_error (md_funcs m) f) as [fn|] eqn:Ef; [|exact I]. cbn [rget rbind].
      destruct (fits_args (fn_type fn) args) eqn:Fa; [|exact I].
      destruct (position f is) as [k|] eqn:P.
      + apply position_Some in P. destruct (wrapped _ P) as (fn' & sh & gi & base & ap & Ef' & G & SH & Eg & W & _).
        rewrite Ef in Ef'. injection Ef' as <-.
        eapply wrapper_step with (nf := nf); try eassumption; [exact (@import_step n IH)|exact (@spec_import n)|reflexivity|].
        unfold has_code, woven_fn, woven. simpl. destruct (fn_code fn); [reflexivity|].
        destruct (selected m only f); [|reflexivity]. destruct (structure_typed _ _ _); reflexivity.
      + apply position_None in P. pose proof (ly_plain LY _ Ef P) as W.
        eapply own_step; try eassumption; reflexivity.
    - cbn [level]. rewrite Ef. cbn [rget rbind]. destruct (fits_args (fn_type fn) args) eqn:Fa; [|exact I].
      eapply own_step; try eassumption; reflexivity.
    - cbn [level]. rewrite Ef. cbn [rget rbind]. destruct args as [|buf [|]]; try exact I.
      eapply resume_step with (nf := nf); try eassumption; [exact (@import_step n IH)|exact (@spec_import n)|exact (IH _ _ Rb)| |].
      + intros args s1 rs s2. now apply base_length.
      + unfold ftype_of. now rewrite Eb.
    - cbn [level]. destruct (fits_args ft args) eqn:Fa; [|exact I]. cbn [Semantics.call_fn]. rewrite Ei.
      cbn [rget rbind fn_type fn_code]. unfold fits_args in Fa. rewrite Fa.
      apply rel_call_import. now apply reenter_rel.
    - apply call_base_step; try assumption. intros k f E.
      destruct (wrapped _ E) as (fn & sh & gi & base & ap & Ef & _ & SH & Eg & W & B & A & Ap).
      exists ap. split; [exact A|]. split; [|unfold ftype_of; now rewrite Ap].
      eapply rep_apply; try eassumption. eapply rep_base; eassumption.
    - now apply load_step.
    - now apply store_step.
    - now apply grow_step.
    - now apply size_step.
  Qed.
End Main.

(** ** The output of [instrument] *)
Theorem instrument_runs {X} num1 num2 (ext : string -> string -> list val -> xprog X)
    ord_i ord_c infer m on generic only m' lib :
  (forall l, Permutation (ord_i l) l) -> (forall l, Permutation (ord_c l) l) ->
  instrument ord_i ord_c infer m (std_ai on generic) only = IOk m' lib ->
  exists aps, let is := if generic then ord_i (filter (selected_incl m only) (indices m)) else [] in
  List.length aps = List.length is /\
  md_tables m' = md_tables m ++ (if generic then [apply_table aps] else []) /\
  md_elems m' = md_elems m ++ (if generic then [apply_elem aps (List.length (md_tables m))] else []) /\
  forall n f args s,
    rel (tabs generic aps) (segs generic) (@er X (tabs generic aps) (segs generic))
      (spec num1 num2 ext infer m on generic only is n (CFun f) args s)
      (call_fn num1 num2 ext (md_funcs m') n f args (emb (tabs generic aps) (segs generic) s)).
Proof.
  intros Pi Pc E.
  destruct (@instrument_layout _ _ _ _ _ _ _ _ Pi Pc E) as (H & hf & aps & LY & Et & Ee & _).
  exists aps. simpl. unfold std_ai in LY, Et, Ee. simpl in LY, Et, Ee.
  split; [|split; [|split]].
  - pose proof (ly_aps LY) as A. destruct generic; exact A.
  - rewrite Et. destruct generic; reflexivity.
  - rewrite Ee. destruct generic; reflexivity.
  - intros n f args s.
    assert (LY' : layout infer m (std_ai on generic) only
                    (if generic then ord_i (filter (selected_incl m only) (indices m)) else []) H hf aps (md_funcs m')).
    { destruct generic; exact LY. }
    eapply spec_runs; [exact LY'| |constructor]. intros ->. reflexivity.
Qed.
