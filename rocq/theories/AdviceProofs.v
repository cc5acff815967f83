(** The woven code runs as the advised semantics says (towards C07). *)
From Verif Require Import Semantics Advice WeaveSpec NestingSpec RunLemmas AdviceRel.
Local Open Scope res_scope.

Section Weaving.
  Context {X : Type}.
  Notation store := (store X).
  Notation res := (res store).
  Variable tabs : list tblst.
  Variable segs : list (list (option nat)).
  Notation rel := (@rel X tabs segs).
  Notation brel := (@brel X tabs segs).
  Notation crel := (@crel X tabs segs).
  Notation emb := (@emb X tabs segs).
  Notation ec := (@ec X tabs segs).
  Notation er := (@er X tabs segs).
  Variable num1 : unop -> Z -> option Z.
  Variable num2 : binop -> Z -> Z -> option Z.
  Variables ftype ftype' : nat -> option functy.
  Variables call call' : nat -> list val -> store -> res (list val * store).
  Variable on : hook -> bool.
  Variable hook_call : hook -> list val -> store -> res (list val * store).
  Variable fuel : nat.
  Variable H : hook -> option nat.
  Variable hf : nat -> nat.
  Hypothesis Hft : forall f ft, ftype f = Some ft -> ftype' f = Some ft.
  Hypothesis Hcall : forall f, crel (call f) (call' f).
  Hypothesis Hoff : forall h, on h = false -> H h = None.
  Hypothesis Hon : forall h, on h = true -> exists i, H h = Some i /\
    ftype' i = Some (wf_type (std_hook h)) /\ crel (hook_call h) (call' i).

  Notation run1' := (run1 num1 num2 ftype' call' fuel).
  Notation run' := (run num1 num2 ftype' call' fuel).
  Notation advise := (advise num1 num2 on ftype call hook_call fuel).
  Notation advised := (advised num1 num2 on ftype call hook_call fuel).
  Notation consult := (consult on hook_call).

  Definition cval (c : numty * Z) : val := VNum (fst c) (snd c).
  Definition cins (c : numty * Z) : basic := BConst (fst c) (snd c).

  Lemma run_consts' cs r st ls s :
    run' (map UBasic (map cins cs) ++ r) st ls s = run' r (pushn (map cval cs) st) ls s.
  Proof. rewrite <- run_consts. now rewrite map_map. Qed.

  Lemma rel_consult h k cs m : List.length (trap_args h) = k + List.length cs + 2 ->
    brel (consult h k (map cval cs) m) (run' (map strip (point H h m (map cins cs)))).
  Proof.
    intros L st ls s. unfold Advice.consult, point. destruct (on h) eqn:E; [|rewrite (Hoff E); reflexivity].
    destruct (Hon E) as (i & Ei & Fi & Ci). rewrite Ei.
    destruct (popn k st) as [[ops st']|] eqn:Ep; [|exact I]. simpl (rget _). cbn [rbind].
    apply popn_Some in Ep. destruct Ep as [Lo ->].
    rewrite map_map, map_app.
    change (map (fun x => strip (synth m x)) (map cins cs)) with (map UBasic (map cins cs)). simpl (map _ [_; _; _]).
    rewrite run_consts', !run_const.
    set (args := ops ++ map cval cs ++ loc m).
    assert (Ea : vi64 (Z.of_nat (m_pos m)) :: vi64 (Z.of_nat (m_fun m)) :: pushn (map cval cs) (pushn ops st') = pushn args st').
    { unfold args, loc. rewrite !pushn_app. reflexivity. }
    unfold vi64 in Ea. rewrite Ea.
    rewrite run_call with (ft := wf_type (std_hook h)).
    - eapply rel_bind; [apply Ci|]. intros [rs s'] _. reflexivity.
    - exact Fi.
    - unfold args, wf_type, std_hook, loc. simpl. rewrite !app_length, !map_length. simpl. lia.
  Qed.

  Lemma run_one b st ls s : run' [UBasic b] st ls s = exec num1 num2 ftype' call' b st ls s.
  Proof. exact (run_seq_one run1' (UBasic b) st ls s). Qed.
  Lemma run_single i st ls s : run' [i] st ls s = run1' i st ls s.
  Proof. exact (run_seq_one run1' i st ls s). Qed.
  Lemma rel_one b : brel (exec num1 num2 ftype call b) (run' [UBasic b]).
  Proof. intros st ls s. rewrite run_one. now apply rel_exec. Qed.

  Lemma rel_before h k cs m b : List.length (trap_args h) = k + List.length cs + 2 ->
    brel (before num1 num2 on ftype call hook_call h k (map cval cs) m b)
         (run' (map strip (point H h m (map cins cs) ++ [TBasic m b]))).
  Proof.
    intros L st ls s. rewrite map_app, run_app. unfold before.
    apply rel_andthen; [now apply rel_consult|]. apply rel_one.
  Qed.
  Lemma rel_after h k cs m b : List.length (trap_args h) = k + List.length cs + 2 ->
    brel (after num1 num2 on ftype call hook_call h k (map cval cs) m b)
         (run' (map strip ([TBasic m b] ++ point H h m (map cins cs)))).
  Proof.
    intros L st ls s. rewrite map_app, run_app. unfold after.
    apply rel_andthen; [apply rel_one|]. now apply rel_consult.
  Qed.
  Lemma rel_instead h k cs m b : List.length (trap_args h) = k + List.length cs + 2 ->
    brel (instead_of num1 num2 on ftype call hook_call h k (map cval cs) m b)
         (run' (map strip (instead H h m (map cins cs) [TBasic m b]))).
  Proof.
    intros L st ls s. unfold instead_of, instead. destruct (on h) eqn:E.
    - destruct (Hon E) as (i & Ei & _). rewrite Ei. now apply rel_consult.
    - rewrite (Hoff E). apply rel_one.
  Qed.

  (** The helper functions of the body's branch tables. *)
  Definition helpers_ok (bts : list (nat * (list nat * nat))) : Prop :=
    on HkBrTable = true -> forall p t d, In (p, (t, d)) bts ->
    ftype' (hf p) = Some br_helper_type /\
    forall i s, (0 <= i)%Z -> call' (hf p) [vi32 i] s =
      match fuel with O => Oof | S _ => Ok ([vi32 i; i32n (nth (Z.to_nat i) t d)], s) end.

  Lemma annotated_true m ft : annotated m ft = true -> m_ty m = IReach ft.
  Proof.
    unfold annotated. destruct (m_ty m) as [ft'|]; [|discriminate]. intros E. apply functy_eqb_eq in E. congruence.
  Qed.

  Lemma rel_advise m b : m_gen m = false -> helpers_ok (br_tables1 (TBasic m b)) ->
    brel (advise m b) (run' (map strip (weave_basic H hf m b))).
  Proof.
    intros G HB. unfold weave_basic. rewrite G.
    destruct b; cbn [Advice.advise]; try apply rel_one.
    - apply (rel_before HkBr 0 [(TI64, Z.of_nat l)]). reflexivity.
    - apply (rel_before HkBrIf 1 [(TI32, Z.of_nat l)]). reflexivity.
    - (* br_table *)
      intros st ls s. unfold Advice.advise. destruct (on HkBrTable) eqn:E.
      + destruct (Hon E) as (i & Ei & Fi & Ci). destruct (HB E (m_pos m) table dflt) as [Fh Ch].
        { simpl. rewrite G. now left. }
        unfold point. rewrite Ei. simpl map.
        destruct st as [|[[]|] st]; try exact I. simpl (rbind (pop_i32 _) _).
        destruct (Z.ltb_spec z 0); [exact I|].
        change (VNum TI32 z :: st) with (pushn [vi32 z] st).
        rewrite run_call with (ft := br_helper_type) by (exact Fh || reflexivity).
        rewrite Ch by assumption. destruct fuel as [|fl] eqn:Ef; [reflexivity|]. rewrite <- Ef in *. cbn [rbind].
        unfold i32c. rewrite !run_const.
        set (args := [vi32 z; i32n (nth (Z.to_nat z) table dflt); i32n dflt] ++ loc m).
        match goal with |- rel _ _ (run' _ ?stk _ _) => change stk with (pushn args st) end.
        rewrite run_call with (ft := wf_type (std_hook HkBrTable)) by (exact Fi || reflexivity).
        eapply rel_bind; [apply Ci|]. intros [rs s'] _. exact (rel_one (BBrTable table dflt) _ _ _).
      + unfold point. rewrite (Hoff E). apply rel_one.
    - apply (rel_before HkReturn 0 []). reflexivity.
    - intros st ls s. rewrite app_assoc, map_app, run_app. apply rel_andthen.
      + apply (rel_before HkCallPre 0 [(TI32, Z.of_nat f)]). reflexivity.
      + apply (rel_consult HkCallPost 0 [(TI32, Z.of_nat f)]). reflexivity.
    - intros st ls s. rewrite app_assoc, map_app, run_app. apply rel_andthen.
      + apply (rel_before HkCallIndPre 1 [(TI32, Z.of_nat tbl)]). reflexivity.
      + apply (rel_consult HkCallIndPost 0 [(TI32, Z.of_nat tbl)]). reflexivity.
    - apply (rel_before HkDrop 0 []). reflexivity.
    - apply (rel_before HkSelect 1 []). reflexivity.
    - apply (rel_before HkSelect 1 []). reflexivity.
    - (* locals *)
      destruct o; intros st ls s; cbn [Advice.advise].
      + destruct (nth_error ls i) as [v|]; [|exact I]. cbn [rget rbind].
        destruct (annotated _ _) eqn:A; [|exact I]. apply annotated_true in A. rewrite A.
        destruct v as [t z|r o]; simpl typeof; cbv iota.
        * apply (rel_after (HkLocal LGet t) 1 [(TI64, Z.of_nat i)]). destruct t; reflexivity.
        * apply rel_one.
      + destruct st as [|v st]; [exact I|]. simpl (hd_error _). cbn [rget rbind].
        destruct (annotated _ _) eqn:A; [|exact I]. apply annotated_true in A. rewrite A.
        destruct v as [t z|r o]; simpl typeof; cbv iota.
        * apply (rel_before (HkLocal LSet t) 1 [(TI64, Z.of_nat i)]). destruct t; reflexivity.
        * apply rel_one.
      + destruct st as [|v st]; [exact I|]. simpl (hd_error _). cbn [rget rbind].
        destruct (annotated _ _) eqn:A; [|exact I]. apply annotated_true in A. rewrite A.
        destruct v as [t z|r o]; simpl typeof; cbv iota.
        * rewrite (proj2 (numty_eqb_eq t t) eq_refl).
          apply (rel_before (HkLocal LTee t) 1 [(TI64, Z.of_nat i)]). destruct t; reflexivity.
        * apply rel_one.
    - (* globals *)
      destruct o; intros st ls s; cbn [Advice.advise].
      + change (st_globals (emb s)) with (st_globals s).
        destruct (nth_error (st_globals s) i) as [v|]; [|exact I]. cbn [rget rbind].
        destruct (annotated _ _) eqn:A; [|exact I]. apply annotated_true in A. rewrite A.
        destruct v as [t z|r o]; simpl typeof; cbv iota.
        * apply (rel_after (HkGlobal GGet t) 1 [(TI64, Z.of_nat i)]). destruct t; reflexivity.
        * apply rel_one.
      + destruct st as [|v st]; [exact I|]. simpl (hd_error _). cbn [rget rbind].
        destruct (annotated _ _) eqn:A; [|exact I]. apply annotated_true in A. rewrite A.
        destruct v as [t z|r o]; simpl typeof; cbv iota.
        * apply (rel_before (HkGlobal GSet t) 1 [(TI64, Z.of_nat i)]). destruct t; reflexivity.
        * apply rel_one.
    - rename m0 into ma. apply (rel_instead (HkLoad (loadop_ty o)) 1 [(TI64, ma_offset ma); (TI32, loadop_code o)]). destruct o; reflexivity.
    - rename m0 into ma. apply (rel_instead (HkStore (storeop_ty o)) 2 [(TI64, ma_offset ma); (TI32, storeop_code o)]). destruct o; reflexivity.
    - apply (rel_after HkMemorySize 1 [(TI64, Z.of_nat m0)]). reflexivity.
    - apply (rel_instead HkMemoryGrow 1 [(TI64, Z.of_nat m0)]). reflexivity.
    - apply (rel_after (HkConst t) 1 []). destruct t; reflexivity.
    - apply (rel_instead (HkUnary (unop_in o) (unop_out o)) 1 [(TI32, unop_code o)]).
      destruct (unop_in o), (unop_out o); reflexivity.
    - intros st ls s. cbn [Advice.advise]. unfold binary_hook, binary_class.
      destruct (binop_in o), (binop_out o); try exact I;
      match goal with |- context [instead _ (HkBinary ?k)] =>
        apply (rel_instead (HkBinary k) 2 [(TI32, binop_code o)]); reflexivity end.
  Qed.

  Lemma helpers_ok_app a b : helpers_ok (a ++ b) -> helpers_ok a /\ helpers_ok b.
  Proof. intros K. split; intros E p t d I; apply (K E); apply in_or_app; auto. Qed.

  (** No instruction of the body is marked as generated. *)
  Fixpoint source1 (i : tinstr) : Prop :=
    match i with
    | TBasic m _ => m_gen m = false
    | TBlock m _ body | TLoop m _ body => m_gen m = false /\ fold_right (fun x P => source1 x /\ P) True body
    | TIf m _ thn els =>
        m_gen m = false /\ fold_right (fun x P => source1 x /\ P) True thn /\
        match els with Some e => fold_right (fun x P => source1 x /\ P) True e | None => True end
    end.
  Definition source (b : list tinstr) : Prop := fold_right (fun x P => source1 x /\ P) True b.

  Lemma rel_inside pre post body pre' post' body' :
    brel pre (run' pre') -> brel body (run' body') -> brel post (run' post') ->
    brel (inside pre post body) (run' (pre' ++ body' ++ post')).
  Proof.
    intros P B Q st ls s. unfold inside. rewrite run_app. apply rel_andthen; [apply P|].
    intros st1 ls1 s1. rewrite run_app. apply rel_andthen; [apply B|exact Q].
  Qed.

  Lemma rel_inside_next post body post' body' :
    brel body (run' body') -> brel post (run' post') ->
    brel (inside next post body) (run' (body' ++ post')).
  Proof.
    intros B Q st ls s. unfold inside. rewrite run_app. cbn [andthen next rbind].
    apply rel_andthen; [apply B|exact Q].
  Qed.

  Lemma rel_advised b : source b -> helpers_ok (br_tables b) ->
    brel (advised b) (run' (map strip (weave H hf b))).
  Proof.
    unfold Advice.advised.
    induction b as [|m b r IHr|m ft b r IHb IHr|m ft b r IHb IHr|m ft t r IHt IHr|m ft t e r IHt IHe IHr] using tbody_ind;
      intros S HB.
    - intros st ls s. reflexivity.
    - destruct S as [G S]. apply helpers_ok_app in HB. destruct HB as [HB HBr].
      intros st ls s. cbn [run_seq weave flat_map]. rewrite map_app, run_app.
      apply rel_andthen; [now apply rel_advise|]. now apply IHr.
    - destruct S as [[G Sb] S]. apply helpers_ok_app in HB. destruct HB as [HB HBr].
      intros st ls s. cbn [run_seq weave flat_map weave1]. rewrite G, map_app, run_app.
      apply rel_andthen; [|now apply IHr]. cbn [advised1 map strip].
      rewrite run_single. cbn [run1]. apply brel_block. rewrite !map_app. apply rel_inside.
      + apply (rel_consult HkBlockPre 0 [(TI32, Z.of_nat (List.length (ft_in ft))); (TI32, Z.of_nat (List.length (ft_out ft)))]). reflexivity.
      + now apply IHb.
      + apply (rel_consult HkBlockPost 0 []). reflexivity.
    - destruct S as [[G Sb] S]. apply helpers_ok_app in HB. destruct HB as [HB HBr].
      intros st ls s. cbn [run_seq weave flat_map weave1]. rewrite G, map_app, run_app.
      apply rel_andthen; [|now apply IHr]. cbn [advised1 map strip].
      rewrite run_single. cbn [run1]. apply brel_loop. rewrite !map_app. apply rel_inside.
      + apply (rel_consult HkLoopPre 0 [(TI32, Z.of_nat (List.length (ft_in ft))); (TI32, Z.of_nat (List.length (ft_out ft)))]). reflexivity.
      + now apply IHb.
      + apply (rel_consult HkLoopPost 0 []). reflexivity.
    - destruct S as [[G [St _]] S]. apply helpers_ok_app in HB. destruct HB as [HB HBr].
      simpl in HB. rewrite app_nil_r in HB.
      assert (Rt : brel (run_seq (advised1 num1 num2 on ftype call hook_call fuel) t) (run' (map strip (weave H hf t)))) by now apply IHt.
      assert (Rp : brel (consult HkIfThenPost 0 [] m) (run' (map strip (point H HkIfThenPost m [])))).
      { apply (rel_consult HkIfThenPost 0 []). reflexivity. }
      intros st ls s. cbn [run_seq weave flat_map weave1]. rewrite G, map_app, run_app.
      apply rel_andthen; [|now apply IHr]. cbn [advised1].
      rewrite map_app, run_app. apply rel_andthen.
      { apply (rel_consult HkIfThen 1 [(TI32, Z.of_nat (List.length (ft_in ft))); (TI32, Z.of_nat (List.length (ft_out ft)))]). reflexivity. }
      clear st ls s. intros st ls s.
      fold (weave H hf t).
      destruct (H HkIfThenPost) as [ip|] eqn:Eh.
      + cbn [map strip]. rewrite run_single. cbn [run1].
        eapply rel_bind; [apply rel_pop_i32|]. intros [c st'] _. destruct (c =? 0)%Z.
        * now apply brel_block.
        * apply brel_block. intros st1 ls1 s1. rewrite map_app. apply rel_inside_next; assumption.
      + assert (Ep : point H HkIfThenPost m [] = []) by (unfold point; now rewrite Eh).
        rewrite Ep in Rp.
        cbn [map strip]. rewrite run_single. cbn [run1].
        eapply rel_bind; [apply rel_pop_i32|]. intros [c st'] _. destruct (c =? 0)%Z.
        * now apply brel_block.
        * apply brel_block. intros st1 ls1 s1. rewrite <- (app_nil_r (map strip (weave H hf t))).
          apply rel_inside_next; assumption.
    - destruct S as [[G [St Se]] S]. apply helpers_ok_app in HB. destruct HB as [HB HBr].
      apply helpers_ok_app in HB. destruct HB as [HBt HBe].
      assert (Rt : brel (run_seq (advised1 num1 num2 on ftype call hook_call fuel) t) (run' (map strip (weave H hf t)))) by now apply IHt.
      assert (Re : brel (run_seq (advised1 num1 num2 on ftype call hook_call fuel) e) (run' (map strip (weave H hf e)))) by now apply IHe.
      assert (Rp : brel (consult HkIfThenElsePost 0 [] m) (run' (map strip (point H HkIfThenElsePost m [])))).
      { apply (rel_consult HkIfThenElsePost 0 []). reflexivity. }
      intros st ls s. cbn [run_seq weave flat_map weave1]. rewrite G, map_app, run_app.
      apply rel_andthen; [|now apply IHr]. cbn [advised1].
      rewrite map_app, run_app. apply rel_andthen.
      { apply (rel_consult HkIfThenElse 1 [(TI32, Z.of_nat (List.length (ft_in ft))); (TI32, Z.of_nat (List.length (ft_out ft)))]). reflexivity. }
      clear st ls s. intros st ls s.
      fold (weave H hf t) (weave H hf e).
      cbn [map strip]. rewrite run_single. cbn [run1].
      eapply rel_bind; [apply rel_pop_i32|]. intros [c st'] _. destruct (c =? 0)%Z;
        apply brel_block; intros st1 ls1 s1; rewrite map_app.
      + apply rel_inside_next; assumption.
      + apply rel_inside_next; assumption.
  Qed.
End Weaving.
