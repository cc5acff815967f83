(** Type soundness of the interpreter that consults the analysis (C16). *)
From Verif Require Import Typing TypingProofs Semantics Advice RunLemmas NestingSpec NestingProofs.
Local Open Scope res_scope.

Definition i64 : valty := TNum TI64.
Ltac conj := repeat match goal with
  | |- _ /\ _ => split | |- mid_ok _ _ _ _ _ _ => split | |- table_ok _ _ _ => split
  | |- mem_ok _ (Some _) => split | |- val_ok _ (VRef _ _) _ => split end.

(** Positions and immediates are 32-bit. *)
Definition tame (i : tinstr) : Prop :=
  u32 (m_fun (meta_of i)) /\ u32 (m_pos (meta_of i)) /\ representable (opening i).

Lemma nat64_ok nf n : u32 n -> val_ok nf (vi64 (Z.of_nat n)) i64.
Proof. unfold u32. intros. apply num_ok. simpl. lia. Qed.
Lemma nat32_ok nf n : u32 n -> val_ok nf (i32n n) i32.
Proof. unfold u32. intros. apply num_ok. simpl. lia. Qed.

Section Advised.
  Context {X : Type}.
  Notation store := (store X).
  Notation res := (res store).
  Variable num1 : unop -> Z -> option Z.
  Variable num2 : binop -> Z -> Z -> option Z.
  Variable I : X -> Prop.
  Variable on : hook -> bool.
  Variable ftype : nat -> option functy.
  Variable call : nat -> list val -> store -> res (list val * store).
  Variable hook_call : hook -> list val -> store -> res (list val * store).
  Variable fuel : nat.
  Notation ok C := (val_ok (List.length (c_funcs C))).
  Notation stk C := (Forall2 (val_ok (List.length (c_funcs C)))).
  Notation mid_ok := (mid_ok I).
  Notation conf_ok := (conf_ok I).

  Definition hooks_ok (C : ctx) : Prop := forall h args s, on h = true ->
    Forall2 (ok C) args (map TNum (trap_args h)) -> store_ok C I s ->
    call_res I C (map TNum (trap_results h)) (hook_call h args s).


  Section At.
    Variable C : ctx.
    Hypothesis K : calls_ok I ftype call C.
    Hypothesis HK : hooks_ok C.
    Notation exec := (exec num1 num2 ftype call).
    Notation consult := (consult on hook_call).

    Lemma consult_on h k consts m opts cts st ls s rest :
      on h = true -> map TNum (trap_args h) = opts ++ cts ++ [i64; i64] -> List.length opts = k ->
      Forall2 (ok C) consts cts -> u32 (m_fun m) -> u32 (m_pos m) ->
      mid_ok C st ls s (rev opts ++ rest) ->
      conf_ok C (rev (map TNum (trap_results h)) ++ rest) (consult h k consts m st ls s).
    Proof.
      intros O E L F U1 U2 (A & B & D). unfold Advice.consult. rewrite O. subst k.
      destruct (popn_ok _ _ A) as (vs & st' & -> & Fv & Fs). cbn [rget rbind].
      assert (W : Forall2 (ok C) (vs ++ consts ++ loc m) (map TNum (trap_args h))).
      { rewrite E. apply Forall2_app; [auto|]. apply Forall2_app; [auto|].
        repeat constructor; simpl; unfold u32 in *; lia. }
      pose proof (HK O W D) as R.
      destruct (hook_call h _ s) as [[rs s1]|s1| |]; simpl in *; auto.
      destruct R as (R1 & R2). conj; auto. now apply pushn_ok.
    Qed.
    Lemma consult_same h k consts m opts cts st ls s rest :
      map TNum (trap_args h) = opts ++ cts ++ [i64; i64] -> map TNum (trap_results h) = opts -> List.length opts = k ->
      Forall2 (ok C) consts cts -> u32 (m_fun m) -> u32 (m_pos m) ->
      mid_ok C st ls s (rev opts ++ rest) -> conf_ok C (rev opts ++ rest) (consult h k consts m st ls s).
    Proof.
      intros E1 E2 L F U1 U2 M. destruct (on h) eqn:O.
      - rewrite <- E2 at 1. eapply consult_on; eauto.
      - unfold Advice.consult. rewrite O. now apply next_ok.
    Qed.
    Lemma exec_fine b ft st ls s rest :
      btype C b ft -> representable (LBasic b) -> mid_ok C st ls s (rev (ft_in ft) ++ rest) ->
      conf_ok C (rev (ft_out ft) ++ rest) (exec b st ls s).
    Proof. destruct K. now apply exec_ok. Qed.

    (** The annotation has the types found at run time. *)
    Lemma annotated_of m b ft ft' :
      m_ty m = IReach ft' -> btype C b ft' -> btype C b ft ->
      match b with BLocal _ _ | BGlobal _ _ => True | _ => False end -> annotated m ft = true.
    Proof.
      intros E T T' W. unfold annotated. rewrite E. apply functy_eqb_eq.
      destruct b; try contradiction; inversion T; subst; inversion T'; subst; congruence.
    Qed.

    Ltac operands :=
      repeat match goal with
      | H : Forall2 _ ?st (_ :: _) |- _ => apply cons_inv in H as (? & ? & -> & ? & H)
      end.

    Lemma advise_ok m b ft ft' st ls s rest :
      btype C b ft -> m_ty m = IReach ft' -> btype C b ft' -> tame (TBasic m b) ->
      mid_ok C st ls s (rev (ft_in ft) ++ rest) ->
      conf_ok C (rev (ft_out ft) ++ rest) (advise num1 num2 on ftype call hook_call fuel m b st ls s).
    Proof.
      intros T EA TA (U1 & U2 & RP) M.
      assert (X1 := fun rest st ls s => @exec_fine b ft st ls s rest T RP).
      simpl in U1, U2.
      assert (Hpre : forall h k consts opts cts base st ls s rest,
        map TNum (trap_args h) = opts ++ cts ++ [i64; i64] -> map TNum (trap_results h) = opts -> List.length opts = k ->
        Forall2 (ok C) consts cts -> rev (ft_in ft) ++ rest = rev opts ++ base ->
        mid_ok C st ls s (rev (ft_in ft) ++ rest) ->
        conf_ok C (rev (ft_out ft) ++ rest) (before num1 num2 on ftype call hook_call h k consts m b st ls s)).
      { intros h k consts opts cts base st0 ls0 s0 rest0 E1 E2 L F E3 M0. unfold before.
        apply andthen_ok with (ts := rev opts ++ base).
        - eapply consult_same; eauto. now rewrite <- E3.
        - intros. apply X1. now rewrite E3. }
      assert (Hpost : forall h k consts opts cts base st ls s rest,
        map TNum (trap_args h) = opts ++ cts ++ [i64; i64] -> map TNum (trap_results h) = opts -> List.length opts = k ->
        Forall2 (ok C) consts cts -> rev (ft_out ft) ++ rest = rev opts ++ base ->
        mid_ok C st ls s (rev (ft_in ft) ++ rest) ->
        conf_ok C (rev (ft_out ft) ++ rest) (after num1 num2 on ftype call hook_call h k consts m b st ls s)).
      { intros h k consts opts cts base st0 ls0 s0 rest0 E1 E2 L F E3 M0. unfold after.
        apply andthen_ok with (ts := rev (ft_out ft) ++ rest0); [now apply X1|].
        intros st1 ls1 s1 M1. rewrite E3 in *. eapply consult_same; eauto. }
      assert (Hinst : forall h k consts cts st ls s rest,
        map TNum (trap_args h) = ft_in ft ++ cts ++ [i64; i64] -> map TNum (trap_results h) = ft_out ft ->
        List.length (ft_in ft) = k -> Forall2 (ok C) consts cts ->
        mid_ok C st ls s (rev (ft_in ft) ++ rest) ->
        conf_ok C (rev (ft_out ft) ++ rest) (instead_of num1 num2 on ftype call hook_call h k consts m b st ls s)).
      { intros h k consts cts st0 ls0 s0 rest0 E1 E2 L F M0. unfold instead_of. destruct (on h) eqn:O; [|now apply X1].
        rewrite <- E2. eapply consult_on; eauto. }
      destruct b; try (exact (X1 _ _ _ _ M)); unfold advise.
      - (* br *) eapply Hpre with (opts := []) (cts := [i64]); try reflexivity; auto.
        constructor; [|constructor]. now apply nat64_ok.
      - (* br_if *) inversion T; subst. eapply Hpre with (opts := [i32]) (cts := [i32]); try reflexivity; auto.
        + constructor; [|constructor]. now apply nat32_ok.
        + cbn [ft_in]. rewrite rev_app_distr. reflexivity.
      - (* br_table *) inversion T; subst. destruct (on HkBrTable) eqn:O; [|now apply X1].
        destruct M as (A & B & D). pose proof A as A'. cbn [ft_in] in A. rewrite !rev_app_distr in A. simpl in A. operands.
        apply num_inv in H as (z & -> & R). cbn [pop_i32 rbind].
        destruct (Z.ltb_spec z 0); [lia|]. destruct fuel; [exact Logic.I|].
        change (Forall u32 (dflt :: table)) in RP.
        assert (W : Forall2 (ok C) ([vi32 z; i32n (nth (Z.to_nat z) table dflt); i32n dflt] ++ loc m)
                      (map TNum (trap_args HkBrTable))).
        { simpl. inversion RP as [|? ? Rd Rt]; subst. unfold loc, i64n.
          constructor; [now apply num_ok|]. constructor.
          { apply nat32_ok. destruct (nth_in_or_default (Z.to_nat z) table dflt) as [Hi| ->]; [|assumption].
            rewrite Forall_forall in Rt. now apply Rt. }
          constructor; [now apply nat32_ok|]. constructor; [now apply nat64_ok|]. constructor; [now apply nat64_ok|constructor]. }
        pose proof (HK O W D) as HR.
        destruct (hook_call HkBrTable _ s) as [[rs s1]|s1| |]; simpl in HR |- *; auto.
        destruct HR as (R1 & R2). simpl in R1. apply cons_inv in R1 as (v & r' & -> & V & R1). inversion R1; subst.
        change (pushn [v] x0) with (v :: x0).
        apply X1. conj; auto. cbn [ft_in]. rewrite !rev_app_distr. simpl. constructor; auto.
      - eapply Hpre with (opts := []) (cts := []); try reflexivity; auto.
      - (* call *) apply andthen_ok with (ts := rev (ft_out ft) ++ rest).
        + eapply Hpre with (opts := []) (cts := [i32]); try reflexivity; auto. constructor; [|constructor]. now apply nat32_ok.
        + intros. eapply consult_same with (opts := []) (cts := [i32]); try reflexivity; auto.
          constructor; [|constructor]. now apply nat32_ok.
      - (* call_indirect *) inversion T; subst. apply andthen_ok with (ts := rev (ft_out ft0) ++ rest).
        + eapply Hpre with (opts := [i32]) (cts := [i32]); try reflexivity; auto.
          * constructor; [|constructor]. now apply nat32_ok.
          * cbn [ft_in]. rewrite rev_app_distr. reflexivity.
        + intros. eapply consult_same with (opts := []) (cts := [i32]); try reflexivity; auto.
          constructor; [|constructor]. now apply nat32_ok.
      - eapply Hpre with (opts := []) (cts := []); try reflexivity; auto.
      - inversion T; subst. eapply Hpre with (opts := [i32]) (cts := []); try reflexivity; auto.
      - inversion T; subst. eapply Hpre with (opts := [i32]) (cts := []); try reflexivity; auto.
      - (* locals *)
        cbn [representable opening] in RP.
        destruct o; inversion T; subst; destruct M as (A & B & D); pose proof A as A'; simpl in A; operands.
        + match goal with H : nth_error _ i = Some _ |- _ => destruct (Forall2_nth _ B H) as (v & E & V) end.
          rewrite E. cbn [rget rbind]. destruct V as (V1 & V2). rewrite V1.
          erewrite annotated_of; eauto; [|exact Logic.I].
          destruct t as [n|]; [|now apply X1]. eapply Hpost with (opts := [TNum n]) (cts := [i64]); try reflexivity; try (now destruct n); auto.
          all: try (constructor; [now apply nat64_ok|constructor]); conj; auto.
        + cbn [hd_error rget rbind]. match goal with H : val_ok _ ?x t |- _ => destruct H as (V1 & V2) end. rewrite V1.
          erewrite annotated_of; eauto; [|exact Logic.I].
          destruct t as [n|]; [|now apply X1]. eapply Hpre with (opts := [TNum n]) (cts := [i64]); try reflexivity; try (now destruct n); auto.
          all: try (constructor; [now apply nat64_ok|constructor]); conj; auto.
        + cbn [hd_error rget rbind]. match goal with H : val_ok _ ?x t |- _ => destruct H as (V1 & V2) end. rewrite V1.
          erewrite annotated_of; eauto; [|exact Logic.I].
          destruct t as [n|]; [|now apply X1]. eapply Hpre with (opts := [TNum n]) (cts := [i64]); try reflexivity; try (now destruct n); auto.
          all: try (constructor; [now apply nat64_ok|constructor]); conj; auto.
      - (* globals *)
        cbn [representable opening] in RP.
        destruct o; inversion T; subst; destruct M as (A & B & D); pose proof A as A'; simpl in A; operands.
        + match goal with H : nth_error _ i = Some _ |- _ => destruct (Forall2_nth _ (sk_globals D) H) as (v & E & V) end.
          rewrite E. cbn [rget rbind]. destruct V as (V1 & V2). simpl in V1. rewrite V1.
          erewrite annotated_of; eauto; [|exact Logic.I].
          destruct t as [n|]; [|now apply X1]. eapply Hpost with (opts := [TNum n]) (cts := [i64]); try reflexivity; try (now destruct n); auto.
          all: try (constructor; [now apply nat64_ok|constructor]); conj; auto.
        + cbn [hd_error rget rbind]. match goal with H : val_ok _ ?x t |- _ => destruct H as (V1 & V2) end. rewrite V1.
          erewrite annotated_of; eauto; [|exact Logic.I].
          destruct t as [n|]; [|now apply X1]. eapply Hpre with (opts := [TNum n]) (cts := [i64]); try reflexivity; try (now destruct n); auto.
          all: try (constructor; [now apply nat64_ok|constructor]); conj; auto.
      - (* load *) inversion T; subst. cbn [ft_in ft_out] in *.
        eapply Hinst with (cts := [i64; i32]); try reflexivity; try (now destruct o); auto.
        constructor; [|constructor; [|constructor]]; apply num_ok; simpl in *; try lia. destruct o; simpl; lia.
      - inversion T; subst. cbn [ft_in ft_out] in *.
        eapply Hinst with (cts := [i64; i32]); try reflexivity; try (now destruct o); auto.
        constructor; [|constructor; [|constructor]]; apply num_ok; simpl in *; try lia. destruct o; simpl; lia.
      - inversion T; subst. eapply Hpost with (opts := [i32]) (cts := [i64]); try reflexivity; auto.
        constructor; [|constructor]. now apply nat64_ok.
      - inversion T; subst. eapply Hinst with (cts := [i64]); try reflexivity; auto.
        constructor; [|constructor]. now apply nat64_ok.
      - inversion T; subst. eapply Hpost with (opts := [TNum t]) (cts := []); try reflexivity; try (now destruct t); auto.
      - inversion T; subst. eapply Hinst with (cts := [i32]); try reflexivity; try (now destruct o); auto.
        constructor; [|constructor]. apply num_ok. destruct o; simpl; lia.
      - inversion T; subst.
        assert (W : exists h, binary_hook o = Some h /\
          map TNum (trap_args h) = [TNum (binop_in o); TNum (binop_in o)] ++ [i32] ++ [i64; i64] /\
          map TNum (trap_results h) = [TNum (binop_out o)]) by (destruct o; eexists; repeat split; reflexivity).
        destruct W as (h & -> & W1 & W2). eapply Hinst with (cts := [i32]); auto.
        constructor; [|constructor]. apply num_ok. destruct o; simpl; lia.
    Qed.
  End At.

  (** Unconditional jumps do not continue, so what follows them is not executed. *)
  Definition no_next (r : res (@conf X)) : Prop :=
    match r with Ok (ONext, _, _, _) => False | _ => True end.
  Lemma andthen_no_next r k : (forall st ls s, no_next (k st ls s)) -> no_next (andthen r k).
  Proof. intros H. destruct r as [[[[[] st] ls] s]|s| |]; simpl; auto. Qed.
  Lemma no_next_ok C ts ts' r k : no_next r -> conf_ok C ts r -> conf_ok C ts' (andthen r k).
  Proof. destruct r as [[[[[] st] ls] s]|s| |]; simpl; tauto. Qed.
  Lemma advise_jumps m b st ls s : jumps b = true ->
    no_next (advise num1 num2 on ftype call hook_call fuel m b st ls s).
  Proof.
    intros J.
    assert (E : forall st ls s, no_next (exec num1 num2 ftype call b st ls s)).
    { intros. destruct b; try discriminate; simpl; auto. destruct st0 as [|[[] z|] st0]; simpl; auto. }
    destruct b; try discriminate; unfold advise, before; try (apply andthen_no_next; exact E); try exact (E _ _ _).
    destruct (on HkBrTable); [|exact (E _ _ _)].
    destruct (pop_i32 st) as [[z st']|s'| |]; simpl; auto.
    destruct (z <? 0)%Z; simpl; auto. destruct fuel; simpl; auto.
    destruct (hook_call HkBrTable _ s) as [[rs s1]|s1| |]; simpl; auto. exact (E _ _ _).
  Qed.

  Lemma inside_ok C ts ts' (pre post body : list val -> list val -> store -> res (@conf X)) st ls s :
    (forall ts st ls s, mid_ok C st ls s ts -> conf_ok C ts (pre st ls s)) ->
    (forall ts st ls s, mid_ok C st ls s ts -> conf_ok C ts (post st ls s)) ->
    (forall st ls s, mid_ok C st ls s ts -> conf_ok C ts' (body st ls s)) ->
    mid_ok C st ls s ts -> conf_ok C ts' (inside pre post body st ls s).
  Proof.
    intros P1 P2 B M. unfold inside. apply andthen_ok with (ts := ts); [now apply P1|].
    intros. apply andthen_ok with (ts := ts'); [now apply B|]. intros. now apply P2.
  Qed.
  Lemma arities_ok nf ft : u32 (List.length (ft_in ft)) -> u32 (List.length (ft_out ft)) ->
    Forall2 (val_ok nf) (arities ft) [i32; i32].
  Proof. intros. constructor; [now apply nat32_ok|]. constructor; [now apply nat32_ok|constructor]. Qed.

  Definition all_tame (b : list tinstr) : Prop := forall i, occurs i b -> tame i.

  Lemma advised_ok b : forall C ts ts' st ls s,
    calls_ok I ftype call C -> hooks_ok C -> all_tame b ->
    seq_ok C (map strip b) ts ts' -> annotated_ok C true b ->
    mid_ok C st ls s ts -> conf_ok C ts' (advised num1 num2 on ftype call hook_call fuel b st ls s).
  Proof.
    induction b as [|m b r IHr|m ft body r IHb IHr|m ft body r IHb IHr|m ft thn r IHt IHr|m ft thn els r IHt IHe IHr]
      using tbody_ind; intros C ts ts' st ls s K HK AT T AN M;
      cbn [map strip] in T; inversion T as [|? ? ? ft' rest ? Ti Tr]; subst; clear T;
      [now apply next_ok|..]; unfold advised; cbn [run_seq];
      (assert (TM : tame _) by (apply AT; apply oc_here));
      (assert (AT' : all_tame r) by (intros j Hj; apply AT; now apply oc_next)).
    - inversion Ti; subst. inversion AN as [| |? ? ? ? fa ? EA TA AN'|? ? ? ? ? ? ?|? ? ? ? ? ? ?|? ? ? ? ? ? ?|? ? ? ? ? ? ? ?]; subst.
      assert (W := @advise_ok C K HK m b ft' fa st ls s rest ltac:(assumption) EA TA TM M).
      destruct (jumps b) eqn:J.
      + eapply no_next_ok; [now apply advise_jumps|exact W].
      + eapply andthen_ok; [exact W|]. intros. now apply IHr with (C := C) (ts := rev (ft_out ft') ++ rest).
    - inversion Ti; subst. inversion AN; subst. destruct TM as (U1 & U2 & U3 & U4). simpl in U1, U2.
      assert (AB : all_tame body) by (intros j Hj; apply AT; now apply oc_block).
      apply andthen_ok with (ts := rev (ft_out ft') ++ rest); [|intros; now apply IHr with (C := C) (ts := rev (ft_out ft') ++ rest)].
      cbn [advised1]. apply run_block_ok; [|assumption]. intros st1 ls1 s1 M1.
      apply inside_ok with (ts := rev (ft_in ft')); [| | |assumption].
      + intros tt ? ? ? M2. apply (@consult_same (label C (ft_out ft')) HK HkBlockPre 0 (arities ft') m [] [i32; i32]) with (rest := tt); auto.
        now apply arities_ok.
      + intros tt ? ? ? M2. apply (@consult_same (label C (ft_out ft')) HK HkBlockPost 0 [] m [] []) with (rest := tt); auto.
      + intros. now apply IHb with (ts := rev (ft_in ft')).
    - inversion Ti; subst. inversion AN; subst. destruct TM as (U1 & U2 & U3 & U4). simpl in U1, U2.
      assert (AB : all_tame body) by (intros j Hj; apply AT; now apply oc_loop).
      apply andthen_ok with (ts := rev (ft_out ft') ++ rest); [|intros; now apply IHr with (C := C) (ts := rev (ft_out ft') ++ rest)].
      cbn [advised1]. apply run_loop_ok; [|assumption]. intros st1 ls1 s1 M1.
      apply inside_ok with (ts := rev (ft_in ft')); [| | |assumption].
      + intros tt ? ? ? M2. apply (@consult_same (label C (ft_in ft')) HK HkLoopPre 0 (arities ft') m [] [i32; i32]) with (rest := tt); auto.
        now apply arities_ok.
      + intros tt ? ? ? M2. apply (@consult_same (label C (ft_in ft')) HK HkLoopPost 0 [] m [] []) with (rest := tt); auto.
      + intros. now apply IHb with (ts := rev (ft_in ft')).
    - inversion Ti; subst. inversion AN; subst. destruct TM as (U1 & U2 & U3 & U4). simpl in U1, U2.
      assert (AB : all_tame thn) by (intros j Hj; apply AT; now apply oc_then).
      cbn [ft_in ft_out] in *.
      apply andthen_ok with (ts := rev (ft_out ft) ++ rest); [|intros; now apply IHr with (C := C) (ts := rev (ft_out ft) ++ rest)].
      cbn [advised1]. apply andthen_ok with (ts := rev (ft_in ft ++ [i32]) ++ rest).
      + rewrite rev_app_distr in *. simpl in *.
        apply (@consult_same C HK HkIfThen 1 (arities ft) m [i32] [i32; i32]) with (rest := rev (ft_in ft) ++ rest); auto.
        now apply arities_ok.
      + intros st1 ls1 s1 M1. destruct (cond_inv _ _ M1) as (c & st' & ->). cbn [pop_i32 rbind].
        assert (PO : forall tt st ls s, mid_ok (label C (ft_out ft)) st ls s tt ->
                  conf_ok (label C (ft_out ft)) tt (consult on hook_call HkIfThenPost 0 [] m st ls s)).
        { intros tt ? ? ? M2. apply (@consult_same (label C (ft_out ft)) HK HkIfThenPost 0 [] m [] []) with (rest := tt); auto. }
        apply if_ok; [| |assumption].
        * intros ? ? ? N. apply PO. match goal with E : ft_in _ = ft_out _ |- _ => now rewrite E in N end.
        * intros. apply inside_ok with (ts := rev (ft_in ft)); auto.
          -- intros. now apply next_ok.
          -- intros. now apply IHt with (ts := rev (ft_in ft)).
    - inversion Ti; subst. inversion AN; subst. destruct TM as (U1 & U2 & U3 & U4). simpl in U1, U2.
      assert (AB : all_tame thn) by (intros j Hj; apply AT; now apply oc_then).
      assert (AE : all_tame els) by (intros j Hj; apply AT; now apply oc_else).
      cbn [ft_in ft_out] in *.
      apply andthen_ok with (ts := rev (ft_out ft) ++ rest); [|intros; now apply IHr with (C := C) (ts := rev (ft_out ft) ++ rest)].
      cbn [advised1]. apply andthen_ok with (ts := rev (ft_in ft ++ [i32]) ++ rest).
      + rewrite rev_app_distr in *. simpl in *.
        apply (@consult_same C HK HkIfThenElse 1 (arities ft) m [i32] [i32; i32]) with (rest := rev (ft_in ft) ++ rest); auto.
        now apply arities_ok.
      + intros st1 ls1 s1 M1. destruct (cond_inv _ _ M1) as (c & st' & ->). cbn [pop_i32 rbind].
        assert (PO : forall tt st ls s, mid_ok (label C (ft_out ft)) st ls s tt ->
                  conf_ok (label C (ft_out ft)) tt (consult on hook_call HkIfThenElsePost 0 [] m st ls s)).
        { intros tt ? ? ? M2. apply (@consult_same (label C (ft_out ft)) HK HkIfThenElsePost 0 [] m [] []) with (rest := tt); auto. }
        apply if_ok; [| |assumption].
        * intros. apply inside_ok with (ts := rev (ft_in ft)); auto.
          -- intros. now apply next_ok.
          -- intros. now apply IHe with (ts := rev (ft_in ft)).
        * intros. apply inside_ok with (ts := rev (ft_in ft)); auto.
          -- intros. now apply next_ok.
          -- intros. now apply IHt with (ts := rev (ft_in ft)).
  Qed.
End Advised.
