(** Type soundness of modules: plain execution, instrumented execution (Advice.v) and
    instantiation (C16). *)
From Coq Require Import Permutation.
From Verif Require Import Typing TypingProofs AdvisedTyping Semantics Advice RunLemmas NestingSpec NestingProofs Instantiate.
Local Open Scope res_scope.

(** The context of the module, without locals. *)
Definition ctx_of (m : module) : ctx := mctx m [] [].

Lemma functy_eta ft : FT (ft_in ft) (ft_out ft) = ft. Proof. now destruct ft. Qed.
Lemma strip_typed f infer body tys b b' : infer body = Some tys -> List.length tys = List.length body ->
  structure_typed f infer body = COk b -> structure_untyped body = COk b' -> map strip b = b'.
Proof.
  unfold structure_typed. intros E L H U. rewrite E in H.
  pose proof (structure_indexed_strip (index_from f 0 body tys)) as S. rewrite index_from_ins in S by assumption.
  rewrite H, U in S. simpl in S. congruence.
Qed.
Lemma typed_tame m infer f fn locals body b : in_format m -> nth_error (md_funcs m) f = Some fn ->
  fn_code fn = FPresent locals body -> structure_typed f infer body = COk b -> all_tame b.
Proof.
  intros (U & F & _) N EC H i Oc. destruct (structure_typed_located _ _ _ H) as (tys & _ & P & _).
  destruct (P _ Oc) as (P1 & _ & P2 & _). rewrite Forall_forall in F.
  specialize (F _ (nth_error_In _ _ N)). rewrite EC in F. destruct F as (_ & _ & UL & FR).
  unfold tame. rewrite P1. assert (f < List.length (md_funcs m)) by (apply nth_error_Some; congruence).
  assert (m_pos (meta_of i) < List.length body) by (apply nth_error_Some; congruence).
  unfold u32 in *. split; [lia|]. split; [lia|]. rewrite Forall_forall in FR. apply FR. eapply nth_error_In; eauto.
Qed.
Lemma body_representable m f fn locals body b : in_format m -> nth_error (md_funcs m) f = Some fn ->
  fn_code fn = FPresent locals body -> structure_untyped body = COk b -> Forall representable (uflat b).
Proof.
  intros (U & F & _) N EC H. rewrite Forall_forall in F. specialize (F _ (nth_error_In _ _ N)). rewrite EC in F.
  destruct F as (_ & _ & _ & FR). rewrite <- (flatten_structure_untyped _ H) in FR. unfold uflatten in FR.
  now apply Forall_app in FR as [FR _].
Qed.
Lemma forall2_args nf args ft : Forall2 (val_ok nf) args (ft_in ft) -> Nat.eqb (List.length args) (List.length (ft_in ft)) = true.
Proof. intros F. apply Nat.eqb_eq. now apply Forall2_len in F. Qed.

Lemma export_index_lt fs name : forall n f, export_index n fs name = Some f -> n <= f < n + List.length fs.
Proof.
  induction fs as [|x fs IH]; intros n f; simpl; [discriminate|].
  destruct (existsb _ _); intros E; [injection E as <-; lia|]. apply IH in E. lia.
Qed.

Section Modules.
  Context {X : Type}.
  Notation store := (store X).
  Notation res := (res store).
  Variable num1 : unop -> Z -> option Z.
  Variable num2 : binop -> Z -> Z -> option Z.
  Variable ext : string -> string -> list val -> xprog X.
  Variable I : X -> Prop.
  Variable m : module.
  Notation C0 := (ctx_of m).
  Notation ok := (val_ok (List.length (md_funcs m))).
  Notation fine := (call_res I C0).
  Hypothesis V : valid m.
  Hypothesis U : in_format m.

  Lemma nf_eq : List.length (c_funcs C0) = List.length (md_funcs m). Proof. apply map_length. Qed.
  Lemma get_fn f ft : nth_error (c_funcs C0) f = Some ft -> exists fn, nth_error (md_funcs m) f = Some fn /\ fn_type fn = ft.
  Proof. intros H. unfold ctx_of, mctx in H. simpl in H. rewrite nth_error_map in H. destruct (nth_error _ f); inversion H. eauto. Qed.
  Lemma fn_valid f fn : nth_error (md_funcs m) f = Some fn -> func_ok m fn.
  Proof. intros N. pose proof (va_funcs V) as F. rewrite Forall_forall in F. apply F. eapply nth_error_In; eauto. Qed.

  (** ** Plain execution *)
  Definition plain_xty (name : string) : option functy :=
    match export_index 0 (md_funcs m) name with
    | Some f => option_map fn_type (nth_error (md_funcs m) f)
    | None => None
    end.
  (** The host's functions behave as their declarations say. *)
  Definition hosts_ok (xty : string -> option functy) : Prop :=
    forall f fn ns name args, nth_error (md_funcs m) f = Some fn -> fn_code fn = FImport ns name ->
    Forall2 ok args (ft_in (fn_type fn)) -> agent_ok C0 I xty (ft_out (fn_type fn)) (ext ns name args).

  Section OwnCode.
    Variable call : nat -> list val -> store -> res (list val * store).
    Variable n : nat.
    Hypothesis call_ok : forall f ft args s,
      nth_error (c_funcs C0) f = Some ft -> Forall2 ok args (ft_in ft) -> store_ok C0 I s ->
      fine (ft_out ft) (call f args s).
    Lemma calls_fine locals ret : calls_ok I (ftype_of (md_funcs m)) call (mctx m locals ret).
    Proof.
      split.
      - intros f. unfold ftype_of. simpl. now rewrite nth_error_map.
      - intros f ft args s N F D. apply call_ok; auto. rewrite <- nf_eq. exact F.
    Qed.
    Lemma plain_code f fn locals body b args s :
      nth_error (md_funcs m) f = Some fn -> fn_code fn = FPresent locals body -> structure_untyped body = COk b ->
      Forall2 ok args (ft_in (fn_type fn)) -> store_ok C0 I s ->
      fine (ft_out (fn_type fn)) (invoke (run num1 num2 (ftype_of (md_funcs m)) call n b) (fn_type fn) locals args s).
    Proof.
      intros N EC S F D. pose proof (fn_valid _ N) as FV. unfold func_ok in FV. rewrite EC in FV.
      destruct FV as (b' & S' & T). assert (b' = b) by congruence. subst b'.
      apply (@invoke_ok X I (mctx m (ft_in (fn_type fn) ++ locals) (ft_out (fn_type fn)))); auto.
      - intros ls s1 M. apply run_ok with (ts := []); auto using calls_fine. eapply body_representable; eauto.
      - cbn. now rewrite map_length.
    Qed.
  End OwnCode.

  Lemma structured f fn locals body : nth_error (md_funcs m) f = Some fn -> fn_code fn = FPresent locals body ->
    exists b, structure_untyped body = COk b.
  Proof. intros N EC. pose proof (fn_valid _ N) as FV. unfold func_ok in FV. rewrite EC in FV. destruct FV as (b & S & _). eauto. Qed.

  Lemma call_fn_ok : hosts_ok plain_xty -> forall n f ft args s,
    nth_error (c_funcs C0) f = Some ft -> Forall2 ok args (ft_in ft) -> store_ok C0 I s ->
    fine (ft_out ft) (call_fn num1 num2 ext (md_funcs m) n f args s).
  Proof.
    intros HO. induction n as [|n IH]; intros f ft args s N F D; [exact Logic.I|].
    destruct (get_fn _ N) as (fn & Nf & <-). simpl. rewrite Nf. cbn [rget rbind]. rewrite (forall2_args _ F).
    destruct (fn_code fn) as [ns name|locals body] eqn:EC; swap 1 2.
    - destruct (structured _ Nf EC) as (b & S). rewrite S. eapply plain_code; eauto.
    - apply call_import_ok with (xty := plain_xty); [| |exact D].
      + intros nm ft' args' s' E F' D'. unfold plain_xty in E.
        destruct (export_index 0 (md_funcs m) nm) as [g|] eqn:EI; [|discriminate]. cbn [rget rbind].
        apply IH; auto; [|now rewrite nf_eq in F']. simpl. now rewrite nth_error_map.
      + now apply (HO f).
  Qed.

  (** ** Instrumented execution *)
  Variable infer : nat -> list low -> option (list ity).
  Variable on : hook -> bool.
  Variable generic : bool.
  Variable only : option (list nat).
  Variable is : list nat.
  Hypothesis is_lt : forall f, In f is -> f < List.length (md_funcs m).
  Hypothesis is_u32 : u32 (List.length is).
  Hypothesis AN : annotates infer m.

  Definition callee_type (c : callee) : option functy :=
    match c with
    | CFun f | CBase f => option_map fn_type (nth_error (md_funcs m) f)
    | CApply f => if existsb (Nat.eqb f) is then Some (FT [i32] []) else None
    | CImport ft _ _ => Some ft
    | CCallBase => Some (FT [i32; i32] [])
    | CLoad o => Some (FT [i32; i32] [TNum (loadop_ty o)])
    | CStore o => Some (FT [i32; TNum (storeop_ty o); i32] [])
    | CGrow => Some (FT [i32; i32] [i32])
    | CSize => Some (FT [i32] [i32])
    end.
  Definition spec_xty (name : string) : option functy :=
    match export_callee m generic name with Some c => callee_type c | None => None end.

  (** The imports of the instrumented module: those of the program, the enabled hooks, and
      for interception the generic hook and the buffer functions per intercepted signature. *)
  Inductive imported : functy -> string -> string -> Prop :=
  | im_program f fn ns name : nth_error (md_funcs m) f = Some fn -> fn_code fn = FImport ns name ->
      imported (fn_type fn) ns name
  | im_hook h : on h = true ->
      imported (FT (map TNum (trap_args h)) (map TNum (trap_results h))) analysis_ns (trap_name h)
  | im_apply f : In f is -> imported (FT [i32; i32; i32; i32; i32; i32; i32] []) analysis_ns "generic_apply"%string
  | im_lib f fn o : In f is -> nth_error (md_funcs m) f = Some fn ->
      match o with
      | LLoad SArg i => i < List.length (ft_in (fn_type fn))
      | LLoad SRet i => i < List.length (ft_out (fn_type fn))
      | LStore _ _ | LStoreArgs => False
      | _ => True
      end ->
      imported (libop_type (fn_type fn) o) stack_ns (op_name (fn_type fn) o).
  Definition agents_ok : Prop := forall ft ns name args, imported ft ns name ->
    Forall2 ok args (ft_in ft) -> agent_ok C0 I spec_xty (ft_out ft) (ext ns name args).
  Hypothesis AG : agents_ok.

  Definition callable (c : callee) : Prop :=
    match c with CImport ft ns name => imported ft ns name | _ => True end.

  Lemma export_callable name c : export_callee m generic name = Some c -> callable c.
  Proof.
    unfold export_callee. destruct (export_index _ _ _); [intros E; injection E as <-; exact Logic.I|].
    destruct (_ && _); [intros E; injection E as <-; exact Logic.I|].
    destruct (named _ _); [intros E; injection E as <-; exact Logic.I|].
    destruct (named _ _); [intros E; injection E as <-; exact Logic.I|].
    destruct (String.eqb _ _); [intros E; injection E as <-; exact Logic.I|].
    destruct (String.eqb _ _); [intros E; injection E as <-; exact Logic.I|discriminate].
  Qed.

  Lemma mem_flag : has_memory m = c_mem C0.
  Proof.
    pose proof (va_mems V) as [_ L]. unfold has_memory, ctx_of, mctx. simpl.
    destruct (List.length (md_mems m)) as [|[|k]]; [reflexivity|reflexivity|lia].
  Qed.

  Ltac operands :=
    repeat match goal with
    | H : Forall2 _ ?st (_ :: _) |- _ => apply cons_inv in H as (? & ? & -> & ? & H)
    | H : Forall2 _ ?st [] |- _ => inversion H; subst; clear H
    | H : val_ok _ ?v i32 |- _ => apply num_inv in H as (? & -> & ?)
    | H : val_ok _ ?v (TNum _) |- _ => apply num_inv in H as (? & -> & ?)
    end.

  Ltac nf H := unfold ctx_of, mctx in H; cbn [c_funcs] in H; rewrite ?map_length in H.
  Section Level.
    Variable n : nat.
    Variable rec : callee -> list val -> store -> res (list val * store).
    Hypothesis rec_ok : forall c ft args s, callable c -> callee_type c = Some ft ->
      Forall2 ok args (ft_in ft) -> store_ok C0 I s -> fine (ft_out ft) (rec c args s).

    Lemma reenter_ok name ft args s : spec_xty name = Some ft -> Forall2 ok args (ft_in ft) -> store_ok C0 I s ->
      fine (ft_out ft) (reenter m generic rec name args s).
    Proof.
      unfold spec_xty, reenter. intros E F D. destruct (export_callee m generic name) as [c|] eqn:EC; [|discriminate].
      cbn [rget rbind]. apply rec_ok; auto. eapply export_callable; eauto.
    Qed.
    Lemma import_fine ft ns name args s : imported ft ns name -> Forall2 ok args (ft_in ft) -> store_ok C0 I s ->
      fine (ft_out ft) (call_import ext (reenter m generic rec) ft ns name args s).
    Proof.
      intros Hi F D. apply call_import_ok with (xty := spec_xty); [| |exact D].
      - intros. apply reenter_ok; auto. now rewrite nf_eq in *.
      - now apply AG.
    Qed.
    Lemma own_ok f fn args s : nth_error (md_funcs m) f = Some fn ->
      Forall2 ok args (ft_in (fn_type fn)) -> store_ok C0 I s ->
      fine (ft_out (fn_type fn)) (own num1 num2 ext infer m on generic only n rec f fn args s).
    Proof.
      intros N F D. unfold own.
      assert (CK : forall f ft args s, nth_error (c_funcs C0) f = Some ft -> Forall2 ok args (ft_in ft) -> store_ok C0 I s ->
                fine (ft_out ft) (rec (CFun f) args s)).
      { intros g ft a s' Ng Fa D'. destruct (get_fn _ Ng) as (gn & E & <-). apply rec_ok; auto; [exact Logic.I|].
        simpl. now rewrite E. }
      destruct (fn_code fn) as [ns name|locals body] eqn:EC; swap 1 2.
      - destruct (structured _ N EC) as (b & S).
        destruct (selected m only f).
        + destruct (AN _ N EC) as (tys & tb & E1 & E2 & E3 & E4). rewrite E3.
          pose proof (@strip_typed f (infer f) body tys tb b E1 E2 E3 S) as ES.
          pose proof (fn_valid _ N) as FV. unfold func_ok in FV. rewrite EC in FV.
          destruct FV as (b' & S' & T). assert (b' = b) by congruence. subst b' b.
          apply (@invoke_ok X I (mctx m (ft_in (fn_type fn) ++ locals) (ft_out (fn_type fn)))); auto.
          * intros ls s1 M. apply advised_ok with (ts := []) (I := I); auto.
            -- apply calls_fine. exact CK.
            -- intros h a s' O Fa D'. unfold analysis.
               apply (@rec_ok (CImport _ _ _) (FT (map TNum (trap_args h)) (map TNum (trap_results h)))); auto.
               ++ simpl. now apply im_hook.
               ++ cbn in Fa. now rewrite map_length in Fa.
            -- eapply typed_tame; eauto.
          * cbn. now rewrite map_length.
        + rewrite S. eapply plain_code; eauto.
      - apply import_fine; auto. econstructor; eauto.
    Qed.

    Lemma load_all_ok (l : libop -> list val -> store -> res (list val * store)) p os : forall ts s,
      Forall2 (fun o t => forall s, store_ok C0 I s -> fine [t] (l o [p] s)) os ts -> store_ok C0 I s ->
      fine ts (load_all l os p s).
    Proof.
      induction os as [|o os IH]; intros ts s F D; inversion F as [|? t ? ts' F1 F2]; subst; simpl; [auto|].
      specialize (F1 s D). destruct (l o [p] s) as [[v s1]|s1| |]; simpl in F1 |- *; auto. destruct F1 as (F1 & D1).
      specialize (IH _ _ F2 D1). destruct (load_all l os p s1) as [[vs s2]|s2| |]; simpl in IH |- *; auto.
      destruct IH as (IH & D2). split; [|exact D2]. change (t :: ts') with ([t] ++ ts'). now apply Forall2_app.
    Qed.
    Lemma side_ok f fn mk ts p : In f is -> nth_error (md_funcs m) f = Some fn -> ok p i32 ->
      (forall i t, nth_error ts i = Some t ->
         libop_type (fn_type fn) (mk i) = FT [i32] [t] /\
         imported (libop_type (fn_type fn) (mk i)) stack_ns (op_name (fn_type fn) (mk i))) ->
      Forall2 (fun o t => forall s, store_ok C0 I s -> fine [t] (lib rec (fn_type fn) o [p] s)) (side_ops mk ts) ts.
    Proof.
      intros Hi N P H. unfold side_ops.
      assert (G : forall ts' j, (forall i t, nth_error ts' i = Some t ->
         libop_type (fn_type fn) (mk (j + i)) = FT [i32] [t] /\
         imported (libop_type (fn_type fn) (mk (j + i))) stack_ns (op_name (fn_type fn) (mk (j + i)))) ->
         Forall2 (fun o t => forall s, store_ok C0 I s -> fine [t] (lib rec (fn_type fn) o [p] s))
           (map mk (seq j (List.length ts'))) ts').
      { induction ts' as [|t ts' IH]; intros j Hj; simpl; constructor.
        - intros s D. destruct (Hj 0 t eq_refl) as (E & Im). rewrite Nat.add_0_r in *. unfold lib. rewrite E in *.
          apply (@rec_ok (CImport _ _ _) (FT [i32] [t])); auto. simpl. auto.
        - apply IH. intros i t' E. replace (S j + i) with (j + S i) by lia. now apply Hj. }
      apply (G ts 0). exact H.
    Qed.

    Lemma lib_ok f fn o args s : In f is -> nth_error (md_funcs m) f = Some fn ->
      match o with
      | LLoad SArg i => i < List.length (ft_in (fn_type fn))
      | LLoad SRet i => i < List.length (ft_out (fn_type fn))
      | LStore _ _ | LStoreArgs => False
      | _ => True
      end ->
      Forall2 ok args (ft_in (libop_type (fn_type fn) o)) -> store_ok C0 I s ->
      fine (ft_out (libop_type (fn_type fn) o)) (lib rec (fn_type fn) o args s).
    Proof. intros Hi N Ho F D. unfold lib. apply rec_ok; auto. simpl. econstructor; eauto. Qed.

    Lemma intercepted_ok k f fn args s : In f is -> k < List.length is -> nth_error (md_funcs m) f = Some fn ->
      Forall2 ok args (ft_in (fn_type fn)) -> store_ok C0 I s ->
      fine (ft_out (fn_type fn)) (intercepted_call rec k f fn args s).
    Proof.
      intros Hi K N F D. unfold intercepted_call.
      assert (A : fine [i32] (lib rec (fn_type fn) LAlloc args s)) by (apply (@lib_ok f fn LAlloc) with (1 := Hi) (2 := N); simpl; auto).
      destruct (lib rec (fn_type fn) LAlloc args s) as [[p s1]|s1| |]; simpl in A |- *; auto. destruct A as (A & D1).
      assert (B : fine [i32] (lib rec (fn_type fn) LAllocTypes [] s1)) by (apply (@lib_ok f fn LAllocTypes) with (1 := Hi) (2 := N); simpl; auto).
      destruct (lib rec (fn_type fn) LAllocTypes [] s1) as [[tp s2]|s2| |]; simpl in B |- *; auto. destruct B as (B & D2).
      apply cons_inv in A as (buf & nl & -> & Pb & A). inversion A; subst. clear A.
      apply cons_inv in B as (tbuf & nl & -> & Pt & B). inversion B; subst. clear B.
      nf Pb. nf Pt.
      assert (G : fine [] (analysis rec generic_apply
        ([i32n k; i32n f; i32n (List.length (ft_in (fn_type fn))); i32n (List.length (ft_out (fn_type fn)))]
         ++ [buf] ++ [tbuf] ++ [vi32 (if has_code fn then 0 else 1)]) s2)).
      { unfold analysis. apply (@rec_ok (CImport _ _ _) (FT [i32; i32; i32; i32; i32; i32; i32] [])); auto.
        - simpl. now apply im_apply with (f := f).
        - destruct U as (Uf & Ff & _). rewrite Forall_forall in Ff. specialize (Ff _ (nth_error_In _ _ N)).
          destruct Ff as (Fi & Fo & _). pose proof (is_lt _ Hi). unfold u32 in *.
          cbn [app ft_in]. repeat apply Forall2_cons; try apply Forall2_nil; try assumption;
            try (apply nat32_ok; unfold u32; lia).
          destruct (has_code fn); apply num_ok; simpl; lia. }
      cbn [app] in G |- *.
      destruct (analysis rec generic_apply _ s2) as [[g s3]|s3| |]; simpl in G |- *; auto. destruct G as (_ & D3).
      assert (L : fine (ft_out (fn_type fn))
                (load_all (lib rec (fn_type fn)) (side_ops (LLoad SRet) (ft_out (fn_type fn))) buf s3)).
      { apply load_all_ok; [|exact D3]. apply side_ok with (f := f); auto. intros i t E. simpl. rewrite E.
        split; [reflexivity|]. pose proof (@im_lib f fn (LLoad SRet i) Hi N) as W. simpl in W. rewrite E in W.
        apply W. apply nth_error_Some. congruence. }
      destruct (load_all _ _ buf s3) as [[rs s4]|s4| |]; simpl in L |- *; auto. destruct L as (L & D4).
      assert (A : fine [] (lib rec (fn_type fn) LFree [buf] s4)) by (apply (@lib_ok f fn LFree) with (1 := Hi) (2 := N); simpl; auto).
      destruct (lib rec (fn_type fn) LFree [buf] s4) as [[u s5]|s5| |]; simpl in A |- *; auto. destruct A as (A & D5).
      assert (B : fine [] (lib rec (fn_type fn) LFreeTypes [tbuf] s5)) by (apply (@lib_ok f fn LFreeTypes) with (1 := Hi) (2 := N); simpl; auto).
      destruct (lib rec (fn_type fn) LFreeTypes [tbuf] s5) as [[u' s6]|s6| |]; simpl in B |- *; auto. destruct B as (B & D6). auto.
    Qed.

    Lemma resume_ok f fn buf s : In f is -> nth_error (md_funcs m) f = Some fn -> ok buf i32 -> store_ok C0 I s ->
      fine [] (resume rec f fn buf s).
    Proof.
      intros Hi N P D. unfold resume.
      assert (L : fine (ft_in (fn_type fn))
                (load_all (lib rec (fn_type fn)) (side_ops (LLoad SArg) (ft_in (fn_type fn))) buf s)).
      { apply load_all_ok; [|exact D]. apply side_ok with (f := f); auto. intros i t E. simpl. rewrite E.
        split; [reflexivity|]. pose proof (@im_lib f fn (LLoad SArg i) Hi N) as W. simpl in W. rewrite E in W.
        apply W. apply nth_error_Some. congruence. }
      destruct (load_all _ _ buf s) as [[vs s1]|s1| |]; simpl in L |- *; auto. destruct L as (L & D1). nf L.
      assert (A : fine (ft_out (fn_type fn)) (rec (CBase f) vs s1)).
      { apply rec_ok; auto; [exact Logic.I|]. simpl. now rewrite N. }
      destruct (rec (CBase f) vs s1) as [[rs s2]|s2| |]; simpl in A |- *; auto. destruct A as (A & D2). nf A.
      assert (B : fine [] (lib rec (fn_type fn) LStoreRets (buf :: rs) s2)) by (apply (@lib_ok f fn LStoreRets) with (1 := Hi) (2 := N); simpl; auto).
      destruct (lib rec (fn_type fn) LStoreRets (buf :: rs) s2) as [[u' s6]|s6| |]; simpl in B |- *; auto. destruct B as (B & D6). auto.
    Qed.

    Lemma level_ok c ft args s : callable c -> callee_type c = Some ft ->
      Forall2 ok args (ft_in ft) -> store_ok C0 I s ->
      fine (ft_out ft) (level num1 num2 ext infer m on generic only is n rec c args s).
    Proof.
      intros Hc E F D. destruct c as [f|f|f|ft' ns name| |o|o| |]; simpl in E; try (injection E as <-); simpl.
      - destruct (nth_error (md_funcs m) f) as [fn|] eqn:N; [|discriminate]. injection E as <-. cbn [rget rbind].
        unfold fits_args. rewrite (forall2_args _ F). destruct (position f is) as [k|] eqn:P; [|now apply own_ok].
        assert (Q : In f is /\ k < List.length is).
        { clear - P. revert k P. induction is as [|x l IH]; intros k P; simpl in P; [discriminate|].
          destruct (Nat.eqb_spec f x); [injection P as <-; subst; simpl; split; [auto|lia]|].
          destruct (position f l) as [j|]; [|discriminate]. injection P as <-. destruct (IH _ eq_refl). simpl. split; [auto|lia]. }
        now apply intercepted_ok.
      - destruct (nth_error (md_funcs m) f) as [fn|] eqn:N; [|discriminate]. injection E as <-. cbn [rget rbind].
        unfold fits_args. rewrite (forall2_args _ F). now apply own_ok.
      - destruct (existsb (Nat.eqb f) is) eqn:EX; [|discriminate]. injection E as <-.
        apply existsb_exists in EX as (g & Hi & EQ). apply Nat.eqb_eq in EQ. subst g.
        pose proof (is_lt _ Hi) as L. destruct (nth_error (md_funcs m) f) as [fn|] eqn:N; [|apply nth_error_None in N; lia].
        cbn [rget rbind]. simpl in F. apply cons_inv in F as (buf & nl & -> & P & F). inversion F; subst. now apply resume_ok.
      - unfold fits_args. rewrite (forall2_args _ F). now apply import_fine.
      - simpl in F. apply cons_inv in F as (v & nl & -> & P & F). apply num_inv in P as (k & -> & P).
        apply cons_inv in F as (buf & nl' & -> & Pb & F). inversion F; subst.
        assert (LT : List.length (st_tables s) = List.length (md_tables m)).
        { destruct D as (_ & _ & T & _). apply Forall2_len in T. unfold ctx_of, mctx in T. simpl in T.
          now rewrite map_length in T. }
        rewrite LT, Nat.eqb_refl. destruct (nth_error is (Z.to_nat k)) as [f|] eqn:N; [|exact D].
        apply (@rec_ok (CApply f) (FT [i32] [])); [exact Logic.I| |simpl; auto|exact D].
        simpl. replace (existsb (Nat.eqb f) is) with true; [reflexivity|]. symmetry. apply existsb_exists.
        exists f. split; [eapply nth_error_In; eauto|apply Nat.eqb_refl].
      - simpl in F. operands. rewrite mem_flag. destruct (c_mem C0) eqn:CM.
        + destruct (the_mem D CM) as (me & -> & M). cbn [rget rbind].
          destruct (mem_load me o _) as [z|] eqn:L; simpl; auto. split; auto. constructor; auto. eapply load_ok; eauto.
        + simpl. split; auto. constructor; auto. apply num_ok. pose proof (bits_pos (loadop_ty o)). lia.
      - simpl in F. operands. rewrite (proj2 (numty_eqb_eq _ _) eq_refl). rewrite mem_flag. destruct (c_mem C0) eqn:CM.
        + destruct (the_mem D CM) as (me & -> & M). cbn [rget rbind].
          unfold mem_store. destruct (_ <=? _)%Z; simpl; auto. split; auto. apply set_mem_ok; auto.
        + simpl. auto.
      - simpl in F. operands. rewrite mem_flag. destruct (c_mem C0) eqn:CM.
        + destruct (the_mem D CM) as (me & -> & M). cbn [rget rbind].
          unfold mem_grow. destruct M as (M1 & M2 & M3).
          match goal with |- context [(?p <=? ?q)%Z] => destruct (Z.leb_spec p q) end; simpl; (split;
            [constructor; auto; apply num_ok; simpl; lia|apply set_mem_ok; [assumption|simpl; conj; auto; lia]]).
        + simpl. split; auto. constructor; auto. apply num_ok. simpl. lia.
      - simpl in F. operands. rewrite mem_flag. destruct (c_mem C0) eqn:CM.
        + destruct (the_mem D CM) as (me & -> & M1 & M2 & M3). simpl. split; auto. constructor; auto. apply num_ok. simpl. lia.
        + simpl. split; auto. constructor; auto. apply num_ok. simpl. lia.
    Qed.
  End Level.

  Lemma spec_ok n : forall c ft args s, callable c -> callee_type c = Some ft ->
    Forall2 ok args (ft_in ft) -> store_ok C0 I s ->
    fine (ft_out ft) (spec num1 num2 ext infer m on generic only is n c args s).
  Proof.
    induction n as [|n IH]; intros c ft args s Hc E F D; [exact Logic.I|].
    simpl. now apply level_ok.
  Qed.
End Modules.
