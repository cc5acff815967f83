(** Instantiation of a valid module yields a well-typed store; sessions of well-typed calls
    are well typed (C16). *)
From Verif Require Import Typing TypingProofs AdvisedTyping ModuleTyping Semantics Advice RunLemmas Instantiate.
Local Open Scope res_scope.

(** What the host provides has the declared types. *)
Record provided_ok (m : module) (imp : provided) : Prop := {
  pv_mems : forall me ns nm, In me (md_mems m) -> mm_import me = Some (ns, nm) ->
    exists st, im_mem imp ns nm = Some st /\ (0 <= ms_pages st <= ms_max st)%Z /\ (ms_max st <= 65536)%Z;
  pv_tables : forall t ns nm, In t (md_tables m) -> tb_import t = Some (ns, nm) ->
    exists st, im_table imp ns nm = Some st /\ table_ok (List.length (md_funcs m)) st (tb_ref t);
  pv_globals : forall g ns nm, In g (md_globals m) -> gl_import g = Some (ns, nm) ->
    exists v, im_global imp ns nm = Some v /\ val_ok (List.length (md_funcs m)) v (gl_type g) }.

Lemma opt_all_ok {A B C} (f : A -> option B) (R : B -> C -> Prop) (g : A -> C) l :
  (forall a, In a l -> exists b, f a = Some b /\ R b (g a)) ->
  exists bs, opt_all (map f l) = Some bs /\ Forall2 R bs (map g l).
Proof.
  induction l as [|a l IH]; intros H; simpl; [exists []; auto|].
  destruct (H a (or_introl eq_refl)) as (b & -> & Rb).
  destruct IH as (bs & -> & F); [intros; apply H; now right|]. exists (b :: bs). split; [reflexivity|]. now constructor.
Qed.
Lemma opt_all_len {A B} (f : A -> option B) l : forall bs, opt_all (map f l) = Some bs -> List.length bs = List.length l.
Proof.
  induction l as [|a l IH]; intros bs; simpl; [intros E; now injection E as <-|].
  destruct (f a); [|discriminate]. destruct (opt_all (map f l)); [|discriminate]. intros E. injection E as <-. simpl. now rewrite (IH _ eq_refl).
Qed.

Section Inst.
  Context {X : Type}.
  Notation store := (store X).
  Notation res := (res store).
  Variable I : X -> Prop.
  Variable m : module.
  Variable imp : provided.
  Hypothesis V : valid m.
  Hypothesis U : in_format m.
  Hypothesis P : provided_ok m imp.
  Notation C0 := (ctx_of m).
  Notation nf := (List.length (md_funcs m)).
  Notation ok := (val_ok nf).

  Lemma eval_init_ok gs ds code t : Forall2 (fun v g => ok v (gl_type g)) gs ds ->
    init_ok m ds code t -> exists v, eval_init gs code = Some v /\ ok v t.
  Proof.
    intros F H. unfold init_ok in H.
    destruct code as [|[| | | | |[]] [|[] []]]; try contradiction; try (destruct o; contradiction); simpl in *.
    - subst t. eexists; split; [reflexivity|]. conj; auto. now destruct r.
    - destruct H as (-> & L). eexists; split; [reflexivity|]. conj; auto.
    - destruct o; [|contradiction]. destruct (nth_error ds i) as [g|] eqn:N; [|discriminate]. injection H as <-.
      destruct (Forall2_nth _ F N) as (v & E & W). eauto.
    - destruct H as (-> & R). eexists; split; [reflexivity|]. repeat split; auto.
  Qed.

  Lemma init_globals_ok l : forall pre gs, md_globals m = pre ++ l ->
    Forall2 (fun v g => ok v (gl_type g)) gs pre ->
    exists gs', init_globals imp gs l = Some gs' /\ Forall2 (fun v g => ok v (gl_type g)) gs' (md_globals m).
  Proof.
    induction l as [|g l IH]; intros pre gs E F; simpl.
    - rewrite app_nil_r in E. rewrite E. eauto.
    - assert (W : exists v, (match gl_import g with Some (ns, nm) => im_global imp ns nm | None => eval_init gs (gl_init g) end) = Some v /\
                ok v (gl_type g)).
      { assert (N : nth_error (md_globals m) (List.length pre) = Some g).
        { rewrite E, nth_error_app2, Nat.sub_diag by lia. reflexivity. }
        destruct (gl_import g) as [[ns nm]|] eqn:EI.
        - apply (pv_globals P g); auto. eapply nth_error_In; eauto.
        - pose proof (va_globals V _ N EI) as G. rewrite E, firstn_app, Nat.sub_diag, firstn_all, firstn_O, app_nil_r in G.
          eapply eval_init_ok; eauto. }
      destruct W as (v & -> & W). apply (IH (pre ++ [g])).
      + rewrite <- app_assoc. exact E.
      + apply Forall2_app; auto.
  Qed.

  Lemma Forall2_map_r {A B D} (R : A -> D -> Prop) (f : B -> D) l l' : Forall2 (fun a b => R a (f b)) l l' -> Forall2 R l (map f l').
  Proof. induction 1; simpl; constructor; auto. Qed.

  (** Segments stay short. *)
  Definition short (s : store) : Prop :=
    Forall (fun seg => u32 (List.length seg)) (st_elems s) /\ Forall (fun seg => u32 (List.length seg)) (st_datas s).

  Lemma allocate_ok x : I x -> exists s, allocate imp m x = Some s /\ store_ok C0 I s /\ short s.
  Proof.
    intros Ix. unfold allocate.
    destruct (@init_globals_ok (md_globals m) [] []) as (gs & EG & G); [reflexivity|constructor|]. rewrite EG.
    destruct (@opt_all_ok _ _ _ (init_table imp) (table_ok nf) tb_ref (md_tables m)) as (ts & -> & T).
    { intros t Ht. unfold init_table. destruct (tb_import t) as [[ns nm]|] eqn:E; [now apply (pv_tables P t)|].
      eexists; split; [reflexivity|]. pose proof (va_tables V) as L. rewrite Forall_forall in L. specialize (L _ Ht).
      unfold table_limits in L. conj; simpl; auto.
      - apply Forall_repeat. conj; auto. now destruct (tb_ref t).
      - rewrite repeat_length. destruct (tb_max t); lia.
      - destruct (tb_max t); lia. }
    assert (M : exists me, init_mems imp (md_mems m) = Some me /\ mem_ok C0 me).
    { destruct (va_mems V) as (ML & L1). unfold init_mems. destruct (md_mems m) as [|me [|me2 r]] eqn:EM; [..|simpl in L1; lia].
      - exists None. split; [reflexivity|]. unfold mem_ok, ctx_of, mctx. simpl. now rewrite EM.
      - inversion ML as [|? ? L _]; subst. unfold init_mem.
        assert (CM : c_mem C0 = true) by (unfold ctx_of, mctx; simpl; now rewrite EM).
        destruct (mm_import me) as [[ns nm]|] eqn:E.
        + destruct (pv_mems P me (ns := ns) (nm := nm)) as (st & -> & B & D); [rewrite EM; now left|assumption|].
          exists (Some st). split; [reflexivity|]. conj; auto; apply B.
        + eexists; split; [reflexivity|]. unfold mem_limits in L. conj; simpl; auto; destruct (mm_max me); lia. }
    destruct M as (me & -> & M).
    destruct (@opt_all_ok _ _ _ (fun e => opt_all (map (eval_ref gs) (el_init e)))
                (fun seg r => cells_ok nf r seg) el_type (md_elems m)) as (es & EE & ES).
    { intros e He. pose proof (va_elems V) as L. rewrite Forall_forall in L. destruct (L _ He) as (L1 & _).
      rewrite Forall_forall in L1. clear L He.
      destruct (@opt_all_ok _ _ _ (eval_ref gs) (fun o _ => val_ok nf (VRef (el_type e) o) (TRef (el_type e))) (fun c => c) (el_init e))
        as (seg & -> & F).
      { intros c Hc. destruct (eval_init_ok _ _ G (L1 _ Hc)) as (v & E & W). unfold eval_ref. rewrite E.
        destruct (ref_inv W) as (o & ->). eauto. }
      exists seg. split; [reflexivity|]. unfold cells_ok. clear - F. rewrite map_id in F. induction F; constructor; auto. }
    rewrite EE. eexists; split; [reflexivity|]. split.
    - unfold store_ok; simpl. rewrite !map_length. conj; auto.
      unfold globals_ok. simpl. rewrite map_length. apply Forall2_map_r. exact G.
    - destruct U as (_ & _ & U1 & U2). split; simpl.
      + clear - EE U1. revert es EE. induction (md_elems m) as [|e l IH]; intros es EE; simpl in EE; [injection EE as <-; constructor|].
        inversion U1; subst. destruct (opt_all (map (eval_ref gs) (el_init e))) as [seg|] eqn:E; [|discriminate].
        destruct (opt_all (map _ l)) as [es'|] eqn:E'; [|discriminate]. injection EE as <-. constructor; [|now apply IH].
        now rewrite (opt_all_len _ _ E).
      + rewrite Forall_map. exact U2.
  Qed.

  Definition fine_store (r : res store) : Prop :=
    match r with Ok s => store_ok C0 I s /\ short s | Trap s => store_ok C0 I s | Stuck => False | Oof => True end.
  Lemma fine_bind (r : res store) k : fine_store r -> (forall s, store_ok C0 I s -> short s -> fine_store (k s)) -> fine_store (rbind r k).
  Proof. destruct r; simpl; auto. intros [A B] K. now apply K. Qed.

  Lemma bulk_fine b ts vs s : btype C0 b (FT ts []) -> bulk_arity b = Some (List.length ts) ->
    Forall2 ok vs ts -> store_ok C0 I s -> short s ->
    (match b with BTableInit _ _ | BElemDrop _ | BMemoryInit _ | BDataDrop _ => True | _ => False end) ->
    fine_store (bulk b vs s).
  Proof.
    intros T A F D Sh Hb.
    assert (F' : Forall2 (val_ok (List.length (c_funcs C0))) vs ts).
    { unfold ctx_of, mctx; cbn [c_funcs]. now rewrite map_length. }
    assert (M : mid_ok I C0 (rev vs) [] s (rev ts ++ [])).
    { rewrite app_nil_r. conj; [now apply Forall2_rev|constructor|assumption]. }
    pose proof (@bulk_ok X (fun _ _ => None) (fun _ _ _ => None) I C0 (nth_error (c_funcs C0)) (fun _ _ _ => Oof)
      (fun _ => eq_refl) (fun _ _ _ _ _ _ _ => Logic.I) b ts (rev vs) [] s [] T A M) as R. rewrite A in R. cbn [rget rbind] in R.
    rewrite <- (Forall2_len F'), <- (app_nil_r (rev vs)) in R.
    change (rev vs ++ []) with (pushn vs (@nil val)) in R. rewrite popn_pushn in R. cbn [rget rbind] in R.
    assert (W : match bulk b vs s with Ok s' => store_ok C0 I s' | Trap s' => store_ok C0 I s' | Stuck => False | Oof => True end).
    { destruct (bulk b vs s); simpl in R; auto. apply R. }
    clear R. destruct (bulk b vs s) as [s'|s'| |] eqn:E; simpl; auto. split; [exact W|]. clear - E Sh Hb.
    destruct Sh as (S1 & S2).
    destruct b; try contradiction; simpl in E;
      repeat match type of E with
      | context [match ?x with _ => _ end] => destruct x; try discriminate
      | context [rget ?x] => destruct x; simpl in E; try discriminate
      end; injection E as <-; split; simpl; auto; apply Forall_set_nth; auto; unfold u32; simpl; lia.
  Qed.

  Lemma eval_i32_ok s code : store_ok C0 I s -> init_ok m (md_globals m) code i32 ->
    exists z, eval_i32 (st_globals s) code = Some z /\ ok (vi32 z) i32.
  Proof.
    intros D H. assert (G : Forall2 (fun v g => ok v (gl_type g)) (st_globals s) (md_globals m)).
    { pose proof (sk_globals D) as G. unfold globals_ok, ctx_of, mctx in G. cbn [c_funcs c_globals] in G. rewrite map_length in G.
      clear - G. revert G. generalize (st_globals s). induction (md_globals m); intros vs G; inversion G; subst; constructor; auto. }
    destruct (eval_init_ok _ _ G H) as (v & E & W). unfold eval_i32. rewrite E. apply num_inv in W as (z & -> & W).
    exists z. split; [reflexivity|]. apply num_ok. exact W.
  Qed.

  Lemma init_elems_ok l : forall i s, (forall k e, nth_error l k = Some e -> nth_error (md_elems m) (i + k) = Some e) ->
    store_ok C0 I s -> short s -> fine_store (init_elems i l s).
  Proof.
    induction l as [|e l IH]; intros i s H D Sh; simpl; [auto|].
    assert (N : nth_error (md_elems m) i = Some e) by (rewrite <- (Nat.add_0_r i); now apply H).
    apply fine_bind.
    - unfold init_elem.
      assert (DR : forall s, store_ok C0 I s -> short s -> fine_store (bulk (BElemDrop i) [] s)).
      { intros. apply bulk_fine with (ts := []); auto. constructor. unfold ctx_of, mctx; simpl. rewrite map_length.
        apply nth_error_Some. congruence. }
      destruct (el_mode e) as [t off| |] eqn:EM; [|simpl; auto|now apply DR].
      pose proof (va_elems V) as L. rewrite Forall_forall in L. destruct (L _ (nth_error_In _ _ N)) as (_ & L2).
      rewrite EM in L2. destruct L2 as (LT & LO). destruct (eval_i32_ok _ D LO) as (z & -> & Hz). cbn [rget rbind].
      assert (NE : nth_error (c_elems C0) i = Some (el_type e)).
      { unfold ctx_of, mctx; simpl. rewrite nth_error_map, N. reflexivity. }
      destruct (Forall2_nth _ (sk_elems D) NE) as (seg & E & _). rewrite E. cbn [rget rbind].
      apply fine_bind.
      + apply bulk_fine with (ts := [i32; i32; i32]); auto.
        * apply ty_table_init with (r := el_type e); auto. unfold ctx_of, mctx; simpl. rewrite nth_error_map.
          destruct (nth_error (md_tables m) t); [exact LT|discriminate].
        * destruct Sh as (S1 & _). rewrite Forall_forall in S1. specialize (S1 _ (nth_error_In _ _ E)). unfold u32 in S1.
          repeat apply Forall2_cons; try apply Forall2_nil; auto; apply num_ok; simpl; lia.
      + intros. now apply DR.
    - intros. apply IH; auto. intros k e' E. replace (S i + k) with (i + S k) by lia. now apply H.
  Qed.
  Lemma init_datas_ok l : forall i s, (forall k e, nth_error l k = Some e -> nth_error (md_datas m) (i + k) = Some e) ->
    store_ok C0 I s -> short s -> fine_store (init_datas i l s).
  Proof.
    induction l as [|e l IH]; intros i s H D Sh; simpl; [auto|].
    assert (N : nth_error (md_datas m) i = Some e) by (rewrite <- (Nat.add_0_r i); now apply H).
    assert (LI : i < c_datas C0) by (unfold ctx_of, mctx; simpl; apply nth_error_Some; congruence).
    apply fine_bind.
    - unfold init_data. destruct (dt_active e) as [off|] eqn:EM; [|simpl; auto].
      pose proof (va_datas V) as L. rewrite Forall_forall in L. pose proof (L _ (nth_error_In _ _ N)) as L2.
      unfold data_ok in L2. rewrite EM in L2. destruct L2 as (LM & LO).
      destruct (eval_i32_ok _ D LO) as (z & -> & Hz). cbn [rget rbind].
      apply fine_bind.
      + apply bulk_fine with (ts := [i32; i32; i32]); auto.
        * constructor; auto. unfold ctx_of, mctx; simpl. now destruct (md_mems m).
        * destruct U as (_ & _ & _ & U2). rewrite Forall_forall in U2. specialize (U2 _ (nth_error_In _ _ N)). unfold u32 in U2.
          repeat apply Forall2_cons; try apply Forall2_nil; auto; apply num_ok; simpl; lia.
      + intros. apply bulk_fine with (ts := []); auto. now constructor.
    - intros. apply IH; auto. intros k e' E. replace (S i + k) with (i + S k) by lia. now apply H.
  Qed.
  Lemma instantiate_ok x : I x -> fine_store (instantiate imp m x).
  Proof.
    intros Ix. unfold instantiate. destruct (allocate_ok Ix) as (s & -> & D & Sh). cbn [rget rbind].
    apply fine_bind; [now apply init_elems_ok|]. intros. now apply init_datas_ok.
  Qed.

  (** ** Sessions *)
  Definition session_res (r : res (list (option (list val)) * store)) : Prop :=
    match r with
    | Ok (_, s) => store_ok C0 I s
    | Trap s => store_ok C0 I s
    | Stuck => False
    | Oof => True
    end.
  Lemma session_ok call (xty : string -> option functy) calls : 
    (forall name ft args s, xty name = Some ft -> Forall2 ok args (ft_in ft) -> store_ok C0 I s ->
       call_res I C0 (ft_out ft) (call name args s)) ->
    Forall (fun c => exists ft, xty (fst c) = Some ft /\ Forall2 ok (snd c) (ft_in ft)) calls ->
    forall s, store_ok C0 I s -> session_res (session call calls s).
  Proof.
    intros H F. induction F as [|[name args] calls (ft & E & Fa) F IH]; intros s D; simpl; [exact D|].
    pose proof (H _ _ _ s E Fa D) as R. simpl in R. destruct (call name args s) as [[vs s1]|s1| |]; simpl in R; auto.
    - destruct R as (_ & R). specialize (IH _ R). destruct (session call calls s1) as [[os s2]|s2| |]; simpl in *; auto.
    - specialize (IH _ R). destruct (session call calls s1) as [[os s2]|s2| |]; simpl in *; auto.
  Qed.
End Inst.
