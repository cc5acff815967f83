(** Type soundness: well-typed code does not get stuck (C16). *)
From Verif Require Import Typing RunLemmas.
Local Open Scope res_scope.

Notation stack_ok nf := (Forall2 (val_ok nf)).

(** ** Lists *)
Lemma Forall2_rev {A B} (R : A -> B -> Prop) l l' : Forall2 R l l' -> Forall2 R (rev l) (rev l').
Proof. induction 1; simpl; [constructor|]. apply Forall2_app; auto. Qed.
Lemma Forall2_len {A B} (R : A -> B -> Prop) l l' : Forall2 R l l' -> List.length l = List.length l'.
Proof. induction 1; simpl; congruence. Qed.
Lemma Forall2_nth {A B} (R : A -> B -> Prop) l l' n b :
  Forall2 R l l' -> nth_error l' n = Some b -> exists a, nth_error l n = Some a /\ R a b.
Proof. intros F. revert n. induction F; intros [|n] E; try discriminate; simpl in *; eauto. injection E as ->. eauto. Qed.
Lemma Forall2_nth_l {A B} (R : A -> B -> Prop) l l' n a :
  Forall2 R l l' -> nth_error l n = Some a -> exists b, nth_error l' n = Some b /\ R a b.
Proof. intros F. revert n. induction F; intros [|n] E; try discriminate; simpl in *; eauto. injection E as ->. eauto. Qed.
Lemma Forall2_set_nth {A B} (R : A -> B -> Prop) l l' n a b :
  Forall2 R l l' -> nth_error l' n = Some b -> R a b -> Forall2 R (set_nth n a l) l'.
Proof.
  intros F. revert n. induction F; intros [|n] E Ra; try discriminate; simpl in *.
  - injection E as ->. constructor; auto.
  - constructor; eauto.
Qed.
Lemma set_nth_len {A} n (a : A) l : List.length (set_nth n a l) = List.length l.
Proof. revert n; induction l; intros [|n]; simpl; auto. Qed.
Lemma Forall_set_nth {A} (P : A -> Prop) n a l : Forall P l -> P a -> Forall P (set_nth n a l).
Proof. intros F Pa. revert n; induction F; intros [|n]; simpl; auto. Qed.
Lemma Forall_firstn {A} (P : A -> Prop) n l : Forall P l -> Forall P (firstn n l).
Proof. intros F; revert n; induction F; intros [|n]; simpl; auto. Qed.
Lemma Forall_skipn {A} (P : A -> Prop) n l : Forall P l -> Forall P (skipn n l).
Proof. intros F; revert n; induction F; intros [|n]; simpl; auto. Qed.
Lemma Forall_repeat {A} (P : A -> Prop) a n : P a -> Forall P (repeat a n).
Proof. intros; induction n; simpl; auto. Qed.
Lemma Forall2_app_l {A B} (R : A -> B -> Prop) l l1 l2 :
  Forall2 R l (l1 ++ l2) -> exists a b, l = a ++ b /\ Forall2 R a l1 /\ Forall2 R b l2.
Proof. intros F. apply Forall2_app_inv_r in F as (a & b & ? & ? & ?). eauto. Qed.

Section Values.
  Variable nf : nat.
  Notation ok := (val_ok nf).

  Lemma popn_ok ts rest st : stack_ok nf st (rev ts ++ rest) ->
    exists vs st', popn (List.length ts) st = Some (vs, st') /\ Forall2 ok vs ts /\ stack_ok nf st' rest.
  Proof.
    intros F. apply Forall2_app_l in F as (a & b & -> & Fa & Fb).
    exists (rev a), b. repeat split; auto.
    - apply popn_Some. split.
      + rewrite rev_length, (Forall2_len Fa), rev_length. reflexivity.
      + unfold pushn. now rewrite rev_involutive.
    - rewrite <- (rev_involutive ts). now apply Forall2_rev.
  Qed.
  Lemma pushn_ok vs ts st rest : Forall2 ok vs ts -> stack_ok nf st rest -> stack_ok nf (pushn vs st) (rev ts ++ rest).
  Proof. intros. unfold pushn. apply Forall2_app; [now apply Forall2_rev|assumption]. Qed.

  Lemma vals_ok_of vs ts : Forall2 ok vs ts -> vals_ok ts vs = true.
  Proof.
    unfold vals_ok. induction 1 as [|v t vs ts (A & B & _) F IH]; [reflexivity|].
    simpl. rewrite A. rewrite (proj2 (valty_eqb_eq t t) eq_refl). simpl.
    apply andb_prop in IH as [-> ->]. now rewrite B.
  Qed.
  Lemma num_ok t z : ok (VNum t z) (TNum t) <-> (0 <= z < 2 ^ bits t)%Z.
  Proof. unfold val_ok. simpl. rewrite andb_true_iff, Z.leb_le, Z.ltb_lt. intuition. Qed.
  Lemma num_inv v t : ok v (TNum t) -> exists z, v = VNum t z /\ (0 <= z < 2 ^ bits t)%Z.
  Proof.
    intros H. destruct v as [t' z|r o]; destruct H as (A & B & _); [|discriminate]. injection A as ->.
    exists z. split; [reflexivity|]. simpl in B. lia.
  Qed.
  Lemma ref_inv v r : ok v (TRef r) -> exists o, v = VRef r o.
  Proof. intros H. destruct v as [t' z|r' o]; destruct H as (A & _); [discriminate|]. injection A as ->. eauto. Qed.
  Lemma bool_ok (b : bool) : ok (vi32 (if b then 1 else 0)%Z) i32.
  Proof. apply num_ok. destruct b; simpl; lia. Qed.
  Lemma default_ok t : ok (default_val t) t.
  Proof.
    destruct t as [t|[|]]; simpl; repeat split; auto.
    simpl. destruct t; reflexivity.
  Qed.
  Lemma defaults_ok ts : Forall2 ok (map default_val ts) ts.
  Proof. induction ts; simpl; constructor; auto. apply default_ok. Qed.
  Lemma cons_inv st t ts : stack_ok nf st (t :: ts) -> exists v st', st = v :: st' /\ ok v t /\ stack_ok nf st' ts.
  Proof. intros F. inversion F; subst. eauto. Qed.

  Lemma bits_pos t : (0 < 2 ^ bits t)%Z. Proof. destruct t; reflexivity. Qed.
  Lemma mod_ok t z : ok (VNum t (z mod 2 ^ bits t)) (TNum t).
  Proof. apply num_ok. apply Z.mod_pos_bound, bits_pos. Qed.

  Lemma unop_ok num1 o z r : (0 <= z < 2 ^ bits (unop_in o))%Z -> unop_sem num1 o z = Some r ->
    ok (VNum (unop_out o) r) (TNum (unop_out o)).
  Proof.
    intros R E. unfold unop_sem in E.
    destruct o; simpl in *; try (injection E as <-; apply num_ok; simpl; first [lia | apply Z.mod_pos_bound; lia]);
      try (destruct (num1 _ z); simpl in E; [|discriminate]; injection E as <-;
           apply num_ok; simpl; apply Z.mod_pos_bound; lia).
    injection E as <-. apply bool_ok.
  Qed.
  Lemma binop_ok num2 o a b r : binop_sem num2 o a b = Some r -> ok (VNum (binop_out o) r) (TNum (binop_out o)).
  Proof.
    intros E. unfold binop_sem in E.
    destruct o; simpl in *;
      try (injection E as <-; first [apply bool_ok | apply num_ok; simpl; apply Z.mod_pos_bound; lia]);
      destruct (num2 _ a b); simpl in E; try discriminate; injection E as <-;
      apply num_ok; simpl; apply Z.mod_pos_bound; lia.
  Qed.
  Lemma load_ok me o a z : mem_load me o a = Some z -> ok (VNum (loadop_ty o) z) (TNum (loadop_ty o)).
  Proof.
    unfold mem_load. destruct (_ <=? _)%Z; [|discriminate]. intros E. injection E as <-.
    destruct (loadop_signed o).
    - unfold sign_extend. apply mod_ok.
    - apply num_ok. pose proof (le_read_range (ms_bytes me) a (loadop_bytes o)) as R.
      destruct o; simpl in *; (split; [apply R|]); eapply Z.lt_le_trans; try apply R; cbv; discriminate.
  Qed.
End Values.

(** ** Execution *)

Section Sound.
  Context {X : Type}.
  Notation store := (store X).
  Notation res := (res store).
  Variable num1 : unop -> Z -> option Z.
  Variable num2 : binop -> Z -> Z -> option Z.
  Variable I : X -> Prop.
  Notation ok C := (val_ok (List.length (c_funcs C))).
  Notation stk C := (Forall2 (val_ok (List.length (c_funcs C)))).

  (** Result of a call, of a body. *)
  Definition call_res (C : ctx) (ts : list valty) (r : res (list val * store)) : Prop :=
    match r with
    | Ok (vs, s) => Forall2 (ok C) vs ts /\ store_ok C I s
    | Trap s => store_ok C I s
    | Stuck => False
    | Oof => True
    end.
  Definition conf_ok (C : ctx) (ts : list valty) (r : res (@conf X)) : Prop :=
    match r with
    | Ok (o, st, ls, s) =>
        store_ok C I s /\ Forall2 (ok C) ls (c_locals C) /\
        match o with
        | ONext => stk C st ts
        | OBr l => exists lt rest, nth_error (c_labels C) l = Some lt /\ stk C st (rev lt ++ rest)
        | ORet => exists rest, stk C st (rev (c_ret C) ++ rest)
        end
    | Trap s => store_ok C I s
    | Stuck => False
    | Oof => True
    end.
  Definition mid_ok (C : ctx) (st ls : list val) (s : store) (ts : list valty) : Prop :=
    stk C st ts /\ Forall2 (ok C) ls (c_locals C) /\ store_ok C I s.

  Lemma sk_globals C (s : store) : store_ok C I s -> globals_ok C (st_globals s). Proof. intros D; apply D. Qed.
  Lemma sk_elems C (s : store) : store_ok C I s ->
    Forall2 (fun seg r => cells_ok (List.length (c_funcs C)) r seg) (st_elems s) (c_elems C).
  Proof. intros D; apply D. Qed.
  Lemma sk_datas C (s : store) : store_ok C I s -> List.length (st_datas s) = c_datas C. Proof. intros D; apply D. Qed.
  Ltac conj := repeat match goal with
    | |- _ /\ _ => split | |- mid_ok _ _ _ _ _ => split | |- table_ok _ _ _ => split
    | |- mem_ok _ (Some _) => split | |- val_ok _ (VRef _ _) _ => split end.

  Lemma next_ok C ts st ls s : mid_ok C st ls s ts -> conf_ok C ts (next st ls s).
  Proof. intros (A & B & D). simpl. auto. Qed.
  Lemma andthen_ok C ts ts' r k : conf_ok C ts r ->
    (forall st ls s, mid_ok C st ls s ts -> conf_ok C ts' (k st ls s)) ->
    conf_ok C ts' (andthen r k).
  Proof.
    destruct r as [[[[o st] ls] s]|s| |]; simpl; auto. intros (A & B & D) K.
    destruct o; simpl; [apply K; conj; assumption|..]; auto.
  Qed.

  Section Body.
    Variable C : ctx.
    Variable ftype : nat -> option functy.
    Variable call : nat -> list val -> store -> res (list val * store).
    Hypothesis ftype_ok : forall f, ftype f = nth_error (c_funcs C) f.
    Hypothesis call_ok : forall f ft args s,
      nth_error (c_funcs C) f = Some ft -> Forall2 (ok C) args (ft_in ft) -> store_ok C I s ->
      call_res C (ft_out ft) (call f args s).
    Notation exec := (exec num1 num2 ftype call).

    Lemma do_call_ok f ft st ls s rest :
      nth_error (c_funcs C) f = Some ft -> mid_ok C st ls s (rev (ft_in ft) ++ rest) ->
      conf_ok C (rev (ft_out ft) ++ rest) (do_call call f ft st ls s).
    Proof.
      intros N (A & B & D). unfold do_call.
      destruct (popn_ok _ _ A) as (vs & st' & -> & Fv & Fs). simpl.
      pose proof (call_ok f N Fv D) as R.
      destruct (call f vs s) as [[rs s']|s'| |]; simpl in *; auto.
      destruct R as (R1 & R2). conj; auto. now apply pushn_ok.
    Qed.

    Lemma set_mem_ok s me : store_ok C I s -> mem_ok C (Some me) -> store_ok C I (set_mem s (Some me)).
    Proof. intros (? & ? & ? & ? & ? & ?) M. repeat split; auto; apply M. Qed.
    Lemma set_table_ok s t tb r : store_ok C I s -> nth_error (c_tables C) t = Some r ->
      table_ok (List.length (c_funcs C)) tb r -> store_ok C I (set_tables s (set_nth t tb (st_tables s))).
    Proof. intros (? & ? & ? & ? & ? & ?) N T. unfold store_ok; cbn. conj; auto. eapply Forall2_set_nth; eauto. Qed.
    Lemma the_mem s : store_ok C I s -> c_mem C = true ->
      exists me, st_mem s = Some me /\ mem_ok C (Some me).
    Proof.
      intros (M & _) E. unfold mem_ok in M. destruct (st_mem s) as [me|]; [|congruence].
      exists me. split; [reflexivity|exact M].
    Qed.
    Lemma the_table s t r : store_ok C I s -> nth_error (c_tables C) t = Some r ->
      exists tb, nth_error (st_tables s) t = Some tb /\ table_ok (List.length (c_funcs C)) tb r.
    Proof. intros (_ & _ & T & _) E. eapply Forall2_nth; eauto. Qed.
    Lemma set_cells_ok nf tb r i cells : table_ok nf tb r -> cells_ok nf r cells ->
      (0 <= i)%Z -> (i + Z.of_nat (List.length cells) <= Z.of_nat (List.length (ts_elems tb)))%Z ->
      table_ok nf (set_cells tb i cells) r.
    Proof.
      intros (A & B & D) Fc P L. unfold set_cells. conj; simpl; auto; try apply D.
      - unfold cells_ok. apply Forall_app; split; [now apply Forall_firstn|].
        apply Forall_app; split; [assumption|now apply Forall_skipn].
      - rewrite !app_length, firstn_length, skipn_length. lia.
    Qed.

    Lemma bulk_ok b ts st ls s rest :
      btype C b (FT ts []) -> bulk_arity b = Some (List.length ts) ->
      mid_ok C st ls s (rev ts ++ rest) ->
      conf_ok C rest (let* k := rget (bulk_arity b) in
                      let* (vs, st') := rget (popn k st) in
                      let* s' := bulk b vs s in next st' ls s').
    Proof.
      intros T EA (A & B & D). rewrite EA. cbn [rget rbind].
      destruct (popn_ok _ _ A) as (vs & st' & -> & Fv & Fs). cbn [rget rbind].
      assert (W : forall s', store_ok C I s' -> conf_ok C rest (next st' ls s')) by (intros; simpl; auto).
      inversion T; subst; try discriminate EA; simpl in Fv;
        repeat match goal with
        | H : Forall2 _ ?vs (_ :: _) |- _ => apply cons_inv in H as (? & ? & ? & ? & H); subst
        | H : Forall2 _ ?vs [] |- _ => inversion H; subst; clear H
        | H : val_ok _ ?v (TRef _) |- _ => destruct (ref_inv H) as (? & ?); subst v
        | H : val_ok _ ?v i32 |- _ => apply num_inv in H as (? & ? & ?); subst v
        end; cbn [bulk].
      - (* table.fill *)
        destruct (the_table t D ltac:(eassumption)) as (tb & E & Tb). rewrite E. cbn [rget rbind].
        match goal with |- context [if ?c then _ else _] => destruct c eqn:EC end; [|simpl; auto].
        simpl. split; [|auto]. eapply set_table_ok; eauto. apply set_cells_ok; auto; try lia.
        + now apply Forall_repeat.
        + rewrite repeat_length. lia.
      - destruct (the_table t1 D ltac:(eassumption)) as (tb & E & Tb). rewrite E. cbn [rget rbind].
        destruct (the_table t2 D ltac:(eassumption)) as (tb2 & E2 & Tb2). rewrite E2. cbn [rget rbind].
        match goal with |- context [if ?c then _ else _] => destruct c eqn:EC end; [|simpl; auto].
        apply andb_prop in EC as [L1 L2]. simpl. split; [|auto]. eapply set_table_ok; eauto. apply set_cells_ok; auto; try lia.
        + apply Forall_firstn, Forall_skipn, Tb2.
        + rewrite firstn_length, skipn_length. lia.
      - destruct (the_table t D ltac:(eassumption)) as (tb & E & Tb). rewrite E. cbn [rget rbind].
        destruct (Forall2_nth _ (sk_elems D) ltac:(eassumption)) as (seg & E2 & Tb2). rewrite E2. cbn [rget rbind].
        match goal with |- context [if ?c then _ else _] => destruct c eqn:EC end; [|simpl; auto].
        apply andb_prop in EC as [L1 L2]. simpl. split; [|auto]. eapply set_table_ok; eauto. apply set_cells_ok; auto; try lia.
        + now apply Forall_firstn, Forall_skipn.
        + rewrite firstn_length, skipn_length. lia.
      - destruct (nth_error (c_elems C) e) as [r|] eqn:N; [|apply nth_error_None in N; lia].
        destruct (Forall2_nth _ (sk_elems D) N) as (seg & E & Sg). rewrite E. simpl. split; [|auto].
        destruct D as (? & ? & ? & ? & ? & ?). unfold store_ok; cbn; conj; auto. eapply Forall2_set_nth; eauto. constructor.
      - destruct (the_mem D) as (me & E & M); [assumption|]. rewrite E. cbn [rget rbind].
        match goal with |- context [if ?c then _ else _] => destruct c end; simpl; auto.
        split; [|auto]. apply set_mem_ok; auto.
      - destruct (the_mem D) as (me & E & M); [assumption|]. rewrite E. cbn [rget rbind].
        match goal with |- context [if ?c then _ else _] => destruct c end; simpl; auto.
        split; [|auto]. apply set_mem_ok; auto.
      - destruct (the_mem D) as (me & E & M); [assumption|]. rewrite E. cbn [rget rbind].
        destruct (nth_error (st_datas s) d) eqn:N; [|apply nth_error_None in N; pose proof (sk_datas D); lia].
        cbn [rget rbind].
        match goal with |- context [if ?c then _ else _] => destruct c end; simpl; auto.
        split; [|auto]. apply set_mem_ok; auto.
      - destruct (nth_error (st_datas s) d) eqn:N; [|apply nth_error_None in N; pose proof (sk_datas D); lia].
        simpl. split; [|auto]. destruct D as (? & ? & ? & ? & ? & ?). unfold store_ok; cbn; conj; auto. now rewrite set_nth_len.
    Qed.

    (** Take known operands apart. *)
    Ltac operands :=
      repeat match goal with
      | H : Forall2 _ ?st (_ :: _) |- _ => apply cons_inv in H as (? & ? & -> & ? & H)
      | H : val_ok _ ?v i32 |- _ => apply num_inv in H as (? & -> & ?)
      | H : val_ok _ ?v (TNum _) |- _ => apply num_inv in H as (? & -> & ?)
      end.
    Ltac go := simpl; conj; auto; try (constructor; auto).

    Lemma exec_ok b ft st ls s rest :
      btype C b ft -> representable (LBasic b) -> mid_ok C st ls s (rev (ft_in ft) ++ rest) ->
      conf_ok C (rev (ft_out ft) ++ rest) (exec b st ls s).
    Proof.
      intros T RP M. pose proof M as (A & B & D).
      destruct T; cbn [ft_in ft_out] in *;
        try (unfold exec; apply bulk_ok with (ts := ft_in (FT [i32; TRef r; i32] [])); [econstructor; eauto|reflexivity|exact M]);
        try (unfold exec; apply bulk_ok with (ts := [i32; i32; i32]); [econstructor; eauto|reflexivity|exact M]);
        try (unfold exec; apply bulk_ok with (ts := []); [econstructor; eauto|reflexivity|exact M]).
      - exact D.
      - now apply next_ok.
      - simpl. conj; auto. rewrite rev_app_distr, <- app_assoc in A. eauto.
      - rewrite rev_app_distr in A. simpl in A. operands. simpl. destruct (_ =? 0)%Z; go.
        exists lt, rest. auto.
      - rewrite !rev_app_distr, <- !app_assoc in A. simpl in A. operands. simpl. conj; auto.
        exists lt, (rev a ++ rest). split; [|exact A]. inversion H as [|? ? Hd Ht]; subst.
        destruct (nth_in_or_default (Z.to_nat x1) table d) as [Hi| ->]; [|assumption].
        rewrite Forall_forall in Ht. now apply Ht.
      - simpl. conj; auto. rewrite rev_app_distr, <- app_assoc in A. eauto.
      - simpl. rewrite ftype_ok, H. cbn [rget rbind]. now apply do_call_ok.
      - rewrite rev_app_distr in A. simpl in A. operands. simpl.
        destruct (the_table t D H) as (tb & -> & (_ & Tb & _)). cbn [rget rbind].
        destruct (nth_error (ts_elems tb) _) as [[f|]|] eqn:N; simpl; auto.
        rewrite ftype_ok. unfold cells_ok in Tb. rewrite Forall_forall in Tb.
        destruct (Tb _ (nth_error_In _ _ N)) as (_ & _ & L). simpl in L.
        destruct (nth_error (c_funcs C) f) as [ft'|] eqn:Nf; [|apply nth_error_None in Nf; lia]. simpl.
        destruct (functy_eqb ft' ft) eqn:Q; [|exact D]. apply functy_eqb_eq in Q as ->.
        apply do_call_ok; auto. conj; auto.
      - simpl. conj; auto. constructor; auto. conj; auto. now destruct r.
      - simpl in A. operands. destruct (ref_inv H) as (o & ->). simpl. go. destruct o; apply num_ok; simpl; lia.
      - simpl. conj; auto. constructor; auto. conj; auto.
      - simpl in A. operands. go.
      - simpl in A. operands. simpl. destruct (_ =? 0)%Z; go; apply num_ok; auto.
      - simpl in A. operands. simpl. destruct (_ =? 0)%Z; go.
      - destruct (Forall2_nth _ B H) as (v & E & V). simpl. rewrite E. go.
      - simpl in A. operands. destruct (Forall2_nth _ B H) as (v & E & V). simpl. rewrite E. go.
        eapply Forall2_set_nth; eauto.
      - simpl in A. operands. destruct (Forall2_nth _ B H) as (v & E & V). simpl. rewrite E. go.
        eapply Forall2_set_nth; eauto.
      - destruct (Forall2_nth _ (sk_globals D) H) as (v & E & V). simpl. rewrite E. go.
      - simpl in A. operands. destruct (Forall2_nth _ (sk_globals D) H) as (v & E & V). simpl. rewrite E. simpl. split; [|auto].
        destruct D as (? & ? & ? & ? & ? & ?). unfold store_ok; cbn; conj; auto. eapply Forall2_set_nth; eauto.
      - simpl in A. operands. simpl. destruct (the_table t D H) as (tb & -> & (<- & Tb & _)). cbn [rget rbind].
        destruct (nth_error (ts_elems tb) _) as [o|] eqn:N; simpl; auto.
        unfold cells_ok in Tb. rewrite Forall_forall in Tb. conj; auto. constructor; auto. apply Tb. eapply nth_error_In; eauto.
      - simpl in A. operands. destruct (ref_inv H0) as (o & ->). simpl.
        destruct (the_table t D H) as (tb & E & (R & Tb & L)). rewrite E. cbn [rget rbind].
        destruct (nth_error (ts_elems tb) _) as [o'|] eqn:N; simpl; auto.
        split; [|auto]. eapply set_table_ok; eauto. conj; simpl; auto; try (rewrite set_nth_len; apply L); try apply L.
        apply Forall_set_nth; auto.
      - simpl. destruct (the_table t D H) as (tb & -> & (R & Tb & L)). simpl. conj; auto. constructor; auto. apply num_ok. simpl. lia.
      - simpl in A. operands. destruct (ref_inv H1) as (o & ->). simpl.
        destruct (the_table t D H) as (tb & E & (R & Tb & L)). rewrite E. cbn [rget rbind].
        match goal with |- context [(?p <=? ?q)%Z] => destruct (Z.leb_spec p q) end.
        + simpl. split; [|split; [auto|constructor; auto; apply num_ok; simpl; lia]].
          eapply set_table_ok; eauto. conj; simpl; auto; try apply L.
          * apply Forall_app; split; [auto|]. now apply Forall_repeat.
          * rewrite app_length, repeat_length. lia.
        + simpl. conj; auto. constructor; auto. apply num_ok. simpl. lia.
      - simpl in A. operands. simpl. destruct (the_mem D H) as (me & -> & _). cbn [rget rbind].
        destruct (mem_load me o _) as [z|] eqn:L; simpl; auto. conj; auto. constructor; auto. eapply load_ok; eauto.
      - simpl in A. operands. simpl. rewrite (proj2 (numty_eqb_eq _ _) eq_refl).
        destruct (the_mem D H) as (me & -> & M'). cbn [rget rbind].
        unfold mem_store. destruct (_ <=? _)%Z; simpl; auto. split; [|auto]. apply set_mem_ok; auto.
      - simpl. destruct (the_mem D H) as (me & -> & (M1 & M2)). simpl. conj; auto. constructor; auto. apply num_ok. simpl. lia.
      - simpl in A. operands. simpl. destruct (the_mem D H) as (me & E & M'). rewrite E. cbn [rget rbind].
        unfold mem_grow. destruct M' as (M1 & M2 & M3).
        match goal with |- context [(?p <=? ?q)%Z] => destruct (Z.leb_spec p q) end; simpl; (split; [|split]);
          auto; try (apply set_mem_ok; [assumption|simpl; conj; auto; lia]);
          constructor; auto; apply num_ok; simpl; lia.
      - simpl in *. conj; auto. constructor; auto. repeat split; auto.
      - simpl in A. operands. simpl. rewrite (proj2 (numty_eqb_eq _ _) eq_refl).
        destruct (unop_sem num1 o _) as [r|] eqn:E; simpl; auto. conj; auto. constructor; auto. eapply unop_ok; eauto.
      - simpl in A. operands. simpl. rewrite (proj2 (numty_eqb_eq _ _) eq_refl). simpl.
        destruct (binop_sem num2 o _ _) as [r|] eqn:E; simpl; auto. conj; auto. constructor; auto. eapply binop_ok; eauto.
    Qed.
  End Body.

  (** Labelled bodies. *)
  Section Labels.
    Variable C : ctx.
    Variable ft : functy.
    Variable body : list val -> list val -> store -> res (@conf X).

    Lemma run_block_ok st ls s rest :
      (forall st ls s, mid_ok (label C (ft_out ft)) st ls s (rev (ft_in ft)) ->
         conf_ok (label C (ft_out ft)) (rev (ft_out ft)) (body st ls s)) ->
      mid_ok C st ls s (rev (ft_in ft) ++ rest) -> conf_ok C (rev (ft_out ft) ++ rest) (run_block body ft st ls s).
    Proof.
      intros Hb (A & B & D). unfold run_block.
      destruct (popn_ok _ _ A) as (vs & st' & -> & Fv & Fs). cbn [rget rbind].
      assert (M : mid_ok (label C (ft_out ft)) (pushn vs []) ls s (rev (ft_in ft))).
      { conj; auto. rewrite <- (app_nil_r (rev (ft_in ft))). apply pushn_ok; [exact Fv|constructor]. }
      specialize (Hb _ _ _ M).
      destruct (body (pushn vs []) ls s) as [[[[o st1] ls1] s1]|s1| |]; simpl in *; auto.
      destruct Hb as (P & Q & R). destruct o as [|[|l]|]; simpl.
      - conj; auto. now apply Forall2_app.
      - destruct R as (lt & rs & E & R). simpl in E. injection E as <-.
        destruct (popn_ok _ _ R) as (ws & st2 & -> & Fw & Fr). simpl. conj; auto. now apply pushn_ok.
      - destruct R as (lt & rs & E & R). conj; auto. eauto.
      - conj; auto.
    Qed.
    Lemma run_loop_ok loops st ls s rest :
      (forall st ls s, mid_ok (label C (ft_in ft)) st ls s (rev (ft_in ft)) ->
         conf_ok (label C (ft_in ft)) (rev (ft_out ft)) (body st ls s)) ->
      mid_ok C st ls s (rev (ft_in ft) ++ rest) -> conf_ok C (rev (ft_out ft) ++ rest) (run_loop loops body ft st ls s).
    Proof.
      intros Hb (A & B & D). unfold run_loop.
      destruct (popn_ok _ _ A) as (vs & st' & -> & Fv & Fs). cbn [rget rbind]. clear st A.
      revert vs ls s Fv B D. induction loops as [|k IH]; intros vs ls s Fv B D; [exact Logic.I|]. simpl.
      assert (M : mid_ok (label C (ft_in ft)) (pushn vs []) ls s (rev (ft_in ft))).
      { conj; auto. rewrite <- (app_nil_r (rev (ft_in ft))). apply pushn_ok; [exact Fv|constructor]. }
      specialize (Hb _ _ _ M).
      destruct (body (pushn vs []) ls s) as [[[[o st1] ls1] s1]|s1| |]; simpl in *; auto.
      destruct Hb as (P & Q & R). destruct o as [|[|l]|]; simpl.
      - conj; auto. now apply Forall2_app.
      - destruct R as (lt & rs & E & R). simpl in E. injection E as <-.
        destruct (popn_ok _ _ R) as (ws & st2 & -> & Fw & Fr). simpl. now apply IH.
      - destruct R as (lt & rs & E & R). conj; auto. eauto.
      - conj; auto.
    Qed.
  End Labels.

  Section Run.
    Variable ftype : nat -> option functy.
    Variable call : nat -> list val -> store -> res (list val * store).
    Variable loops : nat.
    Definition calls_ok (C : ctx) : Prop :=
      (forall f, ftype f = nth_error (c_funcs C) f) /\
      (forall f ft args s,
         nth_error (c_funcs C) f = Some ft -> Forall2 (ok C) args (ft_in ft) -> store_ok C I s ->
         call_res C (ft_out ft) (call f args s)).

    Lemma if_ok C ft c st ls s rest (k1 k2 : list val -> list val -> store -> res (@conf X)) :
      (forall st ls s, mid_ok (label C (ft_out ft)) st ls s (rev (ft_in ft)) ->
         conf_ok (label C (ft_out ft)) (rev (ft_out ft)) (k1 st ls s)) ->
      (forall st ls s, mid_ok (label C (ft_out ft)) st ls s (rev (ft_in ft)) ->
         conf_ok (label C (ft_out ft)) (rev (ft_out ft)) (k2 st ls s)) ->
      mid_ok C (VNum TI32 c :: st) ls s (rev (ft_in ft ++ [i32]) ++ rest) ->
      conf_ok C (rev (ft_out ft) ++ rest)
        (if (c =? 0)%Z then run_block k1 ft st ls s else run_block k2 ft st ls s).
    Proof.
      intros H1 H2 (A & B & D). rewrite rev_app_distr in A. simpl in A. apply cons_inv in A as (v & st' & E & _ & A).
      injection E as _ <-. destruct (c =? 0)%Z; apply run_block_ok; auto; conj; auto.
    Qed.
    Lemma cond_inv C ft st ls s rest :
      mid_ok C st ls s (rev (ft_in ft ++ [i32]) ++ rest) -> exists c st', st = VNum TI32 c :: st'.
    Proof.
      intros (A & _). rewrite rev_app_distr in A. simpl in A. apply cons_inv in A as (v & st' & -> & V & A).
      apply num_inv in V as (z & -> & _). eauto.
    Qed.

    Lemma run_ok b : forall C ts ts' st ls s, calls_ok C -> Forall representable (uflat b) ->
      seq_ok C b ts ts' -> mid_ok C st ls s ts -> conf_ok C ts' (run num1 num2 ftype call loops b st ls s).
    Proof.
      induction b as [|b r IHr|ft body r IHb IHr|ft body r IHb IHr|ft thn r IHt IHr|ft thn els r IHt IHe IHr] using ubody_ind;
        intros C ts ts' st ls s K RP T M; inversion T as [|? ? ? ft' rest ? Ti Tr]; subst; clear T;
        [now apply next_ok|..]; unfold run; cbn [run_seq];
        unfold uflat in *; cbn [flat_map uflat1 app] in RP;
        rewrite ?Forall_app, ?Forall_cons_iff, ?Forall_app, ?Forall_cons_iff, ?Forall_app in RP;
        apply andthen_ok with (ts := rev (ft_out ft') ++ rest);
        try (intros; apply IHr with (C := C) (ts := rev (ft_out ft') ++ rest); tauto);
        inversion Ti; subst; clear Ti; cbn [run1].
      - destruct K. apply exec_ok; tauto.
      - apply run_block_ok; [|assumption]. intros. apply IHb with (ts := rev (ft_in ft')); tauto.
      - apply run_loop_ok; [|assumption]. intros. apply IHb with (ts := rev (ft_in ft')); tauto.
      - cbn [ft_in ft_out] in *. destruct (cond_inv _ _ M) as (c & st' & ->). cbn [pop_i32 rbind].
        apply if_ok; [| |assumption].
        + intros ? ? ? N. apply next_ok. now rewrite H4 in N.
        + intros. apply IHt with (ts := rev (ft_in ft)); tauto.
      - cbn [ft_in ft_out] in *. destruct (cond_inv _ _ M) as (c & st' & ->). cbn [pop_i32 rbind].
        apply if_ok; [| |assumption].
        + intros. apply IHe with (ts := rev (ft_in ft)); tauto.
        + intros. apply IHt with (ts := rev (ft_in ft)); tauto.
    Qed.
  End Run.

  (** A whole body. *)
  Lemma invoke_ok C locals ft body args s :
    c_locals C = ft_in ft ++ locals -> c_labels C = [ft_out ft] -> c_ret C = ft_out ft ->
    (forall ls s, mid_ok C [] ls s [] -> conf_ok C (rev (ft_out ft)) (body [] ls s)) ->
    Forall2 (ok C) args (ft_in ft) -> store_ok C I s ->
    call_res C (ft_out ft) (invoke body ft locals args s).
  Proof.
    intros EL EB ER Hb Fa D. unfold invoke.
    specialize (Hb (args ++ map default_val locals) s).
    destruct (body [] (args ++ map default_val locals) s) as [[[[o st] ls] s1]|s1| |];
      simpl in Hb |- *; try (apply Hb; conj; auto; rewrite EL; apply Forall2_app; auto; apply defaults_ok).
    destruct Hb as (P & Q & R); [conj; auto; rewrite EL; apply Forall2_app; auto; apply defaults_ok|].
    assert (W : exists rest, stk C st (rev (ft_out ft) ++ rest) /\ (o = ONext -> rest = []) /\ (forall l, o <> OBr (S l))).
    { destruct o as [|l|].
      - exists []. rewrite app_nil_r. conj; auto. discriminate.
      - destruct R as (lt & rest & E & R). rewrite EB in E. destruct l as [|l]; [|destruct l; discriminate].
        injection E as <-. exists rest. conj; auto; discriminate.
      - destruct R as (rest & R). rewrite ER in R. exists rest. conj; auto; discriminate. }
    destruct W as (rest & W & W1 & W2).
    destruct (popn_ok _ _ W) as (rs & st' & -> & Fr & Fs). cbn [rget rbind].
    destruct o as [|[|l]|]; simpl; auto.
    - rewrite W1 in Fs by reflexivity. inversion Fs; subst. simpl. auto.
    - now destruct (W2 l).
  Qed.

  (** Agents. *)
  Lemma run_x_ok C xty export ts p s :
    (forall name ft args s, xty name = Some ft -> Forall2 (ok C) args (ft_in ft) -> store_ok C I s ->
       call_res C (ft_out ft) (export name args s)) ->
    agent_ok C I xty ts p -> store_ok C I s -> call_res C ts (run_x export p s).
  Proof.
    intros Hx. revert s. induction p as [vs| | |k IH|x m g p IH|name args k IH]; intros s A D; simpl in *; auto.
    - apply IH; auto. apply A; apply D.
    - destruct A as (A1 & A2 & A3 & A). apply IH; [exact A|]. destruct D as (? & ? & ? & ? & ? & ?). unfold store_ok; cbn; conj; auto.
    - destruct A as (ft & E & F & A). specialize (Hx _ _ _ _ E F D).
      destruct (export name args s) as [[vs s1]|s1| |]; simpl in *; auto. apply IH; [|apply Hx]. now apply A.
  Qed.
  Lemma call_import_ok C xty ext export ft ns name args s :
    (forall name ft args s, xty name = Some ft -> Forall2 (ok C) args (ft_in ft) -> store_ok C I s ->
       call_res C (ft_out ft) (export name args s)) ->
    agent_ok C I xty (ft_out ft) (ext ns name args) -> store_ok C I s ->
    call_res C (ft_out ft) (call_import ext export ft ns name args s).
  Proof.
    intros Hx A D. unfold call_import. pose proof (@run_x_ok C xty export (ft_out ft) _ s Hx A D) as R.
    destruct (run_x export (ext ns name args) s) as [[vs s1]|s1| |]; simpl in *; auto.
    destruct R as (R1 & R2). rewrite (vals_ok_of R1). simpl. auto.
  Qed.
End Sound.
