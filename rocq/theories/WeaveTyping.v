(** The instrumented code has the types of the original code (C14, C15). *)
From Verif Require Import Typing AdvisedTyping WeaveSpec NestingSpec NestingProofs AdviceProofs RunLemmas.

(** [C'] provides everything [C] does, at the same indices. *)
Definition extends_list {A} (l l' : list A) : Prop := forall i a, nth_error l i = Some a -> nth_error l' i = Some a.
Record ctx_le (C C' : ctx) : Prop := {
  le_funcs : extends_list (c_funcs C) (c_funcs C');
  le_tables : extends_list (c_tables C) (c_tables C');
  le_mem : c_mem C = c_mem C';
  le_globals : extends_list (c_globals C) (c_globals C');
  le_elems : extends_list (c_elems C) (c_elems C');
  le_datas : c_datas C <= c_datas C';
  le_locals : c_locals C = c_locals C';
  le_labels : c_labels C = c_labels C';
  le_ret : c_ret C = c_ret C' }.
Lemma ctx_le_label C C' ts : ctx_le C C' -> ctx_le (label C ts) (label C' ts).
Proof. intros []. constructor; simpl; auto. now f_equal. Qed.
Lemma extends_list_len {A} (l l' : list A) : extends_list l l' -> List.length l <= List.length l'.
Proof.
  intros E. destruct (Nat.le_gt_cases (List.length l) (List.length l')) as [|G]; [assumption|]. exfalso.
  destruct (nth_error l (List.length l')) as [a|] eqn:N; [|apply nth_error_None in N; lia].
  apply E in N. assert (List.length l' < List.length l') by (apply nth_error_Some; congruence). lia.
Qed.
Lemma extends_list_app {A} (l r : list A) : extends_list l (l ++ r).
Proof. intros i a N. rewrite nth_error_app1; [assumption|]. apply nth_error_Some. congruence. Qed.
Lemma extends_list_refl {A} (l : list A) : extends_list l l. Proof. intros i a N. exact N. Qed.
Lemma extends_list_trans {A} (a b c : list A) : extends_list a b -> extends_list b c -> extends_list a c.
Proof. intros F G i x N. auto. Qed.

Lemma btype_le C C' b ft : ctx_le C C' -> btype C b ft -> btype C' b ft.
Proof.
  intros [F T M G E D L LA R] B. pose proof (extends_list_len F). pose proof (extends_list_len E).
  destruct B; rewrite ?LA, ?M, ?L, ?R in *; try (econstructor; eauto; fail); try (constructor; lia).
Qed.
Scheme instr_ok_ind' := Induction for instr_ok Sort Prop
  with seq_ok_ind' := Induction for seq_ok Sort Prop.
Lemma seq_ok_le C b ts ts' : seq_ok C b ts ts' -> forall C', ctx_le C C' -> seq_ok C' b ts ts'.
Proof.
  intros H. apply (@seq_ok_ind' (fun C i ft _ => forall C', ctx_le C C' -> instr_ok C' i ft)
                               (fun C b ts ts' _ => forall C', ctx_le C C' -> seq_ok C' b ts ts')); auto; clear.
  - intros C b ft B C' L. constructor. eapply btype_le; eauto.
  - intros. constructor. eauto using ctx_le_label.
  - intros. constructor. eauto using ctx_le_label.
  - intros. constructor; eauto using ctx_le_label.
  - intros. constructor; eauto using ctx_le_label.
  - intros. constructor.
  - intros. econstructor; eauto.
Qed.
Lemma seq_ok_app C a b t1 t2 t3 : seq_ok C a t1 t2 -> seq_ok C b t2 t3 -> seq_ok C (a ++ b) t1 t3.
Proof. induction 1; intros; simpl; [assumption|]. econstructor; eauto. Qed.
Lemma seq_ok_one C i ft rest : instr_ok C i ft -> seq_ok C [i] (rev (ft_in ft) ++ rest) (rev (ft_out ft) ++ rest).
Proof. intros. econstructor; [eassumption|constructor]. Qed.
Lemma seq_ok_basic C b i o rest : btype C b (FT i o) -> seq_ok C [UBasic b] (rev i ++ rest) (rev o ++ rest).
Proof. intros T. exact (@seq_ok_one C (UBasic b) (FT i o) rest (io_basic T)). Qed.

(** Constants. *)
Definition pushes (b : basic) (t : valty) : Prop := exists n z, b = BConst n z /\ t = TNum n.
Lemma consts_ok C ops ts : Forall2 pushes ops ts -> forall st, seq_ok C (map UBasic ops) st (rev ts ++ st).
Proof.
  induction 1 as [|b t ops ts (n & z & -> & ->) F IH]; intros st; simpl; [constructor|].
  rewrite <- app_assoc. change st with (rev (ft_in (FT [] [TNum n])) ++ st) at 1.
  econstructor; [constructor; constructor|]. apply IH.
Qed.

Definition hook_type (h : hook) : functy := FT (map TNum (trap_args h)) (map TNum (trap_results h)).

Section Weave.
  Variable H : hook -> option nat.
  Variable hf : nat -> nat.
  Definition hooks_in (fs : list functy) : Prop := forall h f, H h = Some f -> nth_error fs f = Some (hook_type h).
  Definition helpers_in (fs : list functy) (bts : list (nat * (list nat * nat))) : Prop :=
    forall p x, In (p, x) bts -> H HkBrTable <> None -> nth_error fs (hf p) = Some br_helper_type.

  Lemma strip_point h m ops : map strip (point H h m ops) =
    match H h with
    | Some f => map UBasic ops ++ [UBasic (i64c (m_fun m)); UBasic (i64c (m_pos m)); UBasic (BCall f)]
    | None => []
    end.
  Proof. unfold point. destruct (H h); [|reflexivity]. rewrite map_map. cbn [strip]. rewrite map_app. reflexivity. Qed.

  Section At.
    Variable C : ctx.
    Hypothesis HK : hooks_in (c_funcs C).
    Lemma call_hook h f opts cts rest : H h = Some f -> map TNum (trap_args h) = opts ++ cts ->
      seq_ok C [UBasic (BCall f)] (rev cts ++ rev opts ++ rest) (rev (map TNum (trap_results h)) ++ rest).
    Proof.
      intros E T. rewrite app_assoc, <- rev_app_distr, <- T. apply seq_ok_basic. constructor. exact (HK E).
    Qed.
    Lemma point_on h f m ops opts cts rest : H h = Some f ->
      map TNum (trap_args h) = opts ++ cts ++ [i64; i64] -> Forall2 pushes ops cts ->
      seq_ok C (map strip (point H h m ops)) (rev opts ++ rest) (rev (map TNum (trap_results h)) ++ rest).
    Proof.
      intros E T P. rewrite strip_point, E.
      assert (P' : Forall2 pushes (ops ++ [i64c (m_fun m); i64c (m_pos m)]) (cts ++ [i64; i64])).
      { apply Forall2_app; [assumption|]. repeat constructor; repeat eexists. }
      replace (map UBasic ops ++ [UBasic (i64c (m_fun m)); UBasic (i64c (m_pos m)); UBasic (BCall f)])
        with (map UBasic (ops ++ [i64c (m_fun m); i64c (m_pos m)]) ++ [UBasic (BCall f)])
        by (rewrite map_app, <- app_assoc; reflexivity).
      eapply seq_ok_app; [apply (consts_ok C P')|]. eapply call_hook; eauto.
    Qed.
    Lemma point_same_ok h m ops opts cts rest :
      map TNum (trap_args h) = opts ++ cts ++ [i64; i64] -> map TNum (trap_results h) = opts -> Forall2 pushes ops cts ->
      seq_ok C (map strip (point H h m ops)) (rev opts ++ rest) (rev opts ++ rest).
    Proof.
      intros T R P. destruct (H h) as [f|] eqn:E.
      - rewrite <- R at 2. eapply point_on; eauto.
      - rewrite strip_point, E. constructor.
    Qed.

    Lemma push1 t z : Forall2 pushes [BConst t z] [TNum t].
    Proof. repeat constructor. repeat eexists. Qed.
    Lemma push2 t z t' z' : Forall2 pushes [BConst t z; BConst t' z'] [TNum t; TNum t'].
    Proof. repeat constructor; repeat eexists. Qed.
    Hint Resolve push1 push2 : core.

    (** C14: the code put in place of an instruction has every type of the instruction. *)
    Lemma weave_basic_ok m b ft rest : btype C b ft ->
      match b with
      | BLocal _ _ | BGlobal _ _ => m_ty m = IReach ft \/ m_ty m = IUnreach
      | BBrTable _ _ => H HkBrTable <> None -> m_gen m = false -> nth_error (c_funcs C) (hf (m_pos m)) = Some br_helper_type
      | _ => True
      end ->
      seq_ok C (map strip (weave_basic H hf m b)) (rev (ft_in ft) ++ rest) (rev (ft_out ft) ++ rest).
    Proof.
      intros T A.
      assert (O : seq_ok C [UBasic b] (rev (ft_in ft) ++ rest) (rev (ft_out ft) ++ rest)).
      { apply seq_ok_one. now constructor. }
      unfold weave_basic. destruct (m_gen m); [exact O|].
      assert (Hpre : forall h ops opts cts base,
        map TNum (trap_args h) = opts ++ cts ++ [i64; i64] -> map TNum (trap_results h) = opts ->
        Forall2 pushes ops cts -> rev (ft_in ft) ++ rest = rev opts ++ base ->
        seq_ok C (map strip (point H h m ops ++ [TBasic m b])) (rev (ft_in ft) ++ rest) (rev (ft_out ft) ++ rest)).
      { intros h ops opts cts base E1 E2 P E3. rewrite map_app. eapply seq_ok_app; [|exact O]. rewrite E3. eapply point_same_ok; eauto. }
      assert (Hpost : forall h ops opts cts base,
        map TNum (trap_args h) = opts ++ cts ++ [i64; i64] -> map TNum (trap_results h) = opts ->
        Forall2 pushes ops cts -> rev (ft_out ft) ++ rest = rev opts ++ base ->
        seq_ok C (map strip ([TBasic m b] ++ point H h m ops)) (rev (ft_in ft) ++ rest) (rev (ft_out ft) ++ rest)).
      { intros h ops opts cts base E1 E2 P E3. rewrite map_app. eapply seq_ok_app; [exact O|]. rewrite E3. eapply point_same_ok; eauto. }
      assert (Hinst : forall h ops cts,
        map TNum (trap_args h) = ft_in ft ++ cts ++ [i64; i64] -> map TNum (trap_results h) = ft_out ft ->
        Forall2 pushes ops cts ->
        seq_ok C (map strip (instead H h m ops [TBasic m b])) (rev (ft_in ft) ++ rest) (rev (ft_out ft) ++ rest)).
      { intros h ops cts E1 E2 P. unfold instead. destruct (H h) eqn:E; [|exact O]. rewrite <- E2. eapply point_on; eauto. }
      destruct b; try exact O.
      - eapply Hpre with (opts := []) (cts := [i64]); try reflexivity; apply push1.
      - inversion T; subst. eapply Hpre with (opts := [i32]) (cts := [i32]); try reflexivity; [apply push1|].
        cbn [ft_in]. rewrite rev_app_distr. reflexivity.
      - (* br_table *) inversion T; subst. rewrite map_app. eapply seq_ok_app; [|exact O].
        rewrite strip_point. destruct (H HkBrTable) as [f|] eqn:E; [|constructor].
        assert (N : nth_error (c_funcs C) (hf (m_pos m)) = Some br_helper_type) by (apply A; congruence).
        cbn [ft_in]. rewrite !rev_app_distr. cbn [rev app map]. rewrite <- app_assoc.
        apply (@so_cons C _ _ br_helper_type (rev lt ++ rev a ++ rest)); [constructor; now constructor|].
        change (rev (ft_out br_helper_type) ++ rev lt ++ rev a ++ rest) with (rev [i32; i32] ++ rev lt ++ rev a ++ rest).
        assert (P : Forall2 pushes [i32c dflt; i64c (m_fun m); i64c (m_pos m)] [i32; i64; i64]) by (repeat constructor; repeat eexists).
        apply (@seq_ok_app C (map UBasic [i32c dflt; i64c (m_fun m); i64c (m_pos m)]) [UBasic (BCall f)] _ _ _ (consts_ok C P _)).
        exact (@call_hook HkBrTable f [i32; i32] [i32; i64; i64] (rev lt ++ rev a ++ rest) E eq_refl).
      - eapply Hpre with (opts := []) (cts := []); try reflexivity. constructor.
      - (* call *) rewrite app_assoc, map_app. eapply seq_ok_app.
        + eapply Hpre with (opts := []) (cts := [i32]); try reflexivity; try apply push1.
        + apply (@point_same_ok HkCallPost m [i32c f] [] [i32]); try reflexivity; try apply push1.
      - inversion T; subst. rewrite app_assoc, map_app. eapply seq_ok_app.
        + eapply Hpre with (opts := [i32]) (cts := [i32]); try reflexivity; [apply push1|]. cbn [ft_in]. rewrite rev_app_distr. reflexivity.
        + apply (@point_same_ok HkCallIndPost m [i32c tbl] [] [i32]); try reflexivity; try apply push1.
      - eapply Hpre with (opts := []) (cts := []); try reflexivity. constructor.
      - inversion T; subst. eapply Hpre with (opts := [i32]) (cts := []); try reflexivity. constructor.
      - inversion T; subst. eapply Hpre with (opts := [i32]) (cts := []); try reflexivity. constructor.
      - (* locals *) destruct A as [A|A]; rewrite A; [|destruct o; exact O].
        destruct o; inversion T; subst.
        + destruct t as [n|]; [|exact O]. eapply Hpost with (opts := [TNum n]) (cts := [i64]); try reflexivity; try (now destruct n); try apply push1.
        + destruct t as [n|]; [|exact O]. eapply Hpre with (opts := [TNum n]) (cts := [i64]); try reflexivity; try (now destruct n); try apply push1.
        + destruct t as [n|]; [|exact O]. rewrite (proj2 (numty_eqb_eq n n) eq_refl).
          eapply Hpre with (opts := [TNum n]) (cts := [i64]); try reflexivity; try (now destruct n); try apply push1.
      - destruct A as [A|A]; rewrite A; [|destruct o; exact O].
        destruct o; inversion T; subst.
        + destruct t as [n|]; [|exact O]. eapply Hpost with (opts := [TNum n]) (cts := [i64]); try reflexivity; try (now destruct n); try apply push1.
        + destruct t as [n|]; [|exact O]. eapply Hpre with (opts := [TNum n]) (cts := [i64]); try reflexivity; try (now destruct n); try apply push1.
      - inversion T; subst. eapply Hinst with (cts := [i64; i32]); try reflexivity; try (now destruct o); try apply push2.
      - inversion T; subst. eapply Hinst with (cts := [i64; i32]); try reflexivity; try (now destruct o); try apply push2.
      - inversion T; subst. eapply Hpost with (opts := [i32]) (cts := [i64]); try reflexivity; try apply push1.
      - inversion T; subst. eapply Hinst with (cts := [i64]); try reflexivity; try apply push1.
      - inversion T; subst. eapply Hpost with (opts := [TNum t]) (cts := []); try reflexivity; try (now destruct t); try constructor.
      - inversion T; subst. eapply Hinst with (cts := [i32]); try reflexivity; try (now destruct o); try apply push1.
      - inversion T; subst.
        assert (W : exists k, binary_class (binop_in o) (binop_out o) = Some k /\
          map TNum (trap_args (HkBinary k)) = [TNum (binop_in o); TNum (binop_in o)] ++ [i32] ++ [i64; i64] /\
          map TNum (trap_results (HkBinary k)) = [TNum (binop_out o)]) by (destruct o; eexists; repeat split; reflexivity).
        destruct W as (k & -> & W1 & W2). eapply Hinst with (cts := [i32]); auto; try apply push1.
    Qed.
  End At.

  Lemma strip_flat_map b : map strip (flat_map (weave1 H hf) b) = map strip (weave H hf b). Proof. reflexivity. Qed.
  Lemma arity_pushes ft : Forall2 pushes (arity ft) [i32; i32].
  Proof. repeat constructor; repeat eexists. Qed.

  Lemma weave_ok b : forall C C' r ts ts',
    ctx_le C C' -> hooks_in (c_funcs C') -> helpers_in (c_funcs C') (br_tables b) ->
    seq_ok C (map strip b) ts ts' -> annotated_ok C r b -> seq_ok C' (map strip (weave H hf b)) ts ts'.
  Proof.
    induction b as [|m b rs IHr|m ft body rs IHb IHr|m ft body rs IHb IHr|m ft thn rs IHt IHr|m ft thn els rs IHt IHe IHr]
      using tbody_ind; intros C C' r ts ts' LE HK HH T AN;
      cbn [map strip] in T; inversion T as [|? ? ? ft' rest ? Ti Tr]; subst; clear T; [apply so_nil|..];
      unfold weave; cbn [flat_map]; rewrite map_app; fold (weave H hf rs);
      unfold br_tables in HH; cbn [flat_map] in HH;
      (assert (HHr : helpers_in (c_funcs C') (br_tables rs)) by (intros p x Hin; apply (HH p x), in_or_app; now right));
      match type of HH with helpers_in _ (?a ++ _) =>
        assert (HHi : helpers_in (c_funcs C') a) by (intros p x Hin; apply (HH p x), in_or_app; now left) end.
    - eapply seq_ok_app.
      + inversion Ti; subst. cbn [weave1]. apply weave_basic_ok; auto; [eapply btype_le; eauto|].
        destruct b; try exact Logic.I.
        * intros Hn G. apply (HHi _ (table, dflt)); auto. cbn. rewrite G. now left.
        * inversion AN as [| |? ? ? ? fa ? EA TA AN'| | | |]; subst; [auto|]. left. rewrite EA. f_equal.
          match goal with A : btype C _ ft' |- _ => inversion A; subst; inversion TA; subst; congruence end.
        * inversion AN as [| |? ? ? ? fa ? EA TA AN'| | | |]; subst; [auto|]. left. rewrite EA. f_equal.
          match goal with A : btype C _ ft' |- _ => inversion A; subst; inversion TA; subst; congruence end.
      + inversion AN; subst; eapply IHr; eauto.
    - inversion AN; subst. eapply seq_ok_app; [|eapply IHr; eauto].
      inversion Ti; subst. cbn [weave1].
      assert (B : seq_ok (label C' (ft_out ft')) (map strip (weave H hf body)) (rev (ft_in ft')) (rev (ft_out ft'))).
      { eapply IHb; eauto using ctx_le_label. }
      destruct (m_gen m); apply seq_ok_one; constructor; rewrite ?map_app; [exact B|].
      eapply seq_ok_app; [apply (@point_same_ok (label C' (ft_out ft')) HK HkBlockPre m (arity ft') [] [i32; i32]); auto using arity_pushes|].
      eapply seq_ok_app; [exact B|]. apply (@point_same_ok (label C' (ft_out ft')) HK HkBlockPost m [] [] []); auto.
    - inversion AN; subst. eapply seq_ok_app; [|eapply IHr; eauto].
      inversion Ti; subst. cbn [weave1].
      assert (B : seq_ok (label C' (ft_in ft')) (map strip (weave H hf body)) (rev (ft_in ft')) (rev (ft_out ft'))).
      { eapply IHb; eauto using ctx_le_label. }
      destruct (m_gen m); apply seq_ok_one; constructor; rewrite ?map_app; [exact B|].
      eapply seq_ok_app; [apply (@point_same_ok (label C' (ft_in ft')) HK HkLoopPre m (arity ft') [] [i32; i32]); auto using arity_pushes|].
      eapply seq_ok_app; [exact B|]. apply (@point_same_ok (label C' (ft_in ft')) HK HkLoopPost m [] [] []); auto.
    - inversion AN; subst. eapply seq_ok_app; [|eapply IHr; eauto].
      inversion Ti; subst. cbn [weave1 br_tables1] in *.
      assert (B : seq_ok (label C' (ft_out ft)) (map strip (weave H hf thn)) (rev (ft_in ft)) (rev (ft_out ft))).
      { eapply IHt; eauto using ctx_le_label. intros p x Hin. apply (HHi p x), in_or_app. now left. }
      destruct (m_gen m); [apply (@seq_ok_one C' (UIf ft (map strip (weave H hf thn)) None)); now constructor|].
      rewrite map_app. eapply seq_ok_app.
      + cbn [ft_in]. rewrite rev_app_distr.
        apply (@point_same_ok C' HK HkIfThen m (arity ft) [i32] [i32; i32] (rev (ft_in ft) ++ rest)); auto using arity_pushes.
      + change ([i32] ++ rev (ft_in ft)) with (rev [i32] ++ rev (ft_in ft)). rewrite app_assoc, <- rev_app_distr.
        assert (PO : forall st, seq_ok (label C' (ft_out ft)) (map strip (point H HkIfThenPost m [])) st st).
        { intros st. apply (@point_same_ok (label C' (ft_out ft)) HK HkIfThenPost m [] [] [] st); auto. }
        destruct (H HkIfThenPost).
        * apply (@seq_ok_one C' (UIf ft (map strip (weave H hf thn ++ point H HkIfThenPost m [])) (Some (map strip (point H HkIfThenPost m []))))
                   (FT (ft_in ft ++ [i32]) (ft_out ft))).
          constructor; rewrite ?map_app; [eapply seq_ok_app; [exact B|apply PO]|].
          match goal with E : ft_in ft = _ |- _ => rewrite E end. apply PO.
        * apply (@seq_ok_one C' (UIf ft (map strip (weave H hf thn)) None) (FT (ft_in ft ++ [i32]) (ft_out ft))). now constructor.
    - inversion AN; subst. eapply seq_ok_app; [|eapply IHr; eauto].
      inversion Ti; subst. cbn [weave1 br_tables1] in *.
      assert (B : seq_ok (label C' (ft_out ft)) (map strip (weave H hf thn)) (rev (ft_in ft)) (rev (ft_out ft))).
      { eapply IHt; eauto using ctx_le_label. intros p x Hin. apply (HHi p x), in_or_app. now left. }
      assert (B2 : seq_ok (label C' (ft_out ft)) (map strip (weave H hf els)) (rev (ft_in ft)) (rev (ft_out ft))).
      { eapply IHe; eauto using ctx_le_label. intros p x Hin. apply (HHi p x), in_or_app. now right. }
      destruct (m_gen m); [apply (@seq_ok_one C' (UIf ft (map strip (weave H hf thn)) (Some (map strip (weave H hf els))))); now constructor|].
      rewrite map_app. eapply seq_ok_app.
      + cbn [ft_in]. rewrite rev_app_distr.
        apply (@point_same_ok C' HK HkIfThenElse m (arity ft) [i32] [i32; i32] (rev (ft_in ft) ++ rest)); auto using arity_pushes.
      + change ([i32] ++ rev (ft_in ft)) with (rev [i32] ++ rev (ft_in ft)). rewrite app_assoc, <- rev_app_distr.
        assert (PO : forall st, seq_ok (label C' (ft_out ft)) (map strip (point H HkIfThenElsePost m [])) st st).
        { intros st. apply (@point_same_ok (label C' (ft_out ft)) HK HkIfThenElsePost m [] [] [] st); auto. }
        apply (@seq_ok_one C' (UIf ft (map strip (weave H hf thn ++ point H HkIfThenElsePost m []))
                   (Some (map strip (weave H hf els ++ point H HkIfThenElsePost m [])))) (FT (ft_in ft ++ [i32]) (ft_out ft))).
        constructor; rewrite map_app; eapply seq_ok_app; eauto.
  Qed.
End Weave.
