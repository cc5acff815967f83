(** The passes compute the weave. *)
From Verif Require Import Passes NestingSpec WeaveSpec.
Local Open Scope se_scope.
Local Arguments cat2 : simpl never.

Lemma synth_gen m b : synth m b = gen m b.
Proof. reflexivity. Qed.

(** ** Monad helpers *)
Lemma se_flat_map_app {S A B} (f : A -> SE S (list B)) a b s :
  se_flat_map f (a ++ b) s =
  match se_flat_map f a s with
  | None => None
  | Some (x, s1) => match se_flat_map f b s1 with None => None | Some (y, s2) => Some (x ++ y, s2) end
  end.
Proof.
  revert s. induction a as [|i a IH]; intros s; simpl.
  - destruct (se_flat_map f b s) as [[y s2]|]; reflexivity.
  - destruct (f i s) as [[y s1]|]; [|reflexivity]. rewrite IH.
    destruct (se_flat_map f a s1) as [[x s2]|]; [|reflexivity].
    destruct (se_flat_map f b s2) as [[z s3]|]; [|reflexivity]. now rewrite app_assoc.
Qed.

Lemma pass_app h f a b s :
  pass h f (a ++ b) s =
  match pass h f a s with
  | None => None
  | Some (x, s1) => match pass h f b s1 with None => None | Some (y, s2) => Some (x ++ y, s2) end
  end.
Proof. apply se_flat_map_app. Qed.

Lemma pass_one h f i s : pass h f [i] s = pass1 h f i s.
Proof.
  unfold pass. simpl. destruct (pass1 h f i s) as [[y s1]|]; [|reflexivity].
  unfold se_ret. now rewrite app_nil_r.
Qed.

(** Generated code is left alone. *)
Lemma pass_synth h f m bs s : pass h f (map (synth m) bs) s = Some (map (synth m) bs, s).
Proof.
  unfold pass. revert s. induction bs as [|b bs IH]; intros s; simpl; [reflexivity|].
  rewrite IH. reflexivity.
Qed.
Lemma pass_point H h' h f m ops s : pass h f (point H h' m ops) s = Some (point H h' m ops, s).
Proof. unfold point. destruct (H h'); [apply pass_synth|reflexivity]. Qed.

Lemma enable_same H h f : enable H h f h = Some f.
Proof. unfold enable. destruct (hook_eq_dec h h); congruence. Qed.
Lemma enable_other H h f h' : h' <> h -> enable H h f h' = H h'.
Proof. unfold enable. destruct (hook_eq_dec h' h); congruence. Qed.

Lemma point_same H h f m ops :
  point (enable H h f) h m ops =
  map (synth m) (ops ++ [BConst TI64 (Z.of_nat (m_fun m)); BConst TI64 (Z.of_nat (m_pos m)); BCall f]).
Proof. unfold point. now rewrite enable_same. Qed.
Lemma point_other H h f h' m ops : h' <> h -> point (enable H h f) h' m ops = point H h' m ops.
Proof. intros N. unfold point. now rewrite enable_other. Qed.
Lemma point_none H h m ops : H h = None -> point H h m ops = [].
Proof. intros E. unfold point. now rewrite E. Qed.
Lemma instead_same H h f m ops o :
  instead (enable H h f) h m ops o =
  map (synth m) (ops ++ [BConst TI64 (Z.of_nat (m_fun m)); BConst TI64 (Z.of_nat (m_pos m)); BCall f]).
Proof. unfold instead. rewrite enable_same. apply point_same. Qed.
Lemma instead_other H h f h' m ops o : h' <> h -> instead (enable H h f) h' m ops o = instead H h' m ops o.
Proof. intros N. unfold instead. rewrite enable_other by exact N. now rewrite point_other. Qed.

Lemma i32_of_spec n z : i32_of n = Some z -> z = Z.of_nat n.
Proof. unfold i32_of. destruct (_ <? _)%Z; congruence. Qed.
Lemma i32_of_fits n : fits32 n -> i32_of n = Some (Z.of_nat n).
Proof. unfold i32_of, fits32. intros F. destruct (Z.ltb_spec (Z.of_nat n) (2 ^ 31)); [reflexivity|lia]. Qed.
Lemma i64_of_fits n : fits64 n -> i64_of n = Some (Z.of_nat n).
Proof. unfold i64_of, fits64. intros F. destruct (Z.ltb_spec (Z.of_nat n) (2 ^ 63)); [reflexivity|lia]. Qed.

Definition trap_ops (m : meta) (f : nat) : list basic :=
  [BConst TI64 (Z.of_nat (m_fun m)); BConst TI64 (Z.of_nat (m_pos m)); BCall f].

Lemma trap_call_eq f m :
  trap_call f m = (if (Z.of_nat (m_pos m) <? 2 ^ 63)%Z then Some (map (synth m) (trap_ops m f)) else None).
Proof. unfold trap_call, i64_of. destruct (_ <? _)%Z; reflexivity. Qed.
Lemma push_i32_eq m n :
  push_i32 m n = (if (Z.of_nat n <? 2 ^ 31)%Z then Some (map (synth m) [i32c n]) else None).
Proof. unfold push_i32, i32_of. destruct (_ <? _)%Z; reflexivity. Qed.
Lemma push_arity_eq m ft :
  push_arity m ft =
  (if ((Z.of_nat (List.length (ft_in ft)) <? 2 ^ 31)
       && (Z.of_nat (List.length (ft_out ft)) <? 2 ^ 31))%Z
   then Some (map (synth m) (arity ft)) else None).
Proof.
  unfold push_arity. rewrite !push_i32_eq. destruct (_ <? _)%Z, (_ <? _)%Z; reflexivity.
Qed.

(** ** The operator tables agree with the WebAssembly types *)
Lemma unop_hook_spec o : unop_hook o = HkUnary (unop_in o) (unop_out o).
Proof. destruct o; reflexivity. Qed.
Lemma binop_hook_spec o :
  exists k, binary_class (binop_in o) (binop_out o) = Some k /\ binop_hook o = HkBinary k.
Proof. destruct o; eexists; split; reflexivity. Qed.
Lemma storeop_hook_spec o : storeop_hook o = HkStore (storeop_ty o).
Proof. destruct o; reflexivity. Qed.
Lemma loadop_hook_spec o : loadop_hook o = HkLoad (loadop_ty o).
Proof. destruct o; reflexivity. Qed.

Lemma hook_eqb_eq a b : hook_eqb a b = true <-> a = b.
Proof. unfold hook_eqb. destruct (hook_eq_dec a b); split; congruence. Qed.
Lemma hook_eqb_refl a : hook_eqb a a = true.
Proof. now apply hook_eqb_eq. Qed.
Lemma localop_eqb_eq a b : localop_eqb a b = true <-> a = b.
Proof. destruct a, b; simpl; split; congruence. Qed.
Lemma globalop_eqb_eq a b : globalop_eqb a b = true <-> a = b.
Proof. destruct a, b; simpl; split; congruence. Qed.
Lemma numty_eqb_refl t : numty_eqb t t = true.
Proof. now apply numty_eqb_eq. Qed.

(** ** One basic instruction *)

(** Pass [h] on [l] succeeds with [l'] under condition [c], and panics otherwise; the module
    is not changed. *)
Definition stateless (h : hook) (f : nat) (l l' : list tinstr) (P : Prop) : Prop :=
  exists c : bool, (P -> c = true) /\
    forall s, pass h f l s = if c then Some (l', s) else None.

Lemma stateless_same h f l P : (forall s, pass h f l s = Some (l, s)) -> stateless h f l l P.
Proof. intros E. exists true. split; [reflexivity|exact E]. Qed.

Lemma stateless_app h f a a' b b' P :
  stateless h f a a' P -> stateless h f b b' P -> stateless h f (a ++ b) (a' ++ b') P.
Proof.
  intros (c & Hc & Ec) (d & Hd & Ed). exists (c && d). split.
  - intros p. now rewrite Hc, Hd.
  - intros s. rewrite pass_app, Ec. destruct c; [|reflexivity]. rewrite Ed. destruct d; reflexivity.
Qed.

Lemma stateless_point H h h' f m ops P : stateless h f (point H h' m ops) (point H h' m ops) P.
Proof. apply stateless_same. intros s. apply pass_point. Qed.

Lemma stateless_weaken h f l l' (P Q : Prop) : (Q -> P) -> stateless h f l l' P -> stateless h f l l' Q.
Proof. intros I (c & Hc & E). exists c. auto. Qed.

Definition fits64b (n : nat) : bool := (Z.of_nat n <? 2 ^ 63)%Z.
Definition fits32b (n : nat) : bool := (Z.of_nat n <? 2 ^ 31)%Z.
Lemma fits64b_true n : fits64 n -> fits64b n = true.
Proof. unfold fits64, fits64b. lia. Qed.
Lemma fits32b_true n : fits32 n -> fits32b n = true.
Proof. unfold fits32, fits32b. lia. Qed.

(** An instruction no rewrite applies to. *)
Lemma stateless_skip h f m b P :
  (m_gen m = false -> rewrite_basic h f m b = None) -> stateless h f [TBasic m b] [TBasic m b] P.
Proof.
  intros E. apply stateless_same. intros s. rewrite pass_one. simpl.
  destruct (m_gen m); [reflexivity|]. now rewrite E.
Qed.

Lemma stateless_rewrite h f m b o l (P : Prop) :
  m_gen m = false -> rewrite_basic h f m b = Some (lift o) ->
  (exists c : bool, (P -> c = true) /\ o = if c then Some l else None) ->
  stateless h f [TBasic m b] l P.
Proof.
  intros G E (c & Hc & Ho). exists c. split; [exact Hc|]. intros s. rewrite pass_one. simpl.
  rewrite G, E, Ho. unfold lift. destruct c; reflexivity.
Qed.

Ltac solve_none h := destruct h; simpl; try reflexivity; try congruence.

Lemma cat2_some (a b : list tinstr) (c d : bool) : cat2 (if c then Some a else None) (if d then Some b else None) =
  if c && d then Some (a ++ b) else None.
Proof. destruct c, d; reflexivity. Qed.
Lemma cat2_some_l (a b : list tinstr) (d : bool) : cat2 (Some a) (if d then Some b else None) = if d then Some (a ++ b) else None.
Proof. destruct d; reflexivity. Qed.
Lemma cat2_some_r (a b : list tinstr) (c : bool) : cat2 (if c then Some a else None) (Some b) = if c then Some (a ++ b) else None.
Proof. destruct c; reflexivity. Qed.

(** Solve [exists c, (P -> c = true) /\ o = if c then Some l else None]. *)
Ltac code_ok :=
  rewrite ?trap_call_eq, ?push_i32_eq, ?cat2_some, ?cat2_some_l, ?cat2_some_r, ?cat2_some,
          ?cat2_some_l, ?cat2_some_r;
  fold fits64b; repeat match goal with |- context [(Z.of_nat ?n <? 2 ^ 31)%Z] =>
    change (Z.of_nat n <? 2 ^ 31)%Z with (fits32b n) end;
  match goal with |- context [(Z.of_nat ?n <? 2 ^ 63)%Z] =>
    change (Z.of_nat n <? 2 ^ 63)%Z with (fits64b n) end;
  eexists; split; [|reflexivity];
  simpl; intros [? ?]; rewrite ?fits64b_true, ?fits32b_true by assumption; reflexivity.

(** A single hook [h0] that adds code before / after / instead of the original. *)
Lemma stateless_before H h h0 f m b ops P :
  H h = None -> m_gen m = false ->
  (h <> h0 -> rewrite_basic h f m b = None) ->
  (h = h0 -> stateless h f [TBasic m b] (map (synth m) (ops ++ trap_ops m f) ++ [TBasic m b]) P) ->
  stateless h f (point H h0 m ops ++ [TBasic m b]) (point (enable H h f) h0 m ops ++ [TBasic m b]) P.
Proof.
  intros Hn G N S. destruct (hook_eq_dec h h0) as [->|ne].
  - rewrite point_none, point_same by exact Hn. apply S. reflexivity.
  - rewrite point_other by congruence. apply stateless_app; [apply stateless_point|].
    apply stateless_skip. intros _. now apply N.
Qed.
Lemma stateless_after H h h0 f m b ops P :
  H h = None -> m_gen m = false ->
  (h <> h0 -> rewrite_basic h f m b = None) ->
  (h = h0 -> stateless h f [TBasic m b] ([TBasic m b] ++ map (synth m) (ops ++ trap_ops m f)) P) ->
  stateless h f ([TBasic m b] ++ point H h0 m ops) ([TBasic m b] ++ point (enable H h f) h0 m ops) P.
Proof.
  intros Hn G N S. destruct (hook_eq_dec h h0) as [->|ne].
  - rewrite point_none, point_same, app_nil_r by exact Hn. apply S. reflexivity.
  - rewrite point_other by congruence. apply stateless_app; [|apply stateless_point].
    apply stateless_skip. intros _. now apply N.
Qed.
Lemma stateless_instead H h h0 f m b ops P :
  H h = None -> m_gen m = false ->
  (h <> h0 -> rewrite_basic h f m b = None) ->
  (h = h0 -> stateless h f [TBasic m b] (map (synth m) (ops ++ trap_ops m f)) P) ->
  stateless h f (instead H h0 m ops [TBasic m b]) (instead (enable H h f) h0 m ops [TBasic m b]) P.
Proof.
  intros Hn G N S. destruct (hook_eq_dec h h0) as [->|ne].
  - rewrite instead_same. unfold instead. rewrite Hn. apply S. reflexivity.
  - rewrite instead_other by congruence. unfold instead. destruct (H h0).
    + apply stateless_point.
    + apply stateless_skip. intros _. now apply N.
Qed.
Lemma stateless_around H h h1 h2 f m b ops1 ops2 P :
  h1 <> h2 -> H h = None -> m_gen m = false ->
  (h <> h1 -> h <> h2 -> rewrite_basic h f m b = None) ->
  (h = h1 -> stateless h f [TBasic m b] (map (synth m) (ops1 ++ trap_ops m f) ++ [TBasic m b]) P) ->
  (h = h2 -> stateless h f [TBasic m b] ([TBasic m b] ++ map (synth m) (ops2 ++ trap_ops m f)) P) ->
  stateless h f (point H h1 m ops1 ++ [TBasic m b] ++ point H h2 m ops2)
    (point (enable H h f) h1 m ops1 ++ [TBasic m b] ++ point (enable H h f) h2 m ops2) P.
Proof.
  intros D Hn G N S1 S2. destruct (hook_eq_dec h h1) as [->|n1].
  - rewrite (point_other H f m ops2) by congruence. rewrite point_none, point_same by exact Hn.
    rewrite app_nil_l, app_assoc.
    apply stateless_app; [apply S1; reflexivity|apply stateless_point].
  - rewrite (point_other H f m ops1) by congruence.
    apply stateless_app; [apply stateless_point|].
    destruct (hook_eq_dec h h2) as [->|n2].
    + rewrite (point_none H h2 m ops2), point_same, app_nil_r by exact Hn. apply S2. reflexivity.
    + rewrite point_other by congruence. apply stateless_app; [|apply stateless_point].
      apply stateless_skip. intros _. now apply N.
Qed.

Lemma ity_is_true ty ft : ity_is ty ft = true <-> ty = IReach ft.
Proof.
  destruct ty; simpl; [|split; congruence]. rewrite functy_eqb_eq. split; congruence.
Qed.

Lemma step_basic H hf h f m b :
  h <> HkBrTable -> H h = None ->
  stateless h f (weave_basic H hf m b) (weave_basic (enable H h f) hf m b)
            (fits64 (m_pos m) /\ fits_basic b).
Proof.
  intros NB Hn. unfold weave_basic. destruct (m_gen m) eqn:G.
  { apply stateless_skip. congruence. }
  destruct b; try (apply stateless_skip; intros _; solve_none h; fail).
  - (* br *)
    apply stateless_before; auto; [intros; solve_none h|]. intros ->.
    eapply stateless_rewrite; [exact G|reflexivity|]. code_ok.
  - (* br_if *)
    apply stateless_before; auto; [intros; solve_none h|]. intros ->.
    eapply stateless_rewrite; [exact G|reflexivity|]. code_ok.
  - (* br_table *)
    apply stateless_before; auto; [intros; solve_none h|]. congruence.
  - (* return *)
    apply stateless_before; auto; [intros; solve_none h|]. intros ->.
    eapply stateless_rewrite; [exact G|reflexivity|]. code_ok.
  - (* call *)
    apply stateless_around; auto; [congruence|intros; solve_none h| |]; intros ->;
      (eapply stateless_rewrite; [exact G|reflexivity|]); code_ok.
  - (* call_indirect *)
    apply stateless_around; auto; [congruence|intros; solve_none h| |]; intros ->;
      (eapply stateless_rewrite; [exact G|reflexivity|]); code_ok.
  - (* drop *)
    apply stateless_before; auto; [intros; solve_none h|]. intros ->.
    eapply stateless_rewrite; [exact G|reflexivity|]. code_ok.
  - (* select *)
    apply stateless_before; auto; [intros; solve_none h|]. intros ->.
    eapply stateless_rewrite; [exact G|reflexivity|]. code_ok.
  - (* typed select *)
    apply stateless_before; auto; [intros; solve_none h|]. intros ->.
    eapply stateless_rewrite; [exact G|reflexivity|]. code_ok.
  - (* local *)
    assert (Hno : forall t, m_ty m <> IReach (local_ft o t) ->
              rewrite_basic (HkLocal o t) f m (BLocal o i) = None).
    { intros t Ht. simpl. destruct (ity_is (m_ty m) (local_ft o t)) eqn:E.
      - apply ity_is_true in E. contradiction.
      - now rewrite andb_false_r. }
    assert (Hyes : forall t, m_ty m = IReach (local_ft o t) -> h <> HkLocal o t ->
              rewrite_basic h f m (BLocal o i) = None).
    { intros t Ht Hd. destruct h as [| | | | | | | | | | | | | | | | | | | | | | |o' t'| | |]; try reflexivity.
      simpl. destruct (localop_eqb o' o) eqn:Eo; [|reflexivity]. apply localop_eqb_eq in Eo. subst o'.
      simpl. destruct (ity_is (m_ty m) (local_ft o t')) eqn:E; [|reflexivity].
      apply ity_is_true in E. exfalso. apply Hd. f_equal. rewrite Ht in E.
      destruct o; simpl in E; congruence. }
    assert (Hgen : (forall t, m_ty m <> IReach (local_ft o t)) -> rewrite_basic h f m (BLocal o i) = None).
    { intros Ht. destruct h as [| | | | | | | | | | | | | | | | | | | | | | |o' t'| | |]; try reflexivity.
      destruct (localop_eqb o' o) eqn:Eo.
      - apply localop_eqb_eq in Eo. subst o'. apply Hno. apply Ht.
      - simpl. now rewrite Eo. }
    assert (Hr : forall t, m_ty m = IReach (local_ft o t) ->
       ity_is (m_ty m) (local_ft o t) = true) by (intros t Ht; now apply ity_is_true).
    destruct o.
    + destruct (m_ty m) as [[[|x xs] [|[t|r] [|y ys]]]|] eqn:Ty;
        try (apply stateless_skip; intros _; apply Hgen; intros t'; simpl; congruence).
      apply stateless_after; auto.
      * intros Hd. apply (Hyes t); auto.
      * intros ->. eapply stateless_rewrite; [exact G|cbn [rewrite_basic localop_eqb andb]; rewrite Ty, Hr by reflexivity; reflexivity|].
        code_ok.
    + destruct (m_ty m) as [[[|[t|r] [|y ys]] [|x xs]]|] eqn:Ty;
        try (apply stateless_skip; intros _; apply Hgen; intros t'; simpl; congruence).
      apply stateless_before; auto.
      * intros Hd. apply (Hyes t); auto.
      * intros ->. eapply stateless_rewrite; [exact G|cbn [rewrite_basic localop_eqb andb]; rewrite Ty, Hr by reflexivity; reflexivity|].
        code_ok.
    + destruct (m_ty m) as [[[|[t|r] [|y ys]] [|[t'|r'] [|x xs]]]|] eqn:Ty;
        try (apply stateless_skip; intros _; apply Hgen; intros t''; simpl; congruence).
      destruct (numty_eqb t t') eqn:Et.
      * apply numty_eqb_eq in Et. subst t'. apply stateless_before; auto.
        -- intros Hd. apply (Hyes t); auto.
        -- intros ->. eapply stateless_rewrite; [exact G|cbn [rewrite_basic localop_eqb andb]; rewrite Ty, Hr by reflexivity; reflexivity|].
           code_ok.
      * apply stateless_skip. intros _. apply Hgen. intros t''. simpl. intros E. injection E as -> ->.
        now rewrite numty_eqb_refl in Et.
  - (* global *)
    assert (Hno : forall t, m_ty m <> IReach (global_ft o t) ->
              rewrite_basic (HkGlobal o t) f m (BGlobal o i) = None).
    { intros t Ht. simpl. destruct (ity_is (m_ty m) (global_ft o t)) eqn:E.
      - apply ity_is_true in E. contradiction.
      - now rewrite andb_false_r. }
    assert (Hyes : forall t, m_ty m = IReach (global_ft o t) -> h <> HkGlobal o t ->
              rewrite_basic h f m (BGlobal o i) = None).
    { intros t Ht Hd. destruct h as [| | | | | | | | | | | | | | | | | | | | | | | |o' t'| |]; try reflexivity.
      simpl. destruct (globalop_eqb o' o) eqn:Eo; [|reflexivity]. apply globalop_eqb_eq in Eo. subst o'.
      simpl. destruct (ity_is (m_ty m) (global_ft o t')) eqn:E; [|reflexivity].
      apply ity_is_true in E. exfalso. apply Hd. f_equal. rewrite Ht in E.
      destruct o; simpl in E; congruence. }
    assert (Hgen : (forall t, m_ty m <> IReach (global_ft o t)) -> rewrite_basic h f m (BGlobal o i) = None).
    { intros Ht. destruct h as [| | | | | | | | | | | | | | | | | | | | | | | |o' t'| |]; try reflexivity.
      destruct (globalop_eqb o' o) eqn:Eo.
      - apply globalop_eqb_eq in Eo. subst o'. apply Hno. apply Ht.
      - simpl. now rewrite Eo. }
    assert (Hr : forall t, m_ty m = IReach (global_ft o t) ->
       ity_is (m_ty m) (global_ft o t) = true) by (intros t Ht; now apply ity_is_true).
    destruct o.
    + destruct (m_ty m) as [[[|x xs] [|[t|r] [|y ys]]]|] eqn:Ty;
        try (apply stateless_skip; intros _; apply Hgen; intros t'; simpl; congruence).
      apply stateless_after; auto.
      * intros Hd. apply (Hyes t); auto.
      * intros ->. eapply stateless_rewrite; [exact G|cbn [rewrite_basic globalop_eqb andb]; rewrite Ty, Hr by reflexivity; reflexivity|].
        code_ok.
    + destruct (m_ty m) as [[[|[t|r] [|y ys]] [|x xs]]|] eqn:Ty;
        try (apply stateless_skip; intros _; apply Hgen; intros t'; simpl; congruence).
      apply stateless_before; auto.
      * intros Hd. apply (Hyes t); auto.
      * intros ->. eapply stateless_rewrite; [exact G|cbn [rewrite_basic globalop_eqb andb]; rewrite Ty, Hr by reflexivity; reflexivity|].
        code_ok.
  - (* load *)
    rewrite <- loadop_hook_spec. apply stateless_instead; auto.
    + intros Hd. destruct h; try reflexivity. simpl.
      destruct (hook_eqb (HkLoad t) (loadop_hook o)) eqn:E; [|reflexivity].
      apply hook_eqb_eq in E. congruence.
    + intros ->. eapply stateless_rewrite;
        [exact G|rewrite loadop_hook_spec; simpl; rewrite <- loadop_hook_spec, hook_eqb_refl; reflexivity|].
      code_ok.
  - (* store *)
    rewrite <- storeop_hook_spec. apply stateless_instead; auto.
    + intros Hd. destruct h; try reflexivity. simpl.
      destruct (hook_eqb (HkStore t) (storeop_hook o)) eqn:E; [|reflexivity].
      apply hook_eqb_eq in E. congruence.
    + intros ->. eapply stateless_rewrite;
        [exact G|rewrite storeop_hook_spec; simpl; rewrite <- storeop_hook_spec, hook_eqb_refl; reflexivity|].
      code_ok.
  - (* memory.size *)
    apply stateless_after; auto; [intros; solve_none h|]. intros ->.
    eapply stateless_rewrite; [exact G|reflexivity|]. code_ok.
  - (* memory.grow *)
    apply stateless_instead; auto; [intros; solve_none h|]. intros ->.
    eapply stateless_rewrite; [exact G|reflexivity|]. code_ok.
  - (* const *)
    apply stateless_after; auto.
    + intros Hd. destruct h; try reflexivity. simpl. destruct (numty_eqb t0 t) eqn:E; [|reflexivity].
      apply numty_eqb_eq in E. congruence.
    + intros ->. eapply stateless_rewrite; [exact G|simpl; rewrite numty_eqb_refl; reflexivity|]. code_ok.
  - (* unary *)
    rewrite <- unop_hook_spec. apply stateless_instead; auto.
    + intros Hd. destruct h; try reflexivity. simpl.
      destruct (hook_eqb (HkUnary a r) (unop_hook o)) eqn:E; [|reflexivity].
      apply hook_eqb_eq in E. congruence.
    + intros ->. eapply stateless_rewrite;
        [exact G|rewrite unop_hook_spec; simpl; rewrite <- unop_hook_spec, hook_eqb_refl; reflexivity|].
      code_ok.
  - (* binary *)
    destruct (binop_hook_spec o) as (k & -> & Hk). rewrite <- Hk. apply stateless_instead; auto.
    + intros Hd. destruct h; try reflexivity. simpl.
      destruct (hook_eqb (HkBinary k0) (binop_hook o)) eqn:E; [|reflexivity].
      apply hook_eqb_eq in E. congruence.
    + intros ->. eapply stateless_rewrite;
        [exact G|rewrite Hk; simpl; rewrite <- Hk, hook_eqb_refl; reflexivity|].
      code_ok.
Qed.

(** ** Bodies, for the passes that do not add functions *)

Lemma pass_cons h f i r s : pass h f (i :: r) s =
  match pass1 h f i s with
  | None => None
  | Some (x, s1) => match pass h f r s1 with None => None | Some (y, s2) => Some (x ++ y, s2) end
  end.
Proof. reflexivity. Qed.

Lemma pass1_block h f m ft body s : pass1 h f (TBlock m ft body) s =
  match pass h f body s with Some (b', s1) => lift (wrap_block h f m ft b') s1 | None => None end.
Proof. reflexivity. Qed.
Lemma pass1_loop h f m ft body s : pass1 h f (TLoop m ft body) s =
  match pass h f body s with Some (b', s1) => lift (wrap_loop h f m ft b') s1 | None => None end.
Proof. reflexivity. Qed.
Lemma pass1_if h f m ft thn s : pass1 h f (TIf m ft thn None) s =
  match pass h f thn s with Some (b', s1) => lift (wrap_if h f m ft b') s1 | None => None end.
Proof. reflexivity. Qed.
Lemma pass1_if_else h f m ft thn els s : pass1 h f (TIf m ft thn (Some els)) s =
  match pass h f thn s with
  | Some (t', s1) =>
      match pass h f els s1 with
      | Some (e', s2) => lift (wrap_if_else h f m ft t' e') s2
      | None => None
      end
  | None => None
  end.
Proof. reflexivity. Qed.

Definition code (c : bool) (l : list tinstr) : option (list tinstr) := if c then Some l else None.

Lemma trap_code f m : trap_call f m = code (fits64b (m_pos m)) (map (synth m) (trap_ops m f)).
Proof. apply trap_call_eq. Qed.
Definition fits_ftb (ft : functy) : bool :=
  fits32b (List.length (ft_in ft)) && fits32b (List.length (ft_out ft)).
Lemma fits_ftb_true ft : fits_ft ft -> fits_ftb ft = true.
Proof. intros [A B]. unfold fits_ftb. now rewrite !fits32b_true. Qed.
Lemma arity_trap_code f m ft :
  cat2 (push_arity m ft) (trap_call f m) =
  code (fits_ftb ft && fits64b (m_pos m)) (map (synth m) (arity ft ++ trap_ops m f)).
Proof.
  rewrite trap_code, push_arity_eq. unfold code, fits_ftb, fits32b. rewrite cat2_some, map_app. reflexivity.
Qed.
Lemma map_code_code k c l : map_code k (code c l) = code c (k l).
Proof. destruct c; reflexivity. Qed.
Lemma lift_code c l s : lift (code c l) s = if c then Some (l, s) else None.
Proof. destruct c; reflexivity. Qed.

Lemma point_enabled H h f m ops :
  point (enable H h f) h m ops = map (synth m) (ops ++ trap_ops m f).
Proof. apply point_same. Qed.

(** Structured instructions: from the transformed bodies to the whole. *)
Lemma stateless_block h f m ft l l' r (P : Prop) c2 :
  wrap_block h f m ft l' = code c2 r -> (P -> c2 = true) ->
  stateless h f l l' P -> stateless h f [TBlock m ft l] r P.
Proof.
  intros W Hc2 (c & Hc & Ec). exists (c && c2). split.
  - intros p. now rewrite Hc, Hc2.
  - intros s. rewrite pass_one, pass1_block, Ec. destruct c; [|reflexivity]. now rewrite W, lift_code.
Qed.
Lemma stateless_loop h f m ft l l' r (P : Prop) c2 :
  wrap_loop h f m ft l' = code c2 r -> (P -> c2 = true) ->
  stateless h f l l' P -> stateless h f [TLoop m ft l] r P.
Proof.
  intros W Hc2 (c & Hc & Ec). exists (c && c2). split.
  - intros p. now rewrite Hc, Hc2.
  - intros s. rewrite pass_one, pass1_loop, Ec. destruct c; [|reflexivity]. now rewrite W, lift_code.
Qed.
Lemma stateless_if h f m ft l l' r (P : Prop) c2 :
  wrap_if h f m ft l' = code c2 r -> (P -> c2 = true) ->
  stateless h f l l' P -> stateless h f [TIf m ft l None] r P.
Proof.
  intros W Hc2 (c & Hc & Ec). exists (c && c2). split.
  - intros p. now rewrite Hc, Hc2.
  - intros s. rewrite pass_one, pass1_if, Ec. destruct c; [|reflexivity]. now rewrite W, lift_code.
Qed.
Lemma stateless_if_else h f m ft l l' k k' r (P : Prop) c2 :
  wrap_if_else h f m ft l' k' = code c2 r -> (P -> c2 = true) ->
  stateless h f l l' P -> stateless h f k k' P -> stateless h f [TIf m ft l (Some k)] r P.
Proof.
  intros W Hc2 (c & Hc & Ec) (d & Hd & Ed). exists (c && d && c2). split.
  - intros p. now rewrite Hc, Hd, Hc2.
  - intros s. rewrite pass_one, pass1_if_else, Ec. destruct c; [|reflexivity]. rewrite Ed.
    destruct d; [|reflexivity]. now rewrite W, lift_code.
Qed.

Ltac wrap_eq G := simpl; rewrite G; rewrite ?arity_trap_code, ?trap_code, ?map_code_code; reflexivity.

Lemma step_body H hf h f body :
  h <> HkBrTable -> H h = None -> (h = HkIfThen -> H HkIfThenPost = None) ->
  stateless h f (weave H hf body) (weave (enable H h f) hf body) (fits body).
Proof.
  intros NB Hn Hif.
  assert (Hcons : forall i r,
    stateless h f (weave1 H hf i) (weave1 (enable H h f) hf i) (fits1 i) ->
    stateless h f (weave H hf r) (weave (enable H h f) hf r) (fits r) ->
    stateless h f (weave H hf (i :: r)) (weave (enable H h f) hf (i :: r)) (fits (i :: r))).
  { intros i r Hi Hr. unfold weave. cbn [flat_map]. apply stateless_app.
    - eapply stateless_weaken; [|exact Hi]. intros [F _]. exact F.
    - eapply stateless_weaken; [|exact Hr]. intros [_ F]. exact F. }
  induction body as [|m b r IHr|m ft body r IHb IHr|m ft body r IHb IHr|m ft thn r IHt IHr
                     |m ft thn els r IHt IHe IHr] using tbody_ind.
  - apply stateless_same. reflexivity.
  - apply Hcons; [|exact IHr]. now apply step_basic.
  - apply Hcons; [|exact IHr]. clear Hcons IHr.
    assert (IH : stateless h f (weave H hf body) (weave (enable H h f) hf body) (fits1 (TBlock m ft body))).
    { eapply stateless_weaken; [|exact IHb]. intros (_ & _ & F). exact F. }
    clear IHb. cbn [weave1]. fold (weave H hf body). fold (weave (enable H h f) hf body).
    destruct (m_gen m) eqn:G.
    { eapply (@stateless_block _ _ _ _ _ _ _ _ true); [|reflexivity|exact IH].
      unfold wrap_block. now rewrite G. }
    destruct (hook_eq_dec h HkBlockPre) as [->|n1]; [|destruct (hook_eq_dec h HkBlockPost) as [->|n2]].
    + rewrite (point_none H HkBlockPre), app_nil_l, point_enabled by exact Hn.
      rewrite (@point_other H HkBlockPre f HkBlockPost) by congruence.
      eapply stateless_block with (c2 := fits_ftb ft && fits64b (m_pos m));
        [| |apply stateless_app; [exact IH|apply stateless_point]].
      * unfold wrap_block. now rewrite G, arity_trap_code, map_code_code.
      * intros (F1 & F2 & F3). now rewrite fits_ftb_true, fits64b_true.
    + rewrite (point_none H HkBlockPost), app_nil_r, point_enabled by exact Hn.
      rewrite (@point_other H HkBlockPost f HkBlockPre) by congruence.
      eapply stateless_block with (c2 := fits64b (m_pos m));
        [| |apply stateless_app; [apply stateless_point|exact IH]].
      * unfold wrap_block. now rewrite G, trap_code, map_code_code, <- app_assoc.
      * intros (F1 & F2 & F3). now rewrite fits64b_true.
    + rewrite !point_other by congruence.
      eapply stateless_block with (c2 := true);
        [|reflexivity|apply stateless_app; [apply stateless_point|apply stateless_app; [exact IH|apply stateless_point]]].
      unfold wrap_block. rewrite G. destruct h; try reflexivity; congruence.
  - apply Hcons; [|exact IHr]. clear Hcons IHr.
    assert (IH : stateless h f (weave H hf body) (weave (enable H h f) hf body) (fits1 (TLoop m ft body))).
    { eapply stateless_weaken; [|exact IHb]. intros (_ & _ & F). exact F. }
    clear IHb. cbn [weave1]. fold (weave H hf body). fold (weave (enable H h f) hf body).
    destruct (m_gen m) eqn:G.
    { eapply (@stateless_loop _ _ _ _ _ _ _ _ true); [|reflexivity|exact IH].
      unfold wrap_loop. now rewrite G. }
    destruct (hook_eq_dec h HkLoopPre) as [->|n1]; [|destruct (hook_eq_dec h HkLoopPost) as [->|n2]].
    + rewrite (point_none H HkLoopPre), app_nil_l, point_enabled by exact Hn.
      rewrite (@point_other H HkLoopPre f HkLoopPost) by congruence.
      eapply stateless_loop with (c2 := fits_ftb ft && fits64b (m_pos m));
        [| |apply stateless_app; [exact IH|apply stateless_point]].
      * unfold wrap_loop. now rewrite G, arity_trap_code, map_code_code.
      * intros (F1 & F2 & F3). now rewrite fits_ftb_true, fits64b_true.
    + rewrite (point_none H HkLoopPost), app_nil_r, point_enabled by exact Hn.
      rewrite (@point_other H HkLoopPost f HkLoopPre) by congruence.
      eapply stateless_loop with (c2 := fits64b (m_pos m));
        [| |apply stateless_app; [apply stateless_point|exact IH]].
      * unfold wrap_loop. now rewrite G, trap_code, map_code_code, <- app_assoc.
      * intros (F1 & F2 & F3). now rewrite fits64b_true.
    + rewrite !point_other by congruence.
      eapply stateless_loop with (c2 := true);
        [|reflexivity|apply stateless_app; [apply stateless_point|apply stateless_app; [exact IH|apply stateless_point]]].
      unfold wrap_loop. rewrite G. destruct h; try reflexivity; congruence.
  - apply Hcons; [|exact IHr]. clear Hcons IHr.
    assert (IH : stateless h f (weave H hf thn) (weave (enable H h f) hf thn) (fits1 (TIf m ft thn None))).
    { eapply stateless_weaken; [|exact IHt]. intros (_ & _ & F & _). exact F. }
    clear IHt. cbn [weave1]. fold (weave H hf thn). fold (weave (enable H h f) hf thn).
    destruct (m_gen m) eqn:G.
    { eapply (@stateless_if _ _ _ _ _ _ _ _ true); [|reflexivity|exact IH].
      unfold wrap_if. now rewrite G. }
    destruct (hook_eq_dec h HkIfThen) as [->|n1]; [|destruct (hook_eq_dec h HkIfThenPost) as [->|n2]].
    + rewrite (point_none H HkIfThen), app_nil_l, point_enabled by exact Hn.
      rewrite enable_other, Hif by (congruence || reflexivity).
      eapply stateless_if with (c2 := fits_ftb ft && fits64b (m_pos m)); [| |exact IH].
      * unfold wrap_if. now rewrite G, arity_trap_code, map_code_code.
      * intros (F1 & F2 & F3). now rewrite fits_ftb_true, fits64b_true.
    + rewrite Hn, enable_same, point_enabled. rewrite (@point_other H HkIfThenPost f HkIfThen) by congruence.
      apply stateless_app; [apply stateless_point|].
      eapply stateless_if with (c2 := fits64b (m_pos m)); [| |exact IH].
      * unfold wrap_if. now rewrite G, trap_code, map_code_code.
      * intros (F1 & F2 & F3). now rewrite fits64b_true.
    + rewrite !point_other, enable_other by congruence.
      apply stateless_app; [apply stateless_point|]. destruct (H HkIfThenPost).
      * eapply stateless_if_else with (c2 := true);
          [|reflexivity|apply stateless_app; [exact IH|apply stateless_point]|apply stateless_point].
        reflexivity.
      * eapply stateless_if with (c2 := true); [|reflexivity|exact IH].
        unfold wrap_if. rewrite G. destruct h; try reflexivity; congruence.
  - apply Hcons; [|exact IHr]. clear Hcons IHr.
    assert (IH1 : stateless h f (weave H hf thn) (weave (enable H h f) hf thn) (fits1 (TIf m ft thn (Some els)))).
    { eapply stateless_weaken; [|exact IHt]. intros (_ & _ & F & _). exact F. }
    assert (IH2 : stateless h f (weave H hf els) (weave (enable H h f) hf els) (fits1 (TIf m ft thn (Some els)))).
    { eapply stateless_weaken; [|exact IHe]. intros (_ & _ & _ & F). exact F. }
    clear IHt IHe. cbn [weave1]. fold (weave H hf thn). fold (weave (enable H h f) hf thn).
    fold (weave H hf els). fold (weave (enable H h f) hf els).
    destruct (m_gen m) eqn:G.
    { eapply (@stateless_if_else _ _ _ _ _ _ _ _ _ _ true); [|reflexivity|exact IH1|exact IH2].
      unfold wrap_if_else. now rewrite G. }
    destruct (hook_eq_dec h HkIfThenElse) as [->|n1]; [|destruct (hook_eq_dec h HkIfThenElsePost) as [->|n2]].
    + rewrite (point_none H HkIfThenElse), app_nil_l, point_enabled by exact Hn.
      rewrite !(@point_other H HkIfThenElse f HkIfThenElsePost) by congruence.
      eapply stateless_if_else with (c2 := fits_ftb ft && fits64b (m_pos m));
        [| |apply stateless_app; [exact IH1|apply stateless_point]|apply stateless_app; [exact IH2|apply stateless_point]].
      * unfold wrap_if_else. now rewrite G, arity_trap_code, map_code_code.
      * intros (F1 & F2 & F3). now rewrite fits_ftb_true, fits64b_true.
    + rewrite !(point_none H HkIfThenElsePost), !app_nil_r, point_enabled by exact Hn.
      rewrite (@point_other H HkIfThenElsePost f HkIfThenElse) by congruence.
      apply stateless_app; [apply stateless_point|].
      eapply stateless_if_else with (c2 := fits64b (m_pos m)); [| |exact IH1|exact IH2].
      * unfold wrap_if_else. now rewrite G, trap_code, map_code_code.
      * intros (F1 & F2 & F3). now rewrite fits64b_true.
    + rewrite !point_other by congruence. apply stateless_app; [apply stateless_point|].
      eapply stateless_if_else with (c2 := true);
        [|reflexivity|apply stateless_app; [exact IH1|apply stateless_point]|apply stateless_app; [exact IH2|apply stateless_point]].
      unfold wrap_if_else. rewrite G. destruct h; try reflexivity; congruence.
Qed.

(** ** The branch-table pass: appends one helper per table, in source order *)
Definition agrees (hf : nat -> nat) (n : nat) (bts : list (nat * (list nat * nat))) : Prop :=
  forall k p x, nth_error bts k = Some (p, x) -> hf p = n + k.
Definition brstep (f : nat) (l : list tinstr) (L : (nat -> nat) -> list tinstr)
    (bts : list (nat * (list nat * nat))) (P : Prop) : Prop :=
  exists c : bool, (P -> c = true) /\
    forall s hf, agrees hf (List.length s) bts ->
      pass HkBrTable f l s = if c then Some (L hf, s ++ map helper_fn bts) else None.

Lemma agrees_app hf n a b : agrees hf n (a ++ b) -> agrees hf n a /\ agrees hf (n + List.length a) b.
Proof.
  intros A. split; intros k p x E.
  - apply (A k p x). now apply nth_error_app_l.
  - rewrite <- Nat.add_assoc. apply (A _ p x). rewrite nth_error_app2 by lia.
    now replace (_ + k - _) with k by lia.
Qed.
Lemma brstep_app f l1 l2 L1 L2 b1 b2 P :
  brstep f l1 L1 b1 P -> brstep f l2 L2 b2 P ->
  brstep f (l1 ++ l2) (fun hf => L1 hf ++ L2 hf) (b1 ++ b2) P.
Proof.
  intros (c1 & H1 & E1) (c2 & H2 & E2). exists (c1 && c2). split.
  - intros p. now rewrite H1, H2.
  - intros s hf A. destruct (agrees_app _ _ A) as [A1 A2]. rewrite pass_app, (E1 s hf A1).
    destruct c1; [|reflexivity]. rewrite (E2 _ hf).
    + destruct c2; simpl; [|reflexivity]. now rewrite map_app, app_assoc.
    + now rewrite app_length, map_length.
Qed.
Lemma brstep_weaken f l L b (P Q : Prop) : (Q -> P) -> brstep f l L b P -> brstep f l L b Q.
Proof. intros I (c & H & E). exists c. split; auto. Qed.
Lemma brstep_same f l P : (forall s, pass HkBrTable f l s = Some (l, s)) -> brstep f l (fun _ => l) [] P.
Proof. intros E. exists true. split; [reflexivity|]. intros s hf _. simpl. now rewrite E, app_nil_r. Qed.
Lemma brstep_point f H h m ops P : brstep f (point H h m ops) (fun _ => point H h m ops) [] P.
Proof. apply brstep_same. intros s. apply pass_point. Qed.
Lemma brstep_block f m ft l L b P :
  brstep f l L b P -> brstep f [TBlock m ft l] (fun hf => [TBlock m ft (L hf)]) b P.
Proof.
  intros (c & H & E). exists c. split; [exact H|]. intros s hf A.
  rewrite pass_one, pass1_block, (E s hf A). destruct c; [|reflexivity].
  unfold wrap_block. destruct (m_gen m); reflexivity.
Qed.
Lemma brstep_loop f m ft l L b P :
  brstep f l L b P -> brstep f [TLoop m ft l] (fun hf => [TLoop m ft (L hf)]) b P.
Proof.
  intros (c & H & E). exists c. split; [exact H|]. intros s hf A.
  rewrite pass_one, pass1_loop, (E s hf A). destruct c; [|reflexivity].
  unfold wrap_loop. destruct (m_gen m); reflexivity.
Qed.
Lemma brstep_if f m ft l L b P :
  brstep f l L b P -> brstep f [TIf m ft l None] (fun hf => [TIf m ft (L hf) None]) b P.
Proof.
  intros (c & H & E). exists c. split; [exact H|]. intros s hf A.
  rewrite pass_one, pass1_if, (E s hf A). destruct c; [|reflexivity].
  unfold wrap_if. destruct (m_gen m); reflexivity.
Qed.
Lemma brstep_if_else f m ft l1 L1 b1 l2 L2 b2 P :
  brstep f l1 L1 b1 P -> brstep f l2 L2 b2 P ->
  brstep f [TIf m ft l1 (Some l2)] (fun hf => [TIf m ft (L1 hf) (Some (L2 hf))]) (b1 ++ b2) P.
Proof.
  intros (c & H & E) (d & H2 & E2). exists (c && d). split; [intros p; now rewrite H, H2|].
  intros s hf A. destruct (agrees_app _ _ A) as [A1 A2].
  rewrite pass_one, pass1_if_else, (E s hf A1). destruct c; [|reflexivity]. rewrite (E2 _ hf).
  - destruct d; [|reflexivity]. unfold wrap_if_else.
    rewrite map_app, app_assoc. destruct (m_gen m); reflexivity.
  - now rewrite app_length, map_length.
Qed.

Lemma i32_all_eq l :
  i32_all l = if forallb fits32b l then Some (map Z.of_nat l) else None.
Proof.
  induction l as [|x xs IH]; simpl; [reflexivity|]. rewrite IH. unfold i32_of, fits32b.
  destruct (_ <? _)%Z, (forallb _ _); reflexivity.
Qed.
Lemma forallb_fits32b l : Forall fits32 l -> forallb fits32b l = true.
Proof. intros F. apply forallb_forall. rewrite Forall_forall in F. intros x I. now apply fits32b_true, F. Qed.

Lemma pass_not_br_table f m b s :
  (forall t d, b <> BBrTable t d) -> pass HkBrTable f [TBasic m b] s = Some ([TBasic m b], s).
Proof.
  intros N. rewrite pass_one. simpl. destruct (m_gen m); [reflexivity|].
  destruct b; try reflexivity. exfalso. eapply N. reflexivity.
Qed.

(** With the branch-table hook off, the helper indices do not matter. *)
Lemma weave_basic_br_irrelevant H hf hf' f m b :
  H HkBrTable = None -> (forall t d, b <> BBrTable t d) ->
  weave_basic (enable H HkBrTable f) hf' m b = weave_basic H hf m b.
Proof.
  intros Hn N. unfold weave_basic. destruct (m_gen m); [reflexivity|].
  destruct b; try (exfalso; eapply N; reflexivity);
    rewrite ?point_other, ?instead_other by congruence; try reflexivity.
Qed.
Lemma pass_br_table_basic H hf f m b s :
  H HkBrTable = None -> (forall t d, b <> BBrTable t d) ->
  pass HkBrTable f (weave_basic H hf m b) s = Some (weave_basic H hf m b, s).
Proof.
  intros Hn N.
  assert (O : forall s, pass HkBrTable f [TBasic m b] s = Some ([TBasic m b], s)).
  { intros. now apply pass_not_br_table. }
  assert (A1 : forall h ops s, pass HkBrTable f (point H h m ops ++ [TBasic m b]) s =
                               Some (point H h m ops ++ [TBasic m b], s)).
  { intros. now rewrite pass_app, pass_point, O. }
  assert (A2 : forall h ops s, pass HkBrTable f ([TBasic m b] ++ point H h m ops) s =
                               Some ([TBasic m b] ++ point H h m ops, s)).
  { intros. now rewrite pass_app, O, pass_point. }
  assert (A3 : forall h ops h' ops' s,
    pass HkBrTable f (point H h m ops ++ [TBasic m b] ++ point H h' m ops') s =
    Some (point H h m ops ++ [TBasic m b] ++ point H h' m ops', s)).
  { intros. now rewrite pass_app, pass_point, A2. }
  assert (A4 : forall h ops s, pass HkBrTable f (instead H h m ops [TBasic m b]) s =
                               Some (instead H h m ops [TBasic m b], s)).
  { intros. unfold instead. destruct (H h); [apply pass_point|apply O]. }
  unfold weave_basic. destruct (m_gen m); [apply O|].
  destruct b; auto.
  - destruct o, (m_ty m) as [[[|[?|?] [|? ?]] [|[?|?] [|? ?]]]|]; auto. destruct (numty_eqb _ _); auto.
  - destruct o, (m_ty m) as [[[|[?|?] [|? ?]] [|[?|?] [|? ?]]]|]; auto.
  - destruct (binary_class _ _); auto.
Qed.

Lemma br_step_body H hf0 f body :
  H HkBrTable = None ->
  brstep f (weave H hf0 body) (fun hf => weave (enable H HkBrTable f) hf body) (br_tables body) (fits body).
Proof.
  intros Hn.
  assert (Hcons : forall i r,
    brstep f (weave1 H hf0 i) (fun hf => weave1 (enable H HkBrTable f) hf i) (br_tables1 i) (fits1 i) ->
    brstep f (weave H hf0 r) (fun hf => weave (enable H HkBrTable f) hf r) (br_tables r) (fits r) ->
    brstep f (weave H hf0 (i :: r)) (fun hf => weave (enable H HkBrTable f) hf (i :: r))
           (br_tables (i :: r)) (fits (i :: r))).
  { intros i r Hi Hr. unfold weave, br_tables. cbn [flat_map].
    apply (@brstep_app f _ _ (fun hf => weave1 (enable H HkBrTable f) hf i)
             (fun hf => weave (enable H HkBrTable f) hf r)).
    - eapply brstep_weaken; [|exact Hi]. intros [F _]. exact F.
    - eapply brstep_weaken; [|exact Hr]. intros [_ F]. exact F. }
  induction body as [|m b r IHr|m ft body r IHb IHr|m ft body r IHb IHr|m ft thn r IHt IHr
                     |m ft thn els r IHt IHe IHr] using tbody_ind.
  - apply brstep_same. reflexivity.
  - apply Hcons; [|exact IHr]. clear IHr Hcons. cbn [weave1].
    assert (D : (exists t d, b = BBrTable t d) \/ (forall t d, b <> BBrTable t d)).
    { destruct b; try (right; congruence). left. eauto. }
    destruct D as [(t & d & ->)|N].
    + destruct (m_gen m) eqn:G.
      { exists true. split; [reflexivity|]. intros s hf _. unfold weave_basic. rewrite G, pass_one. simpl.
        rewrite G. simpl. now rewrite app_nil_r. }
      exists (forallb fits32b t && fits32b d && fits64b (m_pos m)). split.
      * intros (F1 & F2 & F3). now rewrite forallb_fits32b, fits32b_true, fits64b_true.
      * intros s hf A. assert (Ek : hf (m_pos m) = List.length s + 0).
        { apply (A 0 (m_pos m) (t, d)). simpl. now rewrite G. }
        unfold weave_basic. rewrite G, (point_none H HkBrTable), app_nil_l, point_enabled by exact Hn.
        rewrite pass_one. cbn [pass1]. rewrite G. cbn [rewrite_basic].
        unfold se_bind, br_helper. rewrite i32_all_eq. destruct (forallb fits32b t); [|reflexivity].
        unfold i32_of. fold (fits32b d). rewrite trap_code, push_i32_eq. fold (fits32b d).
        destruct (fits32b d); [|reflexivity].
        unfold lift at 1, add_func. destruct (fits64b (m_pos m)); simpl.
        -- unfold lift. unfold cat2. cbn [code]. simpl. rewrite G. simpl. rewrite Ek, Nat.add_0_r. reflexivity.
        -- reflexivity.
    + assert (Eb : br_tables1 (TBasic m b) = []).
      { simpl. destruct b; try reflexivity. exfalso. eapply N. reflexivity. }
      rewrite Eb. exists true. split; [reflexivity|]. intros s hf _. rewrite app_nil_r.
      rewrite (@weave_basic_br_irrelevant H hf0 hf f m b Hn N). now apply pass_br_table_basic.
  - apply Hcons; [|exact IHr]. clear IHr Hcons. cbn [weave1 br_tables1].
    assert (IH := brstep_weaken (Q := fits1 (TBlock m ft body)) ltac:(intros (_ & _ & F); exact F) IHb).
    clear IHb. fold (weave H hf0 body). destruct (m_gen m) eqn:G.
    + apply brstep_block. exact IH.
    + eapply (@brstep_block f m ft _ (fun hf => point (enable H HkBrTable f) HkBlockPre m (arity ft) ++ weave (enable H HkBrTable f) hf body ++
        point (enable H HkBrTable f) HkBlockPost m [])). rewrite !point_other by congruence.
      rewrite <- (app_nil_r (flat_map br_tables1 body)).
      apply (@brstep_app f _ _ (fun _ => point H HkBlockPre m (arity ft)) (fun hf => weave (enable H HkBrTable f) hf body ++ point H HkBlockPost m []) []);
        [apply brstep_point|].
      apply (@brstep_app f _ _ (fun hf => weave (enable H HkBrTable f) hf body) (fun hf => point H HkBlockPost m []));
        [exact IH|apply brstep_point].
  - apply Hcons; [|exact IHr]. clear IHr Hcons. cbn [weave1 br_tables1].
    assert (IH := brstep_weaken (Q := fits1 (TLoop m ft body)) ltac:(intros (_ & _ & F); exact F) IHb).
    clear IHb. fold (weave H hf0 body). destruct (m_gen m) eqn:G.
    + apply brstep_loop. exact IH.
    + eapply (@brstep_loop f m ft _ (fun hf => point (enable H HkBrTable f) HkLoopPre m (arity ft) ++ weave (enable H HkBrTable f) hf body ++
        point (enable H HkBrTable f) HkLoopPost m [])). rewrite !point_other by congruence.
      rewrite <- (app_nil_r (flat_map br_tables1 body)).
      apply (@brstep_app f _ _ (fun _ => point H HkLoopPre m (arity ft)) (fun hf => weave (enable H HkBrTable f) hf body ++ point H HkLoopPost m []) []);
        [apply brstep_point|].
      apply (@brstep_app f _ _ (fun hf => weave (enable H HkBrTable f) hf body) (fun hf => point H HkLoopPost m []));
        [exact IH|apply brstep_point].
  - apply Hcons; [|exact IHr]. clear IHr Hcons. cbn [weave1 br_tables1].
    assert (IH := brstep_weaken (Q := fits1 (TIf m ft thn None)) ltac:(intros (_ & _ & F & _); exact F) IHt).
    clear IHt. fold (weave H hf0 thn). destruct (m_gen m) eqn:G.
    + rewrite app_nil_r. apply brstep_if. exact IH.
    + rewrite !point_other, enable_other by congruence.
      apply (@brstep_app f _ _ (fun _ => point H HkIfThen m (arity ft))
        (fun hf => match H HkIfThenPost with
                   | Some _ => [TIf (Meta (m_fun m) (m_pos m) IUnreach true) ft
                         (weave (enable H HkBrTable f) hf thn ++ point H HkIfThenPost m []) (Some (point H HkIfThenPost m []))]
                   | None => [TIf m ft (weave (enable H HkBrTable f) hf thn) None]
                   end) []); [apply brstep_point|].
      destruct (H HkIfThenPost).
      * apply (@brstep_if_else f _ ft _ (fun hf => weave (enable H HkBrTable f) hf thn ++ point H HkIfThenPost m []) _ _
                 (fun hf => point H HkIfThenPost m [])); [|apply brstep_point].
        rewrite <- (app_nil_r (flat_map br_tables1 thn)).
        apply (@brstep_app f _ _ (fun hf => weave (enable H HkBrTable f) hf thn) (fun _ => point H HkIfThenPost m []));
          [exact IH|apply brstep_point].
      * change (brstep f [TIf m ft (weave H hf0 thn) None] (fun hf => [TIf m ft (weave (enable H HkBrTable f) hf thn) None]) (br_tables thn ++ []) (fits1 (TIf m ft thn None))).
        rewrite app_nil_r. apply brstep_if. exact IH.
  - apply Hcons; [|exact IHr]. clear IHr Hcons. cbn [weave1 br_tables1].
    assert (IH1 := brstep_weaken (Q := fits1 (TIf m ft thn (Some els))) ltac:(intros (_ & _ & F & _); exact F) IHt).
    assert (IH2 := brstep_weaken (Q := fits1 (TIf m ft thn (Some els))) ltac:(intros (_ & _ & _ & F); exact F) IHe).
    clear IHt IHe. fold (weave H hf0 thn). fold (weave H hf0 els). destruct (m_gen m) eqn:G.
    + apply (@brstep_if_else f m ft _ (fun hf => weave (enable H HkBrTable f) hf thn) _ _
               (fun hf => weave (enable H HkBrTable f) hf els)); assumption.
    + rewrite !point_other by congruence.
      apply (@brstep_app f _ _ (fun _ => point H HkIfThenElse m (arity ft))
        (fun hf => [TIf m ft (weave (enable H HkBrTable f) hf thn ++ point H HkIfThenElsePost m [])
                        (Some (weave (enable H HkBrTable f) hf els ++ point H HkIfThenElsePost m []))]) []);
        [apply brstep_point|].
      apply (@brstep_if_else f m ft _ (fun hf => weave (enable H HkBrTable f) hf thn ++ point H HkIfThenElsePost m []) _ _
               (fun hf => weave (enable H HkBrTable f) hf els ++ point H HkIfThenElsePost m [])).
      * rewrite <- (app_nil_r (flat_map br_tables1 thn)).
        apply (@brstep_app f _ _ (fun hf => weave (enable H HkBrTable f) hf thn) (fun _ => point H HkIfThenElsePost m []));
          [exact IH1|apply brstep_point].
      * rewrite <- (app_nil_r (flat_map br_tables1 els)).
        apply (@brstep_app f _ _ (fun hf => weave (enable H HkBrTable f) hf els) (fun _ => point H HkIfThenElsePost m []));
          [exact IH2|apply brstep_point].
Qed.

(** ** All passes *)
Lemma agrees_helper_index n bts : NoDup (map fst bts) -> agrees (helper_index n bts) n bts.
Proof.
  revert n. induction bts as [|[q y] r IH]; intros n ND k p x E.
  - destruct k; discriminate.
  - inversion ND as [|? ? N1 N2]; subst. destruct k as [|k]; simpl in E.
    + injection E as <- <-. simpl. rewrite Nat.eqb_refl. lia.
    + simpl. destruct (Nat.eqb_spec p q) as [->|Nq].
      * exfalso. apply N1. apply nth_error_In in E. apply (in_map fst) in E. exact E.
      * rewrite (IH (S n) N2 k p x E). lia.
Qed.

Lemma weave_ext_br H hf hf' body : H HkBrTable = None -> weave H hf body = weave H hf' body.
Proof.
  intros Hn.
  assert (Eb : forall m b, weave_basic H hf m b = weave_basic H hf' m b).
  { intros m b. unfold weave_basic. destruct (m_gen m); [reflexivity|]. destruct b; try reflexivity.
    now rewrite !(point_none H HkBrTable). }
  assert (Hcons : forall i r, weave1 H hf i = weave1 H hf' i -> weave H hf r = weave H hf' r ->
            weave H hf (i :: r) = weave H hf' (i :: r)).
  { intros i r E1 E2. unfold weave in *. cbn [flat_map]. now rewrite E1, E2. }
  induction body as [|m b r IHr|m ft body r IHb IHr|m ft body r IHb IHr|m ft thn r IHt IHr
                     |m ft thn els r IHt IHe IHr] using tbody_ind; [reflexivity|..];
    apply Hcons; try assumption; cbn [weave1]; unfold weave in *; try apply Eb;
    repeat match goal with E : flat_map _ _ = flat_map _ _ |- _ => rewrite E; clear E end; reflexivity.
Qed.

(** [IfThenPost] never comes before [IfThen]. *)
Fixpoint if_then_first (ts : list hook) : Prop :=
  match ts with
  | [] => True
  | h :: r => (h = HkIfThenPost -> ~ In HkIfThen r) /\ if_then_first r
  end.

Definition is_enabled (H : hook -> option nat) (h : hook) : bool :=
  match H h with Some _ => true | None => false end.

Lemma enable_list_other ts H h : ~ In h (map fst ts) ->
  fold_left (fun H t => enable H (fst t) (snd t)) ts H h = H h.
Proof.
  revert H. induction ts as [|[h' f'] ts IH]; intros H N; simpl; [reflexivity|].
  rewrite IH by (intros I; apply N; now right).
  apply enable_other. intros ->. apply N. now left.
Qed.

Lemma run_passes_from H hf body n0 ts :
  agrees hf n0 (br_tables body) ->
  NoDup (map fst ts) -> if_then_first (map fst ts) ->
  (forall h, In h (map fst ts) -> H h = None) ->
  (In HkIfThen (map fst ts) -> H HkIfThenPost = None) ->
  exists c : bool, (fits body -> c = true) /\
    forall s, (H HkBrTable = None -> List.length s = n0) ->
      run_passes ts (weave H hf body) s =
      let H' := fold_left (fun H t => enable H (fst t) (snd t)) ts H in
      if c then Some (weave H' hf body,
                      s ++ if is_enabled H HkBrTable then []
                           else if is_enabled H' HkBrTable then map helper_fn (br_tables body) else [])
      else None.
Proof.
  intros A. revert H. induction ts as [|[h f] ts IH]; intros H ND IF HN HP.
  { exists true. split; [reflexivity|]. intros s _. simpl. unfold se_ret.
    destruct (is_enabled H HkBrTable); now rewrite app_nil_r. }
  simpl in ND, IF, HN. inversion ND as [|? ? N1 N2]; subst. destruct IF as [IF1 IF2].
  destruct (IH (enable H h f)) as (c & Hc & Ec); auto.
  { intros h' I'. rewrite enable_other; [apply HN; now right|]. intros ->. contradiction. }
  { intros I'. destruct (hook_eq_dec HkIfThenPost h) as [<-|Nh].
    - exfalso. now apply IF1.
    - rewrite enable_other by exact Nh. apply HP. simpl. now right. }
  clear IH. destruct (hook_eq_dec h HkBrTable) as [->|Nb].
  - assert (Hn : H HkBrTable = None) by (apply HN; now left).
    destruct (@br_step_body H hf f body Hn) as (d & Hd & Ed).
    exists (d && c). split; [intros F; now rewrite Hd, Hc|].
    intros s Hs. specialize (Hs Hn). subst n0. cbn [run_passes]. unfold se_bind. rewrite (Ed s hf A).
    destruct d; [|reflexivity]. rewrite Ec.
    + cbn [fold_left fst snd andb]. destruct c; [|reflexivity].
      unfold is_enabled at 3. rewrite Hn.
      assert (En : fold_left (fun H t => enable H (fst t) (snd t)) ts (enable H HkBrTable f) HkBrTable = Some f).
      { rewrite enable_list_other by exact N1. apply enable_same. }
      unfold is_enabled. rewrite En, enable_same, app_nil_r. reflexivity.
    + rewrite enable_same. discriminate.
  - assert (Hn : H h = None) by (apply HN; now left).
    destruct (@step_body H hf h f body Nb Hn) as (d & Hd & Ed).
    { intros ->. apply HP. now left. }
    exists (d && c). split; [intros F; now rewrite Hd, Hc|].
    intros s Hs. cbn [run_passes]. unfold se_bind. rewrite Ed. destruct d; [|reflexivity].
    rewrite Ec.
    + cbn [fold_left fst snd andb]. destruct c; [|reflexivity].
      unfold is_enabled at 1. rewrite enable_other by congruence. reflexivity.
    + rewrite enable_other by congruence. exact Hs.
Qed.

Lemma weave_nothing hf body : weave (fun _ => None) hf body = body.
Proof.
  assert (Eb : forall m b, weave_basic (fun _ => None) hf m b = [TBasic m b]).
  { intros m b. unfold weave_basic. destruct (m_gen m); [reflexivity|]. destruct b; try reflexivity.
    - destruct o, (m_ty m) as [[[|[?|?] [|? ?]] [|[?|?] [|? ?]]]|]; simpl; try reflexivity.
      destruct (numty_eqb _ _); reflexivity.
    - destruct o, (m_ty m) as [[[|[?|?] [|? ?]] [|[?|?] [|? ?]]]|]; reflexivity.
    - destruct (binary_class _ _); reflexivity. }
  assert (Hcons : forall i r, weave1 (fun _ => None) hf i = [i] -> weave (fun _ => None) hf r = r ->
            weave (fun _ => None) hf (i :: r) = i :: r).
  { intros i r E1 E2. unfold weave in *. cbn [flat_map]. now rewrite E1, E2. }
  induction body as [|m b r IHr|m ft body r IHb IHr|m ft body r IHb IHr|m ft thn r IHt IHr
                     |m ft thn els r IHt IHe IHr] using tbody_ind; [reflexivity|..];
    apply Hcons; try assumption; cbn [weave1]; unfold weave in *; try apply Eb;
    destruct (m_gen m); simpl; rewrite ?app_nil_r; congruence.
Qed.

Theorem run_passes_weave ts body s :
  NoDup (map fst ts) -> if_then_first (map fst ts) -> NoDup (map fst (br_tables body)) ->
  exists c : bool, (fits body -> c = true) /\
    run_passes ts body s =
    if c then Some (weave (enabled_in ts) (helper_index (List.length s) (br_tables body)) body,
                    s ++ if is_enabled (enabled_in ts) HkBrTable
                         then map helper_fn (br_tables body) else [])
    else None.
Proof.
  intros ND IF NB.
  destruct (@run_passes_from (fun _ => None) (helper_index (List.length s) (br_tables body)) body
              (List.length s) ts) as (c & Hc & Ec); auto.
  { now apply agrees_helper_index. }
  exists c. split; [exact Hc|]. rewrite weave_nothing in Ec. now rewrite Ec.
Qed.
