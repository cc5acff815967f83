(** An executable, sound (not complete) checker for validity and annotations: it accepts code
    in which every instruction without a body carries a type. Used for the examples. *)
From Verif Require Import Typing ModuleTyping NestingSpec NestingProofs.

Definition tys_eqb : list valty -> list valty -> bool := list_eqb valty_eqb.
Lemma tys_eqb_eq a b : tys_eqb a b = true <-> a = b. Proof. apply list_eqb_eq, valty_eqb_eq. Qed.
Fixpoint strip_prefix (p l : list valty) : option (list valty) :=
  match p, l with
  | [], _ => Some l
  | a :: p', b :: l' => if valty_eqb a b then strip_prefix p' l' else None
  | _, [] => None
  end.
Lemma strip_prefix_eq p : forall l r, strip_prefix p l = Some r -> l = p ++ r.
Proof.
  induction p as [|a p IH]; intros [|b l] r; simpl; try discriminate; try (intros E; now injection E as <-).
  destruct (valty_eqb a b) eqn:Ea; [|discriminate]. apply valty_eqb_eq in Ea. subst. intros E. f_equal. now apply IH.
Qed.
Definition ends_with (sfx l : list valty) : bool :=
  match strip_prefix (rev sfx) (rev l) with Some _ => true | None => false end.
Lemma ends_with_eq sfx l : ends_with sfx l = true -> exists a, l = a ++ sfx.
Proof.
  unfold ends_with. destruct (strip_prefix _ _) as [r|] eqn:E; [|discriminate]. intros _. apply strip_prefix_eq in E.
  exists (rev r). rewrite <- (rev_involutive l), E, rev_app_distr. now rewrite rev_involutive.
Qed.

Definition num_tys := [TI32; TI64; TF32; TF64].
Definition btypeb (C : ctx) (b : basic) (ft : functy) : bool :=
  let is i o := functy_eqb ft (FT i o) in
  match b with
  | BUnreachable => true
  | BNop => is [] []
  | BBr l => match nth_error (c_labels C) l with Some lt => ends_with lt (ft_in ft) | None => false end
  | BBrIf l => match nth_error (c_labels C) l with Some lt => is (lt ++ [i32]) lt | None => false end
  | BBrTable table d =>
      match nth_error (c_labels C) d with
      | Some lt => ends_with (lt ++ [i32]) (ft_in ft) &&
          forallb (fun l => match nth_error (c_labels C) l with Some lt' => tys_eqb lt' lt | None => false end) table
      | None => false
      end
  | BReturn => ends_with (c_ret C) (ft_in ft)
  | BCall f => match nth_error (c_funcs C) f with Some ft' => functy_eqb ft ft' | None => false end
  | BCallIndirect ft' t =>
      match nth_error (c_tables C) t with Some FuncRef => is (ft_in ft' ++ [i32]) (ft_out ft') | _ => false end
  | BRefNull r => is [] [TRef r]
  | BRefIsNull => is [TRef FuncRef] [i32] || is [TRef ExternRef] [i32]
  | BRefFunc f => Nat.ltb f (List.length (c_funcs C)) && is [] [TRef FuncRef]
  | BDrop => match ft with FT [_] [] => true | _ => false end
  | BSelect => existsb (fun t => is [TNum t; TNum t; i32] [TNum t]) num_tys
  | BTypedSelect t => is [t; t; i32] [t]
  | BLocal k i =>
      match nth_error (c_locals C) i with
      | Some t => match k with LGet => is [] [t] | LSet => is [t] [] | LTee => is [t] [t] end
      | None => false
      end
  | BGlobal k i =>
      match nth_error (c_globals C) i with
      | Some (t, mu) => match k with GGet => is [] [t] | GSet => mu && is [t] [] end
      | None => false
      end
  | BLoad o a => c_mem C && Nat.leb (2 ^ ma_align a) (loadop_bytes o) && is [i32] [TNum (loadop_ty o)]
  | BStore o a => c_mem C && Nat.leb (2 ^ ma_align a) (storeop_bytes o) && is [i32; TNum (storeop_ty o)] []
  | BMemorySize 0 => c_mem C && is [] [i32]
  | BMemoryGrow 0 => c_mem C && is [i32] [i32]
  | BConst t _ => is [] [TNum t]
  | BUnary o => is [TNum (unop_in o)] [TNum (unop_out o)]
  | BBinary o => is [TNum (binop_in o); TNum (binop_in o)] [TNum (binop_out o)]
  | _ => false
  end.
Ltac split_tests :=
  repeat match goal with
  | H : _ && _ = true |- _ => apply andb_true_iff in H as [? H]
  | H : functy_eqb _ _ = true |- _ => apply functy_eqb_eq in H; subst
  | H : Nat.leb _ _ = true |- _ => apply Nat.leb_le in H
  | H : Nat.ltb _ _ = true |- _ => apply Nat.ltb_lt in H
  end.
Lemma btypeb_sound C b ft : btypeb C b ft = true -> btype C b ft.
Proof.
  unfold btypeb. destruct b; try discriminate; intros H;
    repeat match type of H with
    | match ?e with _ => _ end = true => destruct e eqn:?; try discriminate
    end; split_tests; try (econstructor; eauto; fail).
  - destruct ft as [i o]. cbn [ft_in] in *. destruct (ends_with_eq _ _ H) as (a & ->). now constructor.
  - destruct ft as [i o]. cbn [ft_in] in *.
    match goal with E : ends_with _ _ = true |- _ => destruct (ends_with_eq _ _ E) as (a & ->) end.
    constructor. constructor; [assumption|]. rewrite forallb_forall in H. rewrite Forall_forall. intros x Hx. specialize (H _ Hx).
    destruct (nth_error _ x); [|discriminate]. apply tys_eqb_eq in H. now subst.
  - destruct ft as [i o]. cbn [ft_in] in *. destruct (ends_with_eq _ _ H) as (a & ->). now constructor.
  - apply orb_true_iff in H as [H|H]; split_tests; constructor.
  - apply existsb_exists in H as (t & _ & H). split_tests. constructor.
Qed.

(** Type and annotation of a body at once; the resulting stack. *)
Section CheckSeq.
  Variable check : tinstr -> list valty -> option (list valty).
  Fixpoint check_seq (l : list tinstr) (st : list valty) : option (list valty) :=
    match l with
    | [] => Some st
    | i :: r => match check i st with Some st' => check_seq r st' | None => None end
    end.
End CheckSeq.
Section Check.
  Definition leaves (o : option (list valty)) (ts : list valty) : bool :=
    match o with Some st => tys_eqb st ts | None => false end.
  Definition apply_ft (ft : functy) (st : list valty) : option (list valty) :=
    option_map (fun rest => rev (ft_out ft) ++ rest) (strip_prefix (rev (ft_in ft)) st).
  Fixpoint check1 (C : ctx) (i : tinstr) (st : list valty) : option (list valty) :=
    match i with
    | TBasic m b =>
        match m_ty m with
        | IReach ft => if btypeb C b ft then apply_ft ft st else None
        | _ => None
        end
    | TBlock m ft body =>
        if leaves (check_seq (check1 (label C (ft_out ft))) body (rev (ft_in ft))) (rev (ft_out ft)) then apply_ft ft st else None
    | TLoop m ft body =>
        if leaves (check_seq (check1 (label C (ft_in ft))) body (rev (ft_in ft))) (rev (ft_out ft)) then apply_ft ft st else None
    | TIf m ft thn els =>
        if leaves (check_seq (check1 (label C (ft_out ft))) thn (rev (ft_in ft))) (rev (ft_out ft)) &&
           match els with
           | Some e => leaves (check_seq (check1 (label C (ft_out ft))) e (rev (ft_in ft))) (rev (ft_out ft))
           | None => tys_eqb (ft_in ft) (ft_out ft)
           end
        then apply_ft (FT (ft_in ft ++ [i32]) (ft_out ft)) st else None
    end.
End Check.
Lemma leaves_eq o ts : leaves o ts = true -> o = Some ts.
Proof. destruct o; simpl; [|discriminate]. rewrite tys_eqb_eq. now intros ->. Qed.
Lemma apply_ft_cons C i r ft st st' ts : apply_ft ft st = Some st' -> instr_ok C i ft -> seq_ok C r st' ts -> seq_ok C (i :: r) st ts.
Proof.
  unfold apply_ft. destruct (strip_prefix _ _) eqn:E; [|discriminate]. simpl. intros H. injection H as <-.
  apply strip_prefix_eq in E. subst. intros. econstructor; eauto.
Qed.
Lemma check_sound l : forall C st ts r, check_seq (check1 C) l st = Some ts ->
  seq_ok C (map strip l) st ts /\ annotated_ok C r l.
Proof.
  induction l as [|m b r IHr|m ft body r IHb IHr|m ft body r IHb IHr|m ft thn r IHt IHr|m ft thn els r IHt IHe IHr]
    using tbody_ind; intros C st ts rc H; cbn [check_seq check1] in H.
  - injection H as <-. split; constructor.
  - destruct (m_ty m) as [|ft] eqn:E; try discriminate.
    all: match type of H with context [if ?c then _ else _] => destruct c eqn:B; [|discriminate] end.
    all: destruct (apply_ft _ st) as [st'|] eqn:A; [|discriminate].
    all: apply btypeb_sound in B.
    all: destruct (IHr C st' ts (rc && negb (jumps b)) H); split; [|econstructor; eauto].
    all: cbn [map strip]; eapply apply_ft_cons; eauto; now constructor.
  - destruct (leaves _ _) eqn:B; [|discriminate]. destruct (apply_ft _ st) as [st'|] eqn:A; [|discriminate].
    apply leaves_eq in B. destruct (IHb _ _ _ rc B). destruct (IHr C st' ts rc H).
    split; [cbn [map strip]; eapply apply_ft_cons; eauto; now constructor|now constructor].
  - destruct (leaves _ _) eqn:B; [|discriminate]. destruct (apply_ft _ st) as [st'|] eqn:A; [|discriminate].
    apply leaves_eq in B. destruct (IHb _ _ _ rc B). destruct (IHr C st' ts rc H).
    split; [cbn [map strip]; eapply apply_ft_cons; eauto; now constructor|now constructor].
  - destruct (_ && _) eqn:B; [|discriminate]. destruct (apply_ft _ st) as [st'|] eqn:A; [|discriminate].
    apply andb_true_iff in B as [B B2]. apply tys_eqb_eq in B2.
    apply leaves_eq in B. destruct (IHt _ _ _ rc B). destruct (IHr C st' ts rc H).
    split; [cbn [map strip]; eapply apply_ft_cons; eauto; now constructor|now constructor].
  - destruct (_ && _) eqn:B; [|discriminate]. destruct (apply_ft _ st) as [st'|] eqn:A; [|discriminate].
    apply andb_true_iff in B as [B B2]. apply leaves_eq in B2.
    apply leaves_eq in B. destruct (IHt _ _ _ rc B). destruct (IHe _ _ _ rc B2). destruct (IHr C st' ts rc H).
    split; [cbn [map strip]; eapply apply_ft_cons; eauto; now constructor|now constructor].
Qed.

(** All functions of a module. *)
Definition check_func (m : module) (infer : nat -> list low -> option (list ity)) (f : nat) (fn : func) : bool :=
  match fn_code fn with
  | FImport _ _ => true
  | FPresent locals body =>
      match infer f body, structure_typed f (infer f) body with
      | Some tys, COk b =>
          Nat.eqb (List.length tys) (List.length body) &&
          leaves (check_seq (check1 (mctx m (ft_in (fn_type fn) ++ locals) (ft_out (fn_type fn)))) b [])
                 (rev (ft_out (fn_type fn)))
      | _, _ => false
      end
  end.
Definition check_funcs (m : module) (infer : nat -> list low -> option (list ity)) : bool :=
  forallb (fun p => check_func m infer (fst p) (snd p)) (combine (seq 0 (List.length (md_funcs m))) (md_funcs m)).
Lemma nth_combine {A} (l : list A) : forall k f x, nth_error l f = Some x -> In (k + f, x) (combine (seq k (List.length l)) l).
Proof.
  induction l as [|a l IH]; intros k [|f] x; simpl; try discriminate.
  - intros E. injection E as <-. left. now rewrite Nat.add_0_r.
  - intros E. right. replace (k + S f) with (S k + f) by lia. now apply IH.
Qed.
Lemma check_funcs_sound m infer : check_funcs m infer = true -> Forall (func_ok m) (md_funcs m) /\ annotates infer m.
Proof.
  unfold check_funcs. rewrite forallb_forall. intros H.
  assert (W : forall f fn, nth_error (md_funcs m) f = Some fn -> check_func m infer f fn = true).
  { intros f fn E. exact (H _ (nth_combine _ 0 _ E)). }
  clear H. unfold check_func in W. split.
  - rewrite Forall_forall. intros fn Hin. apply In_nth_error in Hin as (f & E). specialize (W _ _ E).
    unfold func_ok. destruct (fn_code fn) as [ns nm|locals body] eqn:EC; [exact Logic.I|].
    destruct (infer f body) as [tys|] eqn:EI; [|discriminate]. destruct (structure_typed f (infer f) body) as [b| |] eqn:S; try discriminate.
    apply andb_true_iff in W as [L W]. apply Nat.eqb_eq in L. apply leaves_eq in W.
    destruct (check_sound _ _ _ true W) as (T & _). exists (map strip b). split; [|assumption].
    pose proof (structure_indexed_strip (index_from f 0 body tys)) as R. rewrite index_from_ins in R by assumption.
    unfold structure_typed in S. rewrite EI in S. rewrite S in R. simpl in R. now rewrite <- R.
  - intros f fn locals body E EC. specialize (W _ _ E). rewrite EC in W.
    destruct (infer f body) as [tys|] eqn:EI; [|discriminate]. destruct (structure_typed f (infer f) body) as [b| |] eqn:S; try discriminate.
    apply andb_true_iff in W as [L W]. apply Nat.eqb_eq in L. apply leaves_eq in W.
    destruct (check_sound _ _ _ true W) as (_ & A). exists tys, b. auto.
Qed.
