(** Lemmas for property C29: the order in which the intercepted functions are put in the apply
    table shows only in the handle by which the analysis resumes a call. *)
From Coq Require Import Permutation.
From Verif Require Import Semantics RunLemmas Advice Instantiate.
Local Open Scope string_scope.
Local Open Scope list_scope.
Local Open Scope res_scope.

(** The handle of the same function in another table: [k] is a handle in the table of the
    functions [a]; numbers that are no handle are kept. *)
Definition rename (a b : list nat) (k : Z) : Z :=
  match nth_error a (Z.to_nat k) with
  | Some f => match position f b with Some j => Z.of_nat j | None => k end
  | None => k
  end.
Definition rename_first (a b : list nat) (args : list val) : list val :=
  match args with
  | VNum TI32 k :: r => VNum TI32 (rename a b k) :: r
  | _ => args
  end.
(** Arguments of a call of an export of the instrumented module. *)
Definition rename_call (a b : list nat) (name : string) (args : list val) : list val :=
  if String.eqb name "call_base" then rename_first a b args else args.

Section Agents.
  Context {X : Type}.
  (** The same agents for the module with the other table: the analysis is told the handles
      of table [a], and the handles it uses are translated to table [b]. *)
  Fixpoint rename_x (a b : list nat) (p : xprog X) : xprog X :=
    match p with
    | XGet k => XGet (fun x me g => rename_x a b (k x me g))
    | XPut x me g k => XPut x me g (rename_x a b k)
    | XCall name args k => XCall name (rename_call a b name args) (fun vs => rename_x a b (k vs))
    | _ => p
    end.
  Definition renamed (a b : list nat) (ext : string -> string -> list val -> xprog X)
      (ns name : string) (args : list val) : xprog X :=
    rename_x a b (ext ns name
      (if String.eqb ns analysis_ns && String.eqb name "generic_apply" then rename_first b a args else args)).

  (** Two agents' programs that differ only in the handles they pass on. *)
  Inductive xsim (a b : list nat) : xprog X -> xprog X -> Prop :=
  | xs_ret vs : xsim a b (XRet vs) (XRet vs)
  | xs_trap : xsim a b XTrap XTrap
  | xs_stuck : xsim a b XStuck XStuck
  | xs_get k k' : (forall x me g, xsim a b (k x me g) (k' x me g)) -> xsim a b (XGet k) (XGet k')
  | xs_put x me g k k' : xsim a b k k' -> xsim a b (XPut x me g k) (XPut x me g k')
  | xs_call name args k k' : (forall vs, xsim a b (k vs) (k' vs)) ->
      xsim a b (XCall name args k) (XCall name (rename_call a b name args) k').
  (** Agents that do the same, one with the handles of table [a], the other with those of [b]. *)
  Definition do_alike (a b : list nat) (ext ext' : string -> string -> list val -> xprog X) : Prop :=
    (forall ns name args, ~ (ns = analysis_ns /\ name = "generic_apply") -> xsim a b (ext ns name args) (ext' ns name args)) /\
    (forall f k j args, position f a = Some k -> position f b = Some j ->
       xsim a b (ext analysis_ns "generic_apply" (i32n k :: args)) (ext' analysis_ns "generic_apply" (i32n j :: args))).
End Agents.

(** ** Equal agents give equal runs *)
Section Ext.
  Context {X : Type}.
  Notation store := (store X).
  Notation res := (res store).
  Notation body := (list val -> list val -> store -> res (@conf X)).
  Definition beq (B B' : body) : Prop := forall st ls s, B st ls s = B' st ls s.

  Lemma bind_ext {A C} (m m' : res A) (k k' : A -> res C) : m = m' -> (forall a, k a = k' a) -> rbind m k = rbind m' k'.
  Proof. intros -> K. destruct m'; simpl; auto. Qed.
  Lemma andthen_ext m m' (k k' : body) : m = m' -> beq k k' -> andthen m k = andthen m' k'.
  Proof. intros -> K. destruct m' as [[[[o st] ls] s]|s| |]; simpl; auto. destruct o; auto. Qed.
  Lemma block_ext B B' ft : beq B B' -> beq (run_block B ft) (run_block B' ft).
  Proof.
    intros R st ls s. unfold run_block. apply bind_ext; [reflexivity|]. intros [ps rest].
    apply bind_ext; [apply R|]. reflexivity.
  Qed.
  Lemma iter_ext B B' : beq B B' -> forall k nin rest ps ls s,
    run_iter B k nin rest ps ls s = run_iter B' k nin rest ps ls s.
  Proof.
    intros R. induction k as [|k IH]; intros nin rest ps ls s; [reflexivity|].
    cbn [run_iter]. apply bind_ext; [apply R|]. intros [[[o st'] ls'] s'].
    destruct o as [|[|l]|]; try reflexivity. apply bind_ext; [reflexivity|]. intros [ps' x]. apply IH.
  Qed.
  Lemma loop_ext B B' n ft : beq B B' -> beq (run_loop n B ft) (run_loop n B' ft).
  Proof.
    intros R st ls s. unfold run_loop. apply bind_ext; [reflexivity|]. intros [ps rest]. now apply iter_ext.
  Qed.
  Lemma invoke_ext B B' ft locals args s : beq B B' -> invoke B ft locals args s = invoke B' ft locals args s.
  Proof. intros R. unfold invoke. apply bind_ext; [apply R|]. reflexivity. Qed.

  Variable num1 : unop -> Z -> option Z.
  Variable num2 : binop -> Z -> Z -> option Z.
  Variable ftype : nat -> option functy.
  Variables call call' : nat -> list val -> store -> res (list val * store).
  Hypothesis Hcall : forall f args s, call f args s = call' f args s.

  Lemma do_call_ext f ft : beq (do_call call f ft) (do_call call' f ft).
  Proof.
    intros st ls s. unfold do_call. apply bind_ext; [reflexivity|]. intros [args st'].
    apply bind_ext; [apply Hcall|]. reflexivity.
  Qed.
  Lemma exec_ext b : beq (exec num1 num2 ftype call b) (exec num1 num2 ftype call' b).
  Proof.
    intros st ls s. destruct b; try reflexivity; cbn [exec].
    all: repeat first
      [ apply do_call_ext
      | match goal with |- rbind _ _ = rbind _ _ => apply bind_ext; [reflexivity|intros ?] end
      | match goal with |- context[match ?c with _ => _ end] => destruct c; try reflexivity end ].
  Qed.
  Variable n : nat.
  Lemma run_ext b : beq (run num1 num2 ftype call n b) (run num1 num2 ftype call' n b).
  Proof.
    unfold run. induction b as [|b r IHr|ft b r IHb IHr|ft b r IHb IHr|ft t r IHt IHr|ft t e r IHt IHe IHr] using ubody_ind;
      intros st ls s; cbn [run_seq]; try reflexivity; apply andthen_ext; auto; cbn [run1].
    - apply exec_ext.
    - now apply block_ext.
    - now apply loop_ext.
    - apply bind_ext; [reflexivity|]. intros [c st']. destruct (c =? 0)%Z; apply block_ext; [intros ? ? ?; reflexivity|exact IHt].
    - apply bind_ext; [reflexivity|]. intros [c st']. destruct (c =? 0)%Z; apply block_ext; assumption.
  Qed.

  Variable on : hook -> bool.
  Variables hk hk' : hook -> list val -> store -> res (list val * store).
  Hypothesis Hhk : forall h args s, hk h args s = hk' h args s.
  Lemma consult_ext h k consts m : beq (consult on hk h k consts m) (consult on hk' h k consts m).
  Proof.
    intros st ls s. unfold consult. destruct (on h); [|reflexivity].
    apply bind_ext; [reflexivity|]. intros [ops st']. apply bind_ext; [apply Hhk|]. reflexivity.
  Qed.
  Lemma before_ext h k consts m b :
    beq (before num1 num2 on ftype call hk h k consts m b) (before num1 num2 on ftype call' hk' h k consts m b).
  Proof. intros st ls s. apply andthen_ext; [apply consult_ext|apply exec_ext]. Qed.
  Lemma after_ext h k consts m b :
    beq (after num1 num2 on ftype call hk h k consts m b) (after num1 num2 on ftype call' hk' h k consts m b).
  Proof. intros st ls s. apply andthen_ext; [apply exec_ext|apply consult_ext]. Qed.
  Lemma instead_ext h k consts m b :
    beq (instead_of num1 num2 on ftype call hk h k consts m b) (instead_of num1 num2 on ftype call' hk' h k consts m b).
  Proof. intros st ls s. unfold instead_of. destruct (on h); [apply consult_ext|apply exec_ext]. Qed.
  Lemma advise_ext m b :
    beq (advise num1 num2 on ftype call hk n m b) (advise num1 num2 on ftype call' hk' n m b).
  Proof.
    intros st ls s.
    destruct b; try (apply exec_ext);
      try (match goal with o : localop |- _ => destruct o | o : globalop |- _ => destruct o end); cbn [advise].
    all: repeat first
      [ apply before_ext | apply after_ext | apply instead_ext | apply exec_ext
      | apply andthen_ext; [apply before_ext|apply consult_ext]
      | match goal with |- rbind (hk _ _ _) _ = rbind _ _ => apply bind_ext; [apply Hhk|intros [? ?]] end
      | match goal with |- rbind _ _ = rbind _ _ => apply bind_ext; [reflexivity|intros ?] end
      | match goal with |- context[match ?c with _ => _ end] => destruct c; try reflexivity end ].
  Qed.
  Lemma advised_ext b :
    beq (advised num1 num2 on ftype call hk n b) (advised num1 num2 on ftype call' hk' n b).
  Proof.
    unfold advised.
    assert (IE : forall pre pre' post post' B B', beq pre pre' -> beq post post' -> beq B B' ->
      beq (inside pre post B) (inside pre' post' B')).
    { intros pre pre' post post' B B' H1 H2 H3 st ls s. unfold inside. apply andthen_ext; [apply H1|].
      intros st1 ls1 s1. apply andthen_ext; [apply H3|exact H2]. }
    assert (NE : beq (@next X) (@next X)) by (intros ? ? ?; reflexivity).
    induction b as [|m b r IHr|m ft b r IHb IHr|m ft b r IHb IHr|m ft t r IHt IHr|m ft t e r IHt IHe IHr] using tbody_ind;
      intros st ls s; cbn [run_seq]; try reflexivity; apply andthen_ext; auto; cbn [advised1].
    - apply advise_ext.
    - apply block_ext, IE; auto; apply consult_ext.
    - apply loop_ext, IE; auto; apply consult_ext.
    - apply andthen_ext; [apply consult_ext|]. intros st1 ls1 s1.
      apply bind_ext; [reflexivity|]. intros [c st']. destruct (c =? 0)%Z; apply block_ext; [apply consult_ext|].
      apply IE; auto; apply consult_ext.
    - apply andthen_ext; [apply consult_ext|]. intros st1 ls1 s1.
      apply bind_ext; [reflexivity|]. intros [c st']. destruct (c =? 0)%Z; apply block_ext; apply IE; auto; apply consult_ext.
  Qed.
End Ext.

(** ** Tables of the same functions *)
Lemma position_some f l : In f l -> exists k, position f l = Some k.
Proof.
  induction l as [|x l IH]; [intros []|]. intros H. simpl. destruct (Nat.eqb_spec f x) as [->|D]; [eauto|].
  destruct H as [H|H]; [congruence|]. destruct (IH H) as (k & ->). simpl. eauto.
Qed.
Lemma position_nth_error f l k : position f l = Some k -> nth_error l k = Some f.
Proof.
  revert k. induction l as [|x l IH]; [discriminate|]. intros k H. simpl in H.
  destruct (Nat.eqb_spec f x) as [->|D]; [injection H as <-; reflexivity|].
  destruct (position f l) as [j|]; [|discriminate]. injection H as <-. simpl. now apply IH.
Qed.
Lemma position_none f l : position f l = None -> ~ In f l.
Proof. intros H I. destruct (position_some _ _ I) as (k & E). congruence. Qed.

Section Tables.
  Variables a b : list nat.
  Hypothesis P : Permutation a b.
  Lemma rename_nth k : nth_error b (Z.to_nat (rename a b k)) = nth_error a (Z.to_nat k).
  Proof.
    unfold rename. destruct (nth_error a (Z.to_nat k)) as [f|] eqn:E.
    - destruct (@position_some f b) as (j & Ej).
      { apply (Permutation_in f P). eapply nth_error_In; eassumption. }
      rewrite Ej, Nat2Z.id. now apply position_nth_error.
    - apply nth_error_None. rewrite <- (Permutation_length P). now apply nth_error_None.
  Qed.
End Tables.
Lemma rename_position a b f k j : position f a = Some k -> position f b = Some j ->
  rename b a (Z.of_nat j) = Z.of_nat k.
Proof. intros A B. unfold rename. rewrite Nat2Z.id, (position_nth_error _ _ B), A. reflexivity. Qed.
Lemma rename_x_sim {X} a b (p : xprog X) : xsim a b p (rename_x a b p).
Proof. induction p; simpl; constructor; auto. Qed.
Lemma renamed_alike {X} a b (ext : string -> string -> list val -> xprog X) : do_alike a b ext (renamed a b ext).
Proof.
  split.
  - intros ns name args H. unfold renamed. destruct (String.eqb ns analysis_ns && String.eqb name "generic_apply") eqn:T.
    + apply andb_prop in T as [T1 T2]. apply String.eqb_eq in T1, T2. destruct H. now split.
    + apply rename_x_sim.
  - intros f k j args A B. unfold renamed. rewrite !String.eqb_refl. cbn [andb]. unfold i32n at 2, vi32. cbn [rename_first].
    rewrite (rename_position _ _ _ A B). apply rename_x_sim.
Qed.

(** ** The runs *)
Section Runs.
  Context {X : Type}.
  Notation store := (store X).
  Notation res := (res store).
  Variable num1 : unop -> Z -> option Z.
  Variable num2 : binop -> Z -> Z -> option Z.
  Variables ext ext' : string -> string -> list val -> xprog X.
  Variable infer : nat -> list low -> option (list ity).
  Variable m : module.
  Variable on : hook -> bool.
  Variable generic : bool.
  Variable only : option (list nat).
  Variables a b : list nat.
  Hypothesis P : Permutation a b.
  Hypothesis Hi : forall fn ns name, In fn (md_funcs m) -> fn_code fn = FImport ns name ->
    ~ (ns = analysis_ns /\ name = "generic_apply").
  Hypothesis Hx : export_index 0 (md_funcs m) "call_base" = None.
  Hypothesis AL : do_alike a b ext ext'.

  Definition tells (ns name : string) : bool := String.eqb ns analysis_ns && String.eqb name "generic_apply".
  (** Arguments of the two runs. *)
  Definition alike (c : callee) (args args' : list val) : Prop :=
    match c with
    | CCallBase => args' = rename_first a b args
    | CImport _ ns name =>
        if tells ns name then
          exists f k j r, position f a = Some k /\ position f b = Some j /\ args = i32n k :: r /\ args' = i32n j :: r
        else args' = args
    | _ => args' = args
    end.
  Definition same_calls (r r' : callee -> list val -> store -> res (list val * store)) : Prop :=
    forall c args args' s, alike c args args' -> r c args s = r' c args' s.

  Lemma run_x_ext (e e' : string -> list val -> store -> res (list val * store)) (p p' : xprog X) s :
    (forall name args s, e name args s = e' name (rename_call a b name args) s) -> xsim a b p p' ->
    run_x e p s = run_x e' p' s.
  Proof.
    intros R S. revert s. induction S as [vs| | |k k' _ IH|x me g k k' _ IH|name args k k' _ IH]; intros s; simpl; auto.
    apply bind_ext; [apply R|]. intros [vs s']. apply IH.
  Qed.

  Section Level.
    Variables r r' : callee -> list val -> store -> res (list val * store).
    Hypothesis R : same_calls r r'.

    Lemma reenter_ext name args s :
      reenter m generic r name args s = reenter m generic r' name (rename_call a b name args) s.
    Proof.
      unfold reenter. destruct (export_callee m generic name) as [c|] eqn:E; [|reflexivity]. simpl.
      apply R. unfold rename_call. destruct (String.eqb_spec name "call_base") as [->|D].
      - unfold export_callee in E. rewrite Hx in E. destruct generic; cbn in E; [injection E as <-; reflexivity|discriminate].
      - unfold export_callee in E. destruct (export_index 0 (md_funcs m) name); [injection E as <-; reflexivity|].
        rewrite (proj2 (String.eqb_neq _ _) D), andb_false_r in E.
        destruct (named name load_helpers); [injection E as <-; reflexivity|].
        destruct (named name store_helpers); [injection E as <-; reflexivity|].
        destruct (String.eqb name grow_name); [injection E as <-; reflexivity|].
        destruct (String.eqb name size_name); [injection E as <-; reflexivity|discriminate].
    Qed.
    Lemma import_ext ft ns name args args' s : alike (CImport ft ns name) args args' ->
      call_import ext (reenter m generic r) ft ns name args s = call_import ext' (reenter m generic r') ft ns name args' s.
    Proof.
      intros A. unfold call_import. apply bind_ext; [|reflexivity].
      apply run_x_ext; [intros; apply reenter_ext|]. unfold alike, tells in A.
      destruct (String.eqb_spec ns analysis_ns) as [->|D]; [|simpl in A; subst; apply AL; intuition].
      destruct (String.eqb_spec name "generic_apply") as [->|D]; [|simpl in A; subst; apply AL; intuition].
      destruct A as (f & k & j & r0 & A & B & -> & ->). eapply (proj2 AL); eassumption.
    Qed.
    Lemma lib_ext ft o args s : lib r ft o args s = lib r' ft o args s.
    Proof. apply R. reflexivity. Qed.
    Lemma load_all_ext ft os p s : load_all (lib r ft) os p s = load_all (lib r' ft) os p s.
    Proof.
      revert s. induction os as [|o os IH]; intros s; [reflexivity|]. cbn [load_all].
      apply bind_ext; [apply lib_ext|]. intros [v s1]. apply bind_ext; [apply IH|]. reflexivity.
    Qed.
    Lemma hooks_ext h args s : analysis r (std_hook h) args s = analysis r' (std_hook h) args s.
    Proof. apply R. unfold alike, tells. destruct h as [| | | | | | | | | | | | | | | | | |[]|[] []|[]| | |[] []|[] []|[]|[]]; reflexivity. Qed.
    Variable n : nat.
    Lemma own_ext f fn args s : In fn (md_funcs m) ->
      own num1 num2 ext infer m on generic only n r f fn args s
      = own num1 num2 ext' infer m on generic only n r' f fn args s.
    Proof.
      intros F. unfold own. destruct (fn_code fn) as [ns name|locals body] eqn:E.
      - apply import_ext. unfold alike. destruct (tells ns name) eqn:T; [|reflexivity].
        unfold tells in T. apply andb_prop in T as [T1 T2]. apply String.eqb_eq in T1, T2.
        destruct (Hi _ F E). now split.
      - destruct (selected m only f).
        + destruct (structure_typed f (infer f) body) as [t| |]; try reflexivity.
          apply invoke_ext, advised_ext; intros; [now apply R|apply hooks_ext].
        + destruct (structure_untyped body) as [t| |]; try reflexivity.
          apply invoke_ext, run_ext; intros; now apply R.
    Qed.
    Lemma intercepted_ext k j f fn args s : position f a = Some k -> position f b = Some j ->
      intercepted_call r k f fn args s = intercepted_call r' j f fn args s.
    Proof.
      intros A B. unfold intercepted_call.
      apply bind_ext; [apply lib_ext|]. intros [p s1]. apply bind_ext; [apply lib_ext|]. intros [tp s2].
      apply bind_ext.
      { apply R. simpl. exists f, k, j. eexists. repeat split; assumption || reflexivity. }
      intros [x s3]. apply bind_ext; [reflexivity|]. intros buf.
      apply bind_ext; [apply load_all_ext|]. intros [rs s4].
      apply bind_ext; [apply lib_ext|]. intros [y s5].
      apply bind_ext; [apply lib_ext|]. reflexivity.
    Qed.
    Lemma resume_ext f fn buf s : resume r f fn buf s = resume r' f fn buf s.
    Proof.
      unfold resume. apply bind_ext; [apply load_all_ext|]. intros [vs s1].
      apply bind_ext; [now apply R|]. intros [rs s2]. apply bind_ext; [apply lib_ext|]. reflexivity.
    Qed.
    Lemma level_ext : same_calls (level num1 num2 ext infer m on generic only a n r)
                                 (level num1 num2 ext' infer m on generic only b n r').
    Proof.
      intros c args args' s A. destruct c as [f|f|f|ft ns name| |o|o| |]; cbn [level];
        try (simpl in A; subst args'; reflexivity).
      - simpl in A. subst args'. destruct (nth_error (md_funcs m) f) as [fn|] eqn:N; [|reflexivity]. simpl.
        destruct (fits_args (fn_type fn) args); [|reflexivity].
        destruct (position f a) as [k|] eqn:PA.
        + destruct (position_some f b) as (j & PB).
          { apply (Permutation_in f P). eapply nth_error_In. apply (position_nth_error _ _ PA). }
          rewrite PB. now apply intercepted_ext.
        + destruct (position f b) as [j|] eqn:PB.
          { destruct (position_none _ _ PA). apply (Permutation_in f (Permutation_sym P)).
            eapply nth_error_In. apply (position_nth_error _ _ PB). }
          apply own_ext. eapply nth_error_In; eassumption.
      - simpl in A. subst args'. destruct (nth_error (md_funcs m) f) as [fn|] eqn:N; [|reflexivity]. simpl.
        destruct (fits_args (fn_type fn) args); [|reflexivity]. apply own_ext. eapply nth_error_In; eassumption.
      - simpl in A. subst args'. destruct (nth_error (md_funcs m) f) as [fn|] eqn:N; [|reflexivity]. simpl.
        destruct args as [|buf [|]]; try reflexivity. apply resume_ext.
      - assert (L : fits_args ft args' = fits_args ft args).
        { unfold fits_args. unfold alike in A. destruct (tells ns name); [|now rewrite A].
          destruct A as (f & k & j & r0 & _ & _ & -> & ->). reflexivity. }
        rewrite L. destruct (fits_args ft args); [|reflexivity]. now apply import_ext.
      - simpl in A. subst args'. destruct args as [|[[] k|] [|buf [|]]]; try reflexivity.
        cbn [rename_first]. destruct (Nat.eqb _ _); [|reflexivity].
        rewrite (rename_nth P). destruct (nth_error a (Z.to_nat k)) as [f|]; [now apply R|reflexivity].
    Qed.
  End Level.

  Theorem spec_ext n : same_calls (spec num1 num2 ext infer m on generic only a n)
                                  (spec num1 num2 ext' infer m on generic only b n).
  Proof.
    induction n as [|n IH]; intros c args args' s A; [reflexivity|]. cbn [spec]. now apply level_ext.
  Qed.
  Theorem spec_module_ext n imp x calls :
    spec_module num1 num2 ext infer on generic only a n imp m x calls
    = spec_module num1 num2 ext' infer on generic only b n imp m x
        (map (fun c => (fst c, rename_call a b (fst c) (snd c))) calls).
  Proof.
    unfold spec_module. apply bind_ext; [reflexivity|]. intros s.
    apply bind_ext.
    { destruct (md_start m); [|reflexivity]. now apply spec_ext. }
    intros [_ s1]. revert s1. induction calls as [|[name args] calls IH]; intros s1; [reflexivity|].
    cbn [session map fst snd].
    pose proof (@reenter_ext _ _ (spec_ext n) name args s1) as E. unfold reenter in E. rewrite <- E. clear E.
    destruct (rbind _ _) as [[vs s2]|s2| |]; try reflexivity; rewrite IH; reflexivity.
  Qed.
End Runs.
