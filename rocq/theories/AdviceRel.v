(** Simulation between two executions whose stores differ by appended tables and element
    segments. *)
From Verif Require Import Semantics RunLemmas.
Local Open Scope res_scope.

Section Rel.
  Context {X : Type}.
  Notation store := (store X).
  Notation res := (res store).
  (** Appended tables and element segments. *)
  Variable tabs : list tblst.
  Variable segs : list (list (option nat)).
  Definition emb (s : store) : store :=
    St (st_mem s) (st_globals s) (st_tables s ++ tabs) (st_elems s ++ segs) (st_datas s) (st_x s).

  (** The second execution does what the first does, unless the first is ill-formed. *)
  Definition rel {A B} (e : A -> B) (r : res A) (r' : res B) : Prop :=
    match r with
    | Ok a => r' = Ok (e a)
    | Trap s => r' = Trap (emb s)
    | Stuck => True
    | Oof => r' = Oof
    end.
  Definition ec (c : @conf X) : @conf X := let '(o, st, ls, s) := c in (o, st, ls, emb s).
  Definition er (c : list val * store) : list val * store := let '(vs, s) := c in (vs, emb s).
  (** The same for bodies. *)
  Definition brel (B B' : list val -> list val -> store -> res (@conf X)) : Prop :=
    forall st ls s, rel ec (B st ls s) (B' st ls (emb s)).
  Definition crel (c c' : list val -> store -> res (list val * store)) : Prop :=
    forall args s, rel er (c args s) (c' args (emb s)).

  Lemma rel_bind {A B C D} (e : A -> B) (e' : C -> D) m m' k k' :
    rel e m m' -> (forall a, m = Ok a -> rel e' (k a) (k' (e a))) -> rel e' (rbind m k) (rbind m' k').
  Proof. intros R K. destruct m as [a|s| |]; simpl in R; subst; simpl; auto. Qed.
  Lemma rel_rget {A} (o : option A) : rel (fun x => x) (rget o) (rget o).
  Proof. destruct o; simpl; auto. Qed.
  Lemma rel_next : brel next next.
  Proof. intros st ls s. reflexivity. Qed.

  Lemma rel_andthen m m' k k' : rel ec m m' -> brel k k' -> rel ec (andthen m k) (andthen m' k').
  Proof.
    intros R K. destruct m as [[[[o st] ls] s]|s| |]; simpl in R; subst; simpl; auto.
    destruct o; [apply K|reflexivity|reflexivity].
  Qed.
  Lemma brel_seq {I J} (f : I -> list val -> list val -> store -> res (@conf X))
      (g : J -> list val -> list val -> store -> res (@conf X)) (h : I -> list J) l :
    Forall (fun i => brel (f i) (run_seq g (h i))) l -> brel (run_seq f l) (run_seq g (flat_map h l)).
  Proof.
    intros F. induction F as [|i l Hi F IH]; [apply rel_next|].
    intros st ls s. cbn [run_seq flat_map]. rewrite run_seq_app. apply rel_andthen; [apply Hi|exact IH].
  Qed.
  Lemma brel_block B B' ft : brel B B' -> brel (run_block B ft) (run_block B' ft).
  Proof.
    intros R st ls s. unfold run_block. eapply rel_bind; [apply rel_rget|].
    intros [ps rest] _. eapply rel_bind; [apply R|]. intros [[[o st'] ls'] s'] _. simpl.
    destruct o as [|[|l]|]; try reflexivity.
    eapply rel_bind; [apply rel_rget|]. intros [rs x] _. reflexivity.
  Qed.
  Lemma brel_iter B B' : brel B B' -> forall k nin rest ps ls s,
    rel ec (run_iter B k nin rest ps ls s) (run_iter B' k nin rest ps ls (emb s)).
  Proof.
    intros R. induction k as [|k IH]; intros nin rest ps ls s; [reflexivity|].
    cbn [run_iter]. eapply rel_bind; [apply R|]. intros [[[o st'] ls'] s'] _. simpl.
    destruct o as [|[|l]|]; try reflexivity.
    eapply rel_bind; [apply rel_rget|]. intros [ps' x] _. apply IH.
  Qed.
  Lemma brel_loop B B' k ft : brel B B' -> brel (run_loop k B ft) (run_loop k B' ft).
  Proof.
    intros R st ls s. unfold run_loop. eapply rel_bind; [apply rel_rget|].
    intros [ps rest] _. now apply brel_iter.
  Qed.

  Lemma rel_invoke B B' ft locals args s : brel B B' ->
    rel er (invoke B ft locals args s) (invoke B' ft locals args (emb s)).
  Proof.
    intros R. unfold invoke. eapply rel_bind; [apply R|]. intros [[[o st'] ls'] s'] _. simpl.
    eapply rel_bind; [apply rel_rget|]. intros [rs rest] _.
    destruct o as [|[|l]|]; try reflexivity; try exact I. destruct rest; [reflexivity|exact I].
  Qed.

  Lemma rel_run_x export export' p s : (forall name, crel (export name) (export' name)) ->
    rel er (run_x export p s) (run_x export' p (emb s)).
  Proof.
    intros R. revert s. induction p as [vs| | |k IH|x m g k IH|name args k IH]; intros s; simpl.
    - reflexivity.
    - reflexivity.
    - reflexivity.
    - apply IH.
    - apply IH.
    - eapply rel_bind; [apply R|]. intros [vs s'] _. apply IH.
  Qed.
  Lemma rel_call_import ext export export' ft ns name args s : (forall nm, crel (export nm) (export' nm)) ->
    rel er (call_import ext export ft ns name args s) (call_import ext export' ft ns name args (emb s)).
  Proof.
    intros R. unfold call_import. eapply rel_bind; [now apply rel_run_x|]. intros [rs s'] _. simpl.
    destruct (vals_ok (ft_out ft) rs); [reflexivity|exact I].
  Qed.

  Lemma set_nth_app {A} n (x : A) l l' : n < List.length l -> set_nth n x (l ++ l') = set_nth n x l ++ l'.
  Proof. revert l. induction n; intros [|y l] L; simpl in *; try lia; try reflexivity. rewrite IHn by lia. reflexivity. Qed.
  Lemma nth_lt {A} (l : list A) n x : nth_error l n = Some x -> n < List.length l.
  Proof. intros E. apply nth_error_Some. congruence. Qed.

  Lemma emb_set_table s t tb tb' : nth_error (st_tables s) t = Some tb ->
    emb (set_tables s (set_nth t tb' (st_tables s))) = set_tables (emb s) (set_nth t tb' (st_tables (emb s))).
  Proof. intros E. unfold emb, set_tables. simpl. rewrite set_nth_app; [reflexivity|eapply nth_lt; eassumption]. Qed.
  Lemma emb_set_elem s t tb tb' : nth_error (st_elems s) t = Some tb ->
    emb (set_elems s (set_nth t tb' (st_elems s))) = set_elems (emb s) (set_nth t tb' (st_elems (emb s))).
  Proof. intros E. unfold emb, set_elems. simpl. rewrite set_nth_app; [reflexivity|eapply nth_lt; eassumption]. Qed.
  Lemma rel_table {B C} (e : B -> C) s t k k' :
    (forall tb, nth_error (st_tables s) t = Some tb -> rel e (k tb) (k' tb)) ->
    rel e (rbind (rget (nth_error (st_tables s) t)) k) (rbind (rget (nth_error (st_tables (emb s)) t)) k').
  Proof.
    intros K. destruct (nth_error (st_tables s) t) as [tb|] eqn:E; [|exact I].
    simpl (st_tables (emb s)). rewrite (nth_error_app_l _ _ _ E). simpl. now apply K.
  Qed.
  Lemma rel_elem {B C} (e : B -> C) s t k k' :
    (forall tb, nth_error (st_elems s) t = Some tb -> rel e (k tb) (k' tb)) ->
    rel e (rbind (rget (nth_error (st_elems s) t)) k) (rbind (rget (nth_error (st_elems (emb s)) t)) k').
  Proof.
    intros K. destruct (nth_error (st_elems s) t) as [tb|] eqn:E; [|exact I].
    simpl (st_elems (emb s)). rewrite (nth_error_app_l _ _ _ E). simpl. now apply K.
  Qed.

  (** ** Plain instructions *)
  Variable num1 : unop -> Z -> option Z.
  Variable num2 : binop -> Z -> Z -> option Z.
  Variables ftype ftype' : nat -> option functy.
  Variables call call' : nat -> list val -> store -> res (list val * store).
  Hypothesis Hft : forall f ft, ftype f = Some ft -> ftype' f = Some ft.
  Hypothesis Hcall : forall f, crel (call f) (call' f).

  Lemma rel_do_call f ft : brel (do_call call f ft) (do_call call' f ft).
  Proof.
    intros st ls s. unfold do_call. eapply rel_bind; [apply rel_rget|]. intros [args st'] _.
    eapply rel_bind; [apply Hcall|]. intros [rs s'] _. reflexivity.
  Qed.

  Lemma rel_pop_i32 st : rel (fun x => x) (@pop_i32 X st) (@pop_i32 X st).
  Proof. destruct st as [|[[]|] st]; simpl; auto. Qed.
  Lemma rel_pop_ref st : rel (fun x => x) (@pop_ref X st) (@pop_ref X st).
  Proof. destruct st as [|[[]|] st]; simpl; auto. Qed.
  Lemma rel_ftype {B C} (e : B -> C) f k k' : (forall ft, ftype f = Some ft -> rel e (k ft) (k' ft)) ->
    rel e (rbind (rget (ftype f)) k) (rbind (rget (ftype' f)) k').
  Proof. intros K. destruct (ftype f) as [ft|] eqn:E; [|exact I]. rewrite (Hft E). simpl. auto. Qed.

  Ltac brk := repeat match goal with
    | |- rel _ Stuck _ => exact I
    | |- rel _ (rbind (rget (nth_error (st_tables _) _)) _) _ => apply rel_table; intros ? ?
    | |- rel _ (rbind (rget (nth_error (st_elems _) _)) _) _ => apply rel_elem; intros ? ?
    | |- rel _ (rbind (rget (ftype _)) _) _ => apply rel_ftype; intros ? ?
    | |- rel _ (rbind (rget _) _) _ => eapply rel_bind; [apply rel_rget|intros ? _]
    | |- rel _ (rbind (pop_i32 _) _) _ => eapply rel_bind; [apply rel_pop_i32|intros [? ?] _]
    | |- rel _ (rbind (pop_ref _) _) _ => eapply rel_bind; [apply rel_pop_ref|intros [? ?] _]
    | |- rel _ (do_call _ _ _ _ _ _) _ => apply rel_do_call
    | |- rel _ (if ?c then _ else _) _ => destruct c
    | |- rel _ (match ?c with _ => _ end) _ => destruct c
    end.

  Lemma rel_bulk b vs s : rel emb (bulk b vs s) (bulk b vs (emb s)).
  Proof.
    unfold bulk. destruct b; try exact I;
      repeat (destruct vs as [|[[]|] vs]; try exact I).
    all: brk; try reflexivity; try (simpl; f_equal; symmetry; first [eapply emb_set_table|eapply emb_set_elem]; eassumption).
  Qed.

  Lemma rel_exec b : brel (exec num1 num2 ftype call b) (exec num1 num2 ftype' call' b).
  Proof.
    intros st ls s.
    destruct b; cbn [exec];
      try (match goal with o : localop |- _ => destruct o | o : globalop |- _ => destruct o end).
    all: change (st_globals (emb s)) with (st_globals s); change (st_mem (emb s)) with (st_mem s).
    all: try (progress brk; try reflexivity; fail).
    all: try reflexivity.
    all: brk; try reflexivity.
    all: try (unfold next; simpl; f_equal; f_equal; symmetry; eapply emb_set_table; eassumption).
    all: try (eapply rel_bind; [apply rel_bulk|intros s' _; reflexivity]).
  Qed.

  Variable loops : nat.
  Lemma rel_run b : brel (run num1 num2 ftype call loops b) (run num1 num2 ftype' call' loops b).
  Proof.
    unfold run. induction b as [|b r IHr|ft b r IHb IHr|ft b r IHb IHr|ft t r IHt IHr|ft t e r IHt IHe IHr] using ubody_ind.
    - apply rel_next.
    - intros st ls s. cbn [run_seq]. apply rel_andthen; [apply rel_exec|exact IHr].
    - intros st ls s. cbn [run_seq]. apply rel_andthen; [|exact IHr]. now apply brel_block.
    - intros st ls s. cbn [run_seq]. apply rel_andthen; [|exact IHr]. now apply brel_loop.
    - intros st ls s. cbn [run_seq]. apply rel_andthen; [|exact IHr]. cbn [run1].
      eapply rel_bind; [apply rel_pop_i32|]. intros [c st'] _. destruct (c =? 0)%Z; apply brel_block; [apply rel_next|exact IHt].
    - intros st ls s. cbn [run_seq]. apply rel_andthen; [|exact IHr]. cbn [run1].
      eapply rel_bind; [apply rel_pop_i32|]. intros [c st'] _. destruct (c =? 0)%Z; apply brel_block; assumption.
  Qed.
End Rel.
