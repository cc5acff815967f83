(** More fuel does not change an outcome: a run of a plain module that ends (normally, by a trap,
    or stuck) within a bound ends the same way within every larger bound. *)
From Verif Require Import Semantics RunLemmas.
Local Open Scope res_scope.

Section Fuel.
  Context {X : Type}.
  Notation store := (store X).
  Notation res := (res store).
  Notation body := (list val -> list val -> store -> res (@conf X)).
  Definition ends_as {B} (r r' : res B) : Prop := r <> Oof -> r' = r.
  Notation "r <<= r'" := (ends_as r r') (at level 70).
  Definition bends (B B' : body) : Prop := forall st ls s, B st ls s <<= B' st ls s.

  Lemma ends_refl {B} (r : res B) : r <<= r. Proof. now intros _. Qed.
  Lemma ends_bind {A C} (r r' : res A) (k k' : A -> res C) : r <<= r' -> (forall a, k a <<= k' a) -> rbind r k <<= rbind r' k'.
  Proof.
    intros H K N. destruct r as [a|s| |]; cbn [rbind] in *; [|rewrite H by discriminate; reflexivity..|now destruct N].
    rewrite H by discriminate. now apply K.
  Qed.
  Lemma ends_andthen r r' (k k' : body) : r <<= r' -> bends k k' -> andthen r k <<= andthen r' k'.
  Proof.
    intros H K. unfold andthen. apply ends_bind; [exact H|]. intros [[[o st] ls] s]. destruct o; [apply K|apply ends_refl..].
  Qed.
  Lemma ends_block B B' ft : bends B B' -> bends (run_block B ft) (run_block B' ft).
  Proof.
    intros R st ls s. unfold run_block. apply ends_bind; [apply ends_refl|]. intros [ps rest].
    apply ends_bind; [apply R|]. intros a. apply ends_refl.
  Qed.
  Lemma ends_iter B B' : bends B B' -> forall k k' nin rest ps ls s, k <= k' ->
    run_iter B k nin rest ps ls s <<= run_iter B' k' nin rest ps ls s.
  Proof.
    intros R. induction k as [|k IH]; intros k' nin rest ps ls s L; [intros N; now destruct N|].
    destruct k' as [|k']; [lia|]. cbn [run_iter]. apply ends_bind; [apply R|]. intros [[[o st'] ls'] s'].
    destruct o as [|[|l]|]; try apply ends_refl. apply ends_bind; [apply ends_refl|]. intros [ps' x]. apply IH. lia.
  Qed.
  Lemma ends_loop B B' n n' ft : n <= n' -> bends B B' -> bends (run_loop n B ft) (run_loop n' B' ft).
  Proof.
    intros L R st ls s. unfold run_loop. apply ends_bind; [apply ends_refl|]. intros [ps rest]. now apply ends_iter.
  Qed.

  Variable num1 : unop -> Z -> option Z.
  Variable num2 : binop -> Z -> Z -> option Z.
  Section Code.
    Variable ftype : nat -> option functy.
    Variables call call' : nat -> list val -> store -> res (list val * store).
    Hypothesis Hcall : forall f args s, call f args s <<= call' f args s.
    Lemma ends_exec b : bends (exec num1 num2 ftype call b) (exec num1 num2 ftype call' b).
    Proof.
      intros st ls s. destruct b; try apply ends_refl; cbn [exec].
      - apply ends_bind; [apply ends_refl|]. intros ft. unfold do_call. apply ends_bind; [apply ends_refl|]. intros [vs st'].
        apply ends_bind; [apply Hcall|]. intros. apply ends_refl.
      - apply ends_bind; [apply ends_refl|]. intros [c st']. apply ends_bind; [apply ends_refl|]. intros tb.
        destruct (nth_error (ts_elems tb) (Z.to_nat c)) as [[f|]|]; try apply ends_refl.
        apply ends_bind; [apply ends_refl|]. intros ft'. destruct (functy_eqb _ _); [|apply ends_refl].
        unfold do_call. apply ends_bind; [apply ends_refl|]. intros [vs st'']. apply ends_bind; [apply Hcall|]. intros. apply ends_refl.
    Qed.
    Variables n n' : nat.
    Hypothesis Ln : n <= n'.
    Lemma ends_run b : bends (run num1 num2 ftype call n b) (run num1 num2 ftype call' n' b).
    Proof.
      unfold run. induction b as [|b r IHr|ft b r IHb IHr|ft b r IHb IHr|ft t r IHt IHr|ft t e r IHt IHe IHr] using ubody_ind;
        intros st ls s; cbn [run_seq]; try apply ends_refl; apply ends_andthen; auto; cbn [run1].
      - apply ends_exec.
      - now apply ends_block.
      - now apply ends_loop.
      - apply ends_bind; [apply ends_refl|]. intros [c st']. destruct (c =? 0)%Z; apply ends_block; [intros ? ? ?; apply ends_refl|exact IHt].
      - apply ends_bind; [apply ends_refl|]. intros [c st']. destruct (c =? 0)%Z; apply ends_block; assumption.
    Qed.
  End Code.
  Lemma ends_x export export' (p : xprog X) : (forall name args s, export name args s <<= export' name args s) ->
    forall s, run_x export p s <<= run_x export' p s.
  Proof.
    intros H. induction p as [vs| | |k IH|x m g p IH|name args k IH]; intros s; cbn [run_x]; try apply ends_refl; auto.
    apply ends_bind; [apply H|]. intros [vs s']. apply IH.
  Qed.
  Lemma more_fuel ext fs n n' : n <= n' -> forall f args s,
    call_fn num1 num2 ext fs n f args s <<= call_fn num1 num2 ext fs n' f args s.
  Proof.
    revert n'. induction n as [|n IH]; intros n' L f args s; [intros N; now destruct N|]. destruct n' as [|n']; [lia|].
    cbn [call_fn]. apply ends_bind; [apply ends_refl|]. intros fn. destruct (Nat.eqb _ _); [|apply ends_refl].
    destruct (fn_code fn) as [ns name|locals code].
    - unfold call_import. apply ends_bind; [|intros; apply ends_refl]. apply ends_x. intros nm args' s'.
      apply ends_bind; [apply ends_refl|]. intros g. apply IH. lia.
    - destruct (structure_untyped code) as [b| |]; try apply ends_refl.
      unfold invoke. apply ends_bind; [|intros; apply ends_refl]. apply ends_run; [|lia]. intros. apply IH. lia.
  Qed.
End Fuel.
(** Two bounds within which a call ends give the same outcome. *)
Lemma fuel_unique {X} num1 num2 ext fs n n' f args (s : store X) :
  call_fn num1 num2 ext fs n f args s <> Oof -> call_fn num1 num2 ext fs n' f args s <> Oof ->
  call_fn num1 num2 ext fs n f args s = call_fn num1 num2 ext fs n' f args s.
Proof.
  intros H H'. destruct (Nat.le_ge_cases n n') as [L|L].
  - symmetry. now apply more_fuel.
  - now apply more_fuel.
Qed.
