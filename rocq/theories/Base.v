(** Lemmas about lists and the error/state monad used by the model. Nothing here
    models code of the repository. *)
From Coq Require Export List Arith ZArith Lia Bool String.
From Coq Require Export ZifyBool ZifyNat.
Export ListNotations.
#[global] Open Scope list_scope.
#[global] Set Implicit Arguments.

Arguments Z.add : simpl never.
Arguments Z.sub : simpl never.
Arguments Z.mul : simpl never.
Arguments Z.pow : simpl never.
Arguments Z.div : simpl never.
Arguments Z.modulo : simpl never.
Arguments Z.of_nat : simpl never.

(** State-and-error monad: [None] stands for a panic. *)
Definition SE (S A : Type) : Type := S -> option (A * S).
(** Auxiliary: nothing in the repository corresponds to it. *)
Definition se_ret {S A} (a : A) : SE S A := fun s => Some (a, s).
(** Auxiliary: nothing in the repository corresponds to it. *)
Definition se_bind {S A B} (m : SE S A) (f : A -> SE S B) : SE S B :=
  fun s => match m s with Some (a, s') => f a s' | None => None end.
(** A panic. *)
Definition se_panic {S A} : SE S A := fun _ => None.
Declare Scope se_scope.
Notation "x <- m ;; k" := (se_bind m (fun x => k))
  (at level 61, m at next level, right associativity) : se_scope.

(** Map a monadic function and concatenate the produced lists. *)
Section SeFlatMap.
  Context {S A B : Type} (f : A -> SE S (list B)).
  Fixpoint se_flat_map (l : list A) : SE S (list B) :=
    match l with
    | [] => se_ret []
    | x :: xs => fun s =>
        match f x s with
        | None => None
        | Some (y, s1) =>
            match se_flat_map xs s1 with
            | None => None
            | Some (ys, s2) => Some (y ++ ys, s2)
            end
        end
    end.
End SeFlatMap.

(** Auxiliary: nothing in the repository corresponds to it. *)
Definition option_bind {A B} (o : option A) (f : A -> option B) : option B :=
  match o with Some a => f a | None => None end.

Lemma flat_map_app {A B} (f : A -> list B) l1 l2 :
  flat_map f (l1 ++ l2) = flat_map f l1 ++ flat_map f l2.
Proof. induction l1 as [|x xs IH]; simpl; [reflexivity|]. now rewrite IH, app_assoc. Qed.

Lemma flat_map_ext_in {A B} (f g : A -> list B) l :
  (forall x, In x l -> f x = g x) -> flat_map f l = flat_map g l.
Proof.
  induction l as [|x xs IH]; simpl; intros H; [reflexivity|].
  rewrite (H x) by auto. rewrite IH; auto.
Qed.

Lemma nth_error_app_l {A} (l l' : list A) n x :
  nth_error l n = Some x -> nth_error (l ++ l') n = Some x.
Proof.
  intros H. rewrite nth_error_app1; [exact H|].
  apply nth_error_Some. now rewrite H.
Qed.

Lemma nth_error_app_exact {A} (l l' : list A) x :
  nth_error (l ++ x :: l') (List.length l) = Some x.
Proof. rewrite nth_error_app2, Nat.sub_diag; [reflexivity|lia]. Qed.

(** Split [n] elements off the top (head) of a stack; the popped ones are returned
    deepest first. *)
Definition popn {A} (n : nat) (st : list A) : option (list A * list A) :=
  if Nat.leb n (List.length st) then Some (rev (firstn n st), skipn n st) else None.

(** Push a deepest-first list on a head-is-top stack. *)
Definition pushn {A} (vs : list A) (st : list A) : list A := rev vs ++ st.

Lemma popn_pushn {A} (vs st : list A) : popn (List.length vs) (pushn vs st) = Some (vs, st).
Proof.
  unfold popn, pushn.
  assert (E : Nat.leb (List.length vs) (List.length (rev vs ++ st)) = true).
  { apply Nat.leb_le. rewrite app_length, rev_length. lia. }
  rewrite E.
  rewrite <- (rev_length vs) at 1 2.
  rewrite firstn_app, skipn_app, firstn_all, skipn_all, Nat.sub_diag. simpl.
  rewrite app_nil_r, rev_involutive. reflexivity.
Qed.

Lemma popn_0 {A} (st : list A) : popn 0 st = Some ([], st).
Proof. reflexivity. Qed.

Lemma popn_Some {A} n (st vs rest : list A) :
  popn n st = Some (vs, rest) <-> (List.length vs = n /\ st = pushn vs rest).
Proof.
  unfold popn, pushn. split.
  - destruct (Nat.leb_spec n (List.length st)) as [H|H]; [|discriminate].
    intros E; injection E as <- <-. rewrite rev_length, firstn_length, rev_involutive.
    split; [lia|]. symmetry. apply firstn_skipn.
  - intros [<- ->]. exact (popn_pushn vs rest).
Qed.

Lemma pushn_app {A} (a b st : list A) : pushn (a ++ b) st = pushn b (pushn a st).
Proof. unfold pushn. now rewrite rev_app_distr, app_assoc. Qed.

Lemma pushn_length {A} (vs st : list A) :
  List.length (pushn vs st) = List.length vs + List.length st.
Proof. unfold pushn. rewrite app_length, rev_length. lia. Qed.
