(** Property theorems C04, C05, C06, C11: what the passes do to a body. *)
From Coq Require Import Permutation.
From Verif Require Import Passes Nesting NestingSpec NestingProofs WeaveSpec WeaveProofs WeavePropProofs.

(** C04: for every set of enabled hooks [H], running the passes in the order of the trap table
    over a converted body gives the single weave of that body and appends one helper function
    per branch table, in source order. It panics only if an index does not fit the constant
    it is pushed as. *)
Theorem C04_passes_equal_weave : forall H f infer flat_body body s body' s',
  structure_typed f infer flat_body = COk body ->
  run_passes (passes_of H) body s = Some (body', s') ->
  body' = weave H (helper_index (List.length s) (br_tables body)) body /\
  s' = s ++ match H HkBrTable with Some _ => map helper_fn (br_tables body) | None => [] end.
Proof.
  intros H f infer fb body s body' s' E R.
  destruct (structure_typed_located _ _ _ E) as (tys & _ & _ & ND).
  destruct (run_passes_weave (passes_of H) body s (passes_of_NoDup H) (passes_of_if_then_first H)
              (proj2 (br_tables_positions body) ND)) as (c & _ & Ec).
  rewrite Ec in R. destruct c; [|discriminate]. injection R as <- <-. split.
  - apply weave_ext. apply enabled_in_passes_of.
  - unfold is_enabled. rewrite enabled_in_passes_of. destruct (H HkBrTable); reflexivity.
Qed.
Print Assumptions C04_passes_equal_weave.

Theorem C04_passes_do_not_panic : forall H f infer flat_body body s,
  structure_typed f infer flat_body = COk body -> fits body ->
  exists body' s', run_passes (passes_of H) body s = Some (body', s').
Proof.
  intros H f infer fb body s E F.
  destruct (structure_typed_located _ _ _ E) as (tys & _ & _ & ND).
  destruct (run_passes_weave (passes_of H) body s (passes_of_NoDup H) (passes_of_if_then_first H)
              (proj2 (br_tables_positions body) ND)) as (c & Hc & Ec).
  rewrite (Hc F) in Ec. eauto.
Qed.
Print Assumptions C04_passes_do_not_panic.

(** The order of the passes does not matter, except that the pass for the end of a one-armed
    [if] must not run before the pass for its start. *)
Theorem C04_any_order : forall ts ts' body s,
  Permutation ts ts' ->
  NoDup (map fst ts) -> if_then_first (map fst ts) -> if_then_first (map fst ts') ->
  NoDup (positions body) -> fits body ->
  run_passes ts body s = run_passes ts' body s.
Proof.
  intros ts ts' body s P ND IF IF' NP F.
  assert (ND' : NoDup (map fst ts')).
  { eapply Permutation_NoDup; [|exact ND]. now apply Permutation_map. }
  assert (NB := proj2 (br_tables_positions body) NP).
  assert (Ext : forall h, enabled_in ts h = enabled_in ts' h).
  { intros h. destruct (enabled_in_spec ts h ND) as [A B], (enabled_in_spec ts' h ND') as [A' B'].
    destruct (in_dec hook_eq_dec h (map fst ts)) as [I|N].
    - apply in_map_iff in I. destruct I as ([h' g] & E & I). simpl in E. subst h'.
      rewrite (A g I). symmetry. apply A'. eapply Permutation_in; eassumption.
    - rewrite (B N). symmetry. apply B'. intros I. apply N.
      eapply Permutation_in; [|exact I]. apply Permutation_map.
      now apply Permutation_sym. }
  destruct (run_passes_weave ts body s ND IF NB) as (c & Hc & Ec).
  destruct (run_passes_weave ts' body s ND' IF' NB) as (c' & Hc' & Ec').
  rewrite Ec, Ec', (Hc F), (Hc' F), (weave_ext _ _ _ _ Ext). unfold is_enabled. now rewrite Ext.
Qed.
Print Assumptions C04_any_order.

(** The exception is real: with the two passes swapped the start hook is lost. *)
Definition ex_if_body : list tinstr :=
  [TBasic (Meta 3 0 (IReach (FT [] [t_i32])) false) (BConst TI32 1);
   TIf (Meta 3 1 IUnreach false) (FT [] []) [TBasic (Meta 3 2 (IReach (FT [] [])) false) BNop] None].
Theorem C04_if_then_order_matters :
  run_passes [(HkIfThenPost, 8); (HkIfThen, 7)] ex_if_body [] <>
  run_passes [(HkIfThen, 7); (HkIfThenPost, 8)] ex_if_body [].
Proof. vm_compute. discriminate. Qed.
Print Assumptions C04_if_then_order_matters.

(** C05: erasing the instrumentation gives back the original body, up to annotations and
    alignment hints. [hook_of] tells the hook functions from other functions. *)
Theorem C05_erasable : forall H hook_of f infer flat_body body s body' s',
  structure_typed f infer flat_body = COk body ->
  run_passes (passes_of H) body s = Some (body', s') ->
  (forall h g, H h = Some g -> g < List.length s /\ hook_of g = Some h) ->
  (forall g, List.length s <= g -> hook_of g = None) ->
  erase hook_of body' = plain body.
Proof.
  intros H hook_of f infer fb body s body' s' E R HH Hs.
  destruct (C04_passes_equal_weave _ _ _ _ _ E R) as [-> _].
  destruct (structure_typed_located _ _ _ E) as (tys & _ & L & _).
  apply erase_weave.
  - intros h g Eg. now apply HH.
  - intros p. apply Hs. clear.
    generalize (List.length s). induction (br_tables body) as [|[q x] r IH]; intros n; simpl; [lia|].
    destruct (Nat.eqb p q); [lia|]. specialize (IH (S n)). lia.
  - intros i O. now apply L.
Qed.
Print Assumptions C05_erasable.

(** C06: a body none of whose instructions is concerned by an enabled hook is unchanged, and no
    function is added; whatever the order and number of passes. *)
Theorem C06_unhooked_body_unchanged : forall ts body s,
  (forall i h f, occurs i body -> In (h, f) ts -> ~ In h (hooks_for i)) ->
  run_passes ts body s = Some (body, s).
Proof. exact run_passes_unhooked. Qed.
Print Assumptions C06_unhooked_body_unchanged.

(** An instruction that no enabled hook concerns is kept as it is between the instrumented
    code before it and after it. *)
Theorem C06_unhooked_instruction_kept : forall H f infer flat_body before m b after s body' s',
  structure_typed f infer flat_body = COk (before ++ TBasic m b :: after) ->
  run_passes (passes_of H) (before ++ TBasic m b :: after) s = Some (body', s') ->
  (forall h, In h (hooks_for (TBasic m b)) -> H h = None) ->
  exists hf, body' = weave H hf before ++ TBasic m b :: weave H hf after.
Proof.
  intros H f infer fb before m b after s body' s' E R N.
  destruct (C04_passes_equal_weave _ _ _ _ _ E R) as [-> _].
  eexists. unfold weave. rewrite flat_map_app. cbn [flat_map].
  now rewrite weave_unhooked_basic by exact N.
Qed.
Print Assumptions C06_unhooked_instruction_kept.

(** C11: the original branches are all there, in the same order, and each label denotes the
    same construct as before. *)
Theorem C11_labels_keep_meaning : forall H f infer flat_body body s body' s',
  structure_typed f infer flat_body = COk body ->
  run_passes (passes_of H) body s = Some (body', s') ->
  branches body' = branches body.
Proof.
  intros H f infer fb body s body' s' E R.
  destruct (C04_passes_equal_weave _ _ _ _ _ E R) as [-> _]. apply branches_weave.
Qed.
Print Assumptions C11_labels_keep_meaning.

(** A body with every kind of instruction the hooks treat differently. *)
Definition ex_ty : ity := IReach (FT [] []).
Definition ex_flat : list low :=
  [LBlock (FT [] []); LBasic (BConst TI32 1); LIf (FT [] []); LLoop (FT [] []);
   LBasic (BLocal LGet 0); LBasic (BBrTable [0; 2] 1); LEnd; LEnd; LBasic (BBr 0); LEnd;
   LBasic (BConst TI32 4); LBasic (BUnary I32Clz); LBasic (BLoad I32Load8U (MA 0 16)); LBasic BDrop;
   LBasic (BConst TI32 0); LIf (FT [] []); LBasic (BConst TI32 1); LBasic (BMemoryGrow 0); LBasic BDrop;
   LElse; LBasic (BConst TI32 1); LBasic (BBrTable [] 1); LEnd; LEnd].
Definition ex_infer (l : list low) : option (list ity) :=
  Some (map (fun i => match i with LBasic (BLocal LGet _) => IReach (FT [] [t_i32]) | _ => ex_ty end) l).
(** All hooks enabled, hook [k] of the table being function [k]. *)
Fixpoint index_of (n : nat) (l : list hook) (h : hook) : option nat :=
  match l with [] => None | x :: r => if hook_eq_dec h x then Some n else index_of (S n) r h end.
Definition ex_H : hook -> option nat := index_of 0 all_hooks_order.
Definition ex_hook_of (g : nat) : option hook := nth_error all_hooks_order g.
Definition ex_funcs : list func := map (fun _ => Fn (FT [] []) (FImport "a" "b") []) (seq 0 75).
Definition ex_run : option (list tinstr * list tinstr * list func) :=
  match structure_typed 90 ex_infer ex_flat with
  | COk body =>
      match run_passes (passes_of ex_H) body ex_funcs with
      | Some (body', s') => Some (body, body', s')
      | None => None
      end
  | _ => None
  end.
Example ex_passes :
  match ex_run with
  | Some (body, body', s') =>
      List.length (flatten body') = 112 /\ List.length s' = 77 /\
      branches body = [(5, [Some (TgLoop 3); Some (TgBlock 0); Some (TgIf 2)]);
                       (8, [Some (TgBlock 0)]); (21, [Some TgFunction])] /\
      branches body' = branches body /\ erase ex_hook_of body' = plain body
  | None => False
  end.
Proof. vm_compute. repeat split. Qed.
Example ex_hooks_distinct :
  (forall h g, ex_H h = Some g -> g < List.length ex_funcs /\ ex_hook_of g = Some h) /\
  (forall g, List.length ex_funcs <= g -> ex_hook_of g = None).
Proof.
  split.
  - intros h g E. split.
    + destruct h; repeat match goal with t : numty |- _ => destruct t | k : binkind |- _ => destruct k
        | o : localop |- _ => destruct o | o : globalop |- _ => destruct o end;
        vm_compute in E; injection E as <-; simpl; lia.
    + destruct h; repeat match goal with t : numty |- _ => destruct t | k : binkind |- _ => destruct k
        | o : localop |- _ => destruct o | o : globalop |- _ => destruct o end;
        vm_compute in E; injection E as <-; reflexivity.
  - intros g L. apply nth_error_None. exact L.
Qed.
(** The hypotheses of [C04_any_order] and [C06]. *)
Example ex_any_order :
  if_then_first [HkDrop; HkIfThen; HkConst TI32; HkIfThenPost] /\
  if_then_first [HkIfThen; HkIfThenPost; HkConst TI32; HkDrop] /\
  run_passes [(HkDrop, 1); (HkIfThen, 2); (HkConst TI32, 3); (HkIfThenPost, 4)] ex_if_body [] =
  run_passes [(HkIfThen, 2); (HkIfThenPost, 4); (HkConst TI32, 3); (HkDrop, 1)] ex_if_body [].
Proof. repeat split; simpl; try (intros; discriminate); intuition discriminate. Qed.
Example ex_unhooked : run_passes [(HkLoopPre, 0); (HkLoad TI64, 1); (HkIfThenElse, 2)] ex_if_body [] = Some (ex_if_body, []).
Proof. reflexivity. Qed.
