(** Property theorems C31-C33: the immutable-function analysis. *)
From Coq Require Import Permutation.
From Verif Require Import Nesting NestingProofs Purity PuritySpec PurityProofs.

(** Every function of the module with code has a body that converts, and calls only functions of
    the module: what a validated module satisfies. *)
Definition accepted (infer : nat -> list low -> option (list ity)) (m : module) : Prop :=
  forall f fn locals code,
    nth_error (md_funcs m) f = Some fn -> fn_code fn = FPresent locals code ->
    (exists body, structure_typed f (infer f) code = COk body) /\
    (forall g, In (LBasic (BCall g)) code -> g < List.length (md_funcs m)).

Lemma accepted_initial infer m : accepted infer m -> exists ts, initial infer m = Some ts.
Proof.
  intros A. unfold initial.
  assert (H : forall fs k, (forall i fn, nth_error fs i = Some fn -> nth_error (md_funcs m) (k + i) = Some fn) ->
    exists ts, all_some (initial_from infer k fs) = Some ts).
  { induction fs as [|fn fs IH]; intros k Hm; simpl; [eauto|].
    destruct (IH (S k)) as [ts E].
    { intros i fn' Hi. rewrite <- (Hm (S i) fn' Hi). f_equal. lia. }
    pose proof (Hm 0 fn eq_refl) as H0. rewrite Nat.add_0_r in H0.
    unfold initial_target. destruct (fn_code fn) as [ns nm|locals code] eqn:C.
    - rewrite E. eauto.
    - destruct (A _ _ _ _ H0 C) as [[body ->] _]. rewrite E. eauto. }
  apply H. auto.
Qed.
Lemma accepted_calls infer m : accepted infer m -> calls_exist m.
Proof. intros A f fn locals code g Hn Hc Hg. destruct (A _ _ _ _ Hn Hc) as [_ H]. auto. Qed.

(** C31: on every module the loop stops (by finishing or by a panic) within one round more than
    there are functions; on an accepted module it finishes, and however long one watches the
    answer is the same. *)
Theorem C31_stops : forall infer m,
  (forall f, same_length_oracle (infer f)) ->
  immutable_functions (S (List.length (md_funcs m))) infer m <> VRunning.
Proof.
  intros infer m Orc. unfold immutable_functions. destruct (initial infer m) as [ts|] eqn:I; [|discriminate].
  pose proof (initial_unknowns m _ Orc I) as U.
  pose proof (@iterate_stops (S (List.length (md_funcs m))) ts ltac:(lia)) as St.
  destruct (iterate _ ts); [discriminate|discriminate|contradiction].
Qed.
Print Assumptions C31_stops.

Theorem C31_rounds : forall infer m k,
  (forall f, same_length_oracle (infer f)) -> accepted infer m -> List.length (md_funcs m) < k ->
  exists rounds fs,
    immutable_functions k infer m = Immutable rounds fs /\
    rounds <= S (List.length (md_funcs m)) /\
    (forall j, List.length (md_funcs m) < j -> immutable_functions j infer m = Immutable rounds fs).
Proof.
  intros infer m k Orc A Hk. unfold immutable_functions.
  destruct (accepted_initial A) as [ts I]. rewrite I.
  pose proof (initial_unknowns m _ Orc I) as U. destruct (initial_good m _ Orc I) as [G _].
  pose proof (@iterate_stops (S (List.length (md_funcs m))) ts ltac:(lia)) as St.
  pose proof (@iterate_no_panic m (S (List.length (md_funcs m))) (accepted_calls A) ts G) as N.
  destruct (iterate (S (List.length (md_funcs m))) ts) as [n r| |] eqn:It; [|congruence|contradiction].
  assert (M : forall j, List.length (md_funcs m) < j -> iterate j ts = Finished n r).
  { intros j Hj. rewrite <- It. apply iterate_more; [lia|]. rewrite It. discriminate. }
  exists n, (reported r). rewrite (M k Hk). repeat split; [lia|].
  intros j Hj. now rewrite (M j Hj).
Qed.
Print Assumptions C31_rounds.

(** C32: a reported function, on any arguments, from any two stores, under any behaviour of the
    imports: both runs return the same results, or both trap, or both go on beyond any bound; and
    neither changes anything of its store. *)
Theorem C32_reported_functions_are_pure :
  forall X Y num1 num2 ext1 ext2 infer m k rounds fs f,
  (forall g, same_length_oracle (infer g)) ->
  immutable_functions k infer m = Immutable rounds fs -> In f fs ->
  forall n args (s1 : store X) (s2 : store Y),
    indifferent s1 s2 (call_fn num1 num2 ext1 (md_funcs m) n f args s1)
                      (call_fn num1 num2 ext2 (md_funcs m) n f args s2).
Proof.
  intros X Y num1 num2 ext1 ext2 infer m k rounds fs f Orc H Hf n args s1 s2.
  unfold immutable_functions in H. destruct (initial infer m) as [ts|] eqn:I; [|discriminate].
  destruct (iterate k ts) as [n' r| |] eqn:It; try discriminate. injection H as <- <-.
  destruct (initial_good m _ Orc I) as [G _].
  destruct (iterate_finished _ G It) as (G' & R & _).
  apply pure_calls. now apply (reported_pure G' R).
Qed.
Print Assumptions C32_reported_functions_are_pure.

(** C33: the reported functions are exactly those in every set closed under the rules. *)
Theorem C33_least_closed_set : forall infer m k rounds fs,
  (forall f, same_length_oracle (infer f)) ->
  immutable_functions k infer m = Immutable rounds fs ->
  (forall f, In f fs <-> (forall P, closed_under_rules m P -> P f)) /\
  (forall f, In f fs <-> obeys m (fun g => In g fs) f).
Proof.
  intros infer m k rounds fs Orc H.
  unfold immutable_functions in H. destruct (initial infer m) as [ts|] eqn:I; [|discriminate].
  destruct (iterate k ts) as [n' r| |] eqn:It; try discriminate. injection H as <- <-.
  destruct (initial_good m _ Orc I) as [G _].
  destruct (iterate_finished _ G It) as (G' & R & _).
  split; intros f; rewrite (reported_pure G' R).
  - apply pure_fn_least.
  - split.
    + intros P. inversion P as [f' fn locals code Hn Hc Hs Hg]; subst. exists fn, locals, code.
      repeat split; auto. intros g H1 H2. apply (reported_pure G' R). auto.
    + intros (fn & locals & code & Hn & Hc & Hs & Hg). apply pure_intro with fn locals code; auto.
      intros g H1 H2. apply (reported_pure G' R). auto.
Qed.
Print Assumptions C33_least_closed_set.

(** C33, visiting order: the loop started on the initial targets in any other order reports the
    same set. *)
Theorem C33_order_irrelevant : forall infer m ts ts' k k' n n' r r',
  (forall f, same_length_oracle (infer f)) ->
  initial infer m = Some ts -> Permutation ts ts' ->
  iterate k ts = Finished n r -> iterate k' ts' = Finished n' r' ->
  forall f, In f (reported r) <-> In f (reported r').
Proof.
  intros infer m ts ts' k k' n n' r r' Orc I P It It' f.
  destruct (initial_good m _ Orc I) as [G _]. pose proof (good_permutation G P) as G'.
  destruct (iterate_finished _ G It) as (G1 & R1 & _).
  destruct (iterate_finished _ G' It') as (G2 & R2 & _).
  rewrite (reported_pure G1 R1), (reported_pure G2 R2). reflexivity.
Qed.
Print Assumptions C33_order_irrelevant.

(** A module with an import, a chain of three calls ending in a recursive function, a function
    that reads a global, a caller of it, a caller of the import, and two mutually recursive
    functions without state. The chain needs one round per function; the bound of C31 is met by
    the chain alone. The mutually recursive functions are not reported. *)
Definition ft1 := FT [TNum TI32] [TNum TI32].
Definition fn1 body := Fn ft1 (FPresent [] (body ++ [LEnd])) [].
Definition chain : list func :=
  [ fn1 [LBasic (BLocal LGet 0); LBasic (BCall 1)];
    fn1 [LBlock (FT [] [TNum TI32]); LBasic (BLocal LGet 0); LBasic (BCall 2); LEnd];
    fn1 [LBasic (BLocal LGet 0); LIf (FT [] []); LBasic (BLocal LGet 0); LBasic (BConst TI32 1);
         LBasic (BBinary I32Sub); LBasic (BCall 2); LBasic BReturn; LEnd; LBasic (BConst TI32 7)] ].
Definition chain_module := Mod chain [] [] [] [] [] None.
Definition mixed : list func := chain ++
  [ Fn ft1 (FImport "env" "f") [];
    fn1 [LBasic (BGlobal GGet 0)];
    fn1 [LBasic (BLocal LGet 0); LBasic (BCall 0); LBasic (BCall 4)];
    fn1 [LBasic (BLocal LGet 0); LBasic (BCall 3)];
    fn1 [LBasic (BLocal LGet 0); LBasic (BCall 8)];
    fn1 [LBasic (BLocal LGet 0); LBasic (BCall 7)] ].
Definition mixed_module := Mod mixed [] [] [Glb (TNum TI32) true [] None []] [] [] None.
Definition ex_tys (f : nat) (l : list low) : option (list ity) := Some (map (fun _ => IReach ft1) l).
Example ex_tys_oracle : forall f, same_length_oracle (ex_tys f).
Proof. intros f l tys H. injection H as <-. apply map_length. Qed.
Example ex_mixed_accepted : accepted ex_tys mixed_module.
Proof.
  intros f fn locals code Hn Hc.
  do 9 (destruct f as [|f]; [injection Hn as <-; simpl in Hc;
    (discriminate || (injection Hc as <- <-; split; [eexists; vm_compute; reflexivity|];
     intros g H; simpl in H;
     repeat (destruct H as [H|H]; [discriminate || (injection H as <-; simpl; lia)|]); contradiction))|]).
  destruct f; discriminate.
Qed.
Example ex_chain : immutable_functions 4 ex_tys chain_module = Immutable 4 [0; 1; 2]
  /\ immutable_functions 3 ex_tys chain_module = VRunning.
Proof. split; vm_compute; reflexivity. Qed.
Example ex_mixed : immutable_functions 10 ex_tys mixed_module = Immutable 5 [0; 1; 2].
Proof. vm_compute. reflexivity. Qed.
Example ex_call : forall X num1 num2 ext (s : store X),
  call_fn num1 num2 ext mixed 12 0 [vi32 3] s = Ok ([vi32 7], s).
Proof. intros. vm_compute. reflexivity. Qed.
