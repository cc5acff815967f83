(** Property theorems C73 and C74: which texts are WASP files, what they say, and what the compiler makes of them. *)
From Coq Require Import Ascii Lia.
From Verif Require Import Semantics Names Advice Wasp WaspAs PropWaspProgram WaspText WaspGrammar WaspTextProofs WaspParseProofs.
Local Open Scope string_scope.
Local Open Scope list_scope.
Import String.

(** ** C73: the parser accepts exactly the texts of the grammar *)
(** A text is accepted, with a syntax tree, if and only if it spells the tokens of that tree, with
    blank space and comments anywhere between them. *)
Theorem C73_parses : forall s advices,
  parse s = Some advices <-> spells (file_tokens advices) s /\ Forall lists_given advices.
Proof. exact parse_iff. Qed.
Print Assumptions C73_parses.

(** No text has two readings. *)
Theorem C73_unambiguous : forall s a b, Forall lists_given a -> Forall lists_given b ->
  spells (file_tokens a) s -> spells (file_tokens b) s -> a = b.
Proof.
  intros s a b A B SA SB. assert (PA : parse s = Some a) by (now apply parse_iff). assert (PB : parse s = Some b) by (now apply parse_iff). congruence.
Qed.
Print Assumptions C73_unambiguous.

(** A file as one would write it: the tokens, separated by blanks. *)
Fixpoint write (ts : list token) : string :=
  match ts with [] => "" | t :: ts' => text t +++ " " +++ write ts' end.
Definition idents (t : token) : Prop :=
  match t with KLit _ | KGuest _ => True | KId x => word x | KType x => type_word x end.
(** Guest code with its own closing marker only. *)
Definition code_of (t : token) : Prop :=
  match t with KGuest c => ends_with_first "<<<GUEST<<<" (c +++ "<<<GUEST<<<") | _ => True end.
Definition no_comment (t : token) : Prop := match t with KGuest c => ~ occurs "#|" c | _ => True end.

Lemma shorter_prefix p a b z : p +++ z = a +++ b -> (String.length p <= String.length a)%nat -> exists z', a = p +++ z'.
Proof.
  revert a. induction p as [|x p IH]; intros a E L; [now exists a|]. destruct a as [|y a]; [cbn in L; lia|]. cbn in *. injection E as -> E.
  destruct (IH a E) as (z' & ->); [lia|]. now exists z'.
Qed.
Lemma plain_guest rest c : ends_with_first "<<<GUEST<<<" (c +++ "<<<GUEST<<<") -> ~ occurs "#|" c -> guest_code rest c.
Proof.
  induction c as [|a c IH]; intros (x & _ & U) N; [constructor|]. constructor.
  - intros z E. rewrite <- app_assoc_s in E. symmetry in E. apply shorter_prefix in E as (z' & E); [|rewrite length_app_s; lia].
    specialize (U "" z' E). subst z'. rewrite app_nil_s in E. apply (f_equal String.length) in E. rewrite length_app_s in E. cbn in E. lia.
  - intros z _ E. destruct c as [|b c]; [discriminate E|]. cbn in E. injection E as -> -> E. apply N. exists "", c. reflexivity.
  - apply IH.
    + exists c. split; [reflexivity|]. intros y z E. apply (U (String a y)). cbn in *. now rewrite E.
    + intros (y & z & ->). apply N. now exists (String a y), z.
Qed.
Lemma write_spells ts : Forall idents ts -> Forall code_of ts -> Forall no_comment ts -> spells ts (write ts).
Proof.
  assert (B : gap " ") by (constructor; [now left|constructor]).
  assert (G : forall ts s, spells ts s -> spells ts (" " +++ s)).
  { intros us s H. destruct H as [g G|g t ts' r G F R].
    - constructor. apply (@gap_blank " " g); [now left|exact G].
    - rewrite <- app_assoc_s. constructor; [|exact F|exact R]. apply (@gap_blank " " g); [now left|exact G]. }
  induction ts as [|t ts IH]; intros A C D; [constructor; constructor|]. inversion A; inversion C; inversion D; subst. cbn [write].
  apply (@spells_cons "" t); [constructor| |now apply G, IH].
  destruct t as [k|x|x|c]; cbn in *; [exact Logic.I| | |now apply plain_guest].
  - split; [assumption|]. intros Q. repeat (destruct Q as [Q|Q]; [discriminate Q|]). exact Q.
  - split; [assumption|]. intros Q. repeat (destruct Q as [Q|Q]; [discriminate Q|]). exact Q.
Qed.
(** A file that is written is read back, if its guest code does not contain [#|]. *)
Theorem C73_round_trip : forall advices,
  Forall idents (file_tokens advices) -> Forall code_of (file_tokens advices) -> Forall lists_given advices ->
  Forall no_comment (file_tokens advices) -> parse (write (file_tokens advices)) = Some advices.
Proof. intros l A C G D. apply parse_iff. split; [now apply write_spells|exact G]. Qed.
Print Assumptions C73_round_trip.

(** Deciding the conditions for given files. *)
Fixpoint earlier (p s : string) : bool :=
  match s with "" => false | String _ r => String.prefix p s && (String.length p <? String.length s)%nat || earlier p r end.
Lemma earlier_first p c : earlier p (c +++ p) = false -> ends_with_first p (c +++ p).
Proof.
  intros H. exists c. split; [reflexivity|]. intros y z E. rewrite E in H. clear E c. induction y as [|a y IH].
  - destruct z as [|b z]; [reflexivity|]. exfalso. change ("" +++ p +++ String b z) with (p +++ String b z) in H.
    assert (P := prefix_app p (String b z)). assert (N : (String.length p <? String.length (p +++ String b z))%nat = true) by (apply Nat.ltb_lt; rewrite length_app_s; cbn; lia).
    destruct (p +++ String b z) eqn:Q; [discriminate N|]. cbn [earlier] in H. rewrite P, N in H. discriminate H.
  - apply IH. change (String a y +++ p +++ z) with (String a (y +++ p +++ z)) in H. cbn [earlier] in H. now apply Bool.orb_false_iff in H as (_ & H).
Qed.
Definition okb (t : token) : bool :=
  match t with
  | KLit _ => true
  | KId x => negb (String.eqb x "") && forallb (fun a => memc a all_letters) (chars x)
  | KType "" => false
  | KType (String a w) => memc a letters_upper && (negb (String.eqb w "") && forallb (fun a => memc a letters_digits) (chars w))
  | KGuest c => negb (earlier "<<<GUEST<<<" (c +++ "<<<GUEST<<<"))
  end.
Lemma okb_sound ts : forallb okb ts = true -> Forall idents ts /\ Forall code_of ts.
Proof.
  assert (A : forall l w, forallb (fun a => memc a l) (chars w) = true -> Forall (fun a => In a l) (chars w)).
  { intros l w H. rewrite forallb_forall in H. apply Forall_forall. intros a Ha. now apply memc_iff, H. }
  assert (E : forall x, negb (String.eqb x "") = true -> x <> "") by (now intros [|]).
  intros H. rewrite forallb_forall in H. split; apply Forall_forall; intros t T; apply H in T; destruct t as [k|x|[|a w]|c]; cbn [okb idents code_of] in *; try exact Logic.I; try discriminate T.
  - apply andb_prop in T as (U & V). split; auto.
  - apply andb_prop in T as (U & (V & W)%andb_prop). exists a, w. repeat split; auto. now apply memc_iff.
  - apply earlier_first. now destruct (earlier _ _).
Qed.

(** Without that condition it is not: [#|] in guest code, here in a string of it, opens a comment of the
    WASP file, which may hide the closing marker. The file below has an advice for calls, and is
    compiled without it and without an error. *)
Definition hidden_advice : list padvice :=
  [PGlobal "const a = '#|';"; PTrap (PCall Pre "f" "const b = '|#'; calls += 1;")].
Theorem C73_refuted :
  ~ (forall advices, Forall idents (file_tokens advices) -> Forall code_of (file_tokens advices) -> Forall lists_given advices ->
     parse (write (file_tokens advices)) = Some advices) /\
  Forall idents (file_tokens hidden_advice) /\ Forall code_of (file_tokens hidden_advice) /\ Forall lists_given hidden_advice /\
  exists code, compile (write (file_tokens hidden_advice)) = Some (WOk ([AGlobal code], root_join_points [])).
Proof.
  destruct (@okb_sound (file_tokens hidden_advice) eq_refl) as (I1 & I2).
  assert (I3 : Forall lists_given hidden_advice) by (repeat constructor).
  split; [|split; [exact I1|split; [exact I2|split; [exact I3|]]]].
  - intros H. specialize (H hidden_advice I1 I2 I3). vm_compute in H. discriminate H.
  - eexists. vm_compute. reflexivity.
Qed.
Print Assumptions C73_refuted.

(** A file in the layout one chooses, with comments; and one whose lists are empty. *)
Definition small_file : list padvice :=
  [PTrap (PApply (PSpeInter "f" [TA "a" "I32"; TA "b" "F64"] [TA "r" "I32"]) " f.apply(); ");
   PTrap (PIfThenElse "Condition" "x"); PTrap (PCallIndirectPost "pre" "y")].
Example ex_c73 :
  parse "(aspect #| hooks |# (advice apply(f WasmFunction)(Mut(a I32) (b F64))(Mut(r I32))>>>GUEST>>> f.apply(); <<<GUEST<<<)
    (advice if_then_else (Condition Condition) >>>GUEST>>>x<<<GUEST<<<)
    (advice call_indirect #| |# post (pre FunctionTable)>>>GUEST>>>y<<<GUEST<<<))" = Some small_file /\
  parse (write (file_tokens small_file)) = Some small_file /\
  parse "(aspect (advice apply (f WasmFunction) (Mut) (Mut) >>>GUEST>>><<<GUEST<<<))" = None /\
  parse "(aspect (advice select (cond1 Condition) >>>GUEST>>><<<GUEST<<<))" = None /\
  parse "(aspect) #| never closed" = None.
Proof.
  split; [vm_compute; reflexivity|]. split; [|vm_compute; repeat split; reflexivity].
  destruct (@okb_sound (file_tokens small_file) eq_refl) as (I1 & I2). apply C73_round_trip; [exact I1|exact I2|repeat constructor; discriminate|].
  apply Forall_forall. intros t T. repeat (destruct T as [<-|T]; [try exact Logic.I; intros (y & z & E)|]); [| | |destruct T].
  all: repeat (destruct y as [|? y]; [discriminate E|injection E as _ E]); destruct y; discriminate E.
Qed.

(** ** C74: the compiler on any text *)
Lemma words_letters x : word x -> letters x = true.
Proof.
  intros (_ & F). induction x as [|a x IH]; [reflexivity|]. inversion F; subst. cbn [letters]. rewrite IH by assumption. rewrite Bool.andb_true_r.
  match goal with H : In a all_letters |- _ => apply alpha_iff in H; revert H end. clear. bits a; intros [=]; reflexivity.
Qed.
Lemma spells_words ts s : spells ts s -> forall x, In (KId x) ts -> letters x = true.
Proof.
  induction 1 as [|g t ts r G F R IH]; intros x []; [|now apply IH]. subst t. apply words_letters. apply F.
Qed.
Lemma formal_id x k : In (KId x) (formal_tokens x k).
Proof. right. now left. Qed.
Lemma arg_id a : In (KId (ta_id a)) (arg_tokens a).
Proof. right. now left. Qed.
Lemma params_ids l seen ps : params_from seen l = WOk ps -> map wp_id ps = map ta_id l.
Proof.
  revert seen ps. induction l as [|a l IH]; cbn; intros seen ps; [now intros [= <-]|]. destruct (wasm_type _); [|easy]. destruct (memb _ _); [easy|].
  destruct (params_from (insert (ta_id a) seen) l) eqn:E; [|easy..]. intros [= <-]. cbn. f_equal. now apply (IH _ _ E).
Qed.
Lemma apply_ids a s : apply_from a = WOk s -> forall x g, In x (identifiers (TApply s g)) -> In (KId x) (apply_tokens a).
Proof.
  assert (L : forall l x, In x (map ta_id l) -> In (KId x) (flat_map arg_tokens l)).
  { intros l x (t & <- & T)%in_map_iff. apply in_flat_map. exists t. split; [exact T|apply arg_id]. }
  assert (SP : forall b f l l' s, spe_from b f l l' = WOk s -> forall x g, In x (identifiers (TApply s g)) -> x = f \/ In (KId x) (flat_map arg_tokens l) \/ In (KId x) (flat_map arg_tokens l')).
  { intros b f l l' s' H x g I1. unfold spe_from, wbind in H. destruct (params_from [] l) eqn:E1; [|easy..]. destruct (params_from [] l') eqn:E2; [|easy..].
    destruct (distinct_arguments a0 a1); [|easy..]. injection H as <-. cbn [identifiers] in I1. rewrite (params_ids _ _ E1), (params_ids _ _ E2) in I1.
    destruct I1 as [I1|[I1|I1]%in_app_iff]; auto. }
  destruct a as [f a b|f l l'|f l l']; cbn [apply_from apply_tokens]; intros H x g X.
  - unfold gen_from in H. match type of H with match ?m with _ => _ end = _ => destruct m; [|easy] end. destruct (Nat.eqb _ 3); [|easy]. injection H as <-. cbn in X.
    rewrite !in_app_iff. destruct X as [<-|[<-|[<-|[]]]]; [left; apply formal_id|right; left; apply arg_id|right; right; apply arg_id].
  - rewrite !in_app_iff. destruct (SP _ _ _ _ _ H x g X) as [->|[Y|Y]]; [left; apply formal_id|auto 6..].
  - rewrite !in_app_iff. destruct (SP _ _ _ _ _ H x g X) as [->|[Y|Y]]; [left; apply formal_id|auto 6..].
Qed.
Lemma trap_ids p t : trap_from p = WOk t -> forall x, In x (identifiers t) -> In (KId x) (trap_tokens p).
Proof.
  destruct p as [a g|[] x g|g|g|g|g|c g|t1 i g|t1 g|c g|c g|c l g|t1 d g]; cbn [trap_from]; intros H y Y.
  { unfold wbind in H. destruct (apply_from a) eqn:E; [|easy..]. injection H as <-. cbn [trap_tokens]. rewrite !in_app_iff. right. left. eapply apply_ids; eassumption. }
  all: injection H as <-; cbn in Y; cbn; intuition (subst; auto 20).
Qed.
Lemma root_ids l root : root_from l = WOk root -> forall t x, In t (traps root) -> In x (identifiers t) -> In (KId x) (file_tokens l).
Proof.
  intros H t x T X. enough (In (KId x) (flat_map advice_tokens l)) by (unfold file_tokens; rewrite !in_app_iff; auto).
  revert root H T. induction l as [|a l IH]; cbn [root_from flat_map]; intros root H T; [injection H as <-; destruct T|]. unfold wbind in H.
  destruct (advice_from a) as [d| |] eqn:A; [|easy..]. destruct (root_from l) as [ds| |]; [|easy..]. injection H as <-. rewrite in_app_iff.
  destruct a as [g|p]; cbn [advice_from] in A.
  - injection A as <-. right. now apply (IH ds).
  - unfold wbind in A. destruct (trap_from p) as [t'| |] eqn:P; [|easy..]. injection A as <-. cbn in T. destruct T as [<-|T]; [left|right; now apply (IH ds)].
    unfold advice_tokens. rewrite !in_app_iff. right. left. right. eapply trap_ids; eassumption.
Qed.

Lemma spe_total b f x y : x <> [] -> spe_from b f x y = WPanic -> False.
Proof.
  assert (P : forall l seen, params_from seen l = WPanic -> False).
  { induction l as [|a l IH]; cbn; intros seen; [easy|]. destruct (wasm_type _); [|easy]. destruct (memb _ _); [easy|].
    destruct (params_from (insert (ta_id a) seen) l) eqn:E; [easy..|]. intros _. exact (IH _ E). }
  assert (D : forall l seen, distinct_from seen l = WPanic -> False).
  { induction l as [|a l IH]; cbn; intros seen; [easy|]. destruct (memb _ _); [easy|]. apply IH. }
  intros N H. unfold spe_from, wbind in H. destruct (params_from [] x) eqn:E1; [|easy|exact (P _ _ E1)]. destruct (params_from [] y) eqn:E2; [|easy|exact (P _ _ E2)].
  destruct (distinct_arguments a a0) eqn:E3; [easy..|]. clear H. unfold distinct_arguments in E3. destruct a; [|exact (D _ _ E3)].
  apply params_ids in E1. now destruct x.
Qed.
(** The compiler panics on no text: the only partial operation of validation is not reached. *)
Theorem C74_no_panic : forall s, compile s <> Some WPanic.
Proof.
  intros s H. unfold compile in H. destruct (parse s) as [l|] eqn:P; [|easy]. apply parse_iff in P as (_ & G). cbn in H. injection H as H. unfold wbind in H.
  destruct (root_from l) eqn:R; [easy..|]. clear H. induction l as [|a l IH]; [easy|]. inversion G; subst. cbn [root_from] in R. unfold wbind in R.
  destruct (advice_from a) eqn:A; [|easy|].
  - destruct (root_from l); [easy..|]. now apply IH.
  - destruct a as [g|p]; [easy|]. cbn [advice_from] in A. unfold wbind in A. destruct (trap_from p) eqn:T; [easy..|].
    destruct p as [[f a b|f x y|f x y] g|[] |g|g|g|g|c g|t1 i g|t1 g|c g|c g|c k g|t1 d g]; try discriminate T; cbn [trap_from apply_from] in T; unfold wbind in T.
    + destruct (gen_from f a b) eqn:Q; [easy..|]. unfold gen_from in Q. cbv zeta in Q. match type of Q with match ?m with _ => _ end = _ => destruct m; [|easy] end. now destruct (Nat.eqb _ 3).
    + destruct (spe_from false f x y) eqn:Q; [easy..|]. eapply spe_total; [|exact Q]. match goal with H : lists_given _ |- _ => exact (proj1 H) end.
    + destruct (spe_from true f x y) eqn:Q; [easy..|]. eapply spe_total; [|exact Q]. match goal with H : lists_given _ |- _ => exact (proj1 H) end.
Qed.
Print Assumptions C74_no_panic.

(** The identifiers of a compiled file are words of letters, so that C69 says which of the programs
    generated from WASP texts are well-formed. *)
Theorem C74_program : forall s root jps p, compile s = Some (WOk (root, jps)) -> generate root = Some p ->
  well_formed p <-> NoDup (map join_point_of (traps root)) /\ Forall distinguishable (traps root).
Proof.
  intros s root jps p C G. apply (C69_well_formed _ G). unfold compile in C. destruct (parse s) as [l|] eqn:P; [|easy]. apply parse_iff in P as (P & _).
  cbn in C. injection C as C. unfold wbind in C. destruct (root_from l) eqn:R; [|easy..]. injection C as -> _.
  apply Forall_forall. intros t T. apply Forall_forall. intros x X. apply (spells_words P). eapply root_ids; eassumption.
Qed.
Print Assumptions C74_program.

(** tests/analyses/wasp-as/forward.wasp. Layout of guest code does not matter to what it means. *)
Definition forward_text : string := "(aspect
    (advice if_then (condition Condition) >>>GUEST>>>
        if (condition.is_then) {
            return condition.continue_then;
        };
        if (condition.is_skip) {
            return condition.continue_skip;
        };
    <<<GUEST<<<)

    (advice if_then_else (condition Condition) >>>GUEST>>>
        if (condition.is_then) {
            return condition.continue_then;
        };
        if (condition.is_else) {
            return condition.continue_else;
        };
    <<<GUEST<<<)

    (advice br_if (condition Condition)
                  (label     Label) >>>GUEST>>>
        if (condition.is_branch) {
            return condition.continue_branch;
        };
        if (condition.is_skip) {
            return condition.continue_skip;
        };
    <<<GUEST<<<)

    (advice br_table (target Target)
                     (dflt   Default) >>>GUEST>>>
        return target.target;
    <<<GUEST<<<)

    (advice apply (func    WasmFunction)
                  (args    MutDynArgs)
                  (results MutDynResults) >>>GUEST>>>
        func.apply();
    <<<GUEST<<<)

    (advice call pre (f FunctionIndex) >>>GUEST>>>
        return; // No intercession, intercession @ callee site
    <<<GUEST<<<)

    (advice call post (f FunctionIndex) >>>GUEST>>>
        return; // No intercession, intercession @ callee site
    <<<GUEST<<<)

    (advice call_indirect pre (table FunctionTable)
                                 (index FunctionTableIndex) >>>GUEST>>>
        return index.index; // Arguments intercession @ callee site
    <<<GUEST<<<)

    (advice call_indirect post (table FunctionTable) >>>GUEST>>>
        return; // No intercession, intercession @ callee site
    <<<GUEST<<<)
    )
".
Fixpoint squeeze (blank : bool) (s : string) : string :=
  match s with
  | "" => ""
  | String a r => if white a then squeeze true r else if blank then String " " (String a (squeeze false r)) else String a (squeeze false r)
  end.
Definition tidy (s : string) : string := match squeeze true s with String _ r => r | s => s end.
Definition tidy_advice (d : advice_def) : advice_def :=
  match d with
  | AGlobal g => AGlobal (tidy g)
  | ATrap t => ATrap match t with
    | TApply s g => TApply s (tidy g) | TCall q x g => TCall q x (tidy g) | TBlockPre g => TBlockPre (tidy g) | TBlockPost g => TBlockPost (tidy g)
    | TLoopPre g => TLoopPre (tidy g) | TLoopPost g => TLoopPost (tidy g) | TSelect c g => TSelect c (tidy g)
    | TCallIndirectPre x y g => TCallIndirectPre x y (tidy g) | TCallIndirectPost x g => TCallIndirectPost x (tidy g)
    | TIfThen c g => TIfThen c (tidy g) | TIfThenElse c g => TIfThenElse c (tidy g) | TBrIf c l g => TBrIf c l (tidy g) | TBrTable x y g => TBrTable x y (tidy g)
    end
  end.
Example ex_c74 :
  (exists root jps p, compile forward_text = Some (WOk (root, jps)) /\ map tidy_advice root = forward_wasp /\ generate root = Some p /\ well_formed p) /\
  compile "(aspect (advice apply (f WasmFunction) ((f I32)) ((f I32)) >>>GUEST>>><<<GUEST<<<))" = Some (WErr (DuplicateArgsRessParameter "f")).
Proof.
  split; [|vm_compute; reflexivity]. destruct (compile forward_text) as [[[root jps]| |]|] eqn:C; try (vm_compute in C; discriminate C).
  exists root, jps. assert (E : map tidy_advice root = forward_wasp) by (vm_compute in C; injection C as <- _; vm_compute; reflexivity).
  destruct (generate root) as [p|] eqn:G; [|vm_compute in C; injection C as <- _; vm_compute in G; discriminate G].
  exists p. repeat (split; [first [reflexivity|assumption]|]). apply (C74_program _ C G). vm_compute in C. injection C as <- _. split.
  - cbn. repeat constructor; cbn; intuition discriminate.
  - cbn. repeat constructor; cbn; try discriminate; intuition (subst; discriminate).
Qed.
