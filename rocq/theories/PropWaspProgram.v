(** Property theorem C69: which WASP files give a well-formed AssemblyScript program. *)
From Coq Require Import Permutation.
From Verif Require Import Semantics Names Advice RsStdlib Interface Wasp PropWasp StackLib StackRun StackOps StackHist StackSpec PropStack System SystemProofs AccessProofs Instantiate Trace TraceProofs
  Typing ModuleTyping InstantiateTyping Checker ExModule InstrumentProofs PropInstrument PropSpec PropTyping ForwardRel ForwardProofs SessionProofs Recorder
  PropTransparent AsLib AsNames AsRun AsTypes AsProofs PropAs WaspAs WaspAsProofs WaspAsSessions WaspAsAccess.
Local Open Scope string_scope.
Local Open Scope list_scope.

(** ** C69: which WASP files give a well-formed program *)
(** Identifiers of the grammar, wasp-compiler/wasp.pest L20. *)
Definition letter (c : Ascii.ascii) : bool :=
  let n := Ascii.nat_of_ascii c in ((65 <=? n) && (n <=? 90) || (97 <=? n) && (n <=? 122))%nat.
Fixpoint letters (s : string) : bool := match s with EmptyString => true | String c r => letter c && letters r end.
(** The identifiers of an advice. *)
Definition identifiers (t : trap_sig) : list string :=
  match t with
  | TApply (AGen _ f x y) _ => [f; x; y]
  | TApply (ASpe _ f x y) _ => f :: map wp_id x ++ map wp_id y
  | TCall _ x _ | TCallIndirectPost x _ | TSelect x _ | TIfThen x _ | TIfThenElse x _ => [x]
  | TCallIndirectPre x y _ | TBrIf x y _ | TBrTable x y _ => [x; y]
  | _ => []
  end.

(** A well-formed program: no name is declared twice at the top level or in a function, the classes
    used are declared by the parts of the library that are included, a call with numbers of the
    declared types finds for every constructor the arguments it takes, and the value to fall back on is a parameter. *)
Definition well_formed (p : as_program) : Prop :=
  NoDup (top_names p) /\
  forall t w, In (t, w) (ap_wrappers p) ->
    NoDup (local_names w) /\
    (forall x c args, In (x, c, args) (wr_lets w) -> In (class_name c) (List.concat (ap_parts p))) /\
    (forall args, map typeof args = map TNum (map snd (wr_params w)) -> exists sc, enter_wrapper w args = Some sc) /\
    (forall x, wr_fallback w = Some x -> In (x, TI32) (wr_params w) /\ wr_results w = [TI32]).

(** What a WASP file must satisfy for that. *)
Definition distinguishable (t : trap_sig) : Prop :=
  match t with
  | TApply (AGen _ f x y) _ => NoDup [f; x; y] /\ forall i, In i [f; x; y] -> ~ In i ["argc"; "resc"; "sigv"; "sigtypv"; "argsResults"]
  | TCallIndirectPre x y _ | TBrIf x y _ | TBrTable x y _ => x <> y
  | _ => True
  end.

Lemma letters_not x y : letters x = true -> letters y = false -> x <> y.
Proof. congruence. Qed.
Ltac ors H := match type of H with _ \/ _ => destruct H as [H|H]; ors H | False => destruct H | _ => idtac end.
Lemma locals_distinct t w : wrapper_of t = Some w -> Forall (fun x => letters x = true) (identifiers t) ->
  (NoDup (local_names w) <-> distinguishable t).
Proof.
  assert (N : forall (x : string) l, NoDup (x :: l) <-> ~ In x l /\ NoDup l).
  { intros x l. split; [intros H; inversion H; auto|intros (A & B); now constructor]. }
  intros Ew L. unfold local_names.
  destruct t as [[] ?|[] ? ?| | | | | | | | | | |]; cbn [wrapper_of] in Ew; try discriminate Ew; injection Ew as <-;
  cbn [wr_params wr_lets map fst snd app identifiers distinguishable] in *; rewrite !N; cbn [In];
  repeat match goal with H : Forall _ (_ :: _) |- _ => let A := fresh "Lt" in let B := fresh in inversion H as [|? ? A B]; subst; clear H; rename B into H end.
  all: split; [intros H; decompose [and] H; clear H|intros H].
  all: try exact Logic.I.
  all: try match type of H with _ /\ (forall i, _) => destruct H as (H & K);
    pose proof (K f (or_introl eq_refl)); pose proof (K args (or_intror (or_introl eq_refl)));
    pose proof (K ress (or_intror (or_intror (or_introl eq_refl)))); clear K; decompose [and] H; clear H end.
  all: repeat match goal with |- _ /\ _ => split end; try (exact (fun x => x)); try apply NoDup_nil.
  all: try (intros i [<-|[<-|[<-|[]]]] Q; ors Q).
  all: try (intros Q; ors Q).
  all: try discriminate Q.
  all: try (subst; match goal with H : letters _ = true |- _ => discriminate H end).
  all: subst; match goal with H : ~ _ |- _ => solve [apply H; repeat (first [left; reflexivity|right])|exact (H eq_refl)] end.
Qed.

(** The name under which the function for a join point is exported. *)
Definition join_name (j : join_point) : string :=
  match j with
  | JGeneric => "generic_apply" | JSpecialised _ _ => ""
  | JBlockPre => "trap_block_pre" | JBlockPost => "trap_block_post" | JLoopPre => "trap_loop_pre" | JLoopPost => "trap_loop_post"
  | JSelect => "specialized_select" | JCallPre => "specialized_call_pre" | JCallPost => "specialized_call_post"
  | JCallIndirectPre => "specialized_call_indirect_pre" | JCallIndirectPost => "specialized_call_indirect_post"
  | JIfThen => "specialized_if_then_k" | JIfThenElse => "specialized_if_then_else_k"
  | JBrIf => "specialized_br_if" | JBrTable => "specialized_br_table"
  end.
Lemma wrapper_join t w : wrapper_of t = Some w -> wr_name w = join_name (join_point_of t) /\ join_name (join_point_of t) <> "" /\
  ~ In (wr_name w) (apply_lib ++ if_lib ++ call_lib).
Proof.
  assert (X : forall x l, existsb (String.eqb x) l = false -> ~ In x l).
  { intros x l E I. assert (existsb (String.eqb x) l = true) by (apply existsb_exists; exists x; split; [exact I|apply String.eqb_refl]). congruence. }
  destruct t as [[] ?|[] ? ?| | | | | | | | | | |]; cbn [wrapper_of]; intros Q; try discriminate Q; injection Q as <-;
  (split; [reflexivity|]); (split; [discriminate|]); apply X; reflexivity.
Qed.
Lemma join_name_injective a b : join_name a <> "" -> join_name a = join_name b -> a = b.
Proof. destruct a, b; cbn; intros N E; try discriminate E; try reflexivity; congruence. Qed.
Lemma nodup_map (ts : list trap_sig) ws : Forall (fun tw => wrapper_of (fst tw) = Some (snd tw)) ws -> map fst ws = ts ->
  (NoDup (map (fun w => wr_name (snd w)) ws) <-> NoDup (map join_point_of ts)).
Proof.
  intros F <-. induction F as [|[t w] ws Ew F IH]; cbn [map fst snd] in *; [split; constructor|].
  destruct (wrapper_join _ Ew) as (En & Nz & _).
  assert (In (wr_name w) (map (fun w => wr_name (snd w)) ws) <-> In (join_point_of t) (map join_point_of (map fst ws))) as H.
  { rewrite map_map, !in_map_iff. rewrite Forall_forall in F. split.
    - intros ((t1 & w1) & E1 & I1). exists (t1, w1). split; [|exact I1]. cbn [fst snd] in *.
      destruct (wrapper_join _ (F _ I1)) as (En1 & Nz1 & _). cbn [fst snd] in *. apply join_name_injective; congruence.
    - intros ((t1 & w1) & E1 & I1). exists (t1, w1). split; [|exact I1]. cbn [fst snd] in *.
      destruct (wrapper_join _ (F _ I1)) as (En1 & Nz1 & _). cbn [fst snd] in *. congruence. }
  split; intros N; inversion N; subst; constructor; tauto.
Qed.
Lemma parts_sublist (a b c : bool) x : In x (List.concat ((if a then [apply_lib] else []) ++ (if b then [if_lib] else []) ++ (if c then [call_lib] else []))) ->
  In x (apply_lib ++ if_lib ++ call_lib).
Proof. rewrite !in_app_iff. destruct a, b, c; cbn [app List.concat]; rewrite ?app_nil_r, ?in_app_iff; cbn [In]; tauto. Qed.
Lemma parts_nodup (a b c : bool) :
  NoDup (List.concat ((if a then [apply_lib] else []) ++ (if b then [if_lib] else []) ++ (if c then [call_lib] else []))).
Proof.
  assert (X : forall l : list string, nodup string_dec l = l -> NoDup l) by (intros l <-; apply NoDup_nodup).
  destruct a, b, c; apply X; vm_compute; reflexivity.
Qed.
Lemma nodup_parts (l r : list string) : (forall x, In x r -> ~ In x l) -> NoDup l -> (NoDup (l ++ r) <-> NoDup r).
Proof.
  intros D. induction l as [|x l IH]; cbn [app]; [tauto|]. intros N. inversion N as [|? ? N1 N2]; subst.
  assert (D' : forall y, In y r -> ~ In y l) by (intros y Hy Q; apply (D y Hy); now right).
  specialize (IH D' N2). split.
  - intros M. inversion M; subst. now apply IH.
  - intros M. constructor; [|now apply IH]. rewrite in_app_iff. intros [Q|Q]; [contradiction|]. apply (D x Q). now left.
Qed.

(** Every call finds the arguments of its constructors. *)
Lemma bind_numbers ps : forall args sc, map typeof args = map TNum (map snd ps) -> exists sc1, bind_params ps args sc = Some sc1.
Proof.
  induction ps as [|[x t] ps IH]; intros [|v args] sc E; try discriminate E; [now eexists|]. cbn [map snd] in E. injection E as E1 E2.
  destruct v; [|discriminate E1..]. cbn [bind_params]. now apply IH.
Qed.
Lemma enters t w args : wrapper_of t = Some w -> NoDup (local_names w) -> map typeof args = map TNum (map snd (wr_params w)) ->
  exists sc, enter_wrapper w args = Some sc.
Proof.
  intros Ew N E. unfold local_names in N.
  destruct t as [[] ?|[] ? ?| | | | | | | | | | |]; cbn [wrapper_of] in Ew; try discriminate Ew; injection Ew as <-;
  cbn [wr_params wr_lets map fst snd app] in E, N;
  repeat (destruct args as [|[] args]; try discriminate E; cbn [map typeof] in E; injection E; intros; clear E;
          match goal with H : map typeof args = _ |- _ => rename H into E end);
  repeat match goal with H : TNum _ = TNum _ |- _ => injection H as H; subst end;
  (destruct args; [|discriminate E]); unfold enter_wrapper; cbn [wr_params wr_lets bind_params app];
  repeat (cbn [bind_lets lookups lookup]; names N; cbn [new_object]); eexists; reflexivity.
Qed.
Lemma uses_declared root t w x c args : In t (traps root) -> wrapper_of t = Some w -> In (x, c, args) (wr_lets w) ->
  In (class_name c) (List.concat ((if instruments_generic_apply root then [apply_lib] else []) ++
       (if instruments_if root then [if_lib] else []) ++ (if instruments_call root then [call_lib] else []))).
Proof.
  intros Ht Ew H.
  assert (D : forall f, existsb f (traps root) = true \/ f t = false).
  { intros f. destruct (f t) eqn:Ef; [left|now right]. apply existsb_exists. now exists t. }
  unfold instruments_generic_apply, instruments_if, instruments_call.
  match goal with |- context [if existsb ?f _ then [apply_lib] else []] => destruct (D f) as [Da|Da] end;
  match goal with |- context [if existsb ?f _ then [if_lib] else []] => destruct (D f) as [Db|Db] end;
  match goal with |- context [if existsb ?f _ then [call_lib] else []] => destruct (D f) as [Dc|Dc] end;
  destruct t as [[] ?|[] ? ?| | | | | | | | | | |]; cbn [wrapper_of] in Ew; try discriminate Ew; try discriminate Da; try discriminate Db; try discriminate Dc;
  injection Ew as <-; cbn [wr_lets In] in H; try contradiction;
  rewrite ?Da, ?Db, ?Dc, !concat_app, !in_app_iff;
  repeat (destruct H as [H|H]; [injection H as <- <- <-; first
    [left; cbn; tauto|right; left; cbn; tauto|right; right; cbn; tauto]|]); contradiction.
Qed.

Theorem C69_well_formed : forall root p, generate root = Some p ->
  Forall (fun t => Forall (fun x => letters x = true) (identifiers t)) (traps root) ->
  well_formed p <-> NoDup (map join_point_of (traps root)) /\ Forall distinguishable (traps root).
Proof.
  intros root p G L. destruct (generate_wrappers _ G) as (M & F).
  assert (Nm : NoDup (top_names p) <-> NoDup (map join_point_of (traps root))).
  { rewrite <- (nodup_map F M). unfold top_names. apply nodup_parts.
    - intros x Hx. apply in_map_iff in Hx as ((t & w) & <- & I1). rewrite Forall_forall in F.
      destruct (wrapper_join _ (F _ I1)) as (_ & _ & N1). cbn [fst snd] in *. intros Q. apply N1.
      unfold generate in G. destruct (wrappers_of (traps root)); [|discriminate]. injection G as <-. eapply parts_sublist; exact Q.
    - unfold generate in G. destruct (wrappers_of (traps root)); [|discriminate]. injection G as <-. apply parts_nodup. }
  rewrite Forall_forall in F, L. unfold well_formed. rewrite Nm, Forall_forall. split.
  - intros (A & B). split; [exact A|]. intros t Ht. rewrite <- M in Ht. apply in_map_iff in Ht as ((t1 & w) & Q & I1). cbn [fst] in Q. subst t1.
    refine (proj1 (locals_distinct t (F _ I1) _) (proj1 (B _ _ I1))). apply L. rewrite <- M. exact (in_map fst _ _ I1).
  - intros (A & B). split; [exact A|]. intros t w I1. pose proof (F _ I1) as Ew. cbn [fst snd] in Ew.
    assert (Ht : In t (traps root)) by (rewrite <- M; exact (in_map fst _ _ I1)).
    pose proof (proj2 (locals_distinct t Ew (L _ Ht)) (B _ Ht)) as Nd.
    split; [exact Nd|]. split; [|split].
    + intros x c args H. unfold generate in G. destruct (wrappers_of (traps root)); [|discriminate]. injection G as <-. eapply uses_declared; eassumption.
    + intros args Q. exact (@enters t w args Ew Nd Q).
    + intros x H. destruct t as [[] ?|[] ? ?| | | | | | | | | | |]; cbn [wrapper_of] in Ew; try discriminate Ew; injection Ew as <-;
      cbn [wr_fallback wr_params wr_results app In] in *; try discriminate H; injection H as <-; (split; [tauto|reflexivity]).
Qed.
Print Assumptions C69_well_formed.

(** The program is generated exactly when the interface is, and exports what the interface imports. *)
Theorem C69_exports : forall root,
  match generate root, interface_of_root root with
  | Some p, Some ai =>
      forall e, PropWasp.imports ai e <-> exists t w, In (t, w) (ap_wrappers p) /\ e = WF (wr_name w) (map snd (wr_params w)) (wr_results w)
  | None, None => True
  | _, _ => False
  end.
Proof.
  intros root.
  assert (H : generate root = None <-> existsb specialised root = true).
  { unfold generate. assert (W : wrappers_of (traps root) = None <-> existsb specialised root = true).
    { induction root as [|a root IH]; [split; discriminate|]. destruct a as [c|t]; cbn [existsb specialised]; [exact IH|].
      change (traps (ATrap t :: root)) with (t :: traps root). cbn [wrappers_of].
      destruct t as [[] ?|[] ? ?| | | | | | | | | | |]; cbn [wrapper_of orb]; try tauto;
      (destruct (wrappers_of (traps root)); [split; [discriminate|intros Q; apply IH in Q; discriminate]|tauto]). }
    destruct (wrappers_of (traps root)); [|tauto]. split; [discriminate|]. intros Q. apply W in Q. discriminate. }
  destruct (existsb specialised root) eqn:Es.
  - rewrite (proj2 H eq_refl), (proj1 (C40_specialised_refuted root) Es). exact Logic.I.
  - destruct (generate root) as [p|] eqn:G; [|destruct H as [H _]; discriminate (H eq_refl)].
    destruct (C40_join_points_interface root Es) as (ai & -> & _ & Im). intros e. rewrite Im. unfold program_exports.
    destruct (generate_wrappers _ G) as (M & F). rewrite Forall_forall in F. rewrite in_flat_map. split.
    + intros ([c|t] & Ha & He); [destruct He|]. cbn [In] in He. destruct He as [<-|[]].
      assert (Ht : In t (traps root)) by (apply in_flat_map; exists (ATrap t); split; [exact Ha|now left]).
      rewrite <- M in Ht. apply in_map_iff in Ht as ((t1 & w) & Q & I1). cbn [fst] in Q. subst t1.
      exists t, w. split; [exact I1|]. apply wrapper_header. exact (F _ I1).
    + intros (t & w & I1 & ->). assert (Ht : In t (traps root)) by (rewrite <- M; exact (in_map fst _ _ I1)).
      apply in_flat_map in Ht as ([c|t1] & Ha & Q); [destruct Q|]. destruct Q as [->|[]]. exists (ATrap t). split; [exact Ha|]. left.
      apply wrapper_header. exact (F _ I1).
Qed.
Print Assumptions C69_exports.

(** The compiler accepts WASP files for which no well-formed program is generated: an identifier that
    is also a parameter of the generated function, one identifier for two things, two advices for the same join point. *)
Theorem C69_refuted : Forall (fun advices => exists root p, root_from advices = WOk root /\ generate root = Some p /\
    Forall (fun t => Forall (fun x => letters x = true) (identifiers t)) (traps root) /\ ~ well_formed p)
  [ [PTrap (PApply (PGen "argc" (TA "args" "MutDynArgs") (TA "results" "MutDynResults")) "argc.apply();")];
    [PTrap (PBrIf "x" "x" "return x.continue_branch;")];
    [PTrap (PSelect "condition" ""); PTrap (PSelect "condition" "")] ].
Proof.
  assert (H : forall advices root p, root_from advices = WOk root -> generate root = Some p ->
    Forall (fun t => Forall (fun x => letters x = true) (identifiers t)) (traps root) ->
    ~ (NoDup (map join_point_of (traps root)) /\ Forall distinguishable (traps root)) ->
    exists root p, root_from advices = WOk root /\ generate root = Some p /\
      Forall (fun t => Forall (fun x => letters x = true) (identifiers t)) (traps root) /\ ~ well_formed p).
  { intros advices root p R G L N. exists root, p. repeat (split; [assumption|]). intros W. apply N. now apply (C69_well_formed root G L). }
  apply Forall_cons; [|apply Forall_cons; [|apply Forall_cons; [|apply Forall_nil]]].
  - eapply H; [reflexivity|reflexivity|repeat constructor|]. intros (_ & B). inversion B as [|? ? C _]. cbn in C. destruct C as (_ & C). apply (C "argc"); cbn; tauto.
  - eapply H; [reflexivity|reflexivity|repeat constructor|]. intros (_ & B). inversion B as [|? ? C _]. exact (C eq_refl).
  - eapply H; [reflexivity|reflexivity|repeat constructor|]. intros (A & _). inversion A as [|? ? C _]. apply C. now left.
Qed.
Print Assumptions C69_refuted.

(** tests/analyses/wasp-as/forward.wasp, and a file whose identifiers are those of the classes. *)
Example ex_c69 : (exists p, generate forward_wasp = Some p /\ well_formed p /\ List.length (top_names p) = 42) /\
  (exists p, generate [ATrap (TCall Pre "FunctionIndex" "")] = Some p /\ well_formed p) /\
  generate [ATrap (TApply (ASpe true "f" [] []) "")] = None.
Proof.
  split; [|split; [|reflexivity]]; (eexists; split; [reflexivity|]).
  - split; [|reflexivity]. apply (C69_well_formed forward_wasp eq_refl); [repeat constructor|].
    split; [|repeat constructor; cbn; try discriminate; intuition (subst; discriminate)].
    cbn. repeat constructor; cbn; intuition discriminate.
  - apply (C69_well_formed [ATrap (TCall Pre "FunctionIndex" "")] eq_refl); [repeat constructor|]. split; repeat constructor. intros [].
Qed.

