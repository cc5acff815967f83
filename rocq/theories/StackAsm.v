(** The generated library assembles: identifiers are defined once, names exported once. *)
From Coq Require Import FinFun.
From Verif Require Import StackLib StackNames.
Local Open Scope string_scope.
Local Open Scope list_scope.

Lemma distinct_strs_NoDup l : distinct_strs l = true <-> NoDup l.
Proof.
  induction l as [|x l IH]; [split; [constructor|reflexivity]|]. simpl. rewrite NoDup_cons_iff, andb_true_iff, IH, negb_true_iff.
  assert (E : existsb (String.eqb x) l = false <-> ~ In x l).
  { rewrite <- not_true_iff_false, existsb_exists. split.
    - intros N I. apply N. exists x. split; [exact I|apply String.eqb_refl].
    - intros N (y & I & E). apply String.eqb_eq in E. now subst. }
  now rewrite E.
Qed.
Lemma nodup_app {A} (a b : list A) : NoDup a -> NoDup b -> (forall x, In x a -> In x b -> False) -> NoDup (a ++ b).
Proof.
  induction a as [|x a IH]; intros Na Nb D; [exact Nb|]. simpl. apply NoDup_cons_iff in Na. destruct Na as [N Na].
  apply NoDup_cons_iff. split.
  - intros I. apply in_app_or in I. destruct I as [I|I]; [auto|]. apply (D x); simpl; auto.
  - apply IH; auto. intros y I I'. apply (D y); simpl; auto.
Qed.
Lemma nodup_flat_map {A B} (f : A -> list B) l : NoDup l -> (forall x, In x l -> NoDup (f x)) ->
  (forall x y z, In z (f x) -> In z (f y) -> x = y) -> NoDup (flat_map f l).
Proof.
  intros N F D. induction l as [|x l IH]; [constructor|]. apply NoDup_cons_iff in N. destruct N as [N Nl]. simpl.
  apply nodup_app.
  - apply F. now left.
  - apply IH; [exact Nl|]. intros y I. apply F. now right.
  - intros z I I'. apply in_flat_map in I'. destruct I' as (y & Iy & I'). rewrite (D _ _ _ I I') in N. auto.
Qed.
Lemma nodup_map {A B} (f : A -> B) l : (forall x y, f x = f y -> x = y) -> NoDup l -> NoDup (map f l).
Proof. intros. now apply Injective_map_NoDup. Qed.

Section Firsts.
  Context {A : Type} (eqb : A -> A -> bool) (eqb_eq : forall x y, eqb x y = true <-> x = y).
  Lemma seen_in x l : existsb (eqb x) l = true <-> In x l.
  Proof.
    rewrite existsb_exists. split.
    - intros (y & I & E). apply eqb_eq in E. now subst.
    - intros I. exists x. split; [exact I|now apply eqb_eq].
  Qed.
  Lemma firsts_in seen l x : In x (firsts eqb seen l) <-> In x l /\ ~ In x seen.
  Proof.
    revert seen. induction l as [|y l IH]; intros seen; [simpl; tauto|]. simpl.
    destruct (existsb (eqb y) seen) eqn:E.
    - apply seen_in in E. rewrite IH. split; [tauto|]. intros [[->|I] N]; tauto.
    - assert (E' : ~ In y seen) by (intros I; apply seen_in in I; congruence).
      simpl. rewrite IH. simpl. split.
      + intros [->|[I N]]; tauto.
      + intros [[->|I] N]; [tauto|]. destruct (eqb y x) eqn:Q; [apply eqb_eq in Q; tauto|].
        right. split; [exact I|]. intros [->|I']; [|tauto]. assert (eqb x x = true) by now apply eqb_eq. congruence.
  Qed.
  Lemma firsts_nodup seen l : NoDup (firsts eqb seen l).
  Proof.
    revert seen. induction l as [|y l IH]; intros seen; [constructor|]. simpl.
    destruct (existsb (eqb y) seen); [apply IH|]. constructor; [|apply IH].
    rewrite firsts_in. simpl. tauto.
  Qed.
End Firsts.

Lemma count_eqb_eq c d : count_eqb c d = true <-> c = d.
Proof.
  destruct c, d. unfold count_eqb. simpl. rewrite andb_true_iff, !Nat.eqb_eq.
  split; [intros [-> ->]; reflexivity|intros E; now injection E].
Qed.

(** ** Operations per signature *)
Definition gen_ops (r a : nat) : list libop :=
  [LAlloc] ++ map (LLoad SArg) (seq 0 a) ++ map (LLoad SRet) (seq 0 r)
  ++ map (LStore SArg) (seq 0 a) ++ map (LStore SRet) (seq 0 r) ++ [LFree].
Definition special_ops (ft : functy) : list libop :=
  [LAlloc] ++ map (LLoad SArg) (seq 0 (List.length (ft_in ft))) ++ map (LLoad SRet) (seq 0 (List.length (ft_out ft)))
  ++ map (LStore SArg) (seq 0 (List.length (ft_in ft))) ++ map (LStore SRet) (seq 0 (List.length (ft_out ft)))
  ++ [LStoreRets; LAllocTypes; LFreeTypes; LFree].
Ltac in_ops :=
  repeat match goal with
  | H : In _ (_ ++ _) |- _ => apply in_app_or in H; destruct H as [H|H]
  | H : In _ (map _ _) |- _ => apply in_map_iff in H; destruct H as (? & <- & _)
  | H : In _ (_ :: _) |- _ => destruct H as [<-|H]
  | H : In _ [] |- _ => destruct H
  end.
Ltac nodup_ops :=
  repeat first
  [ apply nodup_app
  | apply nodup_map; [intros ? ? Q; now injection Q|apply seq_NoDup]
  | apply NoDup_nil
  | apply NoDup_cons_iff; split ].
Ltac ops_differ := intros; in_ops;
  repeat match goal with
  | H : In _ (_ ++ _) |- _ => apply in_app_or in H; destruct H as [H|H]
  | H : In _ (map _ _) |- _ => apply in_map_iff in H; destruct H as (? & H & _)
  | H : In _ (_ :: _) |- _ => destruct H as [H|H]
  | H : In _ [] |- _ => destruct H
  | H : _ = _ |- _ => discriminate H
  end.
Lemma gen_ops_nodup r a : NoDup (gen_ops r a).
Proof. unfold gen_ops. nodup_ops; ops_differ; auto. Qed.
Lemma special_ops_nodup ft : NoDup (special_ops ft).
Proof. unfold special_ops. nodup_ops; ops_differ; try (intros HH; ops_differ); auto. Qed.

(** ** Identifiers *)
Definition idl (ws : list wfn) : list wid := flat_map (fun f => match w_id f with Some i => [i] | None => [] end) ws.
Lemma ids_map ws : ids ws = map wid_str (idl ws).
Proof. unfold ids, idl. induction ws as [|f ws IH]; [reflexivity|]. simpl. rewrite map_app, IH. now destruct (w_id f). Qed.
Lemma idl_app a b : idl (a ++ b) = idl a ++ idl b.
Proof. apply flat_map_app. Qed.
Lemma idl_map {A} (g : A -> wfn) (h : A -> wid) l : (forall x, w_id (g x) = Some (h x)) -> idl (map g l) = map h l.
Proof. intros E. induction l as [|x l IH]; [reflexivity|]. simpl. rewrite E. simpl. now f_equal. Qed.
Lemma idl_none {A} (g : A -> wfn) l : (forall x, w_id (g x) = None) -> idl (map g l) = [].
Proof. intros E. induction l as [|x l IH]; [reflexivity|]. simpl. now rewrite E. Qed.
Lemma idl_flat {A} (g : A -> list wfn) l : idl (flat_map g l) = flat_map (fun x => idl (g x)) l.
Proof. induction l as [|x l IH]; [reflexivity|]. simpl. now rewrite idl_app, IH. Qed.
Lemma idl_generic r a : idl (generic_fns (r, a)) = map (fun o => IdGen o r a) (gen_ops r a).
Proof.
  unfold generic_fns, gen_ops. rewrite !idl_app, !map_app, !map_map.
  rewrite (idl_map (load_generic r a SArg) (fun i => IdGen (LLoad SArg i) r a)) by reflexivity.
  rewrite (idl_map (load_generic r a SRet) (fun i => IdGen (LLoad SRet i) r a)) by reflexivity.
  rewrite (idl_map (store_generic r a SArg) (fun i => IdGen (LStore SArg i) r a)) by reflexivity.
  rewrite (idl_map (store_generic r a SRet) (fun i => IdGen (LStore SRet i) r a)) by reflexivity.
  replace (idl [allocate_generic r a]) with [IdGen LAlloc r a]
    by (unfold allocate_generic; destruct (Nat.eqb (r + a) 0); reflexivity).
  reflexivity.
Qed.
Lemma idl_special ft : idl (special_fns ft) = [].
Proof.
  unfold special_fns. rewrite !idl_app, !idl_none by reflexivity.
  unfold allocate_types_fn. simpl. destruct (Nat.eqb _ _); reflexivity.
Qed.
Lemma idl_lib sigs : idl (generate_lib sigs) =
  idl boilerplate ++ flat_map (fun c => map (fun o => IdGen o (fst c) (snd c)) (gen_ops (fst c) (snd c)))
                              (firsts count_eqb [] (map ft_count sigs)).
Proof.
  unfold generate_lib. rewrite !idl_app, !idl_flat. f_equal.
  replace (flat_map (fun x => idl (special_fns x)) (firsts functy_eqb [] sigs)) with (@nil wid).
  - rewrite app_nil_r. apply flat_map_ext. intros [r a]. apply idl_generic.
  - induction (firsts functy_eqb [] sigs) as [|x l IH]; [reflexivity|]. cbn [flat_map]. now rewrite idl_special, <- IH.
Qed.
Lemma idl_nodup sigs : NoDup (idl (generate_lib sigs)).
Proof.
  rewrite idl_lib. apply nodup_app.
  - vm_compute. repeat constructor; simpl; intros HH; repeat destruct HH as [HH|HH]; try discriminate HH; auto.
  - apply nodup_flat_map.
    + apply firsts_nodup, count_eqb_eq.
    + intros c _. apply nodup_map; [intros ? ? E; now injection E|apply gen_ops_nodup].
    + intros [r a] [r' a'] z I I'. apply in_map_iff in I. destruct I as (o & <- & _).
      apply in_map_iff in I'. destruct I' as (o' & E & _). simpl in E. injection E as _ -> ->. reflexivity.
  - intros x I I'. apply in_flat_map in I'. destruct I' as (c & _ & I'). apply in_map_iff in I'.
    destruct I' as (o & <- & _). vm_compute in I. repeat destruct I as [I|I]; try discriminate I; auto.
Qed.

(** ** Exports *)
Lemma exports_app a b : exports (a ++ b) = exports a ++ exports b.
Proof. apply flat_map_app. Qed.
Lemma exports_map {A} (g : A -> wfn) (h : A -> string) l : (forall x, w_export (g x) = Some (h x)) -> exports (map g l) = map h l.
Proof. intros E. induction l as [|x l IH]; [reflexivity|]. simpl. rewrite E. simpl. now f_equal. Qed.
Lemma exports_none {A} (g : A -> wfn) l : (forall x, w_export (g x) = None) -> exports (map g l) = [].
Proof. intros E. induction l as [|x l IH]; [reflexivity|]. simpl. now rewrite E. Qed.
Lemma exports_flat {A} (g : A -> list wfn) l : exports (flat_map g l) = flat_map (fun x => exports (g x)) l.
Proof. induction l as [|x l IH]; [reflexivity|]. simpl. now rewrite exports_app, IH. Qed.
Lemma enum_fst {A} (l : list A) : map fst (enum l) = seq 0 (List.length l).
Proof.
  unfold enum. generalize 0. induction l as [|x l IH]; intros n; [reflexivity|]. simpl. now rewrite IH.
Qed.
Lemma enum_in {A} (l : list A) i x : In (i, x) (enum l) <-> nth_error l i = Some x.
Proof.
  unfold enum. replace (nth_error l i) with (nth_error l (i - 0)) by (now rewrite Nat.sub_0_r).
  enough (G : forall n, In (i, x) (combine (seq n (List.length l)) l) <-> n <= i /\ nth_error l (i - n) = Some x).
  { rewrite G. intuition lia. }
  induction l as [|y l IH]; intros n; simpl.
  - split; [intros []|]. intros [_ E]. now destruct (i - n).
  - rewrite IH. split.
    + intros [E|[L E]]; [injection E as -> ->; rewrite Nat.sub_diag; auto|].
      split; [lia|]. replace (i - n) with (S (i - S n)) by lia. exact E.
    + intros [L E]. destruct (Nat.eq_dec n i) as [->|N].
      * rewrite Nat.sub_diag in E. injection E as ->. now left.
      * right. split; [lia|]. replace (i - n) with (S (i - S n)) in E by lia. exact E.
Qed.
Lemma exports_special ft : exports (special_fns ft) = map (lib_name ft) (special_ops ft).
Proof.
  unfold special_fns, special_ops. rewrite !exports_app, !map_app, !map_map, <- !enum_fst, !map_map.
  rewrite (exports_map (load_fn ft SArg) (fun it => lib_name ft (LLoad SArg (fst it)))) by reflexivity.
  rewrite (exports_map (load_fn ft SRet) (fun it => lib_name ft (LLoad SRet (fst it)))) by reflexivity.
  rewrite (exports_map (store_fn ft SArg) (fun it => lib_name ft (LStore SArg (fst it)))) by reflexivity.
  rewrite (exports_map (store_fn ft SRet) (fun it => lib_name ft (LStore SRet (fst it)))) by reflexivity.
  replace (exports [store_rets_fn ft; allocate_types_fn ft; free_types_fn ft; free_fn ft])
    with (map (lib_name ft) [LStoreRets; LAllocTypes; LFreeTypes; LFree])
    by (unfold allocate_types_fn; simpl; destruct (Nat.eqb _ _); reflexivity).
  reflexivity.
Qed.
Lemma exports_generic c : exports (generic_fns c) = [].
Proof.
  destruct c as [r a]. unfold generic_fns. rewrite !exports_app, !exports_none by reflexivity.
  unfold allocate_generic. simpl. destruct (Nat.eqb _ _); reflexivity.
Qed.
Lemma exports_lib sigs : exports (generate_lib sigs) =
  exports boilerplate ++ flat_map (fun ft => map (lib_name ft) (special_ops ft)) (firsts functy_eqb [] sigs).
Proof.
  unfold generate_lib. rewrite !exports_app, !exports_flat. f_equal.
  replace (flat_map (fun x => exports (generic_fns x)) (firsts count_eqb [] (map ft_count sigs))) with (@nil string).
  - apply flat_map_ext. intros ft. apply exports_special.
  - induction (firsts count_eqb [] (map ft_count sigs)) as [|x l IH]; [reflexivity|]. cbn [flat_map]. now rewrite exports_generic, <- IH.
Qed.
Lemma boilerplate_not_lib ft o : ~ In (lib_name ft o) (exports boilerplate).
Proof.
  rewrite lib_name_words. intros I.
  assert (P : forall l, Forall word l -> hd "" l = "wastrumentation" -> join "_" l = join "_" (sig_words wat_words ft o) -> False).
  { intros l F Hh E. apply join_inj in E; [|exact F|apply sig_words_word; auto]. subst l.
    unfold sig_words in Hh. destruct o; discriminate Hh. }
  assert (W : Forall (fun s => exists l, Forall word l /\ hd "" l = "wastrumentation" /\ join "_" l = s) (exports boilerplate)).
  { change (exports boilerplate) with (map (fun l => join "_" ("wastrumentation" :: "stack" :: l))
      [["load"; "type"]; ["store"; "type"]; ["load"; "i32"]; ["load"; "f32"]; ["load"; "i64"]; ["load"; "f64"];
       ["store"; "i32"]; ["store"; "f32"]; ["store"; "i64"]; ["store"; "f64"]]).
    apply Forall_forall. intros s Is. apply in_map_iff in Is. destruct Is as (l & <- & Il).
    exists ("wastrumentation" :: "stack" :: l). split; [|split; reflexivity].
    repeat destruct Il as [<-|Il]; [words..|destruct Il]. }
  rewrite Forall_forall in W. destruct (W _ I) as (l & F & Hh & E). exact (P l F Hh E).
Qed.
Lemma functy_eqb_iff a b : functy_eqb a b = true <-> a = b.
Proof. apply functy_eqb_eq. Qed.
Lemma exports_nodup sigs : NoDup (exports (generate_lib sigs)).
Proof.
  rewrite exports_lib. apply nodup_app.
  - apply distinct_strs_NoDup. vm_compute. reflexivity.
  - apply nodup_flat_map.
    + apply firsts_nodup, functy_eqb_iff.
    + intros ft _. apply nodup_map; [|apply special_ops_nodup]. intros ? ? E. now apply lib_name_inj in E.
    + intros ft ft' z I I'. apply in_map_iff in I. destruct I as (o & <- & _).
      apply in_map_iff in I'. destruct I' as (o' & E & _). apply lib_name_inj in E. now destruct E.
  - intros x I I'. apply in_flat_map in I'. destruct I' as (ft & _ & I'). apply in_map_iff in I'.
    destruct I' as (o & <- & _). now apply boilerplate_not_lib in I.
Qed.

(** ** All identifiers are defined *)
Lemma defined_idl ws i : defined ws i = true <-> In i (idl ws).
Proof.
  unfold defined, idl. rewrite existsb_exists, in_flat_map. split.
  - intros (f & I & E). exists f. split; [exact I|]. unfold has_id in E. destruct (w_id f) as [j|]; [|discriminate].
    apply wid_eqb_eq in E. subst. now left.
  - intros (f & I & E). exists f. split; [exact I|]. unfold has_id. destruct (w_id f) as [j|]; [|destruct E].
    destruct E as [->|[]]. now apply wid_eqb_eq.
Qed.
Definition calls_ok (P : wid -> Prop) (f : wfn) : Prop := forall i, In (WCall i) (w_body f) -> P i.
Lemma fixed_defined sigs i : In i (idl boilerplate) -> In i (idl (generate_lib sigs)).
Proof. intros I. rewrite idl_lib. apply in_or_app. now left. Qed.
Lemma gen_defined sigs ft o : In ft sigs -> In o (gen_ops (List.length (ft_out ft)) (List.length (ft_in ft))) ->
  In (gen_id ft o) (idl (generate_lib sigs)).
Proof.
  intros I Io. rewrite idl_lib. apply in_or_app. right. apply in_flat_map. exists (ft_count ft). split.
  - apply firsts_in; [apply count_eqb_eq|]. split; [now apply in_map|intros []].
  - apply in_map_iff. now exists o.
Qed.
Ltac no_calls I := repeat first
  [ apply in_app_or in I; destruct I as [I|I]
  | apply in_flat_map in I; destruct I as ([? ?] & ? & I)
  | destruct I as [I|I] ; [try discriminate I; try (injection I as <-)|] 
  | destruct I ].
Lemma to_i64_no_call t i : ~ In (WCall i) (to_i64 t).
Proof. destruct t as [[]|[]]; simpl; intuition discriminate. Qed.
Lemma from_i64_no_call t i : ~ In (WCall i) (from_i64 t).
Proof. destruct t as [[]|[]]; simpl; intuition discriminate. Qed.

Lemma lib_calls sigs f : In f (generate_lib sigs) -> calls_ok (fun i => In i (idl (generate_lib sigs))) f.
Proof.
  intros I. unfold generate_lib in I. apply in_app_or in I. destruct I as [I|I]; [|apply in_app_or in I; destruct I as [I|I]].
  - intros i Ii. apply fixed_defined.
    assert (C : forallb (fun f => forallb (fun i => match i with WCall j => defined boilerplate j | W _ => true end) (w_body f)) boilerplate = true)
      by (vm_compute; reflexivity).
    rewrite forallb_forall in C. specialize (C f I). rewrite forallb_forall in C. specialize (C _ Ii). now apply defined_idl.
  - intros i Ii. apply fixed_defined. apply in_flat_map in I. destruct I as ([r a] & _ & I).
    assert (Bs : In IdAllocateValues (idl boilerplate) /\ In IdStore (idl boilerplate) /\ In IdLoad (idl boilerplate)
                 /\ In IdDeallocateValues (idl boilerplate)) by (vm_compute; intuition).
    destruct Bs as (B1 & B2 & B3 & B4).
    unfold generic_fns in I. repeat (apply in_app_or in I; destruct I as [I|I]).
    + destruct I as [<-|[]]. unfold allocate_generic in Ii. destruct (Nat.eqb (r + a) 0); simpl in Ii.
      * intuition discriminate.
      * destruct Ii as [Ii|[Ii|[Ii|Ii]]]; try discriminate Ii; [injection Ii as <-; exact B1|].
        apply in_app_or in Ii. destruct Ii as [Ii|[Ii|[]]]; [|discriminate Ii].
        apply in_flat_map in Ii. destruct Ii as (j & _ & Ii). simpl in Ii.
        destruct Ii as [Ii|[Ii|[Ii|[Ii|[]]]]]; try discriminate Ii. injection Ii as <-. exact B2.
    + apply in_map_iff in I. destruct I as (j & <- & _). simpl in Ii. intuition (try discriminate). now injection H as <-.
    + apply in_map_iff in I. destruct I as (j & <- & _). simpl in Ii. intuition (try discriminate). now injection H as <-.
    + apply in_map_iff in I. destruct I as (j & <- & _). simpl in Ii. intuition (try discriminate). now injection H0 as <-.
    + apply in_map_iff in I. destruct I as (j & <- & _). simpl in Ii. intuition (try discriminate). now injection H0 as <-.
    + destruct I as [<-|[]]. unfold free_generic in Ii. destruct (Nat.eqb (r + a) 0); simpl in Ii; [destruct Ii|].
      intuition (try discriminate). now injection H as <-.
  - apply in_flat_map in I. destruct I as (ft & Ift & I). apply firsts_in in Ift; [|apply functy_eqb_iff]. destruct Ift as [Ift _].
    assert (Bs : In IdAllocateTypes (idl boilerplate) /\ In IdStoreType (idl boilerplate) /\ In IdDeallocateTypes (idl boilerplate))
      by (vm_compute; intuition).
    destruct Bs as (B1 & B2 & B3).
    assert (Slot : forall s it, In it (enum (match s with SArg => ft_in ft | SRet => ft_out ft end)) ->
       In (LLoad s (fst it)) (gen_ops (List.length (ft_out ft)) (List.length (ft_in ft))) /\
       In (LStore s (fst it)) (gen_ops (List.length (ft_out ft)) (List.length (ft_in ft)))).
    { intros s it Iit. apply (in_map fst) in Iit. rewrite enum_fst in Iit. unfold gen_ops.
      destruct s; (split; repeat (apply in_or_app; first [left; apply in_map; exact Iit|right])). }
    intros i Ii. unfold special_fns in I. repeat (apply in_app_or in I; destruct I as [I|I]).
    + destruct I as [<-|[]]. simpl in Ii. apply in_app_or in Ii. destruct Ii as [Ii|[Ii|[]]].
      * apply in_flat_map in Ii. destruct Ii as (it & _ & Ii). destruct Ii as [Ii|Ii]; [discriminate Ii|].
        now apply to_i64_no_call in Ii.
      * injection Ii as <-. apply gen_defined; [exact Ift|now left].
    + apply in_map_iff in I. destruct I as (it & <- & Iit). simpl in Ii. destruct Ii as [Ii|[Ii|Ii]]; [discriminate Ii| |now apply from_i64_no_call in Ii].
      injection Ii as <-. apply gen_defined; [exact Ift|]. now apply (Slot SArg it).
    + apply in_map_iff in I. destruct I as (it & <- & Iit). simpl in Ii. destruct Ii as [Ii|[Ii|Ii]]; [discriminate Ii| |now apply from_i64_no_call in Ii].
      injection Ii as <-. apply gen_defined; [exact Ift|]. now apply (Slot SRet it).
    + apply in_map_iff in I. destruct I as (it & <- & Iit). simpl in Ii. destruct Ii as [Ii|[Ii|Ii]]; [discriminate Ii..|].
      apply in_app_or in Ii. destruct Ii as [Ii|[Ii|[]]]; [now apply to_i64_no_call in Ii|].
      injection Ii as <-. apply gen_defined; [exact Ift|]. now apply (Slot SArg it).
    + apply in_map_iff in I. destruct I as (it & <- & Iit). simpl in Ii. destruct Ii as [Ii|[Ii|Ii]]; [discriminate Ii..|].
      apply in_app_or in Ii. destruct Ii as [Ii|[Ii|[]]]; [now apply to_i64_no_call in Ii|].
      injection Ii as <-. apply gen_defined; [exact Ift|]. now apply (Slot SRet it).
    + destruct I as [<-|[<-|[<-|[<-|[]]]]].
      * simpl in Ii. apply in_flat_map in Ii. destruct Ii as (it & Iit & Ii).
        destruct Ii as [Ii|[Ii|Ii]]; [discriminate Ii..|].
        apply in_app_or in Ii. destruct Ii as [Ii|[Ii|[]]]; [now apply to_i64_no_call in Ii|].
        injection Ii as <-. apply gen_defined; [exact Ift|]. now apply (Slot SRet it).
      * apply fixed_defined. unfold allocate_types_fn in Ii. destruct (Nat.eqb _ _); simpl in Ii; [intuition discriminate|].
        destruct Ii as [Ii|[Ii|[Ii|Ii]]]; try discriminate Ii; [injection Ii as <-; exact B1|].
        apply in_app_or in Ii. destruct Ii as [Ii|[Ii|[]]]; [|discriminate Ii].
        unfold type_stores in Ii. apply in_app_or in Ii.
        destruct Ii as [Ii|Ii]; apply in_flat_map in Ii; destruct Ii as (it & _ & Ii); simpl in Ii;
          destruct Ii as [Ii|[Ii|[Ii|[Ii|[]]]]]; try discriminate Ii; injection Ii as <-; exact B2.
      * apply fixed_defined. unfold free_types_fn in Ii. destruct (Nat.eqb _ _); simpl in Ii; [destruct Ii|].
        destruct Ii as [Ii|[Ii|[Ii|[]]]]; try discriminate Ii. injection Ii as <-. exact B3.
      * simpl in Ii. destruct Ii as [Ii|[Ii|[]]]; [discriminate Ii|]. injection Ii as <-.
        apply gen_defined; [exact Ift|]. unfold gen_ops. repeat (apply in_or_app; right). now left.
Qed.

Lemma assemble_lib sigs : assemble (generate_lib sigs)
  = Some (map (resolve_fn (index_of (generate_lib sigs))) (generate_lib sigs)).
Proof.
  unfold assemble. rewrite (proj2 (distinct_strs_NoDup _) (exports_nodup sigs)).
  rewrite ids_map, (proj2 (distinct_strs_NoDup _) (nodup_map _ wid_str_inj (idl_nodup sigs))).
  replace (forallb _ (generate_lib sigs)) with true; [reflexivity|]. symmetry.
  apply forallb_forall. intros f If. apply forallb_forall. intros [l|j] Ij; [reflexivity|].
  apply defined_idl. exact (@lib_calls sigs f If _ Ij).
Qed.

(** ** Finding functions *)
Lemma index_of_nth ws i f : NoDup (idl ws) -> In f ws -> w_id f = Some i -> nth_error ws (index_of ws i) = Some f.
Proof.
  induction ws as [|g ws IH]; intros N I E; [destruct I|]. simpl. unfold has_id at 1.
  destruct (w_id g) as [j|] eqn:Eg.
  - simpl in N. rewrite Eg in N. simpl in N. apply NoDup_cons_iff in N. destruct N as [N N'].
    destruct (wid_eqb i j) eqn:Q.
    + apply wid_eqb_eq in Q. subst j. destruct I as [->|I]; [reflexivity|]. exfalso. apply N.
      apply in_flat_map. exists f. rewrite E. split; [exact I|now left].
    + destruct I as [->|I]; [|simpl; auto]. rewrite E in Eg. injection Eg as ->.
      assert (wid_eqb j j = true) by now apply wid_eqb_eq. congruence.
  - simpl in N. rewrite Eg in N. destruct I as [->|I]; [congruence|]. simpl. auto.
Qed.
Lemma export_nth at_ ws e f n : NoDup (exports ws) -> In f ws -> w_export f = Some e ->
  exists k, export_index n (map (resolve_fn at_) ws) e = Some (n + k) /\ nth_error ws k = Some f.
Proof.
  revert n. induction ws as [|g ws IH]; intros n N I E; [destruct I|]. cbn [map export_index resolve_fn fn_exports].
  cbn [exports flat_map] in N. destruct (w_export g) as [e'|] eqn:Eg.
  - cbn [app] in N. apply NoDup_cons_iff in N. destruct N as [N N']. cbn [existsb]. rewrite orb_false_r.
    destruct (String.eqb_spec e e') as [<-|D].
    + exists 0. rewrite Nat.add_0_r. split; [reflexivity|]. destruct I as [->|I]; [reflexivity|]. exfalso. apply N.
      apply in_flat_map. exists f. rewrite E. split; [exact I|now left].
    + destruct I as [->|I]; [congruence|]. destruct (IH (S n) N' I E) as (k & A & B).
      exists (S k). rewrite A. split; [f_equal; lia|exact B].
  - destruct I as [->|I]; [congruence|]. destruct (IH (S n) N I E) as (k & A & B).
    exists (S k). cbn [existsb]. rewrite A. split; [f_equal; lia|exact B].
Qed.
