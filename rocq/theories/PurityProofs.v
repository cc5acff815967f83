(** Proofs for C31-C33. *)
From Coq Require Import Permutation.
From Verif Require Import Nesting NestingSpec NestingProofs Purity PuritySpec.

(** ** [is_pure] against the flat code *)
Lemma scan_app {I} (f : I -> option estimate) a b :
  scan f (a ++ b) = match scan f a with Some EPure => scan f b | e => e end.
Proof. induction a as [|x a IH]; simpl; [reflexivity|]. destruct (f x) as [[]|]; auto. Qed.

Definition flat_estimate (idx : nat) (ts : list target) (i : low) : option estimate :=
  match i with LBasic b => is_pure_basic idx ts b | _ => Some EPure end.

Lemma is_pure_flat idx ts b : is_pure idx b ts = scan (flat_estimate idx ts) (flat b).
Proof.
  unfold is_pure, flat.
  induction b as [|m b r IHr|m ft body r IHb IHr|m ft body r IHb IHr|m ft thn r IHb IHr|m ft thn els r IHb IHe IHr]
    using tbody_ind; cbn [scan flat_map flat1 is_pure1 app].
  - reflexivity.
  - cbn [scan flat_estimate]. destruct (is_pure_basic idx ts b) as [[]|]; auto.
  - rewrite <- app_assoc. cbn [scan flat_estimate]. rewrite scan_app, <- IHb.
    destruct (scan (is_pure1 idx ts) body) as [[]|]; auto.
  - rewrite <- app_assoc. cbn [scan flat_estimate]. rewrite scan_app, <- IHb.
    destruct (scan (is_pure1 idx ts) body) as [[]|]; auto.
  - rewrite <- app_assoc. cbn [scan flat_estimate]. rewrite scan_app, <- IHb.
    destruct (scan (is_pure1 idx ts) thn) as [[]|]; auto.
  - rewrite <- app_assoc. cbn [scan flat_estimate]. rewrite scan_app, <- IHb.
    destruct (scan (is_pure1 idx ts) thn) as [[]|]; auto.
    cbn [app scan flat_estimate]. rewrite <- app_assoc, scan_app, <- IHe.
    destruct (scan (is_pure1 idx ts) els) as [[]|]; auto.
Qed.

Lemma scan_pure {I} (f : I -> option estimate) l :
  scan f l = Some EPure <-> (forall i, In i l -> f i = Some EPure).
Proof.
  induction l as [|x l IH]; simpl.
  - split; [intros _ i []|reflexivity].
  - destruct (f x) as [[]|] eqn:E; try (split; [discriminate|intros H; rewrite (H x) in E by auto; discriminate]).
    rewrite IH. split.
    + intros H i [<-|Hi]; auto.
    + auto.
Qed.
Lemma scan_other {I} (f : I -> option estimate) l e :
  scan f l = e -> e <> Some EPure -> exists i, In i l /\ f i = e.
Proof.
  induction l as [|x l IH]; simpl; [congruence|].
  destruct (f x) as [[]|] eqn:E; intros H Hne; try (exists x; split; [auto|congruence]).
  destruct (IH H Hne) as (i & Hi & Hf). exists i. auto.
Qed.

Lemma find_target_in ts f p : find_target ts f = Some p -> In (AT f p) ts.
Proof.
  induction ts as [|[i q] ts IH]; simpl; [discriminate|].
  destruct (Nat.eqb_spec i f) as [->|]; [intros H; injection H as ->; auto|auto].
Qed.
Lemma find_target_some ts f : In f (map at_index ts) -> find_target ts f <> None.
Proof.
  induction ts as [|[i q] ts IH]; simpl; [intros []|].
  destruct (Nat.eqb_spec i f); [discriminate|]. intros [|]; [easy|auto].
Qed.

(** ** Invariant of the rounds *)
Section Rounds.
  Variable m : module.

  (** The least set closed under the rules. *)
  Inductive pure_fn : nat -> Prop :=
  | pure_intro f fn locals code :
      nth_error (md_funcs m) f = Some fn -> fn_code fn = FPresent locals code ->
      (forall b, In (LBasic b) code -> stateful b = false) ->
      (forall g, In (LBasic (BCall g)) code -> g <> f -> pure_fn g) -> pure_fn f.

  Lemma pure_fn_least f : pure_fn f <-> (forall P, closed_under_rules m P -> P f).
  Proof.
    split.
    - intros H P HP. induction H as [f fn locals code Hn Hc Hs Hg IH].
      apply HP. exists fn, locals, code. auto.
    - intros H. apply H. intros g (fn & locals & code & Hn & Hc & Hs & Hg).
      eapply pure_intro; eauto.
  Qed.

  (** Calls go to functions of the module. *)
  Definition calls_exist : Prop := forall f fn locals code g,
    nth_error (md_funcs m) f = Some fn -> fn_code fn = FPresent locals code ->
    In (LBasic (BCall g)) code -> g < List.length (md_funcs m).

  Definition target_ok (t : target) : Prop :=
    match at_purity t with
    | PPure => pure_fn (at_index t)
    | PImpure => ~ pure_fn (at_index t)
    | PUnknown body => exists fn locals code,
        nth_error (md_funcs m) (at_index t) = Some fn /\ fn_code fn = FPresent locals code /\
        flatten body = code
    end.
  Record good (ts : list target) : Prop := Good {
    g_ok : Forall target_ok ts;
    g_all : forall f, f < List.length (md_funcs m) -> In f (map at_index ts) }.

  Lemma in_flatten b body : In (LBasic b) (flatten body) <-> In (LBasic b) (flat body).
  Proof.
    unfold flatten. rewrite in_app_iff. split; [intros [|[|[]]]; [auto|discriminate]|auto].
  Qed.

  Lemma basic_pure idx ts b : is_pure_basic idx ts b = Some EPure ->
    stateful b = false /\
    (forall g, b = BCall g -> g <> idx -> find_target ts g = Some PPure).
  Proof.
    destruct b; simpl; intros H; try discriminate H; split; try reflexivity; try discriminate.
    intros g E Hg. injection E as ->. destruct (Nat.eqb_spec idx g); [congruence|].
    destruct (find_target ts g) as [[]|]; try discriminate H. reflexivity.
  Qed.
  Lemma pure_basic idx ts b : stateful b = false ->
    (forall g, b = BCall g -> g <> idx -> find_target ts g = Some PPure) ->
    is_pure_basic idx ts b = Some EPure.
  Proof.
    destruct b; simpl; intros H Hg; try discriminate H; try reflexivity.
    destruct (Nat.eqb_spec idx f); [reflexivity|]. rewrite (Hg f) by congruence. reflexivity.
  Qed.

  Lemma judge_spec ts t t' : good ts -> target_ok t -> judge ts t = Some t' ->
    target_ok t' /\ at_index t' = at_index t /\ (t' = t \/ (exists b, at_purity t = PUnknown b) /\
      (at_purity t' = PPure \/ at_purity t' = PImpure)).
  Proof.
    intros G T. unfold judge. destruct (at_purity t) as [body| |] eqn:E.
    2,3: intros H; injection H as <-; auto.
    unfold target_ok in T. rewrite E in T. destruct T as (fn & locals & code & Hn & Hc & Hf).
    destruct (is_pure (at_index t) body ts) as [[]|] eqn:J; intros H; try discriminate H; injection H as <-.
    - split; [|auto]. unfold target_ok. rewrite E. eauto 6.
    - split; [|simpl; split; [reflexivity|right; eauto]]. unfold target_ok. simpl.
      rewrite is_pure_flat, scan_pure in J.
      apply pure_intro with fn locals code; auto; intros b Hb; rewrite <- Hf in Hb.
      + apply in_flatten in Hb. specialize (J _ Hb). apply basic_pure in J. tauto.
      + apply in_flatten in Hb. specialize (J _ Hb). simpl in J. intros Hne.
        destruct (Nat.eqb_spec (at_index t) b); [congruence|].
        destruct (find_target ts b) as [[]|] eqn:Ft; try discriminate J.
        apply find_target_in in Ft. pose proof (proj1 (Forall_forall _ _) (g_ok G) _ Ft) as T.
        exact T.
    - split; [|simpl; split; [reflexivity|right; eauto]]. unfold target_ok. simpl. intros P.
      rewrite is_pure_flat in J. apply scan_other in J; [|discriminate].
      destruct J as (i & Hi & He). destruct i; try discriminate He. simpl in He.
      inversion P as [f fn' locals' code' Hn' Hc' Hs' Hg' Ef]; subst f.
      assert (code' = code) by congruence. subst code'. rewrite <- Hf in Hs', Hg'.
      apply in_flatten in Hi. pose proof (Hs' _ Hi) as Hs.
      destruct b; simpl in He, Hs; try discriminate.
      destruct (Nat.eqb_spec (at_index t) f); [discriminate|].
      destruct (find_target ts f) as [[]|] eqn:Ft; try discriminate He.
      apply find_target_in in Ft. pose proof (proj1 (Forall_forall _ _) (g_ok G) _ Ft) as T.
      apply T. apply Hg'; auto.
  Qed.

  Lemma all_some_forall2 {A} (l : list (option A)) xs :
    all_some l = Some xs <-> Forall2 (fun o x => o = Some x) l xs.
  Proof.
    revert xs. induction l as [|[x|] l IH]; simpl; intros xs.
    - split; [intros H; injection H as <-; constructor|]. intros H; inversion H; reflexivity.
    - destruct (all_some l) as [ys|].
      + split.
        * intros H; injection H as <-. constructor; [reflexivity|]. now apply IH.
        * intros H; inversion H; subst. injection H2 as ->. apply IH in H4. congruence.
      + split; [discriminate|]. intros H; inversion H; subst. apply IH in H4. discriminate.
    - split; [discriminate|]. intros H; inversion H; discriminate.
  Qed.

  Lemma round_forall2 ts ts' : round ts = Some ts' -> Forall2 (fun t t' => judge ts t = Some t') ts ts'.
  Proof.
    unfold round. rewrite all_some_forall2.
    assert (A : forall l l', Forall2 (fun o x => o = Some x) (map (judge ts) l) l' ->
      Forall2 (fun t t' => judge ts t = Some t') l l'); [|apply A].
    induction l as [|t l IH]; simpl; intros l' H; inversion H; subst; constructor; auto.
  Qed.

  Lemma round_good ts ts' : good ts -> round ts = Some ts' ->
    good ts' /\ map at_index ts' = map at_index ts.
  Proof.
    intros G H. apply round_forall2 in H.
    assert (A : Forall target_ok ts' /\ map at_index ts' = map at_index ts).
    { pose proof (g_ok G) as T. revert T.
      assert (B : forall l l', Forall2 (fun t t' => judge ts t = Some t') l l' -> Forall target_ok l ->
        Forall target_ok l' /\ map at_index l' = map at_index l); [|now apply B].
      induction 1 as [|t t' l l' J F IH]; simpl.
      - auto.
      - intros T. inversion T as [|x y Tt Tl]; subst. destruct (IH Tl) as [T3 T4].
        destruct (@judge_spec ts t t' G Tt J) as (K1 & K2 & _). split; [constructor; auto|congruence]. }
    destruct A as [A1 A2]. split; [|exact A2]. constructor; [exact A1|].
    intros f Hf. rewrite A2. now apply (g_all G).
  Qed.

  Lemma round_some ts : calls_exist -> good ts -> round ts <> None.
  Proof.
    intros C G. unfold round.
    assert (A : forall l, (forall t, In t l -> In t ts) -> all_some (map (judge ts) l) <> None).
    { induction l as [|t l IH]; simpl; [discriminate|]. intros Hin.
      assert (J : judge ts t <> None).
      { unfold judge. pose proof (proj1 (Forall_forall _ _) (g_ok G) t (Hin t (or_introl eq_refl))) as T.
        unfold target_ok in T. destruct (at_purity t) as [body| |]; try discriminate.
        destruct T as (fn & locals & code & Hn & Hc & Hf).
        assert (is_pure (at_index t) body ts <> None); [|destruct (is_pure _ _ _) as [[]|]; congruence].
        intros N. rewrite is_pure_flat in N. apply scan_other in N; [|discriminate].
        destruct N as (i & Hi & He). destruct i; try discriminate He. simpl in He.
        apply in_flatten in Hi. rewrite Hf in Hi.
        destruct b; simpl in He; try discriminate He.
        destruct (Nat.eqb (at_index t) f); [discriminate|].
        assert (Hlt : f < List.length (md_funcs m)) by (eapply C; eauto).
        apply (g_all G), find_target_some in Hlt.
        destruct (find_target ts f) as [[]|]; congruence. }
      destruct (judge ts t); [|congruence].
      specialize (IH (fun t Ht => Hin t (or_intror Ht))).
      destruct (all_some _); congruence. }
    apply A. auto.
  Qed.

  (** ** Termination *)
  Definition unknowns (ts : list target) : nat :=
    List.length (filter (fun t => match at_purity t with PUnknown _ => true | _ => false end) ts).

  Lemma judge_keeps ts t t' : judge ts t = Some t' ->
    t' = t \/ ((exists b, at_purity t = PUnknown b) /\ (at_purity t' = PPure \/ at_purity t' = PImpure)).
  Proof.
    unfold judge. destruct (at_purity t) eqn:E; try (intros H; injection H as <-; auto).
    destruct (is_pure _ _ _) as [[]|]; intros H; try discriminate; injection H as <-; simpl; eauto.
  Qed.

  Lemma round_progress ts l l' : Forall2 (fun t t' => judge ts t = Some t') l l' ->
    unknowns l' <= unknowns l /\
    (no_more_findings l l' = false -> unknowns l' < unknowns l) /\
    (no_more_findings l l' = true -> l' = l).
  Proof.
    unfold no_more_findings. induction 1 as [|t t' l l' J F IH]; simpl.
    - repeat split; try lia; discriminate.
    - destruct IH as (H1 & H2 & H3). apply judge_keeps in J. unfold unknowns in *. simpl.
      destruct J as [->|[[b Hb] Hd]].
      + assert (E : estimate_eqb (estimate_of t) (estimate_of t) = true) by (destruct (estimate_of t); reflexivity).
        rewrite E. simpl. destruct (at_purity t); simpl; (split; [lia|split]); intros H;
          try (apply H2 in H; lia); apply H3 in H; congruence.
      + assert (E : estimate_eqb (estimate_of t) (estimate_of t') = false).
        { unfold estimate_of. rewrite Hb. destruct Hd as [-> | ->]; reflexivity. }
        rewrite E, Hb. simpl. destruct Hd as [-> | ->]; simpl; (split; [lia|split]); intros; try lia; discriminate.
  Qed.

  Lemma iterate_stops k : forall ts, unknowns ts < k ->
    match iterate k ts with
    | Finished n _ => n <= S (unknowns ts)
    | Panicked => True
    | Running => False
    end.
  Proof.
    induction k as [|k IH]; intros ts H; [lia|]. simpl.
    destruct (round ts) as [ts'|] eqn:R; [|exact I].
    apply round_forall2, round_progress in R. destruct R as (H1 & H2 & _).
    destruct (no_more_findings ts ts') eqn:N; [lia|].
    specialize (H2 eq_refl). specialize (IH ts' ltac:(lia)).
    destruct (iterate k ts'); auto. lia.
  Qed.

  (** More rounds change nothing once finished. *)
  Lemma iterate_more k : forall ts j, k <= j -> iterate k ts <> Running -> iterate j ts = iterate k ts.
  Proof.
    induction k as [|k IH]; intros ts j Hj H; [now destruct H|].
    destruct j as [|j]; [lia|]. simpl in *. destruct (round ts) as [ts'|]; [|reflexivity].
    destruct (no_more_findings ts ts'); [reflexivity|].
    rewrite (IH ts' j) by (try lia; destruct (iterate k ts'); congruence). reflexivity.
  Qed.

  Lemma iterate_finished k : forall ts n ts', good ts -> iterate k ts = Finished n ts' ->
    good ts' /\ round ts' = Some ts' /\ map at_index ts' = map at_index ts.
  Proof.
    induction k as [|k IH]; intros ts n ts' G H; [discriminate|]. simpl in H.
    destruct (round ts) as [ts1|] eqn:R; [|discriminate].
    destruct (round_good G R) as [G1 E1].
    pose proof (@round_progress ts ts ts1 (round_forall2 _ R)) as (_ & _ & Hs).
    destruct (no_more_findings ts ts1) eqn:N.
    - injection H as <- <-. rewrite (Hs eq_refl) in *. auto.
    - destruct (iterate k ts1) as [n1 r| |] eqn:It; try discriminate. injection H as <- <-.
      destruct (IH _ _ _ G1 It) as (A & B & C). repeat split; try apply A; congruence.
  Qed.

  Lemma iterate_no_panic k : calls_exist -> forall ts, good ts -> iterate k ts <> Panicked.
  Proof.
    intros C. induction k as [|k IH]; intros ts G; [discriminate|]. simpl.
    destruct (round ts) as [ts1|] eqn:R; [|now apply round_some in R].
    destruct (round_good G R) as [G1 _]. destruct (no_more_findings ts ts1); [discriminate|].
    specialize (IH _ G1). destruct (iterate k ts1); congruence.
  Qed.

  (** ** The reported set *)
  Lemma stable_complete ts : good ts -> round ts = Some ts ->
    forall f, pure_fn f -> forall p, In (AT f p) ts -> p = PPure.
  Proof.
    intros G R f P. induction P as [f fn locals code Hn Hc Hs Hg IH]. intros p Hp.
    assert (Pf : pure_fn f) by (eapply pure_intro; eauto).
    pose proof (proj1 (Forall_forall _ _) (g_ok G) _ Hp) as T. unfold target_ok in T. simpl in T.
    destruct p as [body| |]; [|reflexivity|now apply T in Pf].
    exfalso. destruct T as (fn' & locals' & code' & Hn' & Hc' & Hf).
    assert (Ec : code' = code) by congruence. rewrite Ec in Hf.
    assert (J : is_pure f body ts = Some EPure).
    { rewrite is_pure_flat, scan_pure. intros i Hi. destruct i; try reflexivity. simpl.
      apply in_flatten in Hi. rewrite Hf in Hi.
      apply pure_basic; [now apply Hs|]. intros g -> Hne.
      assert (In g (map at_index ts)).
      { specialize (Hg g Hi Hne). inversion Hg; subst. apply (g_all G). apply nth_error_Some. congruence. }
      apply find_target_some in H. destruct (find_target ts g) as [q|] eqn:Q; [|congruence].
      apply find_target_in in Q. f_equal. eapply IH; eauto. }
    apply round_forall2 in R.
    assert (K : forall l l', Forall2 (fun t t' => judge ts t = Some t') l l' ->
      In (AT f (PUnknown body)) l -> exists t', In t' l' /\ judge ts (AT f (PUnknown body)) = Some t' /\ True).
    { induction 1 as [|t t' l l' Jt F IHF]; simpl; [intros []|].
      intros [->|Hin]; [eauto|]. destruct (IHF Hin) as (t2 & ? & ? & _). eauto. }
    assert (L : forall l l', Forall2 (fun t t' => judge ts t = Some t') l l' -> l = l' ->
      In (AT f (PUnknown body)) l -> judge ts (AT f (PUnknown body)) = Some (AT f (PUnknown body))).
    { induction 1 as [|t t' l l' Jt F IHF]; simpl; [intros _ []|].
      intros E. injection E as -> ->. intros [->|Hin]; auto. }
    specialize (L ts ts R eq_refl Hp). unfold judge in L. simpl in L. rewrite J in L. discriminate.
  Qed.

  Lemma reported_pure ts : good ts -> round ts = Some ts ->
    forall f, In f (reported ts) <-> pure_fn f.
  Proof.
    intros G R f. unfold reported. rewrite in_map_iff. split.
    - intros (t & <- & Ht). apply filter_In in Ht. destruct Ht as [Hin Hp].
      pose proof (proj1 (Forall_forall _ _) (g_ok G) _ Hin) as T. unfold target_ok in T.
      destruct (at_purity t); try discriminate. exact T.
    - intros P. assert (In f (map at_index ts)).
      { inversion P; subst. apply (g_all G), nth_error_Some. congruence. }
      apply in_map_iff in H. destruct H as ([i p] & E & Hin). simpl in E. subst i.
      pose proof (stable_complete G R P _ Hin) as ->. exists (AT f PPure). split; [reflexivity|].
      apply filter_In. auto.
  Qed.

  (** ** The initial targets *)
  Variable infer : nat -> list low -> option (list ity).
  Hypothesis oracle : forall f, same_length_oracle (infer f).

  Lemma initial_from_good fs : forall k ts,
    (forall i fn, nth_error fs i = Some fn -> nth_error (md_funcs m) (k + i) = Some fn) ->
    all_some (initial_from infer k fs) = Some ts ->
    Forall target_ok ts /\ map at_index ts = seq k (List.length fs).
  Proof.
    induction fs as [|fn fs IH]; simpl; intros k ts Hm H.
    - injection H as <-. auto.
    - unfold initial_target in H at 1. specialize (IH (S k)).
      assert (Hm' : forall i fn, nth_error fs i = Some fn -> nth_error (md_funcs m) (S k + i) = Some fn).
      { intros i fn' Hi. rewrite <- (Hm (S i) fn' Hi). f_equal. lia. }
      pose proof (Hm 0 fn eq_refl) as H0. rewrite Nat.add_0_r in H0.
      destruct (fn_code fn) as [ns nm|locals code] eqn:C.
      + destruct (all_some (initial_from infer (S k) fs)) as [r|]; [|discriminate]. injection H as <-.
        destruct (IH _ Hm' eq_refl) as [A B]. split; [constructor; [|exact A]|simpl; congruence].
        unfold target_ok. simpl. intros P. inversion P; subst. congruence.
      + destruct (structure_typed k (infer k) code) as [body| |] eqn:Es; try discriminate.
        destruct (all_some (initial_from infer (S k) fs)) as [r|]; [|discriminate]. injection H as <-.
        destruct (IH _ Hm' eq_refl) as [A B]. split; [constructor; [|exact A]|simpl; congruence].
        unfold target_ok. simpl. exists fn, locals, code. repeat split; auto.
        eapply typed_flatten_structure; eauto.
  Qed.

  Lemma initial_good ts : initial infer m = Some ts ->
    good ts /\ map at_index ts = seq 0 (List.length (md_funcs m)).
  Proof.
    intros H. destruct (@initial_from_good (md_funcs m) 0 ts) as [A B]; auto.
    split; [|exact B]. constructor; [exact A|]. intros f Hf. rewrite B. apply in_seq. lia.
  Qed.

  Lemma unknowns_le ts : unknowns ts <= List.length ts.
  Proof.
    unfold unknowns. induction ts as [|t ts IH]; simpl; [lia|].
    destruct (at_purity t); simpl; lia.
  Qed.
  Lemma initial_unknowns ts : initial infer m = Some ts -> unknowns ts <= List.length (md_funcs m).
  Proof.
    intros H. apply initial_good in H. destruct H as [_ H].
    apply (f_equal (@List.length nat)) in H. rewrite map_length, seq_length in H.
    rewrite <- H. apply unknowns_le.
  Qed.
End Rounds.

Lemma good_permutation m ts ts' : good m ts -> Permutation ts ts' -> good m ts'.
Proof.
  intros [A B] P. constructor.
  - apply Forall_forall. intros t Ht. apply (proj1 (Forall_forall _ _) A).
    eapply Permutation_in; [apply Permutation_sym; exact P|exact Ht].
  - intros f Hf. eapply Permutation_in; [apply Permutation_map; exact P|auto].
Qed.

(** ** Execution of pure functions *)
Section Sound.
  Context {X Y : Type}.
  Variable num1 : unop -> Z -> option Z.
  Variable num2 : binop -> Z -> Z -> option Z.
  Variable ftype : nat -> option functy.
  Variable s1 : store X.
  Variable s2 : store Y.

  Lemma indifferent_bind {A B} (r1 : res (store X) (A * store X)) (r2 : res (store Y) (A * store Y))
      (k1 : A * store X -> res (store X) (B * store X)) (k2 : A * store Y -> res (store Y) (B * store Y)) :
    indifferent s1 s2 r1 r2 -> (forall a, indifferent s1 s2 (k1 (a, s1)) (k2 (a, s2))) ->
    indifferent s1 s2 (rbind r1 k1) (rbind r2 k2).
  Proof.
    destruct r1 as [[a1 t1]| | |], r2 as [[a2 t2]| | |]; simpl; try tauto.
    intros (-> & -> & ->) H. apply H.
  Qed.
  (** The part of a step that does not look at the store. *)
  Lemma indifferent_pre {A B} (p1 : res (store X) A) (p2 : res (store Y) A) k1 k2 :
    match p1, p2 with Ok a, Ok b => a = b | Stuck, Stuck => True | _, _ => False end ->
    (forall a, @indifferent X Y B s1 s2 (k1 a) (k2 a)) ->
    indifferent s1 s2 (rbind p1 k1) (rbind p2 k2).
  Proof. destruct p1, p2; simpl; try tauto. intros -> H. apply H. Qed.

  Variable call1 : nat -> list val -> store X -> res (store X) (list val * store X).
  Variable call2 : nat -> list val -> store Y -> res (store Y) (list val * store Y).
  Variable loops : nat.
  Variable callees : nat -> Prop.
  Hypothesis calls : forall g args, callees g -> indifferent s1 s2 (call1 g args s1) (call2 g args s2).

  Definition confdiff (r1 : res (store X) (@conf X)) (r2 : res (store Y) (@conf Y)) : Prop :=
    indifferent s1 s2 r1 r2.

  Lemma exec_indifferent b st ls : stateful b = false -> (forall g, b = BCall g -> callees g) ->
    confdiff (exec num1 num2 ftype call1 b st ls s1) (exec num1 num2 ftype call2 b st ls s2).
  Proof.
    unfold confdiff.
    intros Hs Hc.
    assert (K : (exists f, b = BCall f) \/ (forall f, b <> BCall f))
      by (destruct b; (left; eexists; reflexivity) || (right; discriminate)).
    destruct K as [[f ->]|K].
    - simpl. destruct (ftype f) as [ft|]; simpl; auto. unfold do_call.
      destruct (popn (List.length (ft_in ft)) st) as [[args st']|]; simpl; auto.
      apply indifferent_bind; [apply calls; auto|]. intros a. simpl. auto.
    - destruct b; try discriminate Hs; try (now destruct (K f)); clear Hc K; simpl; auto;
      try (apply indifferent_pre;
           [destruct st as [|[[]|] ?]; simpl; auto | intros [? ?]; simpl]);
      repeat first
        [ reflexivity | exact I | (split; [reflexivity|split; reflexivity]) | (split; reflexivity)
        | match goal with |- context [match ?x with _ => _ end] => destruct x; simpl; auto end ].
      destruct (nth_error ls i); simpl; auto.
  Qed.

  Section Bodies.
    Variable body1 : list val -> list val -> store X -> res (store X) (@conf X).
    Variable body2 : list val -> list val -> store Y -> res (store Y) (@conf Y).
    Hypothesis bodies : forall st ls, confdiff (body1 st ls s1) (body2 st ls s2).

    Lemma run_block_indifferent ft st ls :
      confdiff (run_block body1 ft st ls s1) (run_block body2 ft st ls s2).
    Proof.
      unfold confdiff, run_block. destruct (popn _ st) as [[ps rest]|]; simpl; auto.
      apply indifferent_bind; [apply bodies|]. intros [[o st'] ls']. simpl.
      destruct o as [|[|l]|]; simpl; auto.
      destruct (popn _ st') as [[rs r']|]; simpl; auto.
    Qed.
    Lemma run_iter_indifferent k nin rest : forall ps ls,
      confdiff (run_iter body1 k nin rest ps ls s1) (run_iter body2 k nin rest ps ls s2).
    Proof.
      unfold confdiff. induction k as [|k IH]; intros ps ls; simpl; auto.
      apply indifferent_bind; [apply bodies|]. intros [[o st'] ls']. simpl.
      destruct o as [|[|l]|]; simpl; auto.
      destruct (popn _ st') as [[rs r']|]; simpl; auto.
    Qed.
    Lemma run_loop_indifferent ft st ls :
      confdiff (run_loop loops body1 ft st ls s1) (run_loop loops body2 ft st ls s2).
    Proof.
      unfold confdiff, run_loop. destruct (popn _ st) as [[ps rest]|]; simpl; auto.
      apply run_iter_indifferent.
    Qed.
  End Bodies.

  (** Code without stateful instructions whose calls go to [callees]. *)
  Definition stateless (code : list low) : Prop :=
    forall b, In (LBasic b) code -> stateful b = false /\ (forall g, b = BCall g -> callees g).

  Lemma run_indifferent b : stateless (uflat b) -> forall st ls,
    confdiff (run num1 num2 ftype call1 loops b st ls s1) (run num1 num2 ftype call2 loops b st ls s2).
  Proof.
    assert (Seq : forall i r,
      (forall st ls, confdiff (run1 num1 num2 ftype call1 loops i st ls s1) (run1 num1 num2 ftype call2 loops i st ls s2)) ->
      (forall st ls, confdiff (run num1 num2 ftype call1 loops r st ls s1) (run num1 num2 ftype call2 loops r st ls s2)) ->
      forall st ls, confdiff (run num1 num2 ftype call1 loops (i :: r) st ls s1) (run num1 num2 ftype call2 loops (i :: r) st ls s2)).
    { intros i r Hi Hr st ls. unfold confdiff, run. simpl. unfold andthen.
      apply indifferent_bind; [apply Hi|]. intros [[o st'] ls']. destruct o; simpl; auto. apply Hr. }
    unfold stateless, uflat.
    induction b as [|b r IHr|ft body r IHb IHr|ft body r IHb IHr|ft thn r IHb IHr|ft thn els r IHb IHe IHr]
      using ubody_ind; intros H.
    - intros st ls. unfold confdiff, run. simpl. auto.
    - apply Seq.
      + intros st ls. apply exec_indifferent; apply (H b); left; reflexivity.
      + apply IHr. intros x Hx. apply H. simpl. auto.
    - simpl in H. apply Seq.
      + intros st ls. apply run_block_indifferent. apply IHb. intros x Hx. apply H.
        right. rewrite !in_app_iff. auto.
      + apply IHr. intros x Hx. apply H. right. rewrite !in_app_iff. auto.
    - simpl in H. apply Seq.
      + intros st ls. apply run_loop_indifferent. apply IHb. intros x Hx. apply H.
        right. rewrite !in_app_iff. auto.
      + apply IHr. intros x Hx. apply H. right. rewrite !in_app_iff. auto.
    - simpl in H. apply Seq.
      + intros st ls. unfold confdiff. cbn [run1]. apply indifferent_pre.
        * destruct st as [|[[]|] ?]; simpl; auto.
        * intros [c st']. destruct (c =? 0)%Z.
          -- apply run_block_indifferent. intros st0 ls0. unfold confdiff. simpl. auto.
          -- apply run_block_indifferent. apply IHb. intros x Hx. apply H.
             right. rewrite !in_app_iff. auto.
      + apply IHr. intros x Hx. apply H. right. rewrite !in_app_iff. auto.
    - simpl in H. apply Seq.
      + intros st ls. unfold confdiff. cbn [run1]. apply indifferent_pre.
        * destruct st as [|[[]|] ?]; simpl; auto.
        * intros [c st']. destruct (c =? 0)%Z.
          -- apply run_block_indifferent. apply IHe. intros x Hx. apply H.
             right. rewrite !in_app_iff. simpl. rewrite !in_app_iff. auto.
          -- apply run_block_indifferent. apply IHb. intros x Hx. apply H.
             right. rewrite !in_app_iff. auto.
      + apply IHr. intros x Hx. apply H. right. rewrite !in_app_iff. auto.
  Qed.

  Lemma invoke_indifferent b ft locals args : stateless (uflat b) ->
    indifferent s1 s2 (invoke (run num1 num2 ftype call1 loops b) ft locals args s1)
                      (invoke (run num1 num2 ftype call2 loops b) ft locals args s2).
  Proof.
    intros H. unfold invoke. apply indifferent_bind; [now apply run_indifferent|].
    intros [[o st'] ls']. simpl. destruct (popn _ st') as [[rs rest]|]; simpl; auto.
    destruct o as [|[|l]|]; simpl; auto. destruct rest; simpl; auto.
  Qed.
End Sound.

Lemma pure_calls {X Y} num1 num2 ext1 ext2 m n : forall f args (s1 : store X) (s2 : store Y),
  pure_fn m f ->
  indifferent s1 s2 (call_fn num1 num2 ext1 (md_funcs m) n f args s1)
                    (call_fn num1 num2 ext2 (md_funcs m) n f args s2).
Proof.
  induction n as [|n IH]; intros f args s1 s2 P; [exact I|]. cbn [call_fn].
  inversion P as [f' fn locals code Hn Hc Hs Hg Ef]; subst f'. rewrite Hn. simpl.
  destruct (Nat.eqb _ _); [|exact I]. rewrite Hc.
  destruct (structure_untyped code) as [b| |] eqn:Es; [|exact I|exact I].
  apply flatten_structure_untyped in Es.
  apply invoke_indifferent with (callees := pure_fn m).
  - intros g args' Pg. apply IH, Pg.
  - intros x Hx. assert (Hx' : In (LBasic x) code).
    { rewrite <- Es. unfold uflatten. apply in_app_iff. auto. }
    split; [now apply Hs|]. intros g ->. destruct (Nat.eq_dec g f) as [->|Hne]; [exact P|].
    now apply Hg.
Qed.
