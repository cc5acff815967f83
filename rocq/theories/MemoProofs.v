(** Simulation of intercepted calls under the memoizing analysis (towards C34). *)
From Verif Require Import Semantics Advice RsStdlib StackLib StackNames StackRun StackOps StackSpec StackHist System
  SystemProofs AccessProofs SpecProofs Trace TraceProofs RunLemmas NestingSpec NestingProofs
  Typing TypingProofs AdvisedTyping ModuleTyping PropInstrument PropStdlib ForwardRel ForwardBody OwnProofs
  PuritySpec Fuel Analyses Memo.
Local Open Scope string_scope.
Local Open Scope list_scope.
Local Open Scope res_scope.

(** ** Keys *)
Lemma list_eqb_eq' {A} (eqb : A -> A -> bool) : (forall a b, eqb a b = true <-> a = b) ->
  forall a b, list_eqb eqb a b = true <-> a = b.
Proof.
  intros H. induction a as [|x a IH]; intros [|y b]; cbn [list_eqb]; split; intros E; try discriminate; try reflexivity.
  - apply andb_true_iff in E as [E1 E2]. apply H in E1. apply IH in E2. congruence.
  - injection E as -> ->. apply andb_true_iff. split; [now apply H|now apply IH].
Qed.
Lemma key_eqb_eq a b : key_eqb a b = true <-> a = b.
Proof.
  destruct a as [i a], b as [j b]. unfold key_eqb. cbn [fst snd]. rewrite andb_true_iff, Z.eqb_eq.
  rewrite (@list_eqb_eq' (list Z) _ (@list_eqb_eq' Z _ Z.eqb_eq)). split; [intros [-> ->]; reflexivity|intros [= -> ->]; auto].
Qed.
Lemma key_dec (a b : cache_key) : {a = b} + {a <> b}.
Proof. repeat decide equality. Qed.

Lemma le_bytes_inj n : forall a b, (0 <= a < 256 ^ Z.of_nat n)%Z -> (0 <= b < 256 ^ Z.of_nat n)%Z -> le_bytes n a = le_bytes n b -> a = b.
Proof.
  induction n as [|n IH]; intros a b Ra Rb E.
  - change (256 ^ Z.of_nat 0)%Z with 1%Z in *. lia.
  - rewrite Nat2Z.inj_succ, Z.pow_succ_r in Ra, Rb by lia. cbn [le_bytes] in E. injection E as E1 E2.
    apply IH in E2; [|split; [apply Z.div_pos; lia|apply Z.div_lt_upper_bound; lia]..].
    rewrite (Z.div_mod a 256), (Z.div_mod b 256) by lia. congruence.
Qed.
Lemma pattern_inj k t a b : val_ok k a t -> val_ok k b t -> is_ref t = false -> to_bit_pattern a = to_bit_pattern b -> a = b.
Proof.
  destruct t as [t|t]; [intros (Ta & Ra & _) (Tb & Rb & _) _|discriminate].
  destruct a as [ta za|]; [|discriminate]. destruct b as [tb zb|]; [|discriminate].
  cbn [typeof] in Ta, Tb. injection Ta as ->. injection Tb as ->. cbn [in_range] in Ra, Rb.
  apply andb_true_iff in Ra as [A1 A2], Rb as [B1 B2]. apply Z.leb_le in A1, B1. apply Z.ltb_lt in A2, B2.
  intros E. f_equal. destruct t; cbn [to_bit_pattern bits] in *;
    try (apply app_inv_tail in E); [apply (@le_bytes_inj 4)|apply (@le_bytes_inj 8)|apply (@le_bytes_inj 4)|apply (@le_bytes_inj 8)];
    try exact E; split; assumption.
Qed.
Lemma patterns_inj k ts : forall a b, Forall2 (val_ok k) a ts -> Forall2 (val_ok k) b ts -> existsb is_ref ts = false ->
  map to_bit_pattern a = map to_bit_pattern b -> a = b.
Proof.
  induction ts as [|t ts IH]; intros a b Ha Hb Nu E; inversion Ha; subst; inversion Hb; subst; [reflexivity|].
  cbn [existsb map] in *. apply orb_false_iff in Nu as [N1 N2]. injection E as E1 E2. f_equal; [|auto].
  eapply pattern_inj; eauto.
Qed.

(** ** The cache *)
Lemma get_none k (c : list (cache_key * list val)) : kget key_eqb k c = None <-> ~ In k (map fst c).
Proof.
  induction c as [|[k' v] c IH]; cbn [kget map In fst]; [tauto|]. destruct (key_eqb k k') eqn:E.
  - apply key_eqb_eq in E. subst. split; [discriminate|intros H; destruct H; now left].
  - rewrite IH. split; [|tauto]. intros H [->|H']; [|tauto]. rewrite (proj2 (key_eqb_eq k k) eq_refl) in E. discriminate.
Qed.
Lemma put_keys k v (c : list (cache_key * list val)) :
  map fst (kput key_eqb k v c) = if kget key_eqb k c then map fst c else map fst c ++ [k].
Proof.
  induction c as [|[k' v'] c IH]; cbn [kput kget map fst]; [reflexivity|]. destruct (key_eqb k k') eqn:E; cbn [map fst].
  - apply key_eqb_eq in E. now subst.
  - rewrite IH. now destruct (kget key_eqb k c).
Qed.

Section Cache.
  Variable K : list cache_key.
  Variable good : cache_key -> list val -> Prop.
  (** Entries are right, and their keys are among [K]. *)
  Definition cache_ok (c : memo) : Prop :=
    NoDup (map fst (m_cache c)) /\ incl (map fst (m_cache c)) K /\
    forall k rs, kget key_eqb k (m_cache c) = Some rs -> good k rs.
  Lemma empty_ok : cache_ok empty_memo.
  Proof. split; [constructor|]. split; [intros ? []|discriminate]. Qed.
  Lemma insert_ok cap k rs c : cache_ok c -> In k K -> good k rs ->
    (exists c', map_insert cap k rs (m_cache c) = Some c' /\ forall h, cache_ok (Memo h c')) \/
    map_insert cap k rs (m_cache c) = None /\ cap < List.length K.
  Proof.
    intros (C1 & C2 & C3) Hk G.
    assert (Ok_ : forall h, cache_ok (Memo h (kput key_eqb k rs (m_cache c)))).
    { intros h. unfold cache_ok. cbn [m_cache]. rewrite put_keys. destruct (kget key_eqb k (m_cache c)) eqn:E.
      - split; [exact C1|]. split; [exact C2|]. intros k' rs'. rewrite (get_put key_eqb key_eqb_eq).
        destruct (key_eqb k' k) eqn:Ek; [|apply C3]. intros [= <-]. apply key_eqb_eq in Ek. now subst.
      - apply get_none in E. split; [|split].
        + apply NoDup_rev in C1. rewrite <- (rev_involutive (_ ++ _)), rev_app_distr. apply NoDup_rev. cbn. constructor; [|exact C1].
          now rewrite <- in_rev.
        + intros x Hx. apply in_app_iff in Hx as [Hx|[<-|[]]]; auto.
        + intros k' rs'. rewrite (get_put key_eqb key_eqb_eq).
          destruct (key_eqb k' k) eqn:Ek; [|apply C3]. intros [= <-]. apply key_eqb_eq in Ek. now subst. }
    unfold map_insert. destruct (kget key_eqb k (m_cache c)) eqn:E; [eauto|].
    destruct (Nat.ltb_spec (List.length (m_cache c)) cap) as [L|L]; [eauto|right; split; [reflexivity|]].
    apply get_none in E. assert (H : List.length (k :: map fst (m_cache c)) <= List.length K).
    { apply NoDup_incl_length; [now constructor|]. intros x [<-|Hx]; auto. }
    cbn in H. rewrite map_length in H. lia.
  Qed.
End Cache.

(** ** Writing cached results *)
Section Retrieve.
  Context {Y : Type}.
  Variable sigs : list functy.
  Variable lc : lib_code.
  Variable library : lib_states.
  Variable limit : Z.
  Variable stops : Prop.
  Hypothesis IM : implements sigs lc library limit stops.
  Notation agent := (@lib_agent (memo * Y) lc).
  Variable export : string -> list val -> store (sys (memo * Y)) -> res (store (sys (memo * Y))) (list val * store (sys (memo * Y))).
  Lemma set_nth_app {B} (v : B) a r b : set_nth (List.length a) v (a ++ r :: b) = a ++ v :: b.
  Proof. induction a as [|x a IH]; cbn; [reflexivity|]. now rewrite IH. Qed.
  Lemma retrieve_ok ft q qt frs ifs ar rs : forall done s,
    library ((ft, q, qt) :: frs) (IF ft (map Some done ++ repeat None (List.length rs)) ar :: ifs) (fst (st_x s)) ->
    vals_ok (ft_out ft) (done ++ rs) = true ->
    exists l, run_x export (cache_retrieve agent rs (Z.of_nat (List.length done)) (values_of ft q)) s = Ok ([], with_lib s l) /\
      library ((ft, q, qt) :: frs) (IF ft (map Some (done ++ rs)) ar :: ifs) l.
  Proof.
    induction rs as [|v rs IH]; intros done s H Vs.
    - exists (fst (st_x s)). cbn [cache_retrieve run_x]. rewrite with_lib_same. split; [reflexivity|].
      cbn [List.length repeat] in H. rewrite app_nil_r in H |- *. exact H.
    - cbn [cache_retrieve]. rewrite run_x_bind.
      set (ifr := IF ft (map Some done ++ repeat None (List.length (v :: rs))) ar) in *.
      destruct (@vals_ok_nth _ _ (List.length done) v Vs) as (t & Nt & Tv & Rv).
      { rewrite nth_error_app2, Nat.sub_diag by lia. reflexivity. }
      destruct (@write_ok (memo * Y) sigs lc library limit stops IM export ((ft, q, qt) :: frs) (ifr :: ifs) 0 ifr q qt eq_refl eq_refl SRet
                  (List.length done) v s H) as (l & E & H').
      { unfold ok_for. cbn [side_types ifr if_type]. rewrite Nt. now apply vals_ok_intro. }
      cbn [set_ ifr if_type] in E. rewrite E. cbn [rbind].
      cbn [set_nth set_slot ifr if_type if_rets if_args List.length repeat] in H'.
      rewrite <- (map_length Some done), set_nth_app in H'.
      destruct (IH (done ++ [v]) (with_lib s l)) as (l' & E' & H'').
      { rewrite map_app, <- app_assoc. exact H'. }
      { now rewrite <- app_assoc. }
      rewrite app_length, Nat2Z.inj_add in E'. change (Z.of_nat (List.length [v])) with 1%Z in E'.
      exists l'. rewrite E', with_lib_twice. split; [reflexivity|]. now rewrite <- app_assoc in H''.
  Qed.
End Retrieve.

Lemma sees_some (vs : list val) ws : Forall2 sees (map Some vs) ws -> ws = vs.
Proof.
  revert ws. induction vs as [|v vs IH]; intros ws H; inversion H; subst; [reflexivity|]. cbn in *. subst. f_equal. auto.
Qed.

(** ** Intercepted calls *)
Section Calls.
  Context {Y : Type}.
  Notation X := (sys (memo * Y)).
  Notation state := (store unit * memo)%type.
  Notation lib_part := (fun l : state => fst l).
  Notation ana_part := (fun (l : state) (_ : unit) => snd l).
  Notation lift := (glift lib_part ana_part).
  Notation obs := (fun (_ : unit) (_ : event) => tt).
  Variable num1 : unop -> Z -> option Z.
  Variable num2 : binop -> Z -> Z -> option Z.
  Variable sigs : list functy.
  Variable lc : lib_code.
  Variable library : lib_states.
  Variable limit : Z.
  Variable stops : Prop.
  Hypothesis IM : implements sigs lc library limit stops.
  Notation agent := (@lib_agent (memo * Y) lc).
  Variable cap : nat.
  Notation ana := (memo_analysis agent cap).

  Variable host : string -> string -> list val -> xprog Y.
  Variable I : Y -> Prop.
  Variable infer : nat -> list low -> option (list ity).
  Variable m : module.
  Variable on : hook -> bool.
  Variable generic : bool.
  Variable only : option (list nat).
  Variable is : list nat.
  Notation C0 := (ctx_of m).
  Notation ok := (val_ok (List.length (md_funcs m))).
  Notation system := (system lc ana host).
  Notation spec' := (spec num1 num2 system infer m on generic only is).
  Notation plain := (call_fn num1 num2 host (md_funcs m)).
  Notation trace := (trace num1 num2 host infer m on generic only).
  Notation own_events := (own_events num1 num2 host infer m on generic only).

  Hypothesis V : valid m.
  Hypothesis U : in_format m.
  Hypothesis HO : hosts_ok host I m (plain_xty m).
  Hypothesis NE : forall x, In x ("call_base" :: memory_names) -> ~ In x (flat_map fn_exports (md_funcs m)).
  Hypothesis IS : forall f, In f is <-> reported m generic only f = true.
  Hypothesis SG : forall f fn, In f is -> nth_error (md_funcs m) f = Some fn ->
    In (fn_type fn) sigs /\ (slots (fn_type fn) <= 8191)%Z.
  (** Intercepted functions neither depend on the store nor change it. *)
  Hypothesis PU : forall f, In f is -> forall n args (s1 s2 : store Y), indifferent s1 s2 (plain n f args s1) (plain n f args s2).

  (** Functions whose calls can be cached; the calls that may be. *)
  Definition cacheable (fn : func) : Prop :=
    (Z.of_nat (List.length (ft_in (fn_type fn))) <= cached_values_max)%Z /\
    (Z.of_nat (List.length (ft_out (fn_type fn))) <= cached_results_max)%Z.
  Definition key_of_call (c : nat * list val) : cache_key := (Z.of_nat (fst c), map to_bit_pattern (snd c)).
  Variable K : list (nat * list val).
  Definition beyond (evs : list event) : Prop := exists f fn c args, In (EvEnter f c args) evs /\
    nth_error (md_funcs m) f = Some fn /\ cacheable fn /\ ~ In (key_of_call (f, args)) (map key_of_call K).
  Lemma beyond_l e1 e2 : beyond e1 -> beyond (e1 ++ e2).
  Proof. intros (f & fn & c & args & H & R). exists f, fn, c, args. split; [apply in_app_iff; auto|exact R]. Qed.
  Lemma beyond_r e1 e2 : beyond e2 -> beyond (e1 ++ e2).
  Proof. intros (f & fn & c & args & H & R). exists f, fn, c, args. split; [apply in_app_iff; auto|exact R]. Qed.

  (** A right entry. *)
  Definition right_entry (k : cache_key) (rs : list val) : Prop := exists f fn args n, k = key_of_call (f, args) /\
    nth_error (md_funcs m) f = Some fn /\ Forall2 ok args (ft_in (fn_type fn)) /\
    forall s : store Y, plain n f args s = Ok (rs, s).
  Notation Inv := (fun l : state => cache_ok (map key_of_call K) right_entry (snd l)).
  Notation kept := (kept lib_part Inv library).
  Notation leaky := (leaky lib_part Inv library m).
  Notation full := (cap < List.length K).
  Notation lost := (lost limit m beyond (fun _ _ => full) stops).
  Notation deep := (deep limit m).
  Notation sim_at frs ifs := (gsim lib_part ana_part obs (fun _ => True) (kept frs ifs) (leaky frs ifs) (lost ifs)).

  Lemma all_fine (e : list event) : Forall (fun _ => True) e.
  Proof. induction e; constructor; auto. Qed.

  (** What a hit returns. *)
  Lemma entry_right f fn args n s rs : In f is -> nth_error (md_funcs m) f = Some fn -> Forall2 ok args (ft_in (fn_type fn)) ->
    right_entry (key_of_call (f, args)) rs -> plain n f args s <> Oof -> plain n f args s = Ok (rs, s).
  Proof.
    intros Hi Nf F (g & gn & args' & n0 & Ek & Ng & Fg & R) NO. unfold key_of_call in Ek. cbn [fst snd] in Ek. injection Ek as E1 E2.
    apply Nat2Z.inj in E1. subst g. rewrite Nf in Ng. injection Ng as <-.
    pose proof (@is_numeric m generic only is IS f fn Hi Nf) as Nu. destruct (num_sig _ Nu) as [_ Ni].
    assert (args' = args) by (eapply patterns_inj; eauto). subst args'.
    rewrite <- (R s). apply fuel_unique; [exact NO|]. rewrite R. discriminate.
  Qed.
  Lemma new_entry f fn args n s s1 rs : In f is -> nth_error (md_funcs m) f = Some fn -> Forall2 ok args (ft_in (fn_type fn)) ->
    plain n f args s = Ok (rs, s1) -> right_entry (key_of_call (f, args)) rs.
  Proof.
    intros Hi Nf F E. exists f, fn, args, n. split; [reflexivity|]. split; [exact Nf|]. split; [exact F|].
    intros s2. pose proof (@PU f Hi n args s s2) as P. rewrite E in P.
    destruct (plain n f args s2) as [[rs' s']|?| |]; try contradiction. destruct P as (<- & _ & ->). reflexivity.
  Qed.

  Lemma run_with export k lb c (s : store Y) : run_x export (with_memo k) (lift (lb, c) tt s) = run_x export (k c) (lift (lb, c) tt s).
  Proof. reflexivity. Qed.
  Lemma run_set export c' k lb c (s : store Y) : run_x export (set_memo c' k) (lift (lb, c) tt s) = run_x export k (lift (lb, c') tt s).
  Proof. reflexivity. Qed.
  Lemma with_lift lb c lb' (s : store Y) : with_lib (lift (lb, c) tt s) lb' = lift (lb', c) tt s.
  Proof. reflexivity. Qed.

  Section Intercepted.
    Variables (n n' : nat).
    Hypothesis OS : own_simulated lib_part ana_part Inv (fun _ => True) beyond (fun _ _ => full) obs num1 num2 lc library limit stops ana host I infer m on generic only is n n'.

    Notation ex := (reenter m generic (spec' (S (S (S n'))))).

    (** Handing the call back. *)
    Lemma handed_back frs ifs f fn args k q qt s lb c :
      nth_error is k = Some f -> In f is -> nth_error (md_funcs m) f = Some fn -> Forall2 ok args (ft_in (fn_type fn)) -> store_ok C0 I s ->
      kept ((fn_type fn, q, qt) :: frs) (fresh (fn_type fn) args :: ifs) (lb, c) ->
      match plain (S n) f args s with
      | Ok (rs, s1) =>
          (exists l, kept ((fn_type fn, q, qt) :: frs) (IF (fn_type fn) (map Some rs) (map Some args) :: ifs) l /\
             ex "call_base" [vi32 (Z.of_nat k); vi32 q] (lift (lb, c) tt s) = Ok ([], lift l tt s1)) \/
          lost (fresh (fn_type fn) args :: ifs) false (own_events n f fn args s)
            (exists s', ex "call_base" [vi32 (Z.of_nat k); vi32 q] (lift (lb, c) tt s) = Trap s')
      | Trap s1 => Forall in_range32 (own_events n f fn args s) ->
          (exists l, leaky ((fn_type fn, q, qt) :: frs) (fresh (fn_type fn) args :: ifs) (own_events n f fn args s) l /\
             ex "call_base" [vi32 (Z.of_nat k); vi32 q] (lift (lb, c) tt s) = Trap (lift l tt s1)) \/
          lost (fresh (fn_type fn) args :: ifs) true (own_events n f fn args s)
            (exists s', ex "call_base" [vi32 (Z.of_nat k); vi32 q] (lift (lb, c) tt s) = Trap s')
      | _ => True
      end.
    Proof.
      intros Nk Hi Nf F SO (H3 & HC). cbn [fst snd] in H3, HC.
      set (fr := (fn_type fn, q, qt)) in *. set (ifr := fresh (fn_type fn) args) in *.
      assert (EB : ex "call_base" [vi32 (Z.of_nat k); vi32 q] (lift (lb, c) tt s) = resume (spec' (S n')) f fn (vi32 q) (lift (lb, c) tt s)).
      { rewrite (@reenter_base X m generic NE) by exact (@is_generic m generic only is IS f Hi). cbn [spec level vi32]. cbn [st_tables glift].
        destruct SO as (_ & _ & Ft & _). apply TypingProofs.Forall2_len in Ft. rewrite Ft. cbn [ctx_of mctx c_tables].
        rewrite map_length, Nat.eqb_refl, Nat2Z.id, Nk. cbn [spec level]. rewrite Nf. reflexivity. }
      rewrite EB. clear EB.
      destruct (@SystemProofs.resumed (memo * Y) sigs lc library limit stops IM (reenter m generic (spec' n')) (spec' (S n')) (@lib_at Y memo num1 num2 lc ana host infer m on generic only is n')
                  f fn 0 ifr q qt args (lift (lb, c) tt s) (fr :: frs) (ifr :: ifs) H3 eq_refl eq_refl eq_refl eq_refl) as (l4 & H4 & R4).
      rewrite with_lift in R4.
      assert (EB : spec' (S n') (CBase f) args (lift (l4, c) tt s) = own num1 num2 system infer m on generic only n' (spec' n') f fn args (lift (l4, c) tt s)).
      { cbn [spec level]. rewrite Nf. cbn [rget rbind]. unfold fits_args. rewrite (forall2_args _ F). reflexivity. }
      rewrite EB in R4. clear EB.
      pose proof (@OS (fr :: frs) (ifr :: ifs) f fn args s (l4, c) tt Nf F SO (conj H4 HC)) as SM.
      set (r' := own num1 num2 system infer m on generic only n' (spec' n') f fn args (lift (l4, c) tt s)) in *. clearbody r'.
      specialize (R4 _ eq_refl).
      pose proof (@call_fn_ok Y num1 num2 host I m V U HO (S n) f (fn_type fn) args s) as TY.
      assert (Seen : forall e a, fold_left obs e a = tt) by (induction e; intros []; cbn; auto).
      destruct (plain (S n) f args s) as [[rs s1]|s1| |] eqn:EP; cbn [gsim] in SM |- *; try exact Logic.I.
      - destruct TY as (TY & _); [cbn; now rewrite nth_error_map, Nf|exact F|exact SO|]. rewrite nf_eq in TY.
        destruct SM as [(_ & l5 & (H5 & C5) & Es)|Lo]; [left|right; apply (lost_map Lo); [auto..|intros (s' & Es)]].
        + rewrite Es in R4. destruct (R4 (ifr :: ifs) ifr H5 eq_refl eq_refl (vals_ok_of TY)) as (l6 & E6 & H6).
          cbn [set_nth ifr fresh if_args] in H6. exists (l6, snd l5). split; [split; [exact H6|exact C5]|]. rewrite E6, Seen. reflexivity.
        + rewrite Es in R4. eauto.
      - intros W. destruct (SM W) as [(l5 & H5 & Es)|Lo]; [left|right; apply (lost_map Lo); [auto..|intros (s' & Es)]].
        + rewrite Es in R4. exists l5. split; [exact H5|]. rewrite R4, Seen. reflexivity.
        + rewrite Es in R4. eauto.
    Qed.

    Lemma intercepted_memo : intercepted_simulated lib_part ana_part Inv (fun _ => True) beyond (fun _ _ => full) obs num1 num2 lc library limit stops ana host I infer m on generic only is n n'.
    Proof.
      intros frs ifs f fn args s [lb c] [] Hi Nf F SO (Hl & HC). cbn [fst snd] in Hl, HC.
      rewrite (@trace_S Y num1 num2 host infer m on generic only n f fn args s Nf), (proj1 (IS f) Hi).
      destruct (@position_In f is Hi) as (k & Ek). pose proof (position_Some _ _ Ek) as Nk.
      destruct (@SG f fn Hi Nf) as (In_ & Sl). pose proof (@is_numeric m generic only is IS f fn Hi Nf) as Nu.
      assert (Vs : vals_ok (ft_in (fn_type fn)) args = true) by (eapply vals_ok_of; exact F).
      set (N4 := S (S (S (S n')))).
      assert (E0 : spec' (S N4) (CFun f) args (lift (lb, c) tt s) = intercepted_call (spec' N4) k f fn args (lift (lb, c) tt s)).
      { cbn [spec level]. rewrite Nf. cbn [rget rbind]. unfold fits_args. rewrite (forall2_args _ F), Ek. reflexivity. }
      rewrite E0. clear E0. unfold N4. clear N4.
      assert (Seen : forall e a, fold_left obs e a = tt) by (induction e; intros []; cbn; auto).
      (* no space *)
      destruct (Z.leb_spec (live (map if_type ifs) + frame_bytes (fn_type fn)) limit) as [Fit|Full].
      2:{ pose proof (fun St => @enter_full Y memo num1 num2 sigs lc library limit stops IM ana host infer m on generic only is (S (S (S n'))) frs ifs (lift (lb, c) tt s) k f fn args St Hl In_ Sl Nu Vs Full) as EF.
          assert (D : forall e, deep ifs (EvEnter f (has_code fn) args :: e)) by (intros; now apply (@deep_now library limit m f fn)).
          destruct (plain (S n) f args s) as [[rs s1]|s1| |]; cbn [gsim]; try exact Logic.I; intros; right; left; left; (split; [apply D|exact EF]). }
      destruct (@SystemProofs.intercepted (memo * Y) sigs lc library limit stops IM ex
                  (spec' (S (S (S (S n'))))) (@lib_at Y memo num1 num2 lc ana host infer m on generic only is (S (S (S n'))))
                  (fun args s => run_x ex (rs_generic_apply agent (memo_apply agent cap) args) s)
                  (fun args s => @told_at Y memo num1 num2 lc ana host infer m on generic only is (rs_generic_apply agent (memo_apply agent cap)) (S (S (S n'))) args s (fun _ => eq_refl))
                  f fn k args (lift (lb, c) tt s) frs ifs Hl In_ Nu Vs Fit) as (q & qt & l0 & H0 & R0).
      set (P := memo_apply agent cap (WasmFn (Z.of_nat k) (Z.of_nat f) q (if has_code fn then 0 else 1)%Z) (values_of (fn_type fn) q) (values_of (fn_type fn) q)).
      set (fr := (fn_type fn, q, qt)) in *. set (ifr := fresh (fn_type fn) args) in *.
      assert (TE : exists l2, library (fr :: frs) (ifr :: ifs) l2 /\
         run_x ex (rs_generic_apply agent (memo_apply agent cap) (described k f fn q qt)) (with_lib (lift (lb, c) tt s) l0) =
         (let* (vs, s1) := run_x ex P (lift (l2, c) tt s) in Ok ([], s1))).
      { rewrite with_lift.
        destruct (@values_new (memo * Y) sigs lc library limit stops IM ex (fr :: frs) (ifr :: ifs) 0 ifr q qt eq_refl eq_refl (lift (l0, c) tt s) Nu H0) as (l1 & H1 & E1).
        rewrite with_lift in E1.
        destruct (@values_new (memo * Y) sigs lc library limit stops IM ex (fr :: frs) (ifr :: ifs) 0 ifr q qt eq_refl eq_refl (lift (l1, c) tt s) Nu H1) as (l2 & H2 & E2).
        rewrite with_lift in E2.
        exists l2. split; [exact H2|]. unfold rs_generic_apply, described. cbn [i32n vi32]. cbn [ifr fresh if_type] in E1, E2.
        rewrite E1, E2, run_x_bind. reflexivity. }
      destruct TE as (l2 & H2 & TE). cbn beta in R0. rewrite TE in R0. clear TE. specialize (R0 _ eq_refl).
      set (r := intercepted_call (spec' (S (S (S (S n'))))) k f fn args (lift (lb, c) tt s)) in *. clearbody r.
      assert (FT : forall s', run_x ex P (lift (l2, c) tt s) = Trap s' -> r = Trap s').
      { intros s' E. rewrite E in R0. exact R0. }
      assert (FO : forall vs l7 s1 rs, run_x ex P (lift (l2, c) tt s) = Ok (vs, lift l7 tt s1) ->
        kept (fr :: frs) (IF (fn_type fn) (map Some rs) (map Some args) :: ifs) l7 ->
        exists l8, kept frs ifs l8 /\ r = Ok (rs, lift l8 tt s1)).
      { intros vs [l7 c7] s1 rs E (H7 & C7). rewrite E in R0. cbn [rbind] in R0.
        destruct (R0 eq_refl ifs rs (map Some args) H7) as (l8 & E8 & H8). exists (l8, c7). split; [split; [exact H8|exact C7]|exact E8]. }
      clear R0.
      pose proof (own_nested m num1 num2 host infer on generic only n f fn args s) as NE1.
      assert (DD : forall e', deep (ifr :: ifs) (own_events n f fn args s) -> deep ifs (EvEnter f (has_code fn) args :: own_events n f fn args s ++ e'))
        by (intros e'; exact (@deep_up library limit m f fn (has_code fn) args ifs ifr _ e' Nf eq_refl NE1)).
      assert (DB : forall e', beyond (own_events n f fn args s) -> beyond (EvEnter f (has_code fn) args :: own_events n f fn args s ++ e')).
      { intros e' B. change (EvEnter f (has_code fn) args :: own_events n f fn args s ++ e') with ([EvEnter f (has_code fn) args] ++ own_events n f fn args s ++ e').
        apply beyond_r. now apply beyond_l. }
      (* handing back, in any case *)
      assert (HB : forall lx, kept (fr :: frs) (ifr :: ifs) (lx, c) -> forall K0,
        run_x ex P (lift (l2, c) tt s) = (let* (vs, s1) := ex "call_base" [vi32 (Z.of_nat k); vi32 q] (lift (lx, c) tt s) in run_x ex K0 s1) ->
        (forall rs s1 l6, plain (S n) f args s = Ok (rs, s1) -> kept (fr :: frs) (IF (fn_type fn) (map Some rs) (map Some args) :: ifs) l6 ->
           (exists vs l7, run_x ex K0 (lift l6 tt s1) = Ok (vs, lift l7 tt s1) /\
             kept (fr :: frs) (IF (fn_type fn) (map Some rs) (map Some args) :: ifs) l7) \/
           full /\ exists s', run_x ex K0 (lift l6 tt s1) = Trap s') ->
        gsim lib_part ana_part obs (fun _ => True) (kept frs ifs) (leaky frs ifs) (lost ifs)
          (EvEnter f (has_code fn) args :: own_events n f fn args s ++ match plain (S n) f args s with Ok (rs, _) => [EvLeave f rs] | _ => [] end)
          tt (plain (S n) f args s) r).
      { intros lx Hx K0 EP HK0.
        pose proof (@handed_back frs ifs f fn args k q qt s lx c Nk Hi Nf F SO Hx) as HB. fold fr ifr in HB.
        destruct (plain (S n) f args s) as [[rs s1]|s1| |] eqn:Epl; cbn [gsim]; try exact Logic.I.
        - destruct HB as [(l6 & H6 & E6)|Lo].
          + rewrite E6 in EP. cbn [rbind] in EP.
            destruct (HK0 rs s1 l6 eq_refl H6) as [(vs & l7 & E7 & H7)|(Fu & s' & E7)]; rewrite E7 in EP; [left|right; left; right; split; [left; exact Fu|eauto]].
            destruct (FO _ _ _ _ EP H7) as (l8 & H8 & E8). split; [apply all_fine|]. exists l8. split; [exact H8|]. now rewrite Seen.
          + right. apply (lost_map Lo); [apply DD|auto|apply DB|]. intros (s' & Es). exists s'. apply FT. rewrite EP, Es. reflexivity.
        - intros W. pose proof (DD []) as DD0. pose proof (DB []) as DB0. rewrite app_nil_r in W, DD0, DB0 |- *. pose proof (Forall_inv_tail W) as W'.
          destruct (HB W') as [(l5 & H5 & E5)|Lo].
          + left. exists l5. split; [exact (@leaky_up state lib_part Inv library m f fn _ _ _ _ fr ifr _ _ Nf eq_refl NE1 H5)|].
            rewrite Seen. apply FT. rewrite EP, E5. reflexivity.
          + right. apply (lost_map Lo); [exact DD0|auto|exact DB0|]. intros (s' & Es). exists s'. apply FT. rewrite EP, Es. reflexivity. }
      destruct (((cached_values_max <? rv_argc (values_of (fn_type fn) q))%Z || (cached_results_max <? rv_resc (values_of (fn_type fn) q))%Z
                 || Nat.eqb (List.length (m_cache c)) cap)) eqn:Skip.
      { (* not cached *)
        apply (@HB l2) with (K0 := XRet []).
        - split; [exact H2|exact HC].
        - unfold P, memo_apply. rewrite run_with, Skip. unfold wasm_function_apply. cbn [run_x wf_apply wf_sigv]. reflexivity.
        - intros rs s1 l6 _ H6. left. exists [], l6. split; [reflexivity|exact H6]. }
      pose proof Skip as Sk. apply orb_false_iff in Sk as [Sk _]. apply orb_false_iff in Sk as [S1 S2]. cbn [rv_argc rv_resc values_of] in S1, S2.
      apply Z.ltb_ge in S1, S2.
      destruct (in_dec key_dec (key_of_call (f, args)) (map key_of_call K)) as [HK|NK].
      2:{ assert (B : forall e, beyond (EvEnter f (has_code fn) args :: e)).
          { intros e. exists f, fn, (has_code fn), args. split; [now left|]. split; [exact Nf|]. split; [split; assumption|exact NK]. }
          destruct (plain (S n) f args s) as [[rs s1]|s1| |]; cbn [gsim]; try exact Logic.I; intros; right; right; apply B. }
      destruct (@lib_frame sigs lc library limit stops IM (fr :: frs) (ifr :: ifs) l2 0 ifr H2 eq_refl)
        as (_ & _ & _ & _ & _ & _ & _ & _ & La & _). cbn [ifr fresh if_type if_args] in La. rewrite map_length in La.
      destruct (@iterate_ok (memo * Y) sigs lc library limit stops IM ex (fr :: frs) (ifr :: ifs) 0 ifr q qt eq_refl eq_refl SArg (map Some args) 0 [] (lift (l2, c) tt s) H2)
        as (ws & l3 & Ss & H3 & R3); [intros i o Hi'; exact Hi'|].
      apply sees_some in Ss. subst ws. rewrite with_lift in R3.
      set (key := key_of_call (f, args)) in *.
      assert (EP : run_x ex P (lift (l2, c) tt s) =
        run_x ex (match kget key_eqb key (m_cache c) with
                  | Some rs => set_memo (Memo (wrapS 32 (m_hits c + 1)) (m_cache c)) (cache_retrieve agent rs 0 (values_of (fn_type fn) q))
                  | None => xbind (wasm_function_apply (WasmFn (Z.of_nat k) (Z.of_nat f) q (if has_code fn then 0 else 1)%Z))
                              (fun _ => cache_insert agent cap key (values_of (fn_type fn) q))
                  end) (lift (l3, c) tt s)).
      { unfold P, memo_apply. rewrite run_with, Skip. unfold args_iter. cbn [rv_argc values_of wf_index]. rewrite !Nat2Z.id, <- La, <- (map_length Some args).
        change (if_type ifr) with (fn_type fn) in R3. unfold arg_base. cbn [rv_resc].
        cbn [number] in R3. rewrite Nat.add_0_r in R3. rewrite map_length in *. rewrite R3. cbn [app]. rewrite run_with. reflexivity. }
      destruct (kget key_eqb key (m_cache c)) as [rs|] eqn:Hit.
      - (* a hit *)
        pose proof (proj2 (proj2 HC) _ _ Hit) as RE.
        pose proof (@entry_right f fn args (S n) s rs Hi Nf F RE) as ER.
        pose proof (@call_fn_ok Y num1 num2 host I m V U HO (S n) f (fn_type fn) args s) as TY.
        destruct (plain (S n) f args s) as [[rs1 s1]|s1| |] eqn:Epl; cbn [gsim]; try exact Logic.I;
          [|discriminate (ER ltac:(discriminate))].
        specialize (ER ltac:(discriminate)). injection ER as -> ->.
        destruct TY as (TY & _); [cbn; now rewrite nth_error_map, Nf|exact F|exact SO|]. rewrite nf_eq in TY.
        left. rewrite run_set in EP. pose proof (vals_ok_of TY) as Vr. pose proof (vals_ok_len _ _ Vr) as Lr.
        destruct (@retrieve_ok Y sigs lc library limit stops IM ex (fn_type fn) q qt frs ifs (map Some args) rs [] (lift (l3, Memo (wrapS 32 (m_hits c + 1)) (m_cache c)) tt s)) as (l4 & E4 & H4).
        { cbn [map app]. rewrite Lr. exact H3. }
        { exact Vr. }
        change (Z.of_nat (List.length (@nil val))) with 0%Z in E4. rewrite E4, with_lift in EP.
        destruct (FO _ _ _ rs EP) as (l8 & H8 & E8); [split; [exact H4|exact HC]|].
        split; [apply all_fine|]. exists l8. split; [exact H8|]. now rewrite Seen.
      - (* a miss *)
        apply (@HB l3) with (K0 := cache_insert agent cap key (values_of (fn_type fn) q)).
        + split; [exact H3|exact HC].
        + rewrite EP, run_x_bind. unfold wasm_function_apply. cbn [run_x wf_apply wf_sigv].
          destruct (ex "call_base" _ _) as [[vs s1]|s1| |]; reflexivity.
        + intros rs s1 [l6 c6] Epl (H6 & C6). cbn [fst snd] in H6, C6. set (ifr2 := IF (fn_type fn) (map Some rs) (map Some args)) in *.
          destruct (@lib_frame sigs lc library limit stops IM (fr :: frs) (ifr2 :: ifs) l6 0 ifr2 H6 eq_refl)
            as (_ & _ & _ & _ & _ & _ & _ & Lr2 & _ & _). cbn [ifr2 if_type if_rets] in Lr2. rewrite map_length in Lr2.
          destruct (@iterate_ok (memo * Y) sigs lc library limit stops IM ex (fr :: frs) (ifr2 :: ifs) 0 ifr2 q qt eq_refl eq_refl SRet (map Some rs) 0 [] (lift (l6, c6) tt s1) H6)
            as (ws & l7 & Ss & H7 & R7); [intros i o Hi'; exact Hi'|].
          apply sees_some in Ss. subst ws. rewrite with_lift in R7.
          assert (Run : run_x ex (cache_insert agent cap key (values_of (fn_type fn) q)) (lift (l6, c6) tt s1) =
            run_x ex match map_insert cap key rs (m_cache c6) with Some c' => set_memo (Memo (m_hits c6) c') (XRet []) | None => XTrap end (lift (l7, c6) tt s1)).
          { unfold cache_insert, ress_iter, res_base. cbn [rv_resc values_of]. rewrite Nat2Z.id, <- Lr2. change (if_type ifr2) with (fn_type fn) in R7.
            cbn [number] in R7. rewrite map_length in R7. rewrite R7. cbn [app]. rewrite Z.eqb_refl, run_with. reflexivity. }
          rewrite Run.
          destruct (@insert_ok (map key_of_call K) right_entry cap key rs c6 C6 HK (@new_entry f fn args (S n) s s1 rs Hi Nf F Epl)) as [(c' & Ec & C')|(Ec & Fu)]; rewrite Ec.
          * left. exists [], (l7, Memo (m_hits c6) c'). split; [|split; [exact H7|apply C']]. now rewrite run_set.
          * right. rewrite map_length in Fu. split; [exact Fu|]. eexists. reflexivity.
    Qed.
  End Intercepted.
End Calls.
