(** Sessions under the memoizing analysis, for any buffer library that implements the interface
    (towards C34). *)
From Coq Require Import Permutation.
From Verif Require Import Semantics Advice RsStdlib StackLib StackRun StackSpec PropStack System Instantiate Trace TraceProofs
  Typing ModuleTyping InstantiateTyping Checker ExModule PropInstrument PropSpec PropTyping ForwardRel ForwardBody OwnProofs SessionProofs
  NestingSpec NestingProofs Purity PuritySpec PropPurity PropTransparent Analyses Memo MemoProofs.
Local Open Scope string_scope.
Local Open Scope list_scope.

Section Memoized.
  Context {Y : Type}.
  Variable num1 : unop -> Z -> option Z.
  Variable num2 : binop -> Z -> Z -> option Z.
  Variable host : string -> string -> list val -> xprog Y.
  Variable I : Y -> Prop.
  Variables ord_i ord_c : list nat -> list nat.
  Variable infer : nat -> list low -> option (list ity).
  Variable m : module.
  Variable only : option (list nat).
  Variable imp : provided.
  Variable m' : module.
  Variable sigs : list functy.
  (** The buffer library, and the state it starts in. *)
  Variable lc : lib_code.
  Variable library : lib_states.
  Variable limit : Z.
  Variable stops : Prop.
  Hypothesis IM : implements sigs lc library limit stops.
  Variable start : store unit.
  Hypothesis LS : library [] [] start.
  Hypothesis Pi : forall l, Permutation (ord_i l) l.
  Hypothesis Pc : forall l, Permutation (ord_c l) l.
  (** The analysis has one advice, [apply]: no hooks on instructions. *)
  Notation on := (fun _ : hook => false).
  Hypothesis E : instrument ord_i ord_c infer m (std_ai on true) only = IOk m' (Some sigs).
  Hypothesis V : valid m.
  Hypothesis U : in_format m.
  Hypothesis AN : annotates infer m.
  Hypothesis PV : provided_ok m imp.
  Hypothesis HO : hosts_ok host I m (plain_xty m).
  Notation is := (intercepts m true only ord_i).
  Hypothesis CO : compatible m on is.
  Variables n fuel : nat.
  Hypothesis Fu : 5 * n + 2 <= fuel.
  Notation plain_module := (run_module num1 num2 host n imp m).
  Notation module_trace := (module_trace num1 num2 host infer m on true only n imp).
  Notation typed_calls := (Forall (fun c => exists ft, plain_xty m (fst c) = Some ft /\
                                     Forall2 (val_ok (List.length (md_funcs m))) (snd c) (ft_in ft))).

  (** The system with the memoizing analysis. *)
  Definition memoizing := system lc (memo_analysis (Y := Y) (lib_agent lc) cache_capacity) host.

  (** Intercepted functions neither depend on the store nor change it. *)
  Definition pure_interception : Prop := forall f, In f is -> forall n args (s1 s2 : store Y),
    indifferent s1 s2 (call_fn num1 num2 host (md_funcs m) n f args s1) (call_fn num1 num2 host (md_funcs m) n f args s2).
  (** In the run of the original, at most 1024 distinct calls that can be cached are made. *)
  Definition few_calls (x : Y) (calls : list (string * list val)) : Prop := exists K, List.length K <= cache_capacity /\
    forall f fn c args, In (EvEnter f c args) (module_trace x calls) -> nth_error (md_funcs m) f = Some fn ->
      List.length (ft_in (fn_type fn)) <= 10 -> List.length (ft_out (fn_type fn)) <= 10 -> In (f, args) K.

  Lemma no_hooks {A L0 B0} lib_part ana_part obs C C' (good : event -> Prop) (Lb : L0 -> Prop) D h' : (forall h, h' h = true -> on h = true) ->
    @hooks_sim Y A L0 B0 lib_part ana_part obs good Lb D num1 num2 h' C C'.
  Proof. intros H h args adv l a s Hh. discriminate (H h Hh). Qed.
  Lemma memo_start K good : kept (fun l : store unit * memo => fst l) (fun l => cache_ok K good (snd l)) library [] [] (start, empty_memo).
  Proof.
    split; [exact LS|apply empty_ok].
  Qed.
  Lemma memo_same {A} f1 f2 (l : store unit * memo) (a : A) (s : store Y) s' :
    f1 = fst -> f2 = (fun l (_ : A) => snd l) -> extends (glift f1 f2 l a s) s' -> same_program s s'.
  Proof. intros -> -> (A1 & A2 & A3 & A4 & A5 & A6). unfold same_program. rewrite A4. cbn in *. auto 10. Qed.

  Lemma few_not_beyond K x calls : (forall f fn c args, In (EvEnter f c args) (module_trace x calls) -> nth_error (md_funcs m) f = Some fn ->
      List.length (ft_in (fn_type fn)) <= 10 -> List.length (ft_out (fn_type fn)) <= 10 -> In (f, args) K) ->
    ~ beyond m K (module_trace x calls).
  Proof.
    intros H (f & fn & c & args & Hin & Nf & (S1 & S2) & NK). apply NK. apply in_map_iff. exists (f, args). split; [reflexivity|].
    apply (H f fn c args Hin Nf); unfold cached_values_max, cached_results_max in *; lia.
  Qed.

  Section At.
    Hypothesis PU : pure_interception.
    Variable K : list (nat * list val).
    Lemma memo_intercepted n0 n' :
      own_simulated (fun l : store unit * memo => fst l) (fun l (_ : unit) => snd l)
        (fun l => cache_ok (map key_of_call K) (right_entry num1 num2 host m) (snd l)) (fun _ => True) (beyond m K) (fun _ _ => cache_capacity < List.length K) (fun _ _ => tt) num1 num2 lc library limit stops
        (memo_analysis (lib_agent lc) cache_capacity) host I infer m on true only is n0 n' ->
      intercepted_simulated (fun l : store unit * memo => fst l) (fun l (_ : unit) => snd l)
        (fun l => cache_ok (map key_of_call K) (right_entry num1 num2 host m) (snd l)) (fun _ => True) (beyond m K) (fun _ _ => cache_capacity < List.length K) (fun _ _ => tt) num1 num2 lc library limit stops
        (memo_analysis (lib_agent lc) cache_capacity) host I infer m on true only is n0 n'.
    Proof.
      apply (@intercepted_memo Y num1 num2 sigs lc library limit stops IM); auto.
      - intros x Hx Hi. apply in_flat_map in Hi as (g & Hg & Hi). exact (@co_exports _ _ _ CO g x Hg Hx Hi).
      - intros g. now apply intercepts_reported.
      - intros g gn. apply (@covered ord_i ord_c infer m on true only m' sigs (Some sigs) Pi Pc E); [intros l [= ->]; reflexivity|exact CO].
    Qed.
  End At.
  Lemma entries_right K l : cache_ok (map key_of_call K) (right_entry (Y := Y) num1 num2 host m) l ->
    forall k rs, In (k, rs) (m_cache l) -> right_entry num1 num2 host m k rs.
  Proof.
    intros IV k rs Hin. apply IV. destruct IV as (ND & _). clear - ND Hin. set (c := m_cache l) in *. clearbody c.
    induction c as [|[k' v'] c IH]; [destruct Hin|]. cbn [map fst kget] in *. inversion ND as [|? ? N1 N2]; subst.
    destruct Hin as [[= -> ->]|Hin].
    - rewrite (proj2 (key_eqb_eq k k) eq_refl). reflexivity.
    - destruct (key_eqb k k') eqn:Ek; [|auto]. apply key_eqb_eq in Ek. subst k'. destruct N1. apply in_map_iff. exists (k, rs). auto.
  Qed.
  (** The calls of a trace. *)
  Definition calls_in (evs : list event) : list (nat * list val) :=
    flat_map (fun e => match e with EvEnter f _ args => [(f, args)] | _ => [] end) evs.
  Lemma calls_in_ok f c args evs : In (EvEnter f c args) evs -> In (f, args) (calls_in evs).
  Proof. intros H. apply in_flat_map. exists (EvEnter f c args). split; [exact H|now left]. Qed.
  Lemma val_dec (a b : val) : {a = b} + {a <> b}.
  Proof. repeat decide equality. Qed.
  Lemma call_dec (a b : nat * list val) : {a = b} + {a <> b}.
  Proof. decide equality; [apply list_eq_dec, val_dec|apply Nat.eq_dec]. Qed.
  Definition narrow (c : nat * list val) : bool :=
    match nth_error (md_funcs m) (fst c) with
    | Some fn => Nat.leb (List.length (ft_in (fn_type fn))) 10 && Nat.leb (List.length (ft_out (fn_type fn))) 10
    | None => false
    end.
  (** The cacheable calls of the run of the original, each once: [few_calls] exactly if there are at
      most 1024 of these. *)
  Definition all_calls (x : Y) (calls : list (string * list val)) : list (nat * list val) :=
    nodup call_dec (filter narrow (calls_in (module_trace x calls))).
  Lemma all_calls_ok x calls f fn c args : In (EvEnter f c args) (module_trace x calls) -> nth_error (md_funcs m) f = Some fn ->
    List.length (ft_in (fn_type fn)) <= 10 -> List.length (ft_out (fn_type fn)) <= 10 -> In (f, args) (all_calls x calls).
  Proof.
    intros Hin Nf L1 L2. apply nodup_In. apply filter_In. split; [eapply calls_in_ok; exact Hin|].
    unfold narrow. cbn [fst]. rewrite Nf. apply andb_true_iff. split; now apply Nat.leb_le.
  Qed.
  Lemma few_calls_iff x calls : few_calls x calls <-> List.length (all_calls x calls) <= cache_capacity.
  Proof.
    split.
    - intros (K & LK & HK). etransitivity; [|exact LK]. apply NoDup_incl_length; [apply NoDup_nodup|].
      intros [f args] H. apply nodup_In, filter_In in H as [H Na]. unfold narrow in Na. cbn [fst] in Na.
      destruct (nth_error (md_funcs m) f) as [fn|] eqn:Nf; [|discriminate]. apply andb_true_iff in Na as [N1 N2].
      apply in_flat_map in H as ([|g c args'|] & H & Hi); cbn in Hi; try contradiction. destruct Hi as [[= -> ->]|[]].
      eapply HK; eauto; now apply Nat.leb_le.
    - intros L. exists (all_calls x calls). split; [exact L|]. intros. eapply all_calls_ok; eauto.
  Qed.

  Notation memoized x := (run_module num1 num2 memoizing fuel imp m' (start, (empty_memo, x))).
  Lemma memoized_any : forall x calls outs s, I x -> typed_calls calls -> pure_interception ->
    plain_module x calls = Ok (outs, s) -> stops \/ fits limit m 0 (module_trace x calls) ->
    (~ few_calls x calls \/ ~ fits limit m 0 (module_trace x calls)) /\
      (forall calls', exists s', memoized x calls' = Trap s') \/
    exists calls1 rest s1 s', calls = calls1 ++ rest /\
      plain_module x calls1 = Ok (firstn (List.length calls1) outs, s1) /\ memoized x calls1 = Ok (firstn (List.length calls1) outs, s') /\
      same_program s1 s' /\ (forall k rs, In (k, rs) (m_cache (fst (snd (st_x s')))) -> right_entry num1 num2 host m k rs) /\
      (rest = [] \/ exists c rest' s2, rest = c :: rest' /\
        (~ few_calls x calls \/ ~ fits limit m 0 (module_trace x calls)) /\
        memoized x (calls1 ++ [c]) = Ok (firstn (List.length calls1) outs ++ [None], s2)).
  Proof.
    intros x calls outs s Ix T PU R SF. set (K := all_calls x calls).
    assert (Why : (cache_capacity < List.length K \/ ~ fits limit m 0 (module_trace x calls)) ->
      ~ few_calls x calls \/ ~ fits limit m 0 (module_trace x calls)).
    { intros [H|H]; [left|right; exact H]. rewrite few_calls_iff. fold K. lia. }
    assert (Wh : halts (fun _ _ => cache_capacity < List.length K) (In None outs) (module_trace x calls) \/ ~ fits limit m 0 (module_trace x calls) ->
      cache_capacity < List.length K \/ ~ fits limit m 0 (module_trace x calls)) by (intros [[H|(_ & H)]|H]; auto).
    destruct (@simulated_any Y unit (store unit * memo) memo (fun l => fst l) (fun l _ => snd l)
      (fun l => cache_ok (map key_of_call K) (right_entry num1 num2 host m) (snd l)) (fun _ => True) (beyond m K) (fun _ _ => cache_capacity < List.length K) (@beyond_l m K) (@beyond_r m K) (fun _ _ _ H => H) (fun _ _ _ H => H)
      (fun _ _ => tt) num1 num2 lc library limit stops host I ord_i ord_c infer m on true only imp m' sigs (Some sigs) Pi Pc E (fun l H => f_equal (fun o => match o with Some l => l | None => [] end) H)
      (memo_analysis (lib_agent lc) cache_capacity)
      V U AN PV HO CO (fun n1 Lb ifs h0 H => @no_hooks _ _ _ _ _ _ _ _ _ _ _ _ H) (@memo_intercepted PU K) n fuel Fu x (start, empty_memo) tt calls outs s Ix
      (memo_start _ _) T R SF (@few_not_beyond K x calls (fun f fn c args => @all_calls_ok x calls f fn c args)))
      as [(Q & P)|(calls1 & rest & s1 & s' & l1 & frs & ifs & P1 & P2 & P3 & P4 & (_ & P5) & _ & _ & P6)].
    - right. apply module_in_range; reflexivity.
    - left. split; [exact (Why (Wh Q))|exact P].
    - right. exists calls1, rest, s1, s'. split; [exact P1|]. split; [exact P2|]. split; [exact P3|].
      split; [eapply memo_same; [| |exact P4]; reflexivity|]. split.
      + destruct P4 as (_ & _ & _ & Ex & _). rewrite Ex. cbn [glift st_x fst snd]. eapply entries_right; exact P5.
      + destruct P6 as [->|(c & rest' & s2 & -> & Q & P6)]; [now left|right]. exists c, rest', s2. split; [reflexivity|]. split; [exact (Why (Wh Q))|exact P6].
  Qed.
  Lemma memoized_within : forall x calls outs s, I x -> typed_calls calls -> pure_interception ->
    plain_module x calls = Ok (outs, s) -> fits limit m 0 (module_trace x calls) -> few_calls x calls ->
    exists s', memoized x calls = Ok (outs, s') /\ same_program s s' /\
      forall k rs, In (k, rs) (m_cache (fst (snd (st_x s')))) -> right_entry num1 num2 host m k rs.
  Proof.
    intros x calls outs s Ix T PU R Sp Fc.
    destruct (@memoized_any x calls outs s Ix T PU R (or_intror Sp)) as [([Q|Q] & _)|(calls1 & rest & s1 & s' & -> & P2 & P3 & P4 & P5 & [->|(c & rest' & s2 & _ & [Q|Q] & _)])]; try contradiction.
    rewrite app_nil_r in *. rewrite R in P2. injection P2 as P2 <-. rewrite <- P2 in P3. exists s'. auto.
  Qed.
  Lemma memoized_trap : forall x calls s, I x -> typed_calls calls -> pure_interception ->
    plain_module x calls = Trap s -> stops \/ fits limit m 0 (module_trace x calls) -> exists s', memoized x calls = Trap s'.
  Proof.
    intros x calls s Ix T PU R SF. set (K := all_calls x calls).
    apply (@simulated_trap_any Y unit (store unit * memo) memo (fun l => fst l) (fun l _ => snd l)
      (fun l => cache_ok (map key_of_call K) (right_entry num1 num2 host m) (snd l)) (fun _ => True) (beyond m K) (fun _ _ => cache_capacity < List.length K) (@beyond_l m K) (@beyond_r m K) (fun _ _ _ H => H) (fun _ _ _ H => H)
      (fun _ _ => tt) num1 num2 lc library limit stops host I ord_i ord_c infer m on true only imp m' sigs (Some sigs) Pi Pc E (fun l H => f_equal (fun o => match o with Some l => l | None => [] end) H)
      (memo_analysis (lib_agent lc) cache_capacity)
      V U AN PV HO CO (fun n1 Lb ifs h0 H => @no_hooks _ _ _ _ _ _ _ _ _ _ _ _ H) (@memo_intercepted PU K) n fuel Fu x (start, empty_memo) tt calls s Ix
      (memo_start _ _) T R SF (@few_not_beyond K x calls (fun f fn c args => @all_calls_ok x calls f fn c args))).
    apply module_in_range; reflexivity.
  Qed.
End Memoized.
