(** Simulation of whole calls under an analysis that notes what it is told and forwards it: the
    hooks and the intercepted functions (towards C08, C09, C10). *)
From Verif Require Import Semantics Advice RsStdlib StackLib StackNames StackRun StackOps StackSpec StackHist System
  SystemProofs AccessProofs SpecProofs Trace TraceProofs RunLemmas NestingSpec NestingProofs
  Typing TypingProofs AdvisedTyping ModuleTyping PropInstrument PropStdlib ForwardRel ForwardBody OwnProofs.
Local Open Scope string_scope.
Local Open Scope list_scope.
Local Open Scope res_scope.

(** The analysis: what it does when told about a call is all that is used. *)
Section Told.
  Context {Y A : Type}.
  Notation X := (sys (A * Y)).
  Variable obs : A -> event -> A.
  Variable num1 : unop -> Z -> option Z.
  Variable num2 : binop -> Z -> Z -> option Z.
  Variable sigs : list functy.
  Variable lc : lib_code.
  Variable library : lib_states.
  Variable limit : Z.
  Variable stops : Prop.
  Hypothesis IM : implements sigs lc library limit stops.

  (** What it may be told without objecting; what may make it stop the program, or do anything. *)
  Variable good : event -> Prop.
  Variable Fo : list event -> Prop.
  Variable T : bool -> list event -> Prop.
  Hypothesis FL : forall e1 e2, Fo e1 -> Fo (e1 ++ e2).
  Hypothesis FR : forall e1 e2, Fo e2 -> Fo (e1 ++ e2).
  Hypothesis TL : forall b e1 e2, T b e1 -> T b (e1 ++ e2).
  Hypothesis TR : forall b e1 e2, T b e2 -> T b (e1 ++ e2).
  Hypothesis GE : forall f c args, good (EvEnter f c args).
  Hypothesis GL : forall f rs, good (EvLeave f rs).

  Notation own_lib := (fun l : store unit => l).
  Notation own_state := (fun (_ : store unit) (a : A) => a).
  Variable ana : string -> list val -> xprog X.
  Variable told : list val -> xprog X.
  (** Told about a call, it notes it, hands it back and notes the results, and leaves the frame
      as it is. *)
  Definition notes_told : Prop := forall export frs ifs fn q qt args k f l a s, numeric_sig (fn_type fn) = true ->
    (slots (fn_type fn) <= 8191)%Z ->
    library ((fn_type fn, q, qt) :: frs) (fresh (fn_type fn) args :: ifs) l ->
    exists l1 rest, library ((fn_type fn, q, qt) :: frs) (fresh (fn_type fn) args :: ifs) l1 /\
      run_x export (told (described k f fn q qt)) (lift l a s) =
      (let* (vs, s1) := (let* (vs, s1) := export "call_base" [vi32 (Z.of_nat k); vi32 q] (lift l1 (obs a (EvEnter f (has_code fn) args)) s) in
                         run_x export (rest vs) s1) in Ok ([], s1)) /\
      forall vs rs l2 a2 s2, library ((fn_type fn, q, qt) :: frs) (IF (fn_type fn) (map Some rs) (map Some args) :: ifs) l2 ->
        exists vs' l3, run_x export (rest vs) (lift l2 a2 s2) = Ok (vs', lift l3 (obs a2 (EvLeave f rs)) s2) /\
          library ((fn_type fn, q, qt) :: frs) (IF (fn_type fn) (map Some rs) (map Some args) :: ifs) l3.
  (** The same, unless what it is told lets it do anything. *)
  Definition hands_told : Prop := forall export frs ifs fn q qt args k f l a s, numeric_sig (fn_type fn) = true ->
    (slots (fn_type fn) <= 8191)%Z ->
    library ((fn_type fn, q, qt) :: frs) (fresh (fn_type fn) args :: ifs) l ->
    Fo [EvEnter f (has_code fn) args] \/
    exists l1 rest, library ((fn_type fn, q, qt) :: frs) (fresh (fn_type fn) args :: ifs) l1 /\
      run_x export (told (described k f fn q qt)) (lift l a s) =
      (let* (vs, s1) := (let* (vs, s1) := export "call_base" [vi32 (Z.of_nat k); vi32 q] (lift l1 (obs a (EvEnter f (has_code fn) args)) s) in
                         run_x export (rest vs) s1) in Ok ([], s1)) /\
      forall vs rs l2 a2 s2, library ((fn_type fn, q, qt) :: frs) (IF (fn_type fn) (map Some rs) (map Some args) :: ifs) l2 ->
        Fo [EvLeave f rs] \/
        exists vs' l3, run_x export (rest vs) (lift l2 a2 s2) = Ok (vs', lift l3 (obs a2 (EvLeave f rs)) s2) /\
          library ((fn_type fn, q, qt) :: frs) (IF (fn_type fn) (map Some rs) (map Some args) :: ifs) l3.
  Lemma notes_hands_told : notes_told -> hands_told.
  Proof.
    intros H export frs ifs fn q qt args k f l a s Nu Sl Hl. right. destruct (H export frs ifs fn q qt args k f l a s Nu Sl Hl) as (l1 & rest & A1 & A2 & A3).
    exists l1, rest. split; [exact A1|]. split; [exact A2|]. intros vs rs l2 a2 s2 H2. right. exact (A3 vs rs l2 a2 s2 H2).
  Qed.
  Hypothesis HA : hands_told.
  Hypothesis EA : forall args, ana "generic_apply" args = told args.

  Variable host : string -> string -> list val -> xprog Y.
  Variable I : Y -> Prop.
  Variable infer : nat -> list low -> option (list ity).
  Variable m : module.
  Variable on : hook -> bool.
  Variable generic : bool.
  Variable only : option (list nat).
  Variable is : list nat.
  Notation C0 := (ctx_of m).
  Notation ok := (val_ok (List.length (md_funcs m))).
  Notation all_agents := (system lc ana host).
  Notation spec' := (spec num1 num2 all_agents infer m on generic only is).
  Notation plain := (call_fn num1 num2 host (md_funcs m)).
  Notation trace := (trace num1 num2 host infer m on generic only).
  Notation own_events := (own_events num1 num2 host infer m on generic only).

  Hypothesis V : valid m.
  Hypothesis U : in_format m.
  Hypothesis AN : annotates infer m.
  Hypothesis HO : hosts_ok host I m (plain_xty m).
  Hypothesis NI : forall f fn ns name, nth_error (md_funcs m) f = Some fn -> fn_code fn = FImport ns name ->
    ns <> stack_ns /\ ns <> analysis_ns.
  Hypothesis NE : forall x, In x ("call_base" :: memory_names) -> ~ In x (flat_map fn_exports (md_funcs m)).
  Hypothesis IS : forall f, In f is <-> reported m generic only f = true.
  Hypothesis SG : forall f fn, In f is -> nth_error (md_funcs m) f = Some fn ->
    In (fn_type fn) sigs /\ (slots (fn_type fn) <= 8191)%Z.
  Hypothesis AC : forall f fn locals code b, nth_error (md_funcs m) f = Some fn -> fn_code fn = FPresent locals code ->
    selected m only f = true -> structure_typed f (infer f) code = COk b -> all_access on b.

  Notation any := (fun _ : store unit => True).
  Notation kept := (kept own_lib any library).
  Notation leaky := (leaky own_lib any library m).
  Notation lost := (lost limit m Fo T stops).
  Notation deep := (deep limit m).
  Notation sim_at frs ifs := (sim obs good (kept frs ifs) (leaky frs ifs) (lost ifs)).

  Section Intercepted.
    Variables (n n' : nat).
    Hypothesis OS : forall frs ifs f fn args s l a, nth_error (md_funcs m) f = Some fn -> Forall2 ok args (ft_in (fn_type fn)) ->
      store_ok C0 I s -> kept frs ifs l ->
      sim_at frs ifs (own_events n f fn args s) a (plain (S n) f args s)
        (own num1 num2 all_agents infer m on generic only n' (spec' n') f fn args (lift l a s)).

    (** The analysis is told about the call; it hands it back, and reads the results. *)
    Lemma intercepted_sim frs ifs f fn args s l a :
      In f is -> nth_error (md_funcs m) f = Some fn -> Forall2 ok args (ft_in (fn_type fn)) ->
      store_ok C0 I s -> kept frs ifs l ->
      sim_at frs ifs (trace (S n) f args s) a (plain (S n) f args s)
        (spec' (S (S (S (S (S n'))))) (CFun f) args (lift l a s)).
    Proof.
      intros Hi Nf F SO (Hl & _). rewrite (@trace_S Y num1 num2 host infer m on generic only n f fn args s Nf), (proj1 (IS f) Hi).
      destruct (@position_In f is Hi) as (k & Ek). pose proof (position_Some _ _ Ek) as Nk.
      destruct (@SG f fn Hi Nf) as (In_ & Sl). pose proof (@is_numeric m generic only is IS f fn Hi Nf) as Nu.
      pose proof (@is_generic m generic only is IS f Hi) as Ge.
      assert (Vs : vals_ok (ft_in (fn_type fn)) args = true) by (eapply vals_ok_of; exact F).
      set (N4 := S (S (S (S n')))).
      assert (E0 : spec' (S N4) (CFun f) args (lift l a s) = intercepted_call (spec' N4) k f fn args (lift l a s)).
      { cbn [spec level]. rewrite Nf. cbn [rget rbind]. unfold fits_args. rewrite (forall2_args _ F), Ek. reflexivity. }
      rewrite E0. clear E0. unfold N4.
      destruct (Z.leb_spec (live (map if_type ifs) + frame_bytes (fn_type fn)) limit) as [Fit|Full].
      2:{ pose proof (fun St => @enter_full Y A num1 num2 sigs lc library limit stops IM ana host infer m on generic only is (S (S (S n'))) frs ifs (lift l a s) k f fn args St Hl In_ Sl Nu Vs Full) as EF.
          assert (D : forall e, deep ifs (EvEnter f (has_code fn) args :: e)) by (intros; now apply (@deep_now library limit m f fn)).
          destruct (plain (S n) f args s) as [[rs s1]|s1| |]; cbn [gsim]; try exact Logic.I; intros; right; left; left; (split; [apply D|exact EF]). }
      destruct (@SystemProofs.intercepted (A * Y) sigs lc library limit stops IM (reenter m generic (spec' (S (S (S n')))))
                  (spec' (S (S (S (S n'))))) (@lib_at Y A num1 num2 lc ana host infer m on generic only is (S (S (S n'))))
                  (fun args s => run_x (reenter m generic (spec' (S (S (S n'))))) (told args) s)
                  (fun args s => @told_at Y A num1 num2 lc ana host infer m on generic only is told (S (S (S n'))) args s EA) f fn k args (lift l a s) frs ifs Hl In_ Nu Vs Fit) as (q & qt & l0 & H0 & R0).
      set (fr := (fn_type fn, q, qt)) in *. set (ifr := fresh (fn_type fn) args) in *.
      (* what the analysis does *)
      set (ex := reenter m generic (spec' (S (S (S n'))))) in *.
      assert (TE : Fo [EvEnter f (has_code fn) args] \/ exists l3 rest, library (fr :: frs) (ifr :: ifs) l3 /\
         run_x ex (told (described k f fn q qt)) (with_lib (lift l a s) l0) =
         (let* (vs, s1) := (let* (vs, s1) := resume (spec' (S n')) f fn (vi32 q) (lift l3 (obs a (EvEnter f (has_code fn) args)) s) in
                            run_x ex (rest vs) s1) in Ok ([], s1)) /\
         forall vs rs l2 a2 s2, library (fr :: frs) (IF (fn_type fn) (map Some rs) (map Some args) :: ifs) l2 ->
           Fo [EvLeave f rs] \/
           exists vs' l3, run_x ex (rest vs) (lift l2 a2 s2) = Ok (vs', lift l3 (obs a2 (EvLeave f rs)) s2) /\
             library (fr :: frs) (IF (fn_type fn) (map Some rs) (map Some args) :: ifs) l3).
      { change (with_lib (lift l a s) l0) with (lift l0 a s).
        destruct (@HA ex frs ifs fn q qt args k f l0 a s Nu Sl H0) as [HF|(l3 & rest & H3 & E3 & R3)]; [now left|right].
        exists l3, rest. split; [exact H3|]. split; [|exact R3]. rewrite E3. f_equal.
        assert (EB : ex "call_base" [vi32 (Z.of_nat k); vi32 q] (lift l3 (obs a (EvEnter f (has_code fn) args)) s) =
                     resume (spec' (S n')) f fn (vi32 q) (lift l3 (obs a (EvEnter f (has_code fn) args)) s)).
        { unfold ex. rewrite (@reenter_base X m generic NE) by exact Ge. cbn [spec level vi32]. cbn [st_tables glift].
          destruct SO as (_ & _ & Ft & _). apply TypingProofs.Forall2_len in Ft. rewrite Ft. cbn [ctx_of mctx c_tables]. rewrite map_length, Nat.eqb_refl, Nat2Z.id, Nk.
          cbn [spec level]. rewrite Nf. reflexivity. }
        rewrite EB. reflexivity. }
      destruct TE as [HF|(l3 & rest & H3 & TE & RE)].
      { assert (HF' : forall e, Fo (EvEnter f (has_code fn) args :: e)) by (intros e; exact (@FL [EvEnter f (has_code fn) args] e HF)).
        destruct (plain (S n) f args s) as [[rs s1]|s1| |]; cbn [gsim]; try exact Logic.I; intros; right; right; apply HF'. }
      (* the function itself *)
      set (a1 := obs a (EvEnter f (has_code fn) args)) in *.
      destruct (@SystemProofs.resumed (A * Y) sigs lc library limit stops IM (reenter m generic (spec' n')) (spec' (S n')) (@lib_at Y A num1 num2 lc ana host infer m on generic only is n')
                  f fn 0 ifr q qt args (lift l3 a1 s) (fr :: frs) (ifr :: ifs) H3 eq_refl eq_refl eq_refl eq_refl) as (l4 & H4 & R4).
      change (with_lib (lift l3 a1 s) l4) with (lift l4 a1 s) in R4.
      assert (EB : spec' (S n') (CBase f) args (lift l4 a1 s) = own num1 num2 all_agents infer m on generic only n' (spec' n') f fn args (lift l4 a1 s)).
      { cbn [spec level]. rewrite Nf. cbn [rget rbind]. unfold fits_args. rewrite (forall2_args _ F). reflexivity. }
      rewrite EB in R4. clear EB.
      pose proof (@OS (fr :: frs) (ifr :: ifs) f fn args s l4 a1 Nf F SO (conj H4 Logic.I)) as SM.
      set (r' := own num1 num2 all_agents infer m on generic only n' (spec' n') f fn args (lift l4 a1 s)) in *. clearbody r'.
      specialize (R4 _ eq_refl). specialize (R0 _ eq_refl). rewrite TE in R0. clear TE.
      assert (TRP : forall s', r' = Trap s' -> intercepted_call (spec' (S (S (S (S n'))))) k f fn args (lift l a s) = Trap s').
      { intros s' ->. rewrite R4 in R0. exact R0. }
      pose proof (own_nested m num1 num2 host infer on generic only n f fn args s) as NE1.
      assert (DD : forall e', deep (ifr :: ifs) (own_events n f fn args s) -> deep ifs (EvEnter f (has_code fn) args :: own_events n f fn args s ++ e'))
        by (intros e'; exact (@deep_up library limit m f fn (has_code fn) args ifs ifr _ e' Nf eq_refl NE1)).
      assert (DT : forall e' b, T b (own_events n f fn args s) -> T b (EvEnter f (has_code fn) args :: own_events n f fn args s ++ e'))
        by (intros e' b H; apply (TR [_]); now apply TL).
      assert (DF : forall e', Fo (own_events n f fn args s) -> Fo (EvEnter f (has_code fn) args :: own_events n f fn args s ++ e'))
        by (intros e' H; apply (FR [_]); now apply FL).
      pose proof (@call_fn_ok Y num1 num2 host I m V U HO (S n) f (fn_type fn) args s) as TY.
      destruct (plain (S n) f args s) as [[rs s1]|s1| |] eqn:EP; cbn [gsim] in SM |- *; try exact Logic.I.
      - destruct TY as (TY & _); [cbn; now rewrite nth_error_map, Nf|exact F|exact SO|]. rewrite nf_eq in TY.
        destruct SM as [(Gd & l5 & (H5 & _) & ->)|Lo]; [|right; apply (lost_map Lo); auto; intros (s' & Es); exists s'; now apply TRP].
        cbn iota in R4. destruct (R4 (ifr :: ifs) ifr H5 eq_refl eq_refl (vals_ok_of TY)) as (l6 & E6 & H6).
        cbn [set_nth ifr fresh if_args] in H6. rewrite E6 in R0. cbn [rbind] in R0.
        set (a2 := fold_left obs (own_events n f fn args s) a1) in *.
        change (with_lib (lift l5 a2 s1) l6) with (lift l6 a2 s1) in R0.
        destruct (RE [] rs l6 a2 s1 H6) as [HF|(vs' & l7 & E7 & H7)].
        { right. right. apply (FR [_]). now apply FR. }
        left. split; [constructor; [apply GE|apply Forall_app; split; [exact Gd|constructor; [apply GL|constructor]]]|].
        rewrite E7 in R0. cbn [rbind] in R0.
        destruct (R0 eq_refl ifs rs (map Some args) H7) as (l8 & E8 & H8).
        exists l8. split; [split; [exact H8|exact Logic.I]|]. rewrite E8.
        change (with_lib (lift l7 (obs a2 (EvLeave f rs)) s1) l8) with (lift l8 (obs a2 (EvLeave f rs)) s1).
        cbn [fold_left]. rewrite fold_left_app. reflexivity.
      - intros W. pose proof (DD []) as DD0. pose proof (DT []) as DT0. pose proof (DF []) as DF0. rewrite app_nil_r in W, DD0, DT0, DF0 |- *. pose proof (Forall_inv_tail W) as W'.
        destruct (SM W') as [(l5 & H5 & Es)|Lo]; [left|right; apply (lost_map Lo); auto; intros (s' & Es); exists s'; now apply TRP].
        exists l5. split; [exact (@leaky_up (store unit) own_lib any library m f fn _ _ _ _ fr ifr _ _ Nf eq_refl NE1 H5)|]. cbn [fold_left]. now apply TRP.
    Qed.
  End Intercepted.


End Told.

Section Calls.
  Context {Y A : Type}.
  Notation X := (sys (A * Y)).
  Variable obs : A -> event -> A.
  Variable num1 : unop -> Z -> option Z.
  Variable num2 : binop -> Z -> Z -> option Z.
  Variable sigs : list functy.
  Variable lc : lib_code.
  Variable library : lib_states.
  Variable limit : Z.
  Variable stops : Prop.
  Hypothesis IM : implements sigs lc library limit stops.
  Notation agent := (@lib_agent (A * Y) lc).

  (** What it may be told without objecting; what may make it stop the program, or do anything. *)
  Variable good : event -> Prop.
  Variable Fo : list event -> Prop.
  Variable T : bool -> list event -> Prop.
  Hypothesis FL : forall e1 e2, Fo e1 -> Fo (e1 ++ e2).
  Hypothesis FR : forall e1 e2, Fo e2 -> Fo (e1 ++ e2).
  Hypothesis TL : forall b e1 e2, T b e1 -> T b (e1 ++ e2).
  Hypothesis TR : forall b e1 e2, T b e2 -> T b (e1 ++ e2).
  Hypothesis GE : forall f c args, good (EvEnter f c args).
  Hypothesis GL : forall f rs, good (EvLeave f rs).

  (** An analysis that notes what it is told and forwards it. *)
  Variable body : advice -> xprog X.
  Variable apply_body : wasm_function -> runtime_values -> runtime_values -> xprog X.
  Notation own_lib := (fun l : store unit => l).
  Notation own_state := (fun (_ : store unit) (a : A) => a).
  Definition notes_advice : Prop := forall export adv l a s,
    run_x export (body adv) (lift l a s) = run_x export (forward_body num1 num2 adv) (lift l (obs a (EvAdvice adv)) s).
  (** The same, where it need not forward everything, or where what it notes is lost if the operation traps. *)
  Definition guards_advice : Prop := forall export adv l a s, sized own_lib own_state num1 num2 export adv s ->
    good (EvAdvice adv) /\
    run_x export (body adv) (lift l a s) = run_x export (forward_body num1 num2 adv) (lift l (obs a (EvAdvice adv)) s) \/
    T false [EvAdvice adv] /\ (exists s', run_x export (body adv) (lift l a s) = Trap s') \/ Fo [EvAdvice adv] \/
    good (EvAdvice adv) /\ T true [EvAdvice adv] /\ (exists s', run_x export (body adv) (lift l a s) = Trap s') /\
    exists s', run_x export (forward_body num1 num2 adv) (lift l (obs a (EvAdvice adv)) s) = Trap s'.
  Definition notes_calls : Prop := forall export frs ifs ft q qt args k f (code : bool) l a s,
    library ((ft, q, qt) :: frs) (fresh ft args :: ifs) l ->
    exists l1 rest, library ((ft, q, qt) :: frs) (fresh ft args :: ifs) l1 /\
      run_x export (apply_body (WasmFn (Z.of_nat k) (Z.of_nat f) q (if code then 0 else 1)) (values_of ft q) (values_of ft q)) (lift l a s)
      = (let* (vs, s1) := export "call_base" [vi32 (Z.of_nat k); vi32 q] (lift l1 (obs a (EvEnter f code args)) s) in
         run_x export (rest vs) s1) /\
      forall vs rs l2 a2 s2, library ((ft, q, qt) :: frs) (IF ft (map Some rs) (map Some args) :: ifs) l2 ->
        exists vs' l3, run_x export (rest vs) (lift l2 a2 s2) = Ok (vs', lift l3 (obs a2 (EvLeave f rs)) s2) /\
          library ((ft, q, qt) :: frs) (IF ft (map Some rs) (map Some args) :: ifs) l3.
  (** The same, unless what it is told lets it do anything. *)
  Definition hands_calls : Prop := forall export frs ifs ft q qt args k f (code : bool) l a s,
    library ((ft, q, qt) :: frs) (fresh ft args :: ifs) l ->
    Fo [EvEnter f code args] \/
    exists l1 rest, library ((ft, q, qt) :: frs) (fresh ft args :: ifs) l1 /\
      run_x export (apply_body (WasmFn (Z.of_nat k) (Z.of_nat f) q (if code then 0 else 1)) (values_of ft q) (values_of ft q)) (lift l a s)
      = (let* (vs, s1) := export "call_base" [vi32 (Z.of_nat k); vi32 q] (lift l1 (obs a (EvEnter f code args)) s) in
         run_x export (rest vs) s1) /\
      forall vs rs l2 a2 s2, library ((ft, q, qt) :: frs) (IF ft (map Some rs) (map Some args) :: ifs) l2 ->
        Fo [EvLeave f rs] \/
        exists vs' l3, run_x export (rest vs) (lift l2 a2 s2) = Ok (vs', lift l3 (obs a2 (EvLeave f rs)) s2) /\
          library ((ft, q, qt) :: frs) (IF ft (map Some rs) (map Some args) :: ifs) l3.
  Lemma notes_hands_calls : notes_calls -> hands_calls.
  Proof.
    intros H export frs ifs ft q qt args k f code l a s Hl. right. destruct (H export frs ifs ft q qt args k f code l a s Hl) as (l1 & rest & A1 & A2 & A3).
    exists l1, rest. split; [exact A1|]. split; [exact A2|]. intros vs rs l2 a2 s2 H2. right. exact (A3 vs rs l2 a2 s2 H2).
  Qed.
  Hypothesis HB : guards_advice.
  Hypothesis HA : hands_calls.

  Variable host : string -> string -> list val -> xprog Y.
  Variable I : Y -> Prop.
  Variable infer : nat -> list low -> option (list ity).
  Variable m : module.
  Variable on : hook -> bool.
  Variable generic : bool.
  Variable only : option (list nat).
  Variable is : list nat.
  Notation C0 := (ctx_of m).
  Notation ok := (val_ok (List.length (md_funcs m))).
  Notation all_agents := (system lc (rs_analysis body agent apply_body) host).
  Notation spec' := (spec num1 num2 all_agents infer m on generic only is).
  Notation plain := (call_fn num1 num2 host (md_funcs m)).
  Notation trace := (trace num1 num2 host infer m on generic only).
  Notation own_events := (own_events num1 num2 host infer m on generic only).

  Hypothesis V : valid m.
  Hypothesis U : in_format m.
  Hypothesis AN : annotates infer m.
  Hypothesis HO : hosts_ok host I m (plain_xty m).
  Hypothesis NI : forall f fn ns name, nth_error (md_funcs m) f = Some fn -> fn_code fn = FImport ns name ->
    ns <> stack_ns /\ ns <> analysis_ns.
  Hypothesis NE : forall x, In x ("call_base" :: memory_names) -> ~ In x (flat_map fn_exports (md_funcs m)).
  Hypothesis IS : forall f, In f is <-> reported m generic only f = true.
  Hypothesis SG : forall f fn, In f is -> nth_error (md_funcs m) f = Some fn ->
    In (fn_type fn) sigs /\ (slots (fn_type fn) <= 8191)%Z.
  Hypothesis AC : forall f fn locals code b, nth_error (md_funcs m) f = Some fn -> fn_code fn = FPresent locals code ->
    selected m only f = true -> structure_typed f (infer f) code = COk b -> all_access on b.

  Notation any := (fun _ : store unit => True).
  Notation kept := (kept own_lib any library).
  Notation leaky := (leaky own_lib any library m).
  Notation lost := (lost limit m Fo T stops).
  Notation deep := (deep limit m).
  Notation sim_at frs ifs := (sim obs good (kept frs ifs) (leaky frs ifs) (lost ifs)).

  Lemma hooks_of n1 (Lb : store unit -> Prop) ifs h' : (forall h, h' h = true -> on h = true) ->
    hooks_sim own_lib own_state obs good Lb (lost ifs) num1 num2 h' (fun h => analysis (spec' (S n1)) (std_hook h)) (reenter m generic (spec' n1)).
  Proof.
    intros Hon h args adv l a s _ _ E Ln Sz. unfold analysis. cbn [spec level std_hook wf_type wf_name wf_args wf_results].
    assert (F : fits_args (FT (map TNum (trap_args h)) (map TNum (trap_results h))) args = true).
    { unfold fits_args. cbn [ft_in]. rewrite map_length, Ln. apply Nat.eqb_refl. }
    unfold wf_type, std_hook. cbn [wf_args wf_results]. rewrite F. set (ex := reenter m generic _) in *. clearbody ex. unfold call_import, system, agents.
    change (String.eqb analysis_ns stack_ns) with false. change (String.eqb analysis_ns analysis_ns) with true. cbn iota.
    unfold rs_analysis. assert (G : String.eqb (trap_name h) "generic_apply" = false).
    { destruct h; try (destruct t); try (destruct k); try (destruct a0, r); try (destruct o); reflexivity. }
    rewrite G, rfun_of_ok. cbn iota. unfold rfun_run. rewrite E, !run_x_bind.
    destruct (HB l a Sz) as [(Gd & ->)|[(HT & s' & ->)|[HF|(Gd & HT & (s' & ->) & s2 & HF)]]].
    - left. exists adv. split; [constructor|]. split; [exact Gd|]. now rewrite run_x_bind.
    - right. left. left. right. split; [now left|]. exists s'. reflexivity.
    - right. left. right. exact HF.
    - right. right. split; [exact Gd|]. split; [left; right; split; [now right|]; exists s'; reflexivity|]. split; [exists s'; reflexivity|]. exists s2. exact HF.
  Qed.

  Lemma told_of_calls : hands_told obs library Fo (rs_generic_apply agent apply_body).
  Proof.
    intros ex frs ifs fn q qt args k f l0 a s Nu _ H0. set (ifr := fresh (fn_type fn) args) in *. set (fr := (fn_type fn, q, qt)) in *.
    destruct (@values_new (A * Y) sigs lc library limit stops IM ex (fr :: frs) (ifr :: ifs) 0 ifr q qt eq_refl eq_refl (lift l0 a s) Nu H0) as (l1 & H1 & E1).
    destruct (@values_new (A * Y) sigs lc library limit stops IM ex (fr :: frs) (ifr :: ifs) 0 ifr q qt eq_refl eq_refl (lift l1 a s) Nu H1) as (l2 & H2 & E2).
    destruct (@HA ex frs ifs (fn_type fn) q qt args k f (has_code fn) l2 a s H2) as [HF|(l3 & rest & H3 & E3 & R3)]; [now left|right].
    exists l3, rest. split; [exact H3|]. split; [|exact R3].
    unfold rs_generic_apply, described. cbn [i32n vi32]. cbn [ifr fresh if_type] in E1, E2. rewrite E1.
    change (with_lib (lift l0 a s) l1) with (lift l1 a s). rewrite E2. change (with_lib (lift l1 a s) l2) with (lift l2 a s).
    rewrite run_x_bind. rewrite E3. reflexivity.
  Qed.

  Lemma call_sim n : forall n' frs ifs f fn args s l a, 5 * n + 2 <= n' ->
    nth_error (md_funcs m) f = Some fn -> Forall2 ok args (ft_in (fn_type fn)) ->
    store_ok C0 I s -> kept frs ifs l ->
    sim_at frs ifs (trace n f args s) a (plain n f args s) (spec' n' (CFun f) args (lift l a s)).
  Proof.
    intros n' frs ifs f fn args s l a.
    apply (@OwnProofs.call_sim Y A (store unit) A own_lib own_state any good Fo T FL FR TL TR obs num1 num2 sigs lc library limit stops
             (rs_analysis body agent apply_body) host I infer m on generic only is hooks_of V U AN HO NI NE IS SG AC).
    intros n0 n1 OS frs0 ifs0 f0 fn0 args0 s0 l0 a0. apply (@intercepted_sim Y A obs num1 num2 sigs lc library limit stops IM good Fo T FL FR TL TR GE GL
      (rs_analysis body agent apply_body) (rs_generic_apply agent apply_body) told_of_calls (fun _ => eq_refl)); assumption.
  Qed.
End Calls.

(** The environment of an output module: the library, the analysis, and the host beside them. *)
Definition all_agents {Y A} (lc : lib_code) (body : advice -> xprog (sys (A * Y))) apply_body host :
    string -> string -> list val -> xprog (sys (A * Y)) :=
  system lc (rs_analysis body (lib_agent lc) apply_body) host.
