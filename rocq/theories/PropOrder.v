(** Property theorem C29: the order in which the instrumentation visits the selected functions
    (hash sets in the code, instrument/mod.rs L127-150 and L263, function_application.rs L125, L198) does
    not show in the behaviour of the output. *)
From Coq Require Import Permutation.
From Verif Require Import Semantics RunLemmas Advice Instantiate Instrument ExModule Typing ModuleTyping InstantiateTyping
  TypingProofs Handles RsStdlib StackRun StackSpec Trace System Recorder PropSpec PropTyping.
Local Open Scope string_scope.
Local Open Scope list_scope.
Local Open Scope res_scope.

(** Memory, globals, data segments, agents' state, and the tables and element segments of the
    original module agree. *)
Definition agree {X} (m : module) (s s' : store X) : Prop :=
  st_mem s' = st_mem s /\ st_globals s' = st_globals s /\ st_datas s' = st_datas s /\ st_x s' = st_x s /\
  firstn (List.length (md_tables m)) (st_tables s') = firstn (List.length (md_tables m)) (st_tables s) /\
  firstn (List.length (md_elems m)) (st_elems s') = firstn (List.length (md_elems m)) (st_elems s).
(** Two sessions with the same outcomes. *)
Definition same_outcome {X O} (m : module) (r r' : res (store X) (O * store X)) : Prop :=
  match r, r' with
  | Ok (outs, s), Ok (outs', s') => outs' = outs /\ agree m s s'
  | Trap s, Trap s' => agree m s s'
  | Oof, Oof => True
  | _, _ => False
  end.

Lemma agree_extends {X} (I : X -> Prop) m s s1 s2 : store_ok (mctx m [] []) I s -> extends s s1 -> extends s s2 -> agree m s1 s2.
Proof.
  intros (_ & _ & T & E & _ & _) (A1 & A2 & A3 & A4 & (t1 & A5) & e1 & A6) (B1 & B2 & B3 & B4 & (t2 & B5) & e2 & B6).
  assert (LT : List.length (md_tables m) = List.length (st_tables s)).
  { rewrite (Forall2_len T). unfold mctx. simpl. now rewrite map_length. }
  assert (LE : List.length (md_elems m) = List.length (st_elems s)).
  { rewrite (Forall2_len E). unfold mctx. simpl. now rewrite map_length. }
  unfold agree. rewrite A1, A2, A3, A4, A5, A6, B1, B2, B3, B4, B5, B6, LT, LE.
  rewrite !firstn_app, !Nat.sub_diag, !firstn_O, !app_nil_r. repeat split.
Qed.

Lemma intercepts_perm m generic only ord_i ord_i' : (forall l, Permutation (ord_i l) l) -> (forall l, Permutation (ord_i' l) l) ->
  Permutation (intercepts m generic only ord_i) (intercepts m generic only ord_i').
Proof.
  intros Pi Pi'. unfold intercepts. destruct generic; [|apply perm_nil].
  eapply Permutation_trans; [apply Pi|]. apply Permutation_sym, Pi'.
Qed.
Lemma no_call_base m : (forall fn, In fn (md_funcs m) -> ~ In "call_base" (fn_exports fn)) ->
  export_index 0 (md_funcs m) "call_base" = None.
Proof.
  generalize 0. generalize (md_funcs m). induction l as [|fn l IH]; intros k H; [reflexivity|]. cbn [export_index].
  destruct (existsb (String.eqb "call_base") (fn_exports fn)) eqn:E.
  - apply existsb_exists in E as (y & Hy & Ey). apply String.eqb_eq in Ey. subst y. destruct (H fn (or_introl eq_refl) Hy).
  - apply IH. intros g Hg. apply H. now right.
Qed.

Section Orders.
  Variable X : Type.
  Variable num1 : unop -> Z -> option Z.
  Variable num2 : binop -> Z -> Z -> option Z.
  Variable I : X -> Prop.
  Variable infer : nat -> list low -> option (list ity).
  Variable m : module.
  Variable on : hook -> bool.
  Variable generic : bool.
  Variable only : option (list nat).
  Variable imp : provided.
  Variables ord_i ord_c ord_i' ord_c' : list nat -> list nat.
  Variables m1 m2 : module.
  Variables lib1 lib2 : option (list functy).
  Hypothesis Pi : forall l, Permutation (ord_i l) l.
  Hypothesis Pc : forall l, Permutation (ord_c l) l.
  Hypothesis Pi' : forall l, Permutation (ord_i' l) l.
  Hypothesis Pc' : forall l, Permutation (ord_c' l) l.
  Hypothesis E1 : instrument ord_i ord_c infer m (std_ai on generic) only = IOk m1 lib1.
  Hypothesis E2 : instrument ord_i' ord_c' infer m (std_ai on generic) only = IOk m2 lib2.
  Hypothesis V : valid m.
  Hypothesis U : in_format m.
  Hypothesis A : annotates infer m.
  Hypothesis PV : provided_ok m imp.
  Notation is := (intercepts m generic only ord_i).
  Notation is' := (intercepts m generic only ord_i').
  (** Names the instrumentation uses are not names of the program. *)
  Hypothesis Ni : forall fn ns name, In fn (md_funcs m) -> fn_code fn = FImport ns name ->
    ~ (ns = analysis_ns /\ name = "generic_apply").
  Hypothesis Nx : forall fn, In fn (md_funcs m) -> ~ In "call_base" (fn_exports fn).

  Definition typed_calls (calls : list (string * list val)) : Prop :=
    Forall (fun c => exists ft, spec_xty m generic is (fst c) = Some ft /\
                                Forall2 (val_ok (List.length (md_funcs m))) (snd c) (ft_in ft)) calls.

  Lemma orders_spec ext ext' fuel x calls calls' :
    agents_ok ext I m on generic is -> I x -> typed_calls calls ->
    spec_module num1 num2 ext infer on generic only is fuel imp m x calls
    = spec_module num1 num2 ext' infer on generic only is' fuel imp m x calls' ->
    same_outcome m (run_module num1 num2 ext fuel imp m1 x calls) (run_module num1 num2 ext' fuel imp m2 x calls').
  Proof.
    intros G Ix F EQ.
    pose proof (@C16_sessions X num1 num2 ext I infer m on generic only ord_i imp V U A PV Pi G fuel x calls Ix F) as W.
    pose proof (@C07_sessions X num1 num2 ext ord_i ord_c infer m on generic only m1 lib1 Pi Pc E1 fuel imp x calls) as R1.
    pose proof (@C07_sessions X num1 num2 ext' ord_i' ord_c' infer m on generic only m2 lib2 Pi' Pc' E2 fuel imp x calls') as R2.
    cbv zeta in R1, R2. fold is in R1. fold is' in R2. rewrite <- EQ in R2. clear EQ. unfold same_outcome.
    destruct (spec_module num1 num2 ext infer on generic only is fuel imp m x calls) as [[os s]|s| |]; [| |destruct W|].
    - destruct (run_module num1 num2 ext fuel imp m1 x calls) as [[os1 s1]|s1| |]; try contradiction.
      destruct (run_module num1 num2 ext' fuel imp m2 x calls') as [[os2 s2]|s2| |]; try contradiction.
      destruct R1 as (-> & R1), R2 as (-> & R2). split; [reflexivity|]. eapply agree_extends; eassumption.
    - destruct (run_module num1 num2 ext fuel imp m1 x calls) as [[os1 s1]|s1| |]; try contradiction.
      destruct (run_module num1 num2 ext' fuel imp m2 x calls') as [[os2 s2]|s2| |]; try contradiction.
      eapply agree_extends; eassumption.
    - destruct (run_module num1 num2 ext fuel imp m1 x calls) as [[os1 s1]|s1| |]; try contradiction.
      destruct (run_module num1 num2 ext' fuel imp m2 x calls') as [[os2 s2]|s2| |]; try contradiction. exact R1.
  Qed.

  (** Agents that do the same with the handles of either table. *)
  Lemma orders_alike ext ext' : agents_ok ext I m on generic is -> do_alike is is' ext ext' ->
    forall fuel x calls, I x -> typed_calls calls ->
    same_outcome m (run_module num1 num2 ext fuel imp m1 x calls)
      (run_module num1 num2 ext' fuel imp m2 x (map (fun c => (fst c, rename_call is is' (fst c) (snd c))) calls)).
  Proof.
    intros G AL fuel x calls Ix F. apply orders_spec; auto.
    apply spec_module_ext; auto; [now apply intercepts_perm|now apply no_call_base].
  Qed.
End Orders.

(** C29, any agents: for two visiting orders, sessions with the two outputs have the same
    outcomes if the numbers by which the analysis resumes intercepted functions are translated. *)
Theorem C29_handles : forall X num1 num2 (ext : string -> string -> list val -> xprog X) (I : X -> Prop)
    infer m on generic only imp ord_i ord_c ord_i' ord_c' m1 m2 lib1 lib2,
  (forall l, Permutation (ord_i l) l) -> (forall l, Permutation (ord_c l) l) ->
  (forall l, Permutation (ord_i' l) l) -> (forall l, Permutation (ord_c' l) l) ->
  instrument ord_i ord_c infer m (std_ai on generic) only = IOk m1 lib1 ->
  instrument ord_i' ord_c' infer m (std_ai on generic) only = IOk m2 lib2 ->
  valid m -> in_format m -> annotates infer m -> provided_ok m imp ->
  (forall fn ns name, In fn (md_funcs m) -> fn_code fn = FImport ns name -> ~ (ns = analysis_ns /\ name = "generic_apply")) ->
  (forall fn, In fn (md_funcs m) -> ~ In "call_base" (fn_exports fn)) ->
  let is := intercepts m generic only ord_i in
  let is' := intercepts m generic only ord_i' in
  agents_ok ext I m on generic is ->
  forall fuel x calls, I x -> typed_calls m generic only ord_i calls ->
  same_outcome m
    (run_module num1 num2 ext fuel imp m1 x calls)
    (run_module num1 num2 (renamed is is' ext) fuel imp m2 x
       (map (fun c => (fst c, rename_call is is' (fst c) (snd c))) calls)).
Proof.
  intros X num1 num2 ext I infer m on generic only imp oi oc oi' oc' m1 m2 l1 l2 Pi Pc Pi' Pc' E1 E2 V U A PV Ni Nx is is' G fuel x calls Ix F.
  eapply orders_alike with (ord_i := oi) (ord_c := oc) (ord_i' := oi') (ord_c' := oc'); try eassumption. apply renamed_alike.
Qed.
Print Assumptions C29_handles.

(** C29, the same agents with both outputs: agents that only hand the number back to
    [call_base]. *)
Lemma outside_calls is is' calls : (forall c, In c calls -> fst c <> "call_base") ->
  map (fun c => (fst c, rename_call is is' (fst c) (snd c))) calls = calls.
Proof.
  intros H. rewrite <- (map_id calls) at 2. apply map_ext_in. intros [n args] Hc. cbn [fst snd]. unfold rename_call.
  pose proof (H _ Hc) as D. cbn [fst] in D. now rewrite (proj2 (String.eqb_neq _ _) D).
Qed.
Theorem C29_opaque : forall X num1 num2 (ext : string -> string -> list val -> xprog X) (I : X -> Prop)
    infer m on generic only imp ord_i ord_c ord_i' ord_c' m1 m2 lib1 lib2,
  (forall l, Permutation (ord_i l) l) -> (forall l, Permutation (ord_c l) l) ->
  (forall l, Permutation (ord_i' l) l) -> (forall l, Permutation (ord_c' l) l) ->
  instrument ord_i ord_c infer m (std_ai on generic) only = IOk m1 lib1 ->
  instrument ord_i' ord_c' infer m (std_ai on generic) only = IOk m2 lib2 ->
  valid m -> in_format m -> annotates infer m -> provided_ok m imp ->
  (forall fn ns name, In fn (md_funcs m) -> fn_code fn = FImport ns name -> ~ (ns = analysis_ns /\ name = "generic_apply")) ->
  (forall fn, In fn (md_funcs m) -> ~ In "call_base" (fn_exports fn)) ->
  agents_ok ext I m on generic (intercepts m generic only ord_i) ->
  do_alike (intercepts m generic only ord_i) (intercepts m generic only ord_i') ext ext ->
  forall fuel x calls, I x -> typed_calls m generic only ord_i calls -> (forall c, In c calls -> fst c <> "call_base") ->
  same_outcome m (run_module num1 num2 ext fuel imp m1 x calls) (run_module num1 num2 ext fuel imp m2 x calls).
Proof.
  intros X num1 num2 ext I infer m on generic only imp oi oc oi' oc' m1 m2 l1 l2 Pi Pc Pi' Pc' E1 E2 V U A PV Ni Nx G AL fuel x calls Ix F C.
  rewrite <- (outside_calls (intercepts m generic only oi) (intercepts m generic only oi') _ C) at 2.
  eapply orders_alike with (ord_i := oi) (ord_c := oc) (ord_i' := oi') (ord_c' := oc'); eassumption.
Qed.
Print Assumptions C29_opaque.

(** C29 without interception: no condition on the agents at all. *)
Theorem C29_specialised : forall X num1 num2 (ext : string -> string -> list val -> xprog X) (I : X -> Prop)
    infer m on only imp ord_i ord_c ord_i' ord_c' m1 m2 lib1 lib2,
  (forall l, Permutation (ord_i l) l) -> (forall l, Permutation (ord_c l) l) ->
  (forall l, Permutation (ord_i' l) l) -> (forall l, Permutation (ord_c' l) l) ->
  instrument ord_i ord_c infer m (std_ai on false) only = IOk m1 lib1 ->
  instrument ord_i' ord_c' infer m (std_ai on false) only = IOk m2 lib2 ->
  valid m -> in_format m -> annotates infer m -> provided_ok m imp ->
  agents_ok ext I m on false [] ->
  forall fuel x calls, I x -> typed_calls m false only ord_i calls ->
  same_outcome m (run_module num1 num2 ext fuel imp m1 x calls) (run_module num1 num2 ext fuel imp m2 x calls).
Proof.
  intros X num1 num2 ext I infer m on only imp oi oc oi' oc' m1 m2 l1 l2 Pi Pc Pi' Pc' E1 E2 V U A PV G fuel x calls Ix F.
  eapply orders_spec with (ord_i := oi) (ord_c := oc) (ord_i' := oi') (ord_c' := oc'); eauto.
Qed.
Print Assumptions C29_specialised.

(** ** Rust analyses *)
(** Programs that do not resume an intercepted function. *)
Inductive quiet {X} : xprog X -> Prop :=
| qu_ret vs : quiet (XRet vs)
| qu_trap : quiet XTrap
| qu_stuck : quiet XStuck
| qu_get k : (forall x me g, quiet (k x me g)) -> quiet (XGet k)
| qu_put x me g k : quiet k -> quiet (XPut x me g k)
| qu_call name args k : name <> "call_base" -> (forall vs, quiet (k vs)) -> quiet (XCall name args k).
Lemma quiet_sim {X} a b (p : xprog X) : quiet p -> xsim a b p p.
Proof.
  induction 1 as [vs| | |k _ IH|x me g k _ IH|name args k N _ IH]; try (constructor; auto; fail).
  replace args with (rename_call a b name args) at 2; [now constructor|].
  unfold rename_call. now rewrite (proj2 (String.eqb_neq _ _) N).
Qed.
Lemma xsim_bind {X} a b (p q : xprog X) k k' : xsim a b p q -> (forall vs, xsim a b (k vs) (k' vs)) -> xsim a b (xbind p k) (xbind q k').
Proof. intros S K. induction S; simpl; auto; constructor; auto. Qed.

Section Rust.
  Context {Y : Type}.
  Notation X := (sys Y).
  Variable lc : lib_code.
  Notation agent := (@lib_agent Y lc).
  Variables a b : list nat.
  Variable body : advice -> xprog X.
  Variable apply_body : wasm_function -> runtime_values -> runtime_values -> xprog X.
  Variable host : string -> string -> list val -> xprog Y.
  Hypothesis Hbody : forall adv, quiet (body adv).
  Hypothesis Hhost : forall ns name args, quiet (host ns name args).
  (** The body of the [apply] advice does the same whatever the number in its [WasmFunction]. *)
  Hypothesis Happly : forall f k j i sigv code args ress, position f a = Some k -> position f b = Some j ->
    xsim a b (apply_body (WasmFn (Z.of_nat k) i sigv code) args ress) (apply_body (WasmFn (Z.of_nat j) i sigv code) args ress).

  Lemma quiet_agent name args : quiet (agent name args).
  Proof.
    unfold lib_agent. constructor. intros x me g.
    destruct (lc _ _ _) as [[vs l]|l| |]; repeat constructor.
  Qed.
  Lemma quiet_beside (p : xprog Y) : quiet p -> quiet (beside p).
  Proof. induction 1; cbn [beside]; repeat (constructor; auto). Qed.
  Lemma quiet_run r args : xsim a b (rfun_run body r args) (rfun_run body r args).
  Proof.
    unfold rfun_run. destruct (rfun_advice r args) as [adv|]; [|constructor]. apply xsim_bind; [apply quiet_sim, Hbody|].
    intros vs. apply quiet_sim. unfold rfun_return.
    repeat match goal with |- quiet (match ?c with _ => _ end) => destruct c end; constructor.
  Qed.
  Lemma load_types_sim n i p acc k k' : (forall ts, xsim a b (k ts) (k' ts)) ->
    xsim a b (load_types agent n i p acc k) (load_types agent n i p acc k').
  Proof.
    intros K. revert i acc. induction n as [|n IH]; intros i acc; cbn [load_types]; [apply K|].
    apply xsim_bind; [apply quiet_sim, quiet_agent|]. intros vs.
    destruct vs as [|[[] c|] [|]]; try constructor. destruct (wasm_type_from c); [apply IH|constructor].
  Qed.
  Lemma rust_alike : do_alike a b (agents lc (rs_analysis body agent apply_body) host)
                                  (agents lc (rs_analysis body agent apply_body) host).
  Proof.
    split.
    - intros ns name args H. unfold agents. destruct (String.eqb ns stack_ns); [apply quiet_sim, quiet_agent|].
      destruct (String.eqb_spec ns analysis_ns) as [->|D]; [|apply quiet_sim, quiet_beside, Hhost].
      unfold rs_analysis. destruct (String.eqb_spec name "generic_apply") as [->|D]; [destruct H; now split|].
      destruct (find _ rs_exports) as [[nm r]|]; [apply quiet_run|constructor].
    - intros f k j args A B. unfold agents. cbn [String.eqb]. 
      change (String.eqb analysis_ns stack_ns) with false. rewrite String.eqb_refl. cbv iota.
      unfold rs_analysis. rewrite String.eqb_refl. unfold rs_generic_apply, i32n, vi32.
      destruct args as [|[t1 i|] [|[t2 argc|] [|[t3 resc|] [|[t4 sigv|] [|[t5 sigtypv|] [|[t6 code|] [|]]]]]]]; try constructor.
      apply load_types_sim. intros ts. apply load_types_sim. intros ts'.
      apply xsim_bind; [eapply Happly; eassumption|]. intros vs. constructor.
  Qed.
End Rust.

(** The forwarding and the recording analysis only resume the function they are told about. *)
Lemma quiet_forward {X} num1 num2 adv : quiet (@forward_body X num1 num2 adv).
Proof.
  destruct adv; cbn [forward_body]; unfold load_perform, store_perform, memory_index_grow;
    try (apply qu_ret).
  all: try (match goal with o : storeop |- _ => destruct o end; cbn [store_target]).
  all: try (match goal with o : loadop |- _ => destruct o end; cbn [load_target]).
  all: repeat match goal with |- quiet (match ?c with _ => _ end) => destruct c end.
  all: repeat constructor; discriminate.
Qed.
Lemma forward_opaque {X} a b f k j i sigv code args ress : position f a = Some k -> position f b = Some j ->
  xsim (X := X) a b (forward_apply (WasmFn (Z.of_nat k) i sigv code) args ress) (forward_apply (WasmFn (Z.of_nat j) i sigv code) args ress).
Proof.
  intros A B. unfold forward_apply, wasm_function_apply. cbn [wf_apply wf_sigv].
  replace [vi32 (Z.of_nat j); vi32 sigv] with (rename_call a b "call_base" [vi32 (Z.of_nat k); vi32 sigv]).
  - constructor. intros vs. constructor.
  - unfold rename_call. rewrite String.eqb_refl. cbn [rename_first vi32].
    now rewrite (rename_position _ _ _ B A).
Qed.

(** C29 for Rust analyses and any buffer library: same agents with both outputs. The
    disjunct [Stuck] is a type error of the agents (C16). *)
Theorem C29_rust : forall (Y : Type) num1 num2 (lc : lib_code) (body : advice -> xprog (sys Y)) apply_body host
    infer m on generic only imp ord_i ord_c ord_i' ord_c' m1 m2 lib1 lib2,
  (forall l, Permutation (ord_i l) l) -> (forall l, Permutation (ord_c l) l) ->
  (forall l, Permutation (ord_i' l) l) -> (forall l, Permutation (ord_c' l) l) ->
  instrument ord_i ord_c infer m (std_ai on generic) only = IOk m1 lib1 ->
  instrument ord_i' ord_c' infer m (std_ai on generic) only = IOk m2 lib2 ->
  (forall fn ns name, In fn (md_funcs m) -> fn_code fn = FImport ns name -> ~ (ns = analysis_ns /\ name = "generic_apply")) ->
  (forall fn, In fn (md_funcs m) -> ~ In "call_base" (fn_exports fn)) ->
  let is := intercepts m generic only ord_i in
  let is' := intercepts m generic only ord_i' in
  let ext := agents lc (rs_analysis body (lib_agent lc) apply_body) host in
  (forall adv, quiet (body adv)) -> (forall ns name args, quiet (host ns name args)) ->
  (forall f k j i sigv code args ress, position f is = Some k -> position f is' = Some j ->
     xsim is is' (apply_body (WasmFn (Z.of_nat k) i sigv code) args ress) (apply_body (WasmFn (Z.of_nat j) i sigv code) args ress)) ->
  forall fuel x calls, (forall c, In c calls -> fst c <> "call_base") ->
  spec_module num1 num2 ext infer on generic only is fuel imp m x calls = Stuck \/
  match run_module num1 num2 ext fuel imp m1 x calls, run_module num1 num2 ext fuel imp m2 x calls with
  | Ok (outs, s1), Ok (outs', s2) => outs' = outs /\ exists s, extends s s1 /\ extends s s2
  | Trap s1, Trap s2 => exists s, extends s s1 /\ extends s s2
  | Oof, Oof => True
  | _, _ => False
  end.
Proof.
  intros Y num1 num2 lc body apply_body host infer m on generic only imp oi oc oi' oc' m1 m2 l1 l2
    Pi Pc Pi' Pc' E1 E2 Ni Nx is is' ext Hb Hh Ha fuel x calls C.
  assert (PM : Permutation is is') by (now apply intercepts_perm).
  assert (AL : do_alike is is' ext ext) by (now apply rust_alike).
  pose proof (@spec_module_ext _ num1 num2 ext ext infer m on generic only is is' PM Ni (no_call_base _ Nx) AL fuel imp x calls) as EQ.
  rewrite (outside_calls is is' _ C) in EQ.
  pose proof (@C07_sessions _ num1 num2 ext oi oc infer m on generic only m1 l1 Pi Pc E1 fuel imp x calls) as R1.
  pose proof (@C07_sessions _ num1 num2 ext oi' oc' infer m on generic only m2 l2 Pi' Pc' E2 fuel imp x calls) as R2.
  cbv zeta in R1, R2. fold (intercepts m generic only oi) in R1. fold (intercepts m generic only oi') in R2.
  fold is in R1. fold is' in R2. rewrite <- EQ in R2. clear EQ AL. clearbody ext.
  destruct (spec_module num1 num2 ext infer on generic only is fuel imp m x calls) as [[os s]|s| |]; [right|right|left; reflexivity|right];
    destruct (run_module num1 num2 ext fuel imp m1 x calls) as [[os1 s1]|s1| |]; try contradiction;
    destruct (run_module num1 num2 ext fuel imp m2 x calls) as [[os2 s2]|s2| |]; try contradiction.
  - destruct R1 as (-> & R1), R2 as (-> & R2). split; [reflexivity|]. now exists s.
  - now exists s.
  - exact Logic.I.
Qed.
Print Assumptions C29_rust.

(** ** Examples *)
(** Agents of the example session; they only hand the number back. *)
Definition ex_polite (ns name : string) (args : list val) : xprog (list (string * list val)) :=
  if String.eqb ns stack_ns || String.eqb ns analysis_ns then ex_agent ns name args else ex_log ns name args.
Lemma quiet_log ns name args : quiet (ex_log ns name args).
Proof. unfold ex_log. constructor. intros. constructor. constructor. Qed.
Lemma ex_opaque a b : do_alike a b ex_polite ex_polite.
Proof.
  split.
  - intros ns name args H. apply quiet_sim. unfold ex_polite, ex_agent.
    destruct (String.eqb ns stack_ns); [destruct (find _ ex_buffers); constructor|].
    destruct (String.eqb_spec ns analysis_ns) as [->|D]; [|apply quiet_log]. cbn [orb].
    destruct (String.eqb_spec name "generic_apply") as [->|D]; [destruct H; now split|apply quiet_log].
  - intros f k j args A B. unfold ex_polite, ex_agent.
    change (String.eqb analysis_ns stack_ns) with false. rewrite !String.eqb_refl. cbn [orb].
    destruct args as [|a1 [|a2 [|a3 [|buf r]]]]; try constructor.
    replace [i32n j; buf] with (rename_call a b "call_base" [i32n k; buf]); [constructor; intros; constructor|].
    unfold rename_call, i32n, vi32. rewrite String.eqb_refl. cbn [rename_first]. now rewrite (rename_position _ _ _ B A).
Qed.
Lemma ex_polite_ok is : agents_ok ex_agent (fun _ => True) ex_module ex_on true is -> agents_ok ex_polite (fun _ => True) ex_module ex_on true is.
Proof.
  intros H ft ns name args W F. specialize (H ft ns name args W F).
  assert (EQ : ex_polite ns name args = ex_agent ns name args); [|now rewrite EQ].
  unfold ex_polite. destruct W as [f fn ns' nm N EC|h O|f Hf|f fn o Hf N Ho].
  - destruct f as [|[|[|[|[|f]]]]]; simpl in N; try discriminate N; injection N as <-; try discriminate EC.
    injection EC as <- <-. reflexivity.
  - rewrite String.eqb_refl, orb_true_r. reflexivity.
  - rewrite String.eqb_refl, orb_true_r. reflexivity.
  - rewrite String.eqb_refl. reflexivity.
Qed.
Definition ex_rev_out (on : hook -> bool) (generic : bool) : option module :=
  match instrument (@rev nat) (@rev nat) ex_infer ex_module (std_ai on generic) None with IOk m' _ => Some m' | _ => None end.
Definition ex_id_out (on : hook -> bool) (generic : bool) : option module :=
  match instrument ex_id ex_id ex_infer ex_module (std_ai on generic) None with IOk m' _ => Some m' | _ => None end.
(** The conditions on Rust analyses hold of the forwarding analysis with any silent host. *)
Example ex_rust_conditions : 
  (forall adv, quiet (forward_body (X := sys unit) ex_num1 ex_num2 adv)) /\
  (forall f k j i sigv code args ress, position f [0; 1; 2] = Some k -> position f [2; 1; 0] = Some j ->
     xsim (X := sys unit) [0; 1; 2] [2; 1; 0] (forward_apply (WasmFn (Z.of_nat k) i sigv code) args ress)
       (forward_apply (WasmFn (Z.of_nat j) i sigv code) args ress)).
Proof. split; [apply quiet_forward|intros; eapply forward_opaque; eassumption]. Qed.

(** Two orders, two different tables of the intercepted functions, same session. *)
Definition ex_both (ext : string -> string -> list val -> xprog (list (string * list val))) :=
  match ex_id_out ex_on true, ex_rev_out ex_on true with
  | Some m1, Some m2 =>
      match run_module ex_num1 ex_num2 ext 30 ex_imports m1 [] ex_calls,
            run_module ex_num1 ex_num2 ext 30 ex_imports m2 [] ex_calls with
      | Ok (o1, s1), Ok (o2, s2) => Some (o1, o2, st_x s1, st_x s2)
      | _, _ => None
      end
  | _, _ => None
  end.
Example ex_orders :
  intercepts ex_module true None ex_id = [0; 1; 2] /\ intercepts ex_module true None (@rev nat) = [2; 1; 0] /\
  do_alike (intercepts ex_module true None ex_id) (intercepts ex_module true None (@rev nat)) ex_polite ex_polite /\
  agents_ok ex_polite (fun _ => True) ex_module ex_on true (intercepts ex_module true None ex_id) /\
  typed_calls ex_module true None ex_id ex_calls /\
  (forall fn ns name, In fn (md_funcs ex_module) -> fn_code fn = FImport ns name -> ~ (ns = analysis_ns /\ name = "generic_apply")) /\
  (forall fn, In fn (md_funcs ex_module) -> ~ In "call_base" (fn_exports fn)) /\
  (forall c, In c ex_calls -> fst c <> "call_base") /\
  match ex_both ex_polite with
  | Some (o1, o2, x1, x2) => o1 = [Some [vi32 0]; Some [vi32 0]; Some [vi32 0]; Some [vi32 1]] /\ o2 = o1 /\ List.length x1 = 31 /\ x2 = x1
  | None => False
  end.
Proof.
  split; [reflexivity|]. split; [reflexivity|]. split; [apply ex_opaque|]. split; [exact (ex_polite_ok ex_agents)|].
  split. { repeat (apply Forall_cons; [eexists; split; [reflexivity|repeat constructor]|]). apply Forall_nil. }
  split.
  { intros fn ns name H E (-> & ->). simpl in H. intuition; subst; discriminate. }
  split. { intros fn H. simpl in H. intuition; subst; simpl in *; intuition discriminate. }
  split. { intros c H. simpl in H. intuition; subst; discriminate. }
  vm_compute. repeat split.
Qed.
(** An analysis that looks at the number sees the order: the translation in [C29_handles] is needed. *)
Definition ex_nosy (ns name : string) (args : list val) : xprog (list (string * list val)) :=
  if String.eqb ns analysis_ns && String.eqb name "generic_apply"
  then XGet (fun x me g => XPut (x ++ [(name, firstn 2 args)]) me g (ex_polite ns name args))
  else ex_polite ns name args.
Definition told (x : list (string * list val)) : list (list val) :=
  map snd (filter (fun e => String.eqb (fst e) "generic_apply") x).
Example ex_order_visible :
  match ex_both ex_nosy with
  | Some (o1, o2, x1, x2) => o2 = o1 /\ nth_error (told x1) 1 = Some [i32n 2; i32n 2] /\ nth_error (told x2) 1 = Some [i32n 0; i32n 2]
  | None => False
  end.
Proof. vm_compute. repeat split. Qed.
