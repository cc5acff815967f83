(** Simulation of whole calls: functions that are not selected, hosts, and the order of things
    around an intercepted function, for any analysis that forwards (towards C08, C09, C10, C34). *)
From Verif Require Import Semantics Advice RsStdlib StackLib StackNames StackRun StackOps StackSpec StackHist System
  SystemProofs AccessProofs SpecProofs Trace TraceProofs RunLemmas NestingSpec NestingProofs
  Typing TypingProofs AdvisedTyping ModuleTyping PropInstrument PropStdlib ForwardRel ForwardBody.
Local Open Scope string_scope.
Local Open Scope list_scope.
Local Open Scope res_scope.

(** ** Without hooks *)
Section Off.
  Context {X : Type}.
  Notation store := (store X).
  Notation res := (res store).
  Variable num1 : unop -> Z -> option Z.
  Variable num2 : binop -> Z -> Z -> option Z.
  Variable ftype : nat -> option functy.
  Variable call : nat -> list val -> store -> res (list val * store).
  Variable hook_call : hook -> list val -> store -> res (list val * store).
  Variable n : nat.
  Notation exec := (exec num1 num2 ftype call).
  Notation run := (run num1 num2 ftype call n).
  Notation run1 := (run1 num1 num2 ftype call n).
  Notation off := (fun _ : hook => false).
  Notation advise := (advise num1 num2 off ftype call hook_call n).
  Notation advised := (advised num1 num2 off ftype call hook_call n).
  Notation advised1 := (advised1 num1 num2 off ftype call hook_call n).

  Definition le {B} (r r' : res B) : Prop := r <> Stuck -> r' = r.
  Lemma le_refl {B} (r : res B) : le r r. Proof. now intros _. Qed.
  Lemma le_bind {B B'} (r r' : res B) (K K' : B -> res B') : le r r' -> (forall x, le (K x) (K' x)) -> le (rbind r K) (rbind r' K').
  Proof.
    intros H HK N. destruct r as [x|s| |]; cbn [rbind] in *; [|rewrite H by discriminate; reflexivity| |rewrite H by discriminate; reflexivity].
    - rewrite H by discriminate. cbn [rbind]. now apply HK.
    - now destruct N.
  Qed.
  Lemma le_andthen (r r' : res (@conf X)) k k' : le r r' -> (forall st ls s, le (k st ls s) (k' st ls s)) -> le (andthen r k) (andthen r' k').
  Proof.
    intros H HK. unfold andthen. apply le_bind; [exact H|]. intros [[[o st] ls] s]. destruct o; [apply HK|apply le_refl..].
  Qed.
  Lemma le_block b b' ft st ls s : (forall st ls s, le (b st ls s) (b' st ls s)) -> le (run_block b ft st ls s) (run_block b' ft st ls s).
  Proof.
    intros H. unfold run_block. apply le_bind; [apply le_refl|]. intros [ps rest].
    apply le_bind; [apply H|]. intros [[[o st'] ls'] s']. apply le_refl.
  Qed.
  Lemma le_loop b b' ft st ls s : (forall st ls s, le (b st ls s) (b' st ls s)) -> le (run_loop n b ft st ls s) (run_loop n b' ft st ls s).
  Proof.
    intros H. unfold run_loop. apply le_bind; [apply le_refl|]. intros [ps rest].
    generalize (List.length (ft_in ft)). intros nin. clear st. revert ps ls s.
    induction n as [|k IH]; intros ps ls s; [apply le_refl|]. cbn [run_iter].
    apply le_bind; [apply H|]. intros [[[o st'] ls'] s']. destruct o as [|[|d]|]; try apply le_refl.
    apply le_bind; [apply le_refl|]. intros [ps' r']. apply IH.
  Qed.

  Lemma off_basic m b st ls s : le (advise m b st ls s) (exec b st ls s).
  Proof.
    destruct b; try apply le_refl; unfold Advice.advise, before, after, instead_of, consult; cbn iota;
      repeat match goal with o : localop |- _ => destruct o | o : globalop |- _ => destruct o end; try apply le_refl;
      change (fun (st ls : list val) (s : store) => next st ls s) with (@next X); rewrite ?andthen_next; try apply le_refl.
    all: repeat match goal with
      | |- le Stuck _ => let N := fresh in intros N; now destruct N
      | |- le (rbind (rget ?x) _) _ => destruct x; cbn [rget rbind]
      | |- le (if ?c then _ else _) _ => destruct c
      | |- le (match ?x with _ => _ end) _ => destruct x
      | |- _ => rewrite ?andthen_next; apply le_refl
      end.
  Qed.

  Lemma off_inside (b b' : list val -> list val -> store -> res (@conf X)) st ls s :
    (forall st ls s, le (b st ls s) (b' st ls s)) -> le (inside next next b st ls s) (b' st ls s).
  Proof. intros H. unfold inside. change (andthen (next st ls s) ?k) with (k st ls s). cbn beta. rewrite andthen_next. apply H. Qed.

  Lemma off_advised b : forall st ls s, le (advised b st ls s) (run (map strip b) st ls s).
  Proof.
    induction b as [|m b r IHr|m ft body r IHb IHr|m ft body r IHb IHr|m ft thn r IHt IHr|m ft thn els r IHt IHe IHr]
      using tbody_ind; intros st ls s; unfold Advice.advised, Semantics.run; cbn [map run_seq strip]; [apply le_refl|..];
      (apply le_andthen; [|exact IHr]); cbn [Advice.advised1 Semantics.run1].
    - apply off_basic.
    - apply le_block. intros. now apply off_inside.
    - apply le_loop. intros. now apply off_inside.
    - change (andthen (consult _ _ _ _ _ _ st ls s) ?k) with (k st ls s). cbn beta.
      apply le_bind; [apply le_refl|]. intros [c st']. destruct (c =? 0)%Z; apply le_block; intros; [apply le_refl|].
      now apply off_inside.
    - change (andthen (consult _ _ _ _ _ _ st ls s) ?k) with (k st ls s). cbn beta.
      apply le_bind; [apply le_refl|]. intros [c st']. destruct (c =? 0)%Z; apply le_block; intros; now apply off_inside.
  Qed.
End Off.

(** ** Hosts *)
Section Hosts.
  Context {Y A L0 B0 : Type}.
  Notation X := (sys (B0 * Y)).
  Variable lib_part : L0 -> store unit.
  Variable ana_part : L0 -> A -> B0.
  Notation lift := (glift lib_part ana_part).
  Variable obs : A -> event -> A.
  Variable good : event -> Prop.
  Variables (Lb : L0 -> Prop) (Lt : list event -> L0 -> Prop) (D : bool -> list event -> Prop -> Prop).
  Hypothesis Cl : closed Lb Lt D.
  Notation sim := (gsim lib_part ana_part obs good Lb Lt D).
  Variable I : Y -> Prop.
  Variable C : ctx.
  Variable xty : string -> option functy.
  Variable export : string -> list val -> store Y -> res (store Y) (list val * store Y).
  Variable texport : string -> list val -> store Y -> list event.
  Variable export' : string -> list val -> store X -> res (store X) (list val * store X).
  Notation ok := (val_ok (List.length (c_funcs C))).
  Hypothesis HT : forall name ft args s, xty name = Some ft -> Forall2 ok args (ft_in ft) -> store_ok C I s ->
    call_res I C (ft_out ft) (export name args s).
  Hypothesis HX : forall name ft args s l a, xty name = Some ft -> Forall2 ok args (ft_in ft) -> store_ok C I s -> Lb l ->
    sim (texport name args s) a (export name args s) (export' name args (lift l a s)).

  Lemma host_sim ts p : forall s l a, agent_ok C I xty ts p -> store_ok C I s -> Lb l ->
    sim (events_x export texport p s) a (run_x export p s) (run_x export' (beside (aside p)) (lift l a s)).
  Proof.
    induction p as [vs| | |k IH|x m g p IH|name args k IH]; intros s l a AO SO Hl; cbn [agent_ok events_x run_x beside aside] in *.
    - now apply (@sim_ok Y A L0 B0 lib_part ana_part obs good Lb Lt D (list val)).
    - now apply (@sim_trap Y A L0 B0 lib_part ana_part obs good Lb Lt D Cl (list val)).
    - exact Logic.I.
    - change (st_x (lift l a s)) with (lib_part l, (ana_part l a, st_x s)). cbn [fst snd]. apply IH; [apply AO; apply SO|exact SO|exact Hl].
    - change (st_x (lift l a s)) with (lib_part l, (ana_part l a, st_x s)). cbn [fst snd].
      change (set_view (lift l a s) (lib_part l, (ana_part l a, x)) m g) with (lift l a (set_view s x m g)).
      destruct AO as (A1 & A2 & A3 & AO). apply IH; [exact AO| |exact Hl].
      destruct SO as (? & ? & ? & ? & ? & ?). unfold store_ok; cbn. repeat split; auto; try apply A2.
    - destruct AO as (ft & E & F & AO). pose proof (@HT _ _ _ _ E F SO) as R.
      apply (@sim_bind Y A L0 B0 lib_part ana_part obs good Lb Lt D Cl (list val)); [now apply (@HX _ ft)|intros s' ->; reflexivity|].
      intros vs s1 l1 E1 Hl1. rewrite E1 in R |- *. destruct R as (R1 & R2). apply IH; auto.
  Qed.
End Hosts.

(** ** Calls *)
Lemma no_export x fs : ~ In x (flat_map fn_exports fs) -> forall k, export_index k fs x = None.
Proof.
  induction fs as [|fn fs IH]; intros E0 k; [reflexivity|].
  simpl in *. destruct (existsb (String.eqb x) (fn_exports fn)) eqn:E.
  - apply existsb_exists in E as (y & Hy & Ey). apply String.eqb_eq in Ey. subst y. destruct E0. apply in_app_iff. now left.
  - apply IH. intros H. apply E0. apply in_app_iff. now right.
Qed.

(** *** Buffer space and the invariant *)
Section Space.
  Context {L0 : Type}.
  Variable lib_part : L0 -> store unit.
  (** What the analysis keeps about its state, and the events after which nothing is claimed. *)
  Variable Inv : L0 -> Prop.
  Variable library : lib_states.
  Variable limit : Z.
  Variable m : module.
  Definition kept (frs : list frame) (ifs : list iframe) (l : L0) : Prop := library frs ifs (lib_part l) /\ Inv l.

  (** At some point among the events the buffers of pending calls exceed what there is. *)
  Notation usage := (usage m).
  Definition deep (ifs : list iframe) (evs : list event) : Prop := exists p mid q, evs = p ++ mid ++ q /\
    (limit < live (map if_type ifs) + usage mid)%Z.
  (** After a trap, buffers of abandoned calls are left. *)
  Definition leaky (frs : list frame) (ifs : list iframe) (evs : list event) (l : L0) : Prop :=
    exists frs0 ifs0 p q, evs = p ++ q /\ (live (map if_type ifs0) <= usage q)%Z /\ kept (frs0 ++ frs) (ifs0 ++ ifs) l.

  Lemma leaky_up f fn c args frs ifs fr ifr e l : nth_error (md_funcs m) f = Some fn -> if_type ifr = fn_type fn -> nested m e ->
    leaky (fr :: frs) (ifr :: ifs) e l -> leaky frs ifs (EvEnter f c args :: e) l.
  Proof.
    intros Nf Et Ne (frs0 & ifs0 & p & q & -> & L & H). exists (frs0 ++ [fr]), (ifs0 ++ [ifr]), [], (EvEnter f c args :: p ++ q).
    rewrite <- !app_assoc. split; [reflexivity|]. split; [|exact H].
    rewrite map_app, live_app. cbn [map live Trace.usage]. rewrite Et, (bytes_of _ _ Nf), usage_app. specialize (Ne p q eq_refl). lia.
  Qed.
  Lemma deep_up f fn c args ifs ifr e e' : nth_error (md_funcs m) f = Some fn -> if_type ifr = fn_type fn -> nested m e ->
    deep (ifr :: ifs) e -> deep ifs (EvEnter f c args :: e ++ e').
  Proof.
    intros Nf Et Ne (p & mid & q & -> & H). exists [], (EvEnter f c args :: p ++ mid), (q ++ e').
    split; [cbn; now rewrite <- !app_assoc|]. cbn [map live Trace.usage] in *. rewrite Et in H. rewrite (bytes_of _ _ Nf), usage_app.
    specialize (Ne p _ eq_refl). lia.
  Qed.
  Lemma deep_now f fn c args ifs e : nth_error (md_funcs m) f = Some fn ->
    (limit < live (map if_type ifs) + frame_bytes (fn_type fn))%Z -> deep ifs (EvEnter f c args :: e).
  Proof.
    intros Nf H. exists [], [EvEnter f c args], e. split; [reflexivity|]. cbn [Trace.usage]. rewrite (bytes_of _ _ Nf). lia.
  Qed.
  Variable Fo : list event -> Prop.
  (** What else may let the instrumented run trap: where the plain run does not, and where it does. *)
  Variable T : bool -> list event -> Prop.
  (** Whether running out of space lets it trap, or leads to anything. *)
  Variable stops : Prop.
  Definition lost (ifs : list iframe) (traps : bool) (evs : list event) (P : Prop) : Prop :=
    (deep ifs evs /\ (stops -> P) \/ (T false evs \/ traps = true /\ T true evs) /\ P) \/ Fo evs.
  Lemma lost_map ifs b e (P : Prop) ifs' e' (Q : Prop) : lost ifs b e P -> (deep ifs e -> deep ifs' e') -> (forall b, T b e -> T b e') -> (Fo e -> Fo e') -> (P -> Q) ->
    lost ifs' b e' Q.
  Proof. intros [[(D & HP)|([HT|(B & HT)] & HP)]|F] HD HTT HF PQ; [left; left; auto|left; right; auto|left; right; split; auto; right; auto|right; auto]. Qed.
  Hypothesis FL : forall e1 e2, Fo e1 -> Fo (e1 ++ e2).
  Hypothesis FR : forall e1 e2, Fo e2 -> Fo (e1 ++ e2).
  Hypothesis TL : forall b e1 e2, T b e1 -> T b (e1 ++ e2).
  Hypothesis TR : forall b e1 e2, T b e2 -> T b (e1 ++ e2).
  Lemma closed_at frs ifs : closed (kept frs ifs) (leaky frs ifs) (lost ifs).
  Proof.
    constructor.
    - intros e l H. exists [], [], e, []. rewrite app_nil_r. split; [reflexivity|]. split; [simpl; lia|exact H].
    - intros e1 e2 l (frs0 & ifs0 & p & q & -> & H). exists frs0, ifs0, (e1 ++ p), q. now rewrite app_assoc.
    - intros b e P Q PQ [[(H & HP)|(H & HP)]|H]; [left; left; auto|left; right; auto|right; auto].
    - intros b e1 e2 P [[((p & mid & q & -> & H) & HP)|(H & HP)]|H]; [left; left; split; [|exact HP]|left; right; split; [|exact HP]|right; now apply FL].
      + exists p, mid, (q ++ e2). now rewrite <- !app_assoc.
      + destruct H as [H|(B & H)]; [left; now apply TL|right; split; [exact B|now apply TL]].
    - intros b e1 e2 P [[((p & mid & q & -> & H) & HP)|(H & HP)]|H]; [left; left; split; [|exact HP]|left; right; split; [|exact HP]|right; now apply FR].
      + exists (e1 ++ p), mid, q. now rewrite <- !app_assoc.
      + destruct H as [H|(B & H)]; [left; now apply TR|right; split; [exact B|now apply TR]].
    - intros e P [[H|([H|(B & H)] & HP)]|H]; [left; left; exact H|left; right; auto|discriminate B|right; exact H].
  Qed.
End Space.

(** *** What the analysis can call *)
Section Reenter.
  Context {X : Type}.
  Variable m : module.
  Variable generic : bool.
  Hypothesis NE : forall x, In x ("call_base" :: memory_names) -> ~ In x (flat_map fn_exports (md_funcs m)).
  Lemma not_exported x : In x ("call_base" :: memory_names) -> export_index 0 (md_funcs m) x = None.
  Proof.
    intros H. apply no_export. now apply NE.
  Qed.
  Lemma reenter_export rec name g args s : export_index 0 (md_funcs m) name = Some g ->
    reenter (X := X) m generic rec name args s = rec (CFun g) args s.
  Proof. intros E. unfold reenter, export_callee. now rewrite E. Qed.
  Lemma reenter_load rec o args s : reenter (X := X) m generic rec (load_target o) args s = rec (CLoad o) args s.
  Proof.
    unfold reenter, export_callee. rewrite not_exported by (destruct o; right; vm_compute; tauto).
    destruct generic; destruct o; reflexivity.
  Qed.
  Lemma reenter_store rec o args s : reenter (X := X) m generic rec (fst (store_target o)) args s = rec (CStore o) args s.
  Proof.
    unfold reenter, export_callee. rewrite not_exported by (destruct o; right; vm_compute; tauto).
    destruct generic; destruct o; reflexivity.
  Qed.
  Lemma reenter_grow rec args s : reenter (X := X) m generic rec "instrumented_memory_grow" args s = rec CGrow args s.
  Proof.
    unfold reenter, export_callee. rewrite not_exported by (right; vm_compute; tauto). destruct generic; reflexivity.
  Qed.
  Lemma reenter_size rec args s : reenter (X := X) m generic rec "instrumented_memory_size" args s = rec CSize args s.
  Proof.
    unfold reenter, export_callee. rewrite not_exported by (right; vm_compute; tauto). destruct generic; reflexivity.
  Qed.
  Lemma reenter_base rec args s : generic = true -> reenter (X := X) m generic rec "call_base" args s = rec CCallBase args s.
  Proof. intros ->. unfold reenter, export_callee. now rewrite not_exported by (left; reflexivity). Qed.
End Reenter.

(** *** Intercepted functions *)
Section Intercepts.
  Variable m : module.
  Variable generic : bool.
  Variable only : option (list nat).
  Variable is : list nat.
  Hypothesis IS : forall f, In f is <-> reported m generic only f = true.
  Lemma position_In f l : In f l -> exists k, position f l = Some k.
  Proof.
    intros H. destruct (position f l) as [k|] eqn:E; [eauto|]. now apply position_None in E.
  Qed.
  Lemma is_generic f : In f is -> generic = true.
  Proof. intros H. apply IS in H. unfold reported in H. now destruct generic. Qed.
  Lemma is_numeric f fn : In f is -> nth_error (md_funcs m) f = Some fn -> numeric_sig (fn_type fn) = true.
  Proof.
    intros H E. apply IS in H. unfold reported, selected_incl in H. rewrite E in H.
    apply andb_true_iff in H as [_ H]. apply andb_true_iff in H as [H _]. unfold uses_refs in H. unfold numeric_sig.
    destruct (existsb is_ref (ft_in _)), (existsb is_ref (ft_out _)); try discriminate; reflexivity.
  Qed.
End Intercepts.
Section Library.
  Context {Y B0 : Type}.
  Notation X := (sys (B0 * Y)).
  Variable num1 : unop -> Z -> option Z.
  Variable num2 : binop -> Z -> Z -> option Z.
  Variable sigs : list functy.
  Variable lc : lib_code.
  Variable library : lib_states.
  Variable limit : Z.
  Variable stops : Prop.
  Hypothesis IM : implements sigs lc library limit stops.
  Notation agent := (@lib_agent (B0 * Y) lc).
  (** The analysis and the host. *)
  Variable ana : string -> list val -> xprog X.
  Variable host : string -> string -> list val -> xprog Y.
  Definition system : string -> string -> list val -> xprog X :=
    agents lc ana (fun ns name args => aside (host ns name args)).
  Variable infer : nat -> list low -> option (list ity).
  Variable m : module.
  Variable on : hook -> bool.
  Variable generic : bool.
  Variable only : option (list nat).
  Variable is : list nat.
  Notation spec' := (spec num1 num2 system infer m on generic only is).
  Lemma lib_at n0 ft o args (s : store X) : fits_args (libop_type ft o) args = true ->
    spec' (S n0) (CImport (libop_type ft o) stack_ns (op_name ft o)) args s =
    let* (rs, s') := run_x (reenter m generic (spec' n0)) (agent (op_name ft o) args) s in
    if vals_ok (ft_out (libop_type ft o)) rs then Ok (rs, s') else Stuck.
  Proof. intros F. cbn [spec level]. rewrite F. reflexivity. Qed.
  (** No space for the buffers. *)
  Lemma enter_full n0 frs ifs (s : store X) k f fn args : stops -> library frs ifs (fst (st_x s)) -> In (fn_type fn) sigs ->
    (slots (fn_type fn) <= 8191)%Z -> numeric_sig (fn_type fn) = true -> vals_ok (ft_in (fn_type fn)) args = true ->
    (limit < live (map if_type ifs) + frame_bytes (fn_type fn))%Z ->
    exists s', intercepted_call (spec' (S n0)) k f fn args s = Trap s'.
  Proof.
    intros St Hl In_ Sl Nu Vs R. set (ft := fn_type fn) in *.
    assert (Sl' : (Z.of_nat (List.length (ft_out ft) + List.length (ft_in ft)) <= 8191)%Z) by (unfold slots in Sl; lia).
    unfold intercepted_call, Advice.lib. fold ft.
    rewrite lib_at by (unfold fits_args; cbn [libop_type ft_in]; apply Nat.eqb_eq; now apply vals_ok_len). rewrite run_lib_agent.
    destruct (@im_full _ _ _ _ _ IM St frs ifs _ ft args Hl In_ Nu Vs Sl' R) as [(l' & ->)|(q & l1 & l' & -> & Rq & E2)]; [cbn [rbind]; eauto|].
    cbn [rbind]. change (vals_ok (ft_out (libop_type ft LAlloc))) with (vals_ok [t_i32]). rewrite (@vi32_ok q) by exact Rq. cbn [rbind].
    rewrite lib_at by reflexivity. rewrite run_lib_agent. cbn [st_x with_lib fst]. rewrite E2. cbn [rbind]. eauto.
  Qed.

  Variable told : list val -> xprog X.
  Lemma told_at n0 args (s : store X) : (forall args, ana "generic_apply" args = told args) -> List.length args = 7 ->
    Advice.analysis (spec' (S n0)) generic_apply args s =
    let* (rs, s') := run_x (reenter m generic (spec' n0)) (told args) s in
    if vals_ok [] rs then Ok (rs, s') else Stuck.
  Proof.
    intros Ea Ln. rewrite <- Ea. unfold Advice.analysis. cbn [spec level]. unfold fits_args. rewrite Ln. reflexivity.
  Qed.
End Library.

Section Calls.
  Context {Y A L0 B0 : Type}.
  Notation X := (sys (B0 * Y)).
  Variable lib_part : L0 -> store unit.
  Variable ana_part : L0 -> A -> B0.
  Notation lift := (glift lib_part ana_part).
  Notation sim := (gsim lib_part ana_part).
  Variable Inv : L0 -> Prop.
  Variable good : event -> Prop.
  Variable Fo : list event -> Prop.
  Variable T : bool -> list event -> Prop.
  Hypothesis FL : forall e1 e2, Fo e1 -> Fo (e1 ++ e2).
  Hypothesis FR : forall e1 e2, Fo e2 -> Fo (e1 ++ e2).
  Hypothesis TL : forall b e1 e2, T b e1 -> T b (e1 ++ e2).
  Hypothesis TR : forall b e1 e2, T b e2 -> T b (e1 ++ e2).
  Variable obs : A -> event -> A.
  Variable num1 : unop -> Z -> option Z.
  Variable num2 : binop -> Z -> Z -> option Z.
  Variable sigs : list functy.
  Variable lc : lib_code.
  Variable library : lib_states.
  Variable limit : Z.
  Variable stops : Prop.
  Hypothesis IM : implements sigs lc library limit stops.
  Notation agent := (@lib_agent (B0 * Y) lc).

  (** The analysis. *)
  Variable ana : string -> list val -> xprog X.
  Variable host : string -> string -> list val -> xprog Y.
  Variable I : Y -> Prop.
  Variable infer : nat -> list low -> option (list ity).
  Variable m : module.
  Variable on : hook -> bool.
  Variable generic : bool.
  Variable only : option (list nat).
  Variable is : list nat.
  Notation C0 := (ctx_of m).
  Notation ok := (val_ok (List.length (md_funcs m))).
  Notation system := (system lc ana host).
  Notation kept := (kept lib_part Inv library).
  Notation leaky := (leaky lib_part Inv library m).
  Notation lost := (lost limit m Fo T stops).
  Notation deep := (deep limit m).
  Notation closed_at := (@closed_at L0 lib_part Inv library limit m Fo T stops FL FR TL TR).
  Notation spec' := (spec num1 num2 system infer m on generic only is).
  Notation plain := (call_fn num1 num2 host (md_funcs m)).
  Notation trace := (trace num1 num2 host infer m on generic only).
  Hypothesis HK : forall n1 Lb ifs h', (forall h, h' h = true -> on h = true) ->
    hooks_sim lib_part ana_part obs good Lb (lost ifs) num1 num2 h' (fun h => analysis (spec' (S n1)) (std_hook h)) (reenter m generic (spec' n1)).

  Hypothesis V : valid m.
  Hypothesis U : in_format m.
  Hypothesis AN : annotates infer m.
  Hypothesis HO : hosts_ok host I m (plain_xty m).
  Hypothesis NI : forall f fn ns name, nth_error (md_funcs m) f = Some fn -> fn_code fn = FImport ns name ->
    ns <> stack_ns /\ ns <> analysis_ns.
  Hypothesis NE : forall x, In x ("call_base" :: memory_names) -> ~ In x (flat_map fn_exports (md_funcs m)).
  Hypothesis IS : forall f, In f is <-> reported m generic only f = true.
  Hypothesis SG : forall f fn, In f is -> nth_error (md_funcs m) f = Some fn ->
    In (fn_type fn) sigs /\ (slots (fn_type fn) <= 8191)%Z.
  Hypothesis AC : forall f fn locals code b, nth_error (md_funcs m) f = Some fn -> fn_code fn = FPresent locals code ->
    selected m only f = true -> structure_typed f (infer f) code = COk b -> all_access on b.

  Notation sim_at frs ifs := (sim obs good (kept frs ifs) (leaky frs ifs) (lost ifs)).

  Lemma memory_of n1 C : c_mem C = c_mem C0 -> 1 <= n1 -> memory_sim lib_part ana_part (reenter m generic (spec' n1)) C.
  Proof.
    intros EC Ln E. rewrite EC, <- (@mem_flag m V [] (fun f H => match H with end)) in E. destruct n1 as [|n1]; [lia|].
    split; [|split; [|split]]; intros.
    - rewrite (@reenter_load X m generic NE). cbn [spec level vi32]. rewrite E. cbn [st_mem glift].
      destruct (st_mem s) as [me|]; cbn [rget rbind]; [|reflexivity]. destruct (mem_load _ _ _); reflexivity.
    - rewrite (@reenter_store X m generic NE). cbn [spec level vi32]. rewrite E, (proj2 (numty_eqb_eq _ _) eq_refl). cbn [st_mem glift].
      destruct (st_mem s) as [me|]; cbn [rget rbind]; [|reflexivity]. destruct (mem_store _ _ _ _); reflexivity.
    - rewrite (@reenter_grow X m generic NE). cbn [spec level vi32]. rewrite E. cbn [st_mem glift].
      destruct (st_mem s) as [me|]; cbn [rget rbind]; [|reflexivity]. destruct (mem_grow _ _); reflexivity.
    - rewrite (@reenter_size X m generic NE). cbn [spec level]. rewrite E. cbn [st_mem glift].
      destruct (st_mem s) as [me|]; cbn [rget rbind]; reflexivity.
  Qed.
  (** *** Own code *)
  Notation own_events := (own_events num1 num2 host infer m on generic only).
  Lemma invoke_sim (Lb : L0 -> Prop) Lt D (Cl : closed Lb Lt D) e a l (b : list val -> list val -> store Y -> res (store Y) (@conf Y)) b' ft locals args s : Lb l ->
    sim obs good Lb Lt D (B := out * list val * list val) e a (b [] (args ++ map default_val locals) s) (b' [] (args ++ map default_val locals) (lift l a s)) ->
    sim obs good Lb Lt D e a (invoke b ft locals args s) (invoke b' ft locals args (lift l a s)).
  Proof.
    intros Hl H. unfold invoke. rewrite <- (app_nil_r e).
    apply (@sim_bind Y A L0 B0 lib_part ana_part obs good Lb Lt D Cl (out * list val * list val) (list val)); [exact H|reflexivity|].
    intros [[o st] ls] s1 l1 E Hl1. destruct (popn _ st) as [[rs rest]|]; [|exact Logic.I]. cbn [rget rbind].
    destruct o as [|[|d]|]; try exact Logic.I.
    - destruct rest; [|exact Logic.I]. now apply (@sim_ok Y A L0 B0 lib_part ana_part obs good Lb Lt D (list val)).
    - now apply (@sim_ok Y A L0 B0 lib_part ana_part obs good Lb Lt D (list val)).
    - now apply (@sim_ok Y A L0 B0 lib_part ana_part obs good Lb Lt D (list val)).
  Qed.

  Section Own.
    Variables (n n' : nat) (frs : list frame) (ifs : list iframe).
    Hypothesis Ln : n <= n'.
    Hypothesis L2 : 2 <= n'.
    Hypothesis IH : forall f fn args s l a, nth_error (md_funcs m) f = Some fn -> Forall2 ok args (ft_in (fn_type fn)) ->
      store_ok C0 I s -> kept frs ifs l ->
      sim_at frs ifs (trace n f args s) a (plain n f args s) (spec' n' (CFun f) args (lift l a s)).

    Lemma plain_fine f ft args s : nth_error (c_funcs C0) f = Some ft -> Forall2 ok args (ft_in ft) -> store_ok C0 I s ->
      call_res I C0 (ft_out ft) (plain n f args s).
    Proof. intros. now apply call_fn_ok. Qed.

    Lemma own_sim f fn args s l a : nth_error (md_funcs m) f = Some fn -> Forall2 ok args (ft_in (fn_type fn)) ->
      store_ok C0 I s -> kept frs ifs l ->
      sim_at frs ifs (own_events n f fn args s) a (plain (S n) f args s)
        (own num1 num2 system infer m on generic only n' (spec' n') f fn args (lift l a s)).
    Proof.
      intros Nf F D Hl. cbn [call_fn]. rewrite Nf. cbn [rget rbind]. rewrite (forall2_args _ F).
      unfold own, own_events. destruct (fn_code fn) as [ns name|locals code] eqn:EC.
      - destruct (NI _ Nf EC) as (N1 & N2). unfold call_import.
        assert (Ea : system ns name args = beside (aside (host ns name args))).
        { unfold system, agents. destruct (String.eqb_spec ns stack_ns); [congruence|].
          destruct (String.eqb_spec ns analysis_ns); [congruence|reflexivity]. }
        rewrite Ea, <- (app_nil_r (events_x _ _ _ _)).
        apply (@sim_bind Y A L0 B0 lib_part ana_part obs good _ _ _ (closed_at frs ifs) (list val) (list val)); [|reflexivity|].
        + apply (@host_sim Y A L0 B0 lib_part ana_part obs good (kept frs ifs) (leaky frs ifs) (lost ifs) (closed_at frs ifs) I C0 (plain_xty m)) with (ts := ft_out (fn_type fn)).
          * intros nm ft args1 s1 E F1 D1. unfold plain_xty in E. destruct (export_index 0 (md_funcs m) nm) as [g|]; [|discriminate].
            cbn [rget rbind]. apply plain_fine; [cbn; now rewrite nth_error_map|now rewrite nf_eq in F1|exact D1].
          * intros nm ft args1 s1 l1 a1 E F1 D1 Hl1. unfold plain_xty in E.
            destruct (export_index 0 (md_funcs m) nm) as [g|] eqn:EI; [|discriminate]. cbn [rget rbind].
            rewrite (@reenter_export X m generic _ _ _ _ _ EI).
            destruct (nth_error (md_funcs m) g) as [gn|] eqn:Ng; [|discriminate]. injection E as <-.
            rewrite nf_eq in F1. apply (@IH g gn); assumption.
          * apply (@HO f fn ns name); assumption.
          * exact D.
          * exact Hl.
        + intros rs s1 l1 _ Hl1. destruct (vals_ok _ rs); [|exact Logic.I]. now apply (@sim_ok Y A L0 B0 lib_part ana_part obs good _ _ _ (list val)).
      - destruct (structured V _ Nf EC) as (b & Sb). rewrite Sb.
        destruct (AN _ Nf EC) as (tys & tb & E1 & E2 & E3 & E4). rewrite E3.
        pose proof (@strip_typed f (infer f) code tys tb b E1 E2 E3 Sb) as ES.
        pose proof (fn_valid V _ Nf) as FV. unfold func_ok in FV. rewrite EC in FV.
        destruct FV as (b' & S' & Ty). assert (b' = b) by congruence. subst b' b.
        set (C := mctx m (ft_in (fn_type fn) ++ locals) (ft_out (fn_type fn))) in *.
        assert (M : mid_ok I C [] (args ++ map default_val locals) s []).
        { split; [constructor|]. split; [|exact D]. unfold C. cbn [c_locals mctx c_funcs].
          apply Forall2_app; [rewrite map_length; exact F|apply defaults_ok]. }
        destruct n' as [|n1]; [lia|].
        assert (SIM : forall h, (forall x, h x = true -> on x = true) -> all_access h tb ->
          sim_at frs ifs (events num1 num2 (ftype_of (md_funcs m)) (plain n) (trace n) h n tb [] (args ++ map default_val locals) s) a
            (run num1 num2 (ftype_of (md_funcs m)) (plain n) n (map strip tb) [] (args ++ map default_val locals) s)
            (advised num1 num2 h (ftype_of (md_funcs m)) (fun f => spec' (S n1) (CFun f))
               (fun x => analysis (spec' (S n1)) (std_hook x)) (S n1) tb [] (args ++ map default_val locals) (lift l a s))).
        { intros h Hh HAc.
          apply (@advised_sim Y A L0 B0 lib_part ana_part obs good (kept frs ifs) (leaky frs ifs) (lost ifs) (closed_at frs ifs) num1 num2 I
                   (ftype_of (md_funcs m)) (plain n) (trace n) (fun f => spec' (S n1) (CFun f)) h
                   (fun x => analysis (spec' (S n1)) (std_hook x)) (reenter m generic (spec' n1)) n (S n1))
            with (C := C) (ts := []) (ts' := rev (ft_out (fn_type fn))).
          - exact Ln.
          - lia.
          - apply HK. exact Hh.
          - apply calls_fine. exact plain_fine.
          - intros g gt args1 s1 l1 a1 Ng F1 D1 Hl1. unfold C in Ng, F1. cbn [c_funcs mctx] in Ng, F1. rewrite map_length in F1.
            destruct (@get_fn m g gt Ng) as (gn & Eg & <-). apply (@IH g gn); assumption.
          - apply memory_of; [reflexivity|lia].
          - eapply typed_tame; eauto.
          - exact HAc.
          - eapply body_representable; eauto.
          - exact Ty.
          - exact E4.
          - exact M.
          - exact Hl. }
        destruct (selected m only f) eqn:SE.
        + apply invoke_sim; [apply closed_at|exact Hl|]. apply SIM; [auto|]. eapply AC; eauto.
        + apply invoke_sim; [apply closed_at|exact Hl|].
          apply (@sim_le Y A L0 B0 lib_part ana_part obs (out * list val * list val) good _ _ _ (closed_at frs ifs)) with
            (r' := advised num1 num2 (fun _ => false) (ftype_of (md_funcs m)) (fun f => spec' (S n1) (CFun f))
               (fun x => analysis (spec' (S n1)) (std_hook x)) (S n1) tb [] (args ++ map default_val locals) (lift l a s)).
          * apply off_advised.
          * apply SIM; [discriminate|]. intros m0 b0 _. destruct b0; try exact Logic.I; discriminate.
    Qed.
  End Own.

  (** *** All calls *)
  Definition own_simulated (n n' : nat) : Prop := forall frs ifs f fn args s l a,
    nth_error (md_funcs m) f = Some fn -> Forall2 ok args (ft_in (fn_type fn)) -> store_ok C0 I s -> kept frs ifs l ->
    sim_at frs ifs (own_events n f fn args s) a (plain (S n) f args s)
      (own num1 num2 system infer m on generic only n' (spec' n') f fn args (lift l a s)).
  Definition intercepted_simulated (n n' : nat) : Prop := forall frs ifs f fn args s l a,
    In f is -> nth_error (md_funcs m) f = Some fn -> Forall2 ok args (ft_in (fn_type fn)) ->
    store_ok C0 I s -> kept frs ifs l ->
    sim_at frs ifs (trace (S n) f args s) a (plain (S n) f args s)
      (spec' (S (S (S (S (S n'))))) (CFun f) args (lift l a s)).
  Hypothesis HI : forall n n', own_simulated n n' -> intercepted_simulated n n'.
  Lemma call_sim n : forall n' frs ifs f fn args s l a, 5 * n + 2 <= n' ->
    nth_error (md_funcs m) f = Some fn -> Forall2 ok args (ft_in (fn_type fn)) ->
    store_ok C0 I s -> kept frs ifs l ->
    sim_at frs ifs (trace n f args s) a (plain n f args s) (spec' n' (CFun f) args (lift l a s)).
  Proof.
    induction n as [|n IH]; intros n' frs ifs f fn args s l a Ln Nf F SO Hl; [exact Logic.I|].
    assert (Nn : exists k, n' = S (S (S (S (S k))))) by (exists (n' - 5); lia). destruct Nn as (k & ->).
    destruct (in_dec Nat.eq_dec f is) as [Hi|Ni].
    - apply (@HI n k) with (fn := fn); auto. intros frs1 ifs1 g gn args1 s1 l1 a1 Ng F1 SO1 Hl1.
      apply own_sim; auto; [lia|lia|]. intros. apply IH with (fn := fn0); auto. lia.
    - rewrite (@trace_S Y num1 num2 host infer m on generic only n f fn args s Nf).
      assert (RP : reported m generic only f = false).
      { destruct (reported m generic only f) eqn:E; [|reflexivity]. apply IS in E. contradiction. }
      rewrite RP.
      assert (PN : position f is = None) by (destruct (position f is) eqn:E; [apply position_Some, nth_error_In in E; contradiction|reflexivity]).
      set (k4 := S (S (S (S k)))) in *.
      assert (E0 : spec' (S k4) (CFun f) args (lift l a s) = own num1 num2 system infer m on generic only k4 (spec' k4) f fn args (lift l a s)).
      { cbn [spec level]. rewrite Nf. cbn [rget rbind]. unfold fits_args. rewrite (forall2_args _ F), PN. reflexivity. }
      rewrite E0.
      apply own_sim; auto; [lia|lia|]. intros. apply IH with (fn := fn0); auto. lia.
  Qed.
End Calls.
