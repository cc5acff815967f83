(** Property theorems C34 and C35: the memoizing analysis
    (wastrumentation-instr-lib/tests/analyses/rust/pure-functions-memoization), in the system
    consisting of the output module, its buffer library, the compiled analysis and the host. *)
From Coq Require Import Permutation.
From Verif Require Import Semantics Advice RsStdlib StackLib StackRun StackSpec PropStack System SystemProofs Instantiate Trace TraceProofs
  Typing ModuleTyping InstantiateTyping Checker ExModule PropInstrument PropSpec PropTyping ForwardRel ForwardBody OwnProofs SessionProofs
  NestingSpec NestingProofs Purity PuritySpec PropPurity PropTransparent Analyses Memo MemoProofs MemoSession.
Local Open Scope string_scope.
Local Open Scope list_scope.

Section Memoized.
  Context {Y : Type}.
  Variable num1 : unop -> Z -> option Z.
  Variable num2 : binop -> Z -> Z -> option Z.
  Variable N : nat.
  Hypothesis Big : (70010 <= Z.of_nat N)%Z.
  Variable host : string -> string -> list val -> xprog Y.
  Variable I : Y -> Prop.
  Variables ord_i ord_c : list nat -> list nat.
  Variable infer : nat -> list low -> option (list ity).
  Variable m : module.
  Variable only : option (list nat).
  Variable imp : provided.
  Variable m' : module.
  Variable sigs : list functy.
  Hypothesis Pi : forall l, Permutation (ord_i l) l.
  Hypothesis Pc : forall l, Permutation (ord_c l) l.
  (** The analysis has one advice, [apply]: no hooks on instructions. *)
  Notation on := (fun _ : hook => false).
  Hypothesis E : instrument ord_i ord_c infer m (std_ai on true) only = IOk m' (Some sigs).
  Hypothesis V : valid m.
  Hypothesis U : in_format m.
  Hypothesis AN : annotates infer m.
  Hypothesis PV : provided_ok m imp.
  Hypothesis HO : hosts_ok host I m (plain_xty m).
  Notation is := (intercepts m true only ord_i).
  Hypothesis CO : compatible m on is.
  Variables n fuel : nat.
  Hypothesis Fu : 5 * n + 2 <= fuel.
  Notation plain_module := (run_module num1 num2 host n imp m).
  Notation module_trace := (module_trace num1 num2 host infer m on true only n imp).
  Notation typed_calls := (Forall (fun c => exists ft, plain_xty m (fst c) = Some ft /\
                                     Forall2 (val_ok (List.length (md_funcs m))) (snd c) (ft_in ft))).

  (** The system with the memoizing analysis and the generated buffer library. *)
  Notation lc := (wat_lib num1 num2 sigs N).
  Definition with_wat_library := memoizing (Y := Y) host lc.
  Notation memoizing := with_wat_library.
  Notation pure_interception := (pure_interception (Y := Y) num1 num2 host ord_i m only).
  Notation few_calls := (few_calls num1 num2 host infer m only imp n).
  Lemma wat_start : library sigs [] [] (lib_start tt).
  Proof. exists 0%Z, 1%Z, (fun _ => 0%Z). split; [reflexivity|]. apply start_inv. Qed.
  (** C34: a session of the original module, traps included, goes the same way under the memoizing
      analysis: every call has the same outcome, and memory, globals, tables and the host's state
      are the same after it. This holds up to the end of the session or up to a call that traps because of
      the analysis; the latter only if more than 1024 distinct cacheable calls are made, or buffer
      space runs out. *)
  Notation memoized x := (run_module num1 num2 memoizing fuel imp m' (lib_start tt, (empty_memo, x))).
  Theorem C34_memoization : forall x calls outs s, I x -> typed_calls calls -> pure_interception ->
    plain_module x calls = Ok (outs, s) ->
    same_until (plain_module x) (memoized x) calls outs
      (~ few_calls x calls \/ ~ enough_space num1 num2 host infer m on true only imp n x calls).
  Proof.
    intros x calls outs s Ix T PU R.
    destruct (@memoized_any Y num1 num2 host I ord_i ord_c infer m only imp m' sigs lc (library sigs) limit True (@wat_implements num1 num2 sigs N Big)
      (lib_start tt) wat_start Pi Pc E V U AN PV HO CO n fuel Fu x calls outs s Ix T PU R (or_introl Logic.I)) as [H|(calls1 & rest & s1 & s' & P1 & P2 & P3 & P4 & _ & P6)]; [left; exact H|right].
    exists calls1, rest, s1, s'. auto.
  Qed.
  (** Within these bounds the whole session has the same outcomes, and each cached result is the
      one the function returns on these arguments in any state. *)
  Corollary C34_within_capacity : forall x calls outs s, I x -> typed_calls calls -> pure_interception ->
    plain_module x calls = Ok (outs, s) ->
    enough_space num1 num2 host infer m on true only imp n x calls -> few_calls x calls ->
    exists s', memoized x calls = Ok (outs, s') /\ same_program s s' /\
      forall k rs, In (k, rs) (m_cache (fst (snd (st_x s')))) -> right_entry num1 num2 host m k rs.
  Proof.
    intros x calls outs s Ix T PU R Sp Fc. exact (@memoized_within Y num1 num2 host I ord_i ord_c infer m only imp m' sigs lc (library sigs) limit True (@wat_implements num1 num2 sigs N Big)
      (lib_start tt) wat_start Pi Pc E V U AN PV HO CO n fuel Fu x calls outs s Ix T PU R Sp Fc).
  Qed.
  (** The same of instantiation that traps. *)
  Theorem C34_failing_start : forall x calls s, I x -> typed_calls calls -> pure_interception ->
    plain_module x calls = Trap s -> exists s', memoized x calls = Trap s'.
  Proof.
    intros x calls s Ix T PU R. exact (@memoized_trap Y num1 num2 host I ord_i ord_c infer m only imp m' sigs lc (library sigs) limit True (@wat_implements num1 num2 sigs N Big)
      (lib_start tt) wat_start Pi Pc E V U AN PV HO CO n fuel Fu x calls s Ix T PU R (or_introl Logic.I)).
  Qed.
End Memoized.
(** C34 for the functions the purity analysis of the tool reports (C31-C33), when those are the
    targets of the instrumentation. *)
Corollary C34_reported_functions :
  forall Y num1 num2 N (Big : (70010 <= Z.of_nat N)%Z) host (I : Y -> Prop) ord_i ord_c infer m k rounds fs imp m' sigs,
  (forall l, Permutation (ord_i l) l) -> (forall l, Permutation (ord_c l) l) ->
  (forall f, same_length_oracle (infer f)) -> immutable_functions k infer m = Immutable rounds fs ->
  instrument ord_i ord_c infer m (std_ai (fun _ => false) true) (Some fs) = IOk m' (Some sigs) ->
  valid m -> in_format m -> annotates infer m -> provided_ok m imp -> hosts_ok host I m (plain_xty m) ->
  compatible m (fun _ => false) (intercepts m true (Some fs) ord_i) ->
  forall n fuel, 5 * n + 2 <= fuel -> forall x calls outs s, I x ->
  Forall (fun c => exists ft, plain_xty m (fst c) = Some ft /\ Forall2 (val_ok (List.length (md_funcs m))) (snd c) (ft_in ft)) calls ->
  run_module num1 num2 host n imp m x calls = Ok (outs, s) ->
  same_until (run_module num1 num2 host n imp m x)
    (run_module num1 num2 (with_wat_library num1 num2 N host sigs) fuel imp m' (lib_start tt, (empty_memo, x))) calls outs
    (~ few_calls num1 num2 host infer m (Some fs) imp n x calls \/ ~ enough_space num1 num2 host infer m (fun _ => false) true (Some fs) imp n x calls).
Proof.
  intros Y num1 num2 N Big host I ord_i ord_c infer m k rounds fs imp m' sigs Pi Pc Orc IM E V U AN PV HO CO n fuel Fu x calls outs s Ix T R.
  apply (@C34_memoization Y num1 num2 N Big host I ord_i ord_c infer m (Some fs) imp m' sigs Pi Pc E V U AN PV HO CO n fuel Fu x calls outs s Ix T); [|exact R].
  intros f Hf n0 args s1 s2. apply (@C32_reported_functions_are_pure Y Y num1 num2 host host infer m k rounds fs f Orc IM).
    apply intercepts_reported in Hf; [|exact Pi]. unfold Trace.reported, selected_incl in Hf. cbn [andb] in Hf.
    destruct (nth_error (md_funcs m) f); [|discriminate]. apply andb_true_iff in Hf as [_ Hf].
    cbn [requested] in Hf. apply existsb_exists in Hf as (g & Hg & Eg). apply Nat.eqb_eq in Eg. now subst g.
Qed.

Print Assumptions C34_memoization.
Print Assumptions C34_within_capacity.
Print Assumptions C34_failing_start.
Print Assumptions C34_reported_functions.

(** ** Example: [down n = if n then down (n - 1) else 0] *)
Definition down_code : list low :=
  [LBasic (BLocal LGet 0); LIf (FT [] [t_i32]);
   LBasic (BLocal LGet 0); LBasic (BConst TI32 (2 ^ 32 - 1)); LBasic (BBinary I32Add); LBasic (BCall 0);
   LElse; LBasic (BConst TI32 0); LEnd; LEnd].
Definition down_module : module := Mod [Fn ex_i32_1 (FPresent [] down_code) ["down"]] [] [] [] [] [] None.
Definition down_infer (_ : nat) (l : list low) : option (list ity) :=
  Some (map (fun i => match i with
    | LBasic (BLocal LGet _) | LBasic (BConst TI32 _) => IReach (FT [] [t_i32])
    | LBasic (BBinary _) => IReach (FT [t_i32; t_i32] [t_i32])
    | LBasic (BCall _) => IReach ex_i32_1
    | _ => IReach (FT [] []) end) l).
Definition no_host (ns name : string) (args : list val) : xprog unit := XTrap.
Lemma down_checked : check_funcs down_module down_infer = true. Proof. reflexivity. Qed.
Lemma down_valid : valid down_module.
Proof.
  constructor; simpl.
  - exact (proj1 (check_funcs_sound _ _ down_checked)).
  - constructor.
  - split; [constructor|lia].
  - intros [|i] g E; discriminate E.
  - constructor.
  - constructor.
  - exact Logic.I.
  - repeat constructor; simpl; intuition discriminate.
Qed.
Lemma down_in_format : in_format down_module.
Proof. unfold in_format, u32. simpl. split; [lia|]. repeat split; repeat (constructor; simpl); unfold u32; simpl; try lia. Qed.
Lemma down_compatible : compatible down_module (fun _ => false) (intercepts down_module true (Some [0]) ex_id).
Proof.
  constructor.
  - intros fn ns name [<-|[]] EC. discriminate EC.
  - intros fn x [<-|[]] Hx [<-|[]]. vm_compute in Hx. intuition discriminate.
  - intros fn locals code _ _. split; intros o ma _ H; discriminate H.
  - intros f fn [<-|[]] Nf. injection Nf as <-. simpl. lia.
Qed.
Lemma down_host : hosts_ok no_host (fun _ => True) down_module (plain_xty down_module).
Proof. intros [|f] fn ns name args Nf EC F; [injection Nf as <-; discriminate EC|destruct f; discriminate Nf]. Qed.
Lemma down_provided : provided_ok down_module ex_imports.
Proof. constructor; intros ? ? ? H E; simpl in H; intuition; subst; discriminate. Qed.
Lemma down_oracle f : same_length_oracle (down_infer f).
Proof. intros l tys H. injection H as <-. apply map_length. Qed.

(** The outcome of a session, the number of hits and the number of entries. *)
Definition memo_out (m : module) (only : list nat) (fuel : nat) (calls : list (string * list val)) : option (list (option (list val)) * Z * nat) :=
  match instrument ex_id ex_id down_infer m (std_ai (fun _ => false) true) (Some only) with
  | IOk m' (Some sigs) =>
      match run_module ex_num1 ex_num2 (with_wat_library ex_num1 ex_num2 ex_steps no_host sigs) fuel ex_imports m' (lib_start tt, (empty_memo, tt)) calls with
      | Ok (outs, s') => Some (outs, m_hits (fst (snd (st_x s'))), List.length (m_cache (fst (snd (st_x s')))))
      | _ => None
      end
  | _ => None
  end.
Lemma memo_out_ok m only fuel calls outs hits c : memo_out m only fuel calls = Some (outs, hits, c) ->
  exists m' sigs s', instrument ex_id ex_id down_infer m (std_ai (fun _ => false) true) (Some only) = IOk m' (Some sigs) /\
    run_module ex_num1 ex_num2 (with_wat_library ex_num1 ex_num2 ex_steps no_host sigs) fuel ex_imports m' (lib_start tt, (empty_memo, tt)) calls = Ok (outs, s') /\
    List.length (m_cache (fst (snd (st_x s')))) = c.
Proof.
  unfold memo_out. destruct instrument as [m' [sigs|]| |]; intros H; try discriminate H.
  destruct run_module as [[o s]|?| |] eqn:R; try discriminate H. injection H as <- _ <-. exists m', sigs, s. auto.
Qed.
Definition plain_out (m : module) (fuel : nat) (calls : list (string * list val)) : option (list (option (list val))) :=
  match run_module ex_num1 ex_num2 no_host fuel ex_imports m tt calls with Ok (outs, _) => Some outs | _ => None end.
Lemma plain_out_ok m fuel calls outs : plain_out m fuel calls = Some outs ->
  exists s, run_module ex_num1 ex_num2 no_host fuel ex_imports m tt calls = Ok (outs, s).
Proof. unfold plain_out. destruct run_module as [[o s]|?| |]; intros H; try discriminate H. injection H as <-. now exists s. Qed.
Definition down_calls : list (string * list val) := [("down", [vi32 3]); ("down", [vi32 5]); ("down", [vi32 2])].
Definition down_trace (n : nat) calls := module_trace ex_num1 ex_num2 no_host down_infer down_module (fun _ => false) true (Some [0]) n ex_imports tt calls.
Definition down_keys (n : nat) : list (nat * list val) := map (fun i => (0, [vi32 (Z.of_nat i)])) (seq 0 n).
Definition entered_in (K : list (nat * list val)) (e : event) : bool :=
  match e with EvEnter f _ [VNum TI32 z] => existsb (fun k => match k with (g, [VNum TI32 y]) => Nat.eqb f g && Z.eqb z y | _ => false end) K | EvEnter _ _ _ => false | _ => true end.
Lemma entered_in_ok K evs : forallb (entered_in K) evs = true -> forall f c args, In (EvEnter f c args) evs -> In (f, args) K.
Proof.
  intros H f c args Hin. rewrite forallb_forall in H. specialize (H _ Hin). cbn in H.
  destruct args as [|[[]|] [|]]; try discriminate. apply existsb_exists in H as ([g ar] & Hk & Hg).
  destruct ar as [|[[]|] [|]]; try discriminate. apply andb_true_iff in Hg as [Hf Hz].
  apply Nat.eqb_eq in Hf. apply Z.eqb_eq in Hz. now subst.
Qed.
(** The second call meets the results of the first, and the third is a hit at once. *)
Example ex_memoized :
  valid down_module /\ in_format down_module /\ annotates down_infer down_module /\ provided_ok down_module ex_imports /\
  hosts_ok no_host (fun _ => True) down_module (plain_xty down_module) /\
  compatible down_module (fun _ => false) (intercepts down_module true (Some [0]) ex_id) /\
  (forall f, same_length_oracle (down_infer f)) /\ immutable_functions 3 down_infer down_module = Immutable 2 [0] /\
  Forall (fun c => exists ft, plain_xty down_module (fst c) = Some ft /\ Forall2 (val_ok 1) (snd c) (ft_in ft)) down_calls /\
  plain_out down_module 8 down_calls = Some [Some [vi32 0]; Some [vi32 0]; Some [vi32 0]] /\
  enough_space ex_num1 ex_num2 no_host down_infer down_module (fun _ => false) true (Some [0]) ex_imports 8 tt down_calls /\
  few_calls ex_num1 ex_num2 no_host down_infer down_module (Some [0]) ex_imports 8 tt down_calls /\
  memo_out down_module [0] 42 down_calls = Some ([Some [vi32 0]; Some [vi32 0]; Some [vi32 0]], 2%Z, 6).
Proof.
  split; [exact down_valid|]. split; [exact down_in_format|]. split; [exact (proj2 (check_funcs_sound _ _ down_checked))|].
  split; [exact down_provided|]. split; [exact down_host|]. split; [exact down_compatible|]. split; [exact down_oracle|].
  split; [vm_compute; reflexivity|]. split.
  { repeat (apply Forall_cons; [eexists; split; [reflexivity|repeat constructor]|]). apply Forall_nil. }
  split; [vm_compute; reflexivity|]. split; [|split].
  - assert (P : ex_peak down_module (down_trace 8 down_calls) = 144%Z) by (vm_compute; reflexivity).
    intros b a E. pose proof (peak_ok down_module _ _ E) as H. fold (down_trace 8 down_calls) in H. rewrite P in H. unfold limit. lia.
  - exists (down_keys 6). split; [unfold cache_capacity; apply Nat2Z.inj_le; rewrite Z2Nat.id by lia; vm_compute; discriminate|].
    intros f fn c args Hin _ _ _. apply (@entered_in_ok (down_keys 6) (down_trace 8 down_calls)) with (c := c); [vm_compute; reflexivity|exact Hin].
  - vm_compute. reflexivity.
Qed.

(** ** C35 *)
(** [twice x = leaf x + leaf x], [leaf x = x]; both are reported as pure. *)
Definition twice_module : module :=
  Mod [Fn ex_i32_1 (FPresent [] [LBasic (BLocal LGet 0); LEnd]) ["leaf"];
       Fn ex_i32_1 (FPresent [] [LBasic (BLocal LGet 0); LBasic (BCall 0); LBasic (BLocal LGet 0); LBasic (BCall 0); LBasic (BBinary I32Add); LEnd]) ["twice"]]
      [] [] [] [] [] None.
Lemma twice_checked : check_funcs twice_module down_infer = true. Proof. reflexivity. Qed.
Lemma twice_valid : valid twice_module.
Proof.
  constructor; simpl.
  - exact (proj1 (check_funcs_sound _ _ twice_checked)).
  - constructor.
  - split; [constructor|lia].
  - intros [|i] g E; discriminate E.
  - constructor.
  - constructor.
  - exact Logic.I.
  - repeat constructor; simpl; intuition discriminate.
Qed.
Lemma twice_in_format : in_format twice_module.
Proof. unfold in_format, u32. simpl. split; [lia|]. repeat split; repeat (constructor; simpl); unfold u32; simpl; try lia. Qed.
Lemma twice_compatible : compatible twice_module (fun _ => false) (intercepts twice_module true (Some [0; 1]) ex_id).
Proof.
  constructor.
  - intros fn ns name [<-|[<-|[]]] EC; discriminate EC.
  - intros fn x [<-|[<-|[]]] Hx [<-|[]]; vm_compute in Hx; intuition discriminate.
  - intros fn locals code _ _. split; intros o ma _ H; discriminate H.
  - intros f fn [<-|[<-|[]]] Nf; injection Nf as <-; simpl; lia.
Qed.
Lemma twice_host : hosts_ok no_host (fun _ => True) twice_module (plain_xty twice_module).
Proof. intros [|[|f]] fn ns name args Nf EC F; [injection Nf as <-; discriminate EC| injection Nf as <-; discriminate EC|destruct f; discriminate Nf]. Qed.
Lemma twice_provided : provided_ok twice_module ex_imports.
Proof. constructor; intros ? ? ? H E; simpl in H; intuition; subst; discriminate. Qed.
(** 1023 calls of [leaf], each with another argument, and then one call of [twice]. *)
Definition many_leaves : list (string * list val) := map (fun i => ("leaf", [vi32 (Z.of_nat i)])) (seq 0 (Z.to_nat 1023)).
Definition then_twice : list (string * list val) := many_leaves ++ [("twice", [vi32 5000])].
Definition leaves_out (last : option (list val)) : list (option (list val)) :=
  map (fun i => Some [vi32 (Z.of_nat i)]) (seq 0 (Z.to_nat 1023)) ++ [last].
Definition twice_trace := module_trace ex_num1 ex_num2 no_host down_infer twice_module (fun _ => false) true (Some [0; 1]) 8 ex_imports tt then_twice.
Lemma twice_plain_out : plain_out twice_module 8 then_twice = Some (leaves_out (Some [vi32 10000])). Proof. vm_compute. reflexivity. Qed.
Lemma twice_memo_out : memo_out twice_module [0; 1] 42 then_twice = Some (leaves_out None, 0%Z, cache_capacity). Proof. vm_compute. reflexivity. Qed.
Lemma twice_space : enough_space ex_num1 ex_num2 no_host down_infer twice_module (fun _ => false) true (Some [0; 1]) ex_imports 8 tt then_twice.
Proof.
  assert (P : ex_peak twice_module twice_trace = 48%Z) by (vm_compute; reflexivity).
  intros b a E. pose proof (peak_ok twice_module _ _ E) as H. fold twice_trace in H. rewrite P in H. unfold limit. clear - H. lia.
Qed.
(** C35 is violated. The witness is a module without memories, tables and globals whose two
    functions are reported as pure by the tool itself; buffer space suffices for the session. The
    original returns from every call. Under the memoizing analysis the last call traps: there is
    still room for one entry when it starts, the nested call takes that, and the result of the outer
    one cannot be inserted. *)
Theorem C35_refuted : exists m infer only m' sigs calls n fuel outs,
  valid m /\ in_format m /\ annotates infer m /\ provided_ok m ex_imports /\
  hosts_ok no_host (fun _ => True) m (plain_xty m) /\ compatible m (fun _ => false) (intercepts m true (Some only) ex_id) /\
  (forall f, same_length_oracle (infer f)) /\ (exists k rounds, immutable_functions k infer m = Immutable rounds only) /\
  instrument ex_id ex_id infer m (std_ai (fun _ => false) true) (Some only) = IOk m' (Some sigs) /\
  enough_space ex_num1 ex_num2 no_host infer m (fun _ => false) true (Some only) ex_imports n tt calls /\
  5 * n + 2 <= fuel /\
  (exists s, run_module ex_num1 ex_num2 no_host n ex_imports m tt calls = Ok (outs ++ [Some [vi32 10000]], s)) /\
  (exists s', run_module ex_num1 ex_num2 (with_wat_library ex_num1 ex_num2 ex_steps no_host sigs) fuel ex_imports m' (lib_start tt, (empty_memo, tt)) calls
              = Ok (outs ++ [None], s') /\ List.length (m_cache (fst (snd (st_x s')))) = cache_capacity).
Proof.
  destruct (plain_out_ok _ _ _ twice_plain_out) as (s & P). destruct (memo_out_ok _ _ _ _ twice_memo_out) as (m' & sigs & s' & E & Q & C).
  exists twice_module, down_infer, [0; 1], m', sigs, then_twice, 8, 42, (map (fun i => Some [vi32 (Z.of_nat i)]) (seq 0 (Z.to_nat 1023))).
  split; [exact twice_valid|]. split; [exact twice_in_format|]. split; [exact (proj2 (check_funcs_sound _ _ twice_checked))|].
  split; [exact twice_provided|]. split; [exact twice_host|]. split; [exact twice_compatible|]. split; [exact down_oracle|].
  split; [exists 3, 3; vm_compute; reflexivity|]. split; [exact E|]. split; [exact twice_space|split; [apply Nat.le_refl|split]].
  - exists s. exact P.
  - exists s'. split; [exact Q|exact C].
Qed.
Print Assumptions C35_refuted.
