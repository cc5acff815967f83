(** C38: an example of the call-stack analysis, and a witness that its depth is wrong after traps. *)
From Coq Require Import Permutation.
From Verif Require Import Semantics Advice RsStdlib StackLib StackRun StackSpec PropStack System Instantiate Trace TraceProofs TraceBalance
  Typing ModuleTyping InstantiateTyping Checker ExModule PropInstrument PropSpec PropTyping ForwardRel ForwardProofs SessionProofs Recorder
  PropTransparent Analyses AnalysesProofs PropAnalyses.
Local Open Scope string_scope.
Local Open Scope list_scope.

(** C38: the calls [sum 1] and [poke 1]: six calls intercepted, three deep; three direct calls, one deep. *)
Notation ex_deployment host := (deployment (Y := list val) ex_steps host (fun _ => True) ex_id ex_id ex_infer ex_module None ex_imports 8 42).
Notation ex_cs_trace host calls := (module_trace ex_num1 ex_num2 host ex_infer ex_module cs_on true None 8 ex_imports [] calls).
Lemma ex_deployed host m' lib : hosts_ok host (fun _ => True) ex_module (plain_xty ex_module) ->
  instrument ex_id ex_id ex_infer ex_module (std_ai cs_on true) None = IOk m' lib -> ex_deployment host cs_on true m' lib.
Proof.
  intros H E. constructor.
  - unfold ex_steps. lia.
  - intros. apply Permutation_refl.
  - intros. apply Permutation_refl.
  - exact E.
  - exact ex_valid.
  - exact ex_in_format.
  - exact ex_annotates.
  - exact ex_provided.
  - exact H.
  - apply compatible_less with (on := ex_all); [reflexivity|exact ex_compatible].
  - lia.
Qed.
Lemma ex_runs (host : string -> string -> list val -> xprog (list val)) calls outs : typed_calls ex_module calls ->
  match run_module ex_num1 ex_num2 host 8 ex_imports ex_module [] calls with Ok (outs', _) => outs' = outs | _ => False end ->
  exists s, ran ex_num1 ex_num2 host (fun _ : list val => True) ex_module ex_imports 8 [] calls outs s.
Proof.
  intros T P. destruct (run_module ex_num1 ex_num2 host 8 ex_imports ex_module [] calls) as [[outs' s]|?| |] eqn:E; try contradiction.
  subst outs'. exists s. constructor; auto.
Qed.
Lemma ex_room (host : string -> string -> list val -> xprog (list val)) calls z : ex_peak ex_module (ex_cs_trace host calls) = z -> (z <= limit)%Z ->
  enough_space ex_num1 ex_num2 host ex_infer ex_module cs_on true None ex_imports 8 [] calls.
Proof. intros P L b a E. pose proof (peak_ok ex_module _ _ E) as H. rewrite P in H. lia. Qed.
Example ex_call_stack : exists m' lib s s', ex_deployment ex_host cs_on true m' lib /\
  ran ex_num1 ex_num2 ex_host (fun _ => True) ex_module ex_imports 8 [] ex_session_calls [Some [vi32 1]; Some [vi32 100]] s /\
  watched ex_num1 ex_num2 ex_steps ex_host ex_imports 42 cs_obs m' lib cs_zero [] ex_session_calls = Ok ([Some [vi32 1]; Some [vi32 100]], s') /\
  number_of_applies (state_of s') = 6%Z /\ max_apply_depth (state_of s') = 3%Z /\
  number_of_calls (state_of s') = 3%Z /\ max_call_depth (state_of s') = 1%Z.
Proof.
  destruct (instrument ex_id ex_id ex_infer ex_module (std_ai cs_on true) None) as [m' lib| |] eqn:E; [|vm_compute in E; discriminate E..].
  assert (D := ex_deployed ex_host_ok E).
  destruct (@ex_runs ex_host ex_session_calls [Some [vi32 1]; Some [vi32 100]]) as (s & R).
  { repeat (apply Forall_cons; [eexists; split; [reflexivity|repeat constructor]|]). apply Forall_nil. }
  { vm_compute. reflexivity. }
  assert (Sp : enough_space ex_num1 ex_num2 ex_host ex_infer ex_module cs_on true None ex_imports 8 [] ex_session_calls).
  { apply ex_room with (z := 72%Z); [vm_compute; reflexivity|unfold limit; lia]. }
  destruct (@C38_counters _ _ _ _ _ _ _ _ _ _ _ _ _ _ m' lib _ _ _ _ D R (ltac:(simpl; intuition discriminate)) Sp (ltac:(vm_compute; reflexivity)))
    as (s' & Ru & _ & H1 & H2 & H3 & H4 & _).
  exists m', lib, s, s'. split; [exact D|]. split; [exact R|]. split; [exact Ru|].
  rewrite H1, H2, H3, H4. repeat split; vm_compute; reflexivity.
Qed.

(** C38 fails after traps: no call is ever more than three deep, but each abandoned call stays on
    the analysis' stack, and the report says six. *)
Definition trap_again : list (string * list val) := [("poke", [vi32 1]); ("poke", [vi32 1]); ("poke", [vi32 1]); ("sum", [vi32 1])].
Theorem C38_refuted : exists m' lib s s', ex_deployment ex_moody cs_on true m' lib /\
  ran ex_num1 ex_num2 ex_moody (fun _ => True) ex_module ex_imports 8 [] trap_again [Some [vi32 100]; None; None; Some [vi32 1]] s /\
  watched ex_num1 ex_num2 ex_steps ex_moody ex_imports 42 cs_obs m' lib cs_zero [] trap_again = Ok ([Some [vi32 100]; None; None; Some [vi32 1]], s') /\
  depth ex_num1 ex_num2 ex_moody ex_infer ex_module None ex_imports 8 cs_on true apply_weight [] trap_again = 3%Z /\
  max_apply_depth (state_of s') = 6%Z /\ apply_stack (state_of s') = 4%Z.
Proof.
  destruct (instrument ex_id ex_id ex_infer ex_module (std_ai cs_on true) None) as [m' lib| |] eqn:E; [|vm_compute in E; discriminate E..].
  assert (D := ex_deployed ex_moody_ok E).
  destruct (@ex_runs ex_moody trap_again [Some [vi32 100]; None; None; Some [vi32 1]]) as (s & R).
  { repeat (apply Forall_cons; [eexists; split; [reflexivity|repeat constructor]|]). apply Forall_nil. }
  { vm_compute. reflexivity. }
  assert (Sp : enough_space ex_num1 ex_num2 ex_moody ex_infer ex_module cs_on true None ex_imports 8 [] trap_again).
  { eapply ex_room; [vm_compute; reflexivity|unfold limit; lia]. }
  assert (W : Forall in_range32 (ex_cs_trace ex_moody trap_again)) by (apply in_range32b_ok; vm_compute; reflexivity).
  destruct (analysis_state cs_blind cs_zero D R (or_intror W) Sp) as (s' & Ru & _ & St).
  exists m', lib, s, s'. split; [exact D|]. split; [exact R|]. split; [exact Ru|].
  split; [vm_compute; reflexivity|]. rewrite St. split; vm_compute; reflexivity.
Qed.
Print Assumptions C38_refuted.

(** C54: the same sessions, seen by the allocator: released without traps, but the buffers of
    abandoned calls (poke and log, 36 bytes) are never released. *)
Definition ex_pointer (host : string -> string -> list val -> xprog (list val)) (calls : list (string * list val)) : option (option val) :=
  match instrument ex_id ex_id ex_infer ex_module (std_ai cs_on true) None with
  | IOk m' lib =>
      match watched ex_num1 ex_num2 ex_steps host ex_imports 42 cs_obs m' lib cs_zero [] calls with
      | Ok (_, s') => Some (nth_error (st_globals (fst (st_x s'))) 0)
      | _ => None
      end
  | _ => None
  end.
Example ex_released : ex_pointer ex_host ex_session_calls = Some (Some (vi32 0)) /\ ex_pointer ex_moody ex_trap_calls = Some (Some (vi32 36)).
Proof. split; vm_compute; reflexivity. Qed.
