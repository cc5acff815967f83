(** Analyses that forward everything: [forward] of the repository's tests
    (wastrumentation-instr-lib/tests/analyses/rust/forward/src/lib.rs), and the same analysis with
    a state that is updated by every event it is told about. The update is arbitrary: any Rust
    analysis that keeps statistics or a log and otherwise forwards has this form. *)
From Verif Require Import Semantics RsStdlib StackLib StackSpec StackOps System SystemProofs AccessProofs Trace ForwardRel ForwardProofs RunLemmas.
Local Open Scope string_scope.
Local Open Scope list_scope.
Local Open Scope res_scope.

Section Recorder.
  Context {Y A : Type}.
  Notation X := (sys (A * Y)).
  Variable obs : A -> event -> A.
  Variable num1 : unop -> Z -> option Z.
  Variable num2 : binop -> Z -> Z -> option Z.
  Variable lc : lib_code.
  Notation agent := (@lib_agent (A * Y) lc).

  (** Update the analysis' state, then go on. *)
  Definition note (e : event) (k : xprog X) : xprog X :=
    XGet (fun x m g => XPut (fst x, (obs (fst (snd x)) e, snd (snd x))) m g k).
  Definition record_body (a : advice) : xprog X := note (EvAdvice a) (forward_body num1 num2 a).
  (** [advice! { apply (f : WasmFunction, args, ress) { note arguments; f.apply(); note results } }] *)
  Definition record_apply (f : wasm_function) (args ress : runtime_values) : xprog X :=
    args_iter agent args (fun vs =>
    note (EvEnter (Z.to_nat (wf_index f)) (is_present f) vs)
      (xbind (wasm_function_apply f) (fun _ =>
         ress_iter agent ress (fun rs => note (EvLeave (Z.to_nat (wf_index f)) rs) (XRet []))))).

  Lemma run_note export e k l a (s : store Y) : run_x export (note e k) (lift l a s) = run_x export k (lift l (obs a e) s).
  Proof. reflexivity. Qed.
  Lemma record_notes_advice : notes_advice obs num1 num2 record_body.
  Proof. intros export adv l a s. apply run_note. Qed.

  Lemma sees_all (vs : list val) ws : Forall2 sees (map Some vs) ws -> ws = vs.
  Proof.
    revert ws. induction vs as [|v vs IH]; intros ws H; inversion H; subst; [reflexivity|]. cbn in *. subst. f_equal. auto.
  Qed.
  Variable sigs : list functy.
  Variable library : lib_states.
  Variable limit : Z.
  Variable stops : Prop.
  Hypothesis IM : implements sigs lc library limit stops.
  Lemma record_notes_calls : notes_calls obs library record_apply.
  Proof.
    intros export frs ifs ft q qt args k f code l a s Hl.
    set (fr := (ft, q, qt)) in *. set (ifr := fresh ft args) in *.
    destruct (@lib_frame sigs lc library limit stops IM (fr :: frs) (ifr :: ifs) l 0 ifr Hl eq_refl)
      as (_ & _ & _ & _ & _ & _ & Nu & Lr & La & _). cbn [ifr fresh if_type if_args if_rets] in Nu, Lr, La. rewrite map_length in La.
    destruct (@iterate_ok (A * Y) sigs lc library limit stops IM export (fr :: frs) (ifr :: ifs) 0 ifr q qt eq_refl eq_refl SArg (map Some args) 0 [] (lift l a s) Hl)
      as (ws & l1 & Ss & H1 & R1); [intros i o Hi; exact Hi|].
    apply sees_all in Ss. subst ws.
    exists l1, (fun _ => ress_iter agent (values_of ft q) (fun rs => note (EvLeave f rs) (XRet []))).
    split; [exact H1|]. split.
    - unfold record_apply, args_iter. cbn [rv_argc values_of wf_index]. rewrite !Nat2Z.id, <- La, <- (map_length Some args).
      change (if_type ifr) with ft in R1. unfold arg_base. cbn [rv_resc].
      cbn [number] in R1. rewrite Nat.add_0_r in R1. rewrite map_length in *. rewrite R1.
      change (with_lib (lift l a s) l1) with (lift l1 a s). rewrite run_note, run_x_bind.
      unfold wasm_function_apply. cbn [wf_apply wf_sigv run_x]. cbn [app].
      replace (is_present _) with code by (destruct code; reflexivity).
      destruct (export "call_base" _ _) as [[vs s1]|s1| |]; reflexivity.
    - intros vs rs l2 a2 s2 H2. set (ifr2 := IF ft (map Some rs) (map Some args)) in *.
      destruct (@lib_frame sigs lc library limit stops IM (fr :: frs) (ifr2 :: ifs) l2 0 ifr2 H2 eq_refl)
        as (_ & _ & _ & _ & _ & _ & Nu2 & Lr2 & La2 & _). cbn [ifr2 if_type if_args if_rets] in Lr2. rewrite map_length in Lr2.
      destruct (@iterate_ok (A * Y) sigs lc library limit stops IM export (fr :: frs) (ifr2 :: ifs) 0 ifr2 q qt eq_refl eq_refl SRet (map Some rs) 0 [] (lift l2 a2 s2) H2)
        as (ws & l3 & Ss & H3 & R3); [intros i o Hi; exact Hi|].
      apply sees_all in Ss. subst ws. exists [], l3. split; [|exact H3].
      unfold ress_iter, res_base. cbn [rv_resc values_of]. rewrite Nat2Z.id, <- Lr2. change (if_type ifr2) with ft in R3.
      cbn [number] in R3. rewrite map_length in R3. rewrite R3.
      change (with_lib (lift l2 a2 s2) l3) with (lift l3 a2 s2). rewrite run_note. reflexivity.
  Qed.
End Recorder.

(** The forwarding analysis has no state. *)
Section Forwarding.
  Context {Y : Type}.
  Variable num1 : unop -> Z -> option Z.
  Variable num2 : binop -> Z -> Z -> option Z.
  Variable library : lib_states.
  Definition ignore (a : unit) (_ : event) : unit := a.
  Lemma forward_notes_advice : notes_advice (Y := Y) ignore num1 num2 (forward_body num1 num2).
  Proof. intros export adv l a s. reflexivity. Qed.
  Lemma forward_notes_calls : notes_calls (Y := Y) ignore library forward_apply.
  Proof.
    intros export frs ifs ft q qt args k f code l a s Hl. exists l, (fun _ => XRet []). split; [exact Hl|]. split.
    - unfold forward_apply, wasm_function_apply. cbn [wf_apply wf_sigv run_x].
      destruct (export "call_base" _ _) as [[vs s1]|s1| |]; reflexivity.
    - intros vs rs l2 a2 s2 H2. exists [], l2. split; [reflexivity|exact H2].
  Qed.
End Forwarding.
