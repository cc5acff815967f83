(** The analysis logging of the integration tests
    (wastrumentation-instr-lib/tests/analyses/rust/logging/src/lib.rs): it forwards everything and prints a line for each thing it
    is told. What printing does is left open; that it does not panic, and that it leaves the program alone, is assumed. *)
From Verif Require Import Semantics Advice RsStdlib StackLib StackSpec System Trace TraceProofs Typing ForwardRel ForwardBody ForwardProofs Recorder RunLemmas
  SystemProofs AccessProofs Guards.
Local Open Scope string_scope.
Local Open Scope list_scope.
Local Open Scope res_scope.

(** What a line shows. Most advices print their name and parameters, L14-261; [load] prints the value too, L193-194. A [WasmFunction]
    is shown by its index and the pointer, wastrumentation-rs-stdlib/src/lib.rs L328-336, a [RuntimeValues] by its fields, L338-344:
    the counts, the pointer and the types. The wording is left out. *)
Inductive line :=
| LnAdvice (a : advice)
| LnLoad (index offset : Z) (o : loadop) (value : list val) (l : location)
| LnPre (f sigv : Z) (args : runtime_values)
| LnPost (f sigv : Z) (args ress : runtime_values).

Section Logging.
  Context {Y A : Type}.
  Notation X := (sys (A * Y)).
  (** What the world makes of a line. *)
  Variable print : A -> line -> A.
  Variable num1 : unop -> Z -> option Z.
  Variable num2 : binop -> Z -> Z -> option Z.
  (** [println!]. *)
  Definition println (ln : line) (k : xprog X) : xprog X :=
    XGet (fun x m g => XPut (fst x, (print (fst (snd x)) ln, snd (snd x))) m g k).
  (** The advices, L14-261. *)
  Definition logging_body (a : advice) : xprog X :=
    match a with
    | AdLoad i off o l => xbind (load_perform o i off) (fun vs => println (LnLoad i off o vs l) (XRet vs))   (* L187-197 *)
    | _ => println (LnAdvice a) (forward_body num1 num2 a)
    end.
  (** The advice [apply], L7-12. *)
  Definition logging_apply (f : wasm_function) (args ress : runtime_values) : xprog X :=
    println (LnPre (wf_index f) (wf_sigv f) args)
      (xbind (wasm_function_apply f) (fun _ => println (LnPost (wf_index f) (wf_sigv f) args ress) (XRet []))).
End Logging.

(** ** What a line is about
    Its kind and parameters, but not the value loaded or the buffer. *)
Inductive heading := HdAdvice (a : advice) | HdPre (f : Z) | HdPost (f : Z).
(** The heading of a line. *)
Definition heading_of (ln : line) : heading :=
  match ln with
  | LnAdvice a => HdAdvice a
  | LnLoad i off o _ l => HdAdvice (AdLoad i off o l)
  | LnPre f _ _ => HdPre f
  | LnPost f _ _ _ => HdPost f
  end.
(** The heading an event calls for. *)
Definition heading_for (e : event) : heading :=
  match e with
  | EvAdvice a => HdAdvice a
  | EvEnter f _ _ => HdPre (Z.of_nat f)
  | EvLeave f _ => HdPost (Z.of_nat f)
  end.
(** A load that traps is not printed. *)
Definition unprinted (traps : bool) : list event -> Prop :=
  Exists (fun e => match e with EvAdvice (AdLoad _ _ _ _) => traps = true | _ => False end).
Lemma unprinted_left b e1 e2 : unprinted b e1 -> unprinted b (e1 ++ e2).
Proof. intros H. apply Exists_app. now left. Qed.
Lemma unprinted_right b e1 e2 : unprinted b e2 -> unprinted b (e1 ++ e2).
Proof. intros H. apply Exists_app. now right. Qed.
Lemma unprinted_false evs : ~ unprinted false evs.
Proof. intros H. apply Exists_exists in H as (e & _ & H). destruct e as [[]| |]; (exact H || discriminate H). Qed.

Section Printed.
  Context {Y A : Type}.
  (** Someone who reads the headings. *)
  Variable read : A -> heading -> A.
  Notation print := (fun a ln => read a (heading_of ln)).
  Definition reading (a : A) (e : event) : A := read a (heading_for e).
  Variable num1 : unop -> Z -> option Z.
  Variable num2 : binop -> Z -> Z -> option Z.

  Lemma logging_guards : guards_advice (Y := Y) reading num1 num2 (fun _ => True) (fun _ => False) unprinted (logging_body print num1 num2).
  Proof.
    intros export adv l a s Sz. destruct adv; try (left; split; [exact Logic.I|reflexivity]).
    rename o into op. destruct (Sz index offset eq_refl) as (Ri & Ro & me & Em & Rp & Ms & Out & Ld & _).
    pose proof (Ld op l0 l a eq_refl) as L1. pose proof (Ld op l0 l (reading a (EvAdvice (AdLoad index offset op l0))) eq_refl) as L2.
    clear Ld. cbn [forward_body logging_body] in *. rewrite run_x_bind, L1, L2.
    destruct (mem_load me op ((index + offset) mod 2 ^ 32)) as [z|]; cbn [rbind].
    - left. split; [exact Logic.I|reflexivity].
    - right. right. right. split; [exact Logic.I|]. split; [now constructor|]. split; eexists; reflexivity.
  Qed.
  Lemma logging_notes_calls library : notes_calls (Y := Y) reading library (logging_apply print).
  Proof.
    intros export frs ifs ft q qt args k f code l a s Hl.
    exists l, (fun _ => println print (LnPost (Z.of_nat f) q (values_of ft q) (values_of ft q)) (XRet [])). split; [exact Hl|]. split.
    - unfold logging_apply, println. cbn [wf_index wf_sigv]. cbn [run_x]. rewrite run_x_bind. unfold wasm_function_apply. cbn [wf_apply wf_sigv run_x].
      match goal with |- rbind (rbind ?e _) _ = rbind ?e' _ => change e' with e; destruct e as [[vs s1]|s1| |]; reflexivity end.
    - intros vs rs l2 a2 s2 H2. exists [], l2. split; [reflexivity|exact H2].
  Qed.
End Printed.
