(** The analysis memory-tracing of the repository (benchmarking-node/input-analyses/rust/memory-tracing),
    which performs each access and then notes it. It is compiled in release mode, in which integer
    arithmetic wraps. *)
From Verif Require Import Semantics Advice RsStdlib StackLib StackSpec System Trace TraceProofs TraceLocs Typing ForwardRel ForwardBody ForwardProofs Recorder RunLemmas
  SystemProofs AccessProofs Analyses AnalysesProofs PropStdlib Guards.
Local Open Scope string_scope.
Local Open Scope list_scope.
Local Open Scope res_scope.
Local Open Scope Z_scope.

(** ** memory-tracing/src/lib.rs *)
(** [Access] and [AccessKind], L6-18. *)
Record access := Acc { ac_funct : Z; ac_instr : Z; ac_address : Z; ac_write : bool }.
(** [CIRCULAR_BUFFER_CAPACITY], L20. *)
Definition ring_capacity : Z := 1000000.
(** [CircularBuffer::push_back] of the crate circular-buffer, as used at L29: a full buffer loses its oldest
    element. *)
Definition push_back (l : list access) (a : access) : list access :=
  let l' := l ++ [a] in if ring_capacity <? Z.of_nat (List.length l') then tl l' else l'.
(** [ACCESSES] and [ACCESSES_COUNT], L21-22. *)
Record tracing := TR { tr_accesses : list access; tr_count : Z }.
(** Their initial values, L21-22. *)
Definition tracing_zero : tracing := TR [] 0.
(** [add_access], L24-35. *)
Definition add_access (s : tracing) (a : access) : tracing := TR (push_back (tr_accesses s) a) (wrapS 64 (tr_count s + 1)).
(** [get_nth_access], L37-41; [None] is a panic. The argument is the bits of an [i32]. *)
Definition get_nth_access (s : tracing) (index : Z) : option access :=
  if signed 32 index <? 0 then None else nth_error (tr_accesses s) (Z.to_nat (signed 32 index)).
(** [total_accesses], L43-46. *)
Definition total_accesses (s : tracing) : Z := tr_count s.
(** [get_total_accesses_from_buffer], L48-52; [None] is a panic. *)
Definition get_total_accesses_from_buffer (s : tracing) : option Z :=
  let n := Z.of_nat (List.length (tr_accesses s)) in if n <? 2 ^ 31 then Some n else None.
(** [get_nth_funct_index], L54-57. *)
Definition get_nth_funct_index (s : tracing) (index : Z) : option Z := option_map ac_funct (get_nth_access s index).
(** [get_nth_instr_index], L59-62. *)
Definition get_nth_instr_index (s : tracing) (index : Z) : option Z := option_map ac_instr (get_nth_access s index).
(** [get_nth_address], L64-67. *)
Definition get_nth_address (s : tracing) (index : Z) : option Z := option_map ac_address (get_nth_access s index).
(** [get_nth_operation], L69-75. *)
Definition get_nth_operation (s : tracing) (index : Z) : option Z :=
  option_map (fun a => if ac_write a then 1 else 0) (get_nth_access s index).

Section MemoryTracing.
  Context {Y : Type}.
  Notation X := (sys (tracing * Y)).
  Variable num1 : unop -> Z -> option Z.
  Variable num2 : binop -> Z -> Z -> option Z.
  (** [try_into().unwrap()] from [i64] (given by its bits) to [u32], as at L86-87. *)
  Definition i64_into_u32 (z : Z) (k : Z -> xprog X) : xprog X := if (0 <=? z) && (z <? 2 ^ 32) then k z else XTrap.
  (** L83-89, L97-103. [index.value() as i64] is the sign extension of an [i32]. *)
  Definition trace_access (index offset : Z) (l : location) (write : bool) (k : xprog X) : xprog X :=
    let address := wrapS 64 (signed 32 index + signed 64 offset) in
    i64_into_u32 (function_index l) (fun funct =>
    i64_into_u32 (instruction_index l) (fun instr =>
      XGet (fun x m g => XPut (fst x, (add_access (fst (snd x)) (Acc funct instr address write), snd (snd x))) m g k))).
  (** The advices [store], L78-90, and [load], L92-106: perform, then note. *)
  Definition tracing_body (a : advice) : xprog X :=
    match a with
    | AdStore i v o op l => xbind (store_perform op i v o) (fun vs => trace_access i o l true (XRet vs))
    | AdLoad i o op l => xbind (load_perform op i o) (fun vs => trace_access i o l false (XRet vs))
    | _ => forward_body num1 num2 a
    end.
End MemoryTracing.

(** ** What is noted *)
(** The access an event reports: where the instruction is, the address operand as a signed number plus the
    static offset, and whether it is a store. *)
Definition access_of (e : event) : option access :=
  match e with
  | EvAdvice (AdLoad i off _ l) => Some (Acc (function_index l) (instruction_index l) (signed 32 i + off) false)
  | EvAdvice (AdStore i _ off _ l) => Some (Acc (function_index l) (instruction_index l) (signed 32 i + off) true)
  | _ => None
  end.
(** All accesses of a trace, in order. *)
Definition accesses_of (evs : list event) : list access :=
  flat_map (fun e => match access_of e with Some a => [a] | None => [] end) evs.
(** What the advices do to the state if nothing panics. *)
Definition tracing_obs (s : tracing) (e : event) : tracing :=
  match access_of e with Some a => add_access s a | None => s end.
(** Accesses at places with an index of more than 32 bits. *)
Definition distant (e : event) : Prop :=
  match access_of e with
  | Some a => ~ (0 <= ac_funct a < 2 ^ 32 /\ 0 <= ac_instr a < 2 ^ 32)
  | None => False
  end.
(** Where the analysis stops the program, or, if [traps], where a trapping access is not noted. *)
Definition unnoted (traps : bool) : list event -> Prop :=
  Exists (fun e => if traps then access_of e <> None else distant e).
Lemma unnoted_left b e1 e2 : unnoted b e1 -> unnoted b (e1 ++ e2).
Proof. intros H. apply Exists_app. now left. Qed.
Lemma unnoted_right b e1 e2 : unnoted b e2 -> unnoted b (e1 ++ e2).
Proof. intros H. apply Exists_app. now right. Qed.

Lemma trace_access_run {Y} (export : string -> list val -> store (sys (tracing * Y)) -> res (store (sys (tracing * Y))) (list val * store (sys (tracing * Y))))
  i off loc w vs l a (s : store Y) : 0 <= i < 2 ^ 32 -> 0 <= off < 2 ^ 31 ->
  run_x export (trace_access i off loc w (XRet vs)) (lift l a s) =
  if ((0 <=? function_index loc) && (function_index loc <? 2 ^ 32)) && ((0 <=? instruction_index loc) && (instruction_index loc <? 2 ^ 32))
  then Ok (vs, lift l (add_access a (Acc (function_index loc) (instruction_index loc) (signed 32 i + off) w)) s) else Trap (lift l a s).
Proof.
  intros Ri Ro. unfold trace_access, i64_into_u32.
  assert (Rs : - 2 ^ 31 <= signed 32 i < 2 ^ 31).
  { unfold signed. change (2 ^ (32 - 1)) with (2 ^ 31). destruct (Z.ltb_spec i (2 ^ 31)); lia. }
  replace (signed 64 off) with off by (unfold signed; rewrite (proj2 (Z.ltb_lt off (2 ^ (64 - 1)))) by lia; reflexivity).
  rewrite (@wrapS_small 64) by lia.
  destruct ((0 <=? function_index loc) && (function_index loc <? 2 ^ 32)); [|reflexivity].
  destruct ((0 <=? instruction_index loc) && (instruction_index loc <? 2 ^ 32)); reflexivity.
Qed.
Lemma near_or_distant f i : 
  (((0 <=? f) && (f <? 2 ^ 32)) && ((0 <=? i) && (i <? 2 ^ 32)) = true) \/
  (((0 <=? f) && (f <? 2 ^ 32)) && ((0 <=? i) && (i <? 2 ^ 32)) = false /\ ~ (0 <= f < 2 ^ 32 /\ 0 <= i < 2 ^ 32)).
Proof.
  destruct (_ && _) eqn:E; [now left|right]. split; [reflexivity|]. intros (H1 & H2).
  rewrite !(proj2 (Z.leb_le _ _)), !(proj2 (Z.ltb_lt _ _)) in E by lia. discriminate E.
Qed.
Lemma tracing_guards {Y} num1 num2 :
  guards_advice (Y := Y) tracing_obs num1 num2 (fun _ => True) (fun _ => False) unnoted (tracing_body num1 num2).
Proof.
  intros export adv l a s Sz.
  destruct adv; try (left; split; [exact Logic.I|reflexivity]); rename o into op.
  - destruct (Sz index offset eq_refl) as (Ri & Ro & me & Em & Rp & Ms & Out & Ld & _).
    pose proof (Ld op l0 l a eq_refl) as L1. pose proof (Ld op l0 l (tracing_obs a (EvAdvice (AdLoad index offset op l0))) eq_refl) as L2.
    clear Ld. cbn [forward_body tracing_body] in *. rewrite run_x_bind, L1, L2.
    destruct (mem_load me op ((index + offset) mod 2 ^ 32)) as [z|]; cbn [rbind].
    + rewrite trace_access_run by assumption. destruct (near_or_distant (function_index l0) (instruction_index l0)) as [E|(E & N)]; rewrite E.
      * left. split; [exact Logic.I|reflexivity].
      * right. left. split; [|eexists; reflexivity]. constructor. exact N.
    + right. right. right. split; [exact Logic.I|]. split; [constructor; discriminate|]. split; eexists; reflexivity.
  - destruct (Sz index offset eq_refl) as (Ri & Ro & me & Em & Rp & Ms & Out & _ & St).
    destruct (St v op l0 eq_refl) as [Tr|(s1 & Dn)]; clear St; cbn [forward_body tracing_body] in *; rewrite run_x_bind.
    + rewrite !Tr. cbn [rbind]. right. right. right. split; [exact Logic.I|]. split; [constructor; discriminate|]. split; eexists; reflexivity.
    + rewrite !Dn. cbn [rbind]. rewrite trace_access_run by assumption.
      destruct (near_or_distant (function_index l0) (instruction_index l0)) as [E|(E & N)]; rewrite E.
      * left. split; [exact Logic.I|reflexivity].
      * right. left. split; [|eexists; reflexivity]. constructor. exact N.
Qed.

(** ** The buffer: the last million accesses *)
Lemma skipn_S {A} k (l : list A) : tl (skipn k l) = skipn (S k) l.
Proof. revert l. induction k as [|k IH]; intros [|x l]; try reflexivity. cbn [skipn]. rewrite IH. reflexivity. Qed.
Lemma push_last l a : push_back (skipn (List.length l - Z.to_nat ring_capacity) l) a =
  skipn (List.length (l ++ [a]) - Z.to_nat ring_capacity) (l ++ [a]).
Proof.
  unfold push_back. set (c := Z.to_nat ring_capacity). assert (C : Z.of_nat c = ring_capacity) by (unfold c; now rewrite Z2Nat.id).
  rewrite <- C. assert (0 < c)%nat by (destruct c; [discriminate C|lia]). clearbody c.
  rewrite !app_length, skipn_length. cbn [List.length].
  destruct (Nat.le_gt_cases c (List.length l)) as [H1|H1].
  - rewrite (proj2 (Z.ltb_lt _ _)) by lia.
    replace (skipn (List.length l - c) l ++ [a]) with (skipn (List.length l - c) (l ++ [a])).
    + rewrite skipn_S. f_equal. lia.
    + rewrite skipn_app. f_equal. replace (List.length l - c - List.length l)%nat with O by lia. reflexivity.
  - rewrite (proj2 (Z.ltb_ge _ _)) by lia. replace (List.length l - c)%nat with O by lia. replace (List.length l + 1 - c)%nat with O by lia. reflexivity.
Qed.
Lemma traced evs : forall before,
  fold_left tracing_obs evs (TR (skipn (List.length before - Z.to_nat ring_capacity) before) (wrapS 64 (Z.of_nat (List.length before)))) =
  let all := before ++ accesses_of evs in
  TR (skipn (List.length all - Z.to_nat ring_capacity) all) (wrapS 64 (Z.of_nat (List.length all))).
Proof.
  induction evs as [|e evs IH]; intros before; cbn [fold_left]; unfold accesses_of in *; cbn [flat_map]; [now rewrite app_nil_r|].
  unfold tracing_obs at 2. destruct (access_of e) as [a|]; [|exact (IH before)].
  unfold add_access. cbn [tr_accesses tr_count]. rewrite push_last, (@wrapS_add 64) by lia.
  replace (Z.of_nat (List.length before) + 1) with (Z.of_nat (List.length (before ++ [a]))) by (rewrite app_length; cbn [List.length]; lia).
  rewrite IH. cbn [app]. rewrite <- app_assoc. reflexivity.
Qed.
Lemma traced_all evs : let all := accesses_of evs in
  fold_left tracing_obs evs tracing_zero = TR (skipn (List.length all - Z.to_nat ring_capacity) all) (wrapS 64 (Z.of_nat (List.length all))).
Proof. exact (traced evs []). Qed.

(** In modules of the binary format no access is distant. *)
Lemma never_distant {Y} num1 num2 (host : string -> string -> list val -> xprog Y) infer m on generic only n imp x calls : in_format m ->
  ~ unnoted false (module_trace num1 num2 host infer m on generic only n imp x calls).
Proof.
  intros (U & F & _) H. unfold unnoted in H. apply Exists_exists in H as (e & Hi & D).
  pose proof (module_placed num1 num2 host infer m on generic only n imp x calls) as P. rewrite Forall_forall in P. specialize (P e Hi).
  assert (G : forall l f p fn locals body i, l = Loc (Z.of_nat f) (Z.of_nat p) -> nth_error (md_funcs m) f = Some fn ->
    fn_code fn = FPresent locals body -> nth_error body p = Some i -> 0 <= function_index l < 2 ^ 32 /\ 0 <= instruction_index l < 2 ^ 32).
  { intros l f p fn locals body i -> E1 E2 E3. cbn [function_index instruction_index].
    assert (L1 : (f < List.length (md_funcs m))%nat) by (apply nth_error_Some; congruence).
    assert (L2 : (p < List.length body)%nat) by (apply nth_error_Some; congruence).
    rewrite Forall_forall in F. specialize (F _ (nth_error_In _ _ E1)). rewrite E2 in F. destruct F as (_ & _ & UL & _).
    unfold u32 in *. lia. }
  destruct e as [adv| |]; try contradiction. cbn [placed_event] in P. destruct P as (f & p & fn & locals & body & i & El & E1 & E2 & E3 & _ & _).
  destruct adv; try contradiction; apply D; exact (G _ _ _ _ _ _ _ El E1 E2 E3).
Qed.
