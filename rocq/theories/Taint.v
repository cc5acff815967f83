(** The analysis taint of the repository (benchmarking-node/input-analyses/rust/taint/src/lib.rs). It keeps a
    mirror of the program's state with a label per value; a label is whether the value is tainted. It is
    compiled in release mode for a 32-bit target. *)
From Verif Require Import Semantics Advice RsStdlib StackLib StackSpec StackOps System Trace TraceProofs Typing ForwardRel ForwardBody ForwardProofs Recorder RunLemmas
  SystemProofs AccessProofs Analyses AnalysesProofs PropStdlib Guards.
Local Open Scope string_scope.
Local Open Scope list_scope.
Local Open Scope res_scope.
Local Open Scope Z_scope.

(** ** The mirror *)
(** [Vec<Taint>] indexed by addresses: its length, and its elements. *)
Record shadow := Sh { sh_len : Z; sh_at : Z -> bool }.
(** [StackFrame], L22-25: the values of its blocks (the innermost first, the top of each first), and its locals. *)
Record frame := Fr { fr_blocks : list (list bool); fr_locals : list (option bool) }.
(** [STACK] (the last frame first), [MEMORY], [GLOBALS] and [RETURN_VALUE], L15-20. *)
Record mirror := Mi { mi_stack : list frame; mi_memory : shadow; mi_globals : list bool; mi_return : option bool }.
(** Their initial values, L15-20. *)
Definition mirror_zero : mirror := Mi [] (Sh 0 (fun _ => false)) [] None.

(** The stack of a mirror replaced. *)
Definition with_stack (a : mirror) (s : list frame) : mirror := Mi s (mi_memory a) (mi_globals a) (mi_return a).
(** [values().and_then(|vs| vs.pop())], with [values] of L60-62. *)
Definition pop_value (a : mirror) : option bool * mirror :=
  match mi_stack a with
  | Fr ((v :: vs) :: bs) ls :: st => (Some v, with_stack a (Fr (vs :: bs) ls :: st))
  | _ => (None, a)
  end.
(** [values().map(|vs| vs.push(v))]. *)
Definition push_value (v : bool) (a : mirror) : mirror :=
  match mi_stack a with
  | Fr (vs :: bs) ls :: st => with_stack a (Fr ((v :: vs) :: bs) ls :: st)
  | _ => a
  end.
(** [peek().and_then(|s| s.blocks.pop())], with [peek] of L52-54. *)
Definition pop_block (a : mirror) : option (list bool) * mirror :=
  match mi_stack a with
  | Fr (b :: bs) ls :: st => (Some b, with_stack a (Fr bs ls :: st))
  | _ => (None, a)
  end.
(** [begin], L133-135. *)
Definition begin_block (a : mirror) : mirror :=
  match mi_stack a with Fr bs ls :: st => with_stack a (Fr ([] :: bs) ls :: st) | [] => a end.
(** [RETURN_VALUE = v]. *)
Definition set_return (v : option bool) (a : mirror) : mirror := Mi (mi_stack a) (mi_memory a) (mi_globals a) v.
(** [end], L142-156; [function] is whether it is called with [BlockType::Function]. *)
Definition end_block (function : bool) (a : mirror) : mirror :=
  match pop_block a with
  | (Some (v :: _), a') => if function then set_return (Some v) a' else a'
  | (_, a') => a'
  end.
(** [join], L64-66. *)
Definition join (x y : bool) : bool := x || y.
(** [vec.resize(i + 1, d)] if it is not longer than [i], then [vec[i] = v]. *)
Fixpoint grow_set {A} (d v : A) (i : nat) (l : list A) : list A :=
  match i, l with
  | O, [] => [v]
  | O, _ :: r => v :: r
  | S i', [] => d :: grow_set d v i' []
  | S i', x :: r => x :: grow_set d v i' r
  end.
(** [locals_set], L68-76. *)
Definition locals_set (i : Z) (v : option bool) (a : mirror) : mirror :=
  match mi_stack a with
  | Fr bs ls :: st => with_stack a (Fr bs (grow_set None v (Z.to_nat i) ls) :: st)
  | [] => a
  end.
(** [locals_get], L78-84. *)
Definition locals_get (i : Z) (a : mirror) : bool :=
  match mi_stack a with
  | Fr _ ls :: _ => match nth_error ls (Z.to_nat i) with Some (Some v) => v | _ => false end
  | [] => false
  end.
(** The globals of a mirror replaced. *)
Definition with_globals (a : mirror) (g : list bool) : mirror := Mi (mi_stack a) (mi_memory a) g (mi_return a).
(** [globals_get], L97-104, which makes the vector long enough. *)
Definition globals_get (i : Z) (a : mirror) : bool * mirror :=
  let v := nth (Z.to_nat i) (mi_globals a) false in (v, with_globals a (grow_set false v (Z.to_nat i) (mi_globals a))).
(** [globals_set], L86-95. *)
Definition globals_set (i : Z) (v : option bool) (a : mirror) : mirror :=
  match v with
  | Some v => with_globals a (grow_set false v (Z.to_nat i) (mi_globals a))
  | None => snd (globals_get i a)
  end.

Section Memory.
  (** Whether a vector can be made to hold a number of labels; what else occupies the memory of the analysis is
      not modelled. *)
  Variable room : Z -> bool.
  (** L107-109, L120-122: [try_into().unwrap()] of an [i32] (given by its bits) and of an [i64] to [usize]; [None]
      is a panic. The addition wraps. *)
  Definition effective (index offset : Z) : option Z :=
    if (signed 32 index <? 0) || negb ((0 <=? signed 64 offset) && (signed 64 offset <? 2 ^ 32)) then None
    else Some ((signed 32 index + signed 64 offset) mod 2 ^ 32).
  (** L111-114, L124-127: the memory made long enough. *)
  Definition extend (i : Z) (m : shadow) : option shadow :=
    if sh_len m <=? i then if room (i + 1) then Some (Sh (i + 1) (fun k => if k <? sh_len m then sh_at m k else false)) else None
    else Some m.
  (** The memory of a mirror replaced. *)
  Definition with_memory (a : mirror) (m : shadow) : mirror := Mi (mi_stack a) m (mi_globals a) (mi_return a).
  (** [memory_get], L106-117. *)
  Definition memory_get (index offset : Z) (a : mirror) : option (bool * mirror) :=
    match effective index offset with
    | None => None
    | Some i => option_map (fun m => (sh_at m i, with_memory a m)) (extend i (mi_memory a))
    end.
  (** [memory_set], L119-130. *)
  Definition memory_set (index : Z) (v : bool) (offset : Z) (a : mirror) : option mirror :=
    match effective index offset with
    | None => None
    | Some i => option_map (fun m => with_memory a (Sh (sh_len m) (fun k => if k =? i then v else sh_at m k))) (extend i (mi_memory a))
    end.

  (** ** The advices *)
  (** [if_then_else] ... [loop_ post], L158-500, before the operation is performed; [None] is a panic. *)
  Definition taint_step (a : mirror) (adv : advice) : option mirror :=
    match adv with
    | AdIfThenElse _ _ _ _ | AdIfThen _ _ _ _ => Some (snd (pop_value a))                     (* L158-167, L176-185 *)
    | AdIfThenElsePost _ | AdIfThenPost _ => Some (end_block false a)                       (* L169-174, L187-192 *)
    | AdBr _ _ => Some (snd (pop_block a))                                                   (* L194-200 *)
    | AdBrIf c _ _ =>                                                                        (* L202-214 *)
        let a' := snd (pop_value a) in Some (if c =? 0 then a' else snd (pop_block a'))
    | AdBrTable _ _ _ _ => Some (snd (pop_block (snd (pop_value a))))                        (* L216-227 *)
    | AdSelect c _ =>                                                                        (* L229-252 *)
        let a1 := snd (pop_value a) in
        let (t2, a2) := pop_value a1 in
        let (t1, a3) := pop_value a2 in
        Some (push_value (match t2, t1 with Some t2, Some t1 => if c =? 0 then t2 else t1 | _, _ => false end) a3)
    | AdCallPre _ _ | AdCallIndPre _ _ _ => Some a                                           (* L266-272, L288-296 *)
    | AdCallPost _ _ =>                                                                      (* L274-286 *)
        let a1 := with_stack a (tl (mi_stack a)) in
        let a2 := match mi_return a1 with Some v => set_return None (push_value v a1) | None => a1 end in
        Some (end_block true a2)
    | AdCallIndPost _ _ => Some (end_block true a)                                           (* L298-305 *)
    | AdUnary _ _ _ =>                                                                       (* L307-318 *)
        let (t, a') := pop_value a in Some (push_value (match t with Some t => t | None => false end) a')
    | AdBinary _ _ _ _ =>                                                                    (* L320-338 *)
        let (t1, a1) := pop_value a in
        let (t2, a2) := pop_value a1 in
        Some (push_value (match t1, t2 with Some t1, Some t2 => join t1 t2 | _, _ => false end) a2)
    | AdDrop _ => Some (snd (pop_value a))                                                   (* L340-345 *)
    | AdReturn _ =>                                                                          (* L347-363 *)
        match mi_return a, mi_stack a with
        | Some _, Fr (_ :: _) _ :: _ => let (t, a') := pop_value a in Some (set_return t a')
        | _, _ => Some a
        end
    | AdConst _ _ => Some (push_value false a)                                               (* L365-373 *)
    | AdLocal _ i LGet _ => Some (push_value (locals_get i a) a)                             (* L375-398 *)
    | AdLocal _ i (LSet | LTee) _ => let (t, a') := pop_value a in Some (locals_set i t a')
    | AdGlobal _ i GSet _ => let (t, a') := pop_value a in Some (globals_set i t a')         (* L400-419 *)
    | AdGlobal _ i GGet _ => let (v, a') := globals_get i a in Some (push_value v a')
    | AdLoad i off _ _ =>                                                                    (* L421-434 *)
        option_map (fun p => push_value (fst p) (snd p)) (memory_get i off (snd (pop_value a)))
    | AdStore i _ off _ _ =>                                                                 (* L436-449 *)
        let (t, a1) := pop_value a in
        memory_set i (match t with Some t => t | None => false end) off (snd (pop_value a1))
    | AdMemorySize _ _ _ => Some (push_value false a)                                        (* L451-460 *)
    | AdMemoryGrow _ _ _ => Some (push_value false (snd (pop_value a)))                      (* L462-472 *)
    | AdBlockPre _ _ _ | AdLoopPre _ _ _ => Some (begin_block a)                             (* L474-481, L488-495 *)
    | AdBlockPost _ | AdLoopPost _ => Some (end_block false a)                               (* L483-488, L497-500 *)
    end.
  (** [apply], L254-264, before the function runs: the labels of the arguments are popped, and new ones take
      their place. *)
  Fixpoint pop_args (n : nat) (a : mirror) : list (option bool) * mirror :=
    match n with
    | O => ([], a)
    | S n' =>
        let (t, a1) := pop_value a in
        let (ts, a2) := pop_args n' a1 in
        (match t with Some _ => Some false | None => None end :: ts, a2)
    end.
  (** The new frame, L256-259. *)
  Definition enter_frame (n : nat) (a : mirror) : mirror :=
    let (ts, a') := pop_args n a in with_stack a' (Fr [[]] ts :: mi_stack a').

  (** What the analysis does to its state if nothing panics. *)
  Definition taint_obs (a : mirror) (e : event) : mirror :=
    match e with
    | EvAdvice adv => match taint_step a adv with Some a' => a' | None => a end
    | EvEnter _ _ args => enter_frame (List.length args) a
    | EvLeave _ _ => a
    end.

  Section Body.
    Context {Y : Type}.
    Variable num1 : unop -> Z -> option Z.
    Variable num2 : binop -> Z -> Z -> option Z.
    Variable lc : lib_code.
    Notation agent := (@lib_agent (mirror * Y) lc).
    (** The advices other than [apply], L158-500: each updates the mirror and then does what [forward] does. *)
    Definition taint_body (adv : advice) : xprog (sys (mirror * Y)) :=
      XGet (fun x m g =>
        match taint_step (fst (snd x)) adv with
        | Some a' => XPut (fst x, (a', snd (snd x))) m g (forward_body num1 num2 adv)
        | None => XTrap
        end).
    (** [apply], L254-264. *)
    Definition taint_apply (f : wasm_function) (args ress : runtime_values) : xprog (sys (mirror * Y)) :=
      args_iter agent args (fun vs =>
        XGet (fun x m g => XPut (fst x, (enter_frame (List.length vs) (fst (snd x)), snd (snd x))) m g (wasm_function_apply f))).
  End Body.
End Memory.

(** ** Accesses the analysis cannot mirror *)
(** The address operand is in the upper half of the address space, or the labels do not fit in the memory of
    the analysis. *)
Definition unmirrored (room : Z -> bool) (e : event) : Prop :=
  match e with
  | EvAdvice (AdLoad i off _ _) | EvAdvice (AdStore i _ off _ _) => 2 ^ 31 <= i \/ room (i + off + 1) = false
  | _ => False
  end.

Section Guards.
  Variable room : Z -> bool.
  Context {Y : Type}.
  Variable num1 : unop -> Z -> option Z.
  Variable num2 : binop -> Z -> Z -> option Z.
  Lemma effective_ok i off : 0 <= i < 2 ^ 32 -> 0 <= off < 2 ^ 31 ->
    effective i off = if i <? 2 ^ 31 then Some (i + off) else None.
  Proof.
    intros Ri Ro. unfold effective.
    replace (signed 64 off) with off by (unfold signed; rewrite (proj2 (Z.ltb_lt off (2 ^ (64 - 1)))) by lia; reflexivity).
    rewrite (proj2 (Z.leb_le 0 off)), (proj2 (Z.ltb_lt off (2 ^ 32))) by lia. cbn [andb negb]. rewrite orb_false_r.
    unfold signed. change (2 ^ (32 - 1)) with (2 ^ 31). destruct (Z.ltb_spec i (2 ^ 31)).
    - rewrite (proj2 (Z.ltb_ge i 0)) by lia. rewrite Z.mod_small by lia. reflexivity.
    - rewrite (proj2 (Z.ltb_lt _ 0)) by lia. reflexivity.
  Qed.
  Lemma mirrored i off (m : shadow) : 0 <= i < 2 ^ 32 -> 0 <= off < 2 ^ 31 ->
    (exists k m', effective i off = Some k /\ extend room k m = Some m') \/ 2 ^ 31 <= i /\ effective i off = None \/
    (exists k, effective i off = Some k /\ room (i + off + 1) = false /\ extend room k m = None).
  Proof.
    intros Ri Ro. rewrite effective_ok by assumption. destruct (Z.ltb_spec i (2 ^ 31)); [|right; left; auto].
    unfold extend. destruct (sh_len m <=? i + off) eqn:E; [|left; exists (i + off), m; rewrite E; auto].
    destruct (room (i + off + 1)) eqn:Er; [|right; right; exists (i + off); rewrite E, Er; auto].
    left. eexists (i + off), _. rewrite E, Er. split; reflexivity.
  Qed.
  Lemma taint_guards :
    guards_advice (Y := Y) (taint_obs room) num1 num2 (fun _ => True) (fun _ => False) (fun _ => Exists (unmirrored room)) (taint_body room num1 num2).
  Proof.
    intros export adv l a s Sz.
    assert (G : forall a', taint_step room a adv = Some a' ->
      run_x export (taint_body room num1 num2 adv) (lift l a s) = run_x export (forward_body num1 num2 adv) (lift l (taint_obs room a (EvAdvice adv)) s)).
    { intros a' E. unfold taint_body, taint_obs. cbn [run_x]. cbn [st_x glift fst snd]. rewrite E. reflexivity. }
    assert (B : taint_step room a adv = None -> exists s', run_x export (taint_body room num1 num2 adv) (lift l a s) = Trap s').
    { intros E. unfold taint_body. cbn [run_x]. cbn [st_x glift fst snd]. rewrite E. eexists. reflexivity. }
    destruct (taint_step room a adv) as [a'|] eqn:E; [left; split; [exact Logic.I|]; now apply (G a')|]. clear G. right. left. split; [|now apply B]. clear B.
    constructor. destruct adv; cbn [taint_step] in E; try discriminate E;
      repeat match type of E with
        | (let (_, _) := ?x in _) = None => destruct x
        | context [match ?x with _ => _ end] => is_var x; destruct x
        end; try discriminate E.
    - destruct (mi_return a); [|discriminate E]. destruct (mi_stack a) as [|[[|? ?] ?] ?]; try discriminate E. destruct (pop_value a); discriminate E.
    - destruct (Sz index offset eq_refl) as (Ri & Ro & _). cbn [unmirrored]. unfold memory_get in E.
      destruct (@mirrored index offset (mi_memory (snd (pop_value a))) Ri Ro) as [(k & m' & E1 & E2)|[(H & _)|(k & _ & H & _)]]; [|now left|now right].
      rewrite E1, E2 in E. discriminate E.
    - destruct (Sz index offset eq_refl) as (Ri & Ro & _). cbn [unmirrored]. unfold memory_set in E.
      destruct (@mirrored index offset (mi_memory (snd (pop_value m))) Ri Ro) as [(k & m' & E1 & E2)|[(H & _)|(k & _ & H & _)]]; [|now left|now right].
      rewrite E1, E2 in E. discriminate E.
    - destruct (Sz index offset eq_refl) as (Ri & Ro & _). cbn [unmirrored]. unfold memory_set in E.
      destruct (@mirrored index offset (mi_memory (snd (pop_value m))) Ri Ro) as [(k & m' & E1 & E2)|[(H & _)|(k & _ & H & _)]]; [|now left|now right].
      rewrite E1, E2 in E. discriminate E.
  Qed.

  Variable lc : lib_code.
  Variable sigs : list functy.
  Variable library : lib_states.
  Variable limit : Z.
  Variable stops : Prop.
  Hypothesis IM : implements sigs lc library limit stops.
  Lemma taint_notes_calls : notes_calls (Y := Y) (taint_obs room) library (taint_apply lc).
  Proof.
    intros export frs ifs ft q qt args k f code l a s Hl.
    set (fr := (ft, q, qt)) in *. set (ifr := fresh ft args) in *.
    destruct (@lib_frame sigs lc library limit stops IM (fr :: frs) (ifr :: ifs) l 0 ifr Hl eq_refl)
      as (_ & _ & _ & _ & _ & _ & Nu & Lr & La & _). cbn [ifr fresh if_type if_args if_rets] in Nu, Lr, La. rewrite map_length in La.
    destruct (@iterate_ok (mirror * Y) sigs lc library limit stops IM export (fr :: frs) (ifr :: ifs) 0 ifr q qt eq_refl eq_refl SArg (map Some args) 0 [] (lift l a s) Hl)
      as (ws & l1 & Ss & H1 & R1); [intros i o Hi; exact Hi|].
    apply sees_all in Ss. subst ws.
    exists l1, (fun _ => XRet []). split; [exact H1|]. split.
    - unfold taint_apply, args_iter. cbn [rv_argc values_of wf_index]. rewrite !Nat2Z.id, <- La, <- (map_length Some args).
      change (if_type ifr) with ft in R1. unfold arg_base. cbn [rv_resc].
      cbn [number] in R1. rewrite Nat.add_0_r in R1. rewrite map_length in *. rewrite R1.
      change (with_lib (lift l a s) l1) with (lift l1 a s). cbn [run_x st_x glift fst snd app].
      unfold wasm_function_apply. cbn [wf_apply wf_sigv run_x taint_obs].
      match goal with |- context [export "call_base" _ ?x] => change x with (lift l1 (enter_frame (List.length args) a) s) end.
      destruct (export "call_base" _ _) as [[vs s1]|s1| |]; reflexivity.
    - intros vs rs l2 a2 s2 H2. exists [], l2. split; [reflexivity|exact H2].
  Qed.
End Guards.

(** ** No label is ever set *)
Definition clean_frame (f : frame) : Prop :=
  Forall (Forall (fun v => v = false)) (fr_blocks f) /\ Forall (fun v => v <> Some true) (fr_locals f).
(** Nothing in the mirror is tainted; specification. *)
Definition clean (a : mirror) : Prop :=
  Forall clean_frame (mi_stack a) /\ (forall i, sh_at (mi_memory a) i = false) /\ Forall (fun v => v = false) (mi_globals a) /\ mi_return a <> Some true.
Lemma grow_set_all {A} (P : A -> Prop) d v : P d -> P v -> forall i l, Forall P l -> Forall P (grow_set d v i l).
Proof.
  intros Pd Pv. induction i as [|i IH]; intros [|x l] H; cbn [grow_set].
  - now constructor.
  - inversion H; subst. now constructor.
  - constructor; [exact Pd|apply IH; constructor].
  - inversion H; subst. constructor; [assumption|now apply IH].
Qed.
Lemma pop_value_clean a t a' : clean a -> pop_value a = (t, a') -> clean a' /\ t <> Some true.
Proof.
  unfold pop_value. intros (C1 & C2) E. destruct (mi_stack a) as [|[[|[|v vs] bs] ls] st] eqn:Es;
    try (injection E as <- <-; split; [split; [rewrite Es|]; assumption|discriminate]).
  inversion C1 as [|? ? (B & L) C']; subst. cbn in B, L. inversion B as [|? ? Bv B']; subst. inversion Bv; subst.
  injection E as <- <-. split; [|discriminate]. split; [|exact C2]. cbn. constructor; [|assumption]. split; cbn; [now constructor|assumption].
Qed.
Lemma push_value_clean v a : clean a -> v = false -> clean (push_value v a).
Proof.
  intros (C1 & C2) ->. unfold push_value. destruct (mi_stack a) as [|[[|vs bs] ls] st] eqn:Es; try (split; [rewrite Es|]; assumption).
  inversion C1 as [|? ? (B & L) C']; subst. cbn in B, L. inversion B; subst. split; [|exact C2]. cbn. constructor; [|assumption].
  split; cbn; [|assumption]. constructor; [now constructor|assumption].
Qed.
Lemma pop_block_clean a b a' : clean a -> pop_block a = (b, a') -> clean a' /\ (forall v vs, b = Some (v :: vs) -> v = false).
Proof.
  unfold pop_block. intros (C1 & C2) E. destruct (mi_stack a) as [|[[|vs bs] ls] st] eqn:Es;
    try (injection E as <- <-; split; [split; [rewrite Es|]; assumption|discriminate]).
  inversion C1 as [|? ? (B & L) C']; subst. cbn in B, L. inversion B as [|? ? Bv B']; subst.
  injection E as <- <-. split; [|intros v vs' E; injection E as ->; now inversion Bv].
  split; [|exact C2]. cbn. constructor; [|assumption]. now split.
Qed.
Lemma set_return_clean v a : clean a -> v <> Some true -> clean (set_return v a).
Proof. intros (C1 & C2 & C3 & _) H. now split. Qed.
Lemma end_block_clean f a : clean a -> clean (end_block f a).
Proof.
  intros C. unfold end_block. destruct (pop_block a) as [b a'] eqn:E. destruct (pop_block_clean C E) as (C' & B).
  destruct b as [[|v vs]|]; try assumption. destruct f; [|assumption]. apply set_return_clean; [assumption|]. rewrite (B v vs eq_refl). discriminate.
Qed.
Lemma begin_block_clean a : clean a -> clean (begin_block a).
Proof.
  intros (C1 & C2). unfold begin_block. destruct (mi_stack a) as [|[bs ls] st] eqn:Es; [split; [rewrite Es|]; assumption|].
  inversion C1 as [|? ? (B & L) C']; subst. split; [|exact C2]. cbn. constructor; [|assumption]. split; cbn; [|assumption]. now constructor.
Qed.
Lemma locals_set_clean i v a : clean a -> v <> Some true -> clean (locals_set i v a).
Proof.
  intros (C1 & C2) H. unfold locals_set. destruct (mi_stack a) as [|[bs ls] st] eqn:Es; [split; [rewrite Es|]; assumption|].
  inversion C1 as [|? ? (B & L) C']; subst. split; [|exact C2]. cbn. constructor; [|assumption]. split; cbn; [assumption|].
  apply (@grow_set_all (option bool) (fun v => v <> Some true)); [discriminate|assumption|assumption].
Qed.
Lemma locals_get_clean i a : clean a -> locals_get i a = false.
Proof.
  intros (C1 & _). unfold locals_get. destruct (mi_stack a) as [|[bs ls] st]; [reflexivity|]. inversion C1 as [|? ? (B & L) C']; subst. cbn in L.
  destruct (nth_error ls (Z.to_nat i)) as [[[]|]|] eqn:E; try reflexivity. exfalso. apply nth_error_In in E. rewrite Forall_forall in L. exact (L _ E eq_refl).
Qed.
Lemma globals_get_clean i a v a' : clean a -> globals_get i a = (v, a') -> clean a' /\ v = false.
Proof.
  intros (C1 & C2 & C3 & C4) E. unfold globals_get in E. injection E as <- <-.
  assert (V : nth (Z.to_nat i) (mi_globals a) false = false).
  { destruct (nth_in_or_default (Z.to_nat i) (mi_globals a) false) as [H|H]; [|exact H]. rewrite Forall_forall in C3. exact (C3 _ H). }
  split; [|exact V]. split; [exact C1|]. split; [exact C2|]. split; [|exact C4]. cbn.
  apply (@grow_set_all bool (fun v => v = false)); [reflexivity|exact V|exact C3].
Qed.
Lemma globals_set_clean i v a : clean a -> v <> Some true -> clean (globals_set i v a).
Proof.
  intros C H. unfold globals_set. destruct v as [[]|]; [congruence| |].
  - destruct C as (C1 & C2 & C3 & C4). split; [exact C1|]. split; [exact C2|]. split; [|exact C4]. cbn.
    now apply (@grow_set_all bool (fun v => v = false)).
  - destruct (globals_get i a) as [v a'] eqn:E. exact (proj1 (globals_get_clean C E)).
Qed.
Section Clean.
  Variable room : Z -> bool.
  Lemma extend_clean i m m' : (forall k, sh_at m k = false) -> extend room i m = Some m' -> forall k, sh_at m' k = false.
  Proof.
    intros H E. unfold extend in E. destruct (sh_len m <=? i); [|now injection E as <-]. destruct (room (i + 1)); [|discriminate E].
    injection E as <-. intros k. cbn. destruct (k <? sh_len m); auto.
  Qed.
  Lemma memory_get_clean i off a v a' : clean a -> memory_get room i off a = Some (v, a') -> clean a' /\ v = false.
  Proof.
    intros (C1 & C2 & C3 & C4) E. unfold memory_get in E. destruct (effective i off) as [k|]; [|discriminate E].
    destruct (extend room k (mi_memory a)) as [m'|] eqn:Ex; [|discriminate E]. injection E as <- <-. pose proof (@extend_clean _ _ _ C2 Ex) as C'.
    split; [|apply C']. split; [exact C1|]. split; [exact C'|]. now split.
  Qed.
  Lemma memory_set_clean i v off a a' : clean a -> v = false -> memory_set room i v off a = Some a' -> clean a'.
  Proof.
    intros (C1 & C2 & C3 & C4) -> E. unfold memory_set in E. destruct (effective i off) as [k|]; [|discriminate E].
    destruct (extend room k (mi_memory a)) as [m'|] eqn:Ex; [|discriminate E]. injection E as <-. pose proof (@extend_clean _ _ _ C2 Ex) as C'.
    split; [exact C1|]. split; [|now split]. cbn. intros j. destruct (j =? k); auto.
  Qed.
  Lemma pop_args_clean n : forall a ts a', clean a -> pop_args n a = (ts, a') -> clean a' /\ Forall (fun v => v <> Some true) ts.
  Proof.
    induction n as [|n IH]; intros a ts a' C E; cbn [pop_args] in E; [injection E as <- <-; now split|].
    destruct (pop_value a) as [t a1] eqn:E1. destruct (pop_args n a1) as [ts' a2] eqn:E2. injection E as <- <-.
    destruct (pop_value_clean C E1) as (C1 & _). destruct (IH _ _ _ C1 E2) as (C2 & F). split; [exact C2|]. constructor; [destruct t; discriminate|exact F].
  Qed.
  Lemma taint_obs_clean a e : clean a -> clean (taint_obs room a e).
  Proof.
    intros C. destruct e as [adv|f c args|f rs]; cbn [taint_obs]; [|unfold enter_frame|exact C].
    2: { destruct (pop_args (List.length args) a) as [ts a'] eqn:E. destruct (pop_args_clean _ C E) as ((C1 & C2) & F). split; [|exact C2]. cbn.
         constructor; [|exact C1]. split; cbn; [repeat constructor|exact F]. }
    assert (PV : forall a0, clean a0 -> clean (snd (pop_value a0))).
    { intros a0 C0. destruct (pop_value a0) as [t a'] eqn:E. exact (proj1 (pop_value_clean C0 E)). }
    assert (PB : forall a0, clean a0 -> clean (snd (pop_block a0))).
    { intros a0 C0. destruct (pop_block a0) as [t a'] eqn:E. exact (proj1 (pop_block_clean C0 E)). }
    assert (NT : forall t : option bool, t <> Some true -> match t with Some t => t | None => false end = false) by (intros [[]|] H; congruence).
    destruct adv; cbn [taint_step]; auto using push_value_clean, end_block_clean, begin_block_clean.
    - (* call post *) assert (C1 : clean (with_stack a (tl (mi_stack a)))).
      { destruct C as (C1 & C2). split; [|exact C2]. cbn. destruct (mi_stack a); [constructor|now inversion C1]. }
      apply end_block_clean. destruct (mi_return _) as [v|] eqn:Er; [|exact C1]. apply set_return_clean; [|discriminate].
      apply push_value_clean; [exact C1|]. destruct v; [|reflexivity]. exfalso. destruct C1 as (_ & _ & _ & C4). congruence.
    - (* br_if *) destruct (_ =? 0); auto.
    - (* select *) pose proof (PV _ C) as C1. destruct (pop_value (snd (pop_value a))) as [t2 a2] eqn:E2. destruct (pop_value_clean C1 E2) as (C2 & N2).
      destruct (pop_value a2) as [t1 a3] eqn:E3. destruct (pop_value_clean C2 E3) as (C3 & N3). apply push_value_clean; [exact C3|].
      destruct t2 as [[]|], t1 as [[]|]; try congruence. now destruct (_ =? 0).
    - (* unary *) destruct (pop_value a) as [t a'] eqn:E. destruct (pop_value_clean C E). apply push_value_clean; auto.
    - (* binary *) destruct (pop_value a) as [t1 a1] eqn:E1. destruct (pop_value_clean C E1) as (C1 & N1).
      destruct (pop_value a1) as [t2 a2] eqn:E2. destruct (pop_value_clean C1 E2) as (C2 & N2). apply push_value_clean; [exact C2|].
      destruct t1 as [[]|], t2 as [[]|]; try congruence; reflexivity.
    - (* return *) destruct (mi_return a); [|exact C]. destruct (mi_stack a) as [|[[|? ?] ?] ?]; try exact C.
      destruct (pop_value a) as [t a'] eqn:E. destruct (pop_value_clean C E). now apply set_return_clean.
    - (* local *) destruct o; [apply push_value_clean; [exact C|now apply locals_get_clean]|..];
        (destruct (pop_value a) as [t a'] eqn:E; destruct (pop_value_clean C E); now apply locals_set_clean).
    - (* global *) destruct o.
      + destruct (globals_get i a) as [t a'] eqn:E. destruct (globals_get_clean C E). now apply push_value_clean.
      + destruct (pop_value a) as [t a'] eqn:E. destruct (pop_value_clean C E). now apply globals_set_clean.
    - (* load *) destruct (memory_get room index offset (snd (pop_value a))) as [[v a']|] eqn:E; [|exact C]. cbn [option_map fst snd].
      destruct (memory_get_clean _ _ (PV _ C) E). now apply push_value_clean.
    - (* store *) destruct (pop_value a) as [t a1] eqn:E1. destruct (pop_value_clean C E1) as (C1 & N1).
      destruct (memory_set room index _ offset (snd (pop_value a1))) as [a'|] eqn:E; [|exact C]. eapply memory_set_clean; [apply PV; exact C1| |exact E]. auto.
  Qed.
  Lemma taint_clean evs : forall a, clean a -> clean (fold_left (taint_obs room) evs a).
  Proof. induction evs as [|e evs IH]; intros a C; cbn [fold_left]; [exact C|]. apply IH, taint_obs_clean, C. Qed.
End Clean.
Lemma zero_clean : clean mirror_zero. Proof. repeat split; try constructor. discriminate. Qed.
