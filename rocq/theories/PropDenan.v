(** Property theorems C75 and C76: the analysis denan keeps NaNs out of the program and leaves programs without NaNs alone.
    The system consists of the output module, the buffer library generated for it, the compiled analysis and the host. *)
From Coq Require Import Permutation.
From Verif Require Import Semantics Advice RsStdlib StackLib StackRun StackSpec PropStack System Instantiate Trace TraceProofs TraceBalance
  Typing ModuleTyping InstantiateTyping Checker ExModule PropInstrument PropSpec PropTyping ForwardRel ForwardBody ForwardProofs SessionProofs Recorder
  PropTransparent SystemProofs StackOps StackHist AccessProofs Analyses AnalysesProofs PropAnalyses PropGuards Bytes Denan.
Local Open Scope string_scope.
Local Open Scope list_scope.
Local Open Scope res_scope.

Section Clean.
  Context {Y A : Type}.
  Variable num1 : unop -> Z -> option Z.
  Variable num2 : binop -> Z -> Z -> option Z.
  Variable N : nat.
  Variable sigs : list functy.
  Notation X := (sys (A * Y)).
  Notation lc := (wat_lib num1 num2 sigs N).
  Notation agent := (@lib_agent (A * Y) lc).
  (** The exports of the compiled analysis. *)
  Definition denan_exports : string -> list val -> xprog X := rs_analysis (denan_body num1 num2) agent (denan_apply agent).
  Variable export : string -> list val -> store X -> res (store X) (list val * store X).

  Lemma hook_run h args : denan_hooks h = true ->
    denan_exports (trap_name h) args = rfun_run (denan_body num1 num2) (rfun_of h) args.
  Proof.
    intros _. unfold denan_exports, rs_analysis. rewrite (rfun_of_ok h). assert (String.eqb (trap_name h) "generic_apply" = false) as ->; [|reflexivity].
    destruct h as [| | | | | | | | | | | | | | | | | |[]|[] []|[]| | |[] []|[] []|[]|[]]; reflexivity.
  Qed.
  Lemma returned r adv s vs s' : run_x export (xbind (denan_body num1 num2 adv) (rfun_return r)) s = Ok (vs, s') ->
    (forall us s1, run_x export (denan_body num1 num2 adv) s = Ok (us, s1) -> Forall (fun v => ~ nan v) us) -> Forall (fun v => ~ nan v) vs.
  Proof.
    rewrite run_x_bind. destruct (run_x export (denan_body num1 num2 adv) s) as [[us s1]|?| |]; try discriminate. cbn [rbind]. intros E H.
    specialize (H us s1 eq_refl). unfold rfun_return in E.
    destruct (rfun_results r) as [|t [|t' ts]]; [injection E as <- _; constructor| |injection E as <- _; constructor].
    destruct us as [|[t' z|] [|]]; try discriminate E. destruct (numty_eqb t' t) eqn:Et; [|discriminate E].
    assert (t' = t) by (destruct t', t; (reflexivity || discriminate Et)). subst t'. injection E as <- _. exact H.
  Qed.
  Lemma all_clean vs : Forall (fun v => ~ nan v) (map denan vs).
  Proof. apply Forall_forall. intros v H. apply in_map_iff in H as (w & <- & _). apply denan_clean. Qed.
  Lemma body_clean h args adv s us s1 : denan_hooks h = true -> rfun_advice (rfun_of h) args = Some adv ->
    run_x export (denan_body num1 num2 adv) s = Ok (us, s1) -> Forall (fun v => ~ nan v) us.
  Proof.
    intros Hh Ea. assert (Ad : match adv with AdUnary _ _ _ | AdBinary _ _ _ _ | AdConst _ _ | AdLocal _ _ _ _ | AdGlobal _ _ _ _ | AdLoad _ _ _ _ | AdStore _ _ _ _ _ => True | _ => False end).
    { destruct h; try discriminate Hh; cbn in Ea;
      repeat (match type of Ea with context [match ?l with _ => _ end] => is_var l; destruct l end; try discriminate Ea; cbn in Ea);
      try (match type of Ea with option_map _ ?o = _ => destruct o end; try discriminate Ea; cbn in Ea); injection Ea as <-; exact Logic.I. }
    destruct adv; try destruct Ad; cbn [denan_body]; intros E.
    - destruct (unary_apply _ _ _); [|discriminate E]. injection E as <- _. constructor; [apply denan_clean|constructor].
    - destruct (binary_apply _ _ _ _); [|discriminate E]. injection E as <- _. constructor; [apply denan_clean|constructor].
    - injection E as <- _. constructor; [apply denan_clean|constructor].
    - injection E as <- _. constructor; [apply denan_clean|constructor].
    - injection E as <- _. constructor; [apply denan_clean|constructor].
    - rewrite run_x_bind in E. destruct (run_x export (load_perform o index offset) s) as [[ws s2]|?| |]; try discriminate E.
      cbn [rbind run_x] in E. injection E as <- _. apply all_clean.
    - unfold store_perform in E. destruct (i64_try_into_i32 offset); [|discriminate E]. destruct (denan v); [|discriminate E].
      destruct (store_target o) as [nm t']. destruct (numty_eqb _ _); [|discriminate E]. cbn [run_x] in E.
      destruct (export _ _ _) as [[ws s2]|?| |]; try discriminate E. injection E as <- _. constructor.
  Qed.
  (** C75: no installed hook ever hands a NaN to the program, whatever it is called with. *)
  Theorem C75_returned : forall h args s vs s', denan_hooks h = true ->
    run_x export (denan_exports (trap_name h) args) s = Ok (vs, s') -> Forall (fun v => ~ nan v) vs.
  Proof.
    intros h args s vs s' Hh. rewrite hook_run by exact Hh. unfold rfun_run. destruct (rfun_advice (rfun_of h) args) as [adv|] eqn:Ea; [|discriminate].
    intros E. apply (returned _ _ _ E). intros us s1. exact (@body_clean h args adv s us s1 Hh Ea).
  Qed.
  (** Nor does it pass a NaN to a function of the program: the values stored to memory are none. Put differently, what the
      program's functions do when called with a NaN makes no difference. *)
  Theorem C75_passed_on : forall export' h args s, denan_hooks h = true ->
    (forall name us s1, Forall (fun v => ~ nan v) us -> export name us s1 = export' name us s1) ->
    run_x export (denan_exports (trap_name h) args) s = run_x export' (denan_exports (trap_name h) args) s.
  Proof.
    intros export' h args s Hh Same. rewrite hook_run by exact Hh. unfold rfun_run. destruct (rfun_advice (rfun_of h) args) as [adv|] eqn:Ea; [|reflexivity].
    rewrite !run_x_bind.
    assert (R : forall vs s1, run_x export (rfun_return (rfun_of h) vs) s1 = run_x export' (rfun_return (rfun_of h) vs) s1).
    { intros vs s1. unfold rfun_return. destruct (rfun_results _) as [|t [|]]; try reflexivity. destruct vs as [|[t' z|] [|]]; try reflexivity. destruct (numty_eqb _ _); reflexivity. }
    assert (B : run_x export (denan_body num1 num2 adv) s = run_x export' (denan_body num1 num2 adv) s).
    { assert (Ad : match adv with AdUnary _ _ _ | AdBinary _ _ _ _ | AdConst _ _ | AdLocal _ _ _ _ | AdGlobal _ _ _ _ | AdLoad _ _ _ _ | AdStore _ _ _ _ _ => True | _ => False end).
      { clear - Hh Ea. destruct h; try discriminate Hh; cbn in Ea;
        repeat (match type of Ea with context [match ?l with _ => _ end] => is_var l; destruct l end; try discriminate Ea; cbn in Ea);
        try (match type of Ea with option_map _ ?o = _ => destruct o end; try discriminate Ea; cbn in Ea); injection Ea as <-; exact Logic.I. }
      destruct adv; try destruct Ad; try reflexivity; cbn [denan_body].
      - destruct (unary_apply _ _ _); reflexivity.
      - destruct (binary_apply _ _ _ _); reflexivity.
      - unfold load_perform. destruct (i64_try_into_i32 offset); [|reflexivity]. cbn [xbind run_x].
        rewrite Same; [reflexivity|]. repeat constructor; intros [].
      - pose proof (denan_clean v) as Cv. unfold store_perform. destruct (i64_try_into_i32 offset); [|reflexivity]. destruct (denan v); [|reflexivity].
        destruct (store_target o). destruct (numty_eqb _ _); [|reflexivity]. cbn [run_x].
        rewrite Same; [reflexivity|]. constructor; [intros []|]. constructor; [exact Cv|]. constructor; [intros []|constructor]. }
    rewrite B. destruct (run_x export' (denan_body num1 num2 adv) s) as [[vs s1]|?| |]; cbn [rbind]; [apply R|reflexivity..].
  Qed.
  (** Where a NaN is replaced, zero takes its place; any other value stays. *)
  Theorem C75_zero : forall h t z rest s vs s', (h = HkConst t \/ (exists o, h = HkLocal o t) \/ exists o, h = HkGlobal o t) ->
    run_x export (denan_exports (trap_name h) (VNum t z :: rest)) s = Ok (vs, s') ->
    s' = s /\ exists r, vs = [VNum t r] /\ (nan (VNum t z) -> r = 0%Z) /\ (~ nan (VNum t z) -> r = z).
  Proof.
    intros h t z rest s vs s' Hh.
    assert (K : denan_hooks h = true) by (destruct Hh as [->|[(o & ->)|(o & ->)]]; reflexivity).
    rewrite hook_run by exact K. unfold rfun_run.
    assert (Ad : forall adv, rfun_advice (rfun_of h) (VNum t z :: rest) = Some adv -> denan_body num1 num2 adv = XRet (X := X) [denan (VNum t z)] /\ rfun_results (rfun_of h) = [t]).
    { intros adv Ea. destruct Hh as [->|[(o & ->)|(o & ->)]]; cbn in Ea;
      repeat (match type of Ea with context [match ?l with _ => _ end] => is_var l; destruct l end; try discriminate Ea; cbn in Ea); injection Ea as <-; split; reflexivity. }
    destruct (rfun_advice _ _) as [adv|]; [|discriminate]. destruct (Ad adv eq_refl) as (-> & Er). cbn [xbind]. unfold rfun_return. rewrite Er.
    assert (Dn : exists r, denan (VNum t z) = VNum t r /\ (nan (VNum t z) -> r = 0%Z) /\ (~ nan (VNum t z) -> r = z)).
    { destruct (nan_dec (VNum t z)) as [H|H]; [exists 0%Z; rewrite denan_zero by exact H|exists z; rewrite denan_same by exact H]; split; [reflexivity| |reflexivity|]; split; auto; contradiction. }
    destruct Dn as (r & -> & R). replace (numty_eqb t t) with true by (destruct t; reflexivity). cbn [run_x]. intros [= <- <-]. split; [reflexivity|]. exists r. auto.
  Qed.
  (** Intercepted calls: when the function runs, the arguments it takes from the buffer are those of the call with zeros for
      NaNs, and when it has returned [rs], the results left in the buffer for the caller are [rs] with zeros for NaNs. *)
  Definition zeroed (v w : val) : Prop := exists t z, v = VNum t z /\ (nan v /\ w = VNum t 0 \/ ~ nan v /\ w = v).
  Theorem C75_calls : forall frs ifs ft q qt args f i (code : bool) l (a : A) (s : store Y), (70010 <= Z.of_nat N)%Z ->
    library sigs ((ft, q, qt) :: frs) (fresh ft args :: ifs) l ->
    let describe := [vi32 f; vi32 i; vi32 (Z.of_nat (List.length (ft_in ft))); vi32 (Z.of_nat (List.length (ft_out ft))); vi32 q; vi32 qt; vi32 (if code then 0 else 1)] in
    exists args' l1 rest, Forall2 zeroed args args' /\ library sigs ((ft, q, qt) :: frs) (fresh ft args' :: ifs) l1 /\
      run_x export (denan_exports "generic_apply" describe) (lift l a s) =
        (let* (vs, s1) := export "call_base" [vi32 f; vi32 q] (lift l1 a s) in run_x export (rest vs) s1) /\
      forall vs rs as' l2 a2 (s2 : store Y), library sigs ((ft, q, qt) :: frs) (IF ft (map Some rs) as' :: ifs) l2 ->
        exists rs' l3, Forall2 zeroed rs rs' /\ run_x export (rest vs) (lift l2 a2 s2) = Ok ([], lift l3 a2 s2) /\
          library sigs ((ft, q, qt) :: frs) (IF ft (map Some rs') as' :: ifs) l3.
  Proof.
    intros frs ifs ft q qt args f i code l a s Big H describe.
    pose proof (@wat_implements num1 num2 sigs N Big) as IM.
    assert (Zs : forall sd ifr vs l', library sigs ((ft, q, qt) :: frs) (ifr :: ifs) l' -> side_of sd ifr = map Some vs -> Forall2 zeroed vs (map denan vs)).
    { intros sd ifr vs l' H' Es. destruct (@lib_frame sigs lc _ _ _ IM _ _ _ 0 ifr H' eq_refl) as (q' & qt' & Ef & _ & _ & _ & Nu & _ & _ & Ty).
      assert (Nv : Forall (fun v => exists t z, v = VNum t z) vs).
      { apply Forall_forall. intros v Hv. apply In_nth_error in Hv as (j & Ej).
        destruct (Ty sd j v) as (t & Et & Tv & _); [rewrite Es, nth_error_map, Ej; reflexivity|]. destruct (@num_side _ _ _ _ Nu Et) as (nt & ->).
        destruct v as [t z|]; [|discriminate Tv]. now exists t, z. }
      clear - Nv. induction Nv as [|v vs (t & z & ->) Nv IH]; constructor; [|exact IH]. exists t, z. split; [reflexivity|].
      destruct (nan_dec (VNum t z)) as [Hn|Hn]; [left; rewrite denan_zero by exact Hn|right; rewrite denan_same by exact Hn]; auto. }
    destruct (@lib_frame sigs lc _ _ _ IM _ _ _ 0 (fresh ft args) H eq_refl) as (_ & _ & _ & _ & _ & _ & Nu & _ & _ & _).
    destruct (@values_new (A * Y) sigs lc _ _ _ IM export ((ft, q, qt) :: frs) (fresh ft args :: ifs) 0 (fresh ft args) q qt eq_refl eq_refl (lift l a s) Nu H) as (l1 & H1 & E1).
    destruct (@values_new (A * Y) sigs lc _ _ _ IM export ((ft, q, qt) :: frs) (fresh ft args :: ifs) 0 (fresh ft args) q qt eq_refl eq_refl (lift l1 a s) Nu H1) as (l2 & H2 & E2).
    destruct (@denan_calls Y A sigs lc _ _ _ IM export frs ifs ft q qt args f i code l2 a s H2) as (l3 & rest & H3 & R3 & K).
    exists (map denan args), l3, (fun vs => xbind (rest vs) (fun _ => XRet [])). split; [exact (Zs SArg (fresh ft args) args l2 H2 eq_refl)|]. split; [exact H3|]. split.
    - unfold denan_exports, rs_analysis. cbn [String.eqb Ascii.eqb Bool.eqb]. unfold rs_generic_apply, describe, vi32. cbn [fresh if_type] in E1, E2. rewrite E1.
      change (with_lib (lift l a s) l1) with (lift l1 a s). rewrite E2. change (with_lib (lift l1 a s) l2) with (lift l2 a s).
      rewrite run_x_bind. rewrite R3. destruct (export _ _ _) as [[vs s1]|?| |]; cbn [rbind]; try reflexivity. now rewrite run_x_bind.
    - intros vs rs as' l4 a2 s2 H4. destruct (K vs rs as' l4 a2 s2 H4) as (l5 & R5 & H5). exists (map denan rs), l5.
      split; [exact (Zs SRet (IF ft (map Some rs) as') rs l4 H4 eq_refl)|]. split; [|exact H5]. rewrite run_x_bind, R5. reflexivity.
  Qed.
End Clean.

Section Sessions.
  Context {Y : Type}.
  Variable num1 : unop -> Z -> option Z.
  Variable num2 : binop -> Z -> Z -> option Z.
  Variable N : nat.
  Variable host : string -> string -> list val -> xprog Y.
  Variable I : Y -> Prop.
  Variables ord_i ord_c : list nat -> list nat.
  Variable infer : nat -> list low -> option (list ity).
  Variable m : module.
  Variable only : option (list nat).
  Variable imp : provided.
  Variables n fuel : nat.
  Notation sigs lib := (match lib with Some l => l | None => [] end).
  Notation deployment := (deployment N host I ord_i ord_c infer m only imp n fuel denan_hooks true).
  Notation ran := (ran num1 num2 host I m imp n).
  Notation trace := (module_trace num1 num2 host infer m denan_hooks true only n imp).
  Notation plain := (run_module num1 num2 host n imp m).
  Notation roomy := (enough_space num1 num2 host infer m denan_hooks true only imp n).
  (** A session under denan, which has no state. *)
  Definition under_denan (m' : module) (lib : option (list functy)) (x : Y) calls :=
    run_module num1 num2 (all_agents (Y := Y) (A := unit) (wat_lib num1 num2 (sigs lib) N) (denan_body num1 num2)
      (denan_apply (lib_agent (wat_lib num1 num2 (sigs lib) N))) host) fuel imp m' (lib_start tt, (tt, x)) calls.
  Notation nans := (Exists (shows_nan num1 num2)).
  Lemma NL e1 e2 : nans e1 -> nans (e1 ++ e2). Proof. intros H. apply Exists_app. now left. Qed.
  Lemma NR e1 e2 : nans e2 -> nans (e1 ++ e2). Proof. intros H. apply Exists_app. now right. Qed.
  Lemma ig (a : unit) (e : event) : ignore a e = a. Proof. reflexivity. Qed.

  (** C76: a session in which no NaN turns up (and which loads no floats) is the same under denan. *)
  Theorem C76_no_nans : forall m' lib x calls outs s, deployment m' lib -> ran x calls outs s ->
    ~ nans (trace x calls) -> roomy x calls -> ~ In None outs \/ Forall in_range32 (trace x calls) ->
    exists s', under_denan m' lib x calls = Ok (outs, s') /\ same_program s s'.
  Proof.
    intros m' lib x calls outs s [Big Pi Pc E V U AN PV HO CO Fu] [Ix T R] NN Ro W.
    assert (Sg : forall l, lib = Some l -> sigs lib = l) by (intros l ->; reflexivity).
    destruct (@guarded_sessions Y unit ignore (fun _ => True) nans (fun _ _ => False) NL NR (fun _ _ _ H => H) (fun _ _ _ H => H) (fun _ _ _ => Logic.I) (fun _ _ => Logic.I)
      num1 num2 host I ord_i ord_c infer m denan_hooks true only imp m' (sigs lib) (wat_lib num1 num2 (sigs lib) N) (library (sigs lib)) limit True (@wat_implements num1 num2 (sigs lib) N Big) lib Pi Pc E Sg
      _ _ (@denan_guards num1 num2 Y unit ignore ig) (@denan_hands Y unit ignore ig num1 num2 (sigs lib) _ _ _ _ (@wat_implements num1 num2 (sigs lib) N Big))
      V U AN PV HO CO n fuel Fu x (lib_start tt) tt calls outs s Ix (start_library lib) T R (@never_halts _ _) Ro NN W) as (s' & l1 & frs & ifs & R' & Ex & _).
    exists s'. split; [exact R'|]. eapply same_program_of; exact Ex.
  Qed.
  (** Without any assumption on the buffer space: the same up to a call that traps. *)
  Theorem C76_any_space : forall m' lib x calls outs s, deployment m' lib -> ran x calls outs s ->
    ~ nans (trace x calls) -> ~ In None outs \/ Forall in_range32 (trace x calls) ->
    same_until (plain x) (under_denan m' lib x) calls outs (~ roomy x calls).
  Proof.
    intros m' lib x calls outs s [Big Pi Pc E V U AN PV HO CO Fu] [Ix T R] NN W.
    assert (Sg : forall l, lib = Some l -> sigs lib = l) by (intros l ->; reflexivity).
    destruct (@guarded_any Y unit ignore (fun _ => True) nans (fun _ _ => False) NL NR (fun _ _ _ H => H) (fun _ _ _ H => H) (fun _ _ _ => Logic.I) (fun _ _ => Logic.I)
      num1 num2 host I ord_i ord_c infer m denan_hooks true only imp m' (sigs lib) (wat_lib num1 num2 (sigs lib) N) (library (sigs lib)) limit True (@wat_implements num1 num2 (sigs lib) N Big) lib Pi Pc E Sg
      _ _ (@denan_guards num1 num2 Y unit ignore ig) (@denan_hands Y unit ignore ig num1 num2 (sigs lib) _ _ _ _ (@wat_implements num1 num2 (sigs lib) N Big))
      V U AN PV HO CO n fuel Fu x (lib_start tt) tt calls outs s Ix (start_library lib) T R (or_introl Logic.I) NN W)
      as [([Q%never_halts|Q] & P)|(calls1 & rest & s1 & s' & l1 & P1 & P2 & P3 & P4 & _ & P7)]; [easy|left; split; [exact Q|exact P]|right].
    exists calls1, rest, s1, s'. split; [exact P1|]. split; [exact P2|]. split; [exact P3|]. split; [eapply same_program_of; exact P4|].
    destruct P7 as [->|(c & rest' & s2 & -> & [Q%never_halts|Q] & P7)]; [now left|easy|right]. exists c, rest', s2. auto.
  Qed.
  Theorem C76_failing_start : forall m' lib x calls s, deployment m' lib -> I x -> typed_calls m calls ->
    plain x calls = Trap s -> ~ nans (trace x calls) -> roomy x calls -> Forall in_range32 (trace x calls) ->
    exists s', under_denan m' lib x calls = Trap s' /\ same_program s s'.
  Proof.
    intros m' lib x calls s [Big Pi Pc E V U AN PV HO CO Fu] Ix T R NN Ro W.
    assert (Sg : forall l, lib = Some l -> sigs lib = l) by (intros l ->; reflexivity).
    destruct (@guarded_trap Y unit ignore (fun _ => True) nans (fun _ _ => False) NL NR (fun _ _ _ H => H) (fun _ _ _ H => H) (fun _ _ _ => Logic.I) (fun _ _ => Logic.I)
      num1 num2 host I ord_i ord_c infer m denan_hooks true only imp m' (sigs lib) (wat_lib num1 num2 (sigs lib) N) (library (sigs lib)) limit True (@wat_implements num1 num2 (sigs lib) N Big) lib Pi Pc E Sg
      _ _ (@denan_guards num1 num2 Y unit ignore ig) (@denan_hands Y unit ignore ig num1 num2 (sigs lib) _ _ _ _ (@wat_implements num1 num2 (sigs lib) N Big))
      V U AN PV HO CO n fuel Fu x (lib_start tt) tt calls s Ix (start_library lib) T R (@never_halts _ _) Ro NN W) as (s' & l1 & R' & Ex).
    exists s'. split; [exact R'|]. eapply same_program_of; exact Ex.
  Qed.
End Sessions.
Print Assumptions C75_returned.
Print Assumptions C75_passed_on.
Print Assumptions C75_zero.
Print Assumptions C75_calls.
Print Assumptions C76_no_nans.
Print Assumptions C76_any_space.
Print Assumptions C76_failing_start.

(** ** Examples
    A toy division: a quotient is the dividend, or the canonical NaN if the divisor is a zero. *)
Definition toy_num2 (o : binop) (a b : Z) : option Z :=
  match o with F32Div => Some (if b mod 2 ^ 31 =? 0 then 255 * 2 ^ 23 + 2 ^ 22 else a)%Z | _ => ex_num2 o a b end.
Notation f32 z := (VNum TF32 z).
Definition one : Z := (127 * 2 ^ 23)%Z.
Definition qnan : Z := (255 * 2 ^ 23 + 2 ^ 22)%Z.
Notation t_f32 := (TNum TF32).
Definition calc_module : module :=
  Mod [Fn (FT [t_f32; t_f32] [t_f32]) (FPresent [] [LBasic (BLocal LGet 0); LBasic (BLocal LGet 1); LBasic (BBinary F32Div); LEnd]) ["div"];
       Fn (FT [t_f32] [t_f32]) (FPresent [] [LBasic (BConst TF32 one); LBasic (BLocal LGet 0); LBasic (BCall 0); LEnd]) ["inv"];
       Fn (FT [t_i32; t_f32] []) (FPresent [] [LBasic (BLocal LGet 0); LBasic (BLocal LGet 1); LBasic (BStore F32Store (MA 2 4)); LEnd]) ["put"];
       Fn (FT [t_i32] [t_i32]) (FPresent [] [LBasic (BLocal LGet 0); LBasic (BLoad I32Load (MA 2 4)); LEnd]) ["get"]]
      [] [Mem 1 None None ["memory"]] [] [] [] None.
Definition calc_infer (f : nat) (l : list low) : option (list ity) :=
  Some (map (fun i => match i with
    | LBasic (BLocal LGet k) => IReach (FT [] [match f, k with 2, 0 | 3, 0 => t_i32 | _, _ => t_f32 end])
    | LBasic (BConst _ _) => IReach (FT [] [t_f32])
    | LBasic (BBinary _) | LBasic (BCall _) => IReach (FT [t_f32; t_f32] [t_f32])
    | LBasic (BLoad _ _) => IReach (FT [t_i32] [t_i32])
    | LBasic (BStore _ _) => IReach (FT [t_i32; t_f32] [])
    | _ => IReach (FT [] []) end) l).
Lemma calc_checked : check_funcs calc_module calc_infer = true. Proof. reflexivity. Qed.
Lemma calc_valid : valid calc_module.
Proof.
  constructor; simpl.
  - exact (proj1 (check_funcs_sound _ _ calc_checked)).
  - constructor.
  - split; [constructor; [unfold mem_limits; simpl; lia|constructor]|lia].
  - intros [|i] g E; discriminate E.
  - constructor.
  - constructor.
  - exact Logic.I.
  - repeat constructor; simpl; intuition discriminate.
Qed.
Lemma calc_in_format : in_format calc_module.
Proof. unfold in_format, u32, one. simpl. split; [lia|]. repeat split; repeat (constructor; simpl); unfold u32; simpl; try lia. Qed.
Lemma calc_compatible : compatible calc_module every_hook (intercepts calc_module true None ex_id).
Proof.
  constructor.
  - intros fn ns name Hf EC. simpl in Hf. repeat destruct Hf as [<-|Hf]; try discriminate EC; destruct Hf.
  - intros fn x Hf Hx Hi. simpl in Hf. repeat destruct Hf as [<-|Hf]; try destruct Hf; simpl in Hi;
      repeat destruct Hi as [<-|Hi]; try destruct Hi; vm_compute in Hx; intuition discriminate.
  - intros fn locals code Hf EC. simpl in Hf. repeat destruct Hf as [<-|Hf]; try discriminate EC; try destruct Hf;
      injection EC as <- <-; split; intros o ma Hi _; simpl in Hi; repeat (destruct Hi as [Hi|Hi]; [try discriminate Hi; injection Hi as <- <-; simpl; lia|]); destruct Hi.
  - intros f fn Hi Ef. simpl in Hi. repeat (destruct Hi as [<-|Hi]; [injection Ef as <-; simpl; lia|]). destruct Hi.
Qed.
Notation calc_deployment := (deployment ex_steps silent (fun _ => True) ex_id ex_id calc_infer calc_module None ex_imports 8 42 denan_hooks true).
Notation calc_trace calls := (module_trace ex_num1 toy_num2 silent calc_infer calc_module denan_hooks true None 8 ex_imports tt calls).
Notation calc_ran := (ran ex_num1 toy_num2 silent (fun _ => True) calc_module ex_imports 8 tt).
Notation calc_denan := (under_denan ex_num1 toy_num2 ex_steps silent ex_imports 42).
Lemma calc_deployed m' lib : instrument ex_id ex_id calc_infer calc_module (std_ai denan_hooks true) None = IOk m' lib -> calc_deployment m' lib.
Proof.
  intros E. constructor.
  - unfold ex_steps. lia.
  - intros. apply Permutation_refl.
  - intros. apply Permutation_refl.
  - exact E.
  - exact calc_valid.
  - exact calc_in_format.
  - exact (proj2 (check_funcs_sound _ _ calc_checked)).
  - constructor; intros ? ? ? H E'; simpl in H; intuition; subst; discriminate.
  - intros f fn ns name args Nf EC F. do 4 (destruct f as [|f]; [injection Nf as <-; discriminate EC|]). destruct f; discriminate Nf.
  - apply compatible_less with (on := every_hook); [reflexivity|exact calc_compatible].
  - lia.
Qed.
Definition shows_nanb (e : event) : bool :=
  match e with
  | EvAdvice (AdUnary _ _ _) => true
  | EvAdvice (AdBinary o a b _) =>
      is_nan a || is_nan b ||
      match a, b with VNum _ x, VNum _ y => match binop_sem toy_num2 o x y with Some r => is_nan (VNum (binop_out o) r) | None => false end | _, _ => false end
  | EvAdvice (AdConst v _) | EvAdvice (AdLocal v _ _ _) | EvAdvice (AdGlobal v _ _ _) | EvAdvice (AdStore _ v _ _ _) => is_nan v
  | EvAdvice (AdLoad _ _ o _) => match loadop_ty o with TF32 | TF64 => true | _ => false end
  | EvAdvice _ => false
  | EvEnter _ _ vs | EvLeave _ vs => existsb is_nan vs
  end.
Lemma shows_nanb_ok evs : existsb shows_nanb evs = false -> ~ Exists (shows_nan ex_num1 toy_num2) evs.
Proof.
  intros H E. apply Exists_exists in E as (e & He & Se). assert (F : shows_nanb e = true); [|rewrite <- not_true_iff_false in H; apply H, existsb_exists; eauto].
  assert (All : forall vs, Exists nan vs -> existsb is_nan vs = true).
  { intros vs Ex. apply Exists_exists in Ex as (v & Hv & Nv). apply existsb_exists. exists v. split; [exact Hv|now apply is_nan_ok]. }
  destruct e as [[]| |]; cbn [shows_nan shows_nanb] in *; try (now apply is_nan_ok); try contradiction; try reflexivity; auto.
  - destruct Se as [M|[M|(t & x & t' & y & r & -> & -> & Er & M)]].
    + apply is_nan_ok in M. now rewrite M.
    + apply is_nan_ok in M. now rewrite M, orb_true_r.
    + rewrite Er. apply is_nan_ok in M. now rewrite M, orb_true_r.
  - destruct Se as [-> | ->]; reflexivity.
Qed.
(** C75 and C76: divisions, a store and a load of integers without NaNs are the same under denan. The inverse of zero is
    NaN; under denan it is zero, and zero is what ends up in memory. *)
Definition plain_calls : list (string * list val) := [("div", [f32 one; f32 (2 * one)]); ("inv", [f32 one]); ("put", [vi32 8; f32 one]); ("get", [vi32 8])].
Definition plain_outs : list (option (list val)) := [Some [f32 one]; Some [f32 one]; Some []; Some [vi32 one]].
Definition nan_calls : list (string * list val) := [("inv", [f32 0]); ("put", [vi32 8; f32 qnan]); ("get", [vi32 8])].
Example ex_denan : exists m' lib s s' s2 s3, calc_deployment m' lib /\ calc_ran plain_calls plain_outs s /\
  ~ Exists (shows_nan ex_num1 toy_num2) (calc_trace plain_calls) /\ List.length (calc_trace plain_calls) = 23 /\
  enough_space ex_num1 toy_num2 silent calc_infer calc_module denan_hooks true None ex_imports 8 tt plain_calls /\
  calc_denan m' lib tt plain_calls = Ok (plain_outs, s') /\
  nan (f32 qnan) /\ calc_ran nan_calls [Some [f32 qnan]; Some []; Some [vi32 qnan]] s2 /\
  calc_denan m' lib tt nan_calls = Ok ([Some [f32 0]; Some []; Some [vi32 0]], s3).
Proof.
  destruct (instrument ex_id ex_id calc_infer calc_module (std_ai denan_hooks true) None) as [m' lib| |] eqn:E; [|vm_compute in E; discriminate E..].
  assert (Runs : forall calls outs, typed_calls calc_module calls ->
    outs_of (run_module ex_num1 toy_num2 silent 8 ex_imports calc_module tt calls) = Some outs -> exists s, calc_ran calls outs s).
  { intros calls outs T H. apply outs_of_ok in H as (s & H). exists s. constructor; [exact Logic.I|exact T|exact H]. }
  destruct (Runs plain_calls plain_outs) as (s & R); [typed|vm_compute; reflexivity|].
  destruct (Runs nan_calls [Some [f32 qnan]; Some []; Some [vi32 qnan]]) as (s2 & R2); [typed|vm_compute; reflexivity|].
  assert (NN : ~ Exists (shows_nan ex_num1 toy_num2) (calc_trace plain_calls)) by (apply shows_nanb_ok; vm_compute; reflexivity).
  assert (Sp : enough_space ex_num1 toy_num2 silent calc_infer calc_module denan_hooks true None ex_imports 8 tt plain_calls).
  { intros b a Eb. pose proof (peak_ok calc_module _ _ Eb) as H. assert (P : ex_peak calc_module (calc_trace plain_calls) = 60%Z) by (vm_compute; reflexivity). rewrite P in H. unfold limit. lia. }
  assert (No : ~ In None plain_outs) by (intros H; repeat (destruct H as [H|H]; [discriminate H|]); destruct H).
  destruct (@C76_no_nans _ _ _ _ _ _ _ _ _ _ _ _ _ _ m' lib _ _ _ _ (calc_deployed E) R NN Sp (or_introl No)) as (s' & R' & _).
  assert (H3 : outs_of (calc_denan m' lib tt nan_calls) = Some [Some [f32 0]; Some []; Some [vi32 0]]).
  { pose proof E as E'. vm_compute in E'. injection E' as <- <-. vm_compute. reflexivity. }
  apply outs_of_ok in H3 as (s3 & H3).
  exists m', lib, s, s', s2, s3. split; [exact (calc_deployed E)|]. split; [exact R|]. split; [exact NN|]. split; [vm_compute; reflexivity|].
  split; [exact Sp|]. split; [exact R'|]. split; [split; [reflexivity|discriminate]|]. split; [exact R2|exact H3].
Qed.
