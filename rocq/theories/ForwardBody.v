(** Simulation of function bodies: an observing and forwarding analysis leaves every instruction
    its meaning (towards C08, C09, C10). *)
From Verif Require Import Semantics Advice RsStdlib System Trace RunLemmas NestingSpec NestingProofs
  Typing TypingProofs AdvisedTyping PropStdlib ForwardRel.
From Verif Require AccessProofs.
Local Open Scope res_scope.

(** The function of the analysis library behind a hook. *)
Definition rfun_of (h : hook) : rfun :=
  match h with
  | HkBlockPre => RBlockPre | HkBlockPost => RBlockPost | HkLoopPre => RLoopPre | HkLoopPost => RLoopPost
  | HkSelect => RSelect | HkCallPre => RCallPre | HkCallPost => RCallPost
  | HkCallIndPre => RCallIndPre | HkCallIndPost => RCallIndPost
  | HkIfThen => RIfThen | HkIfThenPost => RIfThenPost | HkIfThenElse => RIfThenElse | HkIfThenElsePost => RIfThenElsePost
  | HkBr => RBr | HkBrIf => RBrIf | HkBrTable => RBrTable | HkDrop => RDrop | HkReturn => RReturn
  | HkConst t => RConst t | HkUnary a r => RUnary a r
  | HkBinary BkI32 => RBinary TI32 TI32 TI32 | HkBinary BkI64 => RBinary TI64 TI64 TI64
  | HkBinary BkF32 => RBinary TF32 TF32 TF32 | HkBinary BkF64 => RBinary TF64 TF64 TF64
  | HkBinary BkI64I32 => RBinary TI64 TI64 TI32 | HkBinary BkF32I32 => RBinary TF32 TF32 TI32
  | HkBinary BkF64I32 => RBinary TF64 TF64 TI32
  | HkMemorySize => RMemorySize | HkMemoryGrow => RMemoryGrow
  | HkLocal o t => RLocal t o | HkGlobal o t => RGlobal t o
  | HkStore t => RStore t | HkLoad t => RLoad t
  end.
Lemma rfun_of_ok h : find (fun r => String.eqb (trap_name h) (fst r)) rs_exports = Some (trap_name h, rfun_of h).
Proof. destruct h; try (destruct t); try (destruct k); try (destruct a, r); try (destruct o); reflexivity. Qed.

(** Reports of accesses to the memory. *)
Definition accesses (adv : advice) : option (Z * Z) :=
  match adv with AdLoad i off _ _ | AdStore i _ off _ _ => Some (i, off) | _ => None end.

(** Reports of a condition, and reports that are the same up to a condition that decides the
    same way: what a condition decides is whether it is zero. *)
Definition condition (adv : advice) : option Z :=
  match adv with
  | AdIfThenElse c _ _ _ | AdIfThen c _ _ _ | AdBrIf c _ _ | AdSelect c _ => Some c
  | _ => None
  end.
Definition decides (adv : advice) : bool := match condition adv with Some _ => true | None => false end.
Definition with_condition (c : Z) (adv : advice) : advice :=
  match adv with
  | AdIfThenElse _ i r l => AdIfThenElse c i r l | AdIfThen _ i r l => AdIfThen c i r l
  | AdBrIf _ b l => AdBrIf c b l | AdSelect _ l => AdSelect c l
  | _ => adv
  end.
Inductive same_choice (adv : advice) : advice -> Prop :=
| sc_same : same_choice adv adv
| sc_other c c' : condition adv = Some c -> (c' =? 0)%Z = (c =? 0)%Z -> (0 <= c' < 2 ^ 32)%Z ->
    same_choice adv (with_condition c' adv).
Lemma same_choice_eq adv adv' : decides adv = false -> same_choice adv adv' -> adv' = adv.
Proof. intros E [|c c' Ec _ _]; [reflexivity|]. unfold decides in E. rewrite Ec in E. discriminate. Qed.
Lemma same_choice_condition X num1 num2 adv adv' c : same_choice adv adv' -> condition adv = Some c -> (0 <= c < 2 ^ bits TI32)%Z ->
  exists c', (c' =? 0)%Z = (c =? 0)%Z /\ (0 <= c' < 2 ^ bits TI32)%Z /\ forward_body (X := X) num1 num2 adv' = XRet [VNum TI32 c'].
Proof.
  intros [|c0 c' E0 Z0 R0] E R.
  - exists c. split; [reflexivity|]. split; [exact R|]. destruct adv; try discriminate E; injection E as ->; reflexivity.
  - rewrite E in E0. injection E0 as <-. exists c'. split; [exact Z0|]. split; [exact R0|]. destruct adv; try discriminate E; reflexivity.
Qed.

(** Accesses outside the memory, at the address the base functions compute. *)
Definition outside (me : memst) (adv : advice) : Prop :=
  match adv with
  | AdLoad i off o _ => mem_load me o ((i + off) mod 2 ^ 32) = None
  | AdStore i (VNum _ z) off o _ => mem_store me o ((i + off) mod 2 ^ 32) z = None
  | _ => False
  end.

Section Body.
  Context {Y A L0 B0 : Type}.
  Notation X := (sys (B0 * Y)).
  Variable lib_part : L0 -> store unit.
  Variable ana_part : L0 -> A -> B0.
  Notation lift := (glift lib_part ana_part).
  Variable obs : A -> event -> A.
  Notation seen := (fold_left obs).
  Variable good : event -> Prop.
  Variables (Lb : L0 -> Prop) (Lt : list event -> L0 -> Prop) (D : bool -> list event -> Prop -> Prop).
  Hypothesis Cl : closed Lb Lt D.
  Variable num1 : unop -> Z -> option Z.
  Variable num2 : binop -> Z -> Z -> option Z.
  Variable I : Y -> Prop.
  Variable ftype : nat -> option functy.
  Variable call : nat -> list val -> store Y -> res (store Y) (list val * store Y).
  Variable tcall : nat -> list val -> store Y -> list event.
  Variable call' : nat -> list val -> store X -> res (store X) (list val * store X).
  Variable on : hook -> bool.
  Variable hook_call : hook -> list val -> store X -> res (store X) (list val * store X).
  Variable export : string -> list val -> store X -> res (store X) (list val * store X).
  Variables n n' : nat.
  Hypothesis Ln : n <= n'.
  Hypothesis Lf : 1 <= n'.
  Notation sim := (gsim lib_part ana_part obs good Lb Lt D).
  Notation csim := (gsim lib_part ana_part obs good Lb Lt D (B := out * list val * list val)).
  Notation ok C := (val_ok (List.length (c_funcs C))).
  Notation mid_ok := (mid_ok I).
  Notation conf_ok := (conf_ok I).
  Notation exec := (exec num1 num2 ftype call).
  Notation exec' := (Semantics.exec num1 num2 ftype call').
  Notation run := (run num1 num2 ftype call n).
  Notation inner := (inner ftype tcall).
  Notation consult := (consult on hook_call).

  (** When an access is reported there is a memory, whose size the analysis can ask for; performing an
      access outside it traps, a load gives what the memory holds, and a store changes only the memory. *)
  Definition sized (adv : advice) (s : store Y) : Prop := forall i off, accesses adv = Some (i, off) ->
    (0 <= i < 2 ^ 32)%Z /\ (0 <= off < 2 ^ 31)%Z /\ exists me, st_mem s = Some me /\ (0 <= ms_pages me <= 65536)%Z /\
    (forall l a, export "instrumented_memory_size"%string [vi32 0] (lift l a s) = Ok ([vi32 (ms_pages me)], lift l a s)) /\
    (outside me adv -> forall l a, run_x export (forward_body num1 num2 adv) (lift l a s) = Trap (lift l a s)) /\
    (forall o loc l a, adv = AdLoad i off o loc -> run_x export (forward_body num1 num2 adv) (lift l a s) =
       match mem_load me o ((i + off) mod 2 ^ 32) with Some z => Ok ([VNum (loadop_ty o) z], lift l a s) | None => Trap (lift l a s) end) /\
    (forall v o loc, adv = AdStore i v off o loc ->
       (forall l a, run_x export (forward_body num1 num2 adv) (lift l a s) = Trap (lift l a s)) \/
       exists s', forall l a, run_x export (forward_body num1 num2 adv) (lift l a s) = Ok ([], lift l a s')).
  Lemma unsized adv s : accesses adv = None -> sized adv s.
  Proof. intros E i off E'. rewrite E in E'. discriminate. Qed.

  (** ** Code without hooks *)
  Definition calls (b : basic) : bool := match b with BCall _ | BCallIndirect _ _ => true | _ => false end.
  Definition up {B} (l : L0) (a : A) (r : res (store Y) (B * store Y)) : res (store X) (B * store X) :=
    match r with Ok (b, s) => Ok (b, lift l a s) | Trap s => Trap (lift l a s) | Stuck => Stuck | Oof => Oof end.
  Definition upb (l : L0) (a : A) (r : res (store Y) (store Y)) : res (store X) (store X) :=
    match r with Ok s => Ok (lift l a s) | Trap s => Trap (lift l a s) | Stuck => Stuck | Oof => Oof end.
  Lemma bulk_up b vs l a s : bulk b vs (lift l a s) = upb l a (bulk b vs s).
  Proof.
    destruct b; try reflexivity; unfold bulk;
    repeat (cbn [st_mem st_globals st_tables st_elems st_datas glift rget rbind upb];
      match goal with
      | |- ?x = ?x => reflexivity
      | |- context [nth_error ?x ?y] => destruct (nth_error x y)
      | |- context [rget (st_mem s)] => destruct (st_mem s)
      | |- context [if ?c then _ else _] => destruct c
      | |- context [match ?x with _ => _ end] => is_var x; destruct x
      end); try reflexivity.
  Qed.
  Lemma exec_up b st ls l a s : calls b = false ->
    exec' b st ls (lift l a s) = up (B := out * list val * list val) l a (exec b st ls s).
  Proof.
    intros E.
    destruct b; try discriminate E; clear E;
    try (unfold Semantics.exec; cbn [bulk_arity rget rbind]; destruct (popn _ st) as [[vs st']|]; [|reflexivity];
         cbn [rget rbind]; rewrite bulk_up; destruct (bulk _ vs s); reflexivity);
    cbn [Semantics.exec st_mem st_globals st_tables st_elems st_datas glift];
    repeat match goal with
    | |- context [match ?o with LGet => _ | LSet => _ | LTee => _ end] => destruct o
    | |- context [match ?o with GGet => _ | GSet => _ end] => destruct o
    end;
    repeat (cbn [st_mem st_globals st_tables st_elems st_datas glift rget rbind pop_i32 pop_ref up next];
      match goal with
      | |- ?x = ?x => reflexivity
      | |- context [pop_i32 ?st] => destruct st as [|[[] ?|] ?]
      | |- context [pop_ref ?st] => destruct st as [|[? ?|] ?]
      | |- context [nth_error ?x ?y] => destruct (nth_error x y)
      | |- context [rget (st_mem s)] => destruct (st_mem s)
      | |- context [mem_load ?x ?y ?z] => destruct (mem_load x y z)
      | |- context [mem_store ?x ?y ?z ?w] => destruct (mem_store x y z w)
      | |- context [mem_grow ?x ?y] => destruct (mem_grow x y)
      | |- context [unop_sem ?x ?y ?z] => destruct (unop_sem x y z)
      | |- context [binop_sem ?x ?y ?z ?w] => destruct (binop_sem x y z w)
      | |- context [if ?c then _ else _] => destruct c
      | |- context [match ?x with _ => _ end] => is_var x; destruct x
      end); try reflexivity.
  Qed.

  Section At.
    Variable C : ctx.
    Hypothesis K : calls_ok I ftype call C.
    Hypothesis call_sim : forall f ft args s l a,
      nth_error (c_funcs C) f = Some ft -> Forall2 (ok C) args (ft_in ft) -> store_ok C I s -> Lb l ->
      sim (tcall f args s) a (call f args s) (call' f args (lift l a s)).
    Hypothesis hook_run : forall h args adv l a s, on h = true -> Lb l ->
      rfun_advice (rfun_of h) args = Some adv -> List.length args = List.length (trap_args h) -> sized adv s ->
      (exists adv', same_choice adv adv' /\ good (EvAdvice adv) /\ hook_call h args (lift l a s) =
      (let* (rs, s') := run_x export (xbind (forward_body num1 num2 adv') (rfun_return (rfun_of h))) (lift l (obs a (EvAdvice adv)) s) in
       if vals_ok (map TNum (trap_results h)) rs then Ok (rs, s') else Stuck)) \/
      D false [EvAdvice adv] (exists s', hook_call h args (lift l a s) = Trap s') \/
    good (EvAdvice adv) /\ D true [EvAdvice adv] (exists s', hook_call h args (lift l a s) = Trap s') /\ (exists s', hook_call h args (lift l a s) = Trap s') /\
    exists s', run_x export (forward_body num1 num2 adv) (lift l (obs a (EvAdvice adv)) s) = Trap s'.
    Hypothesis loads : c_mem C = true -> forall o i off l a s,
      export (load_target o) [vi32 i; vi32 off] (lift l a s) =
      let* me := rget (st_mem s) in
      match mem_load me o ((i + off) mod 2 ^ 32) with
      | Some z => Ok ([VNum (loadop_ty o) z], lift l a s)
      | None => Trap (lift l a s)
      end.
    Hypothesis stores : c_mem C = true -> forall o i z off l a s,
      export (fst (store_target o)) [vi32 i; VNum (storeop_ty o) z; vi32 off] (lift l a s) =
      let* me := rget (st_mem s) in
      match mem_store me o ((i + off) mod 2 ^ 32) z with
      | Some me' => Ok ([], lift l a (set_mem s (Some me')))
      | None => Trap (lift l a s)
      end.
    Hypothesis grows : c_mem C = true -> forall d v l a s,
      export "instrumented_memory_grow"%string [vi32 d; v] (lift l a s) =
      let* me := rget (st_mem s) in
      let (r, me') := mem_grow me d in Ok ([vi32 r], lift l a (set_mem s (Some me'))).
    Hypothesis sizes : c_mem C = true -> forall v l a s,
      export "instrumented_memory_size"%string [v] (lift l a s) =
      let* me := rget (st_mem s) in Ok ([vi32 (ms_pages me)], lift l a s).

    Lemma sized_at adv i off s : accesses adv = Some (i, off) -> c_mem C = true -> store_ok C I s ->
      (0 <= i < 2 ^ 32)%Z -> (0 <= off < 2 ^ 31)%Z -> sized adv s.
    Proof.
      intros E Hm SO Ri Ro i0 off0 E'. rewrite E in E'. injection E' as <- <-. split; [exact Ri|]. split; [exact Ro|].
      destruct (the_mem SO Hm) as (me & Em & (_ & Mp & Mx)). exists me. split; [exact Em|]. split; [lia|].
      split; [intros l a; rewrite (sizes Hm), Em; reflexivity|].
      assert (Eo : i64_try_into_i32 off = Some off).
      { now apply offset_fits. }
      split; [|split; [intros o loc0 l a ->; cbn [forward_body]; unfold load_perform; rewrite Eo; cbn [run_x]; rewrite (loads Hm), Em; cbn [rget rbind];
        destruct (mem_load _ _ _); reflexivity|]].
      2: { intros v o loc0 ->. cbn [forward_body].
        destruct v as [t z|]; [|left; intros l a; unfold store_perform; rewrite Eo; reflexivity].
        destruct (numty_eqb t (storeop_ty o)) eqn:Eq.
        - apply numty_eqb_eq in Eq. subst t.
          replace (store_perform (X := X) o i (VNum (storeop_ty o) z) off) with
            (XCall (X := X) (fst (store_target o)) [vi32 i; VNum (storeop_ty o) z; vi32 off] (fun _ => XRet []))
            by (unfold store_perform; rewrite Eo; destruct o; reflexivity).
          cbn [run_x]. destruct (mem_store me o ((i + off) mod 2 ^ 32) z) as [me'|] eqn:ES.
          + right. exists (set_mem s (Some me')). intros l a. rewrite (stores Hm), Em. cbn [rget rbind]. rewrite ES. reflexivity.
          + left. intros l a. rewrite (stores Hm), Em. cbn [rget rbind]. rewrite ES. reflexivity.
        - left. intros l a. replace (store_perform (X := X) o i (VNum t z) off) with (XTrap (X := X))
            by (unfold store_perform; rewrite Eo; destruct o, t; (reflexivity || discriminate Eq)).
          reflexivity. }
      intros H l a. destruct adv; try discriminate E; injection E as -> ->; cbn [outside forward_body] in *.
      - unfold load_perform. rewrite Eo. cbn [run_x]. rewrite (loads Hm), Em. cbn [rget rbind]. now rewrite H.
      - destruct v as [t z|]; [|destruct H]. destruct (numty_eqb t (storeop_ty o)) eqn:Eq.
        + apply numty_eqb_eq in Eq. subst t.
          replace (store_perform (X := X) o i (VNum (storeop_ty o) z) off) with
            (XCall (X := X) (fst (store_target o)) [vi32 i; VNum (storeop_ty o) z; vi32 off] (fun _ => XRet []))
            by (unfold store_perform; rewrite Eo; destruct o; reflexivity).
          cbn [run_x]. rewrite (stores Hm), Em. cbn [rget rbind]. now rewrite H.
        + replace (store_perform (X := X) o i (VNum t z) off) with (XTrap (X := X))
            by (unfold store_perform; rewrite Eo; destruct o, t; (reflexivity || discriminate Eq)).
          reflexivity.
    Qed.

    Lemma sim_up {B} l a (r : res (store Y) (B * store Y)) : Lb l -> sim [] a r (up l a r).
    Proof. intros H. pose proof (cl_ok Cl [] l H). destruct r as [[b s]|s| |]; simpl; eauto 10. Qed.
    Lemma do_call_sim f ft st ls s rest l a : ftype f = Some ft -> Lb l -> mid_ok C st ls s (rev (ft_in ft) ++ rest) ->
      csim (callee_events tcall f ft st s) a (do_call call f ft st ls s) (do_call call' f ft st ls (lift l a s)).
    Proof.
      intros Ef Hl (F1 & F2 & F3). unfold do_call, callee_events. destruct (popn_ok _ _ F1) as (vs & st' & -> & Fv & _).
      cbn [rget rbind]. rewrite <- (app_nil_r (tcall f vs s)).
      apply (@sim_bind _ _ _ _ lib_part ana_part obs good Lb Lt D Cl (list val) (out * list val * list val)); [|reflexivity|].
      - apply call_sim with (ft := ft); auto. destruct K as (K1 & _). now rewrite <- K1.
      - intros rs s1 l1 E Hl1. now apply csim_next.
    Qed.
    Lemma exec_sim b ft st ls s rest l a : btype C b ft -> Lb l -> mid_ok C st ls s (rev (ft_in ft) ++ rest) ->
      csim (inner b st s) a (exec b st ls s) (exec' b st ls (lift l a s)).
    Proof.
      intros Tb Hl M. destruct (calls b) eqn:Ec.
      - destruct b; try discriminate Ec; inversion Tb; subst.
        + cbn [Semantics.exec Trace.inner]. destruct K as (K1 & _). rewrite K1.
          match goal with H : nth_error _ _ = Some _ |- _ => rewrite H end.
          cbn [rget rbind]. eapply do_call_sim; eauto. now rewrite K1.
        + destruct M as (F1 & F2 & F3). cbn [ft_in] in F1. rewrite rev_app_distr in F1. simpl in F1.
          apply cons_inv in F1 as (v & st' & -> & Fv & F1). apply num_inv in Fv as (z & -> & R).
          cbn [Semantics.exec Trace.inner pop_i32 rbind]. cbn [st_tables glift].
          match goal with |- context [rget (nth_error (st_tables s) ?t)] => destruct (nth_error (st_tables s) t) as [tb|]; [|exact Logic.I] end. cbn [rget rbind].
          destruct (nth_error (ts_elems tb) (Z.to_nat z)) as [[f|]|]; [|now apply (sim_trap lib_part ana_part obs good Cl)|now apply (sim_trap lib_part ana_part obs good Cl)].
          destruct (ftype f) as [ft'|] eqn:Ef; [|exact Logic.I]. cbn [rget rbind].
          match goal with |- context [functy_eqb ft' ?ft0] => destruct (functy_eqb ft' ft0) eqn:Eq; [|now apply (sim_trap lib_part ana_part obs good Cl)] end. apply functy_eqb_eq in Eq. subst ft'.
          eapply do_call_sim; eauto. split; [exact F1|]. split; [exact F2|exact F3].
      - rewrite exec_up by exact Ec. replace (inner b st s) with (@nil event); [now apply (@sim_up (out * list val * list val))|].
        destruct b; try discriminate Ec; reflexivity.
    Qed.

    (** ** Hooks that hand their operand back *)
    Lemma consult_id h k consts m st ls s l a ops st' adv rs0 rs : Lb l ->
      popn k st = Some (ops, st') ->
      rfun_advice (rfun_of h) (ops ++ consts ++ loc m) = Some adv -> accesses adv = None -> decides adv = false ->
      List.length (ops ++ consts ++ loc m) = List.length (trap_args h) ->
      forward_body (X := X) num1 num2 adv = XRet rs0 -> rfun_return (X := X) (rfun_of h) rs0 = XRet rs ->
      vals_ok (map TNum (trap_results h)) rs = true -> pushn rs st' = st ->
      csim (if_on on h adv) a (next st ls s) (consult h k consts m st ls (lift l a s)).
    Proof.
      intros Hl E1 E2 Ea Ed E3 E4 E5 E6 E7. unfold if_on, Advice.consult. destruct (on h) eqn:O; [|now apply csim_next].
      rewrite E1. cbn [rget rbind]. destruct (@hook_run h _ adv l a s O Hl E2 E3 (@unsized adv s Ea)) as [(adv' & SC & Gd & ->)|[Hd|(_ & _ & _ & s2 & Ht)]];
        [| |rewrite E4 in Ht; discriminate Ht].
      - rewrite (same_choice_eq Ed SC), E4. cbn [xbind]. rewrite E5. cbn [run_x rbind]. rewrite E6. cbn [rbind]. rewrite E7. left.
        split; [constructor; [exact Gd|constructor]|]. exists l. split; [exact Hl|reflexivity].
      - right. revert Hd. apply (cl_imp Cl). intros (s' & ->). exists s'. reflexivity.
    Qed.
    Lemma num_fits h t z : trap_results h = [t] -> (0 <= z < 2 ^ bits t)%Z -> vals_ok (map TNum (trap_results h)) [VNum t z] = true.
    Proof. intros -> R. apply (@vals_ok_of 0). constructor; [now apply num_ok|constructor]. Qed.
    Lemma consult_num h consts m t z st ls s l a adv : Lb l ->
      rfun_advice (rfun_of h) (VNum t z :: consts ++ loc m) = Some adv -> accesses adv = None -> decides adv = false ->
      List.length (VNum t z :: consts ++ loc m) = List.length (trap_args h) ->
      forward_body (X := X) num1 num2 adv = XRet [VNum t z] -> rfun_results (rfun_of h) = [t] ->
      trap_results h = [t] -> (0 <= z < 2 ^ bits t)%Z ->
      csim (if_on on h adv) a (next (VNum t z :: st) ls s) (consult h 1 consts m (VNum t z :: st) ls (lift l a s)).
    Proof.
      intros Hl E2 Ea Ed E3 E4 E5 E6 R.
      apply (@consult_id h 1 consts m (VNum t z :: st) ls s l a [VNum t z] st adv [VNum t z] [VNum t z]); auto.
      - unfold rfun_return. rewrite E5. now replace (numty_eqb t t) with true by (now destruct t).
      - now apply num_fits.
    Qed.
    (** The same for hooks without operands and results. *)
    Lemma consult_tell h consts m st ls s l a adv : Lb l ->
      rfun_advice (rfun_of h) (consts ++ loc m) = Some adv -> accesses adv = None -> decides adv = false ->
      List.length (consts ++ loc m) = List.length (trap_args h) ->
      forward_body (X := X) num1 num2 adv = XRet [] -> rfun_return (X := X) (rfun_of h) [] = XRet [] -> trap_results h = [] ->
      csim (if_on on h adv) a (next st ls s) (consult h 0 consts m st ls (lift l a s)).
    Proof.
      intros Hl E2 Ea Ed E3 E4 E5 E6. apply (@consult_id h 0 consts m st ls s l a [] st adv [] []); auto.
      now rewrite E6.
    Qed.
    (** A hook told a condition. *)
    Lemma consult_choice h consts m c st ls s l a adv : Lb l -> (0 <= c < 2 ^ bits TI32)%Z ->
      rfun_advice (rfun_of h) (VNum TI32 c :: consts ++ loc m) = Some adv -> accesses adv = None ->
      List.length (VNum TI32 c :: consts ++ loc m) = List.length (trap_args h) ->
      condition adv = Some c -> rfun_results (rfun_of h) = [TI32] -> trap_results h = [TI32] ->
      exists c', (c' =? 0)%Z = (c =? 0)%Z /\ (0 <= c' < 2 ^ bits TI32)%Z /\
        csim (if_on on h adv) a (next (VNum TI32 c' :: st) ls s) (consult h 1 consts m (VNum TI32 c :: st) ls (lift l a s)).
    Proof.
      intros Hl R E2 Ea E3 E4 E5 E6. unfold if_on, Advice.consult. destruct (on h) eqn:O.
      2:{ exists c. split; [reflexivity|]. split; [exact R|]. now apply csim_next. }
      change (popn 1 (VNum TI32 c :: st)) with (Some ([VNum TI32 c], st)). cbn [rget rbind app]. destruct (@hook_run h _ adv l a s O Hl E2 E3 (@unsized adv s Ea)) as [(adv' & SC & Gd & ->)|[Hd|(_ & _ & _ & s2 & Ht)]];
        [| |destruct (@same_choice_condition X num1 num2 adv adv c (sc_same adv) E4 R) as (c' & _ & _ & Ef); rewrite Ef in Ht; discriminate Ht].
      - destruct (@same_choice_condition X num1 num2 adv adv' c SC E4 R) as (c' & Ec & R' & Ef).
        exists c'. split; [exact Ec|]. split; [exact R'|]. rewrite Ef. cbn [xbind]. unfold rfun_return. rewrite E5. cbn [vi32 numty_eqb run_x rbind].
        rewrite (@num_fits h TI32 c' E6 R'). cbn [rbind pushn rev app]. left.
        split; [constructor; [exact Gd|constructor]|]. exists l. split; [exact Hl|reflexivity].
      - exists c. split; [reflexivity|]. split; [exact R|]. right. revert Hd. apply (cl_imp Cl). intros (s' & ->). exists s'. reflexivity.
    Qed.
    Lemma before_sim h k consts m b ft st ls s rest l a adv : btype C b ft -> Lb l -> mid_ok C st ls s (rev (ft_in ft) ++ rest) ->
      (forall l, Lb l -> csim (if_on on h adv) a (next st ls s) (consult h k consts m st ls (lift l a s))) ->
      csim (if_on on h adv ++ inner b st s) a (exec b st ls s) (before num1 num2 on ftype call' hook_call h k consts m b st ls (lift l a s)).
    Proof.
      intros Tb Hl M H. unfold before. change (exec b st ls s) with (andthen (next st ls s) (exec b)).
      apply (csim_andthen lib_part ana_part obs good Cl); [now apply H|discriminate|intros o ? ? ? E; inversion E; subst; congruence|].
      intros ? ? ? l1 E Hl1. inversion E; subst. eapply exec_sim; eauto.
    Qed.
    Lemma before_choice h k consts m b ft st0 st ls s rest l a adv : btype C b ft -> Lb l -> mid_ok C st ls s (rev (ft_in ft) ++ rest) ->
      csim (if_on on h adv) a (next st ls s) (consult h k consts m st0 ls (lift l a s)) ->
      csim (if_on on h adv ++ inner b st s) a (exec b st ls s) (before num1 num2 on ftype call' hook_call h k consts m b st0 ls (lift l a s)).
    Proof.
      intros Tb Hl M H. unfold before. change (exec b st ls s) with (andthen (next st ls s) (exec b)).
      apply (csim_andthen lib_part ana_part obs good Cl); [exact H|discriminate|intros o ? ? ? E; inversion E; subst; congruence|].
      intros ? ? ? l1 E Hl1. inversion E; subst. eapply exec_sim; eauto.
    Qed.
    Lemma after_sim h k consts m b ft st ls s rest l a e : btype C b ft -> Lb l -> calls b = false ->
      mid_ok C st ls s (rev (ft_in ft) ++ rest) ->
      (forall st1 ls1 s1 l, exec b st ls s = Ok (ONext, st1, ls1, s1) -> Lb l ->
         csim e a (next st1 ls1 s1) (consult h k consts m st1 ls1 (lift l a s1))) ->
      (exists st1 ls1 s1, exec b st ls s = Ok (ONext, st1, ls1, s1)) ->
      csim e a (exec b st ls s) (after num1 num2 on ftype call' hook_call h k consts m b st ls (lift l a s)).
    Proof.
      intros Tb Hl Ec M H (st1 & ls1 & s1 & E). unfold after.
      pose proof (@exec_sim b ft st ls s rest l a Tb Hl M) as S. rewrite E in *.
      replace e with (inner b st s ++ e) by (destruct b; try discriminate Ec; reflexivity).
      change (Ok (ONext, st1, ls1, s1)) with (andthen (next (X := Y) st1 ls1 s1) next).
      apply (csim_andthen lib_part ana_part obs good Cl); [exact S|discriminate|intros o ? ? ? E'; inversion E'; subst; congruence|].
      intros ? ? ? l1 E' Hl1. inversion E'; subst.
      replace (inner b st s) with (@nil event) by (destruct b; try discriminate Ec; reflexivity). now apply H.
    Qed.

    (** Accesses the library can perform: offsets below 2^31 (C28). *)
    Definition access_ok (b : basic) : Prop :=
      match b with
      | BLoad o ma => on (HkLoad (loadop_ty o)) = true -> (ma_offset ma < 2 ^ 31)%Z
      | BStore o ma => on (HkStore (storeop_ty o)) = true -> (ma_offset ma < 2 ^ 31)%Z
      | _ => True
      end.
    Notation events_basic := (events_basic num1 num2 ftype call tcall on).
    Notation advise' := (advise num1 num2 on ftype call' hook_call n').

    Lemma if_on_off h adv : on h = false -> if_on on h adv = [].
    Proof. unfold if_on. now intros ->. Qed.
    Ltac tell := apply consult_tell; [assumption|reflexivity..].

    Lemma instead_sim h k consts m b ft st ls s rest l a adv : btype C b ft -> Lb l -> calls b = false ->
      mid_ok C st ls s (rev (ft_in ft) ++ rest) ->
      (on h = true -> csim [EvAdvice adv] a (exec b st ls s) (consult h k consts m st ls (lift l a s))) ->
      csim (if_on on h adv) a (exec b st ls s) (instead_of num1 num2 on ftype call' hook_call h k consts m b st ls (lift l a s)).
    Proof.
      intros Tb Hl Ec M H. unfold instead_of, if_on. destruct (on h) eqn:O; [now apply H|].
      replace (@nil event) with (inner b st s) by (destruct b; try discriminate Ec; reflexivity).
      eapply exec_sim; eauto.
    Qed.
    (** A hook that performs its operation, or leads elsewhere. *)
    Lemma consult_run h k consts m st ls s l a ops st' adv (r : res (store Y) (@conf Y)) : Lb l -> on h = true ->
      popn k st = Some (ops, st') ->
      rfun_advice (rfun_of h) (ops ++ consts ++ loc m) = Some adv ->
      List.length (ops ++ consts ++ loc m) = List.length (trap_args h) -> decides adv = false -> sized adv s ->
      (good (EvAdvice adv) -> csim [EvAdvice adv] a r
        (let* (rs, s') := run_x export (xbind (forward_body num1 num2 adv) (rfun_return (rfun_of h))) (lift l (obs a (EvAdvice adv)) s) in
         if vals_ok (map TNum (trap_results h)) rs then next (pushn rs st') ls s' else Stuck)) ->
      csim [EvAdvice adv] a r (consult h k consts m st ls (lift l a s)).
    Proof.
      intros Hl O E1 E2 E3 Ed Sz H. unfold Advice.consult. rewrite O, E1. cbn [rget rbind].
      destruct (@hook_run h _ adv l a s O Hl E2 E3 Sz) as [(adv' & SC & Gd & ->)|[Hd|(Gd & Hd & (s2 & Hh) & s3 & Hf)]].
      - rewrite (same_choice_eq Ed SC). specialize (H Gd). destruct (run_x export _ _) as [[rs s1]|s1| |]; cbn [rbind] in *; auto. now destruct (vals_ok _ rs).
      - assert (Hd2 : D false [EvAdvice adv] (exists s', (let* (rs, s'0) := hook_call h (ops ++ consts ++ loc m) (lift l a s) in next (pushn rs st') ls s'0) = Trap s')).
        { revert Hd. apply (cl_imp Cl). intros (s' & ->). exists s'. reflexivity. }
        destruct r as [[b s1]|s1| |]; cbn [gsim]; auto. intros _. right. now apply (cl_late Cl).
      - specialize (H Gd). rewrite AccessProofs.run_x_bind, Hf in H. rewrite Hh in *. cbn [rbind] in *.
        destruct r as [[b s1]|s1| |]; cbn [gsim] in *; auto.
        + destruct H as [(_ & l1 & _ & H)|H]; [discriminate H|]. right. revert H. apply (cl_imp Cl). intros _. eauto.
        + intros _. right. revert Hd. apply (cl_imp Cl). intros _. eauto.
    Qed.

    Lemma unary_sim m o st ls s rest l a : Lb l -> mid_ok C st ls s (TNum (unop_in o) :: rest) ->
      csim (events_basic m (BUnary o) st ls s) a (exec (BUnary o) st ls s) (advise' m (BUnary o) st ls (lift l a s)).
    Proof.
      intros Hl M. pose proof M as (F1 & _). apply cons_inv in F1 as (v1 & x0 & -> & V & F1). apply num_inv in V as (x & -> & R). cbn [Trace.events_basic advise].
      eapply instead_sim; [apply ty_unary|exact Hl|reflexivity|exact M|]. intros O.
      eapply consult_run; [exact Hl|exact O|reflexivity| |destruct o; reflexivity|reflexivity|now apply unsized|intros Gd].
      { cbn [firstn popn app loc rfun_of rfun_advice vi32 rev]. rewrite (proj2 (C13_unary_codes _ o) eq_refl). reflexivity. }
      cbn [forward_body]. rewrite C13_unary_apply. replace (numty_eqb (unop_in o) (unop_in o)) with true by (now destruct o).
      cbn [Semantics.exec]. replace (numty_eqb (unop_in o) (unop_in o)) with true by (now destruct o).
      destruct (unop_sem num1 o x) as [z|] eqn:EU.
      - cbn [option_map xbind rfun_of rfun_return rfun_results].
        replace (numty_eqb (unop_out o) (unop_out o)) with true by (now destruct o).
        cbn [run_x rbind]. rewrite (@num_fits _ (unop_out o) z) by (try (destruct o; reflexivity); apply (@num_ok 0); eapply unop_ok; eauto).
        left. split; [constructor; [exact Gd|constructor]|]. exists l. split; [exact Hl|reflexivity].
      - intros W. left. exists l. split; [now apply (cl_ok Cl)|reflexivity].
    Qed.
    Lemma binary_sim m o st ls s rest l a : Lb l -> mid_ok C st ls s (TNum (binop_in o) :: TNum (binop_in o) :: rest) ->
      csim (events_basic m (BBinary o) st ls s) a (exec (BBinary o) st ls s) (advise' m (BBinary o) st ls (lift l a s)).
    Proof.
      intros Hl M. pose proof M as (F1 & _). apply cons_inv in F1 as (v2 & st2 & -> & V & F1). apply num_inv in V as (x & -> & R). apply cons_inv in F1 as (v1 & x0 & -> & V & F1). apply num_inv in V as (x1 & -> & R1).
      set (b1 := VNum (binop_in o) x) in *. set (b2 := VNum (binop_in o) x1) in *.
      assert (W : exists h, binary_hook o = Some h /\ trap_args h = [binop_in o; binop_in o; TI32; TI64; TI64] /\
        trap_results h = [binop_out o] /\ rfun_of h = RBinary (binop_in o) (binop_in o) (binop_out o) /\
        events_basic m (BBinary o) (b1 :: b2 :: x0) ls s = if_on on h (AdBinary o b2 b1 (at_ m)))
        by (destruct o; eexists; repeat split; reflexivity).
      destruct W as (h & Eh & Ea & Er & Ef & Ee). rewrite Ee. cbn [advise]. rewrite Eh.
      eapply instead_sim; [apply ty_binary|exact Hl|reflexivity|exact M|]. intros O.
      eapply consult_run; [exact Hl|exact O|reflexivity| |rewrite Ea; reflexivity|reflexivity|now apply unsized|intros Gd].
      { rewrite Ef. cbn [firstn popn app loc rfun_advice vi32 rev b1 b2]. rewrite (proj2 (C13_binary_codes _ o) eq_refl). reflexivity. }
      unfold b1, b2. cbn [forward_body]. rewrite C13_binary_apply, Ef, Er.
      replace (numty_eqb (binop_in o) (binop_in o)) with true by (now destruct o).
      cbn [Semantics.exec andb]. replace (numty_eqb (binop_in o) (binop_in o)) with true by (now destruct o). cbn [andb].
      destruct (binop_sem num2 o x1 x) as [z|] eqn:EU.
      - cbn [option_map xbind rfun_return rfun_results].
        replace (numty_eqb (binop_out o) (binop_out o)) with true by (now destruct o).
        cbn [run_x rbind]. change (map TNum [binop_out o]) with [TNum (binop_out o)]; rewrite (@vals_ok_of 0 [VNum (binop_out o) z] [TNum (binop_out o)]) by (constructor; [eapply binop_ok; eauto|constructor]).
        left. split; [constructor; [exact Gd|constructor]|]. exists l. split; [exact Hl|reflexivity].
      - intros W. left. exists l. split; [now apply (cl_ok Cl)|reflexivity].
    Qed.
    Lemma same_address p off lim bytes : (0 <= p)%Z -> (0 <= off)%Z -> (0 < bytes)%Z -> (lim <= 65536 * page_size)%Z ->
      (p + off + bytes <= lim)%Z -> ((p + off) mod 2 ^ 32 = p + off)%Z.
    Proof. unfold page_size. intros. apply Z.mod_small. lia. Qed.
    Lemma load_sim m o ma st ls s rest l a : c_mem C = true -> load_aligned o ma -> (0 <= ma_offset ma < 2 ^ 32)%Z ->
      access_ok (BLoad o ma) -> Lb l -> mid_ok C st ls s (i32 :: rest) ->
      csim (events_basic m (BLoad o ma) st ls s) a (exec (BLoad o ma) st ls s) (advise' m (BLoad o ma) st ls (lift l a s)).
    Proof.
      intros Hm Al Ro Ac Hl M. pose proof M as (F1 & _ & F3). unfold i32 in F1. apply cons_inv in F1 as (v1 & x0 & -> & V & F1). apply num_inv in V as (x & -> & R). cbn [Trace.events_basic advise].
      eapply instead_sim; [apply ty_load; assumption|exact Hl|reflexivity|exact M|]. intros O.
      pose proof (Ac O) as Lo.
      eapply consult_run; [exact Hl|exact O|reflexivity| |destruct o; reflexivity|reflexivity|eapply sized_at; [reflexivity|exact Hm|exact F3|exact R|lia]|intros Gd].
      { cbn [firstn popn app loc rfun_of rfun_advice vi32 vi64 rev]. rewrite (proj2 (C13_load_codes _ o) eq_refl). reflexivity. }
      cbn [forward_body]. rewrite (proj1 (C28_small_offsets _ (conj (proj1 Ro) Lo))). cbn [xbind run_x].
      rewrite (loads Hm). destruct (the_mem F3 Hm) as (me & E & (_ & Mp & Mx)).
      cbn [Semantics.exec pop_i32 rbind]. rewrite E. cbn [rget rbind].
      assert (Eq : (mem_load me o (x + ma_offset ma) <> None \/ x + ma_offset ma < 2 ^ 32)%Z -> ((x + ma_offset ma) mod 2 ^ 32 = x + ma_offset ma)%Z).
      { intros [N|HT].
        - unfold mem_load in N. destruct (Z.leb_spec (x + ma_offset ma + Z.of_nat (loadop_bytes o)) (ms_pages me * page_size)) as [L|L]; [|congruence].
          eapply same_address; [| | | |exact L]; try lia; [destruct o; simpl; lia|unfold page_size; lia].
        - apply Z.mod_small. simpl in *. lia. }
      destruct (mem_load me o (x + ma_offset ma)) as [z|] eqn:EL.
      - rewrite Eq by (left; discriminate). rewrite EL. cbn [rbind rfun_of rfun_return rfun_results run_x].
        replace (numty_eqb (loadop_ty o) (loadop_ty o)) with true by (now destruct o). cbn [run_x rbind].
        rewrite (@num_fits _ (loadop_ty o) z) by (try (destruct o; reflexivity); apply (@num_ok 0); eapply TypingProofs.load_ok; eauto).
        left. split; [constructor; [exact Gd|constructor]|]. exists l. split; [exact Hl|reflexivity].
      - intros HT. rewrite Eq by (right; exact (Forall_inv HT)). rewrite EL. left. exists l. split; [now apply (cl_ok Cl)|reflexivity].
    Qed.
    Lemma store_sim m o ma st ls s rest l a : c_mem C = true -> store_aligned o ma -> (0 <= ma_offset ma < 2 ^ 32)%Z ->
      access_ok (BStore o ma) -> Lb l -> mid_ok C st ls s (TNum (storeop_ty o) :: i32 :: rest) ->
      csim (events_basic m (BStore o ma) st ls s) a (exec (BStore o ma) st ls s) (advise' m (BStore o ma) st ls (lift l a s)).
    Proof.
      intros Hm Al Ro Ac Hl M. pose proof M as (F1 & _ & F3). unfold i32 in F1. apply cons_inv in F1 as (v2 & st2 & -> & V & F1). apply num_inv in V as (x & -> & R). apply cons_inv in F1 as (v1 & x0 & -> & V & F1). apply num_inv in V as (x1 & -> & R1). cbn [Trace.events_basic advise].
      eapply instead_sim; [apply ty_store; assumption|exact Hl|reflexivity|exact M|]. intros O.
      pose proof (Ac O) as Lo.
      eapply consult_run; [exact Hl|exact O|reflexivity| |destruct o; reflexivity|reflexivity|eapply sized_at; [reflexivity|exact Hm|exact F3|exact R1|lia]|intros Gd].
      { cbn [firstn popn app loc rfun_of rfun_advice vi32 vi64 rev]. rewrite (proj2 (C13_store_codes _ o) eq_refl). reflexivity. }
      cbn [forward_body]. rewrite (proj2 (C28_small_offsets _ (conj (proj1 Ro) Lo))). cbn [xbind run_x].
      rewrite (stores Hm). destruct (the_mem F3 Hm) as (me & E & (_ & Mp & Mx)).
      cbn [Semantics.exec pop_i32 rbind]. replace (numty_eqb (storeop_ty o) (storeop_ty o)) with true by (now destruct o).
      rewrite E. cbn [rget rbind].
      assert (Eq : (mem_store me o (x1 + ma_offset ma) x <> None \/ x1 + ma_offset ma < 2 ^ 32)%Z -> ((x1 + ma_offset ma) mod 2 ^ 32 = x1 + ma_offset ma)%Z).
      { intros [N|HT].
        - unfold mem_store in N. destruct (Z.leb_spec (x1 + ma_offset ma + Z.of_nat (storeop_bytes o)) (ms_pages me * page_size)) as [L|L]; [|congruence].
          eapply same_address; [| | | |exact L]; try lia; [destruct o; simpl; lia|unfold page_size; lia].
        - apply Z.mod_small. simpl in *. lia. }
      destruct (mem_store me o (x1 + ma_offset ma) x) as [me'|] eqn:EL.
      - rewrite Eq by (left; discriminate). rewrite EL. cbn [rbind rfun_of rfun_return rfun_results run_x].
        replace (vals_ok _ _) with true; [|destruct o; reflexivity].
        left. split; [constructor; [exact Gd|constructor]|]. exists l. split; [exact Hl|reflexivity].
      - intros HT. rewrite Eq by (right; exact (Forall_inv HT)). rewrite EL. left. exists l. split; [now apply (cl_ok Cl)|reflexivity].
    Qed.
    Lemma grow_sim m st ls s rest l a : c_mem C = true -> Lb l -> mid_ok C st ls s (i32 :: rest) ->
      csim (events_basic m (BMemoryGrow 0) st ls s) a (exec (BMemoryGrow 0) st ls s) (advise' m (BMemoryGrow 0) st ls (lift l a s)).
    Proof.
      intros Hm Hl M. pose proof M as (F1 & _ & F3). unfold i32 in F1. apply cons_inv in F1 as (v1 & x0 & -> & V & F1). apply num_inv in V as (x & -> & R). cbn [Trace.events_basic advise].
      eapply instead_sim; [apply ty_memory_grow; assumption|exact Hl|reflexivity|exact M|]. intros O.
      eapply consult_run; [exact Hl|exact O|reflexivity|reflexivity|reflexivity|reflexivity|now apply unsized|intros Gd].
      cbn [forward_body]. unfold memory_index_grow. rewrite offset_fits by lia. cbn [xbind run_x].
      rewrite (grows Hm). destruct (the_mem F3 Hm) as (me & E & (_ & Mp & Mx)).
      cbn [Semantics.exec pop_i32 rbind]. rewrite E. cbn [rget rbind].
      assert (Rr : (0 <= fst (mem_grow me x) < 2 ^ bits TI32)%Z).
      { unfold mem_grow. destruct (_ <=? _)%Z; cbn [fst bits]; lia. }
      destruct (mem_grow me x) as (r & me'). cbn [fst] in Rr.
      cbn [rbind rfun_of rfun_return rfun_results vi32 numty_eqb run_x]. rewrite (@num_fits _ TI32 r) by (reflexivity || exact Rr).
      left. split; [constructor; [exact Gd|constructor]|]. exists l. split; [exact Hl|reflexivity].
    Qed.

    Lemma advise_sim m b ft ft' st ls s rest l a :
      btype C b ft -> m_ty m = IReach ft' -> btype C b ft' -> tame (TBasic m b) -> access_ok b ->
      mid_ok C st ls s (rev (ft_in ft) ++ rest) -> Lb l ->
      csim (events_basic m b st ls s) a (exec b st ls s) (advise' m b st ls (lift l a s)).
    Proof.
      intros Tb EA TA TM AC M Hl. destruct TM as (_ & _ & RP). cbn [opening] in RP.
      assert (X0 := @exec_sim b ft st ls s rest l a Tb Hl M).
      assert (P : forall h k consts adv, (forall l, Lb l -> csim (if_on on h adv) a (next st ls s) (consult h k consts m st ls (lift l a s))) ->
        csim (if_on on h adv ++ inner b st s) a (exec b st ls s) (before num1 num2 on ftype call' hook_call h k consts m b st ls (lift l a s)))
        by (intros h k consts adv Hc; eapply before_sim; [exact Tb|exact Hl|exact M|exact Hc]).
      assert (CH : forall h consts x st' adv, st = VNum TI32 x :: st' -> (0 <= x < 2 ^ bits TI32)%Z -> calls b = false ->
        rfun_advice (rfun_of h) (VNum TI32 x :: consts ++ loc m) = Some adv -> accesses adv = None ->
        List.length (VNum TI32 x :: consts ++ loc m) = List.length (trap_args h) ->
        condition adv = Some x -> rfun_results (rfun_of h) = [TI32] -> trap_results h = [TI32] ->
        (forall y, (y =? 0)%Z = (x =? 0)%Z -> exec b (VNum TI32 y :: st') ls s = exec b st ls s) ->
        csim (if_on on h adv) a (exec b st ls s) (before num1 num2 on ftype call' hook_call h 1 consts m b st ls (lift l a s))).
      { intros h consts x st' adv -> R Ec E2 Ea E3 E4 E5 E6 Ex.
        destruct (@consult_choice h consts m x st' ls s l a adv Hl R E2 Ea E3 E4 E5 E6) as (y & Ey & Ry & SM).
        rewrite <- (Ex y Ey). replace (if_on on h adv) with (if_on on h adv ++ inner b (VNum TI32 y :: st') s)
          by (destruct b; try discriminate Ec; apply app_nil_r).
        eapply before_choice with (rest := rest); [exact Tb|exact Hl| |exact SM].
        destruct M as (G1 & G2 & G3). split; [|split; [exact G2|exact G3]].
        remember (rev (ft_in ft) ++ rest) as tys eqn:Et. clear Et. inversion G1; subst. constructor; [|assumption]. match goal with H : val_ok _ (VNum TI32 x) ?t |- _ => destruct H as (W1 & W2); split; [exact W1|] end.
        exact (proj2 (proj2 (@num_ok (List.length (c_funcs C)) TI32 y) Ry)). }
      assert (Q : calls b = false -> inner b st s = []) by (destruct b; try discriminate; reflexivity).
      pose proof M as (F1 & F2 & F3).
      destruct b; try exact X0; cbn [Trace.events_basic advise].
      - (* br *) specialize (P HkBr 0 [i64n l0] (AdBr (Z.of_nat l0) (at_ m))). rewrite Q, app_nil_r in P by reflexivity.
        apply P. intros. tell.
      - (* br_if *) inversion Tb; subst. cbn [ft_in] in F1. rewrite rev_app_distr in F1. cbn [rev app] in F1. unfold i32 in F1. apply cons_inv in F1 as (v1 & x0 & -> & V & F1). apply num_inv in V as (x & -> & R).
        eapply (CH HkBrIf [i32n l0]); try reflexivity; try assumption. intros y Ey. cbn [Semantics.exec pop_i32 rbind]. now rewrite Ey.
      - (* br_table *) inversion Tb; subst. cbn [ft_in] in F1. rewrite !rev_app_distr in F1. cbn [rev app] in F1. unfold i32 in F1. apply cons_inv in F1 as (v1 & x0 & -> & V & F1). apply num_inv in V as (x & -> & R).
        unfold if_on. destruct (on HkBrTable) eqn:O; [|exact X0]. cbn [pop_i32 rbind].
        destruct (Z.ltb_spec x 0); [lia|]. destruct n' as [|n2]; [lia|].
        match goal with |- context [hook_call HkBrTable ?args _] =>
          pose proof (fun adv E => @hook_run HkBrTable args adv l a s O Hl E eq_refl) as HB; specialize (HB _ eq_refl) end.
        destruct HB as [(adv' & SC & Gd & ->)|[Hd|(_ & _ & _ & s2 & Ht)]]; [now apply unsized| | |discriminate Ht].
        2:{ cbn [Semantics.exec pop_i32 rbind]. right. revert Hd. apply (cl_imp Cl). intros (s' & ->). exists s'. reflexivity. }
        apply same_choice_eq in SC; [subst adv'|reflexivity].
        cbn [forward_body xbind rfun_of rfun_return rfun_results vi32 numty_eqb run_x rbind].
        rewrite (@num_fits _ TI32 x) by (reflexivity || exact R). cbn [Semantics.exec pop_i32 rbind pushn rev app].
        left. split; [constructor; [exact Gd|constructor]|]. exists l. split; [exact Hl|reflexivity].
      - (* return *) specialize (P HkReturn 0 [] (AdReturn (at_ m))). rewrite Q, app_nil_r in P by reflexivity.
        apply P. intros. tell.
      - (* call *)
        rewrite app_assoc. apply (csim_skip Cl).
        + apply P. intros. tell.
        + intros. tell.
      - (* call_indirect *) inversion Tb; subst. cbn [ft_in] in F1. rewrite rev_app_distr in F1. cbn [rev app] in F1. unfold i32 in F1. apply cons_inv in F1 as (v1 & x0 & -> & V & F1). apply num_inv in V as (x & -> & R).
        rewrite app_assoc. apply (csim_skip Cl).
        + apply P. intros. apply consult_num; try reflexivity; try assumption.
        + intros. tell.
      - (* drop *) specialize (P HkDrop 0 [] (AdDrop (at_ m))). rewrite Q, app_nil_r in P by reflexivity.
        apply P. intros. tell.
      - (* select *) inversion Tb; subst. cbn [ft_in rev app] in F1. unfold i32 in F1. apply cons_inv in F1 as (v1 & x0 & -> & V & F1). apply num_inv in V as (x & -> & R).
        eapply (CH HkSelect []); try reflexivity; try assumption. intros y Ey. cbn [Semantics.exec pop_i32 rbind]. now rewrite Ey.
      - (* typed select *) inversion Tb; subst. cbn [ft_in rev app] in F1. unfold i32 in F1. apply cons_inv in F1 as (v1 & x0 & -> & V & F1). apply num_inv in V as (x & -> & R).
        eapply (CH HkSelect []); try reflexivity; try assumption. intros y Ey. cbn [Semantics.exec pop_i32 rbind]. now rewrite Ey.
      - (* locals *)
        destruct o; inversion Tb; subst; cbn [ft_in rev app] in F1.
        + match goal with H : nth_error _ i = Some _ |- _ => destruct (Forall2_nth _ F2 H) as (v & E & V) end.
          rewrite E. cbn [rget rbind]. pose proof V as (V1 & V2). rewrite V1.
          rewrite (@annotated_of C m _ _ _ EA TA Tb Logic.I).
          destruct t as [nt|]; [|destruct v; [discriminate V1|exact X0]].
          apply num_inv in V as (z & -> & R).
          eapply after_sim; [exact Tb|exact Hl|reflexivity|exact M| |].
          * intros st1 ls1 s1 l1 Ex Hl1. cbn [Semantics.exec] in Ex. rewrite E in Ex. cbn [rget rbind] in Ex. inversion Ex; subst.
            apply consult_num; try reflexivity; try assumption; destruct nt; reflexivity.
          * cbn [Semantics.exec]. rewrite E. cbn [rget rbind]. unfold next. eauto.
        + apply cons_inv in F1 as (v & st' & -> & V & F1).
          cbn [hd_error rget rbind]. pose proof V as (V1 & V2). rewrite V1.
          rewrite (@annotated_of C m _ _ _ EA TA Tb Logic.I).
          destruct t as [nt|]; [|destruct v; [discriminate V1|exact X0]].
          apply num_inv in V as (z & -> & R).
          specialize (P (HkLocal LSet nt) 1 [i64n i] (AdLocal (VNum nt z) (Z.of_nat i) LSet (at_ m))). rewrite Q, app_nil_r in P by reflexivity.
          apply P. intros. apply consult_num; try reflexivity; try assumption; destruct nt; reflexivity.
        + apply cons_inv in F1 as (v & st' & -> & V & F1).
          cbn [hd_error rget rbind]. pose proof V as (V1 & V2). rewrite V1.
          rewrite (@annotated_of C m _ _ _ EA TA Tb Logic.I).
          destruct t as [nt|]; [|destruct v; [discriminate V1|exact X0]].
          apply num_inv in V as (z & -> & R).
          specialize (P (HkLocal LTee nt) 1 [i64n i] (AdLocal (VNum nt z) (Z.of_nat i) LTee (at_ m))). rewrite Q, app_nil_r in P by reflexivity.
          apply P. intros. apply consult_num; try reflexivity; try assumption; destruct nt; reflexivity.
      - (* globals *)
        destruct o; inversion Tb; subst; cbn [ft_in rev app] in F1.
        + match goal with H : nth_error _ i = Some _ |- _ => destruct (Forall2_nth _ (sk_globals F3) H) as (v & E & V) end.
          cbn [fst] in V. cbn [st_globals glift]. rewrite E. cbn [rget rbind]. pose proof V as (V1 & V2). rewrite V1.
          rewrite (@annotated_of C m _ _ _ EA TA Tb Logic.I).
          destruct t as [nt|]; [|destruct v; [discriminate V1|exact X0]].
          apply num_inv in V as (z & -> & R).
          eapply after_sim; [exact Tb|exact Hl|reflexivity|exact M| |].
          * intros st1 ls1 s1 l1 Ex Hl1. cbn [Semantics.exec] in Ex. rewrite E in Ex. cbn [rget rbind] in Ex. inversion Ex; subst.
            apply consult_num; try reflexivity; try assumption; destruct nt; reflexivity.
          * cbn [Semantics.exec]. rewrite E. cbn [rget rbind]. unfold next. eauto.
        + apply cons_inv in F1 as (v & st' & -> & V & F1).
          cbn [hd_error rget rbind]. pose proof V as (V1 & V2). rewrite V1.
          rewrite (@annotated_of C m _ _ _ EA TA Tb Logic.I).
          destruct t as [nt|]; [|destruct v; [discriminate V1|exact X0]].
          apply num_inv in V as (z & -> & R).
          specialize (P (HkGlobal GSet nt) 1 [i64n i] (AdGlobal (VNum nt z) (Z.of_nat i) GSet (at_ m))). rewrite Q, app_nil_r in P by reflexivity.
          apply P. intros. apply consult_num; try reflexivity; try assumption; destruct nt; reflexivity.
      - inversion Tb; subst. eapply load_sim; [assumption|assumption|exact RP|exact AC|exact Hl|exact M].
      - inversion Tb; subst. eapply store_sim; [assumption|assumption|exact RP|exact AC|exact Hl|exact M].
      - (* memory.size *) inversion Tb; subst. destruct (the_mem F3 ltac:(assumption)) as (me & E & (_ & Mp & Mx)). rewrite E.
        eapply after_sim; [exact Tb|exact Hl|reflexivity|exact M| |].
        * intros st1 ls1 s1 l1 Ex Hl1. cbn [Semantics.exec] in Ex. rewrite E in Ex. cbn [rget rbind] in Ex. inversion Ex; subst.
          apply consult_num; try reflexivity; try assumption. cbn [bits]. lia.
        * cbn [Semantics.exec]. rewrite E. cbn [rget rbind]. unfold next. eauto.
      - inversion Tb; subst. eapply grow_sim; [assumption|exact Hl|exact M].
      - (* const *) eapply after_sim; [exact Tb|exact Hl|reflexivity|exact M| |].
        * intros st1 ls1 s1 l1 Ex Hl1. cbn [Semantics.exec] in Ex. inversion Ex; subst.
          apply consult_num; try reflexivity; try assumption; try (destruct t; reflexivity); now apply (@num_ok 0); repeat split.
        * cbn [Semantics.exec]. unfold next. eauto.
      - inversion Tb; subst. eapply unary_sim; [exact Hl|exact M].
      - inversion Tb; subst. eapply binary_sim; [exact Hl|exact M].
    Qed.
  End At.

  (** ** Bodies *)
  Definition calls_sim (C : ctx) : Prop := forall f ft args s l a,
    nth_error (c_funcs C) f = Some ft -> Forall2 (ok C) args (ft_in ft) -> store_ok C I s -> Lb l ->
    sim (tcall f args s) a (call f args s) (call' f args (lift l a s)).
  (** What the analysis does when told something: it notes it and performs the operation, and what
      it was told is good; or it leads elsewhere, perhaps only where the operation traps. Told a condition it may continue with another
      value that decides the same way. *)
  Definition hooks_sim : Prop := forall h args adv l a s, on h = true -> Lb l ->
    rfun_advice (rfun_of h) args = Some adv -> List.length args = List.length (trap_args h) -> sized adv s ->
    (exists adv', same_choice adv adv' /\ good (EvAdvice adv) /\ hook_call h args (lift l a s) =
    (let* (rs, s') := run_x export (xbind (forward_body num1 num2 adv') (rfun_return (rfun_of h))) (lift l (obs a (EvAdvice adv)) s) in
     if vals_ok (map TNum (trap_results h)) rs then Ok (rs, s') else Stuck)) \/
    D false [EvAdvice adv] (exists s', hook_call h args (lift l a s) = Trap s') \/
    good (EvAdvice adv) /\ D true [EvAdvice adv] (exists s', hook_call h args (lift l a s) = Trap s') /\ (exists s', hook_call h args (lift l a s) = Trap s') /\
    exists s', run_x export (forward_body num1 num2 adv) (lift l (obs a (EvAdvice adv)) s) = Trap s'.
  Definition memory_sim (C : ctx) : Prop := c_mem C = true ->
    (forall o i off l a s,
      export (load_target o) [vi32 i; vi32 off] (lift l a s) =
      let* me := rget (st_mem s) in
      match mem_load me o ((i + off) mod 2 ^ 32) with
      | Some z => Ok ([VNum (loadop_ty o) z], lift l a s)
      | None => Trap (lift l a s)
      end) /\
    (forall o i z off l a s,
      export (fst (store_target o)) [vi32 i; VNum (storeop_ty o) z; vi32 off] (lift l a s) =
      let* me := rget (st_mem s) in
      match mem_store me o ((i + off) mod 2 ^ 32) z with
      | Some me' => Ok ([], lift l a (set_mem s (Some me')))
      | None => Trap (lift l a s)
      end) /\
    (forall d v l a s,
      export "instrumented_memory_grow"%string [vi32 d; v] (lift l a s) =
      let* me := rget (st_mem s) in
      let (r, me') := mem_grow me d in Ok ([vi32 r], lift l a (set_mem s (Some me')))) /\
    (forall v l a s,
      export "instrumented_memory_size"%string [v] (lift l a s) =
      let* me := rget (st_mem s) in Ok ([vi32 (ms_pages me)], lift l a s)).
  Definition all_access (b : list tinstr) : Prop := forall m b', occurs (TBasic m b') b -> access_ok b'.
  Notation events := (events num1 num2 ftype call tcall on n).
  Notation advised' := (advised num1 num2 on ftype call' hook_call n').

  Lemma exec_jumps b st ls s : jumps b = true -> no_next (exec b st ls s).
  Proof. intros J. destruct b; try discriminate; simpl; auto. destruct st as [|[[] z|] st]; simpl; auto. Qed.
  Lemma consult_tell' : hooks_sim -> forall h consts m st ls s l a adv, Lb l ->
    rfun_advice (rfun_of h) (consts ++ loc m) = Some adv -> accesses adv = None -> decides adv = false ->
    List.length (consts ++ loc m) = List.length (trap_args h) ->
    forward_body (X := X) num1 num2 adv = XRet [] -> rfun_return (X := X) (rfun_of h) [] = XRet [] -> trap_results h = [] ->
    csim (if_on on h adv) a (next st ls s) (consult h 0 consts m st ls (lift l a s)).
  Proof. intros HS. apply consult_tell. exact HS. Qed.
  Ltac conj := repeat match goal with |- _ /\ _ => split | |- TypingProofs.mid_ok _ _ _ _ _ _ => split end.
  Ltac tell HS := apply (consult_tell' HS); [assumption|reflexivity..].

  (** The state in which the next instruction runs is well typed. *)
  Lemma step_typed C i ft rest st ls s st1 ls1 s1 : calls_ok I ftype call C -> Forall representable (uflat [i]) ->
    instr_ok C i ft -> mid_ok C st ls s (rev (ft_in ft) ++ rest) ->
    run1 num1 num2 ftype call n i st ls s = Ok (ONext, st1, ls1, s1) -> mid_ok C st1 ls1 s1 (rev (ft_out ft) ++ rest).
  Proof.
    intros K RP Ti M E.
    pose proof (@run_ok _ num1 num2 I ftype call n [i] C _ (rev (ft_out ft) ++ rest) st ls s K RP
      (@so_cons C i [] ft rest _ Ti (so_nil C _)) M) as H.
    unfold Semantics.run in H. rewrite run_seq_one, E in H. destruct H as (H1 & H2 & H3). conj; assumption.
  Qed.
  Lemma body_typed C C' ft st ls s rest ps rs : calls_ok I ftype call C ->
    c_funcs C' = c_funcs C -> c_locals C' = c_locals C -> (store_ok C I s -> store_ok C' I s) ->
    mid_ok C st ls s (rev (ft_in ft) ++ rest) -> popn (List.length (ft_in ft)) st = Some (ps, rs) ->
    mid_ok C' (pushn ps []) ls s (rev (ft_in ft)).
  Proof.
    intros K E1 E2 E3 (F1 & F2 & F3) P. destruct (popn_ok _ _ F1) as (vs & st' & P' & Fv & _). rewrite P in P'.
    injection P' as -> ->. split; [|split; [now rewrite E1, E2|auto]].
    rewrite E1. rewrite <- (app_nil_r (rev (ft_in ft))). apply pushn_ok; [exact Fv|constructor].
  Qed.

  Lemma inner_block ft body : Forall representable (uflat [UBlock ft body]) -> Forall representable (uflat body).
  Proof.
    unfold uflat. cbn [flat_map uflat1 app]. rewrite ?Forall_app, ?Forall_cons_iff, ?Forall_app. tauto.
  Qed.
  Lemma inner_loop ft body : Forall representable (uflat [ULoop ft body]) -> Forall representable (uflat body).
  Proof.
    unfold uflat. cbn [flat_map uflat1 app]. rewrite ?Forall_app, ?Forall_cons_iff, ?Forall_app. tauto.
  Qed.
  Lemma inner_then ft body els : Forall representable (uflat [UIf ft body els]) -> Forall representable (uflat body).
  Proof.
    unfold uflat. cbn [flat_map uflat1 app]. destruct els; rewrite ?Forall_app, ?Forall_cons_iff, ?Forall_app, ?Forall_cons_iff, ?Forall_app; tauto.
  Qed.
  Lemma inner_else ft body els : Forall representable (uflat [UIf ft body (Some els)]) -> Forall representable (uflat els).
  Proof.
    unfold uflat. cbn [flat_map uflat1 app]. rewrite ?Forall_app, ?Forall_cons_iff, ?Forall_app, ?Forall_cons_iff, ?Forall_app. tauto.
  Qed.
  Lemma if_typed C ft st ls s rest : mid_ok C st ls s (rev (ft_in ft ++ [i32]) ++ rest) ->
    exists c st', st = VNum TI32 c :: st' /\ (0 <= c < 2 ^ bits TI32)%Z /\ mid_ok C st' ls s (rev (ft_in ft) ++ rest).
  Proof.
    intros (F1 & F2 & F3). rewrite rev_app_distr in F1. cbn [rev app] in F1. unfold i32 in F1.
    apply cons_inv in F1 as (v & st' & -> & V & F1). apply num_inv in V as (z & -> & R).
    exists z, st'. conj; auto; apply R.
  Qed.

  Lemma advised_sim : hooks_sim -> forall b C ts ts' st ls s l a,
    calls_ok I ftype call C -> calls_sim C -> memory_sim C -> all_tame b -> all_access b ->
    Forall representable (uflat (map strip b)) ->
    seq_ok C (map strip b) ts ts' -> annotated_ok C true b -> mid_ok C st ls s ts -> Lb l ->
    csim (events b st ls s) a (run (map strip b) st ls s) (advised' b st ls (lift l a s)).
  Proof.
    intros HS.
    induction b as [|m b r IHr|m ft body r IHb IHr|m ft body r IHb IHr|m ft thn r IHt IHr|m ft thn els r IHt IHe IHr]
      using tbody_ind; intros C ts ts' st ls s l a K CS MS AT AC RP Ty AN M Hl;
      cbn [map strip] in Ty; inversion Ty as [|? ? ? ft' rest ? Ti Tr]; subst; clear Ty;
      [now apply csim_next|..]; unfold Trace.events, Semantics.run, advised; cbn [events_seq run_seq map strip];
      (assert (TM : tame _) by (apply AT; apply oc_here));
      (assert (AT' : all_tame r) by (intros j Hj; apply AT; now apply oc_next));
      (assert (AC' : all_access r) by (intros m0 b0 Hj; apply (AC m0 b0); now apply oc_next));
      (assert (RPi : Forall representable (uflat [strip _])) by
        (unfold uflat in RP |- *; cbn [map flat_map] in RP |- *; rewrite app_nil_r; apply Forall_app in RP; exact (proj1 RP)));
      (assert (RPr : Forall representable (uflat (map strip r))) by
        (unfold uflat in RP |- *; cbn [map flat_map] in RP; apply Forall_app in RP; exact (proj2 RP)));
      cbn [strip] in RPi;
      (assert (ST := fun st1 ls1 s1 => @step_typed C _ ft' rest st ls s st1 ls1 s1 K RPi Ti M)).
    - inversion Ti; subst. inversion AN as [| |? ? ? ? fa ? EA TA AN'|? ? ? ? ? ? ?|? ? ? ? ? ? ?|? ? ? ? ? ? ?|? ? ? ? ? ? ? ?]; subst.
      apply (csim_then lib_part ana_part obs good Cl).
      + eapply advise_sim; [exact K|exact CS|exact HS|exact (fun E => proj1 (MS E))|exact (fun E => proj1 (proj2 (MS E)))
          |exact (fun E => proj1 (proj2 (proj2 (MS E))))|exact (fun E => proj2 (proj2 (proj2 (MS E))))|match goal with H : btype C b ft' |- _ => exact H end|exact EA|exact TA|exact TM|exact (AC m b (oc_here _ _))|exact M|exact Hl].
      + intros st1 ls1 s1 l1 E Hl1. cbn [Semantics.run1] in E. destruct (jumps b) eqn:J.
        { pose proof (@exec_jumps b st ls s J) as N. rewrite E in N. contradiction. }
        eapply IHr; try eassumption. now apply ST.
    - inversion Ti; subst. inversion AN; subst.
      assert (AB : all_tame body) by (intros j Hj; apply AT; now apply oc_block).
      assert (AA : all_access body) by (intros m0 b0 Hj; apply (AC m0 b0); now apply oc_block).
      assert (RB : Forall representable (uflat (map strip body))) by (eapply inner_block; exact RPi).
      apply (csim_then lib_part ana_part obs good Cl); [|intros; eapply IHr; try eassumption; now apply ST].
      cbn [events1 advised1 Semantics.run1]. apply (csim_block lib_part ana_part obs good Cl); [assumption|].
      intros ps rs P. assert (M1 := @body_typed C (label C (ft_out ft')) ft' st ls s rest ps rs K eq_refl eq_refl (fun x => x) M P).
      apply (csim_inside Cl); [assumption|intros; tell HS| |intros; tell HS].
      intros l1 Hl1. eapply IHb with (C := label C (ft_out ft')); eassumption.
    - inversion Ti; subst. inversion AN; subst.
      assert (AB : all_tame body) by (intros j Hj; apply AT; now apply oc_loop).
      assert (AA : all_access body) by (intros m0 b0 Hj; apply (AC m0 b0); now apply oc_loop).
      assert (RB : Forall representable (uflat (map strip body))) by (eapply inner_loop; exact RPi).
      apply (csim_then lib_part ana_part obs good Cl); [|intros; eapply IHr; try eassumption; now apply ST].
      cbn [events1 advised1 Semantics.run1].
      apply (csim_loop lib_part ana_part obs good Cl) with (P := fun ps ls s => mid_ok (label C (ft_in ft')) (pushn ps []) ls s (rev (ft_in ft'))); [assumption|assumption|..].
      + intros ps rs P. exact (@body_typed C (label C (ft_in ft')) ft' st ls s rest ps rs K eq_refl eq_refl (fun x => x) M P).
      + intros a1 ps ls1 s1 l1 Hl1 M1.
        apply (csim_inside Cl); [assumption|intros; tell HS| |intros; tell HS].
        intros l2 Hl2. eapply IHb with (C := label C (ft_in ft')); eassumption.
      + intros ps ls1 s1 st' ls' s' ps' rest' M1 E P.
        pose proof (@run_ok _ num1 num2 I ftype call n (map strip body) (label C (ft_in ft')) _ _ _ _ _ K RB ltac:(eassumption) M1) as R.
        unfold Semantics.run in R. rewrite E in R. destruct R as (R1 & R2 & lt & rs & R3 & R4). injection R3 as <-.
        destruct (popn_ok _ _ R4) as (vs & st2 & P' & Fv & _). rewrite P in P'. injection P' as -> ->.
        conj; [|assumption|assumption]. rewrite <- (app_nil_r (rev (ft_in ft'))). apply pushn_ok; [exact Fv|constructor].
    - inversion Ti; subst. inversion AN; subst.
      assert (AB : all_tame thn) by (intros j Hj; apply AT; now apply oc_then).
      assert (AA : all_access thn) by (intros m0 b0 Hj; apply (AC m0 b0); now apply oc_then).
      assert (RB : Forall representable (uflat (map strip thn))) by (eapply inner_then; exact RPi).
      apply (csim_then lib_part ana_part obs good Cl); [|intros; eapply IHr; try eassumption; now apply ST].
      cbn [events1 advised1 Semantics.run1]. cbn [ft_in ft_out] in *.
      destruct (if_typed _ _ M) as (c & st' & -> & R & M').
      match goal with |- context [rbind (pop_i32 (VNum TI32 c :: st')) ?k] =>
        match goal with |- context [if_on on ?h ?adv] =>
          destruct (@consult_choice HS h (arities ft) m c st' ls s l a adv Hl R eq_refl eq_refl eq_refl eq_refl eq_refl eq_refl) as (c' & Ec & R' & CC) end;
        replace (rbind (pop_i32 (VNum TI32 c :: st')) k) with (andthen (next (X := Y) (VNum TI32 c' :: st') ls s)
          (fun st ls s => rbind (pop_i32 st) (fun x => let (c, st') := x in
             if (c =? 0)%Z then run_block next ft st' ls s else run_block (run_seq (run1 num1 num2 ftype call n) (map strip thn)) ft st' ls s)))
          by (cbn [pop_i32 rbind andthen next]; rewrite Ec; reflexivity) end.
      apply (csim_andthen lib_part ana_part obs good Cl); [exact CC|discriminate|intros o ? ? ? E; inversion E; subst; congruence|].
      intros st1 ls1 s1 l1 E Hl1. inversion E; subst. cbn [pop_i32 rbind]. rewrite Ec.
      destruct (c =? 0)%Z; (apply (csim_block lib_part ana_part obs good Cl); [assumption|]); intros ps rs P.
      + tell HS.
      + assert (M1 := @body_typed C (label C (ft_out ft)) ft st' ls1 s1 rest ps rs K eq_refl eq_refl (fun x => x) M' P).
        apply (csim_inside Cl); [assumption|intros; now apply csim_next| |intros; tell HS].
        intros l2 Hl2. eapply IHt with (C := label C (ft_out ft)); eassumption.
    - inversion Ti; subst. inversion AN; subst.
      assert (AB : all_tame thn) by (intros j Hj; apply AT; now apply oc_then).
      assert (AA : all_access thn) by (intros m0 b0 Hj; apply (AC m0 b0); now apply oc_then).
      assert (RB : Forall representable (uflat (map strip thn))) by (eapply inner_then; exact RPi).
      assert (AB' : all_tame els) by (intros j Hj; apply AT; now apply oc_else).
      assert (AA' : all_access els) by (intros m0 b0 Hj; apply (AC m0 b0); now apply oc_else).
      assert (RB' : Forall representable (uflat (map strip els))) by (eapply inner_else; exact RPi).
      apply (csim_then lib_part ana_part obs good Cl); [|intros; eapply IHr; try eassumption; now apply ST].
      cbn [events1 advised1 Semantics.run1]. cbn [ft_in ft_out] in *.
      destruct (if_typed _ _ M) as (c & st' & -> & R & M').
      match goal with |- context [rbind (pop_i32 (VNum TI32 c :: st')) ?k] =>
        match goal with |- context [if_on on ?h ?adv] =>
          destruct (@consult_choice HS h (arities ft) m c st' ls s l a adv Hl R eq_refl eq_refl eq_refl eq_refl eq_refl eq_refl) as (c' & Ec & R' & CC) end;
        replace (rbind (pop_i32 (VNum TI32 c :: st')) k) with (andthen (next (X := Y) (VNum TI32 c' :: st') ls s)
          (fun st ls s => rbind (pop_i32 st) (fun x => let (c, st') := x in
             if (c =? 0)%Z then run_block (run_seq (run1 num1 num2 ftype call n) (map strip els)) ft st' ls s
             else run_block (run_seq (run1 num1 num2 ftype call n) (map strip thn)) ft st' ls s)))
          by (cbn [pop_i32 rbind andthen next]; rewrite Ec; reflexivity) end.
      apply (csim_andthen lib_part ana_part obs good Cl); [exact CC|discriminate|intros o ? ? ? E; inversion E; subst; congruence|].
      intros st1 ls1 s1 l1 E Hl1. inversion E; subst. cbn [pop_i32 rbind]. rewrite Ec.
      destruct (c =? 0)%Z; (apply (csim_block lib_part ana_part obs good Cl); [assumption|]); intros ps rs P;
        assert (M1 := @body_typed C (label C (ft_out ft)) ft st' ls1 s1 rest ps rs K eq_refl eq_refl (fun x => x) M' P);
        (apply (csim_inside Cl); [assumption|intros; now apply csim_next| |intros; tell HS]); intros l2 Hl2.
      + eapply IHe with (C := label C (ft_out ft)); eassumption.
      + eapply IHt with (C := label C (ft_out ft)); eassumption.
  Qed.
End Body.
