(** Property theorems C70 to C72: the AssemblyScript program generated from a WASP file. The
    AssemblyScript compiler and the guest language are not part of the model: the generated functions
    are given a meaning in WaspAs.v, guest code is any program over the names in scope. *)
From Coq Require Import Permutation.
From Verif Require Import Semantics Names Advice RsStdlib Interface Wasp PropWasp StackLib StackRun StackOps StackHist StackSpec PropStack System SystemProofs AccessProofs Instantiate Trace TraceProofs
  Typing ModuleTyping InstantiateTyping Checker ExModule InstrumentProofs PropInstrument PropSpec PropTyping ForwardRel ForwardProofs SessionProofs Recorder
  PropTransparent AsLib AsNames AsRun AsTypes AsProofs PropAs WaspAs WaspAsProofs WaspAsSessions WaspAsAccess PropWaspProgram.
Local Open Scope string_scope.
Local Open Scope list_scope.

(** ** C70: forward.wasp changes nothing; C71: the guest code is told what happens *)
Lemma well_formed_unclashed root p : generate root = Some p -> well_formed p -> forall t, In t (traps root) -> unclashed t.
Proof.
  intros G (_ & W) t Ht w Ew. destruct (generate_wrappers _ G) as (M & F). rewrite <- M in Ht.
  apply in_map_iff in Ht as ((t1 & w1) & Q & I1). cbn [fst] in Q. subst t1. rewrite Forall_forall in F. specialize (F _ I1). cbn [fst snd] in F.
  rewrite Ew in F. injection F as <-. exact (proj1 (W _ _ I1)).
Qed.

(** No WASP advice is about loads and stores. *)
Lemma no_access root t : advised_by root (HkLoad t) = false /\ advised_by root (HkStore t) = false.
Proof.
  unfold advised_by. split; apply not_true_is_false; intros X; apply existsb_exists in X as (u & _ & X);
    (destruct (hook_of u) as [h|] eqn:Eh; [|discriminate X]); destruct (hook_eq_dec h _) as [->|]; try discriminate X;
    destruct u as [[] ?|[] ? ?| | | | | | | | | | |]; discriminate Eh.
Qed.
Lemma wasp_in_range {Y} num1 num2 (host : string -> string -> list val -> xprog Y) infer m root generic only n imp x calls :
  Forall in_range32 (module_trace num1 num2 host infer m (advised_by root) generic only n imp x calls).
Proof. apply module_in_range; intros t; apply no_access. Qed.

Section Sessions.
  Context {Y : Type}.
  Variable num1 : unop -> Z -> option Z.
  Variable num2 : binop -> Z -> Z -> option Z.
  Variables p0 mx : Z.
  Hypothesis Pages : (0 <= p0 <= mx /\ mx <= 65536)%Z.
  Variable f : Z -> Z.
  Variable N : nat.
  Hypothesis Big : (65540 <= Z.of_nat N)%Z.
  Variable host : string -> string -> list val -> xprog Y.
  Variable I : Y -> Prop.
  Variables ord_i ord_c : list nat -> list nat.
  Variable infer : nat -> list low -> option (list ity).
  Variable m : module.
  (** The WASP file and what is generated from it. *)
  Variable root : list advice_def.
  Variable p : as_program.
  Hypothesis G : generate root = Some p.
  Hypothesis WP : well_formed p.
  Variable ai : interface.
  Hypothesis EI : interface_of_root root = Some ai.
  Variable only : option (list nat).
  Variable imp : provided.
  Variable m' : module.
  Variable lib : option (list functy).
  Hypothesis Pi : forall l, Permutation (ord_i l) l.
  Hypothesis Pc : forall l, Permutation (ord_c l) l.
  Hypothesis E : instrument ord_i ord_c infer m ai only = IOk m' lib.
  Hypothesis V : valid m.
  Hypothesis U : in_format m.
  Hypothesis AN : annotates infer m.
  Hypothesis PV : provided_ok m imp.
  Hypothesis HO : hosts_ok host I m (plain_xty m).
  Notation on := (advised_by root).
  Notation generic := (instruments_generic_apply root).
  Notation is := (intercepts m generic only ord_i).
  Hypothesis CO : compatible m on is.
  Notation sigs := (match lib with Some l => l | None => [] end).
  Variables n fuel : nat.
  Hypothesis Fu : 5 * n + 2 <= fuel.
  Notation plain_module := (run_module num1 num2 host n imp m).
  Notation module_trace := (module_trace num1 num2 host infer m on generic only n imp).
  Notation typed_calls := (Forall (fun c => exists ft, plain_xty m (fst c) = Some ft /\
                                     Forall2 (val_ok (List.length (md_funcs m))) (snd c) (ft_in ft))).
  Notation lc := (as_call N (as_lib sigs)).
  Notation IM := (@C67_implements p0 mx Pages N Big sigs).
  Notation l0 := (as_start p0 mx f).
  Notation holds := (as_states p0 mx sigs).
  Notation bytes := (65536 * Z.min 65535 (mx - p0))%Z.
  Notation space := (as_space num1 num2 p0 mx host infer m on generic only imp n).
  Lemma libs l : lib = Some l -> sigs = l.
  Proof using. intros Q. now rewrite Q. Qed.
  Lemma starts : holds [] [] l0.
  Proof using Pages. exact (@as_initial p0 mx Pages sigs p0 f eq_refl). Qed.
  (** The compiled program beside the buffer library generated as AssemblyScript. *)
  Definition wasp_run {B : Type} (guest : trap_sig -> scope -> xprog (sys (B * Y))) (x : store unit * (B * Y)) (calls : list (string * list val)) :=
    run_module num1 num2 (OwnProofs.system lc (as_analysis guest p) host) fuel imp m' x calls.

  Section Guest.
    Context {B : Type}.
    Variable obs : B -> event -> B.
    Variable guest : trap_sig -> scope -> xprog (sys (B * Y)).
    Hypothesis GN : forall t, In t (traps root) -> guest_notes obs guest t.
    Hypothesis GC : forall t, In t (traps root) -> guest_calls obs holds guest t.
    Notation UN := (@well_formed_unclashed root p G WP).
    Theorem C71_observes : forall x a calls outs s, I x -> typed_calls calls ->
      plain_module x calls = Ok (outs, s) ->
      space x calls ->
      exists s', wasp_run guest (l0, (a, x)) calls = Ok (outs, s') /\
        same_program s s' /\ fst (snd (st_x s')) = fold_left obs (module_trace x calls) a.
    Proof.
      intros x a calls outs s Ix T R Ro.
      destruct (@wasp_sessions Y B obs num1 num2 host I ord_i ord_c infer m root p G UN only imp m' sigs lc holds bytes True IM lib Pi Pc ai EI E
        libs guest GN GC V U AN PV HO CO n fuel Fu x l0 a calls outs s Ix starts T R Ro (or_intror (wasp_in_range _ _ _ _ _ _ _ _ _ _ _ _)))
        as (s' & l1 & frs & ifs & R' & Ex & _).
      exists s'. split; [exact R'|]. eapply same_program_of; exact Ex.
    Qed.
    (** Without any assumption on the space: results are never wrong, a call can only trap. *)
    Theorem C71_any_space : forall x a calls outs s, I x -> typed_calls calls ->
      plain_module x calls = Ok (outs, s) ->
      same_until (plain_module x) (wasp_run guest (l0, (a, x))) calls outs (~ space x calls).
    Proof.
      intros x a calls outs s Ix T R.
      destruct (@wasp_any Y B obs num1 num2 host I ord_i ord_c infer m root p G UN only imp m' sigs lc holds bytes True IM lib Pi Pc ai EI E
        libs guest GN GC V U AN PV HO CO n fuel Fu x l0 a calls outs s Ix starts T R (or_introl Logic.I) (or_intror (wasp_in_range _ _ _ _ _ _ _ _ _ _ _ _)))
        as [(Q & P)|(calls1 & rest & s1 & s' & l1 & P1 & P2 & P3 & P4 & P5)]; [left|right].
      - split; [exact Q|exact P].
      - exists calls1, rest, s1, s'. split; [exact P1|]. split; [exact P2|]. split; [exact P3|]. split; [|exact P5].
        eapply same_program_of; exact P4.
    Qed.
    Theorem C71_failing_start : forall x a calls s, I x -> typed_calls calls ->
      plain_module x calls = Trap s -> space x calls ->
      exists s', wasp_run guest (l0, (a, x)) calls = Trap s' /\ same_program s s' /\
        fst (snd (st_x s')) = fold_left obs (module_trace x calls) a.
    Proof.
      intros x a calls s Ix T R Ro.
      destruct (@wasp_trap Y B obs num1 num2 host I ord_i ord_c infer m root p G UN only imp m' sigs lc holds bytes True IM lib Pi Pc ai EI E
        libs guest GN GC V U AN PV HO CO n fuel Fu x l0 a calls s Ix starts T R Ro (wasp_in_range _ _ _ _ _ _ _ _ _ _ _ _))
        as (s' & l1 & R' & Ex).
      exists s'. split; [exact R'|]. eapply same_program_of; exact Ex.
    Qed.
  End Guest.

  (** Guest code that reads everything in its scope, and in the apply advice all arguments and
      results: it sees the events of the run, conditions as booleans. *)
  Theorem C71_records : forall (B : Type) (obs : B -> event -> B) x a calls outs s, I x -> typed_calls calls ->
    plain_module x calls = Ok (outs, s) ->
    space x calls ->
    exists s', wasp_run (record_guest obs lc) (l0, (a, x)) calls = Ok (outs, s') /\
      same_program s s' /\ fst (snd (st_x s')) = fold_left obs (map visible (module_trace x calls)) a.
  Proof.
    intros B obs x a calls outs s Ix T R Ro.
    destruct (@C71_observes B (fun a e => obs a (visible e)) (record_guest obs lc)
      (fun t _ => @record_guest_notes Y B obs lc t) (fun t _ => @record_guest_calls Y B obs lc sigs holds bytes True IM t) x a calls outs s Ix T R Ro)
      as (s' & A1 & A2 & A3). exists s'. split; [exact A1|]. split; [exact A2|]. rewrite A3. clear.
    generalize (module_trace x calls). intros l. revert a. induction l as [|e l IH]; intros a; [reflexivity|]. cbn [map fold_left]. apply IH.
  Qed.
End Sessions.
Print Assumptions C71_observes.
Print Assumptions C71_any_space.
Print Assumptions C71_failing_start.
Print Assumptions C71_records.

(** tests/analyses/wasp-as/forward.wasp: whatever the identifiers are called. *)
Definition forward_program : as_program := match generate forward_wasp with Some p => p | None => AsProgram [] [] [] end.
Lemma forward_generated : generate forward_wasp = Some forward_program.
Proof. reflexivity. Qed.
Lemma forward_well_formed : well_formed forward_program.
Proof. destruct ex_c69 as ((p & G & W & _) & _). unfold forward_program. now rewrite G. Qed.
Section Forwarding.
  Context {Y : Type}.
  Variable num1 : unop -> Z -> option Z.
  Variable num2 : binop -> Z -> Z -> option Z.
  Variables p0 mx : Z.
  Hypothesis Pages : (0 <= p0 <= mx /\ mx <= 65536)%Z.
  Variable f : Z -> Z.
  Variable N : nat.
  Hypothesis Big : (65540 <= Z.of_nat N)%Z.
  Variable host : string -> string -> list val -> xprog Y.
  Variable I : Y -> Prop.
  Variables ord_i ord_c : list nat -> list nat.
  Variable infer : nat -> list low -> option (list ity).
  Variable m : module.
  Variable ai : interface.
  Hypothesis EI : interface_of_root forward_wasp = Some ai.
  Variable only : option (list nat).
  Variable imp : provided.
  Variable m' : module.
  Variable lib : option (list functy).
  Hypothesis Pi : forall l, Permutation (ord_i l) l.
  Hypothesis Pc : forall l, Permutation (ord_c l) l.
  Hypothesis E : instrument ord_i ord_c infer m ai only = IOk m' lib.
  Hypothesis V : valid m.
  Hypothesis U : in_format m.
  Hypothesis AN : annotates infer m.
  Hypothesis PV : provided_ok m imp.
  Hypothesis HO : hosts_ok host I m (plain_xty m).
  Notation on := (advised_by forward_wasp).
  Hypothesis CO : compatible m on (intercepts m true only ord_i).
  Variables n fuel : nat.
  Hypothesis Fu : 5 * n + 2 <= fuel.
  Notation plain_module := (run_module num1 num2 host n imp m).
  Notation module_trace := (module_trace num1 num2 host infer m on true only n imp).
  Notation typed_calls := (Forall (fun c => exists ft, plain_xty m (fst c) = Some ft /\
                                     Forall2 (val_ok (List.length (md_funcs m))) (snd c) (ft_in ft))).
  Notation space := (as_space num1 num2 p0 mx host infer m on true only imp n).
  Notation forwarded := (@wasp_run Y num1 num2 N host forward_program imp m' lib fuel unit forward_guest).
  Notation l0 := (as_start p0 mx f).
  Theorem C70_forwarding : forall x calls outs s, I x -> typed_calls calls ->
    plain_module x calls = Ok (outs, s) ->
    space x calls ->
    exists s', forwarded (l0, (tt, x)) calls = Ok (outs, s') /\ same_program s s'.
  Proof.
    intros x calls outs s Ix T R Ro.
    destruct (@C71_observes Y num1 num2 p0 mx Pages f N Big host I ord_i ord_c infer m forward_wasp forward_program forward_generated forward_well_formed ai EI
      only imp m' lib Pi Pc E V U AN PV HO CO n fuel Fu unit ignore forward_guest (fun t _ => @forward_guest_notes Y t) (fun t _ => @forward_guest_calls Y _ t)
      x tt calls outs s Ix T R Ro) as (s' & A1 & A2 & _). exists s'. auto.
  Qed.
  (** Without any assumption on the space: results are never wrong, a call can only trap. *)
  Theorem C70_any_space : forall x calls outs s, I x -> typed_calls calls ->
    plain_module x calls = Ok (outs, s) ->
    same_until (plain_module x) (forwarded (l0, (tt, x))) calls outs (~ space x calls).
  Proof.
    exact (fun x => @C71_any_space Y num1 num2 p0 mx Pages f N Big host I ord_i ord_c infer m forward_wasp forward_program forward_generated forward_well_formed ai EI
      only imp m' lib Pi Pc E V U AN PV HO CO n fuel Fu unit ignore forward_guest (fun t _ => @forward_guest_notes Y t) (fun t _ => @forward_guest_calls Y _ t) x tt).
  Qed.
  Theorem C70_failing_start : forall x calls s, I x -> typed_calls calls ->
    plain_module x calls = Trap s -> space x calls ->
    exists s', forwarded (l0, (tt, x)) calls = Trap s' /\ same_program s s'.
  Proof.
    intros x calls s Ix T R Ro.
    destruct (@C71_failing_start Y num1 num2 p0 mx Pages f N Big host I ord_i ord_c infer m forward_wasp forward_program forward_generated forward_well_formed ai EI
      only imp m' lib Pi Pc E V U AN PV HO CO n fuel Fu unit ignore forward_guest (fun t _ => @forward_guest_notes Y t) (fun t _ => @forward_guest_calls Y _ t)
      x tt calls s Ix T R Ro) as (s' & A1 & A2 & _). exists s'. auto.
  Qed.
End Forwarding.
Print Assumptions C70_forwarding.
Print Assumptions C70_any_space.
Print Assumptions C70_failing_start.

(** The session of PropTransparent.v with forward.wasp: in one page, and without any, where a call traps. *)
Definition ex_wasp {B : Type} (root : list advice_def) (guest : lib_code -> trap_sig -> scope -> xprog (sys (B * list val))) (b : B) (mx : Z) :
  option (list (option (list val)) * list val * B) :=
  match generate root, interface_of_root root with
  | Some p, Some ai =>
      match instrument ex_id ex_id ex_infer ex_module ai None with
      | IOk m' lib =>
          match wasp_run ex_num1 ex_num2 as_steps ex_host p ex_imports m' lib 42 (guest (as_call as_steps (as_lib (match lib with Some l => l | None => [] end))))
                  (as_start 0 mx (fun _ => 0%Z), (b, [])) ex_session_calls with
          | Ok (outs, s') => Some (outs, snd (snd (st_x s')), fst (snd (st_x s')))
          | _ => None
          end
      | _ => None
      end
  | _, _ => None
  end.
Example ex_c70 :
  ex_wasp forward_wasp (fun _ => forward_guest) tt 1 = Some ([Some [vi32 1]; Some [vi32 100]], [vi32 1], tt) /\
  option_map (fun r => fst (fst r)) (ex_wasp forward_wasp (fun _ => forward_guest) tt 0) <> Some [Some [vi32 1]; Some [vi32 100]].
Proof. split; [vm_compute; reflexivity|vm_compute; discriminate]. Qed.
(** Guest code that decides otherwise is not covered: inverting every [if] changes the result. *)
Definition invert_guest {X : Type} (t : trap_sig) (sc : scope) : xprog X :=
  match t with
  | TIfThenElse c _ =>
      match lookup c sc with Some (OIfThenElseCondition a b) => two_way a b ELSE_KONTN THEN_KONTN | _ => XStuck end
  | _ => forward_guest t sc
  end.
Example ex_c70_inverted : option_map (fun r => fst (fst r)) (ex_wasp forward_wasp (fun _ => invert_guest) tt 1) <> Some [Some [vi32 1]; Some [vi32 100]].
Proof. vm_compute. discriminate. Qed.
(** All events of the session, as the guest code sees them. *)
Definition ex_wasp_trace := module_trace ex_num1 ex_num2 ex_host ex_infer ex_module (advised_by forward_wasp) true None 8 ex_imports [] ex_session_calls.
Example ex_c71 :
  option_map snd (ex_wasp forward_wasp (record_guest (fun log e => log ++ [e])) [] 1) = Some (map visible ex_wasp_trace) /\
  List.length ex_wasp_trace = 25.
Proof. split; vm_compute; reflexivity. Qed.

(** ** C72: the objects for arguments and results *)
Theorem C72_accessors : forall (Y : Type) sigs lc library limit stops, implements sigs lc library limit stops ->
  forall export frs ifs d ifr q qt, nth_error ifs d = Some ifr -> nth_error frs d = Some (if_type ifr, q, qt) -> (slots (if_type ifr) < 2 ^ 31)%Z ->
  forall sd (s : store (sys Y)), library frs ifs (fst (st_x s)) ->
  let o := object_of sd (if_type ifr) q qt in
  let types := match sd with SArg => ft_in (if_type ifr) | SRet => ft_out (if_type ifr) end in
  let values := match sd with SArg => if_args ifr | SRet => if_rets ifr end in
  o_length o = Z.of_nat (List.length types) /\
  (forall i t, nth_error types i = Some (TNum t) ->
     (exists l, run_x export (o_getType (lib_agent lc) o (Z.of_nat i)) s = Ok ([vi32 (type_code (TNum t))], with_lib s l) /\ library frs ifs l) /\
  (forall v, nth_error values i = Some (Some v) ->
        exists l, run_x export (o_get (lib_agent lc) t o (Z.of_nat i)) s = Ok ([v], with_lib s l) /\ library frs ifs l) /\
  (forall z, (0 <= z < 2 ^ bits t)%Z ->
        exists l ifs', run_x export (o_set (lib_agent lc) t o (Z.of_nat i) z) s = Ok ([], with_lib s l) /\ library frs ifs' l /\
  nth_error ifs' d = Some (match sd with
            | SArg => IF (if_type ifr) (if_rets ifr) (set_nth i (Some (VNum t z)) (if_args ifr))
            | SRet => IF (if_type ifr) (set_nth i (Some (VNum t z)) (if_rets ifr)) (if_args ifr)
            end) /\
  forall d', d' <> d -> nth_error ifs' d' = nth_error ifs d')) /\
  (forall index t z, (0 <= index < 2 ^ 32)%Z -> (index >= 2 ^ 31 \/ index >= Z.of_nat (List.length types))%Z ->
     run_x export (o_getType (lib_agent lc) o index) s = Trap s /\
  run_x export (o_get (lib_agent lc) t o index) s = Trap s /\
  run_x export (o_set (lib_agent lc) t o index z) s = Trap s).
Proof.
  intros Y sigs lc library limit stops IM export frs ifs d ifr q qt Ed Ef Sm sd s Hl o types values.
  assert (Ty : types = side_types (if_type ifr) sd) by (destruct sd; reflexivity).
  assert (Va : values = side_of sd ifr) by (destruct sd; reflexivity). rewrite Ty, Va.
  split; [destruct sd; reflexivity|]. split.
  - intros i t Et. split; [|split].
    + exact (@get_type_ok Y sigs lc library limit stops IM export frs ifs d ifr q qt Ed Ef Sm sd i (TNum t) s Hl Et).
    + intros v Ev. destruct (@get_ok Y sigs lc library limit stops IM export frs ifs d ifr q qt Ed Ef Sm sd i t (Some v) s Hl Et Ev) as (w & l & R & H & Sw).
      cbn in Sw. subst w. exists l. auto.
    + intros z Rz. destruct (@set_ok Y sigs lc library limit stops IM export frs ifs d ifr q qt Ed Ef Sm sd i t z s Hl Et Rz) as (l & R & H).
      exists l, (set_nth d (set_slot sd i (VNum t z) ifr) ifs). split; [exact R|]. split; [exact H|]. split.
      * replace (match sd with SArg => _ | SRet => _ end) with (set_slot sd i (VNum t z) ifr) by (destruct sd; reflexivity).
        exact (set_nth_at d _ ifs Ed).
      * intros d' Nd. apply set_nth_other. congruence.
  - intros index t z Ri Ro.
    assert (B : forall k : xprog (sys Y), checkBounds (Z.of_nat (List.length (side_types (if_type ifr) sd))) index k = XTrap).
    { intros k. unfold checkBounds, slots in *. rewrite (as_i32_small (z := Z.of_nat _)) by (destruct sd; cbn [side_types]; lia).
      unfold as_i32. destruct (Z.ltb_spec index (2 ^ 31)); destruct (Z.leb_spec 0 index); try lia; destruct (Z.leb_spec 0 (index - 2 ^ 32)); try lia; cbn [negb orb]; try reflexivity.
      destruct (Z.leb_spec (Z.of_nat (List.length (side_types (if_type ifr) sd))) index); [reflexivity|lia]. }
    unfold o. destruct sd; cbn [object_of o_getType o_get o_set]; unfold getArgType, getResType, getArg, getRes, setArg, setRes;
    cbn [side_types] in B; rewrite !B; cbn [run_x]; auto.
Qed.
Print Assumptions C72_accessors.

(** The loop over all values, with the type read first, reads them in order. *)
Theorem C72_loop : forall (Y : Type) sigs lc library limit stops, implements sigs lc library limit stops ->
  forall export frs ifs d ifr q qt, nth_error ifs d = Some ifr -> nth_error frs d = Some (if_type ifr, q, qt) -> (slots (if_type ifr) < 2 ^ 31)%Z ->
  forall sd (s : store (sys Y)) values, library frs ifs (fst (st_x s)) ->
  match sd with SArg => if_args ifr | SRet => if_rets ifr end = map Some values ->
  let o := object_of sd (if_type ifr) q qt in
  exists l, library frs ifs l /\ forall k,
    run_x export (read_all (lib_agent lc) o (Z.to_nat (o_length o)) 0 [] k) s = run_x export (k values) (with_lib s l).
Proof.
  intros Y sigs lc library limit stops IM export frs ifs d ifr q qt Ed Ef Sm sd s values Hl Ev o.
  assert (Va : side_of sd ifr = map Some values) by (rewrite <- Ev; destruct sd; reflexivity).
  destruct (@lib_frame sigs lc library limit stops IM frs ifs _ d ifr Hl Ed) as (_ & _ & _ & _ & _ & _ & Nu & Lr & La & _).
  destruct (@read_all_ok Y sigs lc library limit stops IM export frs ifs d ifr q qt Ed Ef Sm sd (map Some values) 0 [] s Hl) as (vs & l & Ss & H & R).
  { intros i u Hi. rewrite Va. exact Hi. }
  apply sees_all in Ss. subst vs. exists l. split; [exact H|]. intros k. specialize (R k). cbn [app Z.of_nat] in R. rewrite <- R.
  replace (Z.to_nat (o_length o)) with (List.length (map Some values)); [reflexivity|]. rewrite <- Va. unfold o.
  destruct sd; cbn [object_of o_length side_of]; rewrite Nat2Z.id; congruence.
Qed.
Print Assumptions C72_loop.

(** A call of [ft_outer] over the library generated as AssemblyScript: the state is one of those of
    the theorems, the object shows the values, writes one of them, and traps beyond the last. *)
Definition ex_frame : list ev := [EEnter ft_outer [VNum TI32 7; VNum TF32 2143289345]]%Z.
Definition ex_no_export {X : Type} (name : string) (args : list val) (s : store X) : res (store X) (list val * store X) := Stuck.
Definition ex_objects (p : Z -> Z -> xprog (sys unit)) : option (list val) :=
  match perform ex_as_lib ex_frame [] (as_start 0 1 (fun _ => 77%Z)) with
  | Ok (_, [(_, q, qt)], l) =>
      match run_x ex_no_export (p q qt) (St None [] [] [] [] (l, tt)) with Ok (vs, _) => Some vs | Trap _ => Some [] | _ => None end
  | _ => None
  end.
Notation ex_stack := (@lib_agent unit ex_as_lib).
Notation ex_args q qt := (object_of SArg ft_outer q qt).
Example ex_c72 :
  (exists vs q qt l, perform ex_as_lib ex_frame [] (as_start 0 1 (fun _ => 77%Z)) = Ok (vs, [(ft_outer, q, qt)], l) /\
     as_states 0 1 [ft_inner; ft_outer] [(ft_outer, q, qt)] [IF ft_outer [None] [Some (VNum TI32 7); Some (VNum TF32 2143289345)]]%Z l) /\
  ex_objects (fun q qt => o_get ex_stack TF32 (ex_args q qt) 1) = Some [VNum TF32 2143289345]%Z /\
  ex_objects (fun q qt => o_getType ex_stack (ex_args q qt) 1) = Some [VNum TI32 1]%Z /\
  ex_objects (fun q qt => xbind (o_set ex_stack TI32 (ex_args q qt) 0 5) (fun _ => read_all ex_stack (ex_args q qt) 2 0 [] XRet)) =
    Some [VNum TI32 5; VNum TF32 2143289345]%Z /\
  ex_objects (fun q qt => o_get ex_stack TI32 (ex_args q qt) 2) = Some [] /\
  ex_objects (fun q qt => o_get ex_stack TI32 (ex_args q qt) (2 ^ 32 - 1)) = Some [].
Proof.
  split; [|repeat split; vm_compute; reflexivity].
  assert (Pg : (0 <= 0 <= 1 /\ 1 <= 65536)%Z) by lia.
  assert (Bg : (65540 <= Z.of_nat as_steps)%Z) by (unfold as_steps; rewrite Z2Nat.id; lia).
  destruct (@as_hist 0 1 Pg (fun _ => 77%Z) as_steps Bg [ft_inner; ft_outer] ex_frame [] [] [] [IF ft_outer [None] [Some (VNum TI32 7); Some (VNum TF32 2143289345)]]%Z
    (as_start 0 1 (fun _ => 77%Z)) (@as_initial 0 1 Pg [ft_inner; ft_outer] 0 (fun _ => 77%Z) eq_refl)) as [(vs & frs & s & E & O & H & _)|(s & _ & C)];
    [reflexivity|intros ft [<-|[]]; cbn; auto|left; intros ft [<-|[]]; vm_compute; discriminate|vm_compute; discriminate| |vm_compute in C; discriminate C].
  pose proof H as (pt & tp & g & _ & _ & _ & _ & F). inversion F as [|[[ft q] qt] ? frs1 ? Fi F1]; subst. inversion F1; subst.
  pose proof (RustProofs.fi_type Fi) as Q. cbn [fst if_type] in Q. subst ft. exists vs, q, qt, s. split; [exact E|exact H].
Qed.
