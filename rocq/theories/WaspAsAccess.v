(** The objects a WASP apply advice is given, over any library of buffers (towards C70, C71, C72). *)
From Verif Require Import Semantics Names RsStdlib Interface Wasp StackLib StackNames StackRun StackOps StackSpec StackHist System
  SystemProofs AccessProofs Trace RunLemmas ForwardRel ForwardBody ForwardProofs Recorder WaspAs WaspAsProofs.
Local Open Scope string_scope.
Local Open Scope list_scope.
Local Open Scope res_scope.

Lemma as_i32_small z : (0 <= z < 2 ^ 31)%Z -> as_i32 z = z.
Proof. unfold as_i32. intros H. now destruct (Z.ltb_spec z (2 ^ 31)); [|lia]. Qed.
Lemma plus32_small a b : (0 <= a)%Z -> (0 <= b)%Z -> (a + b < 2 ^ 32)%Z -> plus32 a b = (a + b)%Z.
Proof. intros. unfold plus32. apply Z.mod_small. lia. Qed.

Section Access.
  Context {Y : Type}.
  Variable sigs : list functy.
  Variable lc : lib_code.
  Variable library : lib_states.
  Variable limit : Z.
  Variable stops : Prop.
  Hypothesis IM : implements sigs lc library limit stops.
  Notation store := (store (sys Y)).
  Notation agent := (@lib_agent Y lc).
  Variable export : string -> list val -> store -> res store (list val * store).
  Notation run := (run_x export).

  (** The object for a side of a call whose buffers are [q] and [qt]. *)
  Definition object_of (sd : side) (ft : functy) (q qt : Z) : object :=
    let argc := Z.of_nat (List.length (ft_in ft)) in
    let resc := Z.of_nat (List.length (ft_out ft)) in
    match sd with SArg => OArgs argc resc q qt | SRet => ORess argc resc q qt end.

  Section Frame.
    Variables (frs : list frame) (ifs : list iframe) (d : nat) (ifr : iframe) (q qt : Z).
    Notation ft := (if_type ifr).
    Hypothesis Ed : nth_error ifs d = Some ifr.
    Hypothesis Ef : nth_error frs d = Some (ft, q, qt).
    Hypothesis Sm : (slots ft < 2 ^ 31)%Z.
    Notation o_ sd := (object_of sd ft q qt).

    Lemma inside_bounds sd i (k : xprog (sys Y)) : i < List.length (side_types ft sd) ->
      checkBounds (Z.of_nat (List.length (side_types ft sd))) (Z.of_nat i) k = k.
    Proof using Sm.
      intros Li. unfold checkBounds, slots in *. rewrite !as_i32_small by (destruct sd; cbn [side_types] in *; lia).
      destruct (Z.leb_spec 0 (Z.of_nat i)); [|lia]. destruct (Z.leb_spec (Z.of_nat (List.length (side_types ft sd))) (Z.of_nat i)); [lia|reflexivity].
    Qed.
    Lemma offset_of sd i : i < List.length (side_types ft sd) ->
      plus32 (match sd with SArg => Z.of_nat (List.length (ft_out ft)) | SRet => 0 end) (Z.of_nat i) = number ft sd i.
    Proof using Sm. intros Li. unfold slots in *. destruct sd; cbn [side_types number] in *; rewrite plus32_small by lia; lia. Qed.
    Lemma get_as sd t i : i < List.length (side_types ft sd) ->
      o_get agent t (o_ sd) (Z.of_nat i) = agent (stack_load_name t) [vi32 q; vi32 (number ft sd i)].
    Proof using Sm.
      intros Li. rewrite <- (offset_of _ Li). destruct sd; cbn [object_of o_get]; unfold getArg, getRes, memory_load; now rewrite (@inside_bounds _ i _ Li) by assumption.
    Qed.
    Lemma set_as sd t i z : i < List.length (side_types ft sd) ->
      o_set agent t (o_ sd) (Z.of_nat i) z = agent (stack_store_name t) [vi32 q; VNum t z; vi32 (number ft sd i)].
    Proof using Sm.
      intros Li. rewrite <- (offset_of _ Li). destruct sd; cbn [object_of o_set]; unfold setArg, setRes, memory_store; now rewrite (@inside_bounds _ i _ Li) by assumption.
    Qed.
    Lemma type_as sd i : i < List.length (side_types ft sd) ->
      o_getType agent (o_ sd) (Z.of_nat i) = agent "wastrumentation_stack_load_type" [vi32 qt; vi32 (number ft sd i)].
    Proof using Sm.
      intros Li. rewrite <- (offset_of _ Li). destruct sd; cbn [object_of o_getType]; unfold getArgType, getResType; now rewrite (@inside_bounds _ i _ Li) by assumption.
    Qed.
    Lemma number_nat sd i : number ft sd i = Z.of_nat (match sd with SArg => List.length (ft_out ft) + i | SRet => i end).
    Proof. destruct sd; cbn [number]; lia. Qed.
    Lemma get_type_ok sd i t s : library frs ifs (fst (st_x s)) -> nth_error (side_types ft sd) i = Some t ->
      exists l, run (o_getType agent (o_ sd) (Z.of_nat i)) s = Ok ([vi32 (type_code t)], with_lib s l) /\ library frs ifs l.
    Proof.
      intros Hl Et. assert (Li : i < List.length (side_types ft sd)) by (apply nth_error_Some; congruence).
      rewrite (type_as _ Li), number_nat.
      apply (@type_ok Y sigs lc library limit stops IM export frs ifs d ifr q qt Ed Ef); [exact Hl|].
      destruct sd; cbn [side_types] in *; [now rewrite nth_error_app1|].
      rewrite nth_error_app2 by lia. rewrite <- Et. f_equal. lia.
    Qed.
    Lemma get_ok sd i t o s : library frs ifs (fst (st_x s)) -> nth_error (side_types ft sd) i = Some (TNum t) ->
      nth_error (side_of sd ifr) i = Some o ->
      exists v l, run (o_get agent t (o_ sd) (Z.of_nat i)) s = Ok ([v], with_lib s l) /\ library frs ifs l /\ sees o v.
    Proof.
      intros Hl Et Eo. assert (Li : i < List.length (side_types ft sd)) by (apply nth_error_Some; congruence).
      rewrite (get_as _ _ Li). apply (@read_raw Y sigs lc library limit stops IM export frs ifs d ifr q qt Ed Ef); [exact Hl|exact Eo|].
      unfold side_type. now rewrite Et.
    Qed.
    Lemma set_ok sd i t z s : library frs ifs (fst (st_x s)) -> nth_error (side_types ft sd) i = Some (TNum t) -> (0 <= z < 2 ^ bits t)%Z ->
      exists l, run (o_set agent t (o_ sd) (Z.of_nat i) z) s = Ok ([], with_lib s l) /\
        library frs (set_nth d (set_slot sd i (VNum t z) ifr) ifs) l.
    Proof.
      intros Hl Et Rz. assert (Li : i < List.length (side_types ft sd)) by (apply nth_error_Some; congruence).
      destruct (@lib_frame sigs lc library limit stops IM frs ifs _ d ifr Hl Ed) as (_ & _ & _ & _ & _ & _ & Nu & _).
      assert (Ov : ok_for (side_types ft sd) i (VNum t z) = true).
      { unfold ok_for. rewrite Et. unfold vals_ok. cbn [map list_eqb typeof forallb in_range].
        assert (valty_eqb (TNum t) (TNum t) = true) as -> by (apply valty_eqb_eq; reflexivity). cbn [andb].
        destruct (Z.leb_spec 0 z); [|lia]. destruct (Z.ltb_spec z (2 ^ bits t)); [reflexivity|lia]. }
      destruct (@set_in Y lc ifr q sd i (VNum t z) Ov Nu) as (t' & St & E1).
      rewrite (set_as _ _ _ Li). unfold side_type in St. rewrite Et in St. injection St as <-. rewrite <- E1.
      exact (@write_ok Y sigs lc library limit stops IM export frs ifs d ifr q qt Ed Ef sd i (VNum t z) s Hl Ov).
    Qed.
    (** All values, each at the type of its slot. *)
    Lemma read_all_ok sd os : forall k acc s, library frs ifs (fst (st_x s)) ->
      (forall i o, nth_error os i = Some o -> nth_error (side_of sd ifr) (k + i) = Some o) ->
      exists vs l, Forall2 sees os vs /\ library frs ifs l /\ forall c,
        run (read_all agent (o_ sd) (List.length os) (Z.of_nat k) acc c) s = run (c (acc ++ vs)) (with_lib s l).
    Proof.
      induction os as [|o os IH]; intros k acc s Hl H.
      - exists [], (fst (st_x s)). split; [constructor|]. split; [exact Hl|]. intros c. cbn. now rewrite app_nil_r, with_lib_same.
      - destruct (@lib_frame sigs lc library limit stops IM frs ifs _ d ifr Hl Ed) as (_ & _ & _ & _ & _ & _ & Nu & Lr & La & _).
        assert (Eo : nth_error (side_of sd ifr) k = Some o) by (rewrite <- (H 0 o eq_refl); f_equal; lia).
        assert (Lk : k < List.length (side_types ft sd)).
        { assert (k < List.length (side_of sd ifr)) by (apply nth_error_Some; congruence).
          destruct sd; cbn [side_of side_types] in *; lia. }
        destruct (nth_error (side_types ft sd) k) as [t|] eqn:Et; [|apply nth_error_None in Et; lia].
        destruct (@num_side _ _ _ _ Nu Et) as (n & ->).
        destruct (@get_type_ok sd k (TNum n) s Hl Et) as (l1 & E1 & H1).
        destruct (@get_ok sd k n o (with_lib s l1) H1 Et Eo) as (v & l2 & E2 & H2 & Sv).
        destruct (IH (S k) (acc ++ [v]) (with_lib s l2)) as (vs & l' & Ss & I'' & E').
        { exact H2. }
        { intros i u Eu. rewrite <- (H (S i) u Eu). f_equal. lia. }
        exists (v :: vs), l'. split; [now constructor|]. split; [exact I''|]. intros c.
        cbn [List.length read_all]. rewrite run_x_bind, E1. cbn [rbind]. unfold vi32.
        assert (W : wasm_type_from (type_code (TNum n)) = Some n) by (destruct n; reflexivity). rewrite W.
        rewrite run_x_bind, E2. cbn [rbind]. change (with_lib (with_lib s l1) l2) with (with_lib s l2).
        replace (Z.of_nat k + 1)%Z with (Z.of_nat (S k)) by lia. rewrite E', <- app_assoc. reflexivity.
    Qed.
  End Frame.
End Access.

(** ** Guest code that forwards *)
Section Forward.
  Context {Y : Type}.
  Notation X := (sys (unit * Y)).
  Variable library : lib_states.
  Lemma forward_guest_notes t : guest_notes (Y := Y) ignore forward_guest t.
  Proof.
    intros adv sc Sh export l a s. unfold shown in Sh.
    destruct t as [[] ?|[] ? ?| | | | | | | | | | |]; try contradiction; destruct adv; try contradiction; cbn [forward_guest];
    repeat match goal with H : _ /\ _ |- _ => destruct H end;
    repeat match goal with H : lookup ?x sc = _ |- context [lookup ?x sc] => rewrite H end;
    try (exists []; split; [reflexivity|exact Logic.I]).
    all: try (unfold two_way, truth; destruct (Z.eqb_spec c 0); cbn [negb Z.eqb run_x ignore];
      (eexists; split; [reflexivity|]); right; right; (split; [reflexivity|]);
      (eexists; split; [reflexivity|]); unfold THEN_KONTN, SKIP_KONTN, ELSE_KONTN; (split; [|lia]); symmetry; cbn; now apply Z.eqb_eq || now apply Z.eqb_neq).
    all: try (eexists; split; [reflexivity|]; cbn [continues falls_back]; auto).
  Qed.
  Lemma forward_guest_calls t : guest_calls (Y := Y) ignore library forward_guest t.
  Proof.
    intros g f x y body -> export frs ifs ft q qt args k fi code l a s sc Nu Sl Hl (Lf & _).
    exists l, (fun _ => XRet []). split; [exact Hl|]. split.
    - cbn [forward_guest]. rewrite Lf. reflexivity.
    - intros vs rs l2 a2 s2 H2. exists [], l2. split; [reflexivity|exact H2].
  Qed.
End Forward.

(** ** Guest code that notes everything it sees *)
(** What the guest code sees of an event: conditions as booleans. *)
Definition visible (e : event) : event :=
  match e with
  | EvAdvice adv => EvAdvice (match condition adv with Some c => with_condition (truth (negb (c =? 0)%Z)) adv | None => adv end)
  | _ => e
  end.
Section Record.
  Context {Y A : Type}.
  Notation X := (sys (A * Y)).
  Variable obs : A -> event -> A.
  Variable lc : lib_code.
  Notation agent := (@lib_agent (A * Y) lc).
  Definition num_in (x : string) (sc : scope) (k : Z -> xprog X) : xprog X :=
    match lookup x sc with Some (ONum _ z) => k z | _ => XStuck end.
  Definition location_in (sc : scope) (k : location -> xprog X) : xprog X :=
    num_in "func_index" sc (fun f => num_in "istr_index" sc (fun i => k (Loc f i))).
  (** For every advice: read what is in scope, note it, return nothing. In an apply advice: read the
      arguments, note them, [apply], read the results, note them. *)
  Definition record_guest (t : trap_sig) (sc : scope) : xprog X :=
    let tell adv := note obs (EvAdvice adv) (XRet []) in
    match t with
    | TCall Pre x _ => match lookup x sc with Some (OFunctionIndex f) => location_in sc (fun l => tell (AdCallPre f l)) | _ => XStuck end
    | TCall Post x _ => match lookup x sc with Some (OFunctionIndex f) => location_in sc (fun l => tell (AdCallPost f l)) | _ => XStuck end
    | TCallIndirectPre x y _ =>
        match lookup x sc, lookup y sc with
        | Some (OFunctionTable u), Some (OFunctionTableIndex i) => location_in sc (fun l => tell (AdCallIndPre i u l))
        | _, _ => XStuck
        end
    | TCallIndirectPost x _ => match lookup x sc with Some (OFunctionTable u) => location_in sc (fun l => tell (AdCallIndPost u l)) | _ => XStuck end
    | TIfThen x _ =>
        match lookup x sc with
        | Some (OIfThenCondition c _) => num_in "if_then_input_c" sc (fun i => num_in "if_then_arity" sc (fun r => location_in sc (fun l => tell (AdIfThen c i r l))))
        | _ => XStuck
        end
    | TIfThenElse x _ =>
        match lookup x sc with
        | Some (OIfThenElseCondition c _) =>
            num_in "if_then_else_input_c" sc (fun i => num_in "if_then_else_arity" sc (fun r => location_in sc (fun l => tell (AdIfThenElse c i r l))))
        | _ => XStuck
        end
    | TBrIf x y _ =>
        match lookup x sc, lookup y sc with
        | Some (OBrIfCondition c _), Some (OBrIfLabel b) => location_in sc (fun l => tell (AdBrIf c b l))
        | _, _ => XStuck
        end
    | TBrTable x y _ =>
        match lookup x sc, lookup y sc with
        | Some (OBrTableTarget i), Some (OBrTableDefault d) => num_in "effective_label" sc (fun e => location_in sc (fun l => tell (AdBrTable i e d l)))
        | _, _ => XStuck
        end
    | TSelect x _ => match lookup x sc with Some (OSelectCondition c _) => location_in sc (fun l => tell (AdSelect c l)) | _ => XStuck end
    | TBlockPre _ => num_in "input_count" sc (fun i => num_in "arity" sc (fun r => location_in sc (fun l => tell (AdBlockPre i r l))))
    | TBlockPost _ => location_in sc (fun l => tell (AdBlockPost l))
    | TLoopPre _ => num_in "input_count" sc (fun i => num_in "arity" sc (fun r => location_in sc (fun l => tell (AdLoopPre i r l))))
    | TLoopPost _ => location_in sc (fun l => tell (AdLoopPost l))
    | TApply (AGen _ f x y) _ =>
        match lookup f sc, lookup x sc, lookup y sc with
        | Some (OWasmFunction k i s), Some xs, Some ys =>
            num_in "code_present_serialized" sc (fun c =>
              read_all agent xs (Z.to_nat (o_length xs)) 0 [] (fun vs =>
                note obs (EvEnter (Z.to_nat i) (c =? 0)%Z vs)
                  (xbind (o_apply (OWasmFunction k i s)) (fun _ =>
                     read_all agent ys (Z.to_nat (o_length ys)) 0 [] (fun rs => note obs (EvLeave (Z.to_nat i) rs) (XRet []))))))
        | _, _, _ => XStuck
        end
    | TApply (ASpe _ _ _ _) _ => XStuck
    end.
  Notation obs' := (fun a e => obs a (visible e)).
  Lemma record_guest_notes t : guest_notes (Y := Y) obs' record_guest t.
  Proof.
    intros adv sc Sh export l a s. unfold shown, located in Sh.
    destruct t as [[] ?|[] ? ?| | | | | | | | | | |]; try contradiction; destruct adv as [? []|? []|? ? []|? []|? []|? ? ? []|? ? ? []|[]|[]|? ? []|? ? ? []|? []|? ? []|? ? ? []|[]|[]|? []|? ? ? []|? ? ? []|? ? ? []|? ? ? ? []|? ? []|? ? []|? ? []|[]|? ? []|[]]; try contradiction; cbn [record_guest];
    repeat match goal with H : _ /\ _ |- _ => destruct H end; cbn [RsStdlib.instruction_index RsStdlib.function_index] in *; unfold location_in, num_in;
    repeat (match goal with H : lookup ?x sc = _ |- context [lookup ?x sc] => rewrite H end);
    (exists []; split; [rewrite run_note; cbn [run_x visible condition with_condition]; reflexivity|]); cbn [continues falls_back]; auto; exact Logic.I.
  Qed.

  Variable sigs : list functy.
  Variable library : lib_states.
  Variable limit : Z.
  Variable stops : Prop.
  Hypothesis IM : implements sigs lc library limit stops.
  Lemma record_guest_calls t : guest_calls (Y := Y) obs' library record_guest t.
  Proof.
    intros g fid xid yid body -> export frs ifs ft q qt args k f code l a s sc Nu Sl Hl (Lf & Lx & Ly & Lc).
    set (fr := (ft, q, qt)) in *. set (ifr := fresh ft args) in *.
    assert (Sm : (slots ft < 2 ^ 31)%Z) by lia.
    destruct (@lib_frame sigs lc library limit stops IM (fr :: frs) (ifr :: ifs) l 0 ifr Hl eq_refl)
      as (_ & _ & _ & _ & _ & _ & _ & Lr & La & _). cbn [ifr fresh if_type if_args if_rets] in Lr, La. rewrite map_length in La.
    destruct (@read_all_ok (A * Y) sigs lc library limit stops IM export (fr :: frs) (ifr :: ifs) 0 ifr q qt eq_refl eq_refl Sm SArg (map Some args) 0 [] (lift l a s) Hl)
      as (ws & l1 & Ss & H1 & R1); [intros i o Hi; exact Hi|].
    apply sees_all in Ss. subst ws.
    exists l1, (fun _ => read_all agent (object_of SRet ft q qt) (List.length (ft_out ft)) 0 [] (fun rs => note obs (EvLeave f rs) (XRet []))).
    split; [exact H1|]. split.
    - cbn [record_guest]. unfold num_in. rewrite Lf, Lx, Ly, Lc. cbn [o_length]. rewrite !Nat2Z.id.
      change (if_type ifr) with ft in R1. rewrite map_length, La in R1. cbn [object_of Z.of_nat] in R1. rewrite R1. change (with_lib (lift l a s) l1) with (lift l1 a s). rewrite run_note, run_x_bind. unfold o_apply. cbn [run_x app].
      replace ((if code then 0 else 1) =? 0)%Z with code by (destruct code; reflexivity).
      destruct (export "call_base" _ _) as [[vs s1]|s1| |]; reflexivity.
    - intros vs rs l2 a2 s2 H2. set (ifr2 := IF ft (map Some rs) (map Some args)) in *.
      destruct (@lib_frame sigs lc library limit stops IM (fr :: frs) (ifr2 :: ifs) l2 0 ifr2 H2 eq_refl)
        as (_ & _ & _ & _ & _ & _ & Nu2 & Lr2 & La2 & _). cbn [ifr2 if_type if_args if_rets] in Lr2. rewrite map_length in Lr2.
      destruct (@read_all_ok (A * Y) sigs lc library limit stops IM export (fr :: frs) (ifr2 :: ifs) 0 ifr2 q qt eq_refl eq_refl Sm SRet (map Some rs) 0 [] (lift l2 a2 s2) H2)
        as (ws & l3 & Ss & H3 & R3); [intros i o Hi; exact Hi|].
      apply sees_all in Ss. subst ws. exists [], l3. split; [|exact H3].
      change (if_type ifr2) with ft in R3. rewrite map_length, Lr2 in R3. change (Z.of_nat 0) with 0%Z in R3. rewrite R3. change (with_lib (lift l2 a2 s2) l3) with (lift l3 a2 s2). rewrite run_note. reflexivity.
  Qed.
End Record.
