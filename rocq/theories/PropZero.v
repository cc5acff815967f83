(** Property theorems C93: tests/analyses/wasp-as/set_arg_ret_to_zero.wasp hands zeros to every function and zeros back to every caller. *)
From Coq Require Import Permutation.
From Verif Require Import Semantics Names RsStdlib Interface Wasp PropWasp StackLib StackNames StackRun StackOps StackSpec StackHist PropStack System
  SystemProofs AccessProofs Instantiate Trace RunLemmas Checker ExModule PropInstrument PropSpec PropTyping ForwardRel ForwardBody ForwardProofs SessionProofs Recorder
  PropTransparent AsLib AsNames AsRun AsTypes AsProofs PropAs WaspAs WaspAsProofs WaspAsSessions WaspAsAccess PropWaspProgram PropWaspAs ForwardRel.
Local Open Scope string_scope.
Local Open Scope list_scope.
Local Open Scope res_scope.

(** ** The file *)
(** set_arg_ret_to_zero.wasp; the layout of the guest code and the function of its global part are left out, see [set_values_to_zero]. *)
Definition zero_wasp : list advice_def :=
  [AGlobal "function set_values_to_zero(values: DynValues): void { ... }";
   ATrap (TApply (AGen MutableDynamic "func" "args" "results") "set_values_to_zero(args); func.apply(); set_values_to_zero(results);")].
Section Code.
  Context {Y : Type}.
  Variable lc : lib_code.
  Notation X := (sys Y).
  Notation agent := (@lib_agent Y lc).
  (** L3-22: the loop of [set_values_to_zero], with [n] iterations to go from [index] on, and then [k]. *)
  Fixpoint zero_all (o : object) (n : nat) (index : Z) (k : xprog X) : xprog X :=
    match n with
    | O => k
    | S n' =>
        xbind (o_getType agent o index) (fun ts =>
          match ts with
          | [VNum TI32 c] =>
              match wasm_type_from c with
              | Some t => xbind (o_set agent t o index 0) (fun _ => zero_all o n' (index + 1)%Z k)
              | None => XTrap
              end
          | _ => XStuck
          end)
    end.
  (** L3-22 *)
  Definition set_values_to_zero (o : object) (k : xprog X) : xprog X := zero_all o (Z.to_nat (as_i32 (o_length o))) 0 k.
  (** L24-30 *)
  Definition zero_guest (t : trap_sig) (sc : scope) : xprog X :=
    match t with
    | TApply (AGen _ f x y) _ =>
        match lookup f sc, lookup x sc, lookup y sc with
        | Some func, Some args, Some results => set_values_to_zero args (xbind (o_apply func) (fun _ => set_values_to_zero results (XRet [])))
        | _, _, _ => XStuck
        end
    | _ => XStuck
    end.
End Code.

(** ** Specification *)
(** The zero of a type. *)
Definition zero_of (t : valty) : val := match t with TNum n => VNum n 0 | TRef r => VRef r None end.

(** ** Proofs *)
Fixpoint zero_slots (sd : side) (ts : list valty) (k : nat) (fr : iframe) : iframe :=
  match ts with [] => fr | t :: r => zero_slots sd r (S k) (set_slot sd k (zero_of t) fr) end.
Lemma zero_slots_side sd : forall ts k fr pre os, side_of sd fr = pre ++ os -> List.length pre = k -> List.length os = List.length ts ->
  zero_slots sd ts k fr = match sd with
    | SArg => IF (if_type fr) (if_rets fr) (pre ++ map (fun t => Some (zero_of t)) ts)
    | SRet => IF (if_type fr) (pre ++ map (fun t => Some (zero_of t)) ts) (if_args fr)
    end.
Proof.
  induction ts as [|t ts IH]; intros k fr pre os E Lp Lo.
  - destruct os; [|discriminate Lo]. cbn [zero_slots map]. rewrite <- E. destruct sd, fr; reflexivity.
  - destruct os as [|o os]; [discriminate Lo|]. cbn [zero_slots].
    assert (E' : side_of sd (set_slot sd k (zero_of t) fr) = (pre ++ [Some (zero_of t)]) ++ os).
    { rewrite <- app_assoc. cbn [app]. destruct sd; cbn [side_of set_slot if_args if_rets] in *; now apply set_nth_split with (x := o). }
    rewrite (IH (S k) _ _ _ E') by (rewrite ?app_length; cbn [List.length] in *; lia).
    cbn [map]. rewrite <- app_assoc. cbn [app]. destruct sd; reflexivity.
Qed.
Section Loop.
  Context {Y : Type}.
  Variable sigs : list functy.
  Variable lc : lib_code.
  Variable library : lib_states.
  Variable limit : Z.
  Variable stops : Prop.
  Hypothesis IM : implements sigs lc library limit stops.
  Variable export : string -> list val -> store (sys Y) -> res (store (sys Y)) (list val * store (sys Y)).
  Notation run := (run_x export).
  Variables (frs : list frame) (ifs : list iframe) (ft : functy) (q qt : Z).
  Hypothesis Nu : numeric_sig ft = true.
  Hypothesis Sm : (slots ft < 2 ^ 31)%Z.
  Lemma zero_all_ok sd : forall ts k fr s c, if_type fr = ft -> library ((ft, q, qt) :: frs) (fr :: ifs) (fst (st_x s)) ->
    (forall i t, nth_error ts i = Some t -> nth_error (side_types ft sd) (k + i) = Some t) ->
    exists l, run (zero_all lc (object_of sd ft q qt) (List.length ts) (Z.of_nat k) c) s = run c (with_lib s l) /\
      library ((ft, q, qt) :: frs) (zero_slots sd ts k fr :: ifs) l.
  Proof.
    induction ts as [|t ts IH]; intros k fr s c Ty Hl H.
    - exists (fst (st_x s)). cbn. now rewrite with_lib_same.
    - assert (Et : nth_error (side_types (if_type fr) sd) k = Some t) by (rewrite Ty, <- (H 0 t eq_refl); f_equal; lia).
      assert (Nu' : numeric_sig (if_type fr) = true) by now rewrite Ty.
      assert (Sm' : (slots (if_type fr) < 2 ^ 31)%Z) by now rewrite Ty.
      destruct (@num_side _ _ _ _ Nu' Et) as (n & ->).
      assert (Ef : nth_error ((ft, q, qt) :: frs) 0 = Some (if_type fr, q, qt)) by (rewrite Ty; reflexivity).
      destruct (@get_type_ok Y sigs lc library limit stops IM export ((ft, q, qt) :: frs) (fr :: ifs) 0 fr q qt eq_refl Ef Sm' sd k (TNum n) s Hl Et) as (l1 & E1 & H1).
      destruct (@set_ok Y sigs lc library limit stops IM export ((ft, q, qt) :: frs) (fr :: ifs) 0 fr q qt eq_refl Ef Sm' sd k n 0 (with_lib s l1) H1 Et) as (l2 & E2 & H2); [destruct n; cbn; lia|].
      cbn [set_nth] in H2. rewrite Ty in E1, E2.
      destruct (IH (S k) (set_slot sd k (VNum n 0) fr) (with_lib s l2) c) as (l3 & E3 & H3).
      { rewrite <- Ty. now destruct sd. }
      { exact H2. }
      { intros i u Eu. rewrite <- (H (S i) u Eu). f_equal. lia. }
      exists l3. split; [|exact H3]. cbn [List.length zero_all]. rewrite run_x_bind, E1. cbn [rbind]. unfold vi32.
      assert (W : wasm_type_from (type_code (TNum n)) = Some n) by (destruct n; reflexivity). rewrite W.
      rewrite run_x_bind, E2. cbn [rbind]. change (with_lib (with_lib s l1) l2) with (with_lib s l2).
      replace (Z.of_nat k + 1)%Z with (Z.of_nat (S k)) by lia. exact E3.
  Qed.
  Lemma set_values_ok sd fr s c : if_type fr = ft -> library ((ft, q, qt) :: frs) (fr :: ifs) (fst (st_x s)) ->
    exists l, run (set_values_to_zero lc (object_of sd ft q qt) c) s = run c (with_lib s l) /\
      library ((ft, q, qt) :: frs) (match sd with
        | SArg => IF ft (if_rets fr) (map (fun t => Some (zero_of t)) (ft_in ft))
        | SRet => IF ft (map (fun t => Some (zero_of t)) (ft_out ft)) (if_args fr)
        end :: ifs) l.
  Proof.
    intros Ty Hl. destruct (@zero_all_ok sd (side_types ft sd) 0 fr s c Ty Hl) as (l & E & H); [intros i t Et; exact Et|].
    destruct (@lib_frame sigs lc library limit stops IM ((ft, q, qt) :: frs) (fr :: ifs) (fst (st_x s)) 0 fr Hl eq_refl) as (_ & _ & _ & _ & _ & _ & _ & Lr & La & _). rewrite Ty in Lr, La.
    exists l. split.
    - unfold set_values_to_zero. replace (Z.to_nat (as_i32 (o_length (object_of sd ft q qt)))) with (List.length (side_types ft sd)); [exact E|].
      unfold slots in Sm. destruct sd; cbn [object_of o_length side_types]; rewrite as_i32_small by lia; now rewrite Nat2Z.id.
    - rewrite (@zero_slots_side sd (side_types ft sd) 0 fr [] (side_of sd fr) eq_refl eq_refl) in H.
      + rewrite Ty in H. destruct sd; exact H.
      + destruct sd; cbn [side_of side_types]; congruence.
  Qed.
End Loop.

(** C93: over any library of buffers and in any state of the program: the function is run on zeros of the types of its
    parameters, and whatever it returns, zeros of the types of its results are what the caller is left with. *)
Theorem C93_calls : forall (Y A : Type) sigs lc library limit stops, implements sigs lc library limit stops ->
  forall fid xid yid body g export frs ifs ft q qt args k f code l (a : A) (s : store Y) sc, numeric_sig ft = true -> (slots ft <= 8191)%Z ->
  library ((ft, q, qt) :: frs) (fresh ft args :: ifs) l -> shown_call fid xid yid k f ft code q qt sc ->
  exists l1 rest, library ((ft, q, qt) :: frs) (fresh ft (map zero_of (ft_in ft)) :: ifs) l1 /\
    run_x export (zero_guest lc (TApply (AGen g fid xid yid) body) sc) (lift l a s) =
      (let* (vs, s1) := export "call_base" [vi32 (Z.of_nat k); vi32 q] (lift l1 a s) in run_x export (rest vs) s1) /\
    forall vs rs as' l2 a2 (s2 : store Y), library ((ft, q, qt) :: frs) (IF ft rs as' :: ifs) l2 ->
      exists l3, run_x export (rest vs) (lift l2 a2 s2) = Ok ([], lift l3 a2 s2) /\
        library ((ft, q, qt) :: frs) (IF ft (map Some (map zero_of (ft_out ft))) as' :: ifs) l3.
Proof.
  intros Y A sigs lc library limit stops IM fid xid yid body g export frs ifs ft q qt args k f code l a s sc Nu Sl Hl (Lf & Lx & Ly & _).
  assert (Sm : (slots ft < 2 ^ 31)%Z) by lia.
  destruct (@set_values_ok (A * Y) sigs lc library limit stops IM export frs ifs ft q qt Nu Sm SArg (fresh ft args) (lift l a s)
    (xbind (o_apply (OWasmFunction (Z.of_nat k) (Z.of_nat f) q)) (fun _ => set_values_to_zero lc (object_of SRet ft q qt) (XRet []))) eq_refl Hl) as (l1 & E1 & H1).
  exists l1, (fun _ => set_values_to_zero lc (object_of SRet ft q qt) (XRet [])). split; [|split].
  - unfold fresh. rewrite map_map. exact H1.
  - cbn [zero_guest]. rewrite Lf, Lx, Ly. cbn [object_of] in E1. rewrite E1. change (with_lib (lift l a s) l1) with (lift l1 a s).
    rewrite run_x_bind. cbn [o_apply run_x]. destruct (export "call_base" _ _) as [[vs s1]|s1| |]; reflexivity.
  - intros vs rs as' l2 a2 s2 H2.
    destruct (@set_values_ok (A * Y) sigs lc library limit stops IM export frs ifs ft q qt Nu Sm SRet (IF ft rs as') (lift l2 a2 s2) (XRet []) eq_refl H2) as (l3 & E3 & H3).
    exists l3. split; [exact E3|]. rewrite map_map. exact H3.
Qed.
Print Assumptions C93_calls.

(** ** Examples *)
(** The call of PropWaspAs.v over the library generated as AssemblyScript meets the hypotheses. *)
Definition zero_scope (q qt : Z) : scope :=
  [("func", OWasmFunction 3 5 q); ("args", OArgs 2 1 q qt); ("results", ORess 2 1 q qt); ("code_present_serialized", ONum TI32 0)].
Notation holds := (as_states 0 1 [ft_inner; ft_outer]).
Example C93_applies : exists q qt l, holds [(ft_outer, q, qt)] [fresh ft_outer [VNum TI32 7; VNum TF32 2143289345]]%Z l /\
  forall export (s : store unit), exists l1 rest, holds [(ft_outer, q, qt)] [fresh ft_outer [VNum TI32 0; VNum TF32 0]] l1 /\
    run_x export (zero_guest ex_as_lib (TApply (AGen MutableDynamic "func" "args" "results") "") (zero_scope q qt)) (lift l tt s) =
      (let* (vs, s1) := export "call_base" [vi32 3; vi32 q] (lift l1 tt s) in run_x export (rest vs) s1) /\
    forall vs r as' l2 (s2 : store unit), holds [(ft_outer, q, qt)] [IF ft_outer [r] as'] l2 ->
      exists l3, run_x export (rest vs) (lift l2 tt s2) = Ok ([], lift l3 tt s2) /\ holds [(ft_outer, q, qt)] [IF ft_outer (map Some (map zero_of (ft_out ft_outer))) as'] l3.
Proof.
  destruct ex_c72 as ((vs & q & qt & l & _ & H) & _). exists q, qt, l.
  assert (Pg : (0 <= 0 <= 1 /\ 1 <= 65536)%Z) by lia.
  assert (Bg : (65540 <= Z.of_nat as_steps)%Z) by (unfold as_steps; rewrite Z2Nat.id; lia).
  split; [exact H|]. intros export s.
  destruct (@C93_calls unit unit [ft_inner; ft_outer] ex_as_lib _ _ _ (@as_implements 0 1 Pg as_steps Bg [ft_inner; ft_outer]) "func" "args" "results" "" MutableDynamic export [] []
    ft_outer q qt [VNum TI32 7; VNum TF32 2143289345]%Z 3 5 true l tt s (zero_scope q qt)) as (l1 & rest & A & B & C);
    [reflexivity|vm_compute; discriminate|exact H|repeat split|].
  exists l1, rest. split; [exact A|]. split; [exact B|]. intros vs' r as' l2 s2 H2. exact (C vs' [r] as' l2 tt s2 H2).
Qed.
(** After tests/input-programs/assemblyscript/simply_return.ts: values of each type pass through a function; the result is 1 + 2, under the analysis 0. *)
Definition return_module : module :=
  Mod [Fn (FT [t_i32] [t_i32]) (FPresent [] [LBasic (BLocal LGet 0); LEnd]) [];
       Fn (FT [TNum TI64; TNum TF64] [TNum TF64; TNum TI64]) (FPresent [] [LBasic (BLocal LGet 1); LBasic (BLocal LGet 0); LEnd]) ["swap"];
       Fn (FT [] [t_i32]) (FPresent [] [LBasic (BConst TI32 1); LBasic (BCall 0); LBasic (BConst TI32 2); LBasic (BCall 0); LBasic (BBinary I32Add); LEnd]) ["main"]]
      [] [] [] [] [] None.
(** The types of its instructions. *)
Definition return_infer (f : nat) (l : list low) : option (list ity) :=
  Some (map (fun i => match i with
    | LBasic (BLocal LGet k) => IReach (FT [] [match f, k with 1, 0 => TNum TI64 | 1, _ => TNum TF64 | _, _ => t_i32 end])
    | LBasic (BConst _ _) => IReach (FT [] [t_i32])
    | LBasic (BCall _) => IReach (FT [t_i32] [t_i32])
    | LBasic (BBinary _) => IReach (FT [t_i32; t_i32] [t_i32])
    | _ => IReach (FT [] []) end) l).
Definition nobody (ns name : string) (args : list val) : xprog unit := XStuck.
Definition zero_session (calls : list (string * list val)) : option (list (option (list val))) :=
  match generate zero_wasp, interface_of_root zero_wasp with
  | Some p, Some ai =>
      match instrument ex_id ex_id return_infer return_module ai None with
      | IOk m' (Some sigs) =>
          match wasp_run ex_num1 ex_num2 as_steps nobody p ex_imports m' (Some sigs) 42 (zero_guest (as_call as_steps (as_lib sigs)))
                  (as_start 0 1 (fun _ => 0%Z), (tt, tt)) calls with
          | Ok (outs, _) => Some outs
          | _ => None
          end
      | _ => None
      end
  | _, _ => None
  end.
Definition return_calls : list (string * list val) := [("main", []); ("swap", [VNum TI64 5; VNum TF64 9])]%Z.
Example C93_sessions :
  check_funcs return_module return_infer = true /\
  match run_module ex_num1 ex_num2 nobody 8 ex_imports return_module tt return_calls with
  | Ok (outs, _) => outs = [Some [vi32 3]; Some [VNum TF64 9; VNum TI64 5]]%Z
  | _ => False
  end /\
  zero_session return_calls = Some [Some [vi32 0]; Some [VNum TF64 0; VNum TI64 0]].
Proof. split; [|split]; vm_compute; reflexivity. Qed.
