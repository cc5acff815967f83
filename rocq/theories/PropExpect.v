(** Property theorems C95: tests/analyses/wasp-as/signatures_check.wasp lets the program go on after a call exactly if the call
    is the next one expected. *)
From Coq Require Import Permutation.
From Verif Require Import Semantics Names RsStdlib Interface Wasp PropWasp StackLib StackNames StackRun StackOps StackSpec StackHist PropStack System
  SystemProofs AccessProofs Instantiate Trace RunLemmas Checker ExModule PropInstrument PropSpec PropTyping ForwardRel ForwardBody ForwardProofs SessionProofs Recorder
  PropTransparent AsLib AsNames AsRun AsTypes AsProofs PropAs WaspAs WaspAsProofs WaspAsSessions WaspAsAccess PropWaspProgram PropWaspAs SigCheck ForwardRel.
Local Open Scope string_scope.
Local Open Scope list_scope.
Local Open Scope res_scope.

(** ** The file *)
(** signatures_check.wasp; the layout of the guest code and its global part are left out, see below. *)
Definition expect_wasp : list advice_def :=
  [AGlobal "export let all_expectations_met: i32 = 0; ...";
   ATrap (TApply (AGen MutableDynamic "func" "args" "results")
     "func.apply(); const current_expectation: CallExpectation = take_another_expectation(); current_expectation.validate_post_call(args, results);")].
(** [WasmValue], L5-33: a type, and a value of type [i32], as a signed number. *)
Definition wasm_value : Type := numty * Z.
(** [CallExpectation], L35-41. *)
Record call_expectation := CE { ce_params : list wasm_value; ce_results : list wasm_value }.
(** The globals: the array [expectations] (what is left of it) and [all_expectations_met], L3, L86-185. *)
Record expecting := EX { ex_left : list call_expectation; ex_met : bool }.
Section Code.
  Context {Y : Type}.
  (** Whether the number converted to [f32] or [f64] is equal ([===]) to the value with these bits. *)
  Variable float_equals : numty -> Z -> Z -> bool.
  Variable lc : lib_code.
  Notation X := (sys (expecting * Y)).
  Notation agent := (@lib_agent (expecting * Y) lc).
  (** L14-32, L48-62: [expected_value.as_...() === actual_values.get<...>(index)] on the bits. *)
  Definition equals (t : numty) (w z : Z) : bool :=
    match t with TI32 => (w mod 2 ^ 32 =? z)%Z | TI64 => (w mod 2 ^ 64 =? z)%Z | _ => float_equals t w z end.
  (** The loop L45-64, at [index] with the values [es] to go, and then [k]; [assert] traps. *)
  Fixpoint validate_from (es : list wasm_value) (o : object) (index : Z) (k : xprog X) : xprog X :=
    match es with
    | [] => k
    | (t, w) :: r =>
        xbind (o_getType agent o index) (fun ts =>
          match ts with
          | [VNum TI32 c] =>
              match wasm_type_from c with
              | Some u =>
                  if numty_eqb t u
                  then xbind (o_get agent t o index) (fun vs =>
                         match vs with
                         | [VNum _ z] => if equals t w z then validate_from r o (index + 1)%Z k else XTrap
                         | _ => XStuck
                         end)
                  else XTrap
              | None => XTrap
              end
          | _ => XStuck
          end)
    end.
  (** [validate_post_call_values], L43-65. *)
  Definition validate_values (es : list wasm_value) (o : object) (k : xprog X) : xprog X :=
    if (o_length o =? Z.of_nat (List.length es))%Z then validate_from es o 0 k else XTrap.
  (** [take_another_expectation], L73-81; [expectations[0]] of an empty array traps. *)
  Definition take_another (k : call_expectation -> xprog X) : xprog X :=
    XGet (fun x m g =>
      match ex_left (fst (snd x)) with
      | [] => XTrap
      | e :: r => XPut (fst x, (EX r (ex_met (fst (snd x)) || match r with [] => true | _ => false end), snd (snd x))) m g (k e)
      end).
  (** The advice, L188-194, and [validate_post_call], L67-70. *)
  Definition expect_guest (t : trap_sig) (sc : scope) : xprog X :=
    match t with
    | TApply (AGen _ f x y) _ =>
        match lookup f sc, lookup x sc, lookup y sc with
        | Some func, Some args, Some results =>
            xbind (o_apply func) (fun _ => take_another (fun e => validate_values (ce_params e) args (validate_values (ce_results e) results (XRet []))))
        | _, _, _ => XStuck
        end
    | _ => XStuck
    end.

  (** ** Specification *)
  (** The value is as expected: its type, and the number in two's complement, or equal when converted to a float. *)
  Definition as_expected (e : wasm_value) (v : val) : Prop :=
    exists z, v = VNum (fst e) z /\
      ((fst e = TI32 \/ fst e = TI64) /\ z = (snd e mod 2 ^ bits (fst e))%Z \/ (fst e = TF32 \/ fst e = TF64) /\ float_equals (fst e) (snd e) z = true).
  (** The call is as expected: all its arguments and results, and no others. *)
  Definition call_expected (e : call_expectation) (args rs : list val) : Prop :=
    Forall2 as_expected (ce_params e) args /\ Forall2 as_expected (ce_results e) rs.

  (** ** Proofs *)
  Lemma equals_expected t w z : equals t w z = true <-> as_expected (t, w) (VNum t z).
  Proof using.
    unfold as_expected. cbn [fst snd]. split.
    - intros Q. exists z. split; [reflexivity|]. destruct t; cbn [equals bits] in *; auto; apply Z.eqb_eq in Q; auto.
    - intros (z' & Ez & D). injection Ez as <-.
      destruct t; cbn [equals bits] in *; destruct D as [([C|C] & ->)|([C|C] & Q)]; try discriminate C; try exact Q; apply Z.eqb_refl.
  Qed.
  Variable sigs : list functy.
  Variable library : lib_states.
  Variable limit : Z.
  Variable stops : Prop.
  Hypothesis IM : implements sigs lc library limit stops.
  Variable export : string -> list val -> store X -> res (store X) (list val * store X).
  Notation run := (run_x export).
  Variables (frs : list frame) (ifs : list iframe) (ft : functy) (q qt : Z).
  Hypothesis Nu : numeric_sig ft = true.
  Hypothesis Sm : (slots ft < 2 ^ 31)%Z.
  Lemma validate_from_ok sd fr : if_type fr = ft -> forall es vs k s c, library ((ft, q, qt) :: frs) (fr :: ifs) (fst (st_x s)) ->
    (forall i v, nth_error vs i = Some v -> nth_error (side_of sd fr) (k + i) = Some (Some v)) -> List.length es = List.length vs ->
    exists l, library ((ft, q, qt) :: frs) (fr :: ifs) l /\
      ((Forall2 as_expected es vs /\ run (validate_from es (object_of sd ft q qt) (Z.of_nat k) c) s = run c (with_lib s l)) \/
       (~ Forall2 as_expected es vs /\ run (validate_from es (object_of sd ft q qt) (Z.of_nat k) c) s = Trap (with_lib s l))).
  Proof.
    intros Ty. induction es as [|[t w] es IH]; intros [|v vs] k s c Hl H L; try discriminate L.
    - exists (fst (st_x s)). split; [exact Hl|]. left. split; [constructor|]. cbn. now rewrite with_lib_same.
    - assert (Ev : nth_error (side_of sd fr) k = Some (Some v)) by (rewrite <- (H 0 v eq_refl); f_equal; lia).
      destruct (@lib_frame sigs lc library limit stops IM ((ft, q, qt) :: frs) (fr :: ifs) (fst (st_x s)) 0 fr Hl eq_refl)
        as (_ & _ & _ & _ & _ & _ & _ & _ & _ & Tv).
      destruct (Tv sd k v Ev) as (tv & Et & Tvv & _). rewrite Ty in Et.
      assert (Et' : nth_error (side_types (if_type fr) sd) k = Some tv) by now rewrite Ty.
      assert (Nu' : numeric_sig (if_type fr) = true) by now rewrite Ty.
      assert (Sm' : (slots (if_type fr) < 2 ^ 31)%Z) by now rewrite Ty.
      destruct (@num_side _ _ _ _ Nu' Et') as (n & ->).
      destruct v as [n' z|]; [|discriminate Tvv]. cbn [typeof] in Tvv. injection Tvv as ->.
      assert (Ef : nth_error ((ft, q, qt) :: frs) 0 = Some (if_type fr, q, qt)) by (rewrite Ty; reflexivity).
      destruct (@get_type_ok (expecting * Y) sigs lc library limit stops IM export ((ft, q, qt) :: frs) (fr :: ifs) 0 fr q qt eq_refl Ef Sm' sd k (TNum n) s Hl Et') as (l1 & E1 & H1).
      rewrite Ty in E1. cbn [validate_from]. rewrite run_x_bind, E1. cbn [rbind]. unfold vi32.
      assert (W : wasm_type_from (type_code (TNum n)) = Some n) by (destruct n; reflexivity). rewrite W.
      destruct (numty_eqb t n) eqn:Tn.
      + apply numty_eqb_true in Tn. subst t.
        destruct (@get_ok (expecting * Y) sigs lc library limit stops IM export ((ft, q, qt) :: frs) (fr :: ifs) 0 fr q qt eq_refl Ef Sm' sd k n (Some (VNum n z)) (with_lib s l1) H1 Et' Ev)
          as (v & l2 & E2 & H2 & Sv). cbn in Sv. subst v. rewrite Ty in E2. rewrite run_x_bind, E2. cbn [rbind].
        change (with_lib (with_lib s l1) l2) with (with_lib s l2).
        destruct (equals n w z) eqn:Q.
        * destruct (IH vs (S k) (with_lib s l2) c) as (l3 & H3 & D); [exact H2| |now injection L|].
          { intros i u Eu. rewrite <- (H (S i) u Eu). f_equal. lia. }
          exists l3. split; [exact H3|]. replace (Z.of_nat k + 1)%Z with (Z.of_nat (S k)) by lia.
          change (with_lib (with_lib s l2) l3) with (with_lib s l3) in D.
          destruct D as [(F & R)|(F & R)]; [left|right].
          -- split; [constructor; [now apply equals_expected|exact F]|exact R].
          -- split; [intros F'; inversion F'; contradiction|exact R].
        * exists l2. split; [exact H2|]. right. split; [|reflexivity]. intros F. inversion F as [|? ? ? ? Fv _]; subst. apply equals_expected in Fv. congruence.
      + exists l1. split; [exact H1|]. right. split; [|reflexivity]. intros F. inversion F as [|? ? ? ? (z' & Ez & _) _]; subst.
        cbn [fst] in Ez. injection Ez as -> _. now rewrite numty_eqb_refl in Tn.
  Qed.
  Lemma validate_ok sd fr vs es s c : if_type fr = ft -> side_of sd fr = map Some vs -> library ((ft, q, qt) :: frs) (fr :: ifs) (fst (st_x s)) ->
    exists l, library ((ft, q, qt) :: frs) (fr :: ifs) l /\
      ((Forall2 as_expected es vs /\ run (validate_values es (object_of sd ft q qt) c) s = run c (with_lib s l)) \/
       (~ Forall2 as_expected es vs /\ run (validate_values es (object_of sd ft q qt) c) s = Trap (with_lib s l))).
  Proof.
    intros Ty Es Hl.
    destruct (@lib_frame sigs lc library limit stops IM ((ft, q, qt) :: frs) (fr :: ifs) (fst (st_x s)) 0 fr Hl eq_refl)
      as (_ & _ & _ & _ & _ & _ & _ & Lr & La & _). rewrite Ty in Lr, La.
    assert (Ln : o_length (object_of sd ft q qt) = Z.of_nat (List.length vs)).
    { rewrite <- (map_length (@Some val) vs), <- Es. destruct sd; cbn [object_of o_length side_of]; congruence. }
    unfold validate_values. rewrite Ln. destruct (Z.eqb_spec (Z.of_nat (List.length vs)) (Z.of_nat (List.length es))) as [Q|Q].
    - apply (@validate_from_ok sd fr Ty es vs 0 s c Hl); [|lia]. intros i v Ev. rewrite Es. cbn [plus]. rewrite nth_error_map, Ev. reflexivity.
    - exists (fst (st_x s)). split; [exact Hl|]. right. split; [|cbn; now rewrite with_lib_same].
      intros F. apply Q. clear - F. induction F; cbn [List.length]; lia.
  Qed.
End Code.

(** C95: over any library of buffers and in any state of the program. The function is run first. When it has returned and left
    [rs] and [args'] in the buffer, calls within it having left the expectations [left]: the next expectation is taken, and the
    program goes on exactly if the call is as expected; without any expectation left it traps. *)
Theorem C95_verdict : forall (Y : Type) float_equals sigs lc library limit stops, implements sigs lc library limit stops ->
  forall fid xid yid body g export frs ifs ft q qt args k f code l (a : expecting) (s : store Y) sc, numeric_sig ft = true -> (slots ft <= 8191)%Z ->
  library ((ft, q, qt) :: frs) (fresh ft args :: ifs) l -> shown_call fid xid yid k f ft code q qt sc ->
  exists rest,
    run_x export (expect_guest float_equals lc (TApply (AGen g fid xid yid) body) sc) (lift l a s) =
      (let* (vs, s1) := export "call_base" [vi32 (Z.of_nat k); vi32 q] (lift l a s) in run_x export (rest vs) s1) /\
    forall vs rs args' l2 left met (s2 : store Y), library ((ft, q, qt) :: frs) (IF ft (map Some rs) (map Some args') :: ifs) l2 ->
      let after := run_x export (rest vs) (lift l2 (EX left met) s2) in
      match left with
      | [] => after = Trap (lift l2 (EX [] met) s2)
      | e :: left' =>
          exists l3 met', library ((ft, q, qt) :: frs) (IF ft (map Some rs) (map Some args') :: ifs) l3 /\
            (met' = true <-> met = true \/ left' = []) /\
            (call_expected float_equals e args' rs -> after = Ok ([], lift l3 (EX left' met') s2)) /\
            (~ call_expected float_equals e args' rs -> after = Trap (lift l3 (EX left' met') s2))
      end.
Proof.
  intros Y fe sigs lc library limit stops IM fid xid yid body g export frs ifs ft q qt args k f code l a s sc Nu Sl Hl (Lf & Lx & Ly & _).
  assert (Sm : (slots ft < 2 ^ 31)%Z) by lia.
  exists (fun _ => take_another (fun e => validate_values fe lc (ce_params e) (object_of SArg ft q qt) (validate_values fe lc (ce_results e) (object_of SRet ft q qt) (XRet [])))).
  split.
  - cbn [expect_guest]. rewrite Lf, Lx, Ly. rewrite run_x_bind. cbn [o_apply run_x]. destruct (export "call_base" _ _) as [[vs s1]|s1| |]; reflexivity.
  - intros vs rs args' l2 left met s2 H2 after. destruct left as [|e left'].
    + reflexivity.
    + set (met' := met || match left' with [] => true | _ => false end). set (fr := IF ft (map Some rs) (map Some args')) in *.
      destruct (@validate_ok Y fe lc sigs library limit stops IM export frs ifs ft q qt Nu Sm SArg fr args' (ce_params e) (lift l2 (EX left' met') s2)
        (validate_values fe lc (ce_results e) (object_of SRet ft q qt) (XRet [])) eq_refl eq_refl H2) as (l3 & H3 & D).
      destruct (@validate_ok Y fe lc sigs library limit stops IM export frs ifs ft q qt Nu Sm SRet fr rs (ce_results e) (lift l3 (EX left' met') s2)
        (XRet []) eq_refl eq_refl H3) as (l4 & H4 & D').
      change (with_lib (lift l2 (EX left' met') s2) l3) with (lift l3 (EX left' met') s2) in D.
      change (with_lib (lift l3 (EX left' met') s2) l4) with (lift l4 (EX left' met') s2) in D'.
      assert (M : met' = true <-> met = true \/ left' = []).
      { unfold met'. rewrite orb_true_iff. destruct left'; intuition discriminate. }
      assert (A : after = run_x export (validate_values fe lc (ce_params e) (object_of SArg ft q qt) (validate_values fe lc (ce_results e) (object_of SRet ft q qt) (XRet [])))
                            (lift l2 (EX left' met') s2)) by reflexivity.
      clearbody after. clearbody met'. rewrite A. clear A after.
      destruct D as [(F & R)|(F & R)].
      * exists l4, met'. split; [exact H4|]. split; [exact M|]. rewrite R. destruct D' as [(F' & R')|(F' & R')]; rewrite R'; split; intros Q; try reflexivity.
        -- destruct Q. split; assumption.
        -- now destruct Q.
      * exists l3, met'. split; [exact H3|]. split; [exact M|]. rewrite R. split; intros Q; [now destruct Q|reflexivity].
Qed.
Print Assumptions C95_verdict.

(** ** Examples *)
(** [===] of an [f32] and a small number, by its bits. *)
Definition some_floats (t : numty) (w z : Z) : bool := match t, w with TF32, 77%Z => (z =? 1117388800)%Z | _, _ => false end.
(** The scope of the call of PropWaspAs.v. *)
Definition expect_scope (q qt : Z) : scope :=
  [("func", OWasmFunction 3 5 q); ("args", OArgs 2 1 q qt); ("results", ORess 2 1 q qt); ("code_present_serialized", ONum TI32 0)].
Notation holds := (as_states 0 1 [ft_inner; ft_outer]).
(** It meets the hypotheses; and [77] is expected of an argument of type [f32] whose bits are those of 77. *)
Example C95_applies : exists q qt l, holds [(ft_outer, q, qt)] [fresh ft_outer [VNum TI32 7; VNum TF32 2143289345]]%Z l /\
  shown_call "func" "args" "results" 3 5 ft_outer true q qt (expect_scope q qt) /\ numeric_sig ft_outer = true /\ (slots ft_outer <= 8191)%Z /\
  implements [ft_inner; ft_outer] ex_as_lib holds (65536 * Z.min 65535 (1 - 0)) True /\
  call_expected some_floats (CE [(TI32, 7); (TF32, 77)] [])%Z [VNum TI32 7; VNum TF32 1117388800]%Z [] /\
  ~ call_expected some_floats (CE [(TI32, 7)] [])%Z [VNum TI32 7; VNum TF32 1117388800]%Z [].
Proof.
  destruct ex_c72 as ((vs & q & qt & l & _ & H) & _). exists q, qt, l.
  assert (Pg : (0 <= 0 <= 1 /\ 1 <= 65536)%Z) by lia.
  assert (Bg : (65540 <= Z.of_nat as_steps)%Z) by (unfold as_steps; rewrite Z2Nat.id; lia).
  split; [exact H|]. split; [repeat split|]. split; [reflexivity|]. split; [vm_compute; discriminate|].
  split; [exact (@as_implements 0 1 Pg as_steps Bg [ft_inner; ft_outer])|]. split.
  - split; [|constructor]. constructor; [exists 7%Z; split; [reflexivity|left; split; [now left|reflexivity]]|].
    constructor; [exists 1117388800%Z; split; [reflexivity|right; split; [now left|reflexivity]]|constructor].
  - intros (F & _). inversion F as [|? ? ? ? _ F']. inversion F'.
Qed.
(** After the program of the integration tests (tests/input-programs/wat/different_signatures.wat): functions of several signatures. *)
Definition signatures_module : module :=
  Mod [Fn (FT [t_i32] [t_i32; t_i32]) (FPresent [] [LBasic (BLocal LGet 0); LBasic (BLocal LGet 0); LEnd]) [];
       Fn (FT [t_i32; t_i32] [t_i32]) (FPresent [] [LBasic (BLocal LGet 0); LEnd]) ["second"];
       Fn (FT [TNum TI64; TNum TF32] [TNum TF32; TNum TI64]) (FPresent [] [LBasic (BLocal LGet 1); LBasic (BLocal LGet 0); LEnd]) ["swap"];
       Fn (FT [] [t_i32]) (FPresent [] [LBasic (BConst TI32 4); LBasic (BCall 0); LBasic (BCall 1); LEnd]) ["main"]]
      [] [] [] [] [] None.
(** The types of its instructions. *)
Definition signatures_infer (f : nat) (l : list low) : option (list ity) :=
  Some (map (fun i => match i with
    | LBasic (BLocal LGet k) => IReach (FT [] [match f, k with 2, 0 => TNum TI64 | 2, _ => TNum TF32 | _, _ => t_i32 end])
    | LBasic (BConst _ _) => IReach (FT [] [t_i32])
    | LBasic (BCall 0) => IReach (FT [t_i32] [t_i32; t_i32])
    | LBasic (BCall _) => IReach (FT [t_i32; t_i32] [t_i32])
    | _ => IReach (FT [] []) end) l).
(** Nothing is imported. *)
Definition nobody (ns name : string) (args : list val) : xprog unit := XStuck.
(** A session with the file: the results, and [all_expectations_met]. *)
Definition expect_session (es : list call_expectation) (calls : list (string * list val)) : option (list (option (list val)) * bool) :=
  match generate expect_wasp, interface_of_root expect_wasp with
  | Some p, Some ai =>
      match instrument ex_id ex_id signatures_infer signatures_module ai None with
      | IOk m' (Some sigs) =>
          match wasp_run ex_num1 ex_num2 as_steps nobody p ex_imports m' (Some sigs) 42 (expect_guest some_floats (as_call as_steps (as_lib sigs)))
                  (as_start 0 1 (fun _ => 0%Z), (EX es false, tt)) calls with
          | Ok (outs, s') => Some (outs, ex_met (fst (snd (st_x s'))))
          | _ => None
          end
      | _ => None
      end
  | _, _ => None
  end.
(** The calls of the session, in the order in which they return. *)
Definition signatures_calls : list (string * list val) := [("main", []); ("swap", [VNum TI64 (2 ^ 64 - 1); VNum TF32 1117388800])]%Z.
Definition signatures_expected : list call_expectation :=
  [CE [(TI32, 4)] [(TI32, 4); (TI32, 4)]; CE [(TI32, 4); (TI32, 4)] [(TI32, 4)]; CE [] [(TI32, 4)]; CE [(TI64, -1); (TF32, 77)] [(TF32, 77); (TI64, -1)]]%Z.
Example C95_sessions :
  check_funcs signatures_module signatures_infer = true /\
  expect_session signatures_expected signatures_calls = Some ([Some [vi32 4]; Some [VNum TF32 1117388800; VNum TI64 (2 ^ 64 - 1)]], true)%Z /\
  expect_session (firstn 3 signatures_expected) signatures_calls = Some ([Some [vi32 4]; None], true)%Z.
Proof. split; [|split]; vm_compute; reflexivity. Qed.
(** One would think that with [all_expectations_met] no call was rejected, and the results are those of the program without
    instrumentation. This is not so: it is set before the last call is looked at, and a call that was rejected is passed over. *)
Theorem C95_met_refuted :
  ~ (forall es calls outs s outs', run_module ex_num1 ex_num2 nobody 8 ex_imports signatures_module tt calls = Ok (outs, s) ->
       expect_session es calls = Some (outs', true) -> outs' = outs).
Proof.
  intros H.
  destruct (run_module ex_num1 ex_num2 nobody 8 ex_imports signatures_module tt [("second", [vi32 7; vi32 8])]) as [[outs s]| | |] eqn:R; try (vm_compute in R; discriminate R).
  assert (Q : outs = [Some [vi32 7]]) by (vm_compute in R; now injection R as <-).
  specialize (H [CE [(TI32, 1); (TI32, 2)] [(TI32, 1)]]%Z [("second", [vi32 7; vi32 8])] outs s [None] R eq_refl). rewrite Q in H. discriminate H.
Qed.
Print Assumptions C95_met_refuted.
(** Also if only an earlier call was not as expected. *)
Example C95_passed_over :
  expect_session [CE [(TI32, 1); (TI32, 2)] [(TI32, 1)]; CE [(TI32, 7); (TI32, 8)] [(TI32, 7)]]%Z [("second", [vi32 7; vi32 8]); ("second", [vi32 7; vi32 8])] =
  Some ([None; Some [vi32 7]], true)%Z.
Proof. vm_compute. reflexivity. Qed.

(** ** The integration test: different_signatures.wat, with the expectations of the file *)
From Verif Require PropSigCheck.
(** The floats that occur. *)
Definition test_floats (t : numty) (w z : Z) : bool :=
  match t, w with TF32, 77%Z => (z =? PropSigCheck.f32_77)%Z | TF64, 7777%Z => (z =? PropSigCheck.f64_7777)%Z | _, _ => false end.
(** [expect_assertion_holds], L83. *)
Definition assertion_holds : call_expectation := CE [(TI32, 1)]%Z [].
(** L86-185 *)
Definition test_expectations : list call_expectation :=
  [CE [] []; CE [(TI32, 123456)] []; CE [] [(TI32, 1)]; assertion_holds; CE [] [(TI32, 2); (TI32, 2)]; assertion_holds; assertion_holds;
   CE [] [(TI32, 3); (TI32, 3); (TI32, 3)]; assertion_holds; assertion_holds; assertion_holds; CE [(TI32, 4)] [(TI32, 4); (TI32, 4)]; assertion_holds; assertion_holds;
   CE [(TI32, 5); (TI32, 55)] [(TI32, 5)]; assertion_holds; CE [(TI32, 6); (TI32, 66); (TI32, 666)] [];
   CE [(TI32, 7); (TF32, 77); (TI64, 777); (TF64, 7777)] [(TF64, 7777); (TI64, 777); (TF32, 77); (TI32, 7)];
   assertion_holds; assertion_holds; assertion_holds; assertion_holds; CE [] []]%Z.
(** The session of the test. *)
Definition test_session (es : list call_expectation) (calls : list (string * list val)) : option (list (option (list val)) * expecting) :=
  match generate expect_wasp, interface_of_root expect_wasp with
  | Some p, Some ai =>
      match instrument ex_id ex_id PropSigCheck.unit_types PropSigCheck.different_signatures ai None with
      | IOk m' (Some sigs) =>
          match wasp_run ex_num1 PropSigCheck.equal_bits as_steps nobody p ex_imports m' (Some sigs) 42 (expect_guest test_floats (as_call as_steps (as_lib sigs)))
                  (as_start 0 1 (fun _ => 0%Z), (EX es false, tt)) calls with
          | Ok (outs, s') => Some (outs, fst (snd (st_x s')))
          | _ => None
          end
      | _ => None
      end
  | _, _ => None
  end.
(** It succeeds; a second run is stopped at its first call. *)
Example C95_test :
  test_session test_expectations [("execute_tests", [])] = Some ([Some []], EX [] true) /\
  test_session test_expectations [("execute_tests", []); ("execute_tests", [])] = Some ([Some []; None], EX [] true).
Proof. split; vm_compute; reflexivity. Qed.
