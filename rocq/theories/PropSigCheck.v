(** Property theorem C88: the analysis signatures-check of the integration tests accepts a call that returns exactly if it is
    the next one expected, and accepts nothing after the first call it rejected. *)
From Coq Require Import Permutation.
From Verif Require Import Semantics Advice RsStdlib StackLib StackRun StackSpec PropStack System Instantiate Trace TraceProofs TraceBalance
  Typing ModuleTyping InstantiateTyping Checker ExModule PropInstrument PropSpec PropTyping ForwardRel ForwardBody ForwardProofs SessionProofs Recorder
  PropTransparent PropSystem SystemProofs StackOps StackHist AccessProofs Analyses AnalysesProofs PropAnalyses PropGuards Bytes SigCheck.
Local Open Scope string_scope.
Local Open Scope list_scope.
Local Open Scope res_scope.

Section Verdicts.
  Context {Y : Type}.
  Notation X := (sys (sigcheck * Y)).
  Variable sigs : list functy.
  Variable lc : lib_code.
  Variable library : lib_states.
  Variable limit : Z.
  Variable stops : Prop.
  Hypothesis IM : implements sigs lc library limit stops.
  Variable export : string -> list val -> store X -> res (store X) (list val * store X).
  Variable expectations : list expectation.
  (** The compiled analysis; it has no advice but [apply]. *)
  Variable body : advice -> xprog X.
  Definition sigcheck_exports : string -> list val -> xprog X :=
    rs_analysis body (lib_agent lc) (sigcheck_apply (lib_agent lc) expectations).
  (** The call expected next had arguments that begin with those expected, and results that do. *)
  Definition as_expected (i : nat) (args rs : list val) : Prop :=
    exists e more more', nth_error expectations i = Some e /\ args = ex_args e ++ more /\ rs = ex_results e ++ more'.

  (** The advice first calls the function. When that has returned, having left the results [rs] and the arguments [args'] in
      the buffer, while calls within it have left the analysis at position [i]: it goes on to the next position and lets the
      program go on if the call is as expected, and otherwise stops the program for good. *)
  Theorem C88_verdict : forall frs ifs ft q qt args f i0 (code : bool) l a (s : store Y),
    library ((ft, q, qt) :: frs) (fresh ft args :: ifs) l ->
    let describe := [vi32 f; vi32 i0; vi32 (Z.of_nat (List.length (ft_in ft))); vi32 (Z.of_nat (List.length (ft_out ft))); vi32 q; vi32 qt; vi32 (if code then 0 else 1)] in
    exists l1 rest, library ((ft, q, qt) :: frs) (fresh ft args :: ifs) l1 /\
      run_x export (sigcheck_exports "generic_apply" describe) (lift l a s) =
        (let* (vs, s1) := export "call_base" [vi32 f; vi32 q] (lift l1 a s) in run_x export (rest vs) s1) /\
      forall vs rs args' l2 i met (s2 : store Y), library ((ft, q, qt) :: frs) (IF ft (map Some rs) (map Some args') :: ifs) l2 ->
        (as_expected i args' rs -> exists l3,
           run_x export (rest vs) (lift l2 (SC i met false) s2) = Ok ([], lift l3 (SC (S i) (met || Nat.eqb (S i) (List.length expectations)) false) s2) /\
           library ((ft, q, qt) :: frs) (IF ft (map Some rs) (map Some args') :: ifs) l3) /\
        (~ as_expected i args' rs -> exists l3,
           run_x export (rest vs) (lift l2 (SC i met false) s2) = Trap (lift l3 (SC i met true) s2)) /\
        run_x export (rest vs) (lift l2 (SC i met true) s2) = Trap (lift l2 (SC i met true) s2).
  Proof.
    intros frs ifs ft q qt args f i0 code l a s H describe.
    destruct (@lib_frame sigs lc _ _ _ IM _ _ _ 0 (fresh ft args) H eq_refl) as (_ & _ & _ & _ & _ & _ & Nu & _ & _ & _).
    destruct (@values_new (sigcheck * Y) sigs lc _ _ _ IM export ((ft, q, qt) :: frs) (fresh ft args :: ifs) 0 (fresh ft args) q qt eq_refl eq_refl (lift l a s) Nu H) as (l1 & H1 & E1).
    destruct (@values_new (sigcheck * Y) sigs lc _ _ _ IM export ((ft, q, qt) :: frs) (fresh ft args :: ifs) 0 (fresh ft args) q qt eq_refl eq_refl (lift l1 a s) Nu H1) as (l2 & H2 & E2).
    destruct (@sigcheck_calls Y sigs lc _ _ _ IM export expectations frs ifs ft q qt args f i0 code l2 a s H2) as (rest & R3 & K).
    exists l2, (fun vs => xbind (rest vs) (fun _ => XRet [])). split; [exact H2|]. split.
    - unfold sigcheck_exports, rs_analysis. cbn [String.eqb Ascii.eqb Bool.eqb]. unfold rs_generic_apply, describe, vi32. cbn [fresh if_type] in E1, E2. rewrite E1.
      change (with_lib (lift l a s) l1) with (lift l1 a s). rewrite E2. change (with_lib (lift l1 a s) l2) with (lift l2 a s).
      rewrite run_x_bind. rewrite R3. destruct (export _ _ _) as [[vs s1]|?| |]; cbn [rbind]; try reflexivity. now rewrite run_x_bind.
    - intros vs rs args' l4 i met s2 H4. rewrite !run_x_bind.
      pose proof (K vs rs args' l4 i met false s2 H4) as Kf. pose proof (K vs rs args' l4 i met true s2 H4) as Kt. cbn zeta in Kf, Kt.
      split; [|split].
      + intros X. destruct Kf as [[Q _]|[(_ & _ & l3 & R & Hl)|(_ & N & _)]]; [discriminate Q| |contradiction].
        exists l3. rewrite R. split; [reflexivity|exact Hl].
      + intros X. destruct Kf as [[Q _]|[(_ & N & _)|(_ & _ & l3 & R)]]; [discriminate Q|contradiction|]. exists l3. now rewrite R.
      + destruct Kt as [[_ R]|[(Q & _)|(Q & _)]]; [now rewrite R|discriminate Q..].
  Qed.

End Verdicts.
Print Assumptions C88_verdict.

(** ** The integration test
    tests/input-programs/wat/different_signatures.wat, with the equality of bit patterns in place of the comparisons of floats, and the
    expectations of signatures-check/src/lib.rs L98-197. *)
Notation t_f32 := (TNum TF32).
Notation t_i64 := (TNum TI64).
Notation t_f64 := (TNum TF64).
(** The bit patterns of 77.0 and 7777.0. *)
Definition f32_77 : Z := 1117388800.
Definition f64_7777 : Z := 4665272916630306816.
Notation got k := (LBasic (BLocal LGet k)).
Notation put k := (LBasic (BConst TI32 k)).
(** different_signatures.wat: assert, the nine functions named after their types, execute_tests. *)
Definition different_signatures : module :=
  Mod [Fn (FT [t_i32] []) (FPresent [] [got 0; LBasic (BUnary I32Eqz); LIf (FT [] []); LBasic BUnreachable; LElse; LBasic BNop; LEnd; LEnd]) [];
       Fn (FT [] []) (FPresent [] [LEnd]) [];
       Fn (FT [t_i32] []) (FPresent [] [LEnd]) [];
       Fn (FT [] [t_i32]) (FPresent [] [put 1; LEnd]) [];
       Fn (FT [] [t_i32; t_i32]) (FPresent [] [put 2; put 2; LEnd]) [];
       Fn (FT [] [t_i32; t_i32; t_i32]) (FPresent [] [put 3; put 3; put 3; LEnd]) [];
       Fn (FT [t_i32] [t_i32; t_i32]) (FPresent [] [got 0; got 0; LEnd]) [];
       Fn (FT [t_i32; t_i32] [t_i32]) (FPresent [] [got 0; LEnd]) [];
       Fn (FT [t_i32; t_i32; t_i32] []) (FPresent [] [LEnd]) [];
       Fn (FT [t_i32; t_f32; t_i64; t_f64] [t_f64; t_i64; t_f32; t_i32]) (FPresent [] [got 3; got 2; got 1; got 0; LEnd]) [];
       Fn (FT [] []) (FPresent [] [LBasic (BCall 1); LBasic (BConst TI32 123456); LBasic (BCall 2); LBasic (BCall 3); LBasic (BConst TI32 1); LBasic (BBinary I32Eq); LBasic (BCall 0); LBasic (BCall 4); LBasic (BConst TI32 2); LBasic (BBinary I32Eq); LBasic (BCall 0); LBasic (BConst TI32 2); LBasic (BBinary I32Eq); LBasic (BCall 0); LBasic (BCall 5); LBasic (BConst TI32 3); LBasic (BBinary I32Eq); LBasic (BCall 0); LBasic (BConst TI32 3); LBasic (BBinary I32Eq); LBasic (BCall 0); LBasic (BConst TI32 3); LBasic (BBinary I32Eq); LBasic (BCall 0); LBasic (BConst TI32 4); LBasic (BCall 6); LBasic (BConst TI32 4); LBasic (BBinary I32Eq); LBasic (BCall 0); LBasic (BConst TI32 4); LBasic (BBinary I32Eq); LBasic (BCall 0); LBasic (BConst TI32 5); LBasic (BConst TI32 55); LBasic (BCall 7); LBasic (BConst TI32 5); LBasic (BBinary I32Eq); LBasic (BCall 0); LBasic (BConst TI32 6); LBasic (BConst TI32 66); LBasic (BConst TI32 666); LBasic (BCall 8); LBasic (BConst TI32 7); LBasic (BConst TF32 f32_77); LBasic (BConst TI64 777); LBasic (BConst TF64 f64_7777); LBasic (BCall 9); LBasic (BConst TI32 7); LBasic (BBinary I32Eq); LBasic (BCall 0); LBasic (BConst TF32 f32_77); LBasic (BBinary F32Eq); LBasic (BCall 0); LBasic (BConst TI64 777); LBasic (BBinary I64Eq); LBasic (BCall 0); LBasic (BConst TF64 f64_7777); LBasic (BBinary F64Eq); LBasic (BCall 0); LEnd]) ["execute_tests"]]
      [] [] [] [] [] None.
(** A call of [assert] in execute_tests, e.g. L111-112. *)
Definition asserted : expectation := Expect [vi32 1] [].
(** L98-197. *)
Definition EXPECTATIONS : list expectation :=
  [Expect [] []; Expect [vi32 123456] []; Expect [] [vi32 1]; asserted; Expect [] [vi32 2; vi32 2]; asserted; asserted;
   Expect [] [vi32 3; vi32 3; vi32 3]; asserted; asserted; asserted; Expect [vi32 4] [vi32 4; vi32 4]; asserted; asserted;
   Expect [vi32 5; vi32 55] [vi32 5]; asserted; Expect [vi32 6; vi32 66; vi32 666] [];
   Expect [vi32 7; VNum TF32 f32_77; VNum TI64 777; VNum TF64 f64_7777] [VNum TF64 f64_7777; VNum TI64 777; VNum TF32 f32_77; vi32 7];
   asserted; asserted; asserted; asserted; Expect [] []].
(** The comparisons, as equality of bit patterns. *)
Definition equal_bits : binop -> Z -> Z -> option Z := fun _ a b => Some (if (a =? b)%Z then 1 else 0)%Z.
(** The types of the bodies of different_signatures.wat: no hook but [apply] looks at them. *)
Definition unit_types (f : nat) (l : list low) : option (list ity) := Some (map (fun _ => IReach (FT [] [])) l).
(** None of the other hooks. *)
Definition only_apply (h : hook) : bool := false.
(** A session of a program under signatures-check: what the calls return, and the state of the analysis afterwards. *)
Definition under_sigcheck (es : list expectation) (m : module) (calls : list (string * list val)) : option (list (option (list val)) * sigcheck) :=
  match instrument ex_id ex_id unit_types m (std_ai only_apply true) None with
  | IOk m' (Some sg) =>
      let lc := wat_lib ex_num1 equal_bits sg ex_steps in
      match run_module ex_num1 equal_bits (all_agents (Y := unit) lc (forward_body ex_num1 equal_bits) (sigcheck_apply (lib_agent lc) es) silent)
              42 ex_imports m' (lib_start tt, (sigcheck_zero, tt)) calls with
      | Ok (outs, s) => Some (outs, fst (snd (st_x s)))
      | _ => None
      end
  | _ => None
  end.
(** The test succeeds: all 23 expectations are met. Run a second time, the program is stopped at its first call, and again the
    third time. *)
Example ex_different_signatures :
  under_sigcheck EXPECTATIONS different_signatures [("execute_tests", [])] = Some ([Some []], SC 23 true false) /\
  under_sigcheck EXPECTATIONS different_signatures [("execute_tests", []); ("execute_tests", []); ("execute_tests", [])]
    = Some ([Some []; None; None], SC 23 true true).
Proof. split; vm_compute; reflexivity. Qed.

(** A state that meets the hypothesis of C88_verdict: a call of i32_i32=>i32, with the arguments of its expectation. *)
Example ex_c88 :
  let ft := FT [t_i32; t_i32] [t_i32] in
  exists frs l, library [ft] frs [fresh ft [vi32 5; vi32 55]] l /\
    as_expected EXPECTATIONS 14 [vi32 5; vi32 55] [vi32 5] /\ ~ as_expected EXPECTATIONS 14 [vi32 5; vi32 54] [vi32 5].
Proof.
  intros ft.
  assert (I0 : library [ft] [] [] (lib_start tt)).
  { exists 0%Z, 1%Z, (fun _ => 0%Z). split; [reflexivity|]. apply start_inv. }
  destruct (@C36_library_behaves ex_num1 ex_num2 [ft] (Z.to_nat 70010) [] [] (lib_start tt) [EEnter ft [vi32 5; vi32 55]]
              _ _ ltac:(rewrite Z2Nat.id; lia) I0 eq_refl) as (vs & frs & l & _ & _ & Hl).
  - intros ft' [<-|[]]; cbn; auto.
  - vm_compute. discriminate.
  - exists frs, l. split; [exact Hl|]. split.
    + now exists (Expect [vi32 5; vi32 55] [vi32 5]), [], [].
    + intros (e & m1 & m2 & H & A & _). injection H as <-. discriminate A.
Qed.

(** The number of arguments and results is not compared (L62, L75): the results beyond those expected are not looked at. A
    function returns 3 and 9 where only 3 is expected, and all expectations are met. *)
Theorem C88_more_refuted :
  exists m e rs, under_sigcheck [e] m [("f", [])] = Some ([Some rs], SC 1 true false) /\ rs <> ex_results e /\
    are_all_expectations_met (SC 1 true false) = 1%Z.
Proof.
  exists (Mod [Fn (FT [] [t_i32; t_i32]) (FPresent [] [put 3; put 9; LEnd]) ["f"]] [] [] [] [] [] None), (Expect [] [vi32 3]), [vi32 3; vi32 9].
  split; [vm_compute; reflexivity|]. split; [discriminate|reflexivity].
Qed.
Print Assumptions C88_more_refuted.
