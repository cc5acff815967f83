(** Property theorems about the Rust analysis standard library: C13 (operator codes), C28
    (static offsets), C37 (locations), C43 (exported functions). *)
From Verif Require Import Semantics Hooks Advice Instrument RsStdlib.
Local Open Scope string_scope.
Local Open Scope list_scope.

(** ** C13: the code handed to a hook is decoded to the operator, no other code is decoded *)
Lemma find_row_code {A} (key : A -> Z) (c : Z) (l : list A) r :
  find (fun r => Z.eqb c (key r)) l = Some r -> In r l /\ key r = c.
Proof. intros F. apply find_some in F. destruct F as [I E]. split; [exact I|]. apply Z.eqb_eq in E. auto. Qed.

Lemma unary_rows_codes : Forall (fun r => let '(c, o, _, _, _) := r in c = unop_code o) unary_rows.
Proof. repeat constructor. Qed.
Lemma binary_rows_codes : Forall (fun r => let '(c, o, _, _, _, _) := r in c = binop_code o) binary_rows.
Proof. repeat constructor. Qed.

Theorem C13_unary_codes : forall c o, unary_from c = Some o <-> c = unop_code o.
Proof.
  intros c o. split.
  - unfold unary_from. destruct (find _ unary_rows) as [[[[[c' o'] t] s] t']|] eqn:F; [|discriminate].
    intros E; injection E as ->. apply find_some in F. destruct F as [I E]. apply Z.eqb_eq in E. subst c'.
    exact (proj1 (Forall_forall _ _) unary_rows_codes _ I).
  - intros ->. now destruct o.
Qed.
Theorem C13_binary_codes : forall c o, binary_from c = Some o <-> c = binop_code o.
Proof.
  intros c o. split.
  - unfold binary_from. destruct (find _ binary_rows) as [[[[[[c' o'] t] s] t'] u]|] eqn:F; [|discriminate].
    intros E; injection E as ->. apply find_some in F. destruct F as [I E]. apply Z.eqb_eq in E. subst c'.
    exact (proj1 (Forall_forall _ _) binary_rows_codes _ I).
  - intros ->. now destruct o.
Qed.
Ltac digit c := destruct c as [|c|c]; try discriminate;
  repeat (destruct c as [c|c|]; try discriminate; try (intros E; injection E as <-; reflexivity)).
Theorem C13_load_codes : forall c o, load_deserialize c = Some o <-> c = loadop_code o.
Proof.
  intros c o. split; [|intros ->; now destruct o]. unfold load_deserialize. digit c.
Qed.
Theorem C13_store_codes : forall c o, store_deserialize c = Some o <-> c = storeop_code o.
Proof.
  intros c o. split; [|intros ->; now destruct o]. unfold store_deserialize. digit c.
Qed.
(** Distinct operators have distinct codes. *)
Theorem C13_codes_distinct :
  (forall o o', unop_code o = unop_code o' -> o = o') /\ (forall o o', binop_code o = binop_code o' -> o = o') /\
  (forall o o', loadop_code o = loadop_code o' -> o = o') /\ (forall o o', storeop_code o = storeop_code o' -> o = o').
Proof.
  split; [|split; [|split]]; intros o o' E.
  - pose proof (proj2 (C13_unary_codes (unop_code o) o) eq_refl) as H'. rewrite E in H'.
    rewrite (proj2 (C13_unary_codes _ o') eq_refl) in H'. congruence.
  - pose proof (proj2 (C13_binary_codes (binop_code o) o) eq_refl) as H'. rewrite E in H'.
    rewrite (proj2 (C13_binary_codes _ o') eq_refl) in H'. congruence.
  - pose proof (proj2 (C13_load_codes (loadop_code o) o) eq_refl) as H'. rewrite E in H'.
    rewrite (proj2 (C13_load_codes _ o') eq_refl) in H'. congruence.
  - pose proof (proj2 (C13_store_codes (storeop_code o) o) eq_refl) as H'. rewrite E in H'.
    rewrite (proj2 (C13_store_codes _ o') eq_refl) in H'. congruence.
Qed.
(** What the decoded operator does when applied: the operator's own meaning. *)
Theorem C13_unary_apply : forall num1 o t z,
  unary_apply num1 o (VNum t z) =
  if numty_eqb t (unop_in o) then option_map (VNum (unop_out o)) (unop_sem num1 o z) else None.
Proof. intros num1 o t z. destruct o; (destruct t; reflexivity). Qed.
Theorem C13_binary_apply : forall num2 o t1 a t2 b,
  binary_apply num2 o (VNum t1 a) (VNum t2 b) =
  if numty_eqb t1 (binop_in o) && numty_eqb t2 (binop_in o)
  then option_map (VNum (binop_out o)) (binop_sem num2 o a b) else None.
Proof. intros num2 o t1 a t2 b. destruct o; (destruct t1, t2; reflexivity). Qed.
(** The memory operations call the helper of their own operator. *)
Theorem C13_memory_targets :
  (forall o, named (load_target o) load_helpers = Some o) /\
  (forall o, named (fst (store_target o)) store_helpers = Some o /\ snd (store_target o) = storeop_ty o).
Proof. split; intros o; destruct o; try split; reflexivity. Qed.
Print Assumptions C13_unary_codes.
Print Assumptions C13_binary_codes.
Print Assumptions C13_load_codes.
Print Assumptions C13_store_codes.
Print Assumptions C13_codes_distinct.
Print Assumptions C13_unary_apply.
Print Assumptions C13_binary_apply.
Print Assumptions C13_memory_targets.
Example ex_c13 :
  unary_from 33 = Some I64ExtendI32U /\ unary_from 61 = None /\ unary_from (2 ^ 32 - 1) = None /\
  binary_from 33 = Some I32Add /\ binary_apply (fun _ _ _ => None) I32Add (vi32 (2 ^ 32 - 1)) (vi32 3) = Some (vi32 2) /\
  load_deserialize 15 = None /\ store_deserialize 9 = Some I64Store32.
Proof. repeat split. Qed.

(** ** C43: every function the instrumented module imports from the analysis is exported by
    the Rust library under that name with that type, and it exports nothing else but
    [generic_apply] *)
Definition rs_function (name : string) : option rfun := named name rs_exports.
Theorem C43_exports_match_hooks :
  (forall h, exists r, rs_function (trap_name h) = Some r /\ rfun_args r = trap_args h /\ rfun_results r = trap_results h) /\
  (forall name r, rs_function name = Some r -> exists h, trap_name h = name).
Proof.
  split.
  - intros h. destruct h; try (destruct t); try (destruct k); try (destruct a, r); try (destruct o);
      (eexists; split; [reflexivity|split; reflexivity]).
  - intros name r E. unfold rs_function, named in E.
    destruct (find _ rs_exports) as [[n r']|] eqn:F; [|discriminate].
    apply find_some in F. destruct F as [I Q]. apply String.eqb_eq in Q. simpl in Q. subst n. clear E.
    assert (A : Forall (fun x => existsb (fun h => String.eqb (trap_name h) (fst x)) all_hooks_order = true) rs_exports)
      by (repeat constructor).
    pose proof (proj1 (Forall_forall _ _) A _ I) as H. apply existsb_exists in H. destruct H as (h & _ & H).
    exists h. now apply String.eqb_eq in H.
Qed.
Print Assumptions C43_exports_match_hooks.

(** ** C37: the location every advice is given has function and instruction index exchanged *)
Definition advice_location (a : advice) : location :=
  match a with
  | AdCallPre _ l | AdCallPost _ l | AdCallIndPre _ _ l | AdCallIndPost _ l | AdBr _ l
  | AdIfThenElse _ _ _ l | AdIfThen _ _ _ l | AdIfThenElsePost l | AdIfThenPost l | AdBrIf _ _ l
  | AdBrTable _ _ _ l | AdSelect _ l | AdUnary _ _ l | AdBinary _ _ _ l | AdDrop l | AdReturn l
  | AdConst _ l | AdLocal _ _ _ l | AdGlobal _ _ _ l | AdLoad _ _ _ l | AdStore _ _ _ _ l
  | AdMemorySize _ _ l | AdMemoryGrow _ _ l | AdBlockPre _ _ l | AdBlockPost l | AdLoopPre _ _ l | AdLoopPost l => l
  end.
Lemma rfun_location r ops f i a :
  rfun_advice r (ops ++ [vi64 f; vi64 i]) = Some a -> advice_location a = Loc f i.
Proof.
  intros E. destruct ops as [|v1 [|v2 [|v3 [|v4 [|v5 ops]]]]];
  try (destruct r; cbn in E; repeat match type of E with context [match ?v with VNum _ _ => _ | VRef _ _ => _ end] => destruct v; try discriminate E end;
       try discriminate E;
       try (match type of E with option_map _ ?x = _ => destruct x; [|discriminate E] end; cbn in E);
       injection E as <-; reflexivity).
  exfalso. destruct v1, v2, v3, v4, v5; destruct r; cbn in E; try discriminate E;
  destruct ops as [|[] [|[] ops]]; discriminate E.
Qed.
(** Quantified over all hooks, operands and locations: the advice is told the position as
    function index and the function as instruction index. *)
Theorem C37_location_refuted : forall h r ops m a,
  rs_function (trap_name h) = Some r ->
  rfun_advice r (ops ++ loc m) = Some a ->
  function_index (advice_location a) = Z.of_nat (m_pos m) /\
  instruction_index (advice_location a) = Z.of_nat (m_fun m).
Proof.
  intros h r ops m a _ E. unfold loc in E. apply rfun_location in E. rewrite E. split; reflexivity.
Qed.
Print Assumptions C37_location_refuted.
Example ex_c37 :
  exists a, rs_function (trap_name (HkUnary TI32 TI32)) = Some (RUnary TI32 TI32) /\
  rfun_advice (RUnary TI32 TI32) ([vi32 5; vi32 1] ++ loc (Meta 7 3 (IReach (FT [] [])) false)) = Some a /\
  function_index (advice_location a) <> 7%Z.
Proof. eexists. split; [reflexivity|split; [reflexivity|]]. cbn. discriminate. Qed.

(** ** C28: accesses with a static offset of 2^31 or more cannot be performed *)
Lemma offset_fits off : (0 <= off < 2 ^ 31)%Z -> i64_try_into_i32 off = Some off.
Proof.
  intros R. unfold i64_try_into_i32, signed.
  destruct (Z.ltb_spec off (2 ^ (64 - 1))); [|cbn in *; lia].
  destruct (Z.leb_spec (- 2 ^ 31) off); [|lia]. destruct (Z.ltb_spec off (2 ^ 31)); [|lia].
  simpl. rewrite Z.mod_small; [reflexivity|lia].
Qed.
Lemma offset_too_large off : (2 ^ 31 <= off < 2 ^ 32)%Z -> i64_try_into_i32 off = None.
Proof.
  intros R. unfold i64_try_into_i32, signed.
  destruct (Z.ltb_spec off (2 ^ (64 - 1))); [|cbn in *; lia].
  destruct (Z.ltb_spec off (2 ^ 31)); [lia|]. now rewrite andb_false_r.
Qed.
Theorem C28_small_offsets : forall X off, (0 <= off < 2 ^ 31)%Z ->
  (forall o a, load_perform o a off = XCall (load_target o) [vi32 a; vi32 off] (fun vs => @XRet X vs)) /\
  (forall o a z, store_perform o a (VNum (storeop_ty o) z) off
     = XCall (fst (store_target o)) [vi32 a; VNum (storeop_ty o) z; vi32 off] (fun _ => @XRet X [])).
Proof.
  intros X off R. split; intros; unfold load_perform, store_perform; rewrite (offset_fits R); [reflexivity|].
  destruct o; reflexivity.
Qed.
(** For every operator, every such offset and every address in range there are (32-bit)
    memories on which the original instruction succeeds; the library's operation always traps. *)
Theorem C28_large_offsets_refuted : forall X off a,
  (2 ^ 31 <= off < 2 ^ 32)%Z -> (0 <= a)%Z -> (a + off + 8 <= 2 ^ 32)%Z ->
  (forall o, (@load_perform X o a off = XTrap) /\
     exists m z, (ms_pages m <= 65536)%Z /\ mem_load m o (a + off) = Some z) /\
  (forall o z, (@store_perform X o a (VNum (storeop_ty o) z) off = XTrap) /\
     exists m m', (ms_pages m <= 65536)%Z /\ mem_store m o (a + off) z = Some m').
Proof.
  intros X off a R Ra Rb. split.
  - intros o. split; [unfold load_perform; now rewrite (offset_too_large R)|].
    exists (MemSt 65536 65536 (fun _ => 0%Z)). unfold mem_load. cbn [ms_pages ms_bytes].
    destruct (Z.leb_spec (a + off + Z.of_nat (loadop_bytes o)) (65536 * page_size)) as [L|L].
    + eexists. split; [lia|reflexivity].
    + exfalso. unfold page_size in L. destruct o; cbn [loadop_bytes] in L; lia.
  - intros o z. split; [unfold store_perform; now rewrite (offset_too_large R)|].
    exists (MemSt 65536 65536 (fun _ => 0%Z)). unfold mem_store. cbn [ms_pages ms_bytes].
    destruct (Z.leb_spec (a + off + Z.of_nat (storeop_bytes o)) (65536 * page_size)) as [L|L].
    + eexists. split; [lia|reflexivity].
    + exfalso. unfold page_size in L. destruct o; cbn [storeop_bytes] in L; lia.
Qed.
Print Assumptions C28_small_offsets.
Print Assumptions C28_large_offsets_refuted.
(** Addressable: 2^31 is below the 65536 pages a 32-bit memory can have. *)
Example ex_c28 :
  mem_load (MemSt 32769 65536 (fun a => if Z.eqb a (2 ^ 31) then 42%Z else 0%Z)) I32Load (0 + 2 ^ 31) = Some 42%Z /\
  @load_perform unit I32Load 0 (2 ^ 31) = XTrap.
Proof. split; reflexivity. Qed.
