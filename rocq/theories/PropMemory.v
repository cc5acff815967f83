(** Property theorems about the memory functions added for the analysis: C27. *)
From Coq Require Import Permutation.
From Verif Require Import Semantics Advice RunLemmas AdviceRel InstrumentProofs SpecProofs RsStdlib ExModule.
Local Open Scope string_scope.
Local Open Scope list_scope.
Local Open Scope res_scope.

(** The exported function called [name] of the output, for the operator it is looked up for. *)
Section Exported.
  Context {X : Type}.
  Variable num1 : unop -> Z -> option Z.
  Variable num2 : binop -> Z -> Z -> option Z.
  Variable ext : string -> string -> list val -> xprog X.
  Lemma exported_rep ord_i ord_c infer m on generic only m' lib name c :
    (forall l, Permutation (ord_i l) l) -> (forall l, Permutation (ord_c l) l) ->
    instrument ord_i ord_c infer m (std_ai on generic) only = IOk m' lib ->
    export_callee m generic name = Some c ->
    exists H hf i, export_index 0 (md_funcs m') name = Some i /\ rep infer m generic only H hf (md_funcs m') c i.
  Proof.
    intros Pi Pc E Ec.
    destruct (@instrument_layout _ _ _ _ _ _ _ _ Pi Pc E) as (H & hf & aps & LY & _). exists H, hf.
    set (is := if generic then ord_i (filter (selected_incl m only) (indices m)) else []) in *.
    assert (LY' : layout infer m (std_ai on generic) only is H hf aps (md_funcs m')).
    { unfold is. destruct generic; exact LY. }
    apply (@export_rep X num1 num2 ext infer m on generic only is H hf aps _ LY'); [|exact Ec].
    unfold is. intros ->. reflexivity.
  Qed.
  Notation call := (fun fs => call_fn num1 num2 ext fs).

  Lemma load_helper_call fs i x n a off s : nth_error fs i = Some (load_helper true x) ->
    call fs (S n) i [vi32 a; vi32 off] s =
    let* me := rget (st_mem s) in
    match mem_load me (snd x) ((a + off) mod 2 ^ 32) with
    | Some z => Ok ([VNum (loadop_ty (snd x)) z], s)
    | None => Trap s
    end.
  Proof.
    intros Ei. cbn [call_fn]. rewrite Ei. destruct x as [nm o]. cbn [snd rget rbind load_helper fn_type fn_code ft_in List.length Nat.eqb].
    assert (Ema : ma_offset (load_memarg o) = 0%Z) by reflexivity.
    change (structure_untyped _) with (COk [UBasic (BLocal LGet 0); UBasic (BLocal LGet 1); UBasic (BBinary I32Add); UBasic (BLoad o (load_memarg o))]).
    unfold invoke, run. cbn [run_seq run1 exec nth_error app map rget rbind next andthen binop_in binop_sem numty_eqb binop_out pop_i32 andb vi32].
    rewrite Ema, Z.add_0_r. destruct (st_mem s) as [me|]; [|reflexivity]. cbn [rget rbind].
    destruct (mem_load me o _) as [w|]; reflexivity.
  Qed.
  Lemma store_helper_call fs i x n a off z s : nth_error fs i = Some (store_helper true x) ->
    call fs (S n) i [vi32 a; VNum (storeop_ty (snd x)) z; vi32 off] s =
    let* me := rget (st_mem s) in
    match mem_store me (snd x) ((a + off) mod 2 ^ 32) z with
    | Some me' => Ok ([], set_mem s (Some me'))
    | None => Trap s
    end.
  Proof.
    intros Ei. cbn [call_fn]. rewrite Ei. destruct x as [nm o]. cbn [snd rget rbind store_helper fn_type fn_code ft_in List.length Nat.eqb].
    assert (Ema : ma_offset (store_memarg o) = 0%Z) by reflexivity.
    change (structure_untyped _) with (COk [UBasic (BLocal LGet 0); UBasic (BLocal LGet 2); UBasic (BBinary I32Add); UBasic (BLocal LGet 1); UBasic (BStore o (store_memarg o))]).
    unfold invoke, run. cbn [run_seq run1 exec nth_error app map rget rbind next andthen binop_in binop_sem numty_eqb binop_out pop_i32 andb vi32].
    assert (Et : numty_eqb (storeop_ty o) (storeop_ty o) = true) by (destruct o; reflexivity).
    rewrite Et. cbn [rbind]. rewrite Ema, Z.add_0_r. destruct (st_mem s) as [me|]; [|reflexivity]. cbn [rget rbind].
    destruct (mem_store me o _ _) as [w|]; reflexivity.
  Qed.
End Exported.

Ltac helper H m1 :=
  let H' := fresh in destruct H as (? & ? & i & Ei & H'); exists i; split; [exact Ei|];
  inversion H' as [| | | | |? ? Nx|? ? Nx|? Nx|? Nx]; subst; unfold has_memory in Nx; rewrite m1 in Nx; cbn [Nat.eqb] in Nx.

(** C27: in the output of instrumenting a module with a memory, the function exported under the
    name by which the analysis library performs an access (of which there is one for each
    operator) does what the intercepted instruction does: same value, same memory, trap for
    trap, unless address plus offset leaves the 32-bit address space. The program must not
    export a function of that name itself. *)
Theorem C27_load : forall X num1 num2 (ext : string -> string -> list val -> xprog X)
    ord_i ord_c infer m on generic only m' lib,
  (forall l, Permutation (ord_i l) l) -> (forall l, Permutation (ord_c l) l) ->
  instrument ord_i ord_c infer m (std_ai on generic) only = IOk m' lib -> List.length (md_mems m) = 1 ->
  forall o, export_index 0 (md_funcs m) (load_target o) = None ->
  exists i, export_index 0 (md_funcs m') (load_target o) = Some i /\
  forall n a off align s ftype callf, (0 <= a)%Z -> (0 <= off)%Z -> (a + off < 2 ^ 32)%Z ->
  call_fn num1 num2 ext (md_funcs m') (S n) i [vi32 a; vi32 off] s =
  let* (_, st, _, s') := exec num1 num2 ftype callf (BLoad o (MA align off)) [vi32 a] [] s in Ok (st, s').
Proof.
  intros X num1 num2 ext ord_i ord_c infer m on generic only m' lib Pi Pc E M1 o Nx0.
  assert (Ec : export_callee m generic (load_target o) = Some (CLoad o)).
  { unfold export_callee. rewrite Nx0. destruct generic, o; reflexivity. }
  pose proof (@exported_rep X num1 num2 ext _ _ _ _ _ _ _ _ _ _ _ Pi Pc E Ec) as R. helper R M1.
  intros n a off align s ftype callf A B AB. rewrite (@load_helper_call X num1 num2 ext _ _ _ n a off s Nx), Z.mod_small by lia.
  cbn [exec pop_i32 vi32 rbind ma_offset]. destruct (st_mem s) as [me|]; [|reflexivity]. cbn [rget rbind].
  destruct (mem_load me _ _); reflexivity.
Qed.
Print Assumptions C27_load.
Theorem C27_store : forall X num1 num2 (ext : string -> string -> list val -> xprog X)
    ord_i ord_c infer m on generic only m' lib,
  (forall l, Permutation (ord_i l) l) -> (forall l, Permutation (ord_c l) l) ->
  instrument ord_i ord_c infer m (std_ai on generic) only = IOk m' lib -> List.length (md_mems m) = 1 ->
  forall o, export_index 0 (md_funcs m) (fst (store_target o)) = None ->
  exists i, export_index 0 (md_funcs m') (fst (store_target o)) = Some i /\
  forall n a off align z s ftype callf, (0 <= a)%Z -> (0 <= off)%Z -> (a + off < 2 ^ 32)%Z ->
  let v := VNum (storeop_ty o) z in
  call_fn num1 num2 ext (md_funcs m') (S n) i [vi32 a; v; vi32 off] s =
  let* (_, st, _, s') := exec num1 num2 ftype callf (BStore o (MA align off)) [v; vi32 a] [] s in Ok (st, s').
Proof.
  intros X num1 num2 ext ord_i ord_c infer m on generic only m' lib Pi Pc E M1 o Nx0.
  assert (Ec : export_callee m generic (fst (store_target o)) = Some (CStore o)).
  { unfold export_callee. rewrite Nx0. destruct generic, o; reflexivity. }
  pose proof (@exported_rep X num1 num2 ext _ _ _ _ _ _ _ _ _ _ _ Pi Pc E Ec) as R. helper R M1.
  intros n a off align z s ftype callf A B AB v. unfold v. rewrite (@store_helper_call X num1 num2 ext _ _ _ n a off z s Nx), Z.mod_small by lia.
  cbn [exec]. assert (Et : forall o, numty_eqb (storeop_ty o) (storeop_ty o) = true) by (intros []; reflexivity). rewrite Et.
  cbn [exec pop_i32 vi32 rbind ma_offset]. destruct (st_mem s) as [me|]; [|reflexivity]. cbn [rget rbind].
  destruct (mem_store me _ _ _); reflexivity.
Qed.
Print Assumptions C27_store.
Theorem C27_grow_and_size : forall X num1 num2 (ext : string -> string -> list val -> xprog X)
    ord_i ord_c infer m on generic only m' lib,
  (forall l, Permutation (ord_i l) l) -> (forall l, Permutation (ord_c l) l) ->
  instrument ord_i ord_c infer m (std_ai on generic) only = IOk m' lib -> List.length (md_mems m) = 1 ->
  (export_index 0 (md_funcs m) "instrumented_memory_grow" = None ->
   exists i, export_index 0 (md_funcs m') "instrumented_memory_grow" = Some i /\
   forall n d idx s ftype callf,
   call_fn num1 num2 ext (md_funcs m') (S n) i [vi32 d; idx] s =
   let* (_, st, _, s') := exec num1 num2 ftype callf (BMemoryGrow 0) [vi32 d] [] s in Ok (st, s')) /\
  (export_index 0 (md_funcs m) "instrumented_memory_size" = None ->
   exists i, export_index 0 (md_funcs m') "instrumented_memory_size" = Some i /\
   forall n idx s ftype callf,
   call_fn num1 num2 ext (md_funcs m') (S n) i [idx] s =
   let* (_, st, _, s') := exec num1 num2 ftype callf (BMemorySize 0) [] [] s in Ok (st, s')).
Proof.
  intros X num1 num2 ext ord_i ord_c infer m on generic only m' lib Pi Pc E M1. split; intros Nx0.
  - assert (Ec : export_callee m generic "instrumented_memory_grow" = Some CGrow).
    { unfold export_callee. rewrite Nx0. destruct generic; reflexivity. }
    pose proof (@exported_rep X num1 num2 ext _ _ _ _ _ _ _ _ _ _ _ Pi Pc E Ec) as R. helper R M1.
    intros n d idx s ftype callf. cbn [call_fn]. rewrite Nx. cbn [snd rget rbind grow_helper fn_type fn_code ft_in List.length Nat.eqb].
    change (structure_untyped _) with (COk [UBasic (BLocal LGet 0); UBasic (BMemoryGrow 0)]).
    unfold invoke, run. cbn [run_seq run1 exec nth_error app map rget rbind next andthen pop_i32 vi32].
    destruct (st_mem s) as [me|]; [|reflexivity]. cbn [rget rbind]. destruct (mem_grow me d) as [w me']; reflexivity.
  - assert (Ec : export_callee m generic "instrumented_memory_size" = Some CSize).
    { unfold export_callee. rewrite Nx0. destruct generic; reflexivity. }
    pose proof (@exported_rep X num1 num2 ext _ _ _ _ _ _ _ _ _ _ _ Pi Pc E Ec) as R. helper R M1.
    intros n idx s ftype callf. cbn [call_fn]. rewrite Nx. cbn [snd rget rbind size_helper fn_type fn_code ft_in List.length Nat.eqb].
    change (structure_untyped _) with (COk [UBasic (BMemorySize 0)]).
    unfold invoke, run. cbn [run_seq run1 exec nth_error app map rget rbind next andthen pop_i32].
    destruct (st_mem s) as [me|]; reflexivity.
Qed.
Print Assumptions C27_grow_and_size.

(** The example module: all names free, one memory; a signed 16-bit load through the helper. *)
Definition ex_bytes (a : Z) : Z := if (a =? 21)%Z then 254 else if (a =? 22)%Z then 255 else 0.
Example ex_c27 :
  List.length (md_mems ex_module) = 1 /\
  (forall o, export_index 0 (md_funcs ex_module) (load_target o) = None) /\
  (forall o, export_index 0 (md_funcs ex_module) (fst (store_target o)) = None) /\
  match ex_out (fun _ => true) true None with
  | Some m' => exists i, export_index 0 (md_funcs m') (load_target I32Load16S) = Some i /\
      call_fn ex_num1 ex_num2 (fun _ _ _ => XTrap) (md_funcs m') 1 i [vi32 16; vi32 5] (St (Some (MemSt 1 1 ex_bytes)) [] [] [] [] tt)
      = Ok ([vi32 (2 ^ 32 - 2)], St (Some (MemSt 1 1 ex_bytes)) [] [] [] [] tt)
  | None => False
  end.
Proof.
  split; [reflexivity|]. split; [intros []; reflexivity|]. split; [intros []; reflexivity|].
  destruct (ex_out (fun _ => true) true None) as [m'|] eqn:E; [|vm_compute in E; discriminate].
  assert (G : match ex_out (fun _ => true) true None with
    | Some m' => match export_index 0 (md_funcs m') (load_target I32Load16S) with
       | Some i => call_fn ex_num1 ex_num2 (fun _ _ _ => XTrap) (md_funcs m') 1 i [vi32 16; vi32 5] (St (Some (MemSt 1 1 ex_bytes)) [] [] [] [] tt)
          = Ok ([vi32 (2 ^ 32 - 2)], St (Some (MemSt 1 1 ex_bytes)) [] [] [] [] tt)
       | None => False end
    | None => False end) by (vm_compute; reflexivity).
  rewrite E in G. destruct (export_index 0 (md_funcs m') _) as [i|]; [|destruct G]. exists i. auto.
Qed.
