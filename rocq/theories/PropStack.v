(** Property theorems about the call-buffer library: C18 (round trip), C19 (separate frames),
    C20 (allocator overflow), C21 (symbol names), C22 (reference types). *)
From Coq Require Import Permutation.
From Verif Require Import Semantics Instrument InstrumentProofs ImportProofs Instantiate
  ExModule RsStdlib StackLib StackNames StackAsm StackRun StackOps StackSpec StackHist.
Local Open Scope string_scope.
Local Open Scope list_scope.
Local Open Scope res_scope.

Definition no_imports : provided := Imp (fun _ _ => None) (fun _ _ => None) (fun _ _ => None).
(** The generated library assembles, and this is its state when instantiated. *)
Definition lib_start {X} (x : X) : store X := L x 0 1 (fun _ => 0%Z).
Lemma lib_starts X (x : X) sigs : exists m, lib_module sigs = Some m /\ instantiate no_imports m x = Ok (lib_start x) /\ md_funcs m = lib_funcs sigs.
Proof. unfold lib_module. rewrite assemble_lib. eexists. split; [reflexivity|]. split; reflexivity. Qed.

(** ** C18: a slot holds what was written last, other slots are left alone; the numbered slots of
    the analysis are the same. [f] are the bytes of the library's memory, [q] any buffer in it. *)
Theorem C18_round_trip : forall X num1 num2 ext sigs ft, In ft sigs -> numeric_sig ft = true ->
  forall (x : X) p pg f q s i t v n,
  nth_error (side_types ft s) i = Some (TNum t) -> vals_ok [TNum t] [v] = true ->
  (0 <= q)%Z -> (q + Z.of_nat (List.length (ft_out ft) + List.length (ft_in ft)) * 8 <= pg * 65536)%Z -> (pg <= 65536)%Z -> 3 <= n ->
  let lib := lib_call num1 num2 ext sigs n in
  let before := L x p pg f in
  exists after,
    lib (op_name ft (LStore s i)) [vi32 q; v] before = Ok ([], after) /\
    lib (stack_store_name t) [vi32 q; v; vi32 (number ft s i)] before = Ok ([], after) /\
    lib (op_name ft (LLoad s i)) [vi32 q] after = Ok ([v], after) /\
    lib (stack_load_name t) [vi32 q; vi32 (number ft s i)] after = Ok ([v], after) /\
    forall s' j t', (s', j) <> (s, i) -> nth_error (side_types ft s') j = Some (TNum t') ->
      exists w,
        lib (op_name ft (LLoad s' j)) [vi32 q] before = Ok ([w], before) /\
        lib (stack_load_name t') [vi32 q; vi32 (number ft s' j)] before = Ok ([w], before) /\
        lib (op_name ft (LLoad s' j)) [vi32 q] after = Ok ([w], after) /\
        lib (stack_load_name t') [vi32 q; vi32 (number ft s' j)] after = Ok ([w], after).
Proof.
  intros X num1 num2 ext sigs ft Hft Nu x p pg f q s i t v n Et Ov Hq B Hpg Hn lib before.
  destruct n as [|[|[|n]]]; [lia..|]. destruct (@ok_val _ _ Ov) as [Tv Rv].
  destruct (@num_range t v Tv Rv) as (z & -> & Rz & R64 & Zs).
  fold (slots ft) in B.
  assert (Lt : forall s i t, nth_error (side_types ft s) i = Some (TNum t) ->
    (0 <= slot_of ft s i < slots ft)%Z /\ (addr q (slot_of ft s i) 8 = q + slot_of ft s i * 8)%Z).
  { intros s0 i0 t0 E0. assert (Li : i0 < List.length (side_types ft s0)) by (apply nth_error_Some; congruence).
    pose proof (slot_lt ft s0 Li). assert (0 <= slot_of ft s0 i0)%Z by (unfold slot_of; lia). split; [lia|].
    apply addr_small; lia. }
  assert (Ld : forall f s i t, nth_error (side_types ft s) i = Some (TNum t) ->
    lib (op_name ft (LLoad s i)) [vi32 q] (L x p pg f)
      = Ok ([VNum t (le_read f (q + slot_of ft s i * 8) 8 mod 2 ^ bits t)], L x p pg f) /\
    lib (stack_load_name t) [vi32 q; vi32 (number ft s i)] (L x p pg f)
      = Ok ([VNum t (le_read f (q + slot_of ft s i * 8) 8 mod 2 ^ bits t)], L x p pg f)).
  { intros f0 s0 i0 t0 E0. destruct (Lt _ _ _ E0) as [R0 A0]. unfold lib. split.
    - rewrite (@names ft _ Nu). pose proof (@op_load X num1 num2 ext sigs ft Hft n x p pg f0 s0 i0 q t0 E0) as O.
      unfold lib_op in O. rewrite O. cbv zeta. rewrite A0. destruct (Z.leb_spec (q + slot_of ft s0 i0 * 8 + 8) (pg * 65536)); [reflexivity|lia].
    - rewrite number_slot, analysis_load. cbv zeta. rewrite A0.
      destruct (Z.leb_spec (q + slot_of ft s0 i0 * 8 + 8) (pg * 65536)); [reflexivity|lia]. }
  destruct (Lt _ _ _ Et) as [R0 A0].
  assert (Sr : store_result x p pg f (addr q (slot_of ft s i) 8) z = Ok ([], L x p pg (le_write f (q + slot_of ft s i * 8) 8 z))).
  { unfold store_result. rewrite A0. destruct (Z.leb_spec (q + slot_of ft s i * 8 + 8) (pg * 65536)); [reflexivity|lia]. }
  exists (L x p pg (le_write f (q + slot_of ft s i * 8) 8 z)). split; [|split; [|split; [|split]]].
  - unfold lib, before. rewrite (@names ft _ Nu). pose proof (@op_store X num1 num2 ext sigs ft Hft n x p pg f s i q t z Et) as O.
    unfold lib_op in O. now rewrite O.
  - unfold lib, before. now rewrite number_slot, analysis_store.
  - rewrite (proj1 (Ld _ _ _ _ Et)). rewrite le_read_write_small by (rewrite pow_256_8; exact R64). now rewrite Zs.
  - rewrite (proj2 (Ld _ _ _ _ Et)). rewrite le_read_write_small by (rewrite pow_256_8; exact R64). now rewrite Zs.
  - intros s' j t' Ne Et'. unfold before. destruct (Lt _ _ _ Et') as [R1 _].
    destruct (Ld f _ _ _ Et') as [L1 L2], (Ld (le_write f (q + slot_of ft s i * 8) 8 z) _ _ _ Et') as [L3 L4].
    rewrite L1, L2, L3, L4. eexists. split; [reflexivity|]. split; [reflexivity|].
    rewrite le_read_write_other; [split; reflexivity|].
    assert (D : slot_of ft s' j <> slot_of ft s i).
    { unfold slot_of. intros Q. apply Nat2Z.inj in Q.
      assert (Lj : j < List.length (side_types ft s')) by (apply nth_error_Some; congruence).
      assert (Li : i < List.length (side_types ft s)) by (apply nth_error_Some; congruence).
      destruct s, s'; cbn [slot side_types] in *; try lia; apply Ne; f_equal; lia. }
    change (Z.of_nat 8) with 8%Z. lia.
Qed.
Print Assumptions C18_round_trip.
(** A signalling NaN in the second argument of a function with a result. *)
Example ex_c18 :
  let ft := FT [TNum TI32; TNum TF64] [TNum TI64] in
  In ft [ft] /\ numeric_sig ft = true /\ nth_error (side_types ft SArg) 1 = Some (TNum TF64) /\
  vals_ok [TNum TF64] [VNum TF64 9218868437227405313%Z] = true /\
  number ft SArg 1 = 2%Z /\ (0 <= 16)%Z /\ (16 + Z.of_nat (List.length (ft_out ft) + List.length (ft_in ft)) * 8 <= 1 * 65536)%Z.
Proof. cbn. repeat split; try (now left); lia. Qed.

(** ** C19: over any history that fits, the library behaves as a stack of separate frames: all
    observations are those of the ideal, live buffers do not overlap, and the free pointer is
    the number of live bytes. *)
Definition uses_only (sigs : list functy) (es : list ev) : Prop := forall ft, In ft (entered es) -> In ft sigs.
Definition free_pointer {X} (s : store X) : option val := nth_error (st_globals s) 0.

Lemma start_inv sigs : Inv sigs [] [] 0 1 (fun _ => 0%Z).
Proof. split; [constructor|]. lia. Qed.

Theorem C19_separate_frames : forall X num1 num2 ext sigs n (x : X) es obs ifs,
  uses_only sigs es -> ideal es [] = Some (obs, ifs) -> (peak es [] <= limit)%Z -> (70010 <= Z.of_nat n)%Z ->
  exists vs frs s,
    perform (lib_call num1 num2 ext sigs n) es [] (lib_start x) = Ok (vs, frs, s) /\
    Forall2 sees obs vs /\
    map (fun fr => fst (fst fr)) frs = map if_type ifs /\
    all_apart (buffers frs) /\
    free_pointer s = Some (vi32 (live (map if_type ifs))).
Proof.
  intros X num1 num2 ext sigs n x es obs ifs U I P N.
  destruct (@history_ok X num1 num2 ext sigs n es [] [] obs ifs x 0 1 (fun _ => 0%Z) N (start_inv sigs) I U (or_intror P))
    as [(vs & frs & p & pg & f & E & O & (Iv & _ & _) & _)|(s & _ & C)]; [|cbn [map] in C; lia].
  exists vs, frs, (L x p pg f). split; [exact E|]. split; [exact O|]. split; [|split].
  - clear - Iv. induction Iv as [|frs ifs p [[ft q] qt] ifr I IH F P]; [reflexivity|]. destruct P as [-> _]. cbn. now rewrite IH.
  - apply ord_apart. exact (proj1 (inv_apart num1 num2 Iv)).
  - pose proof (inv_live num1 num2 Iv) as Lv. cbn. now rewrite Lv.
Qed.
Print Assumptions C19_separate_frames.
(** In particular, when every call has returned the allocator is where it was at the start. *)
Corollary C19_released : forall X num1 num2 ext sigs n (x : X) es obs,
  uses_only sigs es -> ideal es [] = Some (obs, []) -> (peak es [] <= limit)%Z -> (70010 <= Z.of_nat n)%Z ->
  exists vs s, perform (lib_call num1 num2 ext sigs n) es [] (lib_start x) = Ok (vs, [], s) /\
    Forall2 sees obs vs /\ free_pointer s = free_pointer (lib_start x).
Proof.
  intros X num1 num2 ext sigs n x es obs U I P N.
  destruct (@C19_separate_frames X num1 num2 ext sigs n x es obs [] U I P N) as (vs & frs & s & E & O & M & _ & F).
  destruct frs; [|discriminate]. eauto.
Qed.
Print Assumptions C19_released.
(** A nested call between writing and reading; the outer call then sees its own values. *)
Definition ft_outer := FT [TNum TI32; TNum TF32] [TNum TI64].
Definition ft_inner := FT [TNum TF64] [TNum TF64; TNum TI32].
Definition ex_history : list ev :=
  [EEnter ft_outer [VNum TI32 7; VNum TF32 2143289345]; EStore true 0 SRet 0 (VNum TI64 99);
   EEnter ft_inner [VNum TF64 5]; EResults 0 [VNum TF64 1; VNum TI32 2]; EStore false 1 SArg 0 (VNum TI32 8);
   ELoad false 0 SRet 1; EType 1 1; ELoad true 1 SArg 1; ELeave;
   ELoad true 0 SRet 0; ELoad false 0 SArg 0; ELeave]%Z.
Example ex_c19 :
  ideal ex_history [] = Some ([Some (VNum TI32 2); Some (VNum TI32 0); Some (VNum TF32 2143289345); Some (VNum TI64 99); Some (VNum TI32 8)]%Z, []) /\
  (peak ex_history [] = 72)%Z /\ uses_only [ft_inner; ft_outer] ex_history.
Proof. split; [reflexivity|]. split; [reflexivity|]. intros ft [<-|[<-|[]]]; cbn; auto. Qed.

(** ** C20: the free pointer is advanced modulo 2^32 before it is compared with the size of the
    memory. Below 8192 slots per signature a history that does not fit traps; *)
Theorem C20_bounded_signatures : forall X num1 num2 ext sigs n (x : X) es obs ifs,
  uses_only sigs es -> ideal es [] = Some (obs, ifs) -> (70010 <= Z.of_nat n)%Z ->
  (forall ft, In ft (entered es) -> List.length (ft_out ft) + List.length (ft_in ft) < Z.to_nat 8192) ->
  (exists vs frs s, perform (lib_call num1 num2 ext sigs n) es [] (lib_start x) = Ok (vs, frs, s) /\
     Forall2 sees obs vs /\ all_apart (buffers frs) /\ (peak es [] <= limit)%Z) \/
  (exists s, perform (lib_call num1 num2 ext sigs n) es [] (lib_start x) = Trap s /\ (limit < peak es [])%Z).
Proof.
  intros X num1 num2 ext sigs n x es obs ifs U I N Small.
  assert (Sm : forall ft, In ft (entered es) -> (slots ft <= 8191)%Z) by (intros ft H; specialize (Small ft H); unfold slots; lia).
  destruct (@history_ok X num1 num2 ext sigs n es [] [] obs ifs x 0 1 (fun _ => 0%Z) N (start_inv sigs) I U (or_introl Sm))
    as [(vs & frs & p & pg & f & E & O & (Iv & _ & _) & P)|(s & E & C)].
  - left. exists vs, frs, (L x p pg f). split; [exact E|]. split; [exact O|]. split; [|exact P].
    apply ord_apart. exact (proj1 (inv_apart num1 num2 Iv)).
  - right. eauto.
Qed.
Print Assumptions C20_bounded_signatures.

(** and at 8192 slots the allocator can hand out a buffer that is in use. *)
Definition deep : nat := Z.to_nat 357908480.
Lemma deep_slots : (12 * Z.of_nat deep = limit)%Z.
Proof. unfold deep. rewrite Z2Nat.id by discriminate. reflexivity. Qed.
Opaque deep op_name lib_name.
Definition ft_one := FT [] [TNum TI64].
Definition ft_wide := FT [] (repeat (TNum TI64) (Z.to_nat 8192)).
Definition wrapping (deep : nat) : list ev :=
  [EEnter ft_one []; EResults 0 [VNum TI64 0]] ++ repeat (EEnter ft_one []) (deep - 1).
Definition overlapping (deep : nat) : list ev := wrapping deep ++ [EEnter ft_wide []; ELoad true deep SRet 0].

Lemma ideal_app es1 es2 st o1 st1 o2 st2 : ideal es1 st = Some (o1, st1) -> ideal es2 st1 = Some (o2, st2) ->
  ideal (es1 ++ es2) st = Some (o1 ++ o2, st2).
Proof.
  revert st o1. induction es1 as [|e es1 IH]; intros st o1 E1 E2.
  - now injection E1 as <- <-.
  - cbn [app ideal] in *. destruct (ideal_step e st) as [[o st']|]; [|discriminate].
    destruct (ideal es1 st') as [[os st'']|] eqn:E; [|discriminate]. injection E1 as <- <-.
    erewrite IH; [|exact E|exact E2]. now rewrite app_assoc.
Qed.
Lemma perform_app X num1 num2 ext sigs n es1 es2 frs (s : store X) v1 frs1 s1 :
  perform (lib_call num1 num2 ext sigs n) es1 frs s = Ok (v1, frs1, s1) ->
  perform (lib_call num1 num2 ext sigs n) (es1 ++ es2) frs s
  = let* (v2, frs2, s2) := perform (lib_call num1 num2 ext sigs n) es2 frs1 s1 in Ok (v1 ++ v2, frs2, s2).
Proof.
  revert frs s v1. induction es1 as [|e es1 IH]; intros frs s v1 E.
  - injection E as <- <- <-. cbn [app]. destruct (perform _ es2 frs s) as [[[v2 frs2] s2]| | |]; reflexivity.
  - cbn [app perform] in *. destruct (perform_step (lib_call num1 num2 ext sigs n) e frs s) as [[[v frs'] s']| | |]; try discriminate. cbn [rbind] in *.
    destruct (perform (lib_call num1 num2 ext sigs n) es1 frs' s') as [[[w frs''] s'']| | |] eqn:E'; try discriminate. cbn [rbind] in E.
    injection E as <- <- <-. rewrite (IH _ _ _ E').
    destruct (perform _ es2 frs'' s'') as [[[v2 frs2] s2]| | |]; cbn [rbind]; try reflexivity. now rewrite app_assoc.
Qed.
Lemma ideal_deep k st : ideal (repeat (EEnter ft_one []) k) st = Some ([], repeat (IF ft_one [None] []) k ++ st).
Proof.
  revert st. induction k as [|k IH]; intros st; [reflexivity|]. cbn [repeat ideal]. cbn [ideal_step].
  change (numeric_sig ft_one && vals_ok (ft_in ft_one) []) with true. cbv iota. cbn [ft_out ft_one List.length repeat map].
  rewrite IH. cbn [app]. do 2 f_equal. change (IF ft_one [None] [] :: st) with ([IF ft_one [None] []] ++ st).
  rewrite app_assoc. change (IF ft_one [None] [] :: repeat (IF ft_one [None] []) k) with (repeat (IF ft_one [None] []) (S k)).
  now rewrite <- repeat_cons.
Qed.
Lemma peak_deep k st : (peak (repeat (EEnter ft_one []) k) st = live st + 12 * Z.of_nat k)%Z.
Proof.
  revert st. induction k as [|k IH]; intros st; [cbn; lia|]. cbn [repeat peak]. rewrite IH. cbn [live].
  change (frame_bytes ft_one) with 12%Z. lia.
Qed.
Lemma live_deep k : (live (repeat ft_one k) = 12 * Z.of_nat k)%Z.
Proof. induction k as [|k IH]; [reflexivity|]. cbn [repeat live]. rewrite IH. change (frame_bytes ft_one) with 12%Z. lia. Qed.
Lemma live_app u v : (live (u ++ v) = live u + live v)%Z.
Proof. induction u as [|a u IH]; cbn [app live]; lia. Qed.
Lemma map_repeat' {A B} (g : A -> B) a k : map g (repeat a k) = repeat (g a) k.
Proof. induction k; cbn; congruence. Qed.
Lemma le_read_8 f a : (le_read f a 8 = le_read f a 4 + 2 ^ 32 * le_read f (a + 4) 4)%Z.
Proof. cbn [le_read]. replace (a + 4 + 1)%Z with (a + 1 + 1 + 1 + 1 + 1)%Z by lia.
  replace (a + 4)%Z with (a + 1 + 1 + 1 + 1)%Z by lia. lia. Qed.
Lemma inv_last sigs f b frs ifs ifr p : inv sigs f b frs (ifs ++ [ifr]) p ->
  exists frs0 fr, frs = frs0 ++ [fr] /\ List.length frs0 = List.length ifs /\ points fr (if_type ifr) b.
Proof.
  revert frs p. induction ifs as [|i ifs IH]; intros frs p I; cbn [app] in I.
  - inversion I as [|frs0 ifs0 p0 fr i0 I0 F P]; subst. inversion I0; subst. exists [], fr. auto.
  - inversion I as [|frs0 ifs0 p0 fr i0 I0 F P]; subst. destruct (IH _ _ I0) as (frs1 & fr1 & -> & Ln & P1).
    exists (fr :: frs1), fr1. cbn. auto.
Qed.
Lemma wide_slots : slots ft_wide = 8192%Z.
Proof. unfold slots, ft_wide. cbn [ft_out ft_in List.length]. rewrite repeat_length. lia. Qed.
Lemma ideal_wrapping deep : ideal (wrapping deep) [] = Some ([], repeat (IF ft_one [None] []) (deep - 1) ++ [IF ft_one [Some (VNum TI64 0)] []]).
Proof.
  unfold wrapping. change (@nil (option val)) with (@nil (option val) ++ []). eapply ideal_app; [reflexivity|]. apply ideal_deep.
Qed.

Lemma wide_numeric : numeric_sig ft_wide = true.
Proof.
  unfold numeric_sig, ft_wide. cbn [ft_out ft_in existsb negb]. rewrite andb_true_r. apply negb_true_iff.
  generalize (Z.to_nat 8192). intros k. induction k; [reflexivity|]. cbn. exact IHk.
Qed.
Lemma wide_codes j : j < 2 -> nth_error (map runtime_enum_value (ft_out ft_wide ++ ft_in ft_wide)) j = Some 2%Z.
Proof. intros Hj. unfold ft_wide. cbn [ft_out ft_in]. rewrite app_nil_r, map_repeat'. apply nth_error_repeat. lia. Qed.
Lemma wide_step X num1 num2 ext sigs ft_wide n (x : X) frs0 deep f f' : numeric_sig ft_wide = true -> slots ft_wide = 8192%Z -> ft_in ft_wide = [] ->
  (forall j, j < 2 -> nth_error (map runtime_enum_value (ft_out ft_wide ++ ft_in ft_wide)) j = Some 2%Z) -> enough n -> In ft_wide sigs -> S (List.length frs0) = deep ->
  f' = write_types f 0 0 (map runtime_enum_value (ft_out ft_wide ++ ft_in ft_wide)) ->
  perform (lib_call num1 num2 ext sigs (S (S (S (S n))))) [EEnter ft_wide []; ELoad true deep SRet 0]
                 (frs0 ++ [(ft_one, 0, 0 + slots ft_one * 8)%Z]) (L x limit 65535 f)
               = Ok ([VNum TI64 (2 + 2 ^ 32 * 2)], (ft_wide, limit, 0%Z) :: frs0 ++ [(ft_one, 0, 0 + slots ft_one * 8)%Z],
                     L x 32768 65535 f').
Proof.
  intros Nw Ws Ni N0 En Iw Ln Ef.
  cbn [perform perform_step]. rewrite (@names ft_wide LAlloc Nw), (@names ft_wide LAllocTypes Nw).
    pose proof (@op_alloc_results X num1 num2 ext sigs ft_wide Iw n x limit 65535 f En) as A. unfold lib_op in A.
    rewrite A; [|unfold limit; lia|lia|exact Ni|lia]. clear A. rewrite Ws. unfold alloc_result.
    change ((limit + (8192 * 8) mod 2 ^ 32) mod 2 ^ 32)%Z with 0%Z. cbv zeta. change (0 <=? limit)%Z with true. cbv iota.
    cbn [rbind pointer rget vi32]. change (pages_for 0 65535) with 65535%Z.
    assert (En' : enough (S n)) by (unfold enough in *; lia).
    pose proof (@op_alloc_types X num1 num2 ext sigs ft_wide Iw (S n) x 0 65535 f En') as A. unfold lib_op in A.
    rewrite A by (rewrite ?Ws; lia). clear A. rewrite Ws. change (0 + 8192 * 4 <=? limit)%Z with true. change (8192 =? 0)%Z with false. cbv iota.
    cbn [rbind pointer rget vi32]. change (0 + 8192 * 4)%Z with 32768%Z. change (pages_for 32768 65535) with 65535%Z. rewrite <- Ef.
    assert (Nd : @nth_error frame ((ft_wide, limit, 0%Z) :: frs0 ++ [(ft_one, 0%Z, (0 + slots ft_one * 8)%Z)]) deep
                 = Some (ft_one, 0, 0 + slots ft_one * 8)%Z).
    { replace deep with (S (List.length frs0)) by exact Ln. cbn [nth_error].
      rewrite nth_error_app2 by lia. now rewrite Nat.sub_diag. }
    rewrite Nd. cbn [side_type side_types nth_error ft_one ft_out rget rbind number].
    rewrite analysis_load. cbv zeta. change (addr 0 (Z.of_nat 0) 8) with 0%Z. change (0 + 8 <=? 65535 * 65536)%Z with true. cbv iota.
    pose proof (@write_types_read f 0 0 _ 0 2 ltac:(lia) (N0 0 ltac:(lia)) ltac:(lia)) as R0.
    pose proof (@write_types_read f 0 0 _ 1 2 ltac:(lia) (N0 1 ltac:(lia)) ltac:(lia)) as R1.
    rewrite <- Ef in R0, R1. change (0 + (0 + Z.of_nat 0) * 4)%Z with 0%Z in R0. change (0 + (0 + Z.of_nat 1) * 4)%Z with (0 + 4)%Z in R1.
    rewrite le_read_8, R0, R1. cbn [rbind app]. reflexivity.
Qed.
Lemma overlap : forall X num1 num2 ext n (x : X), (70010 <= Z.of_nat n)%Z -> forall deep, (12 * Z.of_nat deep = limit)%Z ->
  uses_only [ft_one; ft_wide] (overlapping deep) /\
  exists obs ifs vs frs s,
    ideal (overlapping deep) [] = Some (obs, ifs) /\
    perform (lib_call num1 num2 ext [ft_one; ft_wide] n) (overlapping deep) [] (lib_start x) = Ok (vs, frs, s) /\
    ~ Forall2 sees obs vs /\ ~ all_apart (buffers frs).
Proof.
  intros X num1 num2 ext n x N deep D. set (sigs := [ft_one; ft_wide]).
  assert (Es : forall ft, In ft (entered (wrapping deep)) -> ft = ft_one).
  { intros ft I. unfold entered, wrapping in I. cbn [app flat_map] in I. destruct I as [<-|I]; [reflexivity|].
    apply in_flat_map in I. destruct I as (e & J & I). apply repeat_spec in J. subst e. destruct I as [<-|[]]. reflexivity. }
  assert (U0 : uses_only sigs (wrapping deep)) by (intros ft I; rewrite (Es ft I); now left).
  split.
  { intros ft I. unfold overlapping, entered in I. rewrite flat_map_app in I. apply in_app_or in I. destruct I as [I|I].
    - now apply U0.
    - cbn in I. destruct I as [<-|[]]. right. now left. }
  assert (P0 : (peak (wrapping deep) [] <= limit)%Z).
  { unfold wrapping. cbn [app peak]. rewrite peak_deep. cbn [live]. change (frame_bytes ft_one) with 12%Z. unfold limit in *. lia. }
  destruct (@history_ok X num1 num2 ext sigs n (wrapping deep) [] [] [] _ x 0 1 (fun _ => 0%Z) N (start_inv sigs) (ideal_wrapping deep) U0 (or_intror P0))
    as [(vs & frs & p & pg & f & E & O & (Iv & Pg & Pp) & _)|(s & _ & C)]; [|cbn [map] in C; lia].
  inversion O; subst vs. clear O.
  destruct (@inv_last _ _ _ _ _ _ _ Iv) as (frs0 & [[ft q] qt] & -> & Ln & Pt). rewrite repeat_length in Ln.
  cbn [points if_type] in Pt. destruct Pt as [-> [Pt _]]. destruct Pt as [-> ->]; [discriminate|].
  assert (Ep : p = limit).
  { apply (inv_live num1 num2) in Iv. rewrite Iv, map_app, map_repeat'. cbn [map if_type].
    rewrite live_app, live_deep. cbn [live]. change (frame_bytes ft_one) with 12%Z. unfold limit in *. lia. }
  subst p. assert (pg = 65535)%Z by (unfold limit in Pp; lia). subst pg.
  set (f' := write_types f 0 0 (map runtime_enum_value (ft_out ft_wide ++ ft_in ft_wide))).
  assert (Nw : numeric_sig ft_wide = true).
  { unfold numeric_sig, ft_wide. cbn [ft_out ft_in existsb negb]. rewrite andb_true_r. apply negb_true_iff.
    generalize (Z.to_nat 8192). induction n0; [reflexivity|]. cbn. exact IHn0. }
  assert (Iw : In ft_wide sigs) by (right; now left).
  pose proof wide_slots as Ws.
  destruct n as [|[|[|[|n]]]]; [lia..|].
  assert (En : enough n) by (unfold enough; lia).
  assert (Ln' : S (List.length frs0) = deep) by (rewrite Ln; unfold limit in D; lia).
  pose proof (@wide_step X num1 num2 ext sigs ft_wide n x frs0 deep f f' Nw Ws eq_refl wide_codes En Iw Ln' eq_refl) as E1.
  pose proof (@ideal_app (wrapping deep) [EEnter ft_wide []; ELoad true deep SRet 0] [] [] _
    [Some (VNum TI64 0)] (IF ft_wide (repeat None (List.length (ft_out ft_wide))) [] :: repeat (IF ft_one [None] []) (deep - 1) ++ [IF ft_one [Some (VNum TI64 0)] []]) (ideal_wrapping deep)) as I1.
  eexists _, _, _, _, _. split; [|split; [|split]].
  - apply I1. cbn [ideal ideal_step]. rewrite Nw. change (vals_ok (ft_in ft_wide) []) with true. cbn [andb map].
    assert (Nd : nth_error (IF ft_wide (repeat None (List.length (ft_out ft_wide))) [] :: repeat (IF ft_one [None] []) (deep - 1) ++ [IF ft_one [Some (VNum TI64 0)] []]) deep
                 = Some (IF ft_one [Some (VNum TI64 0)] [])).
    { replace deep with (S (deep - 1)) at 2 by (unfold limit in D; lia). cbn [nth_error].
      rewrite nth_error_app2 by (rewrite repeat_length; lia). rewrite repeat_length. now rewrite Nat.sub_diag. }
    rewrite Nd. reflexivity.
  - unfold overlapping. unfold lib_start. erewrite perform_app; [|exact E]. unfold sigs, frame in *. rewrite E1. reflexivity.
  - cbn [app]. intros F. inversion F as [|? ? ? ? Q _]. discriminate Q.
  - intros A. unfold buffers in A. cbn [flat_map app] in A. rewrite flat_map_app in A. cbn [flat_map app] in A.
    match type of A with all_apart (_ :: _ :: ?l ++ _) => specialize (A 1 (2 + List.length l) _ (0%Z, (8 * Z.of_nat (List.length (ft_out ft_one) + List.length (ft_in ft_one)))%Z) eq_refl) end.
    cbn [Nat.add nth_error] in A. rewrite nth_error_app2 in A by lia. rewrite Nat.sub_diag in A. specialize (A eq_refl ltac:(discriminate)).
    unfold apart in A. cbn [fst snd] in A. fold (slots ft_wide) in A. rewrite Ws in A. cbn in A. lia.
Qed.
Theorem C20_refuted : forall X num1 num2 ext n (x : X), (70010 <= Z.of_nat n)%Z ->
  uses_only [ft_one; ft_wide] (overlapping deep) /\
  exists obs ifs vs frs s,
    ideal (overlapping deep) [] = Some (obs, ifs) /\
    perform (lib_call num1 num2 ext [ft_one; ft_wide] n) (overlapping deep) [] (lib_start x) = Ok (vs, frs, s) /\
    ~ Forall2 sees obs vs /\ ~ all_apart (buffers frs).
Proof.
  intros X num1 num2 ext n x N. apply overlap; [exact N|exact deep_slots].
Qed.
Print Assumptions C20_refuted.
Transparent op_name lib_name.

(** ** C21: symbols of the library *)
Theorem C21_names_distinct : forall ft o ft' o', op_name ft o = op_name ft' o' -> ft = ft' /\ o = o'.
Proof. intros. now apply op_name_inj. Qed.
Print Assumptions C21_names_distinct.
(** The mangling has no separator between slot numbers and sides other than the words themselves. *)
Example ex_c21 :
  op_name (FT [t_i32] [t_i32; TNum TF64]) (LLoad SArg 12) = "load_arg12_ret_i32_f64_arg_i32" /\
  op_name (FT [TNum TF64; t_i32] [t_i32]) (LLoad SArg 12) = "load_arg12_ret_i32_arg_f64_i32" /\
  op_name (FT [t_i32] []) LAllocTypes = "allocate_types_ret_arg_i32".
Proof. repeat split; reflexivity. Qed.

Lemma selected_numeric m only i f : selected_incl m only i = true -> nth_error (md_funcs m) i = Some f -> numeric_sig (fn_type f) = true.
Proof.
  unfold selected_incl. intros Sel N. rewrite N in Sel. unfold numeric_sig.
  apply andb_true_iff in Sel. destruct Sel as [Sel _]. apply negb_true_iff in Sel. unfold uses_refs in Sel.
  apply orb_false_iff in Sel. destruct Sel as [-> ->]. reflexivity.
Qed.

Theorem C22_signatures_numeric : forall ord_i ord_c infer m ai only m' sigs,
  (forall l, Permutation (ord_i l) l) -> (forall l, Permutation (ord_c l) l) ->
  instrument ord_i ord_c infer m ai only = IOk m' (Some sigs) ->
  forall sg, In sg sigs -> forall o, lib_name sg o = op_name sg o.
Proof.
  intros ord_i ord_c infer m ai only m' sigs Pi Pc E sg I o.
  destruct (@import_origin ord_i ord_c infer m ai only m' (Some sigs) Pi Pc E) as [_ Sel].
  destruct (Sel _ _ eq_refl I) as (i & f & S & N & <-). symmetry. apply names. eapply selected_numeric; eassumption.
Qed.
Print Assumptions C22_signatures_numeric.

(** The library has a function of the right type for every operation on every signature it is generated for. *)
Lemma op_exported sigs ft o : In ft sigs -> In o (sig_ops ft) ->
  exists k f, export_index 0 (lib_funcs sigs) (lib_name ft o) = Some k /\ nth_error (lib_funcs sigs) k = Some f /\ fn_type f = libop_type ft o.
Proof.
  intros I Io.
  assert (W : exists w, In w (special_fns ft) /\ w_export w = Some (lib_name ft o) /\ w_type w = libop_type ft o).
  { unfold sig_ops in Io.
    assert (Hs : forall mk mkf ts, In o (side_ops mk ts) -> (forall j t, nth_error ts j = Some t -> w_export (mkf (j, t)) = Some (lib_name ft (mk j)) /\ w_type (mkf (j, t)) = libop_type ft (mk j)) ->
       incl (map mkf (enum ts)) (special_fns ft) -> exists w, In w (special_fns ft) /\ w_export w = Some (lib_name ft o) /\ w_type w = libop_type ft o).
    { intros mk mkf ts J Ok_ Inc. unfold side_ops in J. apply in_map_iff in J. destruct J as (j & <- & J). apply in_seq in J.
      destruct (nth_error ts j) as [t|] eqn:Ej; [|apply nth_error_None in Ej; lia].
      exists (mkf (j, t)). split; [apply Inc; apply in_map; now apply enum_in|]. now apply Ok_. }
    apply in_app_or in Io. destruct Io as [Io|Io].
    { cbn in Io. destruct Io as [<-|[<-|[<-|[<-|[]]]]].
      - exists (allocate_fn ft). split; [|split; reflexivity]. unfold special_fns. apply in_or_app. left. now left.
      - exists (free_fn ft). split; [|split; reflexivity]. unfold special_fns. do 5 (apply in_or_app; right). cbn. tauto.
      - exists (allocate_types_fn ft). split; [unfold special_fns; do 5 (apply in_or_app; right); cbn; tauto|].
        unfold allocate_types_fn. destruct (Nat.eqb _ _); split; reflexivity.
      - exists (free_types_fn ft). split; [|split; reflexivity]. unfold special_fns. do 5 (apply in_or_app; right). cbn. tauto. }
    unfold special_fns. apply in_app_or in Io. destruct Io as [Io|Io].
    { eapply (Hs (LLoad SArg) (load_fn ft SArg)); [exact Io| |].
      - intros j t Ej. cbn. now rewrite Ej.
      - intros w Hw. unfold special_fns. apply in_or_app. right. apply in_or_app. now left. }
    apply in_app_or in Io. destruct Io as [Io|Io].
    { eapply (Hs (LLoad SRet) (load_fn ft SRet)); [exact Io| |].
      - intros j t Ej. cbn. now rewrite Ej.
      - intros w Hw. unfold special_fns. do 2 (apply in_or_app; right). apply in_or_app. now left. }
    apply in_app_or in Io. destruct Io as [Io|Io].
    { eapply (Hs (LStore SArg) (store_fn ft SArg)); [exact Io| |].
      - intros j t Ej. cbn. now rewrite Ej.
      - intros w Hw. unfold special_fns. do 3 (apply in_or_app; right). apply in_or_app. now left. }
    apply in_app_or in Io. destruct Io as [Io|Io].
    { eapply (Hs (LStore SRet) (store_fn ft SRet)); [exact Io| |].
      - intros j t Ej. cbn. now rewrite Ej.
      - intros w Hw. unfold special_fns. do 4 (apply in_or_app; right). apply in_or_app. now left. }
    destruct Io as [<-|[]]. exists (store_rets_fn ft). split; [|split; reflexivity]. do 5 (apply in_or_app; right). cbn. tauto. }
  destruct W as (w & Iw & Ex & T).
  destruct (@fn_exported sigs w _ (@special_in sigs ft w I Iw) Ex) as (k & A & B).
  exists k, (resolve_fn (index_of (generate_lib sigs)) w). split; [exact A|]. split; [exact B|]. exact T.
Qed.

Definition imports (m : module) (ft : functy) (ns nm : string) : Prop :=
  exists f, In f (md_funcs m) /\ fn_type f = ft /\ fn_code f = FImport ns nm.
Theorem C21_imports_exported : forall ord_i ord_c infer m ai only m' lib,
  (forall l, Permutation (ord_i l) l) -> (forall l, Permutation (ord_c l) l) ->
  (forall ft nm, ~ imports m ft stack_ns nm) ->
  instrument ord_i ord_c infer m ai only = IOk m' lib ->
  forall ft nm, imports m' ft stack_ns nm ->
  exists sigs lm k f, lib = Some sigs /\ lib_module sigs = Some lm /\
    export_index 0 (md_funcs lm) nm = Some k /\ nth_error (md_funcs lm) k = Some f /\ fn_type f = ft.
Proof.
  intros ord_i ord_c infer m ai only m' lib Pi Pc Ni E ft nm (g & Ig & Tg & Cg).
  destruct (@import_origin ord_i ord_c infer m ai only m' lib Pi Pc E) as [Or _].
  assert (By : imported_by (md_funcs m') ft stack_ns nm).
  { apply In_nth_error in Ig. destruct Ig as (i & Ig). exists i, (fn_exports g). rewrite Ig. destruct g; cbn in *; congruence. }
  destruct (Or _ _ _ By) as [(i & ex & N)|h e _ _ Q _|e b _ _ Q _|sg o Is Io -> _ ->].
  - exfalso. apply nth_error_In in N. apply (Ni ft nm). exists (Fn ft (FImport stack_ns nm) ex). auto.
  - discriminate Q.
  - discriminate Q.
  - destruct lib as [sigs|]; [|destruct Is]. destruct (@lib_starts unit tt sigs) as (lm & El & _ & Ef).
    destruct (@op_exported sigs sg o Is Io) as (k & f & A & B & C). exists sigs, lm, k, f. rewrite Ef.
    rewrite <- (@C22_signatures_numeric _ _ _ _ _ _ _ _ Pi Pc E sg Is o). auto.
Qed.
Print Assumptions C21_imports_exported.

(** ** C22: with reference types the two manglings differ. *)
Theorem C22_refuted : exists ft o lm, In o (sig_ops ft) /\ lib_module [ft] = Some lm /\
  export_index 0 (md_funcs lm) (op_name ft o) = None.
Proof.
  exists (FT [TRef FuncRef] []), LAlloc. unfold lib_module. rewrite assemble_lib. eexists. split; [cbn; auto|]. split; [reflexivity|]. vm_compute. reflexivity.
Qed.
Print Assumptions C22_refuted.

(** The module of [ex_instrumented] imports operations for the signature of its functions. *)
Example ex_c21_imports :
  match instrument ex_id ex_id ex_types ex_module (std_ai (fun _ => true) true) (Some [2; 1; 0; 3]) with
  | IOk m' (Some sigs) =>
      In ex_i32_1 sigs /\
      existsb (fun f => match fn_code f with FImport ns nm => String.eqb ns stack_ns && String.eqb nm (op_name ex_i32_1 (LLoad SArg 0)) | _ => false end)
        (md_funcs m') = true
  | _ => False
  end /\
  (forall ft nm, ~ imports ex_module ft stack_ns nm) /\ (forall l, Permutation (ex_id l) l).
Proof.
  split; [vm_compute; auto|]. split; [|apply Permutation_refl].
  intros ft nm (f & I & _ & C). cbn in I. repeat (destruct I as [<-|I]; [discriminate C|]). destruct I.
Qed.
