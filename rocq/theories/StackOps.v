(** What the exported functions of the generated call-buffer library do. *)
From Verif Require Import StackLib StackNames StackAsm RunLemmas StackRun RsStdlib.
Local Open Scope string_scope.
Local Open Scope list_scope.
Local Open Scope res_scope.

(** Consecutive slots. *)
Fixpoint write_slots (f : Z -> Z) (q k : Z) (zs : list Z) : Z -> Z :=
  match zs with
  | [] => f
  | z :: r => write_slots (le_write f (q + k * 8) 8 z) q (k + 1) r
  end%Z.
(** Memory after the type codes have been written from slot [k] on. *)
Fixpoint write_types (f : Z -> Z) (q k : Z) (zs : list Z) : Z -> Z :=
  match zs with
  | [] => f
  | z :: r => write_types (le_write f (q + k * 4) 4 z) q (k + 1) r
  end%Z.
(** Bits of a number. *)
Definition num_bits (v : val) : Z := match v with VNum _ z => z | VRef _ _ => 0 end.
(** No references. *)
Definition numeric (ts : list valty) : Prop := existsb is_ref ts = false.
(** Number of slots of a frame. *)
Definition slots (ft : functy) : Z := Z.of_nat (List.length (ft_out ft) + List.length (ft_in ft)).
(** Types of one side. *)
Definition side_types (ft : functy) (s : side) : list valty := match s with SArg => ft_in ft | SRet => ft_out ft end.
(** The slot of a value. *)
Definition slot_of (ft : functy) (s : side) (i : nat) : Z := Z.of_nat (slot s (List.length (ft_out ft)) i).

Lemma addr_small q k size : (0 <= q)%Z -> (0 <= k)%Z -> (0 <= size)%Z -> (q + k * size < 2 ^ 32)%Z -> addr q k size = (q + k * size)%Z.
Proof.
  intros Hq Hk Hs B. unfold addr. assert (0 <= k * size)%Z by (apply Z.mul_nonneg_nonneg; lia).
  rewrite (Z.mod_small (k * size)) by lia. apply Z.mod_small. lia.
Qed.

Lemma vals_ok_cons t ts vs : vals_ok (t :: ts) vs = true ->
  exists v vs', vs = v :: vs' /\ typeof v = t /\ in_range v = true /\ vals_ok ts vs' = true.
Proof.
  unfold vals_ok. destruct vs as [|v vs]; [discriminate|]. simpl. intros E.
  apply andb_true_iff in E. destruct E as [E1 E2]. apply andb_true_iff in E1. destruct E1 as [E1 E3].
  apply andb_true_iff in E2. destruct E2 as [E2 E4]. apply valty_eqb_eq in E1.
  exists v, vs. rewrite E3, E4. auto.
Qed.
Lemma vals_ok_nil vs : vals_ok [] vs = true -> vs = [].
Proof. destruct vs; [reflexivity|discriminate]. Qed.
Lemma vals_ok_len ts vs : vals_ok ts vs = true -> List.length vs = List.length ts.
Proof.
  revert vs. induction ts as [|t ts IH]; intros vs E; [now rewrite (@vals_ok_nil _ E)|].
  destruct (@vals_ok_cons _ _ _ E) as (v & vs' & -> & _ & _ & E'). simpl. now rewrite (IH _ E').
Qed.

Lemma alloc_pages p pg b : (0 <= p)%Z -> (0 <= b)%Z -> (1 <= pg <= 65535)%Z -> (p + b <= limit)%Z ->
  (1 <= pages_for (p + b) pg <= 65535)%Z /\ (p + b <= pages_for (p + b) pg * 65536)%Z.
Proof.
  unfold limit, pages_for. intros Hp Hb Hg Hl.
  assert (D : ((p + b + 65535) / 65536 < 65536)%Z) by (apply Z.div_lt_upper_bound; lia).
  assert (E : (p + b < ((p + b + 65535) / 65536) * 65536 + 1)%Z).
  { pose proof (Z.div_mod (p + b + 65535) 65536). pose proof (Z.mod_pos_bound (p + b + 65535) 65536). lia. }
  split; [lia|]. nia.
Qed.

Lemma pow_256_8 : (256 ^ Z.of_nat 8 = 2 ^ 64)%Z.
Proof. reflexivity. Qed.

Section Ops.
  Context {X : Type}.
  Notation store := (store X).
  Variable num1 : unop -> Z -> option Z.
  Variable num2 : binop -> Z -> Z -> option Z.
  Variable ext : string -> string -> list val -> xprog X.
  Variable sigs : list functy.
  Notation ws := (generate_lib sigs).
  Notation at_ := (at_ sigs).
  Notation fs := (lib_funcs sigs).
  Notation call := (call_fn num1 num2 ext fs).
  Notation ub := (ub sigs).
  Notation L := (@L X).
  Notation lib_call := (lib_call num1 num2 ext sigs).
  (** Call an operation of the library. *)
  Definition lib_op (n : nat) (ft : functy) (o : libop) (args : list val) (s : store) := lib_call n (lib_name ft o) args s.

  Ltac expand :=
    cbn [map app]; unfold wget, wset, gget, gset, c32, bin, wb;
    cbn [map rb StackRun.ub w_type w_locals w_body ft_out ft_in List.length default_val app]; unfold StackRun.ub; cbn [rb].

  (** ** Conversions *)
  Section Conv.
    Variable cl : nat -> list val -> store -> res store (list val * store).
    Variable lp : nat.
    Notation run := (run num1 num2 (ftype_of fs) cl lp).
    Lemma run_to_i64 t z rest st ls s :
      run (map ub (to_i64 (TNum t)) ++ rest) (VNum t z :: st) ls s = run rest (vi64 z :: st) ls s.
    Proof. destruct t; reflexivity. Qed.
    Lemma run_from_i64 t z rest st ls s : (0 <= z < 2 ^ 64)%Z ->
      run (map ub (from_i64 (TNum t)) ++ rest) (vi64 z :: st) ls s = run rest (VNum t (z mod 2 ^ bits t) :: st) ls s.
    Proof.
      intros R. destruct t; try reflexivity; cbn [bits]; rewrite Z.mod_small by exact R; reflexivity.
    Qed.
    (** Converted arguments on the stack. *)
    Lemma run_gets_i64 ts vs pre post rest st s :
      numeric ts -> vals_ok ts vs = true ->
      run (map ub (flat_map (fun it => wget (fst it) :: to_i64 (snd it)) (combine (seq (List.length pre) (List.length ts)) ts)) ++ rest)
          st (pre ++ vs ++ post) s
      = run rest (pushn (map (fun v => vi64 (num_bits v)) vs) st) (pre ++ vs ++ post) s.
    Proof.
      revert vs pre st. induction ts as [|t ts IH]; intros vs pre st N V.
      - rewrite (@vals_ok_nil _ V). reflexivity.
      - destruct (@vals_ok_cons _ _ _ V) as (v & vs' & -> & T & _ & V'). unfold numeric in N. simpl in N.
        apply orb_false_iff in N. destruct N as [N1 N2].
        cbn [List.length seq combine flat_map map app]. unfold StackRun.ub at 1. unfold wget at 1, wb at 1. cbn [rb fst snd].
        rewrite map_app, <- app_assoc.
        rewrite run_get with (v := v) by apply nth_error_app_exact.
        destruct t as [t|]; [|discriminate N1]. destruct v as [t' z|]; [|discriminate T]. injection T as ->.
        rewrite run_to_i64. specialize (IH vs' (pre ++ [VNum t z]) (vi64 z :: st) N2 V').
        rewrite app_length in IH. simpl in IH. rewrite Nat.add_1_r, <- app_assoc in IH. simpl in IH.
        rewrite IH. f_equal. unfold pushn. simpl. now rewrite <- app_assoc.
    Qed.
  End Conv.

  (** ** Slots *)
  Variable ft : functy.
  Hypothesis Hft : In ft sigs.
  Notation r := (List.length (ft_out ft)).
  Notation a := (List.length (ft_in ft)).

  Lemma gen_in f o : In f (generic_fns (r, a)) -> w_id f = Some (IdGen o r a) ->
    nth_error fs (at_ (gen_id ft o)) = Some (resolve_fn at_ f) /\ ftype_of fs (at_ (gen_id ft o)) = Some (w_type f).
  Proof.
    intros I E. split; [apply fn_at|apply ftype_at]; try exact E; now apply (@generic_in sigs ft).
  Qed.
  Lemma in_generic_load s i : i < List.length (side_types ft s) -> In (load_generic r a s i) (generic_fns (r, a)).
  Proof.
    intros Li. unfold generic_fns. apply in_or_app. right. destruct s; cbn [side_types] in Li.
    - apply in_or_app. right. apply in_or_app. left. apply in_map, in_seq. lia.
    - apply in_or_app. left. apply in_map, in_seq. lia.
  Qed.
  Lemma in_generic_store s i : i < List.length (side_types ft s) -> In (store_generic r a s i) (generic_fns (r, a)).
  Proof.
    intros Li. unfold generic_fns. do 3 (apply in_or_app; right). destruct s; cbn [side_types] in Li.
    - apply in_or_app. right. apply in_or_app. left. apply in_map, in_seq. lia.
    - apply in_or_app. left. apply in_map, in_seq. lia.
  Qed.
  Lemma in_load_fn s i t : nth_error (side_types ft s) i = Some t -> In (load_fn ft s (i, t)) ws.
  Proof.
    intros E. apply (@special_in sigs ft); [exact Hft|]. unfold special_fns. apply in_or_app. right. destruct s; cbn [side_types] in E.
    - apply in_or_app. right. apply in_or_app. left. apply in_map. now apply enum_in.
    - apply in_or_app. left. apply in_map. now apply enum_in.
  Qed.
  Lemma in_store_fn s i t : nth_error (side_types ft s) i = Some t -> In (store_fn ft s (i, t)) ws.
  Proof.
    intros E. apply (@special_in sigs ft); [exact Hft|]. unfold special_fns. do 3 (apply in_or_app; right). destruct s; cbn [side_types] in E.
    - apply in_or_app. right. apply in_or_app. left. apply in_map. now apply enum_in.
    - apply in_or_app. left. apply in_map. now apply enum_in.
  Qed.
  Lemma in_tail f : In f [store_rets_fn ft; allocate_types_fn ft; free_types_fn ft; free_fn ft] -> In f ws.
  Proof. intros I. apply (@special_in sigs ft); [exact Hft|]. unfold special_fns. do 5 (apply in_or_app; right). exact I. Qed.

  Lemma straight_from t : forallb straight (from_i64 t) = true.
  Proof. destruct t as [[]|[]]; reflexivity. Qed.
  Lemma straight_to t : forallb straight (to_i64 t) = true.
  Proof. destruct t as [[]|[]]; reflexivity. Qed.

  Lemma gen_load n x p pg f s i q : i < List.length (side_types ft s) ->
    call (S (S n)) (at_ (gen_id ft (LLoad s i))) [vi32 q] (L x p pg f) = load_result x p pg f (addr q (slot_of ft s i) 8).
  Proof.
    intros Li. destruct (@gen_in _ (LLoad s i) (in_generic_load _ Li) eq_refl) as [E _].
    erewrite call_straight by (exact E || reflexivity). unfold invoke. unfold load_generic. expand.
    rewrite run_get with (v := vi32 q) by reflexivity. rewrite run_const.
    change [VNum TI32 (z_of (slot s r i)); vi32 q] with (pushn [vi32 q; vi32 (slot_of ft s i)] []).
    rewrite run_call with (ft := FT [t_i32; t_i32] [TNum TI64]) by (apply type_load || reflexivity).
    rewrite at_load. unfold load_result. destruct (_ <=? _)%Z; reflexivity.
  Qed.
  Lemma gen_store n x p pg f s i q z : i < List.length (side_types ft s) ->
    call (S (S n)) (at_ (gen_id ft (LStore s i))) [vi32 q; vi64 z] (L x p pg f) = store_result x p pg f (addr q (slot_of ft s i) 8) z.
  Proof.
    intros Li. destruct (@gen_in _ (LStore s i) (in_generic_store _ Li) eq_refl) as [E _].
    erewrite call_straight by (exact E || reflexivity). unfold invoke. unfold store_generic. expand.
    rewrite run_get with (v := vi32 q) by reflexivity. rewrite run_get with (v := vi64 z) by reflexivity. rewrite run_const.
    change [VNum TI32 (z_of (slot s r i)); vi64 z; vi32 q] with (pushn [vi32 q; vi64 z; vi32 (slot_of ft s i)] []).
    rewrite run_call with (ft := FT [t_i32; TNum TI64; t_i32] []) by (apply type_store || reflexivity).
    rewrite at_store. unfold store_result. destruct (_ <=? _)%Z; reflexivity.
  Qed.
  Lemma type_gen_load s i : i < List.length (side_types ft s) -> ftype_of fs (at_ (gen_id ft (LLoad s i))) = Some (FT [t_i32] [TNum TI64]).
  Proof. intros Li. now destruct (@gen_in _ (LLoad s i) (in_generic_load _ Li) eq_refl) as [_ E]. Qed.
  Lemma type_gen_store s i : i < List.length (side_types ft s) -> ftype_of fs (at_ (gen_id ft (LStore s i))) = Some (FT [t_i32; TNum TI64] []).
  Proof. intros Li. now destruct (@gen_in _ (LStore s i) (in_generic_store _ Li) eq_refl) as [_ E]. Qed.

  Lemma read8 f q : (0 <= le_read f q 8 < 2 ^ 64)%Z.
  Proof. rewrite <- pow_256_8. apply le_read_range. Qed.

  Lemma op_load n x p pg f s i q t : nth_error (side_types ft s) i = Some (TNum t) ->
    lib_op (S (S (S n))) ft (LLoad s i) [vi32 q] (L x p pg f)
    = let b := addr q (slot_of ft s i) 8 in
      if (b + 8 <=? pg * 65536)%Z then Ok ([VNum t (le_read f b 8 mod 2 ^ bits t)], L x p pg f) else Trap (L x p pg f).
  Proof.
    intros E. assert (Li : i < List.length (side_types ft s)) by (apply nth_error_Some; congruence).
    unfold lib_op. erewrite lib_call_fn with (f := load_fn ft s (i, TNum t));
      [|now apply in_load_fn|reflexivity|apply (straight_from (TNum t))|reflexivity].
    unfold invoke, load_fn. cbn [w_body w_type w_locals fst snd]. rewrite map_app. expand.
    rewrite run_get with (v := vi32 q) by reflexivity. change [vi32 q] with (pushn [vi32 q] []) at 1.
    rewrite run_call with (ft := FT [t_i32] [TNum TI64]) by (now apply type_gen_load || reflexivity).
    rewrite gen_load by exact Li. unfold load_result. destruct (_ <=? _)%Z; [|reflexivity].
    cbn [rbind pushn rev app]. fold (StackRun.ub sigs).
    rewrite <- (app_nil_r (map _ (from_i64 _))). rewrite run_from_i64 by apply read8. reflexivity.
  Qed.
  Lemma op_store n x p pg f s i q t z : nth_error (side_types ft s) i = Some (TNum t) ->
    lib_op (S (S (S n))) ft (LStore s i) [vi32 q; VNum t z] (L x p pg f) = store_result x p pg f (addr q (slot_of ft s i) 8) z.
  Proof.
    intros E. assert (Li : i < List.length (side_types ft s)) by (apply nth_error_Some; congruence).
    unfold lib_op. erewrite lib_call_fn with (f := store_fn ft s (i, TNum t));
      [|now apply in_store_fn|reflexivity|unfold store_fn; cbn [w_body fst snd]; rewrite !forallb_app, straight_to; reflexivity|reflexivity].
    unfold invoke, store_fn. cbn [w_body w_type w_locals fst snd]. rewrite !map_app. expand.
    rewrite run_get with (v := vi32 q) by reflexivity. rewrite run_get with (v := VNum t z) by reflexivity.
    fold (StackRun.ub sigs). rewrite run_to_i64.
    change [vi64 z; vi32 q] with (pushn [vi32 q; vi64 z] []) at 1.
    rewrite run_call with (ft := FT [t_i32; TNum TI64] []) by (now apply type_gen_store || reflexivity).
    rewrite gen_store by exact Li. unfold store_result. destruct (_ <=? _)%Z; reflexivity.
  Qed.

  (** The functions the analysis uses, by slot number. *)
  Lemma analysis_load n x p pg f t q k :
    lib_call (S (S n)) (stack_load_name t) [vi32 q; vi32 k] (L x p pg f)
    = let b := addr q k 8 in
      if (b + 8 <=? pg * 65536)%Z then Ok ([VNum t (le_read f b 8 mod 2 ^ bits t)], L x p pg f) else Trap (L x p pg f).
  Proof.
    erewrite lib_call_fn with (f := stack_load_export t);
      [|apply fixed_in; destruct t; simpl; tauto|destruct t; reflexivity|destruct t; reflexivity|reflexivity].
    unfold invoke, stack_load_export. cbn [w_body w_type w_locals]. rewrite map_app. expand.
    rewrite run_get with (v := vi32 q) by reflexivity. rewrite run_get with (v := vi32 k) by reflexivity.
    change [vi32 k; vi32 q] with (pushn [vi32 q; vi32 k] []) at 1.
    rewrite run_call with (ft := FT [t_i32; t_i32] [TNum TI64]) by (apply type_load || reflexivity).
    rewrite at_load. unfold load_result. destruct (_ <=? _)%Z; [|reflexivity].
    cbn [rbind pushn rev app]. fold (StackRun.ub sigs).
    rewrite <- (app_nil_r (map _ (from_i64 _))). rewrite run_from_i64 by apply read8. reflexivity.
  Qed.
  Lemma analysis_store n x p pg f t q z k :
    lib_call (S (S n)) (stack_store_name t) [vi32 q; VNum t z; vi32 k] (L x p pg f)
    = store_result x p pg f (addr q k 8) z.
  Proof.
    erewrite lib_call_fn with (f := stack_store_export t);
      [|apply fixed_in; destruct t; simpl; tauto|destruct t; reflexivity|destruct t; reflexivity|reflexivity].
    unfold invoke, stack_store_export. cbn [w_body w_type w_locals]. rewrite !map_app. expand.
    rewrite run_get with (v := vi32 q) by reflexivity. rewrite run_get with (v := VNum t z) by reflexivity.
    fold (StackRun.ub sigs). rewrite run_to_i64. rewrite run_get with (v := vi32 k) by reflexivity.
    change [vi32 k; vi64 z; vi32 q] with (pushn [vi32 q; vi64 z; vi32 k] []) at 1.
    rewrite run_call with (ft := FT [t_i32; TNum TI64; t_i32] []) by (apply type_store || reflexivity).
    rewrite at_store. unfold store_result. destruct (_ <=? _)%Z; reflexivity.
  Qed.

  (** Freeing. *)
  Lemma op_free n x p pg f q : (0 <= p < 2 ^ 32)%Z ->
    lib_op (S (S (S (S n)))) ft LFree [q] (L x p pg f) = Ok ([], L x ((p - (slots ft * 8) mod 2 ^ 32) mod 2 ^ 32) pg f).
  Proof.
    intros Rp.
    assert (If : In (free_generic r a) (generic_fns (r, a))) by (unfold generic_fns; do 5 (apply in_or_app; right); now left).
    destruct (@gen_in _ LFree If eq_refl) as [E T].
    unfold lib_op. erewrite lib_call_fn with (f := free_fn ft); [|apply in_tail; simpl; tauto|reflexivity..].
    unfold invoke, free_fn. expand. rewrite run_get with (v := q) by reflexivity.
    change [q] with (pushn [q] []) at 1. rewrite run_call with (ft := FT [t_i32] []) by (exact T || reflexivity).
    assert (G : call (S (S (S n))) (at_ (gen_id ft LFree)) [q] (L x p pg f) = Ok ([], L x ((p - (slots ft * 8) mod 2 ^ 32) mod 2 ^ 32) pg f)).
    { unfold slots. destruct (Nat.eqb_spec (r + a) 0) as [Z0|Nz].
      - erewrite call_straight by (exact E || (unfold free_generic; rewrite Z0; reflexivity) || reflexivity).
        unfold invoke, free_generic. rewrite Z0. cbn [Nat.eqb w_body map]. rewrite run_nil.
        change ((Z.of_nat 0 * 8) mod 2 ^ 32)%Z with 0%Z. rewrite Z.sub_0_r, (Z.mod_small p) by exact Rp. reflexivity.
      - apply Nat.eqb_neq in Nz.
        erewrite call_straight by (exact E || (unfold free_generic; rewrite Nz; reflexivity) || reflexivity).
        unfold invoke, free_generic. rewrite Nz. expand.
        rewrite run_get with (v := q) by reflexivity. rewrite run_const.
        change [VNum TI32 (z_of (r + a)); q] with (pushn [q; vi32 (Z.of_nat (r + a))] []).
        rewrite run_call with (ft := FT [t_i32; t_i32] []) by (apply type_deallocate_values || reflexivity).
        rewrite at_deallocate_values. reflexivity. }
    rewrite G. reflexivity.
  Qed.
  Lemma op_free_types n x p pg f q : (0 <= p < 2 ^ 32)%Z ->
    lib_op (S (S (S n))) ft LFreeTypes [q] (L x p pg f) = Ok ([], L x ((p - (slots ft * 4) mod 2 ^ 32) mod 2 ^ 32) pg f).
  Proof.
    intros Rp. unfold lib_op, slots. destruct (Nat.eqb_spec (total_types ft) 0) as [Z0|Nz].
    - erewrite lib_call_fn with (f := free_types_fn ft);
        [|apply in_tail; simpl; tauto|reflexivity|unfold free_types_fn; rewrite Z0; reflexivity|reflexivity].
      unfold invoke, free_types_fn. rewrite Z0. unfold total_types in Z0. rewrite Z0. cbn [Nat.eqb w_body map]. rewrite run_nil.
      change ((Z.of_nat 0 * 4) mod 2 ^ 32)%Z with 0%Z. rewrite Z.sub_0_r, (Z.mod_small p) by exact Rp. reflexivity.
    - apply Nat.eqb_neq in Nz. erewrite lib_call_fn with (f := free_types_fn ft);
        [|apply in_tail; simpl; tauto|reflexivity|unfold free_types_fn; rewrite Nz; reflexivity|reflexivity].
      unfold invoke, free_types_fn. rewrite Nz. expand.
      rewrite run_get with (v := q) by reflexivity. rewrite run_const.
      change [VNum TI32 (z_of (total_types ft)); q] with (pushn [q; vi32 (Z.of_nat (r + a))] []).
      rewrite run_call with (ft := FT [t_i32; t_i32] []) by (apply type_deallocate_types || reflexivity).
      rewrite at_deallocate_types. reflexivity.
  Qed.

  (** ** Stores in a row *)
  Section Row.
    Variable n : nat.
    Variable lp : nat.
    Notation run := (run num1 num2 (ftype_of fs) (call (S n)) lp).
    Lemma run_store_args x p0 pg q zs pre f rest st : (0 <= q)%Z -> (pg <= 65536)%Z ->
      (q + Z.of_nat (r + List.length pre + List.length zs) * 8 <= pg * 65536)%Z -> (q + Z.of_nat (r + List.length pre + List.length zs) * 8 < 2 ^ 32)%Z ->
      run (map ub (flat_map (fun i => [wget (List.length pre + List.length zs); wget i; c32 (z_of (r + i)); WCall IdStore])
                            (seq (List.length pre) (List.length zs))) ++ rest)
          st (map vi64 (pre ++ zs) ++ [vi32 q]) (L x p0 pg f)
      = run rest st (map vi64 (pre ++ zs) ++ [vi32 q]) (L x p0 pg (write_slots f q (Z.of_nat (r + List.length pre)) zs)).
    Proof.
      intros Hq Hpg. revert pre f. induction zs as [|z zs IH]; intros pre f B B'; [reflexivity|].
      cbn [List.length seq flat_map]. rewrite map_app, <- app_assoc. cbn [map app]. unfold wget, c32, wb, StackRun.ub at 1 2 3 4. cbn [rb].
      rewrite run_get with (v := vi32 q).
      2: { rewrite nth_error_app2; rewrite map_length, app_length; cbn [List.length]; [|lia].
           rewrite Nat.sub_diag. reflexivity. }
      rewrite run_get with (v := vi64 z).
      2: { rewrite map_app, <- app_assoc. cbn [map app]. replace (List.length pre) with (List.length (map vi64 pre)) by apply map_length.
           apply nth_error_app_exact. }
      rewrite run_const.
      change (VNum TI32 (z_of (r + List.length pre)) :: vi64 z :: vi32 q :: st)
        with (pushn [vi32 q; vi64 z; vi32 (Z.of_nat (r + List.length pre))] st).
      rewrite run_call with (ft := FT [t_i32; TNum TI64; t_i32] []) by (apply type_store || reflexivity).
      cbn [List.length] in B, B'.
      rewrite at_store, addr_small by lia. unfold store_result.
      destruct (Z.leb_spec (q + Z.of_nat (r + List.length pre) * 8 + 8) (pg * 65536)); [|lia].
      cbn [rbind pushn rev app write_slots].
      specialize (IH (pre ++ [z]) (le_write f (q + Z.of_nat (r + List.length pre) * 8) 8 z)).
      rewrite app_length in IH. cbn [List.length] in IH. rewrite <- app_assoc in IH. cbn [app] in IH.
      replace (Z.of_nat (r + List.length pre) + 1)%Z with (Z.of_nat (r + (List.length pre + 1))) by lia.
      rewrite <- IH by lia.
      replace (List.length pre + 1 + List.length zs) with (List.length pre + S (List.length zs)) by lia.
      replace (List.length pre + 1) with (S (List.length pre)) by lia. reflexivity.
    Qed.
    Lemma run_store_types x p0 pg q base ts ls k f rest st : (0 <= q)%Z -> (pg <= 65536)%Z -> nth_error ls 0 = Some (vi32 q) ->
      (q + Z.of_nat (base + k + List.length ts) * 4 <= pg * 65536)%Z -> (q + Z.of_nat (base + k + List.length ts) * 4 < 2 ^ 32)%Z ->
      run (map ub (flat_map (fun it => [wget 0; c32 (z_of (base + fst it)); c32 (runtime_enum_value (snd it)); WCall IdStoreType])
                            (combine (seq k (List.length ts)) ts)) ++ rest)
          st ls (L x p0 pg f)
      = run rest st ls (L x p0 pg (write_types f q (Z.of_nat (base + k)) (map runtime_enum_value ts))).
    Proof.
      intros Hq Hpg E. revert k f. induction ts as [|t ts IH]; intros k f B B'; [reflexivity|].
      cbn [List.length seq combine flat_map]. rewrite map_app, <- app_assoc. cbn [map app fst snd]. unfold wget, c32, wb, StackRun.ub at 1 2 3 4. cbn [rb].
      rewrite run_get with (v := vi32 q) by exact E. rewrite !run_const.
      change (VNum TI32 (runtime_enum_value t) :: VNum TI32 (z_of (base + k)) :: vi32 q :: st)
        with (pushn [vi32 q; vi32 (Z.of_nat (base + k)); vi32 (runtime_enum_value t)] st).
      rewrite run_call with (ft := FT [t_i32; t_i32; t_i32] []) by (apply type_store_type || reflexivity).
      cbn [List.length] in B, B'.
      rewrite at_store_type, addr_small by lia. unfold store_type_result.
      destruct (Z.leb_spec (q + Z.of_nat (base + k) * 4 + 4) (pg * 65536)); [|lia].
      cbn [rbind pushn rev app write_types].
      specialize (IH (S k) (le_write f (q + Z.of_nat (base + k) * 4) 4 (runtime_enum_value t))).
      replace (Z.of_nat (base + k) + 1)%Z with (Z.of_nat (base + S k)) by lia.
      rewrite <- IH by lia. reflexivity.
    Qed.
    Lemma run_store_rets x p0 pg q ts vs pre f rest st : (0 <= q)%Z -> (pg <= 65536)%Z ->
      numeric ts -> vals_ok ts vs = true -> r = List.length pre + List.length ts -> n <> 0 ->
      (q + Z.of_nat r * 8 <= pg * 65536)%Z -> (q + Z.of_nat r * 8 < 2 ^ 32)%Z ->
      run (map ub (flat_map (fun it => [wget 0; wget (S (fst it))] ++ to_i64 (snd it) ++ [WCall (gen_id ft (LStore SRet (fst it)))])
                            (combine (seq (List.length pre) (List.length ts)) ts)) ++ rest)
          st (vi32 q :: pre ++ vs) (L x p0 pg f)
      = run rest st (vi32 q :: pre ++ vs) (L x p0 pg (write_slots f q (Z.of_nat (List.length pre)) (map num_bits vs))).
    Proof.
      intros Hq Hpg. revert vs pre f. induction ts as [|t ts IH]; intros vs pre f N V Er Nn B B'.
      - rewrite (@vals_ok_nil _ V). reflexivity.
      - destruct (@vals_ok_cons _ _ _ V) as (v & vs' & -> & T & _ & V'). unfold numeric in N. simpl in N.
        apply orb_false_iff in N. destruct N as [N1 N2].
        destruct t as [t|]; [|discriminate N1]. destruct v as [t' z|]; [|discriminate T]. injection T as ->.
        cbn [List.length seq combine flat_map fst snd]. rewrite map_app, <- app_assoc, !map_app, <- !app_assoc.
        cbn [map app fst snd]. unfold wget, wb, StackRun.ub at 1 2. cbn [rb].
        rewrite run_get with (v := vi32 q) by reflexivity.
        rewrite run_get with (v := VNum t z) by (apply (nth_error_app_exact pre)).
        rewrite run_to_i64. unfold StackRun.ub at 1. cbn [rb app].
        change (vi64 z :: vi32 q :: st) with (pushn [vi32 q; vi64 z] st).
        cbn [List.length] in Er.
        assert (Li : List.length pre < List.length (side_types ft SRet)) by (cbn [side_types]; lia).
        rewrite run_call with (ft := FT [t_i32; TNum TI64] []) by (now apply type_gen_store || reflexivity).
        destruct n as [|n']; [congruence|].
        rewrite gen_store by exact Li. unfold slot_of, slot. rewrite addr_small by lia. unfold store_result.
        destruct (Z.leb_spec (q + Z.of_nat (List.length pre) * 8 + 8) (pg * 65536)); [|lia].
        cbn [rbind pushn rev app write_slots map num_bits].
        specialize (IH vs' (pre ++ [VNum t z]) (le_write f (q + Z.of_nat (List.length pre) * 8) 8 z) N2 V').
        rewrite app_length in IH. cbn [List.length] in IH. rewrite <- app_assoc in IH. cbn [app] in IH.
        replace (Z.of_nat (List.length pre) + 1)%Z with (Z.of_nat (List.length pre + 1)) by lia.
        rewrite <- IH by (lia || congruence).
        replace (List.length pre + 1) with (S (List.length pre)) by lia. reflexivity.
    Qed.
  End Row.

  Lemma op_store_rets n x p pg f q vs : (0 <= q)%Z -> (pg <= 65536)%Z -> numeric (ft_out ft) -> vals_ok (ft_out ft) vs = true ->
    (q + Z.of_nat r * 8 <= pg * 65536)%Z -> (q + Z.of_nat r * 8 < 2 ^ 32)%Z ->
    lib_op (S (S (S n))) ft LStoreRets (vi32 q :: vs) (L x p pg f) = Ok ([], L x p pg (write_slots f q 0 (map num_bits vs))).
  Proof.
    intros Hq Hpg N V B B'. unfold lib_op. erewrite lib_call_fn with (f := store_rets_fn ft);
      [|apply in_tail; simpl; tauto|reflexivity| |cbn; now rewrite (@vals_ok_len _ _ V)].
    - unfold invoke, store_rets_fn. cbn [w_body w_type w_locals map]. unfold enum.
      pose proof (@run_store_rets (S n) (S (S n)) x p pg q (ft_out ft) vs [] f [] []) as RS.
      rewrite app_nil_r in RS. cbn [List.length] in RS. rewrite app_nil_r.
      change ([] ++ vs) with vs in RS. rewrite RS by (assumption || reflexivity || congruence).
      reflexivity.
    - cbn. rewrite forallb_forall. intros w I. apply in_flat_map in I. destruct I as (it & _ & I).
      destruct I as [<-|[<-|I]]; [reflexivity..|]. apply in_app_or in I. destruct I as [I|[<-|[]]]; [|reflexivity].
      pose proof (straight_to (snd it)) as S. rewrite forallb_forall in S. now apply S.
  Qed.

  Definition enough (n : nat) : Prop := (70000 <= Z.of_nat n)%Z.

  (** Allocation of the values: while there is room, and when there is not. *)
  Lemma gen_alloc n x p pg f zs : enough n -> (0 <= p)%Z -> (1 <= pg <= 65535)%Z -> (p <= pg * 65536)%Z -> List.length zs = a ->
    (p + slots ft * 8 < 2 ^ 32)%Z ->
    call (S (S (S n))) (at_ (gen_id ft LAlloc)) (map vi64 zs) (L x p pg f)
    = if (p + slots ft * 8 <=? limit)%Z
      then Ok ([vi32 (if (slots ft =? 0) then 0 else p)],
               L x (p + slots ft * 8) (pages_for (p + slots ft * 8) pg) (write_slots f p (Z.of_nat r) zs))%Z
      else Trap (L x p (if (slots ft =? 0)%Z then pg else 65536%Z) f).
  Proof.
    intros En Hp Hpg Hpp Lz B. unfold enough in En.
    assert (If : In (allocate_generic r a) (generic_fns (r, a))) by (unfold generic_fns; apply in_or_app; left; now left).
    assert (Ew : w_id (allocate_generic r a) = Some (IdGen LAlloc r a)) by (unfold allocate_generic; destruct (Nat.eqb _ _); reflexivity).
    destruct (gen_in If Ew) as [E _].
    unfold slots in *. destruct (Nat.eqb_spec (r + a) 0) as [Z0|Nz].
    - assert (a = 0) by lia. assert (zs = []) by (destruct zs; [reflexivity|cbn in Lz; lia]). subst zs.
      erewrite call_straight by (exact E || (unfold allocate_generic; rewrite Z0; reflexivity)).
      unfold invoke, allocate_generic. rewrite Z0. cbn [Nat.eqb w_body map]. unfold StackRun.ub, c32, wb. cbn [rb]. rewrite run_const.
      cbn [Z.of_nat Z.eqb]. rewrite Z.mul_0_l, Z.add_0_r.
      assert (Lp : (p <=? limit)%Z = true) by (unfold limit; apply Z.leb_le; lia). rewrite Lp.
      cbn [write_slots]. unfold pages_for.
      assert ((p + 65535) / 65536 < pg + 1)%Z by (apply Z.div_lt_upper_bound; lia).
      rewrite Z.max_l by lia. reflexivity.
    - assert (Nz' : (Z.of_nat (r + a) =? 0)%Z = false) by (apply Z.eqb_neq; lia). rewrite Nz'.
      apply Nat.eqb_neq in Nz.
      erewrite call_straight; [|exact E| |unfold allocate_generic; rewrite Nz; cbn [w_type ft_in]; rewrite map_length, repeat_length; exact Lz].
      2: { unfold allocate_generic. rewrite Nz. cbn. rewrite forallb_app. apply andb_true_iff. split; [|reflexivity].
           rewrite forallb_forall. intros w I. apply in_flat_map in I. destruct I as (i & _ & I). cbn in I.
           repeat destruct I as [<-|I]; [reflexivity..|destruct I]. }
      unfold invoke, allocate_generic. rewrite Nz. cbn [w_body w_type w_locals ft_out List.length map default_val].
      rewrite !map_app. cbn [map]. unfold c32 at 1, wset at 1, wb at 1 2, StackRun.ub at 1 2 3. cbn [rb app].
      rewrite run_const. change [VNum TI32 (z_of (r + a))] with (pushn [vi32 (Z.of_nat (r + a))] []).
      rewrite run_call with (ft := FT [t_i32] [t_i32]) by (apply type_allocate_values || reflexivity).
      destruct n as [|n]; [lia|]. destruct n as [|n]; [lia|].
      rewrite (@at_allocate_sized X num1 num2 ext sigs 8 IdAllocateValues) by (auto || lia).
      unfold alloc_result. rewrite (Z.mod_small (Z.of_nat (r + a) * 8)) by lia. rewrite (Z.mod_small (p + _)) by lia.
      destruct (Z.leb_spec (p + Z.of_nat (r + a) * 8) limit) as [Fit|Not]; [|reflexivity].
      cbn [rbind pushn rev app]. rewrite run_set with (w := vi32 0).
      2: { rewrite nth_error_app2; rewrite map_length, Lz; [|lia]. rewrite Nat.sub_diag. reflexivity. }
      destruct (@alloc_pages p pg (Z.of_nat (r + a) * 8)) as [P1 P2]; try lia.
      change (default_val t_i32) with (vi32 0). replace (set_nth a (vi32 p) (map vi64 zs ++ [vi32 0])) with (map vi64 ([] ++ zs) ++ [vi32 p]).
      2: { cbn [app]. rewrite <- Lz. clear. induction zs as [|z zs IH]; [reflexivity|]. cbn. now rewrite IH. }
      pose proof (@run_store_args (S (S (S n))) (S (S (S (S n)))) x (p + Z.of_nat (r + a) * 8) (pages_for (p + Z.of_nat (r + a) * 8) pg) p zs [] f
        (map ub [wget (List.length zs)]) []) as RS.
      cbn [List.length Nat.add] in RS. rewrite Lz in RS. cbn [map] in RS.
      rewrite RS; [|lia|lia|rewrite Nat.add_0_r; lia|rewrite Nat.add_0_r; lia].
      rewrite Nat.add_0_r. unfold wget, wb, StackRun.ub. cbn [map rb].
      rewrite run_get with (v := vi32 p); [reflexivity|].
      cbn [app]. rewrite nth_error_app2; rewrite map_length; [|lia]. rewrite Lz, Nat.sub_diag. reflexivity.
  Qed.
  Lemma op_alloc n x p pg f vs : enough n -> (0 <= p)%Z -> (1 <= pg <= 65535)%Z -> (p <= pg * 65536)%Z ->
    numeric (ft_in ft) -> vals_ok (ft_in ft) vs = true -> (p + slots ft * 8 < 2 ^ 32)%Z ->
    lib_op (S (S (S (S n)))) ft LAlloc vs (L x p pg f)
    = if (p + slots ft * 8 <=? limit)%Z
      then Ok ([vi32 (if (slots ft =? 0) then 0 else p)],
               L x (p + slots ft * 8) (pages_for (p + slots ft * 8) pg) (write_slots f p (Z.of_nat r) (map num_bits vs)))%Z
      else Trap (L x p (if (slots ft =? 0)%Z then pg else 65536%Z) f).
  Proof.
    intros En Hp Hpg Hpp N V B. unfold lib_op.
    assert (Ew : w_id (allocate_generic r a) = Some (IdGen LAlloc r a)) by (unfold allocate_generic; destruct (Nat.eqb _ _); reflexivity).
    assert (If : In (allocate_generic r a) (generic_fns (r, a))) by (unfold generic_fns; apply in_or_app; left; now left).
    destruct (gen_in If Ew) as [_ T].
    assert (T' : w_type (allocate_generic r a) = FT (repeat (TNum TI64) a) [t_i32]).
    { unfold allocate_generic. destruct (Nat.eqb_spec (r + a) 0) as [Z0|]; [|reflexivity]. replace a with 0 by lia. reflexivity. }
    rewrite T' in T.
    erewrite lib_call_fn with (f := allocate_fn ft);
      [|apply (@special_in sigs ft); [exact Hft|unfold special_fns; apply in_or_app; left; now left]|reflexivity| |exact (@vals_ok_len _ _ V)].
    - unfold invoke, allocate_fn. cbn [w_body w_type w_locals map ft_out List.length]. rewrite map_app. unfold enum.
      pose proof (@run_gets_i64 (call (S (S (S n)))) (S (S (S n))) (ft_in ft) vs [] [] (map ub [WCall (gen_id ft LAlloc)]) [] (L x p pg f) N V) as RG.
      cbn [List.length app] in RG. rewrite RG. cbn [map]. unfold StackRun.ub. cbn [rb].
      rewrite run_call with (ft := FT (repeat (TNum TI64) a) [t_i32]);
        [|exact T|cbn [ft_in]; rewrite map_length, repeat_length; exact (@vals_ok_len _ _ V)].
      replace (map (fun v => vi64 (num_bits v)) vs) with (map vi64 (map num_bits vs)) by (now rewrite map_map).
      rewrite gen_alloc; try assumption; [|rewrite map_length; exact (@vals_ok_len _ _ V)].
      destruct (_ <=? _)%Z; reflexivity.
    - cbn. rewrite forallb_app. apply andb_true_iff. split; [|reflexivity].
      rewrite forallb_forall. intros w I. apply in_flat_map in I. destruct I as (it & _ & I).
      destruct I as [<-|I]; [reflexivity|]. pose proof (straight_to (snd it)) as S. rewrite forallb_forall in S. now apply S.
  Qed.
  (** Allocation and contents of the types. *)
  Lemma op_alloc_types n x p pg f : enough n -> (0 <= p)%Z -> (1 <= pg <= 65535)%Z -> (p <= pg * 65536)%Z ->
    (p + slots ft * 4 < 2 ^ 32)%Z ->
    lib_op (S (S (S n))) ft LAllocTypes [] (L x p pg f)
    = if (p + slots ft * 4 <=? limit)%Z
      then Ok ([vi32 (if (slots ft =? 0) then 0 else p)],
               L x (p + slots ft * 4) (pages_for (p + slots ft * 4) pg)
                 (write_types f p 0 (map runtime_enum_value (ft_out ft ++ ft_in ft))))%Z
      else Trap (L x p (if (slots ft =? 0)%Z then pg else 65536%Z) f).
  Proof.
    intros En Hp Hpg Hpp B. unfold enough in En. unfold lib_op.
    assert (Ex : w_export (allocate_types_fn ft) = Some (lib_name ft LAllocTypes)) by (unfold allocate_types_fn; destruct (Nat.eqb _ _); reflexivity).
    unfold slots in *. destruct (Nat.eqb_spec (total_types ft) 0) as [Z0|Nz].
    - erewrite lib_call_fn with (f := allocate_types_fn ft);
        [|apply in_tail; simpl; tauto|exact Ex|unfold allocate_types_fn; rewrite Z0; reflexivity|unfold allocate_types_fn; rewrite Z0; reflexivity].
      unfold invoke, allocate_types_fn. rewrite Z0. unfold total_types in Z0. rewrite Z0.
      cbn [Nat.eqb w_body map]. unfold StackRun.ub, c32, wb. cbn [rb]. rewrite run_const.
      cbn [Z.of_nat Z.eqb]. rewrite Z.mul_0_l, Z.add_0_r.
      assert (Lp : (p <=? limit)%Z = true) by (unfold limit; apply Z.leb_le; lia). rewrite Lp.
      assert (E0 : ft_out ft ++ ft_in ft = []) by (apply length_zero_iff_nil; rewrite app_length; exact Z0). rewrite E0.
      cbn [write_types map]. unfold pages_for.
      assert ((p + 65535) / 65536 < pg + 1)%Z by (apply Z.div_lt_upper_bound; lia).
      rewrite Z.max_l by lia. reflexivity.
    - assert (Nz' : (Z.of_nat (r + a) =? 0)%Z = false) by (unfold total_types in Nz; apply Z.eqb_neq; lia). rewrite Nz'.
      apply Nat.eqb_neq in Nz.
      erewrite lib_call_fn with (f := allocate_types_fn ft);
        [|apply in_tail; simpl; tauto|exact Ex| |unfold allocate_types_fn; rewrite Nz; reflexivity].
      2: { unfold allocate_types_fn. rewrite Nz. cbn. rewrite forallb_app. apply andb_true_iff. split; [|reflexivity].
           unfold type_stores. rewrite forallb_app. apply andb_true_iff.
           split; rewrite forallb_forall; intros w I; apply in_flat_map in I; destruct I as (i & _ & I); cbn in I;
             repeat destruct I as [<-|I]; (reflexivity || destruct I). }
      unfold invoke, allocate_types_fn. rewrite Nz. cbn [w_body w_type w_locals ft_out List.length map default_val].
      rewrite !map_app. cbn [map]. unfold c32 at 1, wset at 1, wb at 1 2, StackRun.ub at 1 2 3. cbn [rb app].
      rewrite run_const. change [VNum TI32 (z_of (total_types ft))] with (pushn [vi32 (Z.of_nat (r + a))] []).
      rewrite run_call with (ft := FT [t_i32] [t_i32]) by (apply type_allocate_types || reflexivity).
      destruct n as [|n]; [lia|].
      rewrite (@at_allocate_sized X num1 num2 ext sigs 4 IdAllocateTypes) by (auto || lia).
      unfold alloc_result. rewrite (Z.mod_small (Z.of_nat (r + a) * 4)) by lia. rewrite (Z.mod_small (p + _)) by lia.
      destruct (Z.leb_spec (p + Z.of_nat (r + a) * 4) limit) as [Fit|Not]; [|reflexivity].
      cbn [rbind pushn rev app]. rewrite run_set with (w := vi32 0) by reflexivity. cbn [set_nth].
      destruct (@alloc_pages p pg (Z.of_nat (r + a) * 4)) as [P1 P2]; try lia.
      unfold type_stores, enum. rewrite map_app, <- app_assoc.
      rewrite (@run_store_types (S (S n)) (S (S (S n))) x (p + Z.of_nat (r + a) * 4) (pages_for (p + Z.of_nat (r + a) * 4) pg) p 0 (ft_out ft) [vi32 p] 0)
        by (reflexivity || lia).
      cbn [Nat.add].
      rewrite (@run_store_types (S (S n)) (S (S (S n))) x (p + Z.of_nat (r + a) * 4) (pages_for (p + Z.of_nat (r + a) * 4) pg) p r (ft_in ft) [vi32 p] 0)
        by (reflexivity || lia).
      unfold wget, wb, StackRun.ub. cbn [map rb].
      rewrite run_get with (v := vi32 p) by reflexivity.
      assert (W : forall u v k g, write_types g p k (u ++ v) = write_types (write_types g p k u) p (k + Z.of_nat (List.length u)) v).
      { clear. induction u as [|z u IH]; intros v k g; cbn [app write_types List.length]; [f_equal; lia|].
        rewrite IH. f_equal. lia. }
      rewrite W, map_length. replace (0 + Z.of_nat r)%Z with (Z.of_nat (r + 0)) by lia. reflexivity.
  Qed.

  (** Without arguments nothing is stored, so the size may be anything. *)
  Lemma op_alloc_results n x p pg f : enough n -> (0 <= p)%Z -> (1 <= pg <= 65535)%Z -> ft_in ft = [] -> slots ft <> 0%Z ->
    lib_op (S (S (S (S n)))) ft LAlloc [] (L x p pg f) = alloc_result x p pg f ((slots ft * 8) mod 2 ^ 32)%Z.
  Proof.
    intros En Hp Hpg Ni Nz. unfold enough in En. unfold slots in *. unfold lib_op.
    assert (Nz' : Nat.eqb (r + a) 0 = false) by (apply Nat.eqb_neq; lia).
    assert (If : In (allocate_generic r a) (generic_fns (r, a))) by (unfold generic_fns; apply in_or_app; left; now left).
    assert (Ew : w_id (allocate_generic r a) = Some (IdGen LAlloc r a)) by (unfold allocate_generic; rewrite Nz'; reflexivity).
    destruct (gen_in If Ew) as [E T]. unfold allocate_generic in T. rewrite Nz', Ni in T. cbn [List.length repeat w_type] in T.
    erewrite lib_call_fn with (f := allocate_fn ft);
      [|apply (@special_in sigs ft); [exact Hft|unfold special_fns; apply in_or_app; left; now left]|reflexivity|
       unfold allocate_fn; rewrite Ni; reflexivity|unfold allocate_fn; rewrite Ni; reflexivity].
    unfold invoke, allocate_fn. rewrite Ni. cbn [w_body w_type w_locals map ft_out List.length enum combine seq flat_map app].
    unfold StackRun.ub. cbn [rb]. change (@nil val) with (pushn [] (@nil val)) at 1.
    rewrite run_call with (ft := FT [] [t_i32]) by (exact T || reflexivity).
    erewrite call_straight; [|exact E| |unfold allocate_generic; rewrite Nz', Ni; reflexivity].
    2: { unfold allocate_generic. rewrite Nz', Ni. reflexivity. }
    unfold invoke, allocate_generic. rewrite Nz', Ni. cbn [w_body w_type w_locals ft_out List.length map default_val seq flat_map app].
    unfold c32, wset, wget, wb, StackRun.ub. cbn [rb].
    rewrite run_const. change [VNum TI32 (z_of (r + 0))] with (pushn [vi32 (Z.of_nat (r + 0))] []).
    rewrite run_call with (ft := FT [t_i32] [t_i32]) by (apply type_allocate_values || reflexivity).
    destruct n as [|n]; [lia|]. destruct n as [|n]; [lia|].
    rewrite (@at_allocate_sized X num1 num2 ext sigs 8 IdAllocateValues) by (auto || lia).
    unfold alloc_result. destruct (_ <=? limit)%Z; reflexivity.
  Qed.
End Ops.
