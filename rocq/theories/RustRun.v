(** What the exported functions of the library that is generated for Rust do. *)
From Verif Require Import RustLib RustNames StackNames StackAsm StackOps StackHist StackRun RsStdlib.
Local Open Scope string_scope.
Local Open Scope list_scope.
Local Open Scope res_scope.

(** Eight bytes that hold a value. *)
Definition holds (v : val) (z : Z) : Prop :=
  match v with VNum t x => (z mod 2 ^ bits t = x)%Z | VRef _ _ => False end.

Lemma enum_len {B} (l : list B) : List.length (enum l) = List.length l.
Proof. unfold enum. rewrite combine_length, seq_length. lia. Qed.
Lemma combine_nth_seq {B} (vs : list B) : forall k i, lookup (arg_var (k + i)) (combine (map arg_var (seq k (List.length vs))) vs) = nth_error vs i.
Proof.
  induction vs as [|v vs IH]; intros k i; [destruct i; reflexivity|]. cbn [List.length seq map combine lookup].
  destruct (String.eqb_spec (arg_var (k + i)) (arg_var k)) as [E|E].
  - injection E as E. apply decimal_inj in E. assert (i = 0) by lia. subst. reflexivity.
  - destruct i as [|i]; [rewrite Nat.add_0_r in E; congruence|]. cbn [nth_error]. rewrite <- (IH (S k) i). do 2 f_equal. lia.
Qed.
Definition args_env {B} (vs : list B) : list (string * B) := combine (map arg_var (seq 0 (List.length vs))) vs.
Lemma lookup_arg {B} (vs : list B) i : lookup (arg_var i) (args_env vs) = nth_error vs i.
Proof. apply (combine_nth_seq vs 0 i). Qed.
Lemma typed_names ts : map fst (typed_params ts) = map arg_var (seq 0 (List.length ts)).
Proof. unfold typed_params. rewrite map_map. cbn [fst]. rewrite <- enum_fst, map_map. reflexivity. Qed.
Lemma typed_len ts : List.length (typed_params ts) = List.length ts.
Proof. unfold typed_params. rewrite map_length. apply enum_len. Qed.

Section Run.
  Notation store := (store unit).
  Notation res := (res store).
  Variable A : allocator.
  Variable junk : store -> numty -> Z -> Z.
  Variable sigs : list functy.
  Notation fns := (rust_lib sigs).
  Notation run_op := (run_op A junk).
  Notation run_exp := (run_exp A junk).
  Notation run_body := (run_body A junk).
  Notation rcall := (rcall A junk fns).
  Notation rust_call := (rust_call A junk fns).

  Fixpoint run_args call (env : list (string * rval)) (es : list rexp) (s : store) : res (list rval * store) :=
    match es with
    | [] => Ok ([], s)
    | e :: r => let* (v, s1) := run_exp call env e s in let* (vs, s2) := run_args call env r s1 in Ok (v :: vs, s2)
    end.
  Lemma args_eq call env es : forall s,
    (fix args (es : list rexp) (s : store) : res (list rval * store) :=
       match es with
       | [] => Ok ([], s)
       | e :: r => let* (v, s1) := run_exp call env e s in let* (vs, s2) := args r s1 in Ok (v :: vs, s2)
       end) es s = run_args call env es s.
  Proof.
    induction es as [|e es IH]; intros s; [reflexivity|]. cbn [run_args]. destruct (run_exp call env e s) as [[v s1]| | |]; cbn [rbind]; try reflexivity.
    now rewrite IH.
  Qed.
  Lemma run_exp_call call env f es s : run_exp call env (RCall f es) s = let* (vs, s1) := run_args call env es s in call f vs s1.
  Proof. cbn [RustLib.run_exp]. now rewrite args_eq. Qed.
  Lemma run_exp_op call env o es s : run_exp call env (ROp o es) s = let* (vs, s1) := run_args call env es s in run_op o vs s1.
  Proof. cbn [RustLib.run_exp]. now rewrite args_eq. Qed.
  Lemma run_exp_var call env x v s : lookup x env = Some v -> run_exp call env (RVar x) s = Ok (v, s).
  Proof. intros E. cbn [RustLib.run_exp]. now rewrite E. Qed.

  Lemma call_fn n f g vs s : fn_named fns f = Some g -> List.length vs = List.length (rf_params g) ->
    rcall (S n) f vs s = run_body (rcall n) (combine (map fst (rf_params g)) vs) (rf_body g) (rf_tail g) s.
  Proof. intros E L. cbn [RustLib.rcall]. rewrite E. cbn [rget rbind]. now rewrite L, Nat.eqb_refl. Qed.

  (** ** The fixed part *)
  Lemma read_value n p k s m : st_mem s = Some m -> (p + k * 8 + 8 <= ms_pages m * page_size)%Z ->
    rcall (S n) "wastrumentation_memory_load" [VW (vi32 p); VW (vi32 k)] s = Ok (VUnion (le_read (ms_bytes m) (p + k * 8) 8), s).
  Proof.
    intros M B. erewrite call_fn by reflexivity. cbn. rewrite M. cbn [rget rbind]. unfold mem_load. cbn [loadop_bytes loadop_signed].
    destruct (Z.leb_spec (p + k * 8 + Z.of_nat 8) (ms_pages m * page_size)); [reflexivity|lia].
  Qed.
  Lemma write_value n p k z s m : st_mem s = Some m -> (p + k * 8 + 8 <= ms_pages m * page_size)%Z ->
    rcall (S n) "wastrumentation_memory_store" [VW (vi32 p); VUnion z; VW (vi32 k)] s
    = Ok (VUnit, set_all_bytes s m (le_write (ms_bytes m) (p + k * 8) 8 z)).
  Proof.
    intros M B. erewrite call_fn by reflexivity. cbn. rewrite M. cbn [rget rbind]. unfold mem_store. cbn [storeop_bytes].
    destruct (Z.leb_spec (p + k * 8 + Z.of_nat 8) (ms_pages m * page_size)); [reflexivity|lia].
  Qed.
  Lemma read_kind n p k s m : st_mem s = Some m -> (p + k * 4 + 4 <= ms_pages m * page_size)%Z ->
    rcall (S n) "wastrumentation_stack_load_type" [VW (vi32 p); VW (vi32 k)] s = Ok (VW (vi32 (le_read (ms_bytes m) (p + k * 4) 4)), s).
  Proof.
    intros M B. erewrite call_fn by reflexivity. cbn. rewrite M. cbn [rget rbind]. unfold mem_load. cbn [loadop_bytes loadop_signed].
    destruct (Z.leb_spec (p + k * 4 + Z.of_nat 4) (ms_pages m * page_size)); [reflexivity|lia].
  Qed.
  Lemma write_kind n p k z s m : st_mem s = Some m -> (p + k * 4 + 4 <= ms_pages m * page_size)%Z ->
    rcall (S n) "wastrumentation_stack_store_type" [VW (vi32 p); VW (vi32 k); VKind z] s
    = Ok (VUnit, set_all_bytes s m (le_write (ms_bytes m) (p + k * 4) 4 z)).
  Proof.
    intros M B. erewrite call_fn by reflexivity. cbn. rewrite M. cbn [rget rbind]. unfold mem_store. cbn [storeop_bytes].
    destruct (Z.leb_spec (p + k * 4 + Z.of_nat 4) (ms_pages m * page_size)); [reflexivity|lia].
  Qed.
  Lemma alloc_values n k s : rcall (S n) "stack_allocate_values" [VW (vi32 k)] s
    = let* (p, s') := al_alloc A ((8 * k) mod 2 ^ 32) 8 s in Ok (VW (vi32 p), s').
  Proof. erewrite call_fn by reflexivity. reflexivity. Qed.
  Lemma alloc_types n k s : rcall (S n) "stack_allocate_types" [VW (vi32 k)] s
    = let* (p, s') := al_alloc A ((4 * k) mod 2 ^ 32) 4 s in Ok (VW (vi32 p), s').
  Proof. erewrite call_fn by reflexivity. reflexivity. Qed.
  Lemma free_values n p k s : rcall (S n) "stack_deallocate_values" [VW (vi32 p); VW (vi32 k)] s
    = let* s' := al_dealloc A p ((8 * k) mod 2 ^ 32) 8 s in Ok (VUnit, s').
  Proof. erewrite call_fn by reflexivity. cbn [rf_params map fst combine rf_body rf_tail RustLib.run_body]. rewrite run_exp_op. cbn. destruct (al_dealloc _ _ _ _ _); reflexivity. Qed.
  Lemma free_types n p k s : rcall (S n) "stack_deallocate_types" [VW (vi32 p); VW (vi32 k)] s
    = let* s' := al_dealloc A p ((4 * k) mod 2 ^ 32) 4 s in Ok (VUnit, s').
  Proof. erewrite call_fn by reflexivity. cbn [rf_params map fst combine rf_body rf_tail RustLib.run_body]. rewrite run_exp_op. cbn. destruct (al_dealloc _ _ _ _ _); reflexivity. Qed.

  (** ** Constructing values *)
  Definition union (s : store) (v : val) : Z :=
    match v with
    | VNum t z => match t with TI32 | TF32 => (z + 2 ^ 32 * (junk s t z mod 2 ^ 32))%Z | TI64 | TF64 => z end
    | VRef _ _ => 0%Z
    end.
  Lemma union_holds s t v : typeof v = TNum t -> in_range v = true -> holds v (union s v) /\ (0 <= union s v < 2 ^ 64)%Z.
  Proof.
    intros T R. destruct (@num_range t v T R) as (z & -> & Rz & R64 & Zs). cbn [holds union].
    destruct t; cbn [bits] in *; try (split; [apply Z.mod_small; exact Rz|exact R64]);
      pose proof (Z.mod_pos_bound (junk s _ z) (2 ^ 32) eq_refl) as J || idtac.
    - pose proof (Z.mod_pos_bound (junk s TI32 z) (2 ^ 32) eq_refl) as J'. split; [|lia].
      rewrite Z.mul_comm, Z.mod_add by lia. apply Z.mod_small. exact Rz.
    - pose proof (Z.mod_pos_bound (junk s TF32 z) (2 ^ 32) eq_refl) as J'. split; [|lia].
      rewrite Z.mul_comm, Z.mod_add by lia. apply Z.mod_small. exact Rz.
  Qed.
  Lemma new_value s t v : typeof v = TNum t -> run_op (ONew (TNum t)) [VW v] s = Ok (VUnion (union s v), s).
  Proof. destruct v as [t' z|]; [|discriminate]. intros [= ->]. destruct t; reflexivity. Qed.
  Lemma converted_run call env s ts vs : numeric ts -> vals_ok ts vs = true ->
    (forall i v, nth_error vs i = Some v -> lookup (arg_var i) env = Some (VW v)) ->
    run_args call env (converted ts) s = Ok (map (fun v => VUnion (union s v)) vs, s).
  Proof.
    intros N V L. unfold converted, enum.
    enough (G : forall k ts vs, numeric ts -> vals_ok ts vs = true -> (forall i v, nth_error vs i = Some v -> lookup (arg_var (k + i)) env = Some (VW v)) ->
      run_args call env (map (fun it => ROp (ONew (snd it)) [RVar (arg_var (fst it))]) (combine (seq k (List.length ts)) ts)) s
      = Ok (map (fun v => VUnion (union s v)) vs, s)) by (apply (G 0 ts vs); auto).
    clear. intros k ts. revert k. induction ts as [|t ts IH]; intros k vs N V L.
    - rewrite (@vals_ok_nil _ V). reflexivity.
    - destruct (@vals_ok_cons _ _ _ V) as (v & vs' & -> & T & R & V'). unfold numeric in N. simpl in N.
      apply orb_false_iff in N. destruct N as [N1 N2]. destruct t as [t|]; [|discriminate N1].
      cbn [List.length seq combine map fst snd run_args]. rewrite run_exp_op. cbn [run_args].
      rewrite run_exp_var with (v := VW v) by (rewrite <- (L 0 v eq_refl); now rewrite Nat.add_0_r). cbn [rbind].
      rewrite (@new_value s t v T). cbn [rbind]. rewrite (IH (S k) vs' N2 V'); [reflexivity|].
      intros i w E. rewrite <- (L (S i) w E). do 2 f_equal. lia.
  Qed.

  (** ** Exported functions *)
  Lemma set_bytes_twice s m f g : set_all_bytes (set_all_bytes s m f) (MemSt (ms_pages m) (ms_max m) f) g = set_all_bytes s m g.
  Proof. reflexivity. Qed.
  Lemma set_bytes_mem s m f : st_mem (set_all_bytes s m f) = Some (MemSt (ms_pages m) (ms_max m) f).
  Proof. reflexivity. Qed.
  Lemma set_bytes_same s m : st_mem s = Some m -> set_all_bytes s m (ms_bytes m) = s.
  Proof. destruct s as [o g t e d x], m as [pg mx f]. cbn. intros ->. reflexivity. Qed.

  Variable ft : functy.
  Hypothesis Hft : In ft sigs.
  Hypothesis Num : numeric_sig ft = true.
  Notation r := (List.length (ft_out ft)).
  Notation a := (List.length (ft_in ft)).

  Lemma found_generic g : In g (rust_generic r a) -> fn_named fns (rf_name g) = Some g.
  Proof. intros I. apply rust_found. now apply (@generic_in_lib sigs ft). Qed.
  Lemma found_special g : In g (rust_special ft) -> fn_named fns (rf_name g) = Some g.
  Proof. intros I. apply rust_found. now apply (@special_in_lib sigs ft). Qed.
  Lemma exported f g vs s : fn_named fns f = Some g -> rf_export g = true -> List.length vs = List.length (rf_params g) ->
    rust_call f vs s
    = let* (v, s') := run_body (rcall 3) (combine (map fst (rf_params g)) (map VW vs)) (rf_body g) (rf_tail g) s in
      match v with VW w => Ok ([w], s') | VUnit => Ok ([], s') | _ => Stuck end.
  Proof.
    intros E X L. unfold RustLib.rust_call. rewrite E. cbn [rget rbind]. rewrite X.
    rewrite (@call_fn 3 f g (map VW vs) s E) by (now rewrite map_length). reflexivity.
  Qed.

  (** Writes in a row. *)
  Lemma run_writes call env (st : nat -> rexp) tl pg (wr : (Z -> Z) -> Z -> list Z -> Z -> Z) (one : (Z -> Z) -> Z -> Z -> Z -> Z) :
    (forall f k, wr f k [] = f) -> (forall f k z zs, wr f k (z :: zs) = wr (one f k z) (k + 1)%Z zs) ->
    forall zs i k s m, st_mem s = Some m -> ms_pages m = pg ->
    (forall j z s m, nth_error zs j = Some z -> st_mem s = Some m -> ms_pages m = pg ->
       run_exp call env (st (i + j)) s = Ok (VUnit, set_all_bytes s m (one (ms_bytes m) (k + Z.of_nat j)%Z z))) ->
    run_body call env (map (fun j => RDo (st j)) (seq i (List.length zs))) tl s
    = run_body call env [] tl (set_all_bytes s m (wr (ms_bytes m) k zs)).
  Proof.
    intros W0 W1. induction zs as [|z zs IH]; intros i k s m M P H.
    - cbn [List.length seq map]. rewrite W0, (set_bytes_same _ M). reflexivity.
    - cbn [List.length seq map RustLib.run_body]. pose proof (H 0 z s m eq_refl M P) as H0. rewrite Nat.add_0_r in H0. rewrite H0. cbn [rbind].
      rewrite Z.add_0_r. set (f := one (ms_bytes m) k z).
      rewrite (IH (S i) (k + 1)%Z (set_all_bytes s m f) (MemSt (ms_pages m) (ms_max m) f) (set_bytes_mem s m f) P).
      + cbn [ms_bytes]. rewrite set_bytes_twice, W1. reflexivity.
      + intros j w s' m' E M' P'. specialize (H (S j) w s' m' E M' P'). rewrite <- Nat.add_succ_comm in H. rewrite H. do 4 f_equal. lia.
  Qed.
  Lemma side_lens : numeric (ft_out ft) /\ numeric (ft_in ft).
  Proof. exact (num_sig _ Num). Qed.
  Lemma args_lookup vs s i z : nth_error (map (union s) vs) i = Some z ->
    lookup (arg_var i) (args_env (map (fun v => VUnion (union s v)) vs)) = Some (VUnion z).
  Proof. intros E. rewrite lookup_arg, nth_error_map. rewrite nth_error_map in E. destruct (nth_error vs i); [|discriminate]. now injection E as <-. Qed.

  Lemma rust_alloc args s p s1 m : vals_ok (ft_in ft) args = true -> slots ft <> 0%Z -> (8 * slots ft < 2 ^ 32)%Z ->
    al_alloc A (8 * slots ft) 8 s = Ok (p, s1) -> st_mem s1 = Some m -> (p + 8 * slots ft <= ms_pages m * page_size)%Z ->
    rust_call (op_name ft LAlloc) args s
    = Ok ([vi32 p], set_all_bytes s1 m (write_slots (ms_bytes m) p (Z.of_nat r) (map (union s) args))).
  Proof.
    intros V Nz Sm Al M B. pose proof (@vals_ok_len _ _ V) as La. destruct side_lens as [_ Ni].
    assert (Sr : slots ft = Z.of_nat (r + a)) by reflexivity.
    erewrite exported; [|apply (found_special (g := rust_allocate ft)); now left|reflexivity|cbn [rf_params rust_allocate]; now rewrite typed_len].
    cbn [rust_allocate rf_params rf_body rf_tail RustLib.run_body]. rewrite run_exp_call, typed_names.
    replace (seq 0 a) with (seq 0 (List.length (map VW args))) by (now rewrite map_length, La).
    fold (args_env (map VW args)). rewrite (@converted_run _ _ s (ft_in ft) args Ni V).
    2:{ intros i v E. rewrite lookup_arg, nth_error_map, E. reflexivity. }
    cbn [rbind]. set (us := map (fun v => VUnion (union s v)) args).
    assert (Lu : List.length us = a) by (unfold us; now rewrite map_length).
    assert (Fd : fn_named fns ("allocate_" ++ count_name r a) = Some (rust_allocate_generic r a)).
    { replace ("allocate_" ++ count_name r a)%string with (rf_name (rust_allocate_generic r a)).
      - apply found_generic. now left.
      - unfold rust_allocate_generic. destruct (Nat.eqb _ _); reflexivity. }
    assert (Eg : Nat.eqb (r + a) 0 = false) by (apply Nat.eqb_neq; lia).
    unfold rust_allocate_generic in Fd. rewrite Eg in Fd.
    erewrite call_fn; [|exact Fd|cbn [rf_params]; now rewrite map_length, seq_length].
    cbn [rf_params rf_body rf_tail RustLib.run_body]. rewrite run_exp_call. cbn [run_args RustLib.run_exp rbind].
    rewrite alloc_values. rewrite <- Sr, Z.mod_small by lia. rewrite Al. cbn [rbind].
    rewrite map_map. cbn [fst].
    replace (combine (map (fun x => arg_var x) (seq 0 a)) us) with (args_env us) by (unfold args_env; now rewrite Lu).
    replace (seq 0 a) with (seq 0 (List.length (map (union s) args))) by (now rewrite map_length, La).
    rewrite (@run_writes _ _ (fun n => RCall "wastrumentation_memory_store" [RVar "frame_ptr"; RVar (arg_var n); RNum (Z.of_nat (r + n))])
      _ (ms_pages m) (fun f => write_slots f p) (fun f k z => le_write f (p + k * 8) 8 z) (fun _ _ => eq_refl) (fun _ _ _ _ => eq_refl)
      (map (union s) args) 0 (Z.of_nat r) s1 m M eq_refl).
    - reflexivity.
    - intros j z s' m' E M' P'. cbn [Nat.add]. rewrite run_exp_call. cbn [run_args].
      rewrite run_exp_var with (v := VW (vi32 p)) by reflexivity. cbn [rbind].
      rewrite run_exp_var with (v := VUnion z) by (change (lookup (arg_var j) (args_env us) = Some (VUnion z)); now apply args_lookup). cbn [RustLib.run_exp rbind].
      assert (Lj : j < List.length (map (union s) args)) by (apply nth_error_Some; congruence). rewrite map_length in Lj.
      rewrite (@write_value _ p (Z.of_nat (r + j)) z s' m' M') by (rewrite P'; lia). do 5 f_equal. lia.
  Qed.

  Lemma rust_alloc_none args s : vals_ok (ft_in ft) args = true -> slots ft = 0%Z ->
    rust_call (op_name ft LAlloc) args s = Ok ([vi32 0], s).
  Proof.
    intros V Z0. pose proof (@vals_ok_len _ _ V) as La. unfold slots in Z0.
    assert (Ei : ft_in ft = []) by (apply length_zero_iff_nil; lia). rewrite Ei in V. apply vals_ok_nil in V. subst args.
    erewrite exported; [|apply (found_special (g := rust_allocate ft)); now left|reflexivity|cbn [rf_params rust_allocate]; now rewrite typed_len].
    cbn [rust_allocate rf_params rf_body rf_tail RustLib.run_body]. rewrite run_exp_call.
    assert (Fd : fn_named fns ("allocate_" ++ count_name r a) = Some (rust_allocate_generic r a)).
    { replace ("allocate_" ++ count_name r a)%string with (rf_name (rust_allocate_generic r a)).
      - apply found_generic. now left.
      - unfold rust_allocate_generic. destruct (Nat.eqb _ _); reflexivity. }
    unfold rust_allocate_generic in Fd. rewrite (proj2 (Nat.eqb_eq (r + a) 0)) in Fd by lia.
    replace (converted (ft_in ft)) with (@nil rexp) by (now rewrite Ei). cbn [run_args rbind].
    erewrite call_fn; [|exact Fd|reflexivity]. reflexivity.
  Qed.

  Lemma rust_alloc_types s p s1 m : (4 * slots ft < 2 ^ 32)%Z ->
    al_alloc A (4 * slots ft) 4 s = Ok (p, s1) -> st_mem s1 = Some m ->
    slots ft = 0%Z \/ (p + 4 * slots ft <= ms_pages m * page_size)%Z ->
    rust_call (op_name ft LAllocTypes) [] s
    = Ok ([vi32 p], set_all_bytes s1 m (write_types (ms_bytes m) p 0 (map runtime_enum_value (types_of ft)))).
  Proof.
    intros Sm Al M B. assert (Sr : slots ft = Z.of_nat (r + a)) by reflexivity.
    erewrite exported; [|apply (found_special (g := rust_allocate_types ft)); do 5 (apply in_or_app; right); simpl; tauto|reflexivity|reflexivity].
    cbn [rust_allocate_types rf_params rf_body rf_tail RustLib.run_body]. rewrite run_exp_call. cbn [run_args rbind].
    erewrite call_fn; [|apply (found_generic (g := rust_types_generic r a)); do 5 (apply in_or_app; right); simpl; tauto|reflexivity].
    cbn [rust_types_generic rf_params rf_body rf_tail RustLib.run_body]. rewrite run_exp_call. cbn [run_args RustLib.run_exp rbind].
    rewrite alloc_types. rewrite <- Sr, Z.mod_small by (unfold slots; lia). rewrite Al. cbn [rbind map combine].
    fold (types_of ft). set (ts := types_of ft).
    assert (Lt : Z.of_nat (List.length ts) = slots ft) by apply types_len.
    set (st := fun j => RCall "wastrumentation_stack_store_type" [RVar "types_buffer"; RNum (Z.of_nat j); RVariant (nth j ts t_i32)]).
    assert (Em : map (fun it => RDo (RCall "wastrumentation_stack_store_type" [RVar "types_buffer"; RNum (Z.of_nat (fst it)); RVariant (snd it)])) (enum ts)
      = map (fun j => RDo (st j)) (seq 0 (List.length (map runtime_enum_value ts)))).
    { rewrite map_length. unfold st, enum. clear.
      enough (G : forall l k, (forall j, nth_error l j = nth_error ts (k + j)) ->
        map (fun it => RDo (RCall "wastrumentation_stack_store_type" [RVar "types_buffer"; RNum (Z.of_nat (fst it)); RVariant (snd it)])) (combine (seq k (List.length l)) l)
        = map (fun j => RDo (RCall "wastrumentation_stack_store_type" [RVar "types_buffer"; RNum (Z.of_nat j); RVariant (nth j ts t_i32)])) (seq k (List.length l))) by (apply (G ts 0); reflexivity).
      induction l as [|t l IH]; intros k E; [reflexivity|]. cbn [List.length seq combine map fst snd]. f_equal.
      - pose proof (E 0) as E0. rewrite Nat.add_0_r in E0. symmetry in E0. apply nth_error_nth with (d := t_i32) in E0. now rewrite E0.
      - apply IH. intros j. specialize (E (S j)). cbn [nth_error] in E. rewrite E. f_equal. lia. }
    rewrite Em.
    rewrite (@run_writes _ _ st _ (ms_pages m) (fun f => write_types f p) (fun f k z => le_write f (p + k * 4) 4 z) (fun _ _ => eq_refl) (fun _ _ _ _ => eq_refl)
      (map runtime_enum_value ts) 0 0%Z s1 m M eq_refl).
    - reflexivity.
    - intros j z s' m' E M' P'. cbn [Nat.add]. unfold st. rewrite run_exp_call. cbn [run_args].
      rewrite run_exp_var with (v := VW (vi32 p)) by reflexivity. cbn [RustLib.run_exp rbind].
      assert (Lj : j < List.length ts) by (rewrite <- (map_length runtime_enum_value); apply nth_error_Some; congruence).
      rewrite nth_error_map in E. destruct (nth_error ts j) as [t|] eqn:Et; [|discriminate]. injection E as <-.
      rewrite (nth_error_nth _ _ t_i32 Et).
      rewrite (@write_kind _ p (Z.of_nat j) (runtime_enum_value t) s' m' M') by (rewrite P'; lia). reflexivity.
  Qed.

  Lemma rust_free_run p s s1 : slots ft <> 0%Z -> (8 * slots ft < 2 ^ 32)%Z -> al_dealloc A p (8 * slots ft) 8 s = Ok s1 ->
    rust_call (op_name ft LFree) [vi32 p] s = Ok ([], s1).
  Proof.
    intros Nz Sm Al. assert (Sr : slots ft = Z.of_nat (r + a)) by reflexivity.
    erewrite exported; [|apply (found_special (g := rust_free ft)); do 5 (apply in_or_app; right); simpl; tauto|reflexivity|reflexivity].
    cbn [rust_free rf_params rf_body rf_tail RustLib.run_body map fst combine]. rewrite run_exp_call. cbn [run_args].
    rewrite run_exp_var with (v := VW (vi32 p)) by reflexivity. cbn [rbind].
    assert (Fd : fn_named fns ("free_values_" ++ count_name r a) = Some (rust_free_generic r a)).
    { replace ("free_values_" ++ count_name r a)%string with (rf_name (rust_free_generic r a)).
      - apply found_generic. do 5 (apply in_or_app; right). now left.
      - unfold rust_free_generic. destruct (Nat.eqb _ _); reflexivity. }
    unfold rust_free_generic in Fd. rewrite (proj2 (Nat.eqb_neq (r + a) 0)) in Fd by lia.
    erewrite call_fn; [|exact Fd|reflexivity].
    cbn [rf_params rf_body rf_tail RustLib.run_body map fst combine]. rewrite run_exp_call. cbn [run_args].
    rewrite run_exp_var with (v := VW (vi32 p)) by reflexivity. cbn [RustLib.run_exp rbind].
    rewrite free_values, <- Sr, Z.mod_small, Al by (unfold slots; lia). reflexivity.
  Qed.
  Lemma rust_free_none p s : slots ft = 0%Z -> rust_call (op_name ft LFree) [vi32 p] s = Ok ([], s).
  Proof.
    intros Z0. unfold slots in Z0.
    erewrite exported; [|apply (found_special (g := rust_free ft)); do 5 (apply in_or_app; right); simpl; tauto|reflexivity|reflexivity].
    cbn [rust_free rf_params rf_body rf_tail RustLib.run_body map fst combine]. rewrite run_exp_call. cbn [run_args].
    rewrite run_exp_var with (v := VW (vi32 p)) by reflexivity. cbn [rbind].
    assert (Fd : fn_named fns ("free_values_" ++ count_name r a) = Some (rust_free_generic r a)).
    { replace ("free_values_" ++ count_name r a)%string with (rf_name (rust_free_generic r a)).
      - apply found_generic. do 5 (apply in_or_app; right). now left.
      - unfold rust_free_generic. destruct (Nat.eqb _ _); reflexivity. }
    unfold rust_free_generic in Fd. rewrite (proj2 (Nat.eqb_eq (r + a) 0)) in Fd by lia.
    erewrite call_fn; [|exact Fd|reflexivity]. reflexivity.
  Qed.
  Lemma rust_free_types_run p s s1 : (4 * slots ft < 2 ^ 32)%Z -> al_dealloc A p (4 * slots ft) 4 s = Ok s1 ->
    rust_call (op_name ft LFreeTypes) [vi32 p] s = Ok ([], s1).
  Proof.
    intros Sm Al. assert (Sr : slots ft = Z.of_nat (r + a)) by reflexivity.
    erewrite exported; [|apply (found_special (g := rust_free_types ft)); do 5 (apply in_or_app; right); simpl; tauto|reflexivity|reflexivity].
    cbn [rust_free_types rf_params rf_body rf_tail RustLib.run_body map fst combine]. rewrite run_exp_call. cbn [run_args].
    rewrite run_exp_var with (v := VW (vi32 p)) by reflexivity. cbn [rbind].
    erewrite call_fn; [|apply (found_generic (g := rust_free_types_generic r a)); do 5 (apply in_or_app; right); simpl; tauto|reflexivity].
    cbn [rust_free_types_generic rf_params rf_body rf_tail RustLib.run_body map fst combine]. rewrite run_exp_call. cbn [run_args].
    rewrite run_exp_var with (v := VW (vi32 p)) by reflexivity. cbn [RustLib.run_exp rbind].
    rewrite free_types, <- Sr, Z.mod_small, Al by (unfold slots; lia). reflexivity.
  Qed.

  (** Slots, from the program and from the analysis. *)
  Lemma side_generic_load sd i : i < List.length (side_types ft sd) -> In (rust_load_generic r a sd i) (rust_generic r a).
  Proof.
    intros Li. unfold rust_generic. apply in_or_app. right. destruct sd; cbn [side_types] in Li.
    - apply in_or_app. right. apply in_or_app. left. apply in_map, in_seq. lia.
    - apply in_or_app. left. apply in_map, in_seq. lia.
  Qed.
  Lemma side_generic_store sd i : i < List.length (side_types ft sd) -> In (rust_store_generic r a sd i) (rust_generic r a).
  Proof.
    intros Li. unfold rust_generic. do 3 (apply in_or_app; right). destruct sd; cbn [side_types] in Li.
    - apply in_or_app. right. apply in_or_app. left. apply in_map, in_seq. lia.
    - apply in_or_app. left. apply in_map, in_seq. lia.
  Qed.
  Lemma side_load sd i t : nth_error (side_types ft sd) i = Some t -> In (rust_load ft sd (i, t)) (rust_special ft).
  Proof.
    intros E. unfold rust_special. apply in_or_app. right. destruct sd; cbn [side_types] in E.
    - apply in_or_app. right. apply in_or_app. left. apply in_map. now apply enum_in.
    - apply in_or_app. left. apply in_map. now apply enum_in.
  Qed.
  Lemma side_store sd i t : nth_error (side_types ft sd) i = Some t -> In (rust_store ft sd (i, t)) (rust_special ft).
  Proof.
    intros E. unfold rust_special. do 3 (apply in_or_app; right). destruct sd; cbn [side_types] in E.
    - apply in_or_app. right. apply in_or_app. left. apply in_map. now apply enum_in.
    - apply in_or_app. left. apply in_map. now apply enum_in.
  Qed.
  Lemma slot_num sd i : Z.of_nat (match sd with SArg => r + i | SRet => i end) = slot_of ft sd i.
  Proof. destruct sd; reflexivity. Qed.
  Lemma rust_load_run p s m sd i t : nth_error (side_types ft sd) i = Some (TNum t) -> st_mem s = Some m ->
    (p + slot_of ft sd i * 8 + 8 <= ms_pages m * page_size)%Z ->
    rust_call (op_name ft (LLoad sd i)) [vi32 p] s = Ok ([VNum t (le_read (ms_bytes m) (p + slot_of ft sd i * 8) 8 mod 2 ^ bits t)], s).
  Proof.
    intros E M B. assert (Li : i < List.length (side_types ft sd)) by (apply nth_error_Some; congruence).
    erewrite exported; [|apply (found_special (side_load _ _ E))|reflexivity|reflexivity].
    cbn [rust_load rf_params rf_body rf_tail RustLib.run_body map fst snd combine]. rewrite run_exp_call. cbn [run_args].
    rewrite run_exp_var with (v := VW (vi32 p)) by reflexivity. cbn [rbind].
    erewrite call_fn; [|apply (found_generic (side_generic_load sd Li))|reflexivity].
    cbn [rust_load_generic rf_params rf_body rf_tail RustLib.run_body map fst combine]. rewrite run_exp_call. cbn [run_args].
    rewrite run_exp_var with (v := VW (vi32 p)) by reflexivity. cbn [RustLib.run_exp rbind].
    rewrite slot_num, (@read_value _ p _ s m M B). reflexivity.
  Qed.
  Lemma rust_store_run p s m sd i t v : nth_error (side_types ft sd) i = Some (TNum t) -> typeof v = TNum t -> st_mem s = Some m ->
    (p + slot_of ft sd i * 8 + 8 <= ms_pages m * page_size)%Z ->
    rust_call (op_name ft (LStore sd i)) [vi32 p; v] s
    = Ok ([], set_all_bytes s m (le_write (ms_bytes m) (p + slot_of ft sd i * 8) 8 (union s v))).
  Proof.
    intros E Tv M B. assert (Li : i < List.length (side_types ft sd)) by (apply nth_error_Some; congruence).
    erewrite exported; [|apply (found_special (side_store _ _ E))|reflexivity|reflexivity].
    cbn [rust_store rf_params rf_body rf_tail RustLib.run_body map fst snd combine]. rewrite run_exp_call. cbn [run_args].
    rewrite run_exp_var with (v := VW (vi32 p)) by reflexivity. cbn [rbind]. rewrite run_exp_op. cbn [run_args].
    rewrite run_exp_var with (v := VW v) by (cbn [lookup]; change (String.eqb (arg_var i) "stack_ptr") with false; cbn iota; now rewrite String.eqb_refl).
    cbn [rbind]. rewrite (@new_value s t v Tv). cbn [rbind].
    erewrite call_fn; [|apply (found_generic (side_generic_store sd Li))|reflexivity].
    cbn [rust_store_generic rf_params rf_body rf_tail RustLib.run_body map fst combine]. rewrite run_exp_call. cbn [run_args].
    rewrite run_exp_var with (v := VW (vi32 p)) by reflexivity. cbn [rbind].
    rewrite run_exp_var with (v := VUnion (union s v)) by (destruct sd; cbn [slot_var]; unfold lookup; cbn -[decimal]; now rewrite String.eqb_refl).
    cbn [RustLib.run_exp rbind]. rewrite slot_num, (@write_value _ p _ _ s m M B). reflexivity.
  Qed.
  Lemma rust_analysis_load p k s m t : st_mem s = Some m -> (p + k * 8 + 8 <= ms_pages m * page_size)%Z ->
    rust_call (stack_load_name t) [vi32 p; vi32 k] s = Ok ([VNum t (le_read (ms_bytes m) (p + k * 8) 8 mod 2 ^ bits t)], s).
  Proof.
    intros M B. assert (E : fn_named fns (stack_load_name t) = Some (load_boiler t)) by (destruct t; reflexivity).
    erewrite exported; [|exact E|reflexivity|reflexivity].
    cbn [load_boiler rf_params rf_body rf_tail RustLib.run_body map fst snd combine]. rewrite run_exp_call. cbn [run_args].
    rewrite run_exp_var with (v := VW (vi32 p)) by reflexivity. cbn [rbind].
    rewrite run_exp_var with (v := VW (vi32 k)) by reflexivity. cbn [rbind].
    rewrite (@read_value _ p _ s m M B). reflexivity.
  Qed.
  Lemma rust_analysis_store p k s m t v : typeof v = TNum t -> st_mem s = Some m -> (p + k * 8 + 8 <= ms_pages m * page_size)%Z ->
    rust_call (stack_store_name t) [vi32 p; v; vi32 k] s = Ok ([], set_all_bytes s m (le_write (ms_bytes m) (p + k * 8) 8 (union s v))).
  Proof.
    intros Tv M B. assert (E : fn_named fns (stack_store_name t) = Some (store_boiler t)) by (destruct t; reflexivity).
    erewrite exported; [|exact E|reflexivity|reflexivity].
    cbn [store_boiler rf_params rf_body rf_tail RustLib.run_body map fst snd combine]. rewrite run_exp_call. cbn [run_args].
    rewrite run_exp_var with (v := VW (vi32 p)) by reflexivity. cbn [rbind]. rewrite run_exp_op. cbn [run_args].
    rewrite run_exp_var with (v := VW v) by reflexivity. cbn [rbind]. rewrite (@new_value s t v Tv). cbn [rbind].
    rewrite run_exp_var with (v := VW (vi32 k)) by reflexivity. cbn [rbind].
    rewrite (@write_value _ p _ _ s m M B). reflexivity.
  Qed.
  Lemma rust_load_type p k s m : st_mem s = Some m -> (p + k * 4 + 4 <= ms_pages m * page_size)%Z ->
    rust_call "wastrumentation_stack_load_type" [vi32 p; vi32 k] s = Ok ([vi32 (le_read (ms_bytes m) (p + k * 4) 4)], s).
  Proof.
    intros M B. unfold RustLib.rust_call. change (fn_named fns "wastrumentation_stack_load_type") with
      (Some (RFn true "wastrumentation_stack_load_type" [("ptr", RUsize); ("offset", RUsize)] (RW t_i32)
        [RLet "ty" (ROp OReadKind [RVar "ptr"; RVar "offset"])] (Some (ROp OCode [RVar "ty"])))).
    cbn [rget rbind rf_export map]. now rewrite (@read_kind 3 p k s m M B).
  Qed.
  Lemma rust_store_rets_run p vs s m : vals_ok (ft_out ft) vs = true -> st_mem s = Some m ->
    r = 0 \/ (p + Z.of_nat r * 8 <= ms_pages m * page_size)%Z ->
    rust_call (op_name ft LStoreRets) (vi32 p :: vs) s
    = Ok ([], set_all_bytes s m (write_slots (ms_bytes m) p 0 (map (union s) vs))).
  Proof.
    intros V M B. pose proof (@vals_ok_len _ _ V) as Lv. destruct side_lens as [No _].
    erewrite exported; [|apply (found_special (g := rust_store_rets ft)); do 5 (apply in_or_app; right); simpl; tauto|reflexivity
      |cbn [rf_params rust_store_rets List.length]; now rewrite typed_len, Lv].
    cbn [rust_store_rets rf_params rf_body rf_tail RustLib.run_body map fst combine]. rewrite run_exp_call, typed_names. cbn [run_args].
    rewrite run_exp_var with (v := VW (vi32 p)) by reflexivity. cbn [rbind].
    replace (seq 0 r) with (seq 0 (List.length (map VW vs))) by (now rewrite map_length, Lv).
    fold (args_env (map VW vs)). rewrite (@converted_run _ _ s (ft_out ft) vs No V).
    2:{ intros i v E. change (lookup (arg_var i) (args_env (map VW vs)) = Some (VW v)). rewrite lookup_arg, nth_error_map, E. reflexivity. }
    cbn [rbind]. set (us := map (fun v => VUnion (union s v)) vs).
    assert (Lu : List.length us = r) by (unfold us; now rewrite map_length).
    erewrite call_fn; [|apply (found_generic (g := rust_store_rets_generic r a)); do 5 (apply in_or_app; right); simpl; tauto
      |cbn [rf_params rust_store_rets_generic List.length]; now rewrite map_length, seq_length, Lu].
    cbn [rust_store_rets_generic rf_params rf_body rf_tail RustLib.run_body map fst combine]. rewrite map_map. cbn [fst].
    replace (combine (map (fun x => arg_var x) (seq 0 r)) us) with (args_env us) by (unfold args_env; now rewrite Lu).
    destruct (Nat.eq_dec r 0) as [Z0|Nz].
    - assert (vs = []) by (apply length_zero_iff_nil; lia). subst vs. rewrite Z0. cbn [seq map RustLib.run_body rbind write_slots].
      now rewrite (set_bytes_same _ M).
    - replace (match r with 0 => "_stack_ptr" | S _ => "stack_ptr" end) with "stack_ptr" by (destruct r; [congruence|reflexivity]).
      destruct B as [B|B]; [contradiction|].
      replace (seq 0 r) with (seq 0 (List.length (map (union s) vs))) by (now rewrite map_length, Lv).
      rewrite (@run_writes _ _ (fun n => RCall (store_count_name SRet n r a) [RVar "stack_ptr"; RVar (arg_var n)])
        _ (ms_pages m) (fun f => write_slots f p) (fun f k z => le_write f (p + k * 8) 8 z) (fun _ _ => eq_refl) (fun _ _ _ _ => eq_refl)
        (map (union s) vs) 0 0%Z s m M eq_refl).
      + reflexivity.
      + intros j z s' m' E M' P'. cbn [Nat.add]. rewrite run_exp_call. cbn [run_args].
        assert (Lj : j < List.length (map (union s) vs)) by (apply nth_error_Some; congruence). rewrite map_length, Lv in Lj.
        rewrite run_exp_var with (v := VW (vi32 p)) by reflexivity. cbn [rbind].
        rewrite run_exp_var with (v := VUnion z) by (change (lookup (arg_var j) (args_env us) = Some (VUnion z)); now apply args_lookup).
        cbn [rbind].
        erewrite call_fn; [|apply (found_generic (@side_generic_store SRet j Lj))|reflexivity].
        cbn [rust_store_generic rf_params rf_body rf_tail RustLib.run_body map fst combine]. rewrite run_exp_call. cbn [run_args].
        rewrite run_exp_var with (v := VW (vi32 p)) by reflexivity. cbn [rbind].
        rewrite run_exp_var with (v := VUnion z) by (cbn [slot_var]; unfold lookup; cbn -[decimal]; now rewrite String.eqb_refl).
        cbn [RustLib.run_exp rbind].
        rewrite (@write_value _ p (Z.of_nat j) z s' m' M') by (rewrite P'; lia). reflexivity.
  Qed.
End Run.
