(** What the exported functions of the library that is generated for AssemblyScript do. *)
From Verif Require Import AsLib AsNames RustRun RustNames StackNames StackAsm StackOps StackHist StackRun RsStdlib Bytes.
Local Open Scope string_scope.
Local Open Scope list_scope.
Local Open Scope res_scope.

(** ** Bytes *)
Definition width (v : val) : nat := match v with VNum t _ => storeop_bytes (store_of t) | VRef _ _ => 0 end.
Lemma width_le v : width v <= 8.
Proof. destruct v as [[]|]; cbn; lia. Qed.
Lemma read_low f a t : le_read f a (loadop_bytes (load_of t)) = (le_read f a 8 mod 2 ^ bits t)%Z.
Proof.
  pose proof (le_read_range f a 8) as R8.
  assert (E : (le_read f a 8 = le_read f a 4 + 2 ^ 32 * le_read f (a + 4) 4)%Z).
  { cbn [le_read]. replace (a + 4 + 1)%Z with (a + 1 + 1 + 1 + 1 + 1)%Z by lia.
    replace (a + 4)%Z with (a + 1 + 1 + 1 + 1)%Z by lia. lia. }
  pose proof (le_read_range f a 4) as R4. change (256 ^ Z.of_nat 4)%Z with (2 ^ 32)%Z in R4. change (256 ^ Z.of_nat 8)%Z with (2 ^ 64)%Z in R8.
  destruct t; cbn [load_of loadop_bytes bits]; try (symmetry; apply Z.mod_small; exact R8);
    rewrite E, Z.mul_comm, Z.mod_add by lia; symmetry; apply Z.mod_small; exact R4.
Qed.
Lemma written_holds f a v : in_range v = true -> (exists t, typeof v = TNum t) -> holds v (le_read (le_write f a (width v) (num_bits v)) a 8).
Proof.
  intros R (t & T). destruct (@num_range t v T R) as (z & -> & Rz & _ & _). cbn [holds width num_bits]. rewrite <- read_low.
  destruct t; cbn [load_of store_of loadop_bytes storeop_bytes] in *; apply le_read_write_small; exact Rz.
Qed.
(** Values in consecutive slots. *)
Fixpoint write_vals (f : Z -> Z) (q k : Z) (vs : list val) : Z -> Z :=
  match vs with
  | [] => f
  | v :: r => write_vals (le_write f (q + k * 8) (width v) (num_bits v)) q (k + 1) r
  end%Z.
Lemma write_vals_other f q k vs i : (i < q + k * 8 \/ q + (k + Z.of_nat (List.length vs)) * 8 <= i)%Z -> write_vals f q k vs i = f i.
Proof.
  revert f k. induction vs as [|v vs IH]; intros f k H; [reflexivity|]. cbn [write_vals]. cbn [List.length] in H. pose proof (width_le v).
  rewrite IH by lia. apply le_write_other. lia.
Qed.
Lemma write_vals_holds q vs : forall f k j v, Forall (fun v => in_range v = true /\ exists t, typeof v = TNum t) vs -> nth_error vs j = Some v ->
  holds v (le_read (write_vals f q k vs) (q + (k + Z.of_nat j) * 8) 8).
Proof.
  induction vs as [|w vs IH]; intros f k j v F E; [destruct j; discriminate|]. inversion F as [|? ? [R T] F']; subst. cbn [write_vals].
  destruct j as [|j]; cbn [nth_error] in E.
  - injection E as ->. rewrite Z.add_0_r.
    erewrite le_read_same; [apply (@written_holds f (q + k * 8) v R T)|]. intros i Hi. apply write_vals_other. change (Z.of_nat 8) with 8%Z in Hi. lia.
  - replace (k + Z.of_nat (S j))%Z with ((k + 1) + Z.of_nat j)%Z by lia. now apply IH.
Qed.
Lemma vals_ranged ts vs : numeric ts -> vals_ok ts vs = true -> Forall (fun v => in_range v = true /\ exists t, typeof v = TNum t) vs.
Proof.
  intros Nm V. apply Forall_forall. intros v I. apply In_nth_error in I. destruct I as (i & E).
  destruct (@vals_ok_nth _ _ i v V E) as (t & Nt & Tv & Rv). split; [exact Rv|]. destruct (@num_nth _ _ _ Nm Nt) as (n & ->). eauto.
Qed.

Lemma pages_enough after t : (after <= pages_for after t * 65536)%Z.
  Proof. unfold pages_for. pose proof (Z.mul_succ_div_gt (after + 65535) 65536 eq_refl). lia. Qed.

(** ** Signatures *)
Section Sig.
  Variable ft : functy.
  Notation r := (List.length (ft_out ft)).
  Notation a := (List.length (ft_in ft)).
  Definition te : list (string * valty) := combine (as_generics r a) (ft_out ft ++ ft_in ft).
  Lemma type_var_inj s s' n n' : type_var s n = type_var s' n' -> s = s' /\ n = n'.
  Proof. destruct s, s'; unfold type_var; intros E; try discriminate E; injection E as E; apply decimal_inj in E; auto. Qed.
  Lemma lookup_seq {B} s (l : list B) rest : forall k n, n < List.length l ->
    lookup (type_var s (k + n)) (combine (map (type_var s) (seq k (List.length l))) l ++ rest) = nth_error l n.
  Proof.
    induction l as [|x l IH]; intros k n Ln; [cbn in Ln; lia|]. cbn [List.length seq map combine app lookup].
    destruct (String.eqb_spec (type_var s (k + n)) (type_var s k)) as [E|E].
    - apply type_var_inj in E. destruct E as [_ E]. assert (n = 0) by lia. subst. reflexivity.
    - destruct n as [|n]; [rewrite Nat.add_0_r in E; congruence|]. cbn [nth_error]. rewrite <- (IH (S k) n) by (cbn in Ln; lia). do 2 f_equal. lia.
  Qed.
  Lemma lookup_past {B} s s' (l : list B) rest n : s <> s' -> forall k, lookup (type_var s n) (combine (map (type_var s') (seq k (List.length l))) l ++ rest) = lookup (type_var s n) rest.
  Proof.
    intros D. induction l as [|x l IH]; intros k; [reflexivity|]. cbn [List.length seq map combine app lookup].
    destruct (String.eqb_spec (type_var s n) (type_var s' k)) as [E|_]; [apply type_var_inj in E; tauto|apply IH].
  Qed.
  Lemma combine_app {B C} (l1 l2 : list B) (m1 m2 : list C) : List.length l1 = List.length m1 -> combine (l1 ++ l2) (m1 ++ m2) = combine l1 m1 ++ combine l2 m2.
  Proof. revert m1. induction l1 as [|x l1 IH]; intros [|y m1] E; try discriminate; [reflexivity|]. cbn [combine app]. rewrite IH by (cbn in E; lia). reflexivity. Qed.
  Lemma te_lookup sd n t : nth_error (side_types ft sd) n = Some t -> lookup (type_var sd n) te = Some t.
  Proof.
    intros E. assert (Ln : n < List.length (side_types ft sd)) by (apply nth_error_Some; congruence).
    unfold te, as_generics. rewrite combine_app by (now rewrite map_length, seq_length). destruct sd; cbn [side_types] in *.
    - rewrite <- E. exact (@lookup_seq valty SRet (ft_out ft) _ 0 n Ln).
    - rewrite lookup_past by discriminate. rewrite <- E. rewrite <- (app_nil_r (combine (map (type_var SArg) _) _)).
      exact (@lookup_seq valty SArg (ft_in ft) [] 0 n Ln).
  Qed.
  Lemma resolves_map te' ts us : Forall2 (fun t u => resolve te' t = Some u) ts us -> resolves te' ts = Some us.
  Proof. induction 1 as [|t u ts us E F IH]; [reflexivity|]. cbn [resolves]. now rewrite E, IH. Qed.
  Lemma generics_resolve : resolves te (as_generic_args r a) = Some (ft_out ft ++ ft_in ft).
  Proof.
    apply resolves_map. unfold as_generic_args, as_generics. rewrite map_app, !map_map. apply Forall2_app.
    - assert (G : forall l k, (forall j t, nth_error l j = Some t -> lookup (type_var SRet (k + j)) te = Some t) ->
        Forall2 (fun t u => resolve te t = Some u) (map (fun x => AParam (type_var SRet x)) (seq k (List.length l))) l).
      { induction l as [|t l IH]; intros k H; [constructor|]. cbn [List.length seq map]. constructor.
        - cbn [resolve]. rewrite <- (H 0 t eq_refl). now rewrite Nat.add_0_r.
        - apply IH. intros j u E. rewrite <- (H (S j) u E). do 2 f_equal. lia. }
      apply (G (ft_out ft) 0). intros j t E. exact (@te_lookup SRet j t E).
    - assert (G : forall l k, (forall j t, nth_error l j = Some t -> lookup (type_var SArg (k + j)) te = Some t) ->
        Forall2 (fun t u => resolve te t = Some u) (map (fun x => AParam (type_var SArg x)) (seq k (List.length l))) l).
      { induction l as [|t l IH]; intros k H; [constructor|]. cbn [List.length seq map]. constructor.
        - cbn [resolve]. rewrite <- (H 0 t eq_refl). now rewrite Nat.add_0_r.
        - apply IH. intros j u E. rewrite <- (H (S j) u E). do 2 f_equal. lia. }
      apply (G (ft_in ft) 0). intros j t E. exact (@te_lookup SArg j t E).
  Qed.
  Lemma generics_len : List.length (as_generics r a) = List.length (ft_out ft ++ ft_in ft).
  Proof. unfold as_generics. now rewrite !app_length, !map_length, !seq_length. Qed.

  Lemma as_typed_names ts : map fst (as_typed ts) = map arg_var (seq 0 (List.length ts)).
  Proof. unfold as_typed. rewrite map_map. cbn [fst]. rewrite <- enum_fst, map_map. reflexivity. Qed.
  Lemma as_typed_len ts : List.length (as_typed ts) = List.length ts.
  Proof. unfold as_typed. rewrite map_length. apply enum_len. Qed.
  Lemma args_env_eq (vs : list val) n : List.length vs = n -> combine (map arg_var (seq 0 n)) vs = args_env vs.
  Proof. intros <-. reflexivity. Qed.
  Lemma side_agen_load sd i : i < List.length (side_types ft sd) -> In (as_load_generic r a sd i) (as_generic r a).
  Proof.
    intros Li. unfold as_generic. apply in_or_app. right. destruct sd; cbn [side_types] in Li.
    - apply in_or_app. right. apply in_or_app. left. apply in_map, in_seq. lia.
    - apply in_or_app. left. apply in_map, in_seq. lia.
  Qed.
  Lemma side_agen_store sd i : i < List.length (side_types ft sd) -> In (as_store_generic r a sd i) (as_generic r a).
  Proof.
    intros Li. unfold as_generic. do 3 (apply in_or_app; right). destruct sd; cbn [side_types] in Li.
    - apply in_or_app. right. apply in_or_app. left. apply in_map, in_seq. lia.
    - apply in_or_app. left. apply in_map, in_seq. lia.
  Qed.
  Lemma side_aload sd i t : nth_error (side_types ft sd) i = Some t -> In (as_load ft sd (i, t)) (as_special ft).
  Proof.
    intros E. unfold as_special. apply in_or_app. right. destruct sd; cbn [side_types] in E.
    - apply in_or_app. right. apply in_or_app. left. apply in_map. now apply enum_in.
    - apply in_or_app. left. apply in_map. now apply enum_in.
  Qed.
  Lemma side_astore sd i t : nth_error (side_types ft sd) i = Some t -> In (as_store ft sd (i, t)) (as_special ft).
  Proof.
    intros E. unfold as_special. do 3 (apply in_or_app; right). destruct sd; cbn [side_types] in E.
    - apply in_or_app. right. apply in_or_app. left. apply in_map. now apply enum_in.
    - apply in_or_app. left. apply in_map. now apply enum_in.
  Qed.
  Lemma index_slot sd i : index_offset r sd i = slot_of ft sd i.
  Proof. destruct sd; reflexivity. Qed.
  Lemma slot_pos sd i : (0 <= slot_of ft sd i)%Z.
  Proof. unfold slot_of. lia. Qed.
  Hypothesis Num : numeric_sig ft = true.
  Lemma types_resolve te' : resolves te' (as_types ft) = Some (ft_out ft ++ ft_in ft).
  Proof.
    destruct (num_sig _ Num) as [No Ni]. apply resolves_map. unfold as_types.
    assert (G : forall l, numeric l -> Forall2 (fun t u => resolve te' t = Some u) (map AW l) l).
    { induction l as [|t l IH]; intros H; [constructor|]. unfold numeric in H. cbn [existsb] in H. apply orb_false_iff in H. destruct H as [H1 H2].
      constructor; [|now apply IH]. destruct t; [reflexivity|discriminate H1]. }
    rewrite map_app. apply Forall2_app; auto.
  Qed.
End Sig.

(** ** States *)
Section Run.
  Notation store := (store unit).
  Notation res := (res store).
  Variables p0 mx : Z.
  Hypothesis Pages : (0 <= p0 <= mx /\ mx <= 65536)%Z.
  (** Free pointer, pages that were added, bytes. *)
  Definition AS (p t : Z) (f : Z -> Z) : store := St (Some (MemSt (p0 + t) mx f)) [vi32 p; vi32 t] [] [] [] tt.
  (** The most pages that can be used: at 65536 the size in bytes wraps to zero. *)
  Definition most : Z := Z.min 65535 (mx - p0).
  Lemma most_bounds : (0 <= most <= 65535 /\ most <= mx - p0)%Z.
  Proof. unfold most. lia. Qed.

  Lemma as_grow_ok p t f : (0 <= t < mx - p0)%Z -> as_grow (AS p t f) = Ok (AS p (t + 1) f).
  Proof.
    intros T. unfold as_grow, AS. cbn [st_mem rget rbind]. unfold mem_grow. cbn [ms_pages ms_max ms_bytes].
    destruct (Z.leb_spec (p0 + t + 1) mx); [|lia].
    destruct (Z.eqb_spec (p0 + t) (2 ^ 32 - 1)); [lia|]. cbn [as_global st_globals nth_error rbind vi32].
    unfold as_set_global, set_globals, set_mem. cbn [st_globals set_nth st_mem st_tables st_elems st_datas st_x].
    rewrite Z.mod_small by lia. do 4 f_equal. lia.
  Qed.
  Lemma as_grow_full p t f : (mx - p0 <= t)%Z -> as_grow (AS p t f) = Trap (AS p t f).
  Proof.
    intros T. unfold as_grow, AS. cbn [st_mem rget rbind]. unfold mem_grow. cbn [ms_pages ms_max ms_bytes].
    destruct (Z.leb_spec (p0 + t + 1) mx); [lia|]. reflexivity.
  Qed.
  Lemma as_total_eq p t f : (0 <= t <= 65535)%Z -> as_total (AS p t f) = Ok (t * 65536)%Z.
  Proof. intros T. unfold as_total. cbn [AS as_global st_globals nth_error rbind vi32]. now rewrite Z.mod_small by lia. Qed.
  Lemma grow_ok after p f : (0 <= after <= most * 65536)%Z -> forall n t, (0 <= t <= most)%Z -> (most - t < Z.of_nat n)%Z ->
    as_grow_to n after (AS p t f) = Ok (AS p (pages_for after t) f).
  Proof.
    intros Af. pose proof most_bounds as M. induction n as [|n IH]; intros t T Fu; [lia|]. cbn [as_grow_to].
    rewrite as_total_eq by lia. cbn [rbind]. destruct (Z.gtb_spec after (t * 65536)) as [G|G].
    - assert (T' : (t < most)%Z) by lia. rewrite as_grow_ok by lia. cbn [rbind]. rewrite IH by lia.
      assert (t + 1 <= (after + 65535) / 65536)%Z by (apply Z.div_le_lower_bound; lia).
      assert (E : pages_for after (t + 1) = pages_for after t) by (unfold pages_for; lia). now rewrite E.
    - assert ((after + 65535) / 65536 < t + 1)%Z by (apply Z.div_lt_upper_bound; lia).
      assert (E : pages_for after t = t) by (unfold pages_for; lia). now rewrite E.
  Qed.
  Lemma grow_trap after p f : (most * 65536 < after < 2 ^ 32)%Z -> forall n t, (0 <= t <= mx - p0)%Z -> (mx - p0 - t < Z.of_nat n)%Z ->
    exists s', as_grow_to n after (AS p t f) = Trap s'.
  Proof.
    intros Af. pose proof most_bounds as M. induction n as [|n IH]; intros t T Fu; [lia|]. cbn [as_grow_to].
    assert (G : exists u, as_total (AS p t f) = Ok u /\ (u < after)%Z).
    { unfold as_total. cbn [AS as_global st_globals nth_error rbind vi32]. eexists. split; [reflexivity|].
      destruct (Z.eq_dec t 65536) as [->|Ne]; [cbn; lia|]. rewrite Z.mod_small by lia. unfold most in *. lia. }
    destruct G as (u & -> & G). cbn [rbind]. destruct (Z.gtb_spec after u) as [_|]; [|lia].
    destruct (Z.eq_dec t (mx - p0)) as [->|Ne].
    - rewrite as_grow_full by lia. cbn [rbind]. eauto.
    - rewrite as_grow_ok by lia. cbn [rbind]. apply IH; lia.
  Qed.
  Lemma pages_most after t : (0 <= t <= most)%Z -> (after <= most * 65536)%Z -> (0 <= t <= pages_for after t /\ pages_for after t <= most)%Z.
  Proof.
    intros T A. unfold pages_for. assert ((after + 65535) / 65536 < most + 1)%Z by (apply Z.div_lt_upper_bound; lia). lia.
  Qed.
  Variable N : nat.
  Hypothesis Big : (65540 <= Z.of_nat N)%Z.
  Lemma as_alloc_bytes b p t f : (0 <= b)%Z -> (0 <= p)%Z -> (0 <= t <= most)%Z -> (p + b <= most * 65536)%Z ->
    as_allocate_bytes N b (AS p t f) = Ok (p, AS (p + b) (pages_for (p + b) t) f).
  Proof.
    intros B P T C. pose proof most_bounds as M. unfold as_allocate_bytes.
    change (as_global 0 (AS p t f)) with (@Ok store Z p). cbn [rbind]. rewrite Z.mod_small by lia.
    rewrite grow_ok by lia. cbn [rbind]. unfold as_set_global. cbn [AS st_globals set_nth set_globals st_mem st_tables st_elems st_datas st_x].
    rewrite Z.mod_small by lia. reflexivity.
  Qed.
  Lemma as_alloc_full b p t f : (0 <= t <= most)%Z -> (most * 65536 < p + b < 2 ^ 32)%Z -> exists s', as_allocate_bytes N b (AS p t f) = Trap s'.
  Proof.
    intros T C. pose proof most_bounds as M. unfold as_allocate_bytes.
    change (as_global 0 (AS p t f)) with (@Ok store Z p). cbn [rbind]. rewrite Z.mod_small by lia.
    destruct (@grow_trap (p + b)%Z p f C N t) as (s' & ->); [lia|lia|]. cbn [rbind]. eauto.
  Qed.
  Lemma as_dealloc_bytes b p t f : (0 <= b <= p)%Z -> (p < 2 ^ 32)%Z -> as_deallocate_bytes b (AS p t f) = Ok (AS (p - b) t f).
  Proof.
    intros B P. unfold as_deallocate_bytes. change (as_global 0 (AS p t f)) with (@Ok store Z p). cbn [rbind].
    unfold as_set_global. cbn [AS st_globals set_nth set_globals st_mem st_tables st_elems st_datas st_x].
    rewrite Z.mod_small by lia. reflexivity.
  Qed.
  Lemma as_addr_eq q k size : (0 <= q)%Z -> (0 <= k * size)%Z -> (q + k * size < 2 ^ 32)%Z -> as_addr q k size = (q + k * size)%Z.
  Proof. intros Q K B. unfold as_addr. rewrite (Z.mod_small (k * size)) by lia. apply Z.mod_small. lia. Qed.
  Lemma as_read_ok ty a p t f : (a + 8 <= t * 65536)%Z ->
    as_read ty a (AS p t f) = Ok ([VNum ty (le_read f a 8 mod 2 ^ bits ty)], AS p t f).
  Proof.
    intros B. unfold as_read. cbn [AS st_mem rget rbind]. unfold mem_load. cbn [ms_pages ms_bytes].
    destruct (Z.leb_spec (a + Z.of_nat (loadop_bytes (load_of ty))) ((p0 + t) * page_size)) as [_|L].
    - rewrite <- read_low. destruct ty; reflexivity.
    - exfalso. unfold page_size in L. destruct ty; cbn in L; lia.
  Qed.
  Lemma as_read_kind a p t f : (a + 4 <= t * 65536)%Z -> as_read TI32 a (AS p t f) = Ok ([vi32 (le_read f a 4)], AS p t f).
  Proof.
    intros B. unfold as_read. cbn [AS st_mem rget rbind]. unfold mem_load. cbn [ms_pages ms_bytes load_of loadop_bytes loadop_signed].
    destruct (Z.leb_spec (a + Z.of_nat 4) ((p0 + t) * page_size)) as [_|L]; [reflexivity|]. exfalso. unfold page_size in L. lia.
  Qed.
  Lemma as_write_ok ty z a p t f : (a + Z.of_nat (width (VNum ty z)) <= t * 65536)%Z ->
    as_write ty a z (AS p t f) = Ok ([], AS p t (le_write f a (width (VNum ty z)) z)).
  Proof.
    intros B. unfold as_write. cbn [AS st_mem rget rbind]. unfold mem_store. cbn [ms_pages ms_max ms_bytes].
    cbn [width] in *. destruct (Z.leb_spec (a + Z.of_nat (storeop_bytes (store_of ty))) ((p0 + t) * page_size)) as [_|L]; [reflexivity|].
    exfalso. unfold page_size in L. lia.
  Qed.

  (** ** Calls *)
  Variable sigs : list functy.
  Notation fns := (as_lib sigs).
  Notation acall := (acall N fns).
  Notation as_call := (as_call N fns).

  Fixpoint run_aargs call te (env : list (string * val)) (es : list aexp) (s : store) : res (list val * store) :=
    match es with
    | [] => Ok ([], s)
    | e :: r => let* (v, s1) := run_aexp call te env e s in let* (vs, s2) := run_aargs call te env r s1 in
                match v with [w] => Ok (w :: vs, s2) | _ => Stuck end
    end.
  Lemma aargs_eq call te env es : forall s,
    (fix args (es : list aexp) (s : store) : res (list val * store) :=
       match es with
       | [] => Ok ([], s)
       | e :: r => let* (v, s1) := run_aexp call te env e s in let* (vs, s2) := args r s1 in
                   match v with [w] => Ok (w :: vs, s2) | _ => Stuck end
       end) es s = run_aargs call te env es s.
  Proof.
    induction es as [|e es IH]; intros s; [reflexivity|]. cbn [run_aargs]. destruct (run_aexp call te env e s) as [[v s1]| | |]; cbn [rbind]; try reflexivity.
    now rewrite IH.
  Qed.
  Lemma run_call call te env f ts es s us : resolves te ts = Some us ->
    run_aexp call te env (ACall f ts es) s = let* (vs, s1) := run_aargs call te env es s in call f us vs s1.
  Proof. intros R. cbn [run_aexp]. rewrite R. cbn [rget rbind]. now rewrite aargs_eq. Qed.
  Lemma run_var call te env x v s : lookup x env = Some v -> run_aexp call te env (AVar x) s = Ok ([v], s).
  Proof. intros E. cbn [run_aexp]. now rewrite E. Qed.
  Lemma acall_fn n f g ts vs s : afn_named fns f = Some g -> List.length ts = List.length (af_generics g) -> List.length vs = List.length (af_params g) ->
    acall (S n) f ts vs s = run_abody (acall n) (combine (af_generics g) ts) (combine (map fst (af_params g)) vs) (af_body g) (af_return g) s.
  Proof. intros E Lt Lv. cbn [AsLib.acall]. rewrite E, Lt, Lv, !Nat.eqb_refl. reflexivity. Qed.
  Lemma acall_boiler n f x b ts vs s : boiler_named f = Some (x, f, b) -> acall (S n) f ts vs s = run_builtin N b ts vs s.
  Proof.
    intros E. cbn [AsLib.acall]. rewrite as_not_found, E; [reflexivity|]. apply find_some in E. destruct E as [I _].
    apply in_map_iff. exists (x, f, b). split; [reflexivity|exact I].
  Qed.

  Lemma acall_export_boiler f b vs s : boiler_named f = Some (true, f, b) -> as_call f vs s = run_builtin N b [] vs s.
  Proof.
    intros E. unfold AsLib.as_call, as_exported. rewrite as_not_found, E; [now rewrite (@acall_boiler 3 f true b)|].
    apply find_some in E. destruct E as [I _]. apply in_map_iff. exists (true, f, b). split; [reflexivity|exact I].
  Qed.
  Lemma as_analysis_load q k p t f ty : (0 <= q)%Z -> (0 <= k)%Z -> (q + k * 8 + 8 <= t * 65536)%Z -> (t <= 65535)%Z ->
    as_call (stack_load_name ty) [vi32 q; vi32 k] (AS p t f) = Ok ([VNum ty (le_read f (q + k * 8) 8 mod 2 ^ bits ty)], AS p t f).
  Proof.
    intros Q K B T. rewrite (@acall_export_boiler _ (AsLib.BLoad ty)) by (destruct ty; reflexivity). cbn [run_builtin vi32]. rewrite as_addr_eq by lia.
    now apply as_read_ok.
  Qed.
  Lemma as_analysis_store q k p t f ty v : typeof v = TNum ty -> (0 <= q)%Z -> (0 <= k)%Z -> (q + k * 8 + 8 <= t * 65536)%Z -> (t <= 65535)%Z ->
    as_call (stack_store_name ty) [vi32 q; v; vi32 k] (AS p t f) = Ok ([], AS p t (le_write f (q + k * 8) (width v) (num_bits v))).
  Proof.
    intros Tv Q K B T. rewrite (@acall_export_boiler _ (AsLib.BStore ty)) by (destruct ty; reflexivity). destruct v as [ty' z|]; [|discriminate Tv]. injection Tv as ->.
    cbn [run_builtin vi32]. rewrite (proj2 (numty_eqb_eq ty ty) eq_refl), as_addr_eq by lia.
    rewrite as_write_ok; [reflexivity|]. pose proof (width_le (VNum ty z)). lia.
  Qed.
  Lemma as_load_type_run q k p t f : (0 <= q)%Z -> (0 <= k)%Z -> (q + k * 4 + 4 <= t * 65536)%Z -> (t <= 65535)%Z ->
    as_call "wastrumentation_stack_load_type" [vi32 q; vi32 k] (AS p t f) = Ok ([vi32 (le_read f (q + k * 4) 4)], AS p t f).
  Proof.
    intros Q K B T. rewrite (@acall_export_boiler _ BLoadType) by reflexivity. cbn [run_builtin vi32]. rewrite as_addr_eq by lia. now apply as_read_kind.
  Qed.

  Variable ft : functy.
  Hypothesis Hft : In ft sigs.
  Hypothesis Num : numeric_sig ft = true.
  Notation r := (List.length (ft_out ft)).
  Notation a := (List.length (ft_in ft)).
  Notation te := (te ft).

  Lemma agen g : In g (as_generic r a) -> afn_named fns (af_name g) = Some g.
  Proof. intros I. apply as_found. now apply (@as_generic_in sigs ft). Qed.
  Lemma aspec g : In g (as_special ft) -> afn_named fns (af_name g) = Some g.
  Proof. intros I. apply as_found. now apply (@as_special_in sigs ft). Qed.
  Lemma acall_export f g vs s : afn_named fns f = Some g -> af_export g = true -> af_generics g = [] -> List.length vs = List.length (af_params g) ->
    as_call f vs s = run_abody (acall 3) [] (combine (map fst (af_params g)) vs) (af_body g) (af_return g) s.
  Proof.
    intros E X G Lv. unfold AsLib.as_call, as_exported. rewrite E, X. rewrite (@acall_fn 3 f g [] vs s E) by (rewrite ?G; auto). now rewrite G.
  Qed.
  (** Arguments passed on. *)
  Lemma args_run call te' env s vs ts : List.length vs = List.length ts ->
    (forall i v, nth_error vs i = Some v -> lookup (arg_var i) env = Some v) -> run_aargs call te' env (as_args ts) s = Ok (vs, s).
  Proof.
    intros Ln H. unfold as_args. rewrite <- (map_map fst (fun i => AVar (arg_var i))), enum_fst.
    assert (G : forall vs k, (forall i v, nth_error vs i = Some v -> lookup (arg_var (k + i)) env = Some v) ->
      run_aargs call te' env (map (fun i => AVar (arg_var i)) (seq k (List.length vs))) s = Ok (vs, s)).
    { clear. induction vs as [|v vs IH]; intros k H; [reflexivity|]. cbn [List.length seq map run_aargs].
      rewrite run_var with (v := v) by (rewrite <- (H 0 v eq_refl); now rewrite Nat.add_0_r). cbn [rbind].
      rewrite IH; [reflexivity|]. intros i w E. rewrite <- (H (S i) w E). do 2 f_equal. lia. }
    rewrite <- Ln. apply (G vs 0). exact H.
  Qed.
  (** Writes in a row. *)
  Lemma run_awrites {B} call te' env (st : nat -> aexp) ret p t (wr : (Z -> Z) -> Z -> list B -> Z -> Z) (one : (Z -> Z) -> Z -> B -> Z -> Z) :
    (forall f k, wr f k [] = f) -> (forall f k z zs, wr f k (z :: zs) = wr (one f k z) (k + 1)%Z zs) ->
    forall zs i k f,
    (forall j z f, nth_error zs j = Some z -> run_aexp call te' env (st (i + j)) (AS p t f) = Ok ([], AS p t (one f (k + Z.of_nat j)%Z z))) ->
    run_abody call te' env (map (fun j => ADo (st j)) (seq i (List.length zs))) ret (AS p t f)
    = run_abody call te' env [] ret (AS p t (wr f k zs)).
  Proof.
    intros W0 W1. induction zs as [|z zs IH]; intros i k f H.
    - cbn [List.length seq map]. now rewrite W0.
    - cbn [List.length seq map run_abody]. pose proof (H 0 z f eq_refl) as H0. rewrite Nat.add_0_r in H0. rewrite H0. cbn [rbind].
      rewrite Z.add_0_r, W1. apply IH. intros j w f' E. specialize (H (S j) w f' E). rewrite <- Nat.add_succ_comm in H. rewrite H. do 4 f_equal. lia.
  Qed.

  Lemma store_any n q v k p t f ty : typeof v = TNum ty -> (0 <= q)%Z -> (0 <= k)%Z -> (q + k * 8 + 8 <= t * 65536)%Z -> (t <= 65535)%Z ->
    acall (S n) "wastrumentation_memory_store" [TNum ty] [vi32 q; v; vi32 k] (AS p t f)
    = Ok ([], AS p t (le_write f (q + k * 8) (width v) (num_bits v))).
  Proof.
    intros T Q K B Tm. rewrite (@acall_boiler n _ false BStoreAny) by reflexivity. destruct v as [ty' z|]; [|discriminate T]. injection T as ->.
    cbn [run_builtin vi32]. rewrite (proj2 (numty_eqb_eq ty ty) eq_refl), as_addr_eq by lia.
    rewrite as_write_ok; [reflexivity|]. pose proof (width_le (VNum ty z)). lia.
  Qed.
  Lemma load_any n q k p t f ty : (0 <= q)%Z -> (0 <= k)%Z -> (q + k * 8 + 8 <= t * 65536)%Z -> (t <= 65535)%Z ->
    acall (S n) "wastrumentation_memory_load" [TNum ty] [vi32 q; vi32 k] (AS p t f)
    = Ok ([VNum ty (le_read f (q + k * 8) 8 mod 2 ^ bits ty)], AS p t f).
  Proof.
    intros Q K B Tm. rewrite (@acall_boiler n _ false BLoadAny) by reflexivity. cbn [run_builtin vi32]. rewrite as_addr_eq by lia. now apply as_read_ok.
  Qed.
  (** ** Exported functions *)
  Lemma as_alloc_run args p t f : vals_ok (ft_in ft) args = true -> (0 <= p)%Z -> (0 <= t <= most)%Z -> (p + 8 * slots ft <= most * 65536)%Z ->
    as_call (op_name ft LAlloc) args (AS p t f)
    = Ok ([vi32 p], AS (p + 8 * slots ft) (pages_for (p + 8 * slots ft) t) (write_vals f p (Z.of_nat r) args)).
  Proof.
    intros V P T C. pose proof (@vals_ok_len _ _ V) as La. destruct (num_sig _ Num) as [_ Ni]. pose proof most_bounds as M.
    assert (Sr : slots ft = Z.of_nat (r + a)) by reflexivity.
    erewrite acall_export; [|apply (@aspec (as_allocate ft)); now left|reflexivity|reflexivity|cbn [af_params as_allocate]; now rewrite as_typed_len].
    cbn [as_allocate af_params af_body af_return run_abody]. rewrite (@run_call _ _ _ _ _ _ _ _ (@types_resolve ft Num [])), as_typed_names, args_env_eq by exact La.
    rewrite (@args_run _ _ _ _ args) by (auto; intros i v E; now rewrite lookup_arg). cbn [rbind].
    erewrite acall_fn; [|apply (@agen (as_allocate_generic r a)); now left|symmetry; apply generics_len|cbn [af_params as_allocate_generic]; now rewrite map_length, seq_length].
    cbn [as_allocate_generic af_generics af_params af_body af_return run_abody]. fold te. rewrite map_map. cbn [fst].
    change (fun x : nat => arg_var x) with arg_var. rewrite args_env_eq by exact La.
    rewrite (@run_call _ _ _ _ [] _ _ []) by reflexivity. cbn [run_aargs run_aexp rbind].
    rewrite (@acall_boiler 1 _ false (BAllocateOf 8)) by reflexivity. cbn [run_builtin vi32]. rewrite <- Sr, Z.mod_small by lia.
    replace (slots ft * 8)%Z with (8 * slots ft)%Z by lia. rewrite as_alloc_bytes by lia. cbn [rbind].
    set (t' := pages_for (p + 8 * slots ft) t). pose proof (pages_enough (p + 8 * slots ft) t) as Pe. fold t' in Pe.
    destruct (@pages_most (p + 8 * slots ft) t T C) as [_ Pm]. fold t' in Pm.
    replace (seq 0 a) with (seq 0 (List.length args)) by (now rewrite La).
    rewrite (@run_awrites val _ _ _ (fun n => ACall "wastrumentation_memory_store" [AParam (type_var SArg n)] [AVar "stack_begin"; AVar (arg_var n); ANum (Z.of_nat (r + n))])
      _ (p + 8 * slots ft) t' (fun f => write_vals f p) (fun f k v => le_write f (p + k * 8) (width v) (num_bits v)) (fun _ _ => eq_refl) (fun _ _ _ _ => eq_refl)
      args 0 (Z.of_nat r) f).
    - reflexivity.
    - intros j v g E. cbn [Nat.add]. destruct (@vals_ok_nth _ _ j v V E) as (ty & Nt & Tv & Rv). destruct (@num_nth _ _ _ Ni Nt) as (n & ->).
      assert (Lj : j < List.length args) by (apply nth_error_Some; congruence).
      rewrite (@run_call _ te _ _ [AParam (type_var SArg j)] _ _ [TNum n]) by (cbn [resolves resolve]; now rewrite (@te_lookup ft SArg j (TNum n) Nt)).
      cbn [run_aargs]. rewrite run_var with (v := vi32 p) by reflexivity. cbn [rbind].
      rewrite run_var with (v := v) by (change (lookup (arg_var j) (args_env args) = Some v); now rewrite lookup_arg). cbn [run_aexp rbind].
      rewrite (@store_any _ p v _ _ t' g n Tv) by lia. do 5 f_equal. lia.
  Qed.
  Lemma as_alloc_types_run p t f : (0 <= p)%Z -> (0 <= t <= most)%Z -> (p + 4 * slots ft <= most * 65536)%Z ->
    as_call (op_name ft LAllocTypes) [] (AS p t f)
    = Ok ([vi32 p], AS (p + 4 * slots ft) (pages_for (p + 4 * slots ft) t) (write_types f p 0 (map runtime_enum_value (types_of ft)))).
  Proof.
    intros P T C. pose proof most_bounds as M. assert (Sr : slots ft = Z.of_nat (r + a)) by reflexivity.
    erewrite acall_export; [|apply (@aspec (as_allocate_types ft)); do 5 (apply in_or_app; right); simpl; tauto|reflexivity|reflexivity|reflexivity].
    cbn [as_allocate_types af_params af_body af_return run_abody]. rewrite (@run_call _ _ _ _ [] _ _ []) by reflexivity. cbn [run_aargs rbind].
    erewrite acall_fn; [|apply (@agen (as_types_generic r a)); do 5 (apply in_or_app; right); simpl; tauto|reflexivity|reflexivity].
    cbn [as_types_generic af_generics af_params af_body af_return run_abody]. rewrite (@run_call _ _ _ _ [] _ _ []) by reflexivity. cbn [run_aargs run_aexp rbind].
    rewrite (@acall_boiler 1 _ false (BAllocateOf 4)) by reflexivity. cbn [run_builtin vi32]. rewrite <- Sr, Z.mod_small by lia.
    replace (slots ft * 4)%Z with (4 * slots ft)%Z by lia. rewrite as_alloc_bytes by lia. cbn [rbind map combine lookup rget].
    change (String.eqb "stack_begin" "stack_begin") with true. cbn [rget rbind].
    set (t' := pages_for (p + 4 * slots ft) t). pose proof (pages_enough (p + 4 * slots ft) t) as Pe. fold t' in Pe.
    destruct (@pages_most (p + 4 * slots ft) t T C) as [_ Pm]. fold t' in Pm.
    fold (types_of ft). set (ts := types_of ft). assert (Lt : Z.of_nat (List.length ts) = slots ft) by apply types_len.
    set (st := fun j => ACall "wastrumentation_stack_store_type" [] [AVar "types_buffer"; ANum (Z.of_nat j); ANum (runtime_enum_value (nth j ts t_i32))]).
    assert (Em : map (fun it => ADo (ACall "wastrumentation_stack_store_type" [] [AVar "types_buffer"; ANum (Z.of_nat (fst it)); ANum (runtime_enum_value (snd it))])) (enum ts)
      = map (fun j => ADo (st j)) (seq 0 (List.length (map runtime_enum_value ts)))).
    { rewrite map_length. unfold st, enum. clear.
      enough (G : forall l k, (forall j, nth_error l j = nth_error ts (k + j)) ->
        map (fun it => ADo (ACall "wastrumentation_stack_store_type" [] [AVar "types_buffer"; ANum (Z.of_nat (fst it)); ANum (runtime_enum_value (snd it))])) (combine (seq k (List.length l)) l)
        = map (fun j => ADo (ACall "wastrumentation_stack_store_type" [] [AVar "types_buffer"; ANum (Z.of_nat j); ANum (runtime_enum_value (nth j ts t_i32))])) (seq k (List.length l))) by (apply (G ts 0); reflexivity).
      induction l as [|t l IH]; intros k E; [reflexivity|]. cbn [List.length seq combine map fst snd]. f_equal.
      - pose proof (E 0) as E0. rewrite Nat.add_0_r in E0. symmetry in E0. apply nth_error_nth with (d := t_i32) in E0. now rewrite E0.
      - apply IH. intros j. specialize (E (S j)). cbn [nth_error] in E. rewrite E. f_equal. lia. }
    rewrite Em.
    rewrite (@run_awrites Z _ _ _ st _ (p + 4 * slots ft) t' (fun f => write_types f p) (fun f k z => le_write f (p + k * 4) 4 z) (fun _ _ => eq_refl) (fun _ _ _ _ => eq_refl)
      (map runtime_enum_value ts) 0 0%Z f).
    - reflexivity.
    - intros j z g E. cbn [Nat.add]. unfold st. rewrite (@run_call _ _ _ _ [] _ _ []) by reflexivity. cbn [run_aargs].
      rewrite run_var with (v := vi32 p) by reflexivity. cbn [run_aexp rbind].
      assert (Lj : j < List.length ts) by (rewrite <- (map_length runtime_enum_value); apply nth_error_Some; congruence).
      rewrite nth_error_map in E. destruct (nth_error ts j) as [ty|] eqn:Et; [|discriminate]. injection E as <-.
      rewrite (nth_error_nth _ _ t_i32 Et). rewrite (@acall_boiler 2 _ true BStoreType) by reflexivity. cbn [run_builtin vi32].
      rewrite as_addr_eq by lia. rewrite as_write_ok by (cbn; lia). reflexivity.
  Qed.
  Lemma as_alloc_trap args p t f : vals_ok (ft_in ft) args = true -> (0 <= t <= most)%Z -> (8 * slots ft < 2 ^ 32)%Z ->
    (most * 65536 < p + 8 * slots ft < 2 ^ 32)%Z -> exists s', as_call (op_name ft LAlloc) args (AS p t f) = Trap s'.
  Proof.
    intros V T Sm C. pose proof (@vals_ok_len _ _ V) as La. assert (Sr : slots ft = Z.of_nat (r + a)) by reflexivity.
    erewrite acall_export; [|apply (@aspec (as_allocate ft)); now left|reflexivity|reflexivity|cbn [af_params as_allocate]; now rewrite as_typed_len].
    cbn [as_allocate af_params af_body af_return run_abody]. rewrite (@run_call _ _ _ _ _ _ _ _ (@types_resolve ft Num [])), as_typed_names, args_env_eq by exact La.
    rewrite (@args_run _ _ _ _ args) by (auto; intros i v E; now rewrite lookup_arg). cbn [rbind].
    erewrite acall_fn; [|apply (@agen (as_allocate_generic r a)); now left|symmetry; apply generics_len|cbn [af_params as_allocate_generic]; now rewrite map_length, seq_length].
    cbn [as_allocate_generic af_generics af_params af_body af_return run_abody].
    rewrite (@run_call _ _ _ _ [] _ _ []) by reflexivity. cbn [run_aargs run_aexp rbind].
    rewrite (@acall_boiler 1 _ false (BAllocateOf 8)) by reflexivity. cbn [run_builtin vi32]. rewrite <- Sr, Z.mod_small by (unfold slots in *; lia).
    replace (slots ft * 8)%Z with (8 * slots ft)%Z by lia. destruct (@as_alloc_full (8 * slots ft) p t f T C) as (s' & ->). cbn [rbind]. eauto.
  Qed.
  Lemma as_alloc_types_trap p t f : (0 <= t <= most)%Z -> (4 * slots ft < 2 ^ 32)%Z ->
    (most * 65536 < p + 4 * slots ft < 2 ^ 32)%Z -> exists s', as_call (op_name ft LAllocTypes) [] (AS p t f) = Trap s'.
  Proof.
    intros T Sm C. assert (Sr : slots ft = Z.of_nat (r + a)) by reflexivity.
    erewrite acall_export; [|apply (@aspec (as_allocate_types ft)); do 5 (apply in_or_app; right); simpl; tauto|reflexivity|reflexivity|reflexivity].
    cbn [as_allocate_types af_params af_body af_return run_abody]. rewrite (@run_call _ _ _ _ [] _ _ []) by reflexivity. cbn [run_aargs rbind].
    erewrite acall_fn; [|apply (@agen (as_types_generic r a)); do 5 (apply in_or_app; right); simpl; tauto|reflexivity|reflexivity].
    cbn [as_types_generic af_generics af_params af_body af_return run_abody]. rewrite (@run_call _ _ _ _ [] _ _ []) by reflexivity. cbn [run_aargs run_aexp rbind].
    rewrite (@acall_boiler 1 _ false (BAllocateOf 4)) by reflexivity. cbn [run_builtin vi32]. rewrite <- Sr, Z.mod_small by (unfold slots in *; lia).
    replace (slots ft * 4)%Z with (4 * slots ft)%Z by lia. destruct (@as_alloc_full (4 * slots ft) p t f T C) as (s' & ->). cbn [rbind]. eauto.
  Qed.
  Lemma as_free_run q p t f : (0 <= 8 * slots ft <= p)%Z -> (p < 2 ^ 32)%Z ->
    as_call (op_name ft LFree) [vi32 q] (AS p t f) = Ok ([], AS (p - 8 * slots ft) t f).
  Proof.
    intros B P. assert (Sr : slots ft = Z.of_nat (r + a)) by reflexivity.
    erewrite acall_export; [|apply (@aspec (as_free ft)); do 5 (apply in_or_app; right); simpl; tauto|reflexivity|reflexivity|reflexivity].
    cbn [as_free af_params af_body af_return run_abody map fst combine]. rewrite (@run_call _ _ _ _ _ _ _ _ (@types_resolve ft Num [])). cbn [run_aargs].
    rewrite run_var with (v := vi32 q) by reflexivity. cbn [rbind].
    erewrite acall_fn; [|apply (@agen (as_free_generic r a)); do 5 (apply in_or_app; right); simpl; tauto|symmetry; apply generics_len|reflexivity].
    cbn [as_free_generic af_generics af_params af_body af_return run_abody map fst combine].
    rewrite (@run_call _ _ _ _ [] _ _ []) by reflexivity. cbn [run_aargs]. rewrite run_var with (v := vi32 q) by reflexivity. cbn [run_aexp rbind].
    rewrite (@acall_boiler 1 _ false (BDeallocateOf 8)) by reflexivity. cbn [run_builtin vi32]. rewrite <- Sr, Z.mod_small by lia.
    replace (slots ft * 8)%Z with (8 * slots ft)%Z by lia. rewrite as_dealloc_bytes by lia. reflexivity.
  Qed.
  Lemma as_free_types_run q p t f : (0 <= 4 * slots ft <= p)%Z -> (p < 2 ^ 32)%Z ->
    as_call (op_name ft LFreeTypes) [vi32 q] (AS p t f) = Ok ([], AS (p - 4 * slots ft) t f).
  Proof.
    intros B P. assert (Sr : slots ft = Z.of_nat (r + a)) by reflexivity.
    erewrite acall_export; [|apply (@aspec (as_free_types ft)); do 5 (apply in_or_app; right); simpl; tauto|reflexivity|reflexivity|reflexivity].
    cbn [as_free_types af_params af_body af_return run_abody map fst combine]. rewrite (@run_call _ _ _ _ [] _ _ []) by reflexivity. cbn [run_aargs].
    rewrite run_var with (v := vi32 q) by reflexivity. cbn [rbind].
    erewrite acall_fn; [|apply (@agen (as_free_types_generic r a)); do 5 (apply in_or_app; right); simpl; tauto|reflexivity|reflexivity].
    cbn [as_free_types_generic af_generics af_params af_body af_return run_abody map fst combine].
    rewrite (@run_call _ _ _ _ [] _ _ []) by reflexivity. cbn [run_aargs]. rewrite run_var with (v := vi32 q) by reflexivity. cbn [run_aexp rbind].
    rewrite (@acall_boiler 1 _ false (BDeallocateOf 4)) by reflexivity. cbn [run_builtin vi32]. rewrite <- Sr, Z.mod_small by lia.
    replace (slots ft * 4)%Z with (4 * slots ft)%Z by lia. rewrite as_dealloc_bytes by lia. reflexivity.
  Qed.

  (** Slots, from the program and from the analysis. *)
  Lemma as_load_run q p t f sd i ty : nth_error (side_types ft sd) i = Some (TNum ty) -> (0 <= q)%Z ->
    (q + slot_of ft sd i * 8 + 8 <= t * 65536)%Z -> (t <= 65535)%Z ->
    as_call (op_name ft (LLoad sd i)) [vi32 q] (AS p t f) = Ok ([VNum ty (le_read f (q + slot_of ft sd i * 8) 8 mod 2 ^ bits ty)], AS p t f).
  Proof.
    intros E Q B T. assert (Li : i < List.length (side_types ft sd)) by (apply nth_error_Some; congruence). pose proof (slot_pos ft sd i) as Sp.
    erewrite acall_export; [|apply (@aspec _ (side_aload _ _ _ E))|reflexivity|reflexivity|reflexivity].
    cbn [as_load af_params af_body af_return run_abody map fst snd combine]. rewrite (@run_call _ _ _ _ _ _ _ _ (@types_resolve ft Num [])). cbn [run_aargs].
    rewrite run_var with (v := vi32 q) by reflexivity. cbn [rbind].
    erewrite acall_fn; [|apply (@agen _ (@side_agen_load ft sd _ Li))|symmetry; apply generics_len|reflexivity].
    cbn [as_load_generic af_generics af_params af_body af_return run_abody map fst combine]. fold te.
    rewrite (@run_call _ te _ _ [AParam (type_var sd i)] _ _ [TNum ty]) by (cbn [resolves resolve]; now rewrite (@te_lookup ft sd i (TNum ty) E)).
    cbn [run_aargs]. rewrite run_var with (v := vi32 q) by reflexivity. cbn [run_aexp rbind]. rewrite index_slot. now apply load_any.
  Qed.
  Lemma as_store_run q p t f sd i ty v : nth_error (side_types ft sd) i = Some (TNum ty) -> typeof v = TNum ty -> (0 <= q)%Z ->
    (q + slot_of ft sd i * 8 + 8 <= t * 65536)%Z -> (t <= 65535)%Z ->
    as_call (op_name ft (LStore sd i)) [vi32 q; v] (AS p t f)
    = Ok ([], AS p t (le_write f (q + slot_of ft sd i * 8) (width v) (num_bits v))).
  Proof.
    intros E Tv Q B T. assert (Li : i < List.length (side_types ft sd)) by (apply nth_error_Some; congruence). pose proof (slot_pos ft sd i) as Sp.
    erewrite acall_export; [|apply (@aspec _ (side_astore _ _ _ E))|reflexivity|reflexivity|reflexivity].
    cbn [as_store af_params af_body af_return run_abody map fst snd combine]. rewrite (@run_call _ _ _ _ _ _ _ _ (@types_resolve ft Num [])). cbn [run_aargs].
    rewrite run_var with (v := vi32 q) by reflexivity. cbn [rbind].
    rewrite run_var with (v := v) by (cbn [lookup]; change (String.eqb (arg_var i) "stack_ptr") with false; cbn iota; now rewrite String.eqb_refl). cbn [rbind].
    erewrite acall_fn; [|apply (@agen _ (@side_agen_store ft sd _ Li))|symmetry; apply generics_len|reflexivity].
    cbn [as_store_generic af_generics af_params af_body af_return run_abody map fst combine]. fold te.
    rewrite (@run_call _ te _ _ [AParam (type_var sd i)] _ _ [TNum ty]) by (cbn [resolves resolve]; now rewrite (@te_lookup ft sd i (TNum ty) E)).
    cbn [run_aargs]. rewrite run_var with (v := vi32 q) by reflexivity. cbn [rbind].
    rewrite run_var with (v := v) by (destruct sd; cbn [slot_var]; unfold lookup; cbn -[decimal]; now rewrite String.eqb_refl). cbn [run_aexp rbind].
    rewrite index_slot. now apply store_any.
  Qed.
  Lemma as_store_rets_run q vs p t f : vals_ok (ft_out ft) vs = true -> (0 <= q)%Z -> (q + Z.of_nat r * 8 <= t * 65536)%Z -> (t <= 65535)%Z ->
    as_call (op_name ft LStoreRets) (vi32 q :: vs) (AS p t f) = Ok ([], AS p t (write_vals f q 0 vs)).
  Proof.
    intros V Q B T. pose proof (@vals_ok_len _ _ V) as Lv. destruct (num_sig _ Num) as [No _].
    erewrite acall_export; [|apply (@aspec (as_store_rets ft)); do 5 (apply in_or_app; right); simpl; tauto|reflexivity|reflexivity
      |cbn [af_params as_store_rets List.length]; now rewrite as_typed_len, Lv].
    cbn [as_store_rets af_params af_body af_return run_abody map fst combine]. rewrite (@run_call _ _ _ _ _ _ _ _ (@types_resolve ft Num [])), as_typed_names, args_env_eq by exact Lv.
    cbn [run_aargs]. rewrite run_var with (v := vi32 q) by reflexivity. cbn [rbind].
    rewrite (@args_run _ _ _ _ vs) by (auto; intros i v E; change (lookup (arg_var i) (args_env vs) = Some v); now rewrite lookup_arg). cbn [rbind].
    erewrite acall_fn; [|apply (@agen (as_store_rets_generic r a)); do 5 (apply in_or_app; right); simpl; tauto|symmetry; apply generics_len
      |cbn [af_params as_store_rets_generic List.length]; now rewrite map_length, seq_length, Lv].
    cbn [as_store_rets_generic af_generics af_params af_body af_return map fst combine]. fold te. rewrite map_map. cbn [fst].
    change (fun x : nat => arg_var x) with arg_var. rewrite args_env_eq by exact Lv.
    replace (seq 0 r) with (seq 0 (List.length vs)) by (now rewrite Lv).
    rewrite (@run_awrites val _ _ _ (fun n => ACall (store_count_name SRet n r a) (as_generic_args r a) [AVar "stack_ptr"; AVar (arg_var n)])
      _ p t (fun f => write_vals f q) (fun f k v => le_write f (q + k * 8) (width v) (num_bits v)) (fun _ _ => eq_refl) (fun _ _ _ _ => eq_refl) vs 0 0%Z f).
    - reflexivity.
    - intros j v g E. cbn [Nat.add]. destruct (@vals_ok_nth _ _ j v V E) as (ty & Nt & Tv & Rv). destruct (@num_nth _ _ _ No Nt) as (n & ->).
      assert (Lj : j < List.length vs) by (apply nth_error_Some; congruence). rewrite Lv in Lj.
      rewrite (@run_call _ _ _ _ _ _ _ _ (@generics_resolve ft)). cbn [run_aargs]. rewrite run_var with (v := vi32 q) by reflexivity. cbn [rbind].
      rewrite run_var with (v := v) by (change (lookup (arg_var j) (args_env vs) = Some v); now rewrite lookup_arg). cbn [rbind].
      erewrite acall_fn; [|apply (@agen _ (@side_agen_store ft SRet j Lj))|symmetry; apply generics_len|reflexivity].
      cbn [as_store_generic af_generics af_params af_body af_return run_abody map fst combine]. fold te.
      rewrite (@run_call _ te _ _ [AParam (type_var SRet j)] _ _ [TNum n]) by (cbn [resolves resolve]; now rewrite (@te_lookup ft SRet j (TNum n) Nt)).
      cbn [run_aargs]. rewrite run_var with (v := vi32 q) by reflexivity. cbn [rbind].
      rewrite run_var with (v := v) by (cbn [slot_var]; unfold lookup; cbn -[decimal]; now rewrite String.eqb_refl). cbn [run_aexp rbind].
      rewrite index_slot. rewrite (@store_any _ q v _ _ t g n Tv); [reflexivity|lia|apply slot_pos|unfold slot_of; cbn [slot]; lia|lia].
  Qed.
End Run.
