(** Analyses of the repository that can stop the program: safe-heap and memstats
    (benchmarking-node/input-analyses/rust). They are compiled in release mode, in which integer arithmetic
    other than [strict_add] wraps. *)
From Verif Require Import Semantics Advice RsStdlib StackLib StackSpec System Trace ForwardRel ForwardBody ForwardProofs Recorder RunLemmas
  SystemProofs AccessProofs Analyses AnalysesProofs PropStdlib Bytes.
Local Open Scope string_scope.
Local Open Scope list_scope.
Local Open Scope res_scope.
Local Open Scope Z_scope.

(** ** safe-heap/src/lib.rs *)
(** [LoadOperation::target_value_size] and [StoreOperation::target_value_size],
    wastrumentation-rs-stdlib/src/memory.rs L188-214 and L130-152: the size of the value on the stack. *)
Definition load_target_value_size (o : loadop) : Z :=
  match o with
  | F32Load | I32Load | I32Load8S | I32Load8U | I32Load16S | I32Load16U => 4
  | F64Load | I64Load | I64Load8S | I64Load8U | I64Load16S | I64Load16U | I64Load32S | I64Load32U => 8
  end.
(** [StoreOperation::target_value_size], memory.rs L130-152. *)
Definition store_target_value_size (o : storeop) : Z :=
  match o with
  | F32Store | I32Store | I32Store8 | I32Store16 => 4
  | F64Store | I64Store | I64Store8 | I64Store16 | I64Store32 => 8
  end.
(** [i64::strict_add]: panics on overflow. *)
Definition strict_add (a b : Z) : option Z :=
  if (- 2 ^ 63 <=? a + b) && (a + b <? 2 ^ 63) then Some (a + b) else None.

Section SafeHeap.
  Context {Y : Type}.
  Notation X := (sys (unit * Y)).
  Variable num1 : unop -> Z -> option Z.
  Variable num2 : binop -> Z -> Z -> option Z.
  (** L14-19. *)
  Definition bounds_check (index bytes offset : Z) (k : xprog X) : xprog X :=
    match strict_add index bytes with
    | None => XTrap
    | Some t =>
        match strict_add t offset with
        | None => XTrap
        | Some last =>
            if last =? 0 then XTrap
            else xbind (base_memory_size 0) (fun vs =>
              match vs with
              | [VNum TI32 pages] => if last <=? signed 32 pages * 2 ^ 16 then k else XTrap
              | _ => XTrap
              end)
        end
    end.
  (** L21-24. *)
  Definition alignment_check (index size : Z) (k : xprog X) : xprog X :=
    if Z.land index (size - 1) =? 0 then k else XTrap.
  (** L26-33. [i.value() as i64] is the sign extension of an [i32]. *)
  Definition safe_load (i o : Z) (op : loadop) : xprog X :=
    bounds_check (signed 32 i) (load_target_value_size op) (signed 64 o)
      (alignment_check (signed 32 i) (load_target_value_size op) (load_perform op i o)).
  (** L35-42. *)
  Definition safe_store (i : Z) (v : val) (o : Z) (op : storeop) : xprog X :=
    bounds_check (signed 32 i) (store_target_value_size op) (signed 64 o)
      (alignment_check (signed 32 i) (store_target_value_size op) (store_perform op i v o)).
  (** L45-48. The analysis has no other advice; other hooks are not installed. *)
  Definition safe_heap_body (a : advice) : xprog X :=
    match a with
    | AdLoad i o op _ => safe_load i o op
    | AdStore i v o op _ => safe_store i v o op
    | _ => forward_body num1 num2 a
    end.
End SafeHeap.
(** The hooks installed: [load] and [store], L45-48. *)
Definition access_hooks (h : hook) : bool := match h with HkLoad _ | HkStore _ => true | _ => false end.

(** Which accesses the checks treat in which way. *)
Definition value_bytes (t : numty) : Z := bits t / 8.
(** Auxiliary: nothing in the repository corresponds to it. *)
Definition on_access (P : Z -> Z -> Z -> Z -> Prop) (e : event) : Prop :=
  match e with
  | EvAdvice (AdLoad i off o _) => P i off (Z.of_nat (loadop_bytes o)) (value_bytes (loadop_ty o))
  | EvAdvice (AdStore i _ off o _) => P i off (Z.of_nat (storeop_bytes o)) (value_bytes (storeop_ty o))
  | _ => False
  end.
(** The address operand is not a multiple of the size of the value. *)
Definition misaligned : event -> Prop := on_access (fun i _ _ size => i mod size <> 0).
(** Fewer bytes are accessed than the value has. *)
Definition narrow : event -> Prop := on_access (fun _ _ width size => width < size).
(** The last bytes of a memory of 4 GiB. *)
Definition topmost : event -> Prop := on_access (fun i off _ size => 2 ^ 31 <= i /\ i + off + size = 2 ^ 32).
(** Accesses that are reported, or that the checks get wrong. *)
Definition suspicious (e : event) : Prop := misaligned e \/ narrow e \/ topmost e.

Lemma load_value_size o : load_target_value_size o = value_bytes (loadop_ty o).
Proof. destruct o; reflexivity. Qed.
Lemma store_value_size o : store_target_value_size o = value_bytes (storeop_ty o).
Proof. destruct o; reflexivity. Qed.
Lemma value_bytes_cases t : value_bytes t = 4 \/ value_bytes t = 8.
Proof. destruct t; [left|right|left|right]; reflexivity. Qed.
Lemma load_width o : 0 <= Z.of_nat (loadop_bytes o) <= value_bytes (loadop_ty o).
Proof. destruct o; cbv; split; discriminate. Qed.
Lemma store_width o : 0 <= Z.of_nat (storeop_bytes o) <= value_bytes (storeop_ty o).
Proof. destruct o; cbv; split; discriminate. Qed.
Lemma mask_mod i size : 0 <= i < 2 ^ 32 -> size = 4 \/ size = 8 -> Z.land (signed 32 i) (size - 1) = i mod size.
Proof.
  intros R S. unfold signed.
  assert (M : forall z, Z.land z (size - 1) = z mod size).
  { intros z. destruct S as [-> | ->]; [exact (Z.land_ones z 2 ltac:(lia))|exact (Z.land_ones z 3 ltac:(lia))]. }
  rewrite M. destruct (i <? 2 ^ (32 - 1)); [reflexivity|].
  destruct S as [-> | ->]; [replace (i - 2 ^ 32) with (i + (- 2 ^ 30) * 4) by lia|replace (i - 2 ^ 32) with (i + (- 2 ^ 29) * 8) by lia];
    apply Z.mod_add; lia.
Qed.

Section SafeHeapGuards.
  Context {Y : Type}.
  Notation X := (sys (unit * Y)).
  Variable export : string -> list val -> store X -> res (store X) (list val * store X).

  (** The checks before an access of [size] bytes, in a memory of [pages]. *)
  Lemma checked_run i off size pages (k : xprog X) s :
    0 <= i < 2 ^ 32 -> 0 <= off < 2 ^ 31 -> 0 <= pages <= 65536 -> size = 4 \/ size = 8 ->
    export "instrumented_memory_size" [vi32 0] s = Ok ([vi32 pages], s) ->
    let last := signed 32 i + size + off in
    run_x export (bounds_check (signed 32 i) size (signed 64 off) (alignment_check (signed 32 i) size k)) s =
    if (last =? 0) || (pages * page_size <? last) || negb (i mod size =? 0) then Trap s else run_x export k s.
  Proof.
    intros Ri Ro Rp S M last. unfold bounds_check, strict_add.
    assert (Rs : - 2 ^ 31 <= signed 32 i < 2 ^ 31).
    { unfold signed. change (2 ^ (32 - 1)) with (2 ^ 31). destruct (Z.ltb_spec i (2 ^ 31)); lia. }
    assert (Es : signed 64 off = off). { unfold signed. rewrite (proj2 (Z.ltb_lt off (2 ^ (64 - 1)))) by lia. reflexivity. }
    assert (Rz : 0 <= size <= 8) by lia.
    rewrite Es.
    rewrite (proj2 (Z.leb_le (- 2 ^ 63) (signed 32 i + size))) by lia. rewrite (proj2 (Z.ltb_lt (signed 32 i + size) (2 ^ 63))) by lia. cbn [andb].
    rewrite (proj2 (Z.leb_le (- 2 ^ 63) (signed 32 i + size + off))) by lia. rewrite (proj2 (Z.ltb_lt (signed 32 i + size + off) (2 ^ 63))) by lia. cbn [andb].
    fold last. destruct (last =? 0) eqn:E0; [reflexivity|]. cbn [orb].
    unfold base_memory_size. cbn [xbind run_x]. rewrite M. cbn [rbind vi32].
    assert (Ep : signed 32 pages = pages). { unfold signed. rewrite (proj2 (Z.ltb_lt pages (2 ^ (32 - 1)))) by lia. reflexivity. }
    rewrite Ep. change (2 ^ 16) with page_size. rewrite Z.leb_antisym.
    destruct (pages * page_size <? last); [reflexivity|]. cbn [negb orb].
    unfold alignment_check. rewrite mask_mod by assumption. destruct (i mod size =? 0); reflexivity.
  Qed.
End SafeHeapGuards.
(** When the checks stop an access the plain access would trap, unless it is suspicious. *)
Lemma stopped i off width size pages :
  0 <= i < 2 ^ 32 -> 0 <= off < 2 ^ 31 -> 0 <= pages <= 65536 -> size = 4 \/ size = 8 -> 0 <= width <= size ->
  let last := signed 32 i + size + off in
  (last =? 0) || (pages * page_size <? last) = true -> i mod size = 0 ->
  width < size \/ (2 ^ 31 <= i /\ i + off + size = 2 ^ 32) \/ ((i + off) mod 2 ^ 32 + width <=? pages * page_size) = false.
Proof.
  intros Ri Ro Rp S Rw last H A. destruct (Z.lt_ge_cases width size) as [L|L]; [now left|right].
  assert (width = size) by lia. subst width. apply orb_true_iff in H as [H|H].
  - left. apply Z.eqb_eq in H. unfold last, signed in H. change (2 ^ (32 - 1)) with (2 ^ 31) in H.
    destruct (Z.ltb_spec i (2 ^ 31)) as [B|B]; [lia|]. lia.
  - right. apply Z.ltb_lt in H. apply Z.leb_gt. unfold last, signed in H. change (2 ^ (32 - 1)) with (2 ^ 31) in H. unfold page_size in *.
    destruct (Z.ltb_spec i (2 ^ 31)) as [B|B].
    + rewrite Z.mod_small by lia. lia.
    + destruct (Z.lt_ge_cases (i + off) (2 ^ 32)) as [B'|B'].
      * rewrite Z.mod_small by lia. lia.
      * replace ((i + off) mod 2 ^ 32) with (i + off - 2 ^ 32); [lia|]. apply Z.mod_unique with (q := 1); lia.
Qed.

Lemma safe_heap_guards {Y} num1 num2 :
  guards_advice (Y := Y) ignore num1 num2 (fun e => ~ misaligned e) (fun _ => False) (fun _ => Exists suspicious) (safe_heap_body num1 num2).
Proof.
  intros export adv l [] s Sz.
  destruct adv; try (left; split; [intros []|reflexivity]).
  - rename o into op. destruct (Sz index offset eq_refl) as (Ri & Ro & me & Em & Rp & Ms & Out & _). specialize (Ms l tt). specialize (fun H => Out H l tt).
    cbn [safe_heap_body outside] in *. unfold safe_load.
    rewrite load_value_size.
    rewrite (@checked_run Y export index offset (value_bytes (loadop_ty op)) (ms_pages me) _ _ Ri Ro Rp (value_bytes_cases _) Ms).
    cbv zeta. destruct (index mod value_bytes (loadop_ty op) =? 0) eqn:A.
    + apply Z.eqb_eq in A. cbn [negb]. rewrite orb_false_r.
      destruct ((_ =? 0) || _) eqn:B; [|left; split; [intros M; exact (M A)|reflexivity]].
      destruct (@stopped index offset _ _ (ms_pages me) Ri Ro Rp (value_bytes_cases _) (load_width op) B A) as [N|[N|N]].
      * right. left. split; [|eexists; reflexivity]. constructor. right. left. exact N.
      * right. left. split; [|eexists; reflexivity]. constructor. right. right. exact N.
      * left. split; [intros M; exact (M A)|]. symmetry. apply Out. unfold mem_load. now rewrite N.
    + rewrite orb_true_r. right. left. split; [|eexists; reflexivity]. constructor. left. apply Z.eqb_neq. exact A.
  - rename o into op. destruct (Sz index offset eq_refl) as (Ri & Ro & me & Em & Rp & Ms & Out & _). specialize (Ms l tt). specialize (fun H => Out H l tt).
    cbn [safe_heap_body outside] in *. unfold safe_store.
    rewrite store_value_size.
    rewrite (@checked_run Y export index offset (value_bytes (storeop_ty op)) (ms_pages me) _ _ Ri Ro Rp (value_bytes_cases _) Ms).
    cbv zeta. destruct (index mod value_bytes (storeop_ty op) =? 0) eqn:A.
    + apply Z.eqb_eq in A. cbn [negb]. rewrite orb_false_r.
      destruct ((_ =? 0) || _) eqn:B; [|left; split; [intros M; exact (M A)|reflexivity]].
      destruct (@stopped index offset _ _ (ms_pages me) Ri Ro Rp (value_bytes_cases _) (store_width op) B A) as [N|[N|N]].
      * right. left. split; [|eexists; reflexivity]. constructor. right. left. exact N.
      * right. left. split; [|eexists; reflexivity]. constructor. right. right. exact N.
      * left. split; [intros M; exact (M A)|]. destruct v as [t z|].
        { symmetry. apply Out. unfold mem_store. now rewrite N. }
        { cbn [forward_body]. unfold store_perform. destruct (i64_try_into_i32 offset); reflexivity. }
    + rewrite orb_true_r. right. left. split; [|eexists; reflexivity]. constructor. left. apply Z.eqb_neq. exact A.
Qed.

(** ** memstats/src/lib.rs *)
(** [Vec<i64>]: its length, and its elements. *)
Record vec := Vec { v_len : Z; v_at : Z -> Z }.
Definition no_vec : vec := Vec 0 (fun _ => 0).                       (* L7-8 *)
Section MemStats.
  Context {Y : Type}.
  (** Whether a vector can be made to hold a number of elements; what else occupies the memory of the
      analysis is not modelled. *)
  Variable room : Z -> bool.
  (** L15-18: [buffer[byte] += 1] for the bytes [address .. address + n - 1] of a 32-bit [usize]; [None]
      is the panic of an index out of bounds. *)
  Fixpoint bump_bytes (n : nat) (address : Z) (v : vec) : option vec :=
    match n with
    | O => Some v
    | S n' =>
        match bump_bytes n' address v with
        | None => None
        | Some v' =>
            let byte := (address + Z.of_nat n') mod 2 ^ 32 in
            if byte <? v_len v' then Some (Vec (v_len v') (fun b => if b =? byte then wrapS 64 (v_at v' b + 1) else v_at v' b)) else None
        end
    end.
  (** L11-19. *)
  Definition increase_at (v : vec) (address : Z) (n : nat) : option vec :=
    let last := (address + Z.of_nat n) mod 2 ^ 32 in
    if v_len v <=? last
    then if room last then bump_bytes n address (Vec last (fun b => if b <? v_len v then v_at v b else 0)) else None
    else bump_bytes n address v.
  (** L36-41, L48-53. *)
  Definition read_bytes (op : loadop) : nat :=
    match op with
    | I32Load8S | I32Load8U | I64Load8S | I64Load8U => 1
    | I32Load16S | I32Load16U | I64Load16S | I64Load16U => 2
    | I32Load | F32Load | I64Load32S | I64Load32U => 4
    | I64Load | F64Load => 8
    end.
  (** [StoreOperation::target_value_size] as used at L48-53. *)
  Definition touched_bytes (op : storeop) : nat :=
    match op with
    | I32Store8 | I64Store8 => 1
    | I32Store16 | I64Store16 => 2
    | F32Store | I32Store | I64Store32 => 4
    | I64Store | F64Store => 8
    end.
  (** [(i.value() as i64 + o.value()) as usize] *)
  Definition usize_address (i o : Z) : Z := (signed 32 i + signed 64 o) mod 2 ^ 32.
  (** [READS] and [WRITES], memstats/src/lib.rs L5-7. *)
  Record memstats := MS { ms_reads : vec; ms_writes : vec }.
  (** Their initial values. *)
  Definition memstats_zero : memstats := MS no_vec no_vec.
  (** The state after counting, unless that panics; L34-43, L46-55. *)
  Definition memstats_count (a : memstats) (adv : advice) : option memstats :=
    match adv with
    | AdLoad i o op _ => option_map (fun v => MS v (ms_writes a)) (increase_at (ms_reads a) (usize_address i o) (read_bytes op))
    | AdStore i _ o op _ => option_map (fun v => MS (ms_reads a) v) (increase_at (ms_writes a) (usize_address i o) (touched_bytes op))
    | _ => Some a
    end.
  Variable num1 : unop -> Z -> option Z.
  Variable num2 : binop -> Z -> Z -> option Z.
  (** The advices [load] and [store], L34-55. *)
  Definition memstats_body (adv : advice) : xprog (sys (memstats * Y)) :=
    XGet (fun x m g =>
      match memstats_count (fst (snd x)) adv with
      | Some a' => XPut (fst x, (a', snd (snd x))) m g (forward_body num1 num2 adv)
      | None => XTrap
      end).
  (** What they do to the state. *)
  Definition memstats_obs (a : memstats) (e : event) : memstats :=
    match e with EvAdvice adv => match memstats_count a adv with Some a' => a' | None => a end | _ => a end.
  (** [get_read_at], L21-25, and [get_write_at], L27-31; [None] is a panic. *)
  Definition at_i32 (v : vec) (mem_idx : Z) : option Z :=
    if mem_idx mod 2 ^ 32 <? v_len v then Some (wrapS 32 (v_at v (mem_idx mod 2 ^ 32))) else None.
  (** [get_read_at], L21-25. *)
  Definition get_read_at (a : memstats) (mem_idx : Z) : option Z := at_i32 (ms_reads a) mem_idx.
  (** [get_write_at], L27-31. *)
  Definition get_write_at (a : memstats) (mem_idx : Z) : option Z := at_i32 (ms_writes a) mem_idx.
End MemStats.

(** What the counters hold. *)
Definition element (v : vec) (b : Z) : Z := if b <? v_len v then v_at v b else 0.
Lemma wrapS_wrapS z : wrapS 64 (wrapS 64 z + 1) = wrapS 64 (z + 1).
Proof.
  unfold wrapS. f_equal. replace ((z + 2 ^ (64 - 1)) mod 2 ^ 64 - 2 ^ (64 - 1) + 1 + 2 ^ (64 - 1)) with ((z + 2 ^ (64 - 1)) mod 2 ^ 64 + 1) by lia.
  rewrite Z.add_mod_idemp_l by lia. f_equal. lia.
Qed.
Lemma wrapS_narrow z : wrapS 32 (wrapS 64 z) = wrapS 32 z.
Proof.
  unfold wrapS. f_equal. change (2 ^ (64 - 1)) with (2 ^ 63). change (2 ^ (32 - 1)) with (2 ^ 31).
  rewrite (Z.mod_eq (z + 2 ^ 63) (2 ^ 64)) by lia.
  replace (z + 2 ^ 63 - 2 ^ 64 * ((z + 2 ^ 63) / 2 ^ 64) - 2 ^ 63 + 2 ^ 31) with (z + 2 ^ 31 + (- (2 ^ 32) * ((z + 2 ^ 63) / 2 ^ 64)) * 2 ^ 32) by lia.
  apply Z.mod_add. lia.
Qed.
Lemma bumped n : forall address v, 0 <= address -> address + Z.of_nat n <= v_len v -> address + Z.of_nat n < 2 ^ 32 ->
  exists v', bump_bytes n address v = Some v' /\ v_len v' = v_len v /\
    forall b, v_at v' b = if (address <=? b) && (b <? address + Z.of_nat n) then wrapS 64 (v_at v b + 1) else v_at v b.
Proof.
  induction n as [|n IH]; intros address v R L B; cbn [bump_bytes].
  - exists v. split; [reflexivity|]. split; [reflexivity|]. intros b.
    destruct (Z.leb_spec address b); cbn [andb]; [|reflexivity]. rewrite (proj2 (Z.ltb_ge _ _)) by lia. reflexivity.
  - destruct (IH address v R ltac:(lia) ltac:(lia)) as (v' & -> & L' & A). rewrite L'. rewrite (Z.mod_small (address + Z.of_nat n)) by lia.
    rewrite (proj2 (Z.ltb_lt _ _)) by lia. eexists. split; [reflexivity|]. split; [reflexivity|]. intros b. cbn [v_at]. rewrite A.
    destruct (Z.eqb_spec b (address + Z.of_nat n)) as [->|N].
    + rewrite (proj2 (Z.ltb_ge _ _)) by lia. rewrite andb_false_r. rewrite (proj2 (Z.leb_le _ _)), (proj2 (Z.ltb_lt _ _)) by lia. reflexivity.
    + destruct (Z.leb_spec address b); cbn [andb]; [|reflexivity].
      destruct (Z.ltb_spec b (address + Z.of_nat n)); destruct (Z.ltb_spec b (address + Z.of_nat (S n))); (reflexivity || lia).
Qed.
Section MemStatsGuards.
  Variable room : Z -> bool.
  Lemma increased v address n : 0 <= address -> address + Z.of_nat n < 2 ^ 32 -> room (address + Z.of_nat n) = true ->
    exists v', increase_at room v address n = Some v' /\ v_len v' = Z.max (v_len v) (address + Z.of_nat n) /\
      forall b, 0 <= b -> element v' b = if (address <=? b) && (b <? address + Z.of_nat n) then wrapS 64 (element v b + 1) else element v b.
  Proof.
    intros R B Ro. unfold increase_at. rewrite Z.mod_small by lia. destruct (Z.leb_spec (v_len v) (address + Z.of_nat n)) as [H|H].
    - rewrite Ro. destruct (@bumped n address (Vec (address + Z.of_nat n) (fun b => if b <? v_len v then v_at v b else 0)) R) as (v' & E & L & A); [cbn; lia|lia|].
      exists v'. split; [exact E|]. cbn [v_len] in L. split; [lia|]. intros b Rb. unfold element. rewrite L, A. cbn [v_at].
      destruct (Z.ltb_spec b (address + Z.of_nat n)) as [C|C]; [rewrite andb_true_r; reflexivity|]. rewrite andb_false_r.
      rewrite (proj2 (Z.ltb_ge b (v_len v))) by lia. reflexivity.
    - destruct (@bumped n address v R) as (v' & E & L & A); [lia|lia|]. exists v'. split; [exact E|]. split; [lia|]. intros b Rb.
      unfold element. rewrite L, A. destruct (Z.ltb_spec b (v_len v)) as [C|C]; [reflexivity|].
      rewrite (proj2 (Z.ltb_ge b (address + _))) by lia. rewrite andb_false_r. reflexivity.
  Qed.

  (** First byte and number of bytes of reads and of writes, at the address the base functions compute. *)
  Definition read_range (e : event) : option (Z * Z) :=
    match e with EvAdvice (AdLoad i off o _) => Some ((i + off) mod 2 ^ 32, Z.of_nat (loadop_bytes o)) | _ => None end.
  (** Bytes a store touches. *)
  Definition write_range (e : event) : option (Z * Z) :=
    match e with EvAdvice (AdStore i _ off o _) => Some ((i + off) mod 2 ^ 32, Z.of_nat (storeop_bytes o)) | _ => None end.
  (** Auxiliary: nothing in the repository corresponds to it. *)
  Definition touches (range : event -> option (Z * Z)) (b : Z) (e : event) : bool :=
    match range e with Some (a, n) => (a <=? b) && (b <? a + n) | None => false end.
  (** Touches byte [b] or a later one. *)
  Definition reaches (range : event -> option (Z * Z)) (b : Z) (e : event) : bool :=
    match range e with Some (a, n) => b <? a + n | None => false end.
  (** There is no room for counters of all bytes up to those accessed. *)
  Definition cramped (e : event) : Prop :=
    exists a n, (read_range e = Some (a, n) \/ write_range e = Some (a, n)) /\ room (a + n) = false.
  (** A vector of 8-byte elements occupies less than 2^31 bytes. *)
  Hypothesis RO : forall k, room k = true -> 8 * k < 2 ^ 31.

  Lemma address_same i off : usize_address i off = (i + off) mod 2 ^ 32.
  Proof.
    unfold usize_address, signed. destruct (i <? 2 ^ (32 - 1)), (off <? 2 ^ (64 - 1)); [reflexivity| | |].
    - replace (i + (off - 2 ^ 64)) with (i + off + (- 2 ^ 32) * 2 ^ 32) by lia. apply Z.mod_add. lia.
    - replace (i - 2 ^ 32 + off) with (i + off + (- 1) * 2 ^ 32) by lia. apply Z.mod_add. lia.
    - replace (i - 2 ^ 32 + (off - 2 ^ 64)) with (i + off + (- 2 ^ 32 - 1) * 2 ^ 32) by lia. apply Z.mod_add. lia.
  Qed.
  Lemma read_bytes_same o : read_bytes o = loadop_bytes o. Proof. destruct o; reflexivity. Qed.
  Lemma touched_bytes_same o : touched_bytes o = storeop_bytes o. Proof. destruct o; reflexivity. Qed.
  Lemma increase_some v address n : 0 <= address -> room (address + Z.of_nat n) = true -> increase_at room v address n <> None.
  Proof.
    intros R H. pose proof (@RO _ H). destruct (@increased v address n R) as (v' & -> & _); [lia|exact H|discriminate].
  Qed.
  Lemma count_some a e : ~ cramped e -> match e with EvAdvice adv => memstats_count room a adv <> None | _ => True end.
  Proof.
    intros NC. destruct e as [adv| |]; auto. destruct adv; cbn [memstats_count]; try discriminate.
    - rewrite address_same, read_bytes_same.
      pose proof (@increase_some (ms_reads a) ((index + offset) mod 2 ^ 32) (loadop_bytes o) (proj1 (Z.mod_pos_bound _ (2 ^ 32) ltac:(lia)))) as H.
      destruct (room ((index + offset) mod 2 ^ 32 + Z.of_nat (loadop_bytes o))) eqn:E.
      + specialize (H eq_refl). destruct increase_at; [discriminate|congruence].
      + exfalso. apply NC. eexists _, _. split; [left; reflexivity|exact E].
    - rewrite address_same, touched_bytes_same.
      pose proof (@increase_some (ms_writes a) ((index + offset) mod 2 ^ 32) (storeop_bytes o) (proj1 (Z.mod_pos_bound _ (2 ^ 32) ltac:(lia)))) as H.
      destruct (room ((index + offset) mod 2 ^ 32 + Z.of_nat (storeop_bytes o))) eqn:E.
      + specialize (H eq_refl). destruct increase_at; [discriminate|congruence].
      + exfalso. apply NC. eexists _, _. split; [right; reflexivity|exact E].
  Qed.
  Lemma cramped_dec e : cramped e \/ ~ cramped e.
  Proof.
    destruct e as [adv| |]; try (right; intros (? & ? & [H|H] & _); discriminate H).
    destruct adv; try (right; intros (? & ? & [H|H] & _); discriminate H).
    - destruct (room ((index + offset) mod 2 ^ 32 + Z.of_nat (loadop_bytes o))) eqn:E.
      + right. intros (? & ? & [H|H] & F); [|discriminate H]. injection H as <- <-. congruence.
      + left. eexists _, _. split; [left; reflexivity|exact E].
    - destruct (room ((index + offset) mod 2 ^ 32 + Z.of_nat (storeop_bytes o))) eqn:E.
      + right. intros (? & ? & [H|H] & F); [discriminate H|]. injection H as <- <-. congruence.
      + left. eexists _, _. split; [right; reflexivity|exact E].
  Qed.

  (** The counters hold the numbers of accesses so far. *)
  Definition tallied (v : vec) (range : event -> option (Z * Z)) (evs : list event) : Prop := forall b, 0 <= b ->
    element v b = wrapS 64 (count (touches range b) evs) /\ (b <? v_len v) = existsb (reaches range b) evs.
  Lemma tallied_other v range evs e : range e = None -> tallied v range evs -> tallied v range (evs ++ [e]).
  Proof.
    intros N H b Rb. destruct (H b Rb) as (E & L). rewrite count_app, existsb_app. cbn [existsb]. unfold count, touches, reaches in *. cbn [filter]. rewrite N. cbn [List.length].
    rewrite Z.add_0_r, !orb_false_r. now split.
  Qed.
  Lemma tallied_more v range evs e a n : range e = Some (a, Z.of_nat n) -> 0 <= a -> room (a + Z.of_nat n) = true -> tallied v range evs ->
    exists v', increase_at room v a n = Some v' /\ tallied v' range (evs ++ [e]).
  Proof.
    intros Er Ra Ro H. pose proof (@RO _ Ro) as Sm. destruct (@increased v a n Ra ltac:(lia) Ro) as (v' & E & L & A).
    exists v'. split; [exact E|]. intros b Rb. destruct (H b Rb) as (E' & L'). split.
    - rewrite A by exact Rb. rewrite count_app. unfold count at 2. cbn [filter]. unfold touches at 2. rewrite Er.
      destruct ((a <=? b) && (b <? a + Z.of_nat n)); cbn [List.length]; rewrite E'; [apply wrapS_wrapS|]. now rewrite Z.add_0_r.
    - rewrite existsb_app, <- L'. cbn [existsb]. unfold reaches. rewrite Er, orb_false_r, L.
      destruct (Z.ltb_spec b (Z.max (v_len v) (a + Z.of_nat n))), (Z.ltb_spec b (v_len v)), (Z.ltb_spec b (a + Z.of_nat n)); cbn [orb]; (reflexivity || lia).
  Qed.
  Lemma tallied_step a evs e : ~ cramped e -> tallied (ms_reads a) read_range evs -> tallied (ms_writes a) write_range evs ->
    tallied (ms_reads (memstats_obs room a e)) read_range (evs ++ [e]) /\ tallied (ms_writes (memstats_obs room a e)) write_range (evs ++ [e]).
  Proof.
    intros NC Hr Hw. pose proof (count_some a NC) as Cs.
    destruct e as [adv| |]; [|now split; apply tallied_other..].
    destruct adv; try (split; apply tallied_other; (reflexivity || assumption)).
    - assert (Ro : room ((index + offset) mod 2 ^ 32 + Z.of_nat (loadop_bytes o)) = true).
      { destruct (room _) eqn:E; [reflexivity|]. exfalso. apply NC. eexists _, _. split; [left; reflexivity|exact E]. }
      destruct (@tallied_more (ms_reads a) read_range evs (EvAdvice (AdLoad index offset o l)) _ _ eq_refl (proj1 (Z.mod_pos_bound _ (2 ^ 32) ltac:(lia))) Ro Hr) as (v' & E & H').
      cbn [memstats_obs memstats_count]. rewrite address_same, read_bytes_same, E. cbn [option_map ms_reads ms_writes].
      split; [exact H'|]. now apply tallied_other.
    - assert (Ro : room ((index + offset) mod 2 ^ 32 + Z.of_nat (storeop_bytes o)) = true).
      { destruct (room _) eqn:E; [reflexivity|]. exfalso. apply NC. eexists _, _. split; [right; reflexivity|exact E]. }
      destruct (@tallied_more (ms_writes a) write_range evs (EvAdvice (AdStore index v offset o l)) _ _ eq_refl (proj1 (Z.mod_pos_bound _ (2 ^ 32) ltac:(lia))) Ro Hw) as (v' & E & H').
      cbn [memstats_obs memstats_count]. rewrite address_same, touched_bytes_same, E. cbn [option_map ms_reads ms_writes].
      split; [|exact H']. now apply tallied_other.
  Qed.
  Lemma tallied_all evs : ~ Exists cramped evs -> let a := fold_left (memstats_obs room) evs memstats_zero in
    tallied (ms_reads a) read_range evs /\ tallied (ms_writes a) write_range evs.
  Proof.
    assert (G : forall later before a, ~ Exists cramped later -> tallied (ms_reads a) read_range before -> tallied (ms_writes a) write_range before ->
      tallied (ms_reads (fold_left (memstats_obs room) later a)) read_range (before ++ later) /\
      tallied (ms_writes (fold_left (memstats_obs room) later a)) write_range (before ++ later)).
    { induction later as [|e later IH]; intros before a NC Hr Hw; [rewrite app_nil_r; now split|].
      cbn [fold_left]. rewrite (app_assoc before [e] later : before ++ e :: later = _).
      assert (Ne : ~ cramped e) by (intros H; apply NC; now constructor).
      destruct (@tallied_step a before e Ne Hr Hw) as (Hr' & Hw'). apply IH; [|exact Hr'|exact Hw'].
      intros H. apply NC. now apply Exists_cons_tl. }
    intros NC. apply (G evs [] memstats_zero NC); intros b Rb; cbn; unfold element; cbn; (destruct (Z.ltb_spec b 0); [lia|]); split; reflexivity.
  Qed.

  Lemma memstats_guards {Y} num1 num2 :
    guards_advice (Y := Y) (memstats_obs room) num1 num2 (fun _ => True) (fun _ => False) (fun _ => Exists cramped) (memstats_body room num1 num2).
  Proof.
    intros export adv l a s _. unfold memstats_body. cbn [run_x st_x glift fst snd].
    destruct (memstats_count room a adv) as [a'|] eqn:E.
    - left. split; [exact Logic.I|]. cbn [memstats_obs]. rewrite E. reflexivity.
    - right. left. split; [|eexists; reflexivity]. constructor.
      destruct (cramped_dec (EvAdvice adv)) as [H|H]; [exact H|]. exfalso. exact (count_some a H E).
  Qed.
End MemStatsGuards.
