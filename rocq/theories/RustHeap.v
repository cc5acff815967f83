(** Allocators for the generated Rust library: one that keeps the contract of RustLib.v, to show
    that it can be kept; it hands out cells of 4096 bytes, and its state is in the globals. Then one
    that runs out of memory and one that traps on requests Rust's [GlobalAlloc] does not allow. *)
From Verif Require Import RustLib StackAsm StackHist.
Local Open Scope string_scope.
Local Open Scope list_scope.

Definition cell : Z := 4096.
(** The addresses of the cells. *)
Definition cell_addrs (n : nat) : list Z := map (fun k => Z.of_nat k * cell)%Z (seq 1 n).
(** The addresses handed out are kept in the globals. *)
Definition in_use (s : store unit) (p : Z) : bool := existsb (fun v => match v with VNum _ z => (z =? p)%Z | _ => false end) (st_globals s).
(** Remove one of them. *)
Fixpoint take_out (p : Z) (gs : list val) : list val :=
  match gs with
  | [] => []
  | VNum t z :: r => if (z =? p)%Z then r else VNum t z :: take_out p r
  | v :: r => v :: take_out p r
  end.
(** [n] cells; a null pointer when there is none left or it would be too small, as [GlobalAlloc] requires. *)
Definition cells (n : nat) : allocator :=
  Allocator (fun size _ s =>
      if (size =? 0)%Z then Ok (8%Z, s) else
      if (cell <? size)%Z then Ok (0%Z, s) else
      match find (fun p => negb (in_use s p)) (cell_addrs n) with
      | Some p => Ok (p, set_globals s (vi32 p :: st_globals s))
      | None => Ok (0%Z, s)
      end)
    (fun p size _ s => if (size =? 0)%Z then Ok s else Ok (set_globals s (take_out p (st_globals s)))).
(** Number of cells. *)
Definition many : nat := Z.to_nat 4096.
(** Initial state. *)
Definition cells_start : store unit := St (Some (MemSt 257 257 (fun _ => 0%Z))) [] [] [] [] tt.
(** The blocks handed out. *)
Definition cells_heap (bs : list (Z * Z)) (s : store unit) : Prop :=
  st_globals s = map (fun b => vi32 (fst b)) bs /\ (exists m, st_mem s = Some m /\ ms_pages m = 257%Z) /\ NoDup (map fst bs) /\
  Forall (fun b => In (fst b) (cell_addrs many) /\ (0 < snd b <= cell)%Z) bs.

Lemma in_use_iff bs s p : st_globals s = map (fun b : Z * Z => vi32 (fst b)) bs -> in_use s p = true <-> In p (map fst bs).
Proof.
  intros E. unfold in_use. rewrite E, existsb_exists. split.
  - intros (v & I & B). apply in_map_iff in I. destruct I as (b & <- & I). cbn [vi32] in B. apply Z.eqb_eq in B. subst p. now apply in_map.
  - intros I. apply in_map_iff in I. destruct I as (b & <- & I). exists (vi32 (fst b)). split; [now apply in_map with (f := fun b => vi32 (fst b))|apply Z.eqb_refl].
Qed.
Lemma take_out_eq bs p n bs' : ~ In p (map fst bs) ->
  take_out p (map (fun b : Z * Z => vi32 (fst b)) (bs ++ (p, n) :: bs')) = map (fun b => vi32 (fst b)) (bs ++ bs').
Proof.
  induction bs as [|[q k] bs IH]; intros N; cbn [app map fst take_out vi32].
  - now rewrite Z.eqb_refl.
  - destruct (Z.eqb_spec q p) as [->|_]; [exfalso; apply N; now left|]. f_equal. apply IH. intros I. apply N. now right.
Qed.
Lemma cell_addr p : In p (cell_addrs many) -> exists k, (1 <= k <= 4096)%Z /\ p = (k * cell)%Z.
Proof.
  unfold cell_addrs. intros I. apply in_map_iff in I. destruct I as (k & <- & I). apply in_seq in I. exists (Z.of_nat k). split; [|reflexivity].
  assert (Z.of_nat many = 4096%Z) by (unfold many; rewrite Z2Nat.id by lia; reflexivity). lia.
Qed.
Lemma addrs_nodup n : NoDup (cell_addrs n).
Proof. unfold cell_addrs. apply nodup_map; [|apply seq_NoDup]. intros a b E. unfold cell in E. lia. Qed.
Lemma len_total bs : Forall (fun b : Z * Z => In (fst b) (cell_addrs many) /\ (0 < snd b <= cell)%Z) bs -> (Z.of_nat (List.length bs) <= total bs)%Z.
Proof. induction 1 as [|[p n] bs [_ H] _ IH]; [reflexivity|]. cbn [List.length total fst snd] in *. lia. Qed.

Theorem cells_allocate : allocates (cells many) cells_heap cell.
Proof.
  assert (K : forall bs s gs, keeps bs s (set_globals s gs)) by (intros bs s gs i _; reflexivity).
  constructor.
  - intros bs s (G & (m & M & P) & N & F). exists m. split; [exact M|]. split; [lia|]. intros p n I. rewrite Forall_forall in F.
    destruct (F _ I) as (A & B). cbn [fst snd] in *. apply cell_addr in A. destruct A as (k & R & ->). unfold cell, page_size in *. rewrite P. lia.
  - intros bs s (G & _ & N & F) i j b c Ei Ej Ne.
    rewrite Forall_forall in F. destruct (F _ (nth_error_In _ _ Ei)) as (A & B). destruct (F _ (nth_error_In _ _ Ej)) as (A' & B').
    assert (D : fst b <> fst c).
    { intros E. apply Ne. rewrite NoDup_nth_error in N. apply N.
      - rewrite map_length. apply nth_error_Some. congruence.
      - rewrite !nth_error_map, Ei, Ej. cbn [option_map]. now rewrite E. }
    apply cell_addr in A. apply cell_addr in A'. destruct A as (k & _ & Ea), A' as (k' & _ & Ea').
    unfold apart. destruct b as [p n], c as [p' n']. cbn [fst snd] in *. subst. unfold cell in *.
    assert (k < k' \/ k' < k)%Z as [L|L] by lia; right; right; [left|right]; lia.
  - intros bs s m p n f (G & (m' & M' & P) & N & F) M I H. rewrite M in M'. injection M' as <-.
    split; [exact G|]. split; [|auto]. eexists. split; [reflexivity|exact P].
  - intros bs s size align (G & Mem & N & F) Pos Room. cbn [cells al_alloc].
    pose proof (len_total F) as Lt. assert (0 <= total bs)%Z by lia.
    destruct (Z.eqb_spec size 0); [lia|]. destruct (Z.ltb_spec cell size); [lia|].
    destruct (find (fun p => negb (in_use s p)) (cell_addrs many)) as [p|] eqn:Fp.
    + apply find_some in Fp. destruct Fp as [Ip Free]. exists p, (set_globals s (vi32 p :: st_globals s)). split; [reflexivity|]. split; [|apply K].
      split; [cbn [set_globals st_globals map fst]; now rewrite G|]. split; [exact Mem|]. split.
      * cbn [map fst]. constructor; [|exact N]. intros I. apply (@in_use_iff bs s p G) in I. rewrite I in Free. discriminate.
      * constructor; [|exact F]. cbn [fst snd]. split; [exact Ip|lia].
    + exfalso. assert (Inc : incl (cell_addrs many) (map fst bs)).
      { intros p Ip. apply (@in_use_iff bs s p G). pose proof (find_none _ _ Fp p Ip) as X. cbn in X. now apply negb_false_iff in X. }
      pose proof (NoDup_incl_length (addrs_nodup many) Inc) as L. rewrite map_length in L. unfold cell_addrs in L. rewrite map_length, seq_length in L.
      assert (Z.of_nat many = 4096%Z) by (unfold many; rewrite Z2Nat.id by lia; reflexivity). unfold cell in *. lia.
  - intros bs bs' s p size align (G & Mem & N & F). cbn [cells al_dealloc].
    assert (Pz : (0 < size)%Z). { apply Forall_app in F. destruct F as [_ F]. inversion F; subst. cbn [snd] in *. lia. }
    destruct (Z.eqb_spec size 0); [lia|]. eexists. split; [reflexivity|]. split; [|apply K].
    rewrite map_app in N. cbn [map fst] in N. pose proof (NoDup_remove_1 _ _ _ N) as N1. pose proof (NoDup_remove_2 _ _ _ N) as N2.
    split; [cbn [set_globals st_globals]; rewrite G; apply take_out_eq; intros I; apply N2, in_or_app; now left|].
    split; [exact Mem|]. split; [now rewrite map_app|]. apply Forall_app in F. destruct F as [F1 F2]. apply Forall_app. split; [exact F1|]. now inversion F2.
Qed.
Lemma cells_allocate_none : allocates_none (cells many) cells_heap.
Proof.
  constructor.
  - intros bs s align H. exists 8%Z, s. split; [reflexivity|]. split; [lia|]. split; [exact H|]. intros i _. reflexivity.
  - intros bs s p align H. exists s. split; [reflexivity|]. split; [exact H|]. intros i _. reflexivity.
Qed.
Lemma cells_empty : cells_heap [] cells_start.
Proof. split; [reflexivity|]. split; [eexists; split; reflexivity|]. split; constructor. Qed.

(** Rust requires of the caller of [alloc] that the size is not zero (core::alloc::GlobalAlloc). *)
Definition strict (A : allocator) : allocator :=
  Allocator (fun size align s => if (size =? 0)%Z then Trap s else al_alloc A size align s) (al_dealloc A).
Lemma strict_allocates A heap cap : allocates A heap cap -> allocates (strict A) heap cap.
Proof.
  intros [C1 C2 C3 C4 C5]. constructor; auto.
  intros bs s size align H Pos Room. cbn [strict al_alloc]. destruct (Z.eqb_spec size 0); [lia|]. now apply C4.
Qed.
