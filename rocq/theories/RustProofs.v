(** The library that is generated for Rust follows the ideal stack of frames, if the allocator does
    what is assumed of it. *)
From Verif Require Import RustLib RustNames RustRun StackNames StackAsm StackOps StackHist StackSpec RsStdlib System.
Local Open Scope string_scope.
Local Open Scope list_scope.
Local Open Scope res_scope.

(** ** Lists of blocks *)
Definition frame_blocks (fr : frame) : list (Z * Z) :=
  match fr with (ft, q, qt) => if (slots ft =? 0)%Z then [] else [(qt, 4 * slots ft); (q, 8 * slots ft)]%Z end.
Definition blocks (frs : list frame) : list (Z * Z) := flat_map frame_blocks frs.

Lemma apart_sym a b : apart a b -> apart b a.
Proof. unfold apart. tauto. Qed.
Lemma apart_split l r : all_apart (l ++ r) -> all_apart l /\ all_apart r /\ forall a b, In a l -> In b r -> apart a b.
Proof.
  intros H. repeat split.
  - intros i j a b Ea Eb N. apply (H i j); auto; (rewrite nth_error_app1; [assumption|apply nth_error_Some; congruence]).
  - intros i j a b Ea Eb N. apply (H (List.length l + i) (List.length l + j)); try lia;
      (rewrite nth_error_app2 by lia; rewrite <- ?Ea, <- ?Eb; f_equal; lia).
  - intros a b Ia Ib. apply In_nth_error in Ia, Ib. destruct Ia as [i Ea], Ib as [j Eb].
    assert (i < List.length l) by (apply nth_error_Some; congruence).
    apply (H i (List.length l + j)); [rewrite nth_error_app1 by lia; exact Ea| |lia].
    rewrite nth_error_app2 by lia. rewrite <- Eb. f_equal. lia.
Qed.
Lemma total_app l r : total (l ++ r) = (total l + total r)%Z.
Proof. induction l as [|[p n] l IH]; cbn [app total]; [lia|]. rewrite IH. lia. Qed.
Lemma write_types_len f q k zs i : (0 <= k)%Z -> ~ (q <= i < q + (k + Z.of_nat (List.length zs)) * 4)%Z -> write_types f q k zs i = f i.
Proof. intros K N. apply write_types_other; lia. Qed.

(** Reading what was written where only some bits count. *)
Lemma write_slots_holds f q k vs zs j v : (0 <= k)%Z -> Forall2 (fun v z => holds v z /\ (0 <= z < 2 ^ 64)%Z) vs zs ->
  nth_error vs j = Some v -> holds v (le_read (write_slots f q k zs) (q + (k + Z.of_nat j) * 8) 8).
Proof.
  intros K F E. assert (Z : exists z, nth_error zs j = Some z /\ holds v z /\ (0 <= z < 2 ^ 64)%Z).
  { revert j E. induction F as [|w z vs zs H F IH]; intros [|j] E; try discriminate; cbn [nth_error] in *; eauto.
    injection E as ->. eauto. }
  destruct Z as (z & Ez & H & R). rewrite (@write_slots_read f q k zs j z) by assumption. exact H.
Qed.

Arguments ac_in {A heap cap} _ {bs s} _.
Arguments ac_apart {A heap cap} _ {bs s} _.
Arguments ac_write {A heap cap} _ {bs s m p n f} _ _ _ _.
Arguments ac_alloc {A heap cap} _ {bs s size} align _ _ _.
Arguments ac_dealloc {A heap cap} _ bs {bs' s p size} align _.
Arguments ac_alloc_none {A heap} _ {bs s} align _.
Arguments ac_dealloc_none {A heap} _ {bs s} p align _.

Section Lib.
  Variable A : allocator.
  Variable junk : store unit -> numty -> Z -> Z.
  Variable sigs : list functy.
  Variable heap : list (Z * Z) -> store unit -> Prop.
  Variable cap : Z.
  Hypothesis Al : allocates A heap cap.
  Hypothesis Cap : (cap < 2 ^ 32)%Z.
  Hypothesis Zero : none_asked sigs \/ allocates_none A heap.
  Lemma asked ft : In ft sigs -> slots ft = 0%Z -> allocates_none A heap.
  Proof.
    intros I Z0. destruct Zero as [N|Al0]; [|exact Al0]. exfalso. apply (N ft I). destruct ft as [[|t i] [|u o]]; try reflexivity; discriminate Z0.
  Qed.
  Notation lc := (rust_call A junk (rust_lib sigs)).
  Notation union := (union junk).

  Lemma unions_hold s ts vs : numeric ts -> vals_ok ts vs = true -> Forall2 (fun v z => holds v z /\ (0 <= z < 2 ^ 64)%Z) vs (map (union s) vs).
  Proof.
    revert vs. induction ts as [|t ts IH]; intros vs N V.
    - rewrite (@vals_ok_nil _ V). constructor.
    - destruct (@vals_ok_cons _ _ _ V) as (v & vs' & -> & T & R & V'). unfold numeric in N. simpl in N.
      apply orb_false_iff in N. destruct N as [N1 N2]. destruct t as [t|]; [|discriminate N1].
      constructor; [now apply (@union_holds junk s t)|now apply IH].
  Qed.

  (** ** States *)
  Record frame_in (f : Z -> Z) (fr : frame) (ifr : iframe) : Prop := {
    fi_type : fst (fst fr) = if_type ifr;
    fi_q : (0 <= snd (fst fr) < 2 ^ 32)%Z; fi_qt : (0 <= snd fr < 2 ^ 32)%Z;
    fi_in : In (if_type ifr) sigs;
    fi_num : numeric_sig (if_type ifr) = true;
    fi_rets : List.length (if_rets ifr) = List.length (ft_out (if_type ifr));
    fi_args : List.length (if_args ifr) = List.length (ft_in (if_type ifr));
    fi_typed : forall k v, nth_error (contents ifr) k = Some (Some v) ->
      exists t, nth_error (types_of (if_type ifr)) k = Some t /\ typeof v = t /\ in_range v = true;
    fi_holds : forall k v, nth_error (contents ifr) k = Some (Some v) -> holds v (le_read f (snd (fst fr) + Z.of_nat k * 8) 8);
    fi_types : forall k t, nth_error (types_of (if_type ifr)) k = Some t ->
      le_read f (snd fr + Z.of_nat k * 4) 4 = runtime_enum_value t }.
  Definition rust_states (frs : list frame) (ifs : list iframe) (s : store unit) : Prop :=
    heap (blocks frs) s /\ Forall2 (frame_in (byte s)) frs ifs.

  Lemma in_types_block ft q qt k : k < List.length (types_of ft) ->
    forall i, (qt + Z.of_nat k * 4 <= i < qt + Z.of_nat k * 4 + 4)%Z -> in_blocks (frame_blocks (ft, q, qt)) i.
  Proof.
    intros L i I. pose proof (types_len ft) as TL. unfold frame_blocks.
    destruct (Z.eqb_spec (slots ft) 0); [lia|]. exists qt, (4 * slots ft)%Z. split; [now left|lia].
  Qed.
  Lemma in_values_block ft q qt k : k < List.length (types_of ft) ->
    forall i, (q + Z.of_nat k * 8 <= i < q + Z.of_nat k * 8 + 8)%Z -> in_blocks (frame_blocks (ft, q, qt)) i.
  Proof.
    intros L i I. pose proof (types_len ft) as TL. unfold frame_blocks.
    destruct (Z.eqb_spec (slots ft) 0); [lia|]. exists q, (8 * slots ft)%Z. split; [right; now left|lia].
  Qed.
  Lemma frame_in_ext f g fr ifr : (forall i, in_blocks (frame_blocks fr) i -> g i = f i) -> frame_in f fr ifr -> frame_in g fr ifr.
  Proof.
    destruct fr as [[ft q] qt]. intros E [T Q Qt I N R Ar Ty H W]. cbn [fst snd] in *. subst ft. constructor; cbn [fst snd]; auto.
    - intros k v Nk. specialize (H k v Nk). erewrite le_read_same; [exact H|]. intros i Hi. apply E.
      destruct (Ty k v Nk) as (t & Nt & _). apply (@in_values_block _ q qt k); [apply nth_error_Some; congruence|]. exact Hi.
    - intros k t Nk. rewrite <- (W k t Nk). apply le_read_same. intros i Hi. apply E.
      apply (@in_types_block _ q qt k); [apply nth_error_Some; congruence|]. exact Hi.
  Qed.
  Lemma frames_ext f g frs ifs : (forall i, in_blocks (blocks frs) i -> g i = f i) -> Forall2 (frame_in f) frs ifs -> Forall2 (frame_in g) frs ifs.
  Proof.
    intros E F. induction F as [|fr ifr frs ifs H F IH]; constructor.
    - eapply frame_in_ext; [|exact H]. intros i (p & n & I & B). apply E. exists p, n. split; [|exact B]. apply in_or_app. now left.
    - apply IH. intros i (p & n & I & B). apply E. exists p, n. split; [|exact B]. apply in_or_app. now right.
  Qed.
  Lemma total_live frs ifs f : Forall2 (frame_in f) frs ifs -> total (blocks frs) = live (map if_type ifs).
  Proof.
    induction 1 as [|[[ft q] qt] ifr frs ifs H F IH]; [reflexivity|]. unfold blocks. cbn [flat_map map live]. fold (blocks frs).
    rewrite total_app, IH. pose proof (fi_type H) as E. cbn [fst] in E. rewrite <- E. unfold frame_blocks, frame_bytes. fold (slots ft).
    destruct (Z.eqb_spec (slots ft) 0) as [Z0|Nz]; cbn [total]; lia.
  Qed.

  (** One frame among others. *)
  Lemma frames_at f frs ifs d ifr : Forall2 (frame_in f) frs ifs -> nth_error ifs d = Some ifr ->
    exists fr, nth_error frs d = Some fr /\ frame_in f fr ifr.
  Proof.
    intros F. revert d. induction F as [|fr0 ifr0 frs ifs H F IH]; intros [|d] E; try discriminate; cbn [nth_error] in *; eauto.
    injection E as ->. eauto.
  Qed.
  Lemma frames_set f g frs ifs d fr ifr ifr' : all_apart (blocks frs) -> Forall2 (frame_in f) frs ifs ->
    nth_error ifs d = Some ifr -> nth_error frs d = Some fr ->
    (forall i, ~ in_blocks (frame_blocks fr) i -> g i = f i) -> frame_in g fr ifr' ->
    Forall2 (frame_in g) frs (set_nth d ifr' ifs).
  Proof.
    intros Ap F. revert d. induction F as [|fr0 ifr0 frs ifs H F IH]; intros [|d] E Ef O G; try discriminate; cbn [nth_error set_nth] in *.
    - injection Ef as ->. constructor; [exact G|]. eapply frames_ext; [|exact F]. intros i Hi. apply O.
      intros C. unfold blocks in Ap. cbn [flat_map] in Ap. apply apart_split in Ap. destruct Ap as (_ & _ & Ap).
      destruct Hi as (p & n & Ip & Bp), C as (q & k & Iq & Bq). specialize (Ap _ _ Iq Ip). unfold apart in Ap. cbn [fst snd] in Ap. lia.
    - unfold blocks in Ap. cbn [flat_map] in Ap. apply apart_split in Ap. destruct Ap as (_ & Ap' & Ap). constructor.
      + eapply frame_in_ext; [|exact H]. intros i Hi. apply O. intros C. apply nth_error_In in Ef.
        destruct Hi as (p & n & Ip & Bp), C as (q & k & Iq & Bq).
        assert (Iq' : In (q, k) (flat_map frame_blocks frs)) by (apply in_flat_map; eauto).
        specialize (Ap _ _ Ip Iq'). unfold apart in Ap. cbn [fst snd] in Ap. lia.
      + now apply IH.
  Qed.
  Lemma block_in frs d fr b : nth_error frs d = Some fr -> In b (frame_blocks fr) -> In b (blocks frs).
  Proof. intros E I. apply in_flat_map. exists fr. split; [now apply nth_error_In in E|exact I]. Qed.
  Lemma contents_len f fr ifr : frame_in f fr ifr -> List.length (contents ifr) = List.length (types_of (if_type ifr)).
  Proof. intros H. unfold contents, types_of. rewrite !app_length, (fi_rets H), (fi_args H). reflexivity. Qed.
  Lemma side_len_in f fr ifr sd : frame_in f fr ifr -> List.length (side_of sd ifr) = List.length (side_types (if_type ifr) sd).
  Proof. intros H. destruct sd; [apply (fi_rets H)|apply (fi_args H)]. Qed.
  Lemma side_slot_in f fr ifr sd i : frame_in f fr ifr -> i < List.length (side_types (if_type ifr) sd) ->
    nth_error (contents ifr) (slot sd (List.length (ft_out (if_type ifr))) i) = nth_error (side_of sd ifr) i.
  Proof.
    intros H Li. pose proof (fi_rets H) as R. unfold contents. destruct sd; cbn [side_of slot side_types] in *.
    - apply nth_error_app1. congruence.
    - rewrite nth_error_app2 by lia. f_equal. lia.
  Qed.
  (** Frames that an operation has changed. *)
  Lemma frame_in_store f g fr ifr sd i t v : frame_in f fr ifr -> nth_error (side_types (if_type ifr) sd) i = Some t ->
    typeof v = t -> in_range v = true -> all_apart (frame_blocks fr) ->
    holds v (le_read g (snd (fst fr) + slot_of (if_type ifr) sd i * 8) 8) ->
    (forall j, (j < snd (fst fr) + slot_of (if_type ifr) sd i * 8 \/ snd (fst fr) + slot_of (if_type ifr) sd i * 8 + 8 <= j)%Z -> g j = f j) ->
    frame_in g fr (set_slot sd i v ifr).
  Proof.
    intros H N Tv Rv Ap Hv Og. assert (Li : i < List.length (side_types (if_type ifr) sd)) by (apply nth_error_Some; congruence).
    pose proof (side_len_in sd H) as Ls. pose proof (slot_lt (if_type ifr) sd Li) as Lt.
    assert (Ec : contents (set_slot sd i v ifr) = set_nth (slot sd (List.length (ft_out (if_type ifr))) i) (Some v) (contents ifr)).
    { apply (@contents_set sigs); [right; apply (fi_rets H)|lia]. }
    assert (Et : if_type (set_slot sd i v ifr) = if_type ifr) by (destruct sd; reflexivity).
    assert (Lc : slot sd (List.length (ft_out (if_type ifr))) i < List.length (contents ifr)).
    { apply nth_error_Some. rewrite (@side_slot_in f fr ifr sd i H Li). apply nth_error_Some. lia. }
    destruct fr as [[ft q] qt]. pose proof (fi_type H) as E. cbn [fst snd] in *. subst ft.
    constructor; rewrite ?Et; cbn [fst snd].
    - reflexivity.
    - apply (fi_q H).
    - apply (fi_qt H).
    - apply (fi_in H).
    - apply (fi_num H).
    - destruct sd; cbn [set_slot if_rets]; rewrite ?set_nth_length; apply (fi_rets H).
    - destruct sd; cbn [set_slot if_args]; rewrite ?set_nth_length; apply (fi_args H).
    - intros k w Nk. rewrite Ec in Nk. destruct (Nat.eq_dec (slot sd (List.length (ft_out (if_type ifr))) i) k) as [<-|Ne].
      + rewrite set_nth_same in Nk by exact Lc. injection Nk as <-. exists t. rewrite types_side by exact Li. auto.
      + rewrite set_nth_other in Nk by exact Ne. apply (fi_typed H _ Nk).
    - intros k w Nk. rewrite Ec in Nk. destruct (Nat.eq_dec (slot sd (List.length (ft_out (if_type ifr))) i) k) as [<-|Ne].
      + rewrite set_nth_same in Nk by exact Lc. injection Nk as <-. fold (slot_of (if_type ifr) sd i). exact Hv.
      + rewrite set_nth_other in Nk by exact Ne. erewrite le_read_same; [apply (fi_holds H _ Nk)|]. intros j Hj. apply Og.
        cbn [fst snd] in Hj. unfold slot_of. change (Z.of_nat 8) with 8%Z in Hj. lia.
    - intros k w Nk. pose proof (fi_types H _ Nk) as Hk. cbn [fst snd] in Hk. rewrite <- Hk. apply le_read_same. intros j Hj. apply Og.
      change (Z.of_nat 4) with 4%Z in Hj.
      assert (Lk : k < List.length (types_of (if_type ifr))) by (apply nth_error_Some; congruence). pose proof (types_len (if_type ifr)) as TL.
      unfold frame_blocks in Ap. destruct (Z.eqb_spec (slots (if_type ifr)) 0); [lia|].
      specialize (Ap 0 1 _ _ eq_refl eq_refl ltac:(lia)). unfold apart in Ap. cbn [fst snd] in Ap.
      assert (0 <= slot_of (if_type ifr) sd i)%Z by (unfold slot_of; lia). lia.
  Qed.
  Lemma frame_in_results f g fr ifr vs : frame_in f fr ifr -> vals_ok (ft_out (if_type ifr)) vs = true -> all_apart (frame_blocks fr) ->
    (forall j v, nth_error vs j = Some v -> holds v (le_read g (snd (fst fr) + Z.of_nat j * 8) 8)) ->
    (forall i, (i < snd (fst fr) \/ snd (fst fr) + Z.of_nat (List.length vs) * 8 <= i)%Z -> g i = f i) ->
    frame_in g fr (IF (if_type ifr) (map Some vs) (if_args ifr)).
  Proof.
    intros H V Ap Hg Og. pose proof (@vals_ok_len _ _ V) as Lv.
    assert (Ls : (Z.of_nat (List.length vs) <= slots (if_type ifr))%Z) by (unfold slots; lia).
    destruct fr as [[ft q] qt]. pose proof (fi_type H) as E. cbn [fst snd] in *. subst ft.
    assert (Ct : forall k v, nth_error (contents (IF (if_type ifr) (map Some vs) (if_args ifr))) k = Some (Some v) ->
      nth_error vs k = Some v \/ List.length vs <= k /\ nth_error (contents ifr) k = Some (Some v)).
    { intros k v. unfold contents. cbn [if_rets if_args]. intros Nk. destruct (Nat.lt_ge_cases k (List.length vs)) as [Lk|Lk].
      - rewrite nth_error_app1 in Nk by (now rewrite map_length). rewrite nth_error_map in Nk. left.
        destruct (nth_error vs k); [|discriminate]. now injection Nk as ->.
      - right. split; [exact Lk|]. rewrite nth_error_app2 in Nk by (now rewrite map_length). rewrite map_length in Nk.
        rewrite nth_error_app2 by (rewrite (fi_rets H); lia). rewrite (fi_rets H), <- Lv. exact Nk. }
    constructor; cbn [fst snd if_type if_rets if_args].
    - reflexivity.
    - apply (fi_q H).
    - apply (fi_qt H).
    - apply (fi_in H).
    - apply (fi_num H).
    - now rewrite map_length.
    - apply (fi_args H).
    - intros k v Nk. destruct (Ct k v Nk) as [Nv|[_ Nv]]; [|exact (fi_typed H _ Nv)].
      destruct (@vals_ok_nth _ _ k v V Nv) as (t & Nt & Tv & Rv). exists t. split; [|auto].
      unfold types_of. rewrite nth_error_app1; [exact Nt|]. apply nth_error_Some. congruence.
    - intros k v Nk. destruct (Ct k v Nk) as [Nv|[Lk Nv]].
      + exact (Hg k v Nv).
      + pose proof (fi_holds H _ Nv) as Hv. cbn [fst snd] in Hv. erewrite le_read_same; [exact Hv|].
        intros i Hi. apply Og. change (Z.of_nat 8) with 8%Z in Hi. lia.
    - intros k t Nk. pose proof (fi_types H _ Nk) as Hk. cbn [fst snd] in Hk. rewrite <- Hk. apply le_read_same. intros i Hi.
      apply Og. change (Z.of_nat 4) with 4%Z in Hi.
      assert (Lk : k < List.length (types_of (if_type ifr))) by (apply nth_error_Some; congruence). pose proof (types_len (if_type ifr)) as TL.
      unfold frame_blocks in Ap. destruct (Z.eqb_spec (slots (if_type ifr)) 0); [lia|].
      specialize (Ap 0 1 _ _ eq_refl eq_refl ltac:(lia)). unfold apart in Ap. cbn [fst snd] in Ap. lia.
  Qed.
  Lemma frame_in_fresh g ft q qt args : In ft sigs -> numeric_sig ft = true -> vals_ok (ft_in ft) args = true ->
    (0 <= q < 2 ^ 32)%Z -> (0 <= qt < 2 ^ 32)%Z ->
    (forall j v, nth_error args j = Some v -> holds v (le_read g (q + (Z.of_nat (List.length (ft_out ft)) + Z.of_nat j) * 8) 8)) ->
    (forall k t, nth_error (types_of ft) k = Some t -> le_read g (qt + Z.of_nat k * 4) 4 = runtime_enum_value t) ->
    frame_in g (ft, q, qt) (IF ft (repeat None (List.length (ft_out ft))) (map Some args)).
  Proof.
    intros I N V Q Qt H W. pose proof (@vals_ok_len _ _ V) as La. set (r := List.length (ft_out ft)) in *.
    assert (Ct : forall k v, nth_error (contents (IF ft (repeat None r) (map Some args))) k = Some (Some v) -> r <= k /\ nth_error args (k - r) = Some v).
    { intros k v. unfold contents. cbn [if_rets if_args]. intros Nk. destruct (Nat.lt_ge_cases k r) as [Lk|Lk].
      - rewrite nth_error_app1 in Nk by (now rewrite repeat_length). apply nth_error_In, repeat_spec in Nk. discriminate.
      - split; [exact Lk|]. rewrite nth_error_app2 in Nk by (now rewrite repeat_length). rewrite repeat_length, nth_error_map in Nk.
        destruct (nth_error args (k - r)); [|discriminate]. now injection Nk as ->. }
    constructor; cbn [fst snd if_type if_rets if_args]; auto.
    - apply repeat_length.
    - now rewrite map_length.
    - intros k v Nk. destruct (Ct k v Nk) as [Lk Nv]. destruct (@vals_ok_nth _ _ _ v V Nv) as (t & Nt & Tv & Rv). exists t.
      split; [|auto]. unfold types_of. rewrite nth_error_app2 by exact Lk. exact Nt.
    - intros k v Nk. destruct (Ct k v Nk) as [Lk Nv]. specialize (H _ _ Nv).
      replace (Z.of_nat r + Z.of_nat (k - r))%Z with (Z.of_nat k) in H by lia. exact H.
  Qed.

  (** ** Steps *)
  Lemma heap_mem frs s : heap (blocks frs) s -> exists m, st_mem s = Some m /\ byte s = ms_bytes m /\ (ms_pages m <= 65536)%Z /\
    forall p n, In (p, n) (blocks frs) -> (0 < p /\ 0 < n /\ p + n <= ms_pages m * page_size)%Z.
  Proof.
    intros H. destruct (ac_in Al H) as (m & M & P & B). exists m. split; [exact M|]. split; [|auto].
    destruct s as [o g t e d x]. cbn [st_mem] in M. subst o. reflexivity.
  Qed.
  Lemma values_in frs d ft q qt s m sd i : heap (blocks frs) s -> st_mem s = Some m -> nth_error frs d = Some (ft, q, qt) ->
    i < List.length (side_types ft sd) -> (q + slot_of ft sd i * 8 + 8 <= ms_pages m * page_size)%Z.
  Proof.
    intros H M E Li. destruct (ac_in Al H) as (m' & M' & P & B). rewrite M in M'. injection M' as <-.
    pose proof (slot_lt ft sd Li) as Lt. assert (0 <= slot_of ft sd i)%Z by (unfold slot_of; lia).
    destruct (B q (8 * slots ft)%Z) as (B1 & B2 & B3); [|lia]. apply (@block_in frs d _ _ E). unfold frame_blocks.
    destruct (Z.eqb_spec (slots ft) 0); [lia|]. right. now left.
  Qed.
  Lemma outside_values ft q qt f k z i : (0 <= k < slots ft)%Z -> ~ in_blocks (frame_blocks (ft, q, qt)) i ->
    le_write f (q + k * 8) 8 z i = f i.
  Proof.
    intros K N. apply le_write_other. destruct (Z.lt_ge_cases i (q + k * 8)) as [L|L]; [now left|]. right.
    destruct (Z.lt_ge_cases i (q + k * 8 + Z.of_nat 8)) as [L'|L']; [|exact L']. exfalso. apply N. unfold frame_blocks.
    destruct (Z.eqb_spec (slots ft) 0); [lia|]. exists q, (8 * slots ft)%Z. split; [right; now left|]. change (Z.of_nat 8) with 8%Z in *. lia.
  Qed.
  Lemma frame_apart frs d fr : all_apart (blocks frs) -> nth_error frs d = Some fr -> all_apart (frame_blocks fr).
  Proof.
    revert d. induction frs as [|fr0 frs IH]; intros [|d] Ap E; try discriminate; cbn [nth_error] in E;
      unfold blocks in Ap; cbn [flat_map] in Ap; apply apart_split in Ap; destruct Ap as (A1 & A2 & _).
    - now injection E as ->.
    - exact (IH d A2 E).
  Qed.

  Lemma rust_enter frs ifs ft args s : rust_states frs ifs s -> In ft sigs -> numeric_sig ft = true -> vals_ok (ft_in ft) args = true ->
    (live (map if_type ifs) + frame_bytes ft <= cap)%Z ->
    exists frs' s', perform_step lc (EEnter ft args) frs s = Ok ([], frs', s') /\
      rust_states frs' (IF ft (repeat None (List.length (ft_out ft))) (map Some args) :: ifs) s'.
  Proof.
    intros [H F] I N V Fit. pose proof (total_live F) as Tl. destruct (num_sig _ N) as [_ Ni].
    assert (Fb : frame_bytes ft = (12 * slots ft)%Z) by reflexivity.
    assert (Sp : (0 <= slots ft)%Z) by (unfold slots; lia).
    assert (Lp : (0 <= live (map if_type ifs))%Z) by apply live_pos.
    cbn [perform_step]. destruct (Z.eq_dec (slots ft) 0) as [Z0|Nz].
    - rewrite (@rust_alloc_none A junk sigs ft I N args s V Z0). cbn [rbind pointer rget].
      destruct (ac_alloc_none (@asked ft I Z0) 4%Z H) as (p & s1 & Ea & Rp & H1 & K).
      destruct (heap_mem _ H1) as (m & M & By & _).
      rewrite (@rust_alloc_types A junk sigs ft I N s p s1 m) by (try lia; try (rewrite Z0; exact Ea); auto).
      assert (T0 : types_of ft = []) by (apply length_zero_iff_nil; pose proof (types_len ft); lia).
      cbn [rbind pointer rget]. rewrite T0. cbn [map write_types]. rewrite (set_bytes_same _ M).
      eexists _, _. split; [reflexivity|]. split.
      + unfold blocks. cbn [flat_map frame_blocks]. rewrite Z0. exact H1.
      + constructor; [|eapply frames_ext; [|exact F]; exact K].
        apply frame_in_fresh; auto; try lia.
        * intros j v E. exfalso. assert (args = []); [|subst; destruct j; discriminate].
          apply length_zero_iff_nil. rewrite (@vals_ok_len _ _ V). unfold slots in Z0. lia.
        * intros k t E. rewrite T0 in E. destruct k; discriminate.
    - destruct (ac_alloc Al (size := (8 * slots ft)%Z) 8%Z H) as (q & s1 & Ea & H1 & K1); [lia|lia|].
      destruct (ac_in Al H1) as (m1 & M1 & P1 & B1). destruct (B1 q (8 * slots ft)%Z (or_introl eq_refl)) as (Bq & _ & Bq').
      assert (By1 : forall i, byte s1 i = ms_bytes m1 i) by (intros i; unfold byte; now rewrite M1).
      rewrite (@rust_alloc A junk sigs ft I N args s q s1 m1) by (try lia; auto).
      cbn [rbind pointer rget].
      set (zs := map (RustRun.union junk s) args). set (r := Z.of_nat (List.length (ft_out ft))).
      assert (Lz : (r + Z.of_nat (List.length zs) = slots ft)%Z)
        by (unfold zs, r, slots; rewrite map_length, (@vals_ok_len _ _ V); lia).
      set (f2 := write_slots (ms_bytes m1) q r zs). set (s2 := set_all_bytes s1 m1 f2).
      assert (O2 : forall i, ~ (q <= i < q + 8 * slots ft)%Z -> f2 i = ms_bytes m1 i).
      { intros i Hi. apply write_slots_other; [unfold r; lia|]. unfold r in *. lia. }
      assert (H2 : heap ((q, (8 * slots ft)%Z) :: blocks frs) s2)
        by (apply (ac_write Al H1 M1 (or_introl eq_refl) (f := f2)); exact O2).
      destruct (ac_alloc Al (size := (4 * slots ft)%Z) 4%Z H2) as (qt & s3 & Eb & H3 & K3); [lia|cbn [total]; lia|].
      destruct (ac_in Al H3) as (m3 & M3 & P3 & B3). destruct (B3 qt (4 * slots ft)%Z (or_introl eq_refl)) as (Bt & _ & Bt').
      assert (By3 : forall i, byte s3 i = ms_bytes m3 i) by (intros i; unfold byte; now rewrite M3).
      rewrite (@rust_alloc_types A junk sigs ft I N s2 qt s3 m3) by (try lia; auto).
      cbn [rbind pointer rget].
      set (ts := map runtime_enum_value (types_of ft)).
      assert (Lt : Z.of_nat (List.length ts) = slots ft) by (unfold ts; rewrite map_length; apply types_len).
      set (f4 := write_types (ms_bytes m3) qt 0 ts). set (s4 := set_all_bytes s3 m3 f4).
      assert (O4 : forall i, ~ (qt <= i < qt + 4 * slots ft)%Z -> f4 i = ms_bytes m3 i).
      { intros i Hi. apply write_types_other; lia. }
      assert (H4 : heap ((qt, (4 * slots ft)%Z) :: (q, (8 * slots ft)%Z) :: blocks frs) s4)
        by (apply (ac_write Al H3 M3 (or_introl eq_refl) (f := f4)); exact O4).
      assert (Eb' : blocks ((ft, q, qt) :: frs) = (qt, (4 * slots ft)%Z) :: (q, (8 * slots ft)%Z) :: blocks frs).
      { unfold blocks. cbn [flat_map frame_blocks]. destruct (Z.eqb_spec (slots ft) 0); [contradiction|reflexivity]. }
      pose proof (ac_apart Al H4) as Ap.
      assert (Ap' : forall b, In b ((q, (8 * slots ft)%Z) :: blocks frs) -> apart (qt, (4 * slots ft)%Z) b).
      { destruct (@apart_split [(qt, 4 * slots ft)%Z] _ Ap) as (_ & _ & X). intros b Ib. apply X; [now left|exact Ib]. }
      assert (Aq : forall b, In b (blocks frs) -> apart (q, (8 * slots ft)%Z) b).
      { destruct (@apart_split [(qt, 4 * slots ft)%Z; (q, 8 * slots ft)%Z] _ Ap) as (_ & _ & X). intros b Ib. apply X; [right; now left|exact Ib]. }
      (* bytes of the values block at the end *)
      assert (Kv : forall i, (q <= i < q + 8 * slots ft)%Z -> f4 i = f2 i).
      { intros i Hi. rewrite O4.
        - rewrite <- By3. rewrite K3; [reflexivity|]. exists q, (8 * slots ft)%Z. split; [now left|exact Hi].
        - pose proof (Ap' _ (or_introl eq_refl)) as X. unfold apart in X. cbn [fst snd] in X. lia. }
      assert (Ko : forall i, in_blocks (blocks frs) i -> f4 i = byte s i).
      { intros i (p & n & Ip & Bp). rewrite O4.
        - rewrite <- By3. rewrite K3 by (exists p, n; split; [now right|exact Bp]). unfold s2, byte at 1. cbn [set_all_bytes set_mem st_mem ms_bytes].
          rewrite O2.
          + rewrite <- By1. apply K1. exists p, n. auto.
          + pose proof (Aq _ Ip) as X. unfold apart in X. cbn [fst snd] in X. lia.
        - pose proof (Ap' _ (or_intror Ip)) as X. unfold apart in X. cbn [fst snd] in X. lia. }
      eexists _, _. split; [reflexivity|]. split; [rewrite Eb'; exact H4|]. fold s4.
      change (byte s4) with f4. constructor; [|eapply frames_ext; [|exact F]; exact Ko].
      apply frame_in_fresh; auto.
      + unfold page_size in *. lia.
      + unfold page_size in *. lia.
      + intros j v E. pose proof (@write_slots_holds (ms_bytes m1) q r args zs j v ltac:(unfold r; lia) (@unions_hold s _ _ Ni V) E) as W.
        erewrite le_read_same; [exact W|]. intros i Hi. apply Kv. change (Z.of_nat 8) with 8%Z in Hi.
        assert (j < List.length args) by (apply nth_error_Some; congruence). unfold zs in Lz. rewrite map_length in Lz. fold r in Hi. unfold r in *. lia.
      + intros k t E. unfold f4, ts.
        pose proof (@write_types_read (ms_bytes m3) qt 0 (map runtime_enum_value (types_of ft)) k (runtime_enum_value t)) as W.
        rewrite Z.add_0_l in W. apply W; [lia|now rewrite nth_error_map, E|]. destruct t as [[]|[]]; cbn; lia.
  Qed.
  Lemma rust_leave frs ifs ifr s : rust_states frs (ifr :: ifs) s ->
    exists frs' s', perform_step lc ELeave frs s = Ok ([], frs', s') /\ rust_states frs' ifs s'.
  Proof.
    intros [H F]. inversion F as [|fr ? frs0 ? Hf F0]; subst. destruct fr as [[ft q] qt].
    pose proof (fi_type Hf) as E. cbn [fst] in E. subst ft. set (ft := if_type ifr) in *. pose proof (fi_in Hf) as I. fold ft in I.
    assert (Fb : frame_bytes ft = (12 * slots ft)%Z) by reflexivity. assert (Sp : (0 <= slots ft)%Z) by (unfold slots; lia).
    assert (Small : (8 * slots ft < 2 ^ 32)%Z).
    { destruct (ac_in Al H) as (m & M & P & B). destruct (Z.eq_dec (slots ft) 0) as [Z0|Nz]; [lia|].
      destruct (B q (8 * slots ft)%Z) as (B1 & B2 & B3); [|unfold page_size in *; lia]. unfold blocks. cbn [flat_map]. apply in_or_app. left.
      unfold frame_blocks. destruct (Z.eqb_spec (slots ft) 0); [contradiction|]. right. now left. }
    cbn [perform_step]. unfold blocks in H. cbn [flat_map frame_blocks] in H. fold (blocks frs0) in H.
    destruct (Z.eqb_spec (slots ft) 0) as [Z0|Nz].
    - rewrite (@rust_free_none A junk sigs ft I (fi_num Hf) q s Z0). cbn [rbind].
      destruct (ac_dealloc_none (@asked ft I Z0) qt 4%Z H) as (s1 & Ed & H1 & K).
      rewrite (@rust_free_types_run A junk sigs ft I (fi_num Hf) qt s s1) by (try lia; rewrite Z0; exact Ed).
      eexists _, _. split; [reflexivity|]. split; [exact H1|]. eapply frames_ext; [|exact F0]. exact K.
    - cbn [app] in H. destruct (ac_dealloc Al [(qt, (4 * slots ft)%Z)] 8%Z H) as (s1 & Ed & H1 & K1).
      rewrite (@rust_free_run A junk sigs ft I (fi_num Hf) q s s1) by (try lia; exact Ed). cbn [rbind].
      destruct (ac_dealloc Al [] 4%Z H1) as (s2 & Ed2 & H2 & K2).
      rewrite (@rust_free_types_run A junk sigs ft I (fi_num Hf) qt s1 s2) by (try lia; exact Ed2).
      eexists _, _. split; [reflexivity|]. split; [exact H2|]. eapply frames_ext; [|exact F0].
      intros i Hi. rewrite (K2 i Hi). apply K1. destruct Hi as (p & n & Ip & Bp). exists p, n. split; [now right|exact Bp].
  Qed.

  Lemma values_block ft q qt : slots ft <> 0%Z -> In (q, (8 * slots ft)%Z) (frame_blocks (ft, q, qt)).
  Proof. intros Nz. unfold frame_blocks. destruct (Z.eqb_spec (slots ft) 0); [contradiction|]. right. now left. Qed.

  Theorem rust_implements : implements sigs lc rust_states cap False.
  Proof.
    constructor.
    - intros e frs ifs obs ifs' s St Sx En. destruct e as [ft args| |an d sd i v|an d sd i|d vs|d k]; cbn [ideal_step] in Sx.
      + destruct (numeric_sig ft && vals_ok (ft_in ft) args) eqn:G; [|discriminate]. apply andb_true_iff in G. destruct G as [N V].
        injection Sx as <- <-. destruct (En ft (or_introl eq_refl)) as [I Fit].
        destruct (@rust_enter frs ifs ft args s St I N V Fit) as (frs' & s' & E & St'). exists [], frs', s'. split; [exact E|]. split; [constructor|exact St'].
      + destruct ifs as [|ifr ifs]; [discriminate|]. injection Sx as <- <-.
        destruct (@rust_leave frs ifs ifr s St) as (frs' & s' & E & St').
        exists [], frs', s'. split; [exact E|]. split; [constructor|exact St'].
      + destruct (nth_error ifs d) as [ifr|] eqn:Ed; [|discriminate].
        destruct (ok_for (side_types (if_type ifr) sd) i v) eqn:O; [|discriminate]. injection Sx as <- <-.
        destruct St as [H F]. destruct (frames_at d F Ed) as ([[ft q] qt] & Efr & Hf).
        pose proof (fi_type Hf) as E. cbn [fst] in E. subst ft. pose proof (fi_in Hf) as I.
        unfold ok_for in O. destruct (nth_error (side_types (if_type ifr) sd) i) as [t|] eqn:Et; [|discriminate].
        destruct (@ok_val _ _ O) as [Tv Rv]. pose proof (fi_num Hf) as C.
        destruct (@num_side _ sd i _ C Et) as (n & ->).
        assert (Li : i < List.length (side_types (if_type ifr) sd)) by (apply nth_error_Some; congruence).
        destruct (heap_mem _ H) as (m & M & By & P & B).
        pose proof (@values_in frs d _ q qt s m sd i H M Efr Li) as Bd.
        pose proof (slot_lt (if_type ifr) sd Li) as Ls. assert (Sl0 : (0 <= slot_of (if_type ifr) sd i)%Z) by (unfold slot_of; lia).
        set (f' := le_write (ms_bytes m) (q + slot_of (if_type ifr) sd i * 8) 8 (RustRun.union junk s v)).
        exists [], frs, (set_all_bytes s m f'). split; [|split; [constructor|split]].
        * cbn [perform_step]. rewrite Efr. unfold side_type. rewrite Et. cbn [rget rbind]. destruct an.
          -- rewrite number_slot. rewrite (@rust_analysis_store A junk sigs q _ s m n v Tv M Bd). reflexivity.
          -- rewrite (@rust_store_run A junk sigs _ I C q s m sd i n v Et Tv M Bd). reflexivity.
        * apply (ac_write Al H M (p := q) (n := (8 * slots (if_type ifr))%Z)).
          -- apply (@block_in frs d _ _ Efr). apply values_block. lia.
          -- intros j Hj. unfold f'. apply le_write_other. change (Z.of_nat 8) with 8%Z. lia.
        * change (byte (set_all_bytes s m f')) with f'. destruct (@union_holds junk s n v Tv Rv) as [Hv Rz].
          apply (@frames_set (byte s) f' frs ifs d _ ifr (set_slot sd i v ifr) (ac_apart Al H) F Ed Efr).
          -- intros j Hj. rewrite By. unfold f'. apply (@outside_values (if_type ifr) q qt); [lia|exact Hj].
          -- rewrite By in Hf. apply (@frame_in_store (ms_bytes m) f' (if_type ifr, q, qt) ifr sd i (TNum n) v Hf Et Tv Rv).
             ++ exact (@frame_apart frs d _ (ac_apart Al H) Efr).
             ++ cbn [fst snd]. unfold f'. rewrite le_read_write_small by (rewrite pow_256_8; exact Rz). exact Hv.
             ++ cbn [fst snd]. intros j Hj. unfold f'. apply le_write_other. change (Z.of_nat 8) with 8%Z. lia.
      + destruct (nth_error ifs d) as [ifr|] eqn:Ed; [|discriminate].
        destruct (nth_error (side_of sd ifr) i) as [o|] eqn:O; [|discriminate]. injection Sx as <- <-.
        pose proof St as [H F]. destruct (frames_at d F Ed) as ([[ft q] qt] & Efr & Hf).
        pose proof (fi_type Hf) as E. cbn [fst] in E. subst ft. pose proof (fi_in Hf) as I.
        pose proof (fi_num Hf) as C.
        assert (Li : i < List.length (side_types (if_type ifr) sd)).
        { rewrite <- (side_len_in sd Hf). apply nth_error_Some. congruence. }
        destruct (nth_error (side_types (if_type ifr) sd) i) as [t|] eqn:Et; [|apply nth_error_None in Et; lia].
        destruct (@num_side _ sd i _ C Et) as (n & ->).
        destruct (heap_mem _ H) as (m & M & By & P & B).
        pose proof (@values_in frs d _ q qt s m sd i H M Efr Li) as Bd.
        set (w := VNum n (le_read (ms_bytes m) (q + slot_of (if_type ifr) sd i * 8) 8 mod 2 ^ bits n)).
        exists [w], frs, s. split; [|split; [|exact St]].
        * cbn [perform_step]. rewrite Efr. unfold side_type. rewrite Et. cbn [rget rbind]. destruct an.
          -- rewrite number_slot. rewrite (@rust_analysis_load A junk sigs q _ s m n M Bd). reflexivity.
          -- rewrite (@rust_load_run A junk sigs _ I C q s m sd i n Et M Bd). reflexivity.
        * constructor; [|constructor]. destruct o as [v|]; [|exact Logic.I]. cbn [sees].
          rewrite <- (@side_slot_in (byte s) _ ifr sd i Hf Li) in O.
          destruct (fi_typed Hf _ O) as (t' & Nt & Tv & Rv). rewrite types_side in Nt by exact Li. rewrite Et in Nt. injection Nt as <-.
          pose proof (fi_holds Hf _ O) as Hv. cbn [fst snd] in Hv. rewrite By in Hv.
          destruct v as [t' z|]; [|discriminate Tv]. injection Tv as ->. cbn [holds] in Hv. unfold w. f_equal. unfold slot_of. exact Hv.
      + destruct (nth_error ifs d) as [ifr|] eqn:Ed; [|discriminate].
        destruct (vals_ok (ft_out (if_type ifr)) vs) eqn:V; [|discriminate]. injection Sx as <- <-.
        destruct St as [H F]. destruct (frames_at d F Ed) as ([[ft q] qt] & Efr & Hf).
        pose proof (fi_type Hf) as E. cbn [fst] in E. subst ft. pose proof (fi_in Hf) as I.
        pose proof (fi_num Hf) as C. destruct (num_sig _ C) as [No Ni]. pose proof (@vals_ok_len _ _ V) as Lv.
        destruct (heap_mem _ H) as (m & M & By & P & B). set (ft := if_type ifr) in *.
        set (zs := map (RustRun.union junk s) vs). set (f' := write_slots (ms_bytes m) q 0 zs).
        assert (Lz : List.length zs = List.length (ft_out ft)) by (unfold zs; now rewrite map_length).
        assert (Sr : (Z.of_nat (List.length (ft_out ft)) <= slots ft)%Z) by (unfold slots; lia).
        exists [], frs, (set_all_bytes s m f'). split; [|split; [constructor|split]].
        * cbn [perform_step]. rewrite Efr. rewrite (@rust_store_rets_run A junk sigs ft I C q vs s m V M); [reflexivity|].
          destruct (Nat.eq_dec (List.length (ft_out ft)) 0) as [Z0|Nz]; [now left|]. right.
          destruct (B q (8 * slots ft)%Z) as (B1 & B2 & B3); [|lia]. apply (@block_in frs d _ _ Efr). apply values_block. lia.
        * destruct (Z.eq_dec (slots ft) 0) as [Z0|Nz].
          -- unfold f'. replace zs with (@nil Z) by (symmetry; apply length_zero_iff_nil; lia). cbn [write_slots].
             rewrite (set_bytes_same _ M). exact H.
          -- apply (ac_write Al H M (p := q) (n := (8 * slots ft)%Z)).
             ++ apply (@block_in frs d _ _ Efr). now apply values_block.
             ++ intros j Hj. unfold f'. apply write_slots_other; [lia|]. rewrite Lz. lia.
        * change (byte (set_all_bytes s m f')) with f'.
          apply (@frames_set (byte s) f' frs ifs d _ ifr _ (ac_apart Al H) F Ed Efr).
          -- intros j Hj. rewrite By. unfold f'. apply write_slots_other; [lia|]. rewrite Lz.
             destruct (Z.eq_dec (slots ft) 0) as [Z0|Nz]; [lia|].
             destruct (Z.lt_ge_cases j (q + 0 * 8)) as [L|L]; [now left|right].
             destruct (Z.lt_ge_cases j (q + (0 + Z.of_nat (List.length (ft_out ft))) * 8)) as [L'|L']; [|exact L'].
             exfalso. apply Hj. exists q, (8 * slots ft)%Z. split; [now apply values_block|lia].
          -- rewrite By in Hf. apply (@frame_in_results (ms_bytes m) f' (ft, q, qt) ifr vs Hf V).
             ++ exact (@frame_apart frs d _ (ac_apart Al H) Efr).
             ++ cbn [fst snd]. intros j v Nv. pose proof (@write_slots_holds (ms_bytes m) q 0 vs zs j v ltac:(lia) (@unions_hold s _ _ No V) Nv) as W.
                rewrite Z.add_0_l in W. exact W.
             ++ cbn [fst snd]. intros j Hj. unfold f'. apply write_slots_other; [lia|]. rewrite Lz. lia.
      + destruct (nth_error ifs d) as [ifr|] eqn:Ed; [|discriminate].
        destruct (nth_error (ft_out (if_type ifr) ++ ft_in (if_type ifr)) k) as [t|] eqn:Et; [|discriminate]. injection Sx as <- <-.
        pose proof St as [H F]. destruct (frames_at d F Ed) as ([[ft q] qt] & Efr & Hf).
        pose proof (fi_type Hf) as E. cbn [fst] in E. subst ft.
        assert (Lk : k < List.length (types_of (if_type ifr))) by (apply nth_error_Some; unfold types_of; congruence).
        pose proof (types_len (if_type ifr)) as TL. destruct (heap_mem _ H) as (m & M & By & P & B).
        exists [vi32 (type_code t)], frs, s. split; [|split; [|exact St]].
        * cbn [perform_step]. rewrite Efr.
          rewrite (@rust_load_type A junk sigs qt (Z.of_nat k) s m M).
          -- cbn [rbind]. do 5 f_equal. pose proof (fi_types Hf k Et) as Hk. cbn [snd] in Hk. rewrite By in Hk. rewrite Hk. symmetry. apply type_code_eq.
          -- destruct (B qt (4 * slots (if_type ifr))%Z) as (B1 & B2 & B3); [|lia]. apply (@block_in frs d _ _ Efr). unfold frame_blocks.
             destruct (Z.eqb_spec (slots (if_type ifr)) 0); [lia|now left].
        * constructor; [reflexivity|constructor].
    - intros frs ifs s d ifr [H F] Ed. destruct (frames_at d F Ed) as ([[ft q] qt] & Efr & Hf).
      pose proof (fi_type Hf) as E. cbn [fst] in E. subst ft. exists q, qt. split; [exact Efr|].
      split; [exact (fi_q Hf)|]. split; [exact (fi_qt Hf)|]. split; [exact (fi_in Hf)|]. split; [exact (fi_num Hf)|].
      split; [exact (fi_rets Hf)|]. split; [exact (fi_args Hf)|].
      intros sd i v N. assert (Li : i < List.length (side_types (if_type ifr) sd)) by (rewrite <- (side_len_in sd Hf); apply nth_error_Some; congruence).
      rewrite <- (@side_slot_in (byte s) _ ifr sd i Hf Li) in N. destruct (fi_typed Hf _ N) as (t & Nt & Q). exists t.
      rewrite types_side in Nt by exact Li. auto.
    - intros [].
  Qed.
End Lib.
