(** The generated call-buffer library behaves as a stack of separate frames. *)
From Verif Require Import StackLib StackNames StackAsm RunLemmas StackRun StackOps StackSpec.
Local Open Scope string_scope.
Local Open Scope list_scope.
Local Open Scope res_scope.

(** ** Bytes written in a row *)
Lemma le_write_other f a n z i : (i < a \/ a + Z.of_nat n <= i)%Z -> le_write f a n z i = f i.
Proof.
  intros D. unfold le_write. destruct (Z.leb_spec a i), (Z.ltb_spec i (a + Z.of_nat n)); try reflexivity. lia.
Qed.
Lemma le_read_same f g a n : (forall i, a <= i < a + Z.of_nat n -> f i = g i)%Z -> le_read f a n = le_read g a n.
Proof. intros E. apply le_read_ext. intros i I. now rewrite E. Qed.
Lemma write_slots_other f q k zs i : (0 <= k)%Z -> (i < q + k * 8 \/ q + (k + Z.of_nat (List.length zs)) * 8 <= i)%Z ->
  write_slots f q k zs i = f i.
Proof.
  revert f k. induction zs as [|z zs IH]; intros f k Hk D; [reflexivity|]. cbn [write_slots]. cbn [List.length] in D.
  rewrite IH by lia. apply le_write_other. lia.
Qed.
Lemma write_types_other f q k zs i : (0 <= k)%Z -> (i < q + k * 4 \/ q + (k + Z.of_nat (List.length zs)) * 4 <= i)%Z ->
  write_types f q k zs i = f i.
Proof.
  revert f k. induction zs as [|z zs IH]; intros f k Hk D; [reflexivity|]. cbn [write_types]. cbn [List.length] in D.
  rewrite IH by lia. apply le_write_other. lia.
Qed.
Lemma write_slots_read f q k zs j z : (0 <= k)%Z -> nth_error zs j = Some z -> (0 <= z < 2 ^ 64)%Z ->
  le_read (write_slots f q k zs) (q + (k + Z.of_nat j) * 8) 8 = z.
Proof.
  revert f k j. induction zs as [|y zs IH]; intros f k j Hk E R; [destruct j; discriminate|]. cbn [write_slots].
  destruct j as [|j]; cbn [nth_error] in E.
  - injection E as ->. rewrite (@le_read_same _ (le_write f (q + k * 8) 8 z)).
    + replace (q + (k + Z.of_nat 0) * 8)%Z with (q + k * 8)%Z by lia. apply le_read_write_small. rewrite pow_256_8. exact R.
    + intros i I. apply write_slots_other; lia.
  - replace (k + Z.of_nat (S j))%Z with (k + 1 + Z.of_nat j)%Z by lia. apply IH; auto. lia.
Qed.
Lemma write_types_read f q k zs j z : (0 <= k)%Z -> nth_error zs j = Some z -> (0 <= z < 2 ^ 32)%Z ->
  le_read (write_types f q k zs) (q + (k + Z.of_nat j) * 4) 4 = z.
Proof.
  revert f k j. induction zs as [|y zs IH]; intros f k j Hk E R; [destruct j; discriminate|]. cbn [write_types].
  destruct j as [|j]; cbn [nth_error] in E.
  - injection E as ->. rewrite (@le_read_same _ (le_write f (q + k * 4) 4 z)).
    + replace (q + (k + Z.of_nat 0) * 4)%Z with (q + k * 4)%Z by lia. apply le_read_write_small.
      change (256 ^ Z.of_nat 4)%Z with (2 ^ 32)%Z. exact R.
    + intros i I. apply write_types_other; lia.
  - replace (k + Z.of_nat (S j))%Z with (k + 1 + Z.of_nat j)%Z by lia. apply IH; auto. lia.
Qed.

(** ** Values *)
Lemma ok_val t v : vals_ok [t] [v] = true -> typeof v = t /\ in_range v = true.
Proof. intros E. destruct (@vals_ok_cons _ _ _ E) as (w & vs & [= <- <-] & A & B & _). auto. Qed.
Lemma vals_ok_nth ts vs i v : vals_ok ts vs = true -> nth_error vs i = Some v ->
  exists t, nth_error ts i = Some t /\ typeof v = t /\ in_range v = true.
Proof.
  revert vs i. induction ts as [|t ts IH]; intros vs i E N.
  - rewrite (@vals_ok_nil _ E) in N. destruct i; discriminate.
  - destruct (@vals_ok_cons _ _ _ E) as (w & vs' & -> & A & B & E'). destruct i as [|i]; cbn in N |- *.
    + injection N as ->. eauto.
    + eauto.
Qed.
Lemma num_range t v : typeof v = TNum t -> in_range v = true ->
  exists z, v = VNum t z /\ (0 <= z < 2 ^ bits t)%Z /\ (0 <= z < 2 ^ 64)%Z /\ (z mod 2 ^ bits t = z)%Z.
Proof.
  destruct v as [t' z|]; [|discriminate]. intros [= ->] R. cbn [in_range] in R. apply andb_true_iff in R. destruct R as [A B].
  apply Z.leb_le in A. apply Z.ltb_lt in B. exists z. repeat split; try lia.
  - destruct t; cbn [bits] in B; lia.
  - apply Z.mod_small. lia.
Qed.
Lemma num_sig ft : numeric_sig ft = true -> numeric (ft_out ft) /\ numeric (ft_in ft).
Proof. unfold numeric_sig, numeric. rewrite andb_true_iff, !negb_true_iff. tauto. Qed.
Lemma num_nth ts i t : numeric ts -> nth_error ts i = Some t -> exists n, t = TNum n.
Proof.
  unfold numeric. intros N E. destruct t as [n|r]; [eauto|]. apply nth_error_In in E.
  assert (C : existsb is_ref ts = true) by (apply existsb_exists; exists (TRef r); auto). congruence.
Qed.
Lemma num_side ft s i t : numeric_sig ft = true -> nth_error (side_types ft s) i = Some t -> exists n, t = TNum n.
Proof. intros N E. destruct (num_sig _ N) as [A B]. destruct s; [exact (num_nth _ A E)|exact (num_nth _ B E)]. Qed.

(** ** Frames in memory *)
Definition types_of (ft : functy) : list valty := ft_out ft ++ ft_in ft.
(** The slots in the order in which they are stored. *)
Definition contents (fr : iframe) : list (option val) := if_rets fr ++ if_args fr.
Lemma types_len ft : Z.of_nat (List.length (types_of ft)) = slots ft.
Proof. unfold types_of, slots. now rewrite app_length. Qed.
Lemma types_side ft s i : i < List.length (side_types ft s) -> nth_error (types_of ft) (slot s (List.length (ft_out ft)) i) = nth_error (side_types ft s) i.
Proof.
  unfold types_of. destruct s; cbn [side_types slot]; intros Li.
  - now rewrite nth_error_app1.
  - rewrite nth_error_app2 by lia. f_equal. lia.
Qed.

Section Hist.
  Context {X : Type}.
  Notation store := (store X).
  Variable num1 : unop -> Z -> option Z.
  Variable num2 : binop -> Z -> Z -> option Z.
  Variable ext : string -> string -> list val -> xprog X.
  Variable sigs : list functy.
  Notation L := (@L X).
  Notation lib := (lib_call num1 num2 ext sigs).

  (** The bytes at [b] hold the frame. *)
  Record frame_ok (f : Z -> Z) (b : Z) (fr : iframe) : Prop := {
    fo_in : In (if_type fr) sigs;
    fo_num : numeric_sig (if_type fr) = true;
    fo_rets : List.length (if_rets fr) = List.length (ft_out (if_type fr));
    fo_args : List.length (if_args fr) = List.length (ft_in (if_type fr));
    fo_typed : forall k v, nth_error (contents fr) k = Some (Some v) ->
      exists t, nth_error (types_of (if_type fr)) k = Some t /\ typeof v = t /\ in_range v = true;
    fo_holds : forall k v, nth_error (contents fr) k = Some (Some v) -> le_read f (b + Z.of_nat k * 8) 8 = num_bits v;
    fo_types : forall k t, nth_error (types_of (if_type fr)) k = Some t ->
      le_read f (b + slots (if_type fr) * 8 + Z.of_nat k * 4) 4 = runtime_enum_value t }.
  (** The pointers of a frame whose buffers begin at [b]. *)
  Definition points (fr : frame) (ft : functy) (b : Z) : Prop :=
    match fr with (ft', q, qt) => ft' = ft /\ (slots ft <> 0 -> q = b /\ qt = b + slots ft * 8)%Z /\ (slots ft = 0 -> q = 0 /\ qt = 0)%Z end.
  (** The frames lie on top of each other, from [b] up. *)
  Inductive inv (f : Z -> Z) (b : Z) : list frame -> list iframe -> Z -> Prop :=
  | inv_nil : inv f b [] [] b
  | inv_cons frs ifs p fr ifr : inv f b frs ifs p -> frame_ok f p ifr -> points fr (if_type ifr) p ->
      inv f b (fr :: frs) (ifr :: ifs) (p + slots (if_type ifr) * 12)%Z.

  Lemma slots_pos ft : (0 <= slots ft)%Z.
  Proof. unfold slots. lia. Qed.
  Lemma inv_le f b frs ifs p : inv f b frs ifs p -> (b <= p)%Z.
  Proof. induction 1 as [|frs ifs p fr ifr I IH F P]; [lia|]. pose proof (slots_pos (if_type ifr)). lia. Qed.
  Lemma frame_ok_ext f g b fr : (forall i, b <= i < b + slots (if_type fr) * 12 -> f i = g i)%Z -> frame_ok f b fr -> frame_ok g b fr.
  Proof.
    intros E [A B C D T H W]. pose proof (types_len (if_type fr)) as TL.
    constructor; auto.
    - intros k v N. rewrite <- (H k v N). apply le_read_same. intros i I. symmetry. apply E.
      destruct (T k v N) as (t & Nt & _). assert (k < List.length (types_of (if_type fr))) by (apply nth_error_Some; congruence). lia.
    - intros k t N. rewrite <- (W k t N). apply le_read_same. intros i I. symmetry. apply E.
      assert (k < List.length (types_of (if_type fr))) by (apply nth_error_Some; congruence). lia.
  Qed.
  Lemma inv_ext f g b frs ifs p : (forall i, b <= i < p -> f i = g i)%Z -> inv f b frs ifs p -> inv g b frs ifs p.
  Proof.
    intros E I. induction I as [|frs ifs p fr ifr I IH F P]; constructor; auto.
    - apply IH. intros i Hi. apply E. pose proof (slots_pos (if_type ifr)). lia.
    - eapply frame_ok_ext; [|exact F]. intros i Hi. apply E. apply inv_le in I. lia.
  Qed.
  (** One frame may be rewritten in place. *)
  Lemma inv_at f b frs ifs p d ifr : inv f b frs ifs p -> nth_error ifs d = Some ifr ->
    exists fr p', nth_error frs d = Some fr /\ points fr (if_type ifr) p' /\ frame_ok f p' ifr /\
      (b <= p')%Z /\ (p' + slots (if_type ifr) * 12 <= p)%Z /\
      forall g ifr', if_type ifr' = if_type ifr -> frame_ok g p' ifr' ->
        (forall i, i < p' \/ p' + slots (if_type ifr) * 12 <= i -> g i = f i)%Z ->
        inv g b frs (set_nth d ifr' ifs) p.
  Proof.
    intros I. revert d. induction I as [|frs ifs p fr0 ifr0 I IH F P]; intros d E; [destruct d; discriminate|].
    pose proof (inv_le I) as Le. destruct d as [|d]; cbn [nth_error] in E.
    - injection E as ->. exists fr0, p. split; [reflexivity|]. split; [exact P|]. split; [exact F|]. split; [exact Le|]. split; [lia|].
      intros g ifr' Et Fg Eq. cbn [set_nth]. rewrite <- Et. constructor.
      + eapply inv_ext; [|exact I]. intros i Hi. symmetry. apply Eq. lia.
      + exact Fg.
      + now rewrite Et.
    - destruct (IH d E) as (fr & p' & A & B & C & D & G & H). exists fr, p'. pose proof (slots_pos (if_type ifr0)).
      split; [exact A|]. split; [exact B|]. split; [exact C|]. split; [exact D|]. split; [lia|].
      intros g ifr' Et Fg Eq. cbn [set_nth]. constructor; auto.
      eapply frame_ok_ext; [|exact F]. intros i Hi. symmetry. apply Eq. lia.
  Qed.

  Lemma contents_set s i v fr : frame_ok (fun _ => 0%Z) 0 fr \/ List.length (if_rets fr) = List.length (ft_out (if_type fr)) ->
    i < List.length (side_of s fr) ->
    contents (set_slot s i v fr) = set_nth (slot s (List.length (ft_out (if_type fr))) i) (Some v) (contents fr).
  Proof.
    intros H Li. assert (R : List.length (if_rets fr) = List.length (ft_out (if_type fr))) by (destruct H as [[]|]; assumption).
    unfold contents, set_slot. destruct s; cbn [if_rets if_args side_of slot] in *.
    - clear R H. revert i Li. induction (if_rets fr) as [|o l IH]; intros i Li; [cbn in Li; lia|].
      destruct i as [|i]; cbn in Li |- *; [reflexivity|]. rewrite IH by lia. reflexivity.
    - rewrite <- R. clear R H Li. induction (if_rets fr) as [|o l IH]; [reflexivity|]. cbn. now rewrite IH.
  Qed.
  Lemma set_nth_same {A} i (v : A) l : i < List.length l -> nth_error (set_nth i v l) i = Some v.
  Proof. revert i. induction l as [|a l IH]; intros [|i] Li; cbn in *; try lia; [reflexivity|]. apply IH. lia. Qed.
  Lemma set_nth_other {A} i j (v : A) l : i <> j -> nth_error (set_nth i v l) j = nth_error l j.
  Proof. revert i j. induction l as [|a l IH]; intros [|i] [|j] N; cbn; auto; congruence. Qed.
  Lemma set_nth_length {A} i (v : A) l : List.length (set_nth i v l) = List.length l.
  Proof. revert i. induction l as [|a l IH]; intros [|i]; cbn; auto. Qed.

  Lemma side_len fr s f b : frame_ok f b fr -> List.length (side_of s fr) = List.length (side_types (if_type fr) s).
  Proof. intros []. destruct s; assumption. Qed.
  Lemma side_slot fr s i f b : frame_ok f b fr -> i < List.length (side_types (if_type fr) s) ->
    nth_error (contents fr) (slot s (List.length (ft_out (if_type fr))) i) = nth_error (side_of s fr) i.
  Proof.
    intros [] Li. unfold contents. destruct s; cbn [side_of slot side_types] in *.
    - apply nth_error_app1. congruence.
    - rewrite nth_error_app2 by lia. f_equal. lia.
  Qed.
  Lemma slot_lt ft s i : i < List.length (side_types ft s) -> (slot_of ft s i < slots ft)%Z.
  Proof. unfold slot_of, slots. destruct s; cbn [side_types slot]; lia. Qed.
  Lemma number_slot ft s i : number ft s i = slot_of ft s i.
  Proof. destruct s; reflexivity. Qed.

  Lemma frame_store f b fr s i t v : frame_ok f b fr -> nth_error (side_types (if_type fr) s) i = Some t ->
    typeof v = t -> in_range v = true ->
    frame_ok (le_write f (b + slot_of (if_type fr) s i * 8) 8 (num_bits v)) b (set_slot s i v fr).
  Proof.
    intros F N Tv Rv. assert (Li : i < List.length (side_types (if_type fr) s)) by (apply nth_error_Some; congruence).
    pose proof (side_len s F) as Ls. pose proof (slot_lt (if_type fr) s Li) as Lt.
    assert (Ec : contents (set_slot s i v fr) = set_nth (slot s (List.length (ft_out (if_type fr))) i) (Some v) (contents fr)).
    { apply contents_set; [right; apply F|lia]. }
    assert (Et : if_type (set_slot s i v fr) = if_type fr) by (destruct s; reflexivity).
    assert (Lc : slot s (List.length (ft_out (if_type fr))) i < List.length (contents fr)).
    { apply nth_error_Some. rewrite (@side_slot fr s i f b F Li). apply nth_error_Some. lia. }
    assert (Tn : exists n, t = TNum n) by exact (@num_side _ s i _ (fo_num F) N).
    destruct Tn as (n & ->). destruct (@num_range n v Tv Rv) as (z & -> & Rz & R64 & _).
    constructor; rewrite ?Et.
    - apply F.
    - apply F.
    - destruct s; cbn [set_slot if_rets]; rewrite ?set_nth_length; apply F.
    - destruct s; cbn [set_slot if_args]; rewrite ?set_nth_length; apply F.
    - intros k w Nk. rewrite Ec in Nk. destruct (Nat.eq_dec (slot s (List.length (ft_out (if_type fr))) i) k) as [<-|Ne].
      + rewrite set_nth_same in Nk by exact Lc. injection Nk as <-. exists (TNum n). rewrite types_side by exact Li. auto.
      + rewrite set_nth_other in Nk by exact Ne. apply (fo_typed F _ Nk).
    - intros k w Nk. rewrite Ec in Nk. destruct (Nat.eq_dec (slot s (List.length (ft_out (if_type fr))) i) k) as [<-|Ne].
      + rewrite set_nth_same in Nk by exact Lc. injection Nk as <-. cbn [num_bits]. fold (slot_of (if_type fr) s i).
        apply le_read_write_small. rewrite pow_256_8. exact R64.
      + rewrite set_nth_other in Nk by exact Ne. rewrite le_read_write_other; [apply (fo_holds F _ Nk)|].
        unfold slot_of. change (Z.of_nat 8) with 8%Z. lia.
    - intros k w Nk. rewrite le_read_write_other; [apply (fo_types F _ Nk)|]. change (Z.of_nat 8) with 8%Z. lia.
  Qed.
  Lemma frame_results f b fr vs : frame_ok f b fr -> vals_ok (ft_out (if_type fr)) vs = true ->
    frame_ok (write_slots f b 0 (map num_bits vs)) b (IF (if_type fr) (map Some vs) (if_args fr)).
  Proof.
    intros F V. pose proof (@vals_ok_len _ _ V) as Lv. destruct (@num_sig _ (fo_num F)) as [No _].
    assert (Ls : (Z.of_nat (List.length vs) <= slots (if_type fr))%Z) by (unfold slots; lia).
    constructor; cbn [if_type if_rets if_args].
    - apply F.
    - apply F.
    - now rewrite map_length.
    - apply F.
    - intros k v N. unfold contents in N. cbn [if_rets if_args] in N.
      destruct (Nat.lt_ge_cases k (List.length vs)) as [Lk|Gk].
      + rewrite nth_error_app1 in N by (rewrite map_length; exact Lk). rewrite nth_error_map in N.
        destruct (nth_error vs k) as [w|] eqn:E; [|discriminate]. injection N as ->.
        destruct (@vals_ok_nth _ _ _ _ V E) as (t & Nt & A & B). exists t. unfold types_of.
        rewrite nth_error_app1 by lia. auto.
      + rewrite nth_error_app2 in N by (rewrite map_length; exact Gk). rewrite map_length in N.
        apply (fo_typed F). unfold contents. rewrite nth_error_app2 by (rewrite (fo_rets F); lia). now rewrite (fo_rets F), <- Lv.
    - intros k v N. unfold contents in N. cbn [if_rets if_args] in N.
      destruct (Nat.lt_ge_cases k (List.length vs)) as [Lk|Gk].
      + rewrite nth_error_app1 in N by (rewrite map_length; exact Lk). rewrite nth_error_map in N.
        destruct (nth_error vs k) as [w|] eqn:E; [|discriminate]. injection N as ->.
        destruct (@vals_ok_nth _ _ _ _ V E) as (t & Nt & A & B). destruct (@num_nth _ _ _ No Nt) as (n & ->).
        destruct (@num_range n v A B) as (z & -> & _ & R & _).
        pose proof (@write_slots_read f b 0 (map num_bits vs) k z) as W. rewrite Z.add_0_l in W. apply W; [lia| |exact R].
        rewrite nth_error_map, E. reflexivity.
      + rewrite nth_error_app2 in N by (rewrite map_length; exact Gk). rewrite map_length in N.
        assert (Nc : nth_error (contents fr) k = Some (Some v)).
        { unfold contents. rewrite nth_error_app2 by (rewrite (fo_rets F); lia). now rewrite (fo_rets F), <- Lv. }
        rewrite <- (fo_holds F _ Nc). apply le_read_same. intros i I. apply write_slots_other; [lia|]. rewrite map_length. lia.
    - intros k t N. rewrite <- (fo_types F _ N). apply le_read_same. intros i I. apply write_slots_other; [lia|]. rewrite map_length. lia.
  Qed.

  (** A fresh frame. *)
  Lemma frame_fresh f b ft args : In ft sigs -> numeric_sig ft = true -> vals_ok (ft_in ft) args = true ->
    frame_ok (write_types (write_slots f b (Z.of_nat (List.length (ft_out ft))) (map num_bits args))
                          (b + slots ft * 8) 0 (map runtime_enum_value (types_of ft)))
             b (IF ft (repeat None (List.length (ft_out ft))) (map Some args)).
  Proof.
    intros I N V. pose proof (@vals_ok_len _ _ V) as Lv. destruct (num_sig _ N) as [_ Ni]. pose proof (types_len ft) as TL.
    assert (C : forall k v, nth_error (contents (IF ft (repeat None (List.length (ft_out ft))) (map Some args))) k = Some (Some v) ->
      exists j, k = List.length (ft_out ft) + j /\ nth_error args j = Some v).
    { intros k v E. unfold contents in E. cbn [if_rets if_args] in E.
      destruct (Nat.lt_ge_cases k (List.length (ft_out ft))) as [Lk|Gk].
      - rewrite nth_error_app1 in E by (now rewrite repeat_length). apply nth_error_In, repeat_spec in E. discriminate.
      - rewrite nth_error_app2 in E by (now rewrite repeat_length). rewrite repeat_length, nth_error_map in E.
        exists (k - List.length (ft_out ft)). split; [lia|]. destruct (nth_error args _); [now injection E as ->|discriminate]. }
    constructor; cbn [if_type if_rets if_args]; auto.
    - apply repeat_length.
    - now rewrite map_length.
    - intros k v E. destruct (C k v E) as (j & -> & Ej). destruct (@vals_ok_nth _ _ _ _ V Ej) as (t & Nt & A & B).
      exists t. unfold types_of. rewrite nth_error_app2 by lia.
      replace (List.length (ft_out ft) + j - List.length (ft_out ft)) with j by lia. auto.
    - intros k v E. destruct (C k v E) as (j & -> & Ej). destruct (@vals_ok_nth _ _ _ _ V Ej) as (t & Nt & A & B).
      destruct (@num_nth _ _ _ Ni Nt) as (n & ->). destruct (@num_range n v A B) as (z & -> & _ & R & _).
      assert (Lj : j < List.length (ft_in ft)) by (apply nth_error_Some; congruence).
      rewrite Nat2Z.inj_add.
      rewrite (@le_read_same _ (write_slots f b (Z.of_nat (List.length (ft_out ft))) (map num_bits args))).
      + apply write_slots_read; [lia| |exact R]. rewrite nth_error_map, Ej. reflexivity.
      + intros i Hi. apply write_types_other; [lia|]. unfold slots. lia.
    - intros k t E. pose proof (@write_types_read (write_slots f b (Z.of_nat (List.length (ft_out ft))) (map num_bits args))
        (b + slots ft * 8) 0 (map runtime_enum_value (types_of ft)) k (runtime_enum_value t)) as W.
      rewrite Z.add_0_l in W. apply W; [lia|now rewrite nth_error_map, E|]. destruct t as [[]|[]]; cbn; lia.
  Qed.

  (** ** The simulation *)
  Definition room (p : Z) (ft : functy) : Prop := (slots ft <= 8191 \/ p + slots ft * 12 <= limit)%Z.
  (** The state of the library between calls. *)
  Definition Inv (frs : list frame) (ifs : list iframe) (p pg : Z) (f : Z -> Z) : Prop :=
    inv f 0 frs ifs p /\ (1 <= pg <= 65535)%Z /\ (p <= pg * 65536)%Z.

  Lemma names ft o : numeric_sig ft = true -> op_name ft o = lib_name ft o.
  Proof. intros N. destruct (num_sig _ N) as [A B]. symmetry. now apply lib_name_op. Qed.
  Lemma type_code_eq t : type_code t = runtime_enum_value t.
  Proof. destruct t as [[]|[]]; reflexivity. Qed.

  Lemma step_ok N e frs ifs obs ifs' x p pg f : (70010 <= Z.of_nat N)%Z ->
    Inv frs ifs p pg f -> ideal_step e ifs = Some (obs, ifs') ->
    (forall ft, In ft (entered [e]) -> In ft sigs /\ room p ft) ->
    (exists vs frs' p' pg' f', perform_step (lib_call num1 num2 ext sigs N) e frs (L x p pg f) = Ok (vs, frs', L x p' pg' f') /\
       Forall2 sees obs vs /\ Inv frs' ifs' p' pg' f') \/
    (exists s ft args, perform_step (lib_call num1 num2 ext sigs N) e frs (L x p pg f) = Trap s /\ e = EEnter ft args /\ (limit < p + slots ft * 12)%Z).
  Proof.
    intros Big (I & Pg & Pp) Sx R.
    assert (Mk : exists n, N = S (S (S (S n))) /\ enough n).
    { exists (N - 4). split; [lia|]. unfold enough. lia. }
    destruct Mk as (n & -> & En). pose proof (inv_le I) as Lp.
    assert (Lim : (pg * 65536 <= limit)%Z) by (unfold limit; lia).
    destruct e as [ft args| |an d s i v|an d s i|d vs|d k]; cbn [ideal_step] in Sx.
    - destruct (numeric_sig ft && vals_ok (ft_in ft) args) eqn:C; [|discriminate]. injection Sx as <- <-.
      apply andb_true_iff in C. destruct C as [C V]. destruct (num_sig _ C) as [No Ni].
      destruct (R ft (or_introl eq_refl)) as [Hft Rm]. pose proof (slots_pos ft) as Sp.
      assert (B8 : (p + slots ft * 8 < 2 ^ 32)%Z) by (unfold room, limit in *; lia).
      cbn [perform_step]. rewrite !(@names ft _ C).
      pose proof (@op_alloc X num1 num2 ext sigs ft Hft n x p pg f args En Lp Pg Pp Ni V B8) as A. unfold lib_op in A.
      destruct (Z.leb_spec (p + slots ft * 8) limit) as [Fit|Not].
      2: { right. rewrite A. cbn [rbind]. eexists _, ft, args. split; [reflexivity|]. split; [reflexivity|]. lia. }
      rewrite A. cbn [rbind pointer rget].
      destruct (@alloc_pages p pg (slots ft * 8)) as [P1 P2]; try lia.
      set (p1 := (p + slots ft * 8)%Z) in *. set (pg1 := pages_for p1 pg) in *.
      set (f1 := write_slots f p (Z.of_nat (List.length (ft_out ft))) (map num_bits args)) in *.
      assert (B4 : (p1 + slots ft * 4 < 2 ^ 32)%Z) by (unfold room, limit, p1 in *; lia).
      pose proof (@op_alloc_types X num1 num2 ext sigs ft Hft (S n) x p1 pg1 f1) as T.
      unfold lib_op in T. rewrite T; try assumption; try lia; [|unfold enough in *; lia].
      destruct (Z.leb_spec (p1 + slots ft * 4) limit) as [Fit'|Not'].
      2: { right. cbn [rbind]. eexists _, ft, args. split; [reflexivity|]. split; [reflexivity|]. unfold p1 in Not'. lia. }
      left. cbn [rbind pointer rget].
      destruct (@alloc_pages p1 pg1 (slots ft * 4)) as [P3 P4]; try lia.
      eexists _, _, _, _, _. split; [reflexivity|]. split; [constructor|].
      split; [|split; [exact P3|exact P4]].
      replace (p1 + slots ft * 4)%Z with (p + slots (if_type (IF ft (repeat None (List.length (ft_out ft))) (map Some args))) * 12)%Z
        by (unfold p1; cbn [if_type]; lia).
      constructor.
      + eapply inv_ext; [|exact I]. intros i Hi. symmetry. rewrite write_types_other by lia. unfold f1.
        apply write_slots_other; lia.
      + unfold f1, p1. now apply frame_fresh.
      + cbn [points if_type]. split; [reflexivity|]. split; intros Nz; [apply Z.eqb_neq in Nz|apply Z.eqb_eq in Nz]; rewrite Nz; auto.
    - destruct ifs as [|ifr ifs0]; [discriminate|]. injection Sx as <- <-. left.
      inversion I as [|frs0 ifs1 p0 fr ifr0 I0 F P]; subst. destruct fr as [[ft q] qt]. cbn [points] in P. destruct P as [-> [P _]].
      pose proof (inv_le I0) as Lp0. pose proof (slots_pos (if_type ifr)) as Sp. pose proof (fo_num F) as C.
      set (ft := if_type ifr) in *.
      cbn [perform_step]. rewrite !(@names ft _ C).
      pose proof (@op_free X num1 num2 ext sigs ft (fo_in F) n x (p0 + slots ft * 12) pg f (vi32 q)) as A. unfold lib_op in A.
      rewrite A by (unfold limit in Lim; lia). cbn [rbind].
      assert (E1 : ((p0 + slots ft * 12 - (slots ft * 8) mod 2 ^ 32) mod 2 ^ 32 = p0 + slots ft * 4)%Z).
      { unfold limit in Lim. rewrite (Z.mod_small (slots ft * 8)) by lia. rewrite Z.mod_small by lia. lia. }
      rewrite E1.
      pose proof (@op_free_types X num1 num2 ext sigs ft (fo_in F) (S n) x (p0 + slots ft * 4) pg f (vi32 qt)) as B.
      unfold lib_op in B. rewrite B by (unfold limit in Lim; lia). cbn [rbind].
      assert (E2 : ((p0 + slots ft * 4 - (slots ft * 4) mod 2 ^ 32) mod 2 ^ 32 = p0)%Z).
      { unfold limit in Lim. rewrite (Z.mod_small (slots ft * 4)) by lia. rewrite Z.mod_small by lia. lia. }
      rewrite E2. eexists _, _, _, _, _. split; [reflexivity|]. split; [constructor|]. split; [exact I0|]. split; [exact Pg|lia].
    - destruct (nth_error ifs d) as [ifr|] eqn:Ed; [|discriminate].
      destruct (ok_for (side_types (if_type ifr) s) i v) eqn:O; [|discriminate]. injection Sx as <- <-. left.
      destruct (inv_at d I Ed) as ([[ft q] qt] & p' & Efr & P & F & Lb & Up & Rep). cbn [points] in P. destruct P as [-> [P _]].
      unfold ok_for in O. destruct (nth_error (side_types (if_type ifr) s) i) as [t|] eqn:Et; [|discriminate].
      destruct (@ok_val _ _ O) as [Tv Rv]. pose proof (fo_num F) as C. destruct (num_sig _ C) as [No Ni].
      assert (Tn : exists m, t = TNum m) by exact (@num_side _ s i _ C Et).
      destruct Tn as (m & ->). destruct (@num_range m v Tv Rv) as (z & -> & Rz & R64 & Zs).
      assert (Li : i < List.length (side_types (if_type ifr) s)) by (apply nth_error_Some; congruence).
      pose proof (slot_lt (if_type ifr) s Li) as Ls. assert (Sl0 : (0 <= slot_of (if_type ifr) s i)%Z) by (unfold slot_of; lia).
      destruct P as [-> _]; [lia|].
      cbn [perform_step]. rewrite Efr. unfold side_type. rewrite Et. cbn [rget rbind].
      assert (Q : (let* (ws, s1) := store_result x p pg f (addr p' (slot_of (if_type ifr) s i) 8) z in Ok (ws, frs, s1))
        = Ok (@nil val, frs, L x p pg (le_write f (p' + slot_of (if_type ifr) s i * 8) 8 z))).
      { rewrite addr_small by (unfold limit in Lim; lia). unfold store_result.
        destruct (Z.leb_spec (p' + slot_of (if_type ifr) s i * 8 + 8) (pg * 65536)); [reflexivity|lia]. }
      eexists [], frs, p, pg, _. split; [|split; [constructor|split; [|split; [exact Pg|exact Pp]]]].
      + destruct an.
        * rewrite analysis_store, number_slot. exact Q.
        * rewrite (@names _ _ C).
          pose proof (@op_store X num1 num2 ext sigs _ (fo_in F) (S n) x p pg f s i p' m z Et) as A. unfold lib_op in A.
          rewrite A. exact Q.
      + apply Rep; [destruct s; reflexivity|exact (@frame_store f p' ifr s i (TNum m) (VNum m z) F Et Tv Rv)|].
        intros j Hj. cbn [num_bits]. apply le_write_other. change (Z.of_nat 8) with 8%Z. lia.
    - destruct (nth_error ifs d) as [ifr|] eqn:Ed; [|discriminate].
      destruct (nth_error (side_of s ifr) i) as [o|] eqn:O; [|discriminate]. injection Sx as <- <-. left.
      destruct (inv_at d I Ed) as ([[ft q] qt] & p' & Efr & P & F & Lb & Up & _). cbn [points] in P. destruct P as [-> [P _]].
      pose proof (fo_num F) as C. destruct (num_sig _ C) as [No Ni].
      assert (Li : i < List.length (side_types (if_type ifr) s)).
      { rewrite <- (side_len s F). apply nth_error_Some. congruence. }
      destruct (nth_error (side_types (if_type ifr) s) i) as [t|] eqn:Et; [|apply nth_error_None in Et; lia].
      assert (Tn : exists m, t = TNum m) by exact (@num_side _ s i _ C Et).
      destruct Tn as (m & ->).
      pose proof (slot_lt (if_type ifr) s Li) as Ls. assert (Sl0 : (0 <= slot_of (if_type ifr) s i)%Z) by (unfold slot_of; lia).
      destruct P as [-> _]; [lia|].
      cbn [perform_step]. rewrite Efr. unfold side_type. rewrite Et. cbn [rget rbind].
      set (w := VNum m (le_read f (p' + slot_of (if_type ifr) s i * 8) 8 mod 2 ^ bits m)).
      assert (Q : (let* (vs, s1) := (let b := addr p' (slot_of (if_type ifr) s i) 8 in
          if (b + 8 <=? pg * 65536)%Z then Ok ([VNum m (le_read f b 8 mod 2 ^ bits m)], L x p pg f) else Trap (L x p pg f)) in Ok (vs, frs, s1))
        = Ok ([w], frs, L x p pg f)).
      { cbv zeta. rewrite addr_small by (unfold limit in Lim; lia).
        destruct (Z.leb_spec (p' + slot_of (if_type ifr) s i * 8 + 8) (pg * 65536)); [reflexivity|lia]. }
      exists [w], frs, p, pg, f. split; [|split; [|split; [exact I|split; [exact Pg|exact Pp]]]].
      + destruct an.
        * rewrite analysis_load, number_slot. exact Q.
        * rewrite (@names _ _ C).
          pose proof (@op_load X num1 num2 ext sigs _ (fo_in F) (S n) x p pg f s i p' m Et) as A. unfold lib_op in A.
          rewrite A. exact Q.
      + constructor; [|constructor]. destruct o as [v|]; [|exact Logic.I]. cbn [sees].
        rewrite <- (@side_slot ifr s i f p' F Li) in O.
        destruct (fo_typed F _ O) as (t' & Nt & Tv & Rv). rewrite types_side in Nt by exact Li. rewrite Et in Nt. injection Nt as <-.
        destruct (@num_range m v Tv Rv) as (z & -> & _ & _ & Zs).
        unfold w. f_equal. pose proof (fo_holds F _ O) as H. unfold slot_of. rewrite H. exact Zs.
    - destruct (nth_error ifs d) as [ifr|] eqn:Ed; [|discriminate].
      destruct (vals_ok (ft_out (if_type ifr)) vs) eqn:V; [|discriminate]. injection Sx as <- <-. left.
      destruct (inv_at d I Ed) as ([[ft q] qt] & p' & Efr & P & F & Lb & Up & Rep). cbn [points] in P. destruct P as [-> [P _]].
      pose proof (fo_num F) as C. destruct (num_sig _ C) as [No Ni]. pose proof (@vals_ok_len _ _ V) as Lv.
      pose proof (slots_pos (if_type ifr)) as Sp.
      cbn [perform_step]. rewrite Efr. rewrite (@names _ _ C).
      assert (Sr : (Z.of_nat (List.length (ft_out (if_type ifr))) <= slots (if_type ifr))%Z) by (unfold slots; lia).
      pose proof (@op_store_rets X num1 num2 ext sigs _ (fo_in F) (S n) x p pg f) as A. unfold lib_op in A.
      assert (Z0 : slots (if_type ifr) = 0%Z \/ q = p') by (destruct (Z.eq_dec (slots (if_type ifr)) 0) as [Z0|Nz]; [left|right; apply P]; auto).
      exists [], frs, p, pg, (write_slots f p' 0 (map num_bits vs)).
      split; [|split; [constructor|split; [|split; [exact Pg|exact Pp]]]].
      + destruct Z0 as [Z0|Z0].
        * assert (Or : ft_out (if_type ifr) = []) by (apply length_zero_iff_nil; lia).
          assert (vs = []) by (apply length_zero_iff_nil; rewrite Lv, Or; reflexivity). subst vs.
          cbn [map write_slots].
          erewrite lib_call_fn with (f := store_rets_fn (if_type ifr));
            [|apply (@in_tail sigs _ (fo_in F)); simpl; tauto|reflexivity|unfold store_rets_fn; rewrite Or; reflexivity|cbn; now rewrite Or].
          unfold invoke, store_rets_fn. rewrite Or. reflexivity.
        * subst q. rewrite A; try assumption; try (unfold limit in Lim; lia). reflexivity.
      + apply Rep; [reflexivity|now apply frame_results|]. intros j Hj. apply write_slots_other; [lia|]. rewrite map_length. lia.
    - destruct (nth_error ifs d) as [ifr|] eqn:Ed; [|discriminate].
      destruct (nth_error (ft_out (if_type ifr) ++ ft_in (if_type ifr)) k) as [t|] eqn:Et; [|discriminate]. injection Sx as <- <-. left.
      destruct (inv_at d I Ed) as ([[ft q] qt] & p' & Efr & P & F & Lb & Up & _). cbn [points] in P. destruct P as [-> [P _]].
      assert (Lk : k < List.length (types_of (if_type ifr))) by (apply nth_error_Some; unfold types_of; congruence).
      pose proof (types_len (if_type ifr)) as TL.
      destruct P as [-> ->]; [lia|].
      cbn [perform_step]. rewrite Efr. rewrite lib_load_type. rewrite addr_small by (unfold limit in Lim; lia).
      destruct (Z.leb_spec (p' + slots (if_type ifr) * 8 + Z.of_nat k * 4 + 4) (pg * 65536)); [|lia]. cbn [rbind].
      eexists _, _, _, _, _. split; [reflexivity|]. split; [|split; [exact I|split; [exact Pg|exact Pp]]].
      constructor; [|constructor]. cbn [sees]. rewrite type_code_eq. f_equal. exact (fo_types F k Et).
  Qed.

  Lemma live_pos st : (0 <= live st)%Z.
  Proof. induction st as [|ft st IH]; cbn [live]; [lia|]. unfold frame_bytes. lia. Qed.
  Lemma live_peak es st : (live st <= peak es st)%Z.
  Proof. revert st. induction es as [|e es IH]; intros st; [reflexivity|]. destruct e; cbn [peak]; try lia; apply IH. Qed.
  Lemma inv_live f b frs ifs p : inv f b frs ifs p -> p = (b + live (map if_type ifs))%Z.
  Proof.
    induction 1 as [|frs ifs p fr ifr I IH F P]; cbn [map live]; [lia|]. unfold frame_bytes. rewrite IH. unfold slots. lia.
  Qed.
  Lemma map_set_nth {A B} (g : A -> B) i v l a : nth_error l i = Some a -> g v = g a -> map g (set_nth i v l) = map g l.
  Proof.
    revert i. induction l as [|y l IH]; intros [|i] E Eg; cbn in *; try discriminate.
    - injection E as ->. now rewrite Eg.
    - f_equal. now apply IH.
  Qed.
  (** The signatures of the live frames. *)
  Lemma step_types e ifs obs ifs' : ideal_step e ifs = Some (obs, ifs') ->
    map if_type ifs' = match e with EEnter ft _ => ft :: map if_type ifs | ELeave => tl (map if_type ifs) | _ => map if_type ifs end.
  Proof.
    destruct e as [ft args| |an d s i v|an d s i|d vs|d k]; cbn [ideal_step]; intros S.
    - destruct (_ && _); [|discriminate]. now injection S as <- <-.
    - destruct ifs; [discriminate|]. now injection S as <- <-.
    - destruct (nth_error ifs d) as [fr|] eqn:E; [|discriminate]. destruct (ok_for _ _ _); [|discriminate]. injection S as <- <-.
      apply map_set_nth with fr; [exact E|]. destruct s; reflexivity.
    - destruct (nth_error ifs d); [|discriminate]. destruct (nth_error (side_of _ _) _); [|discriminate]. now injection S as <- <-.
    - destruct (nth_error ifs d) as [fr|] eqn:E; [|discriminate]. destruct (vals_ok _ _); [|discriminate]. injection S as <- <-.
      now apply map_set_nth with fr.
    - destruct (nth_error ifs d); [|discriminate]. destruct (nth_error (_ ++ _) _); [|discriminate]. now injection S as <- <-.
  Qed.

  Lemma history_ok N es frs ifs obs ifs' x p pg f : (70010 <= Z.of_nat N)%Z ->
    Inv frs ifs p pg f -> ideal es ifs = Some (obs, ifs') ->
    (forall ft, In ft (entered es) -> In ft sigs) ->
    (forall ft, In ft (entered es) -> (slots ft <= 8191)%Z) \/ (peak es (map if_type ifs) <= limit)%Z ->
    (exists vs frs' p' pg' f', perform (lib_call num1 num2 ext sigs N) es frs (L x p pg f) = Ok (vs, frs', L x p' pg' f') /\
       Forall2 sees obs vs /\ Inv frs' ifs' p' pg' f' /\ (peak es (map if_type ifs) <= limit)%Z) \/
    (exists s, perform (lib_call num1 num2 ext sigs N) es frs (L x p pg f) = Trap s /\ (limit < peak es (map if_type ifs))%Z).
  Proof.
    intros Big. revert frs ifs obs p pg f. induction es as [|e es IH]; intros frs ifs obs p pg f I S In_ Room.
    - injection S as <- <-. left. exists [], frs, p, pg, f. split; [reflexivity|]. split; [constructor|]. split; [exact I|].
      destruct I as (I & Pg & Pp). apply inv_live in I. cbn [peak]. unfold limit. lia.
    - cbn [ideal] in S. destruct (ideal_step e ifs) as [[o st1]|] eqn:S1; [|discriminate].
      destruct (ideal es st1) as [[os st2]|] eqn:S2; [|discriminate]. injection S as <- <-.
      pose proof (step_types _ _ S1) as T1. pose proof I as (I0 & Pg & Pp). pose proof (inv_live I0) as Ep. rewrite Z.add_0_l in Ep.
      assert (Lim : (p <= limit)%Z) by (unfold limit; lia).
      assert (Pk : (peak (e :: es) (map if_type ifs) <= limit)%Z <-> (peak es (map if_type st1) <= limit)%Z).
      { rewrite T1. destruct e; cbn [peak]; try reflexivity; rewrite <- Ep; lia. }
      assert (Eb : forall ft, (slots ft * 12 = frame_bytes ft)%Z) by (intros; unfold slots, frame_bytes; lia).
      destruct (@step_ok N e frs ifs o st1 x p pg f Big I S1) as [(vs & frs1 & p1 & pg1 & f1 & E1 & O1 & I1)|(s & ft & args & E1 & -> & Lt)].
      + intros ft Hft. assert (He : In ft (entered (e :: es))) by (unfold entered in *; cbn [flat_map] in *; apply in_or_app; left; rewrite app_nil_r in Hft; exact Hft).
        split; [apply In_, He|]. destruct Room as [Rm|Rm]; [left; apply Rm, He|right].
        destruct e as [ft' args| | | | |]; cbn in Hft; try contradiction. destruct Hft as [->|[]].
        apply Pk in Rm. rewrite T1 in Rm. pose proof (live_peak es (ft :: map if_type ifs)) as Lk. cbn [live] in Lk.
        specialize (Eb ft). lia.
      + cbn [perform]. rewrite E1. cbn [rbind].
        destruct (IH frs1 st1 os p1 pg1 f1 I1 S2) as [(ws & frs2 & p2 & pg2 & f2 & E2 & O2 & I2 & P2)|(s & E2 & P2)].
        * intros ft Hft. apply In_. unfold entered in *. cbn [flat_map]. apply in_or_app. now right.
        * destruct Room as [Rm|Rm]; [left|right; now apply Pk]. intros ft Hft. apply Rm.
          unfold entered in *. cbn [flat_map]. apply in_or_app. now right.
        * left. rewrite E2. cbn [rbind]. eexists _, _, _, _, _. split; [reflexivity|]. split; [now apply Forall2_app|].
          split; [exact I2|now apply Pk].
        * right. rewrite E2. exists s. split; [reflexivity|]. lia.
      + right. cbn [perform]. rewrite E1. exists s. split; [reflexivity|]. cbn [peak].
        pose proof (live_peak es (ft :: map if_type ifs)) as Lk. cbn [live] in Lk. specialize (Eb ft). lia.
  Qed.

  (** Live buffers are apart. *)
  Lemma inv_apart f frs ifs p : inv f 0 frs ifs p ->
    ForallOrdPairs apart (buffers frs) /\ Forall (fun b => snd b = 0 \/ 0 <= fst b /\ fst b + snd b <= p)%Z (buffers frs).
  Proof.
    induction 1 as [|frs ifs p fr ifr I IH F P]; [split; constructor|].
    destruct fr as [[ft q] qt]. destruct P as [-> [P _]]. destruct IH as [A B]. pose proof (inv_le I) as Lp.
    set (ft := if_type ifr) in *. pose proof (slots_pos ft) as Sp.
    assert (Ek : Z.of_nat (List.length (ft_out ft) + List.length (ft_in ft)) = slots ft) by reflexivity.
    unfold buffers. cbn [flat_map]. rewrite Ek. fold (buffers frs). cbn [app].
    destruct (Z.eq_dec (slots ft) 0) as [Z0|Nz].
    - rewrite Z0. split.
      + constructor; [constructor; [|apply Forall_forall]; intros; left; reflexivity|].
        constructor; [apply Forall_forall; intros; left; reflexivity|exact A].
      + constructor; [left; reflexivity|]. constructor; [left; reflexivity|].
        eapply Forall_impl; [|exact B]. cbn. intros b. lia.
    - destruct (P Nz) as [-> ->]. split.
      + constructor; [constructor|constructor].
        * unfold apart. cbn [fst snd]. lia.
        * eapply Forall_impl; [|exact B]. cbn. intros b. unfold apart. cbn [fst snd]. lia.
        * eapply Forall_impl; [|exact B]. cbn. intros b. unfold apart. cbn [fst snd]. lia.
        * exact A.
      + constructor; [cbn [fst snd]; lia|]. constructor; [cbn [fst snd]; lia|].
        eapply Forall_impl; [|exact B]. cbn. intros b. lia.
  Qed.
  Lemma apart_sym a b : apart a b -> apart b a.
  Proof. unfold apart. lia. Qed.
  Lemma ord_apart bs : ForallOrdPairs apart bs -> all_apart bs.
  Proof.
    induction 1 as [|a l F O IH]; intros i j x y Ei Ej N; [destruct i; discriminate|]. rewrite Forall_forall in F.
    destruct i as [|i], j as [|j]; cbn [nth_error] in Ei, Ej.
    - congruence.
    - injection Ei as <-. apply F. eapply nth_error_In. exact Ej.
    - injection Ej as <-. apply apart_sym, F. eapply nth_error_In. exact Ei.
    - eapply IH; eauto.
  Qed.
End Hist.
