(** The library that is generated for AssemblyScript follows the ideal stack of frames, and stops
    when there is no room. *)
From Verif Require Import AsLib AsNames AsRun RustRun RustProofs StackNames StackAsm StackOps StackHist StackRun StackSpec RsStdlib System Bytes.
Local Open Scope string_scope.
Local Open Scope list_scope.
Local Open Scope res_scope.

Lemma apart_join l r : all_apart l -> all_apart r -> (forall a b, In a l -> In b r -> apart a b) -> all_apart (l ++ r).
Proof.
  intros Al Ar X i j a b Ei Ej Ne. destruct (Nat.lt_ge_cases i (List.length l)) as [Li|Li], (Nat.lt_ge_cases j (List.length l)) as [Lj|Lj].
  - rewrite nth_error_app1 in Ei, Ej by assumption. exact (Al i j a b Ei Ej Ne).
  - rewrite nth_error_app1 in Ei by assumption. rewrite nth_error_app2 in Ej by assumption. apply nth_error_In in Ei, Ej. exact (X a b Ei Ej).
  - rewrite nth_error_app2 in Ei by assumption. rewrite nth_error_app1 in Ej by assumption. apply nth_error_In in Ei, Ej. apply apart_sym. exact (X b a Ej Ei).
  - rewrite nth_error_app2 in Ei, Ej by assumption. apply (Ar (i - List.length l) (j - List.length l) a b Ei Ej). lia.
Qed.

(** Buffers one after the other, up to the free pointer: values, then types. *)
Fixpoint stacked (frs : list frame) (p : Z) : Prop :=
  match frs with
  | [] => p = 0%Z
  | (ft, q, qt) :: r => (qt = q + 8 * slots ft /\ p = q + 12 * slots ft)%Z /\ stacked r q
  end.
Lemma slots_pos ft : (0 <= slots ft)%Z.
Proof. unfold slots. lia. Qed.
Lemma stacked_pos frs : forall p, stacked frs p -> (0 <= p)%Z.
Proof. induction frs as [|[[ft q] qt] frs IH]; intros p S; cbn [stacked] in S; [lia|]. destruct S as [[_ ->] S]. specialize (IH q S). pose proof (slots_pos ft). lia. Qed.
Lemma stacked_blocks frs : forall p, stacked frs p -> forall b, In b (blocks frs) -> (0 <= fst b /\ 0 < snd b /\ fst b + snd b <= p)%Z.
Proof.
  induction frs as [|[[ft q] qt] frs IH]; intros p S b I; [destruct I|]. cbn [stacked] in S. destruct S as [[-> ->] S].
  pose proof (stacked_pos _ _ S). pose proof (slots_pos ft). unfold blocks in I. cbn [flat_map frame_blocks] in I. fold (blocks frs) in I.
  apply in_app_or in I. destruct I as [I|I].
  - destruct (Z.eqb_spec (slots ft) 0); [destruct I|]. destruct I as [<-|[<-|[]]]; cbn [fst snd]; lia.
  - specialize (IH q S b I). lia.
Qed.
Lemma stacked_apart frs : forall p, stacked frs p -> all_apart (blocks frs).
Proof.
  induction frs as [|[[ft q] qt] frs IH]; intros p S.
  - intros i j a b E. destruct i; discriminate E.
  - cbn [stacked] in S. destruct S as [[-> ->] S]. pose proof (slots_pos ft) as Sp. unfold blocks. cbn [flat_map frame_blocks]. fold (blocks frs).
    apply apart_join; [|exact (IH q S)|].
    + destruct (Z.eqb_spec (slots ft) 0); [intros i j a b E; destruct i; discriminate E|].
      intros [|[|i]] [|[|j]] a b Ei Ej Ne; cbn [nth_error] in *; try congruence; try (destruct i; discriminate); try (destruct j; discriminate);
        injection Ei as <-; injection Ej as <-; unfold apart; cbn [fst snd]; lia.
    + intros a b Ia Ib. pose proof (stacked_blocks _ _ S _ Ib) as B.
      destruct (Z.eqb_spec (slots ft) 0); [destruct Ia|]. destruct Ia as [<-|[<-|[]]]; unfold apart; cbn [fst snd]; lia.
Qed.
Lemma stacked_at frs : forall p d ft q qt, stacked frs p -> nth_error frs d = Some (ft, q, qt) ->
  (0 <= q /\ qt = q + 8 * slots ft /\ q + 12 * slots ft <= p)%Z.
Proof.
  induction frs as [|[[ft' q'] qt'] frs IH]; intros p d ft q qt S E; [destruct d; discriminate|]. cbn [stacked] in S. destruct S as [[-> ->] S].
  pose proof (stacked_pos _ _ S). pose proof (slots_pos ft'). destruct d as [|d]; cbn [nth_error] in E.
  - injection E as <- <- <-. lia.
  - specialize (IH q' d ft q qt S E). lia.
Qed.

Section Lib.
  Variables p0 mx : Z.
  Hypothesis Pages : (0 <= p0 <= mx /\ mx <= 65536)%Z.
  Variable N : nat.
  Hypothesis Big : (65540 <= Z.of_nat N)%Z.
  Variable sigs : list functy.
  Notation lc := (as_call N (as_lib sigs)).
  Notation AS := (AS p0 mx).
  Notation most := (most p0 mx).
  Definition as_room : Z := (most * 65536)%Z.
  Definition as_states (frs : list frame) (ifs : list iframe) (s : store unit) : Prop :=
    exists p t f, s = AS p t f /\ stacked frs p /\ (0 <= t <= most)%Z /\ (p <= t * 65536)%Z /\ Forall2 (frame_in sigs f) frs ifs.

  Lemma stacked_live f frs ifs : Forall2 (frame_in sigs f) frs ifs -> forall p, stacked frs p -> p = live (map if_type ifs).
  Proof.
    induction 1 as [|[[ft q] qt] ifr frs ifs H F IH]; intros p S; cbn [stacked] in S; [exact S|]. destruct S as [[_ ->] S].
    cbn [map live]. rewrite (IH q S). pose proof (fi_type H) as E. cbn [fst] in E. rewrite <- E. unfold frame_bytes, slots. lia.
  Qed.
  Lemma as_initial p f : p = p0 -> as_states [] [] (as_start p mx f).
  Proof using Pages. clear Big N.
    intros ->. exists 0%Z, 0%Z, f. split; [unfold as_start, AsRun.AS; now rewrite Z.add_0_r|]. split; [reflexivity|].
    pose proof (@most_bounds p0 mx Pages). split; [lia|]. split; [lia|constructor].
  Qed.

  Lemma as_enter frs ifs ft args s : as_states frs ifs s -> In ft sigs -> numeric_sig ft = true -> vals_ok (ft_in ft) args = true ->
    (live (map if_type ifs) + frame_bytes ft <= as_room)%Z ->
    exists frs' s', perform_step lc (EEnter ft args) frs s = Ok ([], frs', s') /\
      as_states frs' (IF ft (repeat None (List.length (ft_out ft))) (map Some args) :: ifs) s'.
  Proof.
    intros (p & t & f & -> & S & T & P & F) I Nm V Fit. pose proof (stacked_live F _ S) as Lv. pose proof (stacked_pos _ _ S) as Pp.
    pose proof (@most_bounds p0 mx Pages) as M. pose proof (slots_pos ft) as Sp. unfold as_room in Fit.
    assert (Fb : frame_bytes ft = (12 * slots ft)%Z) by reflexivity. rewrite <- Lv, Fb in Fit.
    pose proof (@vals_ok_len _ _ V) as La. destruct (num_sig _ Nm) as [_ Ni].
    cbn [perform_step]. rewrite (@as_alloc_run p0 mx Pages N Big sigs ft I Nm args p t f V Pp T) by lia. cbn [rbind pointer rget vi32].
    set (t1 := pages_for (p + 8 * slots ft) t). destruct (@pages_most p0 mx (p + 8 * slots ft) t T) as [T1 T1']; [lia|]. fold t1 in T1, T1'.
    set (f1 := write_vals f p (Z.of_nat (List.length (ft_out ft))) args).
    rewrite (@as_alloc_types_run p0 mx Pages N Big sigs ft I Nm (p + 8 * slots ft) t1 f1) by lia. cbn [rbind pointer rget vi32].
    set (t2 := pages_for (p + 8 * slots ft + 4 * slots ft) t1). destruct (@pages_most p0 mx (p + 8 * slots ft + 4 * slots ft) t1) as [T2 T2']; [lia|lia|]. fold t2 in T2, T2'.
    pose proof (pages_enough (p + 8 * slots ft + 4 * slots ft) t1) as Pe. fold t2 in Pe.
    set (ts := map runtime_enum_value (types_of ft)). assert (Lt : Z.of_nat (List.length ts) = slots ft) by (unfold ts; rewrite map_length; apply types_len).
    set (f2 := write_types f1 (p + 8 * slots ft) 0 ts).
    assert (Lr : (Z.of_nat (List.length (ft_out ft)) + Z.of_nat (List.length args) = slots ft)%Z) by (unfold slots; lia).
    assert (O1 : forall i, (i < p + 8 * slots ft)%Z -> f2 i = f1 i) by (intros i Hi; apply write_types_other; lia).
    assert (O0 : forall i, (i < p)%Z -> f1 i = f i) by (intros i Hi; apply write_vals_other; lia).
    eexists _, _. split; [reflexivity|]. exists (p + 8 * slots ft + 4 * slots ft)%Z, t2, f2. split; [reflexivity|].
    split; [cbn [stacked]; split; [lia|exact S]|]. split; [lia|]. split; [exact Pe|]. constructor.
    - apply frame_in_fresh; auto; try lia.
      + intros j v E. pose proof (@write_vals_holds p args f (Z.of_nat (List.length (ft_out ft))) j v (@vals_ranged _ _ Ni V) E) as W. fold f1 in W.
        assert (j < List.length args) by (apply nth_error_Some; congruence).
        erewrite le_read_same; [exact W|]. intros i Hi. change (Z.of_nat 8) with 8%Z in Hi. apply O1. lia.
      + intros k u E. unfold f2, ts. pose proof (@write_types_read f1 (p + 8 * slots ft) 0 (map runtime_enum_value (types_of ft)) k (runtime_enum_value u)) as W.
        rewrite Z.add_0_l in W. apply W; [lia|now rewrite nth_error_map, E|]. destruct u as [[]|[]]; cbn; lia.
    - eapply frames_ext; [|exact F]. intros i (b & n & Ib & Bb). pose proof (stacked_blocks _ _ S _ Ib) as X. cbn [fst snd] in X.
      rewrite O1 by lia. apply O0. lia.
  Qed.
  Lemma as_leave frs ifs ifr s : as_states frs (ifr :: ifs) s ->
    exists frs' s', perform_step lc ELeave frs s = Ok ([], frs', s') /\ as_states frs' ifs s'.
  Proof.
    intros (p & t & f & -> & S & T & P & F). pose proof (@most_bounds p0 mx Pages) as M.
    inversion F as [|[[ft q] qt] ? frs0 ? Hf F0]; subst. pose proof (fi_type Hf) as E. cbn [fst] in E. pose proof (fi_in Hf) as I. pose proof (fi_num Hf) as Nm.
    rewrite <- E in I, Nm. cbn [stacked] in S. destruct S as [[-> ->] S]. pose proof (stacked_pos _ _ S) as Pq. pose proof (slots_pos ft) as Sp.
    cbn [perform_step]. rewrite (@as_free_run p0 mx Pages N sigs ft I Nm) by lia. cbn [rbind].
    rewrite (@as_free_types_run p0 mx Pages N sigs ft I Nm) by lia. cbn [rbind app].
    eexists _, _. split; [reflexivity|]. exists (q + 12 * slots ft - 8 * slots ft - 4 * slots ft)%Z, t, f. split; [reflexivity|].
    replace (q + 12 * slots ft - 8 * slots ft - 4 * slots ft)%Z with q by lia. split; [exact S|]. split; [exact T|]. split; [lia|exact F0].
  Qed.
  Lemma frame_mem frs p d ft q qt f ifr sd i t : stacked frs p -> nth_error frs d = Some (ft, q, qt) -> frame_in sigs f (ft, q, qt) ifr ->
    i < List.length (side_types ft sd) -> (p <= t * 65536)%Z -> (0 <= q /\ 0 <= slot_of ft sd i < slots ft /\ q + slot_of ft sd i * 8 + 8 <= t * 65536)%Z.
  Proof.
    intros S E Hf Li P. destruct (@stacked_at frs p d ft q qt S E) as (Q & _ & B). pose proof (slot_lt ft sd Li) as Lt. assert (0 <= slot_of ft sd i)%Z by (unfold slot_of; lia).
    pose proof (slots_pos ft). lia.
  Qed.
  Theorem as_implements : implements sigs lc as_states as_room True.
  Proof.
    pose proof (@most_bounds p0 mx Pages) as Mb. constructor.
    - intros e frs ifs obs ifs' s St Sx En. destruct e as [ft args| |an d sd i v|an d sd i|d vs|d k]; cbn [ideal_step] in Sx.
      + destruct (numeric_sig ft && vals_ok (ft_in ft) args) eqn:G; [|discriminate]. apply andb_true_iff in G. destruct G as [Nm V].
        injection Sx as <- <-. destruct (En ft (or_introl eq_refl)) as [I Fit].
        destruct (@as_enter frs ifs ft args s St I Nm V Fit) as (frs' & s' & E & St'). exists [], frs', s'. split; [exact E|]. split; [constructor|exact St'].
      + destruct ifs as [|ifr ifs]; [discriminate|]. injection Sx as <- <-.
        destruct (@as_leave frs ifs ifr s St) as (frs' & s' & E & St').
        exists [], frs', s'. split; [exact E|]. split; [constructor|exact St'].
      + destruct (nth_error ifs d) as [ifr|] eqn:Ed; [|discriminate].
        destruct (ok_for (side_types (if_type ifr) sd) i v) eqn:O; [|discriminate]. injection Sx as <- <-.
        destruct St as (p & t & f & -> & S & T & P & F). destruct (frames_at d F Ed) as ([[ft q] qt] & Efr & Hf).
        pose proof (fi_type Hf) as E. cbn [fst] in E. subst ft. pose proof (fi_in Hf) as I. pose proof (fi_num Hf) as C.
        unfold ok_for in O. destruct (nth_error (side_types (if_type ifr) sd) i) as [ty|] eqn:Et; [|discriminate].
        destruct (@ok_val _ _ O) as [Tv Rv]. destruct (@num_side _ sd i _ C Et) as (n & ->).
        assert (Li : i < List.length (side_types (if_type ifr) sd)) by (apply nth_error_Some; congruence).
        destruct (@frame_mem frs p d _ q qt f ifr sd i t S Efr Hf Li P) as (Q & Sl & B).
        set (f' := le_write f (q + slot_of (if_type ifr) sd i * 8) (width v) (num_bits v)). pose proof (width_le v) as Wv.
        exists [], frs, (AS p t f'). split; [|split; [constructor|]].
        * cbn [perform_step]. rewrite Efr. unfold side_type. rewrite Et. cbn [rget rbind]. destruct an.
          -- rewrite number_slot. rewrite (@as_analysis_store p0 mx Pages N sigs q _ p t f n v Tv) by lia. reflexivity.
          -- rewrite (@as_store_run p0 mx Pages N sigs _ I C q p t f sd i n v Et Tv) by lia. reflexivity.
        * exists p, t, f'. split; [reflexivity|]. split; [exact S|]. split; [exact T|]. split; [exact P|].
          apply (@frames_set sigs f f' frs ifs d _ ifr _ (stacked_apart _ _ S) F Ed Efr).
          -- intros j Hj. unfold f'. apply le_write_other. destruct (Z.lt_ge_cases j (q + slot_of (if_type ifr) sd i * 8)) as [L|L]; [now left|right].
             destruct (Z.lt_ge_cases j (q + slot_of (if_type ifr) sd i * 8 + 8)) as [L'|L']; [|lia]. exfalso. apply Hj.
             exists q, (8 * slots (if_type ifr))%Z. split; [apply values_block; lia|lia].
          -- apply (@frame_in_store sigs 0%Z f f' (if_type ifr, q, qt) ifr sd i (TNum n) v Hf Et Tv Rv).
             ++ exact (@frame_apart frs d _ (stacked_apart _ _ S) Efr).
             ++ cbn [fst snd]. apply written_holds; [exact Rv|eauto].
             ++ cbn [fst snd]. intros j Hj. unfold f'. apply le_write_other. lia.
      + destruct (nth_error ifs d) as [ifr|] eqn:Ed; [|discriminate].
        destruct (nth_error (side_of sd ifr) i) as [o|] eqn:O; [|discriminate]. injection Sx as <- <-.
        pose proof St as (p & t & f & -> & S & T & P & F). destruct (frames_at d F Ed) as ([[ft q] qt] & Efr & Hf).
        pose proof (fi_type Hf) as E. cbn [fst] in E. subst ft. pose proof (fi_in Hf) as I. pose proof (fi_num Hf) as C.
        assert (Li : i < List.length (side_types (if_type ifr) sd)).
        { rewrite <- (side_len_in sd Hf). apply nth_error_Some. congruence. }
        destruct (nth_error (side_types (if_type ifr) sd) i) as [ty|] eqn:Et; [|apply nth_error_None in Et; lia].
        destruct (@num_side _ sd i _ C Et) as (n & ->).
        destruct (@frame_mem frs p d _ q qt f ifr sd i t S Efr Hf Li P) as (Q & Sl & B).
        set (w := VNum n (le_read f (q + slot_of (if_type ifr) sd i * 8) 8 mod 2 ^ bits n)).
        exists [w], frs, (AS p t f). split; [|split; [|exact St]].
        * cbn [perform_step]. rewrite Efr. unfold side_type. rewrite Et. cbn [rget rbind]. destruct an.
          -- rewrite number_slot. rewrite (@as_analysis_load p0 mx Pages N sigs q _ p t f n) by lia. reflexivity.
          -- rewrite (@as_load_run p0 mx Pages N sigs _ I C q p t f sd i n Et) by lia. reflexivity.
        * constructor; [|constructor]. destruct o as [v|]; [|exact Logic.I]. cbn [sees].
          rewrite <- (@side_slot_in sigs f _ ifr sd i Hf Li) in O.
          destruct (fi_typed Hf _ O) as (t' & Nt & Tv & Rv). rewrite types_side in Nt by exact Li. rewrite Et in Nt. injection Nt as <-.
          pose proof (fi_holds Hf _ O) as Hv. cbn [fst snd] in Hv.
          destruct v as [t' z|]; [|discriminate Tv]. injection Tv as ->. cbn [holds] in Hv. unfold w. f_equal. unfold slot_of. exact Hv.
      + destruct (nth_error ifs d) as [ifr|] eqn:Ed; [|discriminate].
        destruct (vals_ok (ft_out (if_type ifr)) vs) eqn:V; [|discriminate]. injection Sx as <- <-.
        destruct St as (p & t & f & -> & S & T & P & F). destruct (frames_at d F Ed) as ([[ft q] qt] & Efr & Hf).
        pose proof (fi_type Hf) as E. cbn [fst] in E. subst ft. pose proof (fi_in Hf) as I. pose proof (fi_num Hf) as C.
        destruct (num_sig _ C) as [No Ni]. pose proof (@vals_ok_len _ _ V) as Lv. set (ft := if_type ifr) in *.
        destruct (@stacked_at frs p d ft q qt S Efr) as (Q & Eqt & B).
        assert (Sr : (Z.of_nat (List.length (ft_out ft)) <= slots ft)%Z) by (unfold slots; lia). pose proof (slots_pos ft) as Sp.
        set (f' := write_vals f q 0 vs).
        exists [], frs, (AS p t f'). split; [|split; [constructor|]].
        * cbn [perform_step]. rewrite Efr. rewrite (@as_store_rets_run p0 mx Pages N sigs ft I C q vs p t f V) by lia. reflexivity.
        * exists p, t, f'. split; [reflexivity|]. split; [exact S|]. split; [exact T|]. split; [exact P|].
          apply (@frames_set sigs f f' frs ifs d _ ifr _ (stacked_apart _ _ S) F Ed Efr).
          -- intros j Hj. unfold f'. apply write_vals_other. rewrite Lv. destruct (Z.eq_dec (slots ft) 0) as [Z0|Nz]; [lia|].
             destruct (Z.lt_ge_cases j (q + 0 * 8)) as [L|L]; [now left|right].
             destruct (Z.lt_ge_cases j (q + (0 + Z.of_nat (List.length (ft_out ft))) * 8)) as [L'|L']; [|exact L'].
             exfalso. apply Hj. exists q, (8 * slots ft)%Z. split; [now apply values_block|lia].
          -- apply (@frame_in_results sigs 0%Z f f' (ft, q, qt) ifr vs Hf V).
             ++ exact (@frame_apart frs d _ (stacked_apart _ _ S) Efr).
             ++ cbn [fst snd]. intros j v Nv. pose proof (@write_vals_holds q vs f 0 j v (@vals_ranged _ _ No V) Nv) as W.
                rewrite Z.add_0_l in W. exact W.
             ++ cbn [fst snd]. intros j Hj. unfold f'. apply write_vals_other. lia.
      + destruct (nth_error ifs d) as [ifr|] eqn:Ed; [|discriminate].
        destruct (nth_error (ft_out (if_type ifr) ++ ft_in (if_type ifr)) k) as [ty|] eqn:Et; [|discriminate]. injection Sx as <- <-.
        pose proof St as (p & t & f & -> & S & T & P & F). destruct (frames_at d F Ed) as ([[ft q] qt] & Efr & Hf).
        pose proof (fi_type Hf) as E. cbn [fst] in E. subst ft.
        assert (Lk : k < List.length (types_of (if_type ifr))) by (apply nth_error_Some; unfold types_of; congruence).
        pose proof (types_len (if_type ifr)) as TL. destruct (@stacked_at frs p d _ q qt S Efr) as (Q & Eqt & B).
        exists [vi32 (type_code ty)], frs, (AS p t f). split; [|split; [|exact St]].
        * cbn [perform_step]. rewrite Efr.
          rewrite (@as_load_type_run p0 mx Pages N sigs qt (Z.of_nat k) p t f) by lia.
          cbn [rbind]. do 5 f_equal. pose proof (fi_types Hf k Et) as Hk. cbn [snd] in Hk. rewrite Hk. symmetry. apply type_code_eq.
        * constructor; [reflexivity|constructor].
    - intros frs ifs s d ifr (p & t & f & -> & S & T & P & F) Ed. destruct (frames_at d F Ed) as ([[ft q] qt] & Efr & Hf).
      pose proof (fi_type Hf) as E. cbn [fst] in E. subst ft. exists q, qt. split; [exact Efr|].
      split; [apply (fi_q Hf)|]. split; [apply (fi_qt Hf)|]. split; [apply (fi_in Hf)|]. split; [apply (fi_num Hf)|].
      split; [apply (fi_rets Hf)|]. split; [apply (fi_args Hf)|]. intros sd i v Ev.
      assert (Li : i < List.length (side_types (if_type ifr) sd)) by (rewrite <- (side_len_in sd Hf); apply nth_error_Some; congruence).
      rewrite <- (@side_slot_in sigs f _ ifr sd i Hf Li) in Ev. destruct (fi_typed Hf _ Ev) as (u & Nu & Tv & Rv).
      rewrite types_side in Nu by exact Li. eauto.
    - intros _ frs ifs s ft args (p & t & f & -> & S & T & P & F) I Nm V Sm Full.
      pose proof (stacked_live F _ S) as Lv. pose proof (stacked_pos _ _ S) as Pp. pose proof (slots_pos ft) as Sp.
      assert (Fb : frame_bytes ft = (12 * slots ft)%Z) by reflexivity. rewrite <- Lv, Fb in Full. unfold as_room in Full.
      change (Z.of_nat (List.length (ft_out ft) + List.length (ft_in ft))) with (slots ft) in Sm.
      destruct (Z.le_gt_cases (p + 8 * slots ft) (most * 65536)) as [Le|Gt].
      + right. rewrite (@as_alloc_run p0 mx Pages N Big sigs ft I Nm args p t f V Pp T Le).
        set (t1 := pages_for (p + 8 * slots ft) t). destruct (@pages_most p0 mx (p + 8 * slots ft) t T Le) as [T1 T1']. fold t1 in T1, T1'.
        destruct (@as_alloc_types_trap p0 mx Pages N Big sigs ft I Nm (p + 8 * slots ft) t1 (write_vals f p (Z.of_nat (List.length (ft_out ft))) args)) as (s' & Es); [lia|lia|lia|].
        exists p, (AS (p + 8 * slots ft) t1 (write_vals f p (Z.of_nat (List.length (ft_out ft))) args)), s'. split; [reflexivity|]. split; [lia|exact Es].
      + left. apply (@as_alloc_trap p0 mx Pages N Big sigs ft I Nm args p t f V T); lia.
  Qed.
End Lib.
