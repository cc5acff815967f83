(** Lemmas about the library as an agent. *)
From Verif Require Import Semantics Advice RsStdlib StackLib StackNames StackRun StackOps StackSpec StackHist System.
Local Open Scope string_scope.
Local Open Scope list_scope.
Local Open Scope res_scope.

Lemma vals_ok_intro t v : typeof v = t -> in_range v = true -> vals_ok [t] [v] = true.
Proof.
  intros <- R. unfold vals_ok. cbn [map forallb list_eqb]. rewrite R, (proj2 (valty_eqb_eq _ _) eq_refl). reflexivity.
Qed.
Lemma vals_ok_intro2 ts vs : List.length vs = List.length ts ->
  (forall i v t, nth_error vs i = Some v -> nth_error ts i = Some t -> typeof v = t /\ in_range v = true) -> vals_ok ts vs = true.
Proof.
  revert vs. induction ts as [|t ts IH]; intros [|v vs] Ln H; try discriminate; [reflexivity|].
  destruct (H 0 v t eq_refl eq_refl) as [A B]. injection Ln as Ln.
  assert (E : vals_ok ts vs = true) by (apply IH; [exact Ln|intros i; exact (H (S i))]).
  unfold vals_ok in *. cbn [map forallb list_eqb]. rewrite andb_true_iff in E. destruct E as [E1 E2].
  rewrite A, B, E1, E2, (proj2 (valty_eqb_eq _ _) eq_refl). reflexivity.
Qed.

(** ** The library of StackLib.v *)
Section Wat.
  Variable num1 : unop -> Z -> option Z.
  Variable num2 : binop -> Z -> Z -> option Z.
  Variable sigs : list functy.
  Variable N : nat.
  Hypothesis Big : (70010 <= Z.of_nat N)%Z.
  Notation library := (library sigs).
  Notation lcall := (wat_lib num1 num2 sigs N).
  Lemma library_live frs ifs p pg f : Inv sigs frs ifs p pg f -> p = live (map if_type ifs).
  Proof. intros (I & _). apply (inv_live num1 num2) in I. lia. Qed.

  (** One step of a history. *)
  Lemma wat_step e frs ifs obs ifs' l : library frs ifs l -> ideal_step e ifs = Some (obs, ifs') ->
    (forall ft, In ft (entered [e]) -> In ft sigs /\ (live (map if_type ifs) + frame_bytes ft <= limit)%Z) ->
    exists vs frs' l', perform_step lcall e frs l = Ok (vs, frs', l') /\
      Forall2 sees obs vs /\ library frs' ifs' l'.
  Proof.
    intros (p & pg & f & -> & I) E R. pose proof (library_live I) as Ep.
    assert (Eb : forall ft, (slots ft * 12 = frame_bytes ft)%Z) by (intros; unfold slots, frame_bytes; lia).
    destruct (@step_ok unit num1 num2 no_agent sigs N e frs ifs obs ifs' tt p pg f Big I E)
      as [(vs & frs' & p' & pg' & f' & Q & O & I')|(s & ft & args & _ & -> & Lt)].
    - intros ft Hft. destruct (R ft Hft) as [A B]. split; [exact A|]. right. rewrite Eb. lia.
    - exists vs, frs', (L tt p' pg' f'). split; [exact Q|]. split; [exact O|]. exists p', pg', f'. auto.
    - exfalso. destruct (R ft (or_introl eq_refl)) as [_ B]. rewrite Eb in Lt. lia.
  Qed.

  (** The frames of the library are those of the ideal. *)
  Lemma wat_at frs ifs l d ifr : library frs ifs l -> nth_error ifs d = Some ifr ->
    exists q qt, nth_error frs d = Some (if_type ifr, q, qt) /\ (0 <= q < 2 ^ 32)%Z /\ (0 <= qt < 2 ^ 32)%Z /\
      In (if_type ifr) sigs /\ numeric_sig (if_type ifr) = true /\
      List.length (if_rets ifr) = List.length (ft_out (if_type ifr)) /\
      List.length (if_args ifr) = List.length (ft_in (if_type ifr)) /\
      (forall sd i v, nth_error (side_of sd ifr) i = Some (Some v) ->
         exists t, nth_error (side_types (if_type ifr) sd) i = Some t /\ typeof v = t /\ in_range v = true).
  Proof.
    intros (p & pg & f & -> & I & Pg & Pp) E.
    destruct (@inv_at num1 num2 sigs f 0 frs ifs p d ifr I E) as ([[ft q] qt] & p' & Efr & P & F & Lb & Up & _).
    cbn [points] in P. destruct P as [-> [P1 P0]]. exists q, qt. split; [exact Efr|].
    pose proof (slots_pos (if_type ifr)) as Sp.
    assert (R : (0 <= q < 2 ^ 32 /\ 0 <= qt < 2 ^ 32)%Z).
    { destruct (Z.eq_dec (slots (if_type ifr)) 0) as [Z0|Nz].
      - destruct (P0 Z0) as [-> ->]. lia.
      - destruct (P1 Nz) as [-> ->]. lia. }
    destruct R as [R1 R2]. split; [exact R1|]. split; [exact R2|].
    split; [apply F|]. split; [apply F|]. split; [apply F|]. split; [apply F|].
    intros sd i v Nv. assert (Li : i < List.length (side_types (if_type ifr) sd)).
    { rewrite <- (side_len sd F). apply nth_error_Some. congruence. }
    rewrite <- (@side_slot num1 num2 sigs ifr sd i f p' F Li) in Nv.
    destruct (fo_typed F _ Nv) as (t & Nt & A & B). exists t. rewrite types_side in Nt by exact Li. auto.
  Qed.

  (** No space for the buffers. *)
  Lemma wat_full frs ifs l ft args : library frs ifs l -> In ft sigs -> numeric_sig ft = true -> vals_ok (ft_in ft) args = true ->
    (Z.of_nat (List.length (ft_out ft) + List.length (ft_in ft)) <= 8191)%Z -> (limit < live (map if_type ifs) + frame_bytes ft)%Z ->
    (exists l', lcall (op_name ft LAlloc) args l = Trap l') \/
    exists q l1 l', lcall (op_name ft LAlloc) args l = Ok ([vi32 q], l1) /\ (0 <= q < 2 ^ 32)%Z /\
      lcall (op_name ft LAllocTypes) [] l1 = Trap l'.
  Proof.
    intros (p & pg & g & -> & IV) In_ Nu Vs Sl R. pose proof (@library_live frs ifs p pg g IV) as Ep.
    assert (Eb : (slots ft * 12 = frame_bytes ft)%Z) by (unfold slots, frame_bytes; lia).
    assert (Es : slots ft = Z.of_nat (List.length (ft_out ft) + List.length (ft_in ft))) by (unfold slots; lia).
    destruct IV as (IV & Pg & Pp). pose proof (inv_le num1 num2 IV) as Lp. destruct (num_sig _ Nu) as [No Ni].
    assert (Mk : exists n, N = S (S (S (S n))) /\ enough n) by (exists (N - 4); split; [lia|unfold enough; lia]).
    destruct Mk as (n & EN & En). pose proof (slots_pos ft) as Sp.
    assert (Lim : (pg * 65536 <= limit)%Z) by (unfold limit; lia).
    assert (B8 : (p + slots ft * 8 < 2 ^ 32)%Z) by (unfold limit in *; lia).
    pose proof (@op_alloc unit num1 num2 no_agent sigs ft In_ n tt p pg g args En Lp Pg Pp Ni Vs B8) as A1.
    unfold lib_op in A1. rewrite <- EN in A1. unfold wat_lib. rewrite !(@names ft _ Nu), A1. clear A1.
    destruct (Z.leb_spec (p + slots ft * 8) limit) as [Fit|Not]; [right|left; eauto].
    do 2 eexists. eexists. split; [reflexivity|]. split; [destruct (slots ft =? 0)%Z; unfold limit in *; lia|].
    destruct (@alloc_pages p pg (slots ft * 8)) as [P1 P2]; try lia.
    pose proof (@op_alloc_types unit num1 num2 no_agent sigs ft In_ (S n) tt (p + slots ft * 8)%Z (pages_for (p + slots ft * 8) pg)
      (write_slots g p (Z.of_nat (List.length (ft_out ft))) (map num_bits args))) as A2.
    unfold lib_op in A2. rewrite <- EN in A2. rewrite A2; try assumption; try (unfold enough, limit in *; lia).
    destruct (Z.leb_spec (p + slots ft * 8 + slots ft * 4) limit) as [Fit'|Not']; [lia|]. reflexivity.
  Qed.
  Lemma wat_implements : implements sigs (wat_lib num1 num2 sigs N) library limit True.
  Proof. split; [exact wat_step|exact wat_at|intros _; exact wat_full]. Qed.
End Wat.

Section System.
  Context {Y : Type}.
  Variable sigs : list functy.
  Variable lc : lib_code.
  Variable library : lib_states.
  Variable limit : Z.
  Variable stops : Prop.
  Hypothesis IM : implements sigs lc library limit stops.
  Notation store := (store (sys Y)).
  Notation lib_agent := (@lib_agent Y lc).
  Notation lcall := lc.
  Lemma lib_step e frs ifs obs ifs' l : library frs ifs l -> ideal_step e ifs = Some (obs, ifs') ->
    (forall ft, In ft (entered [e]) -> In ft sigs /\ (live (map if_type ifs) + frame_bytes ft <= limit)%Z) ->
    exists vs frs' l', perform_step lc e frs l = Ok (vs, frs', l') /\ Forall2 sees obs vs /\ library frs' ifs' l'.
  Proof. exact (@im_step _ _ _ _ _ IM e frs ifs obs ifs' l). Qed.
  Lemma lib_frame frs ifs l d ifr : library frs ifs l -> nth_error ifs d = Some ifr ->
    exists q qt, nth_error frs d = Some (if_type ifr, q, qt) /\ (0 <= q < 2 ^ 32)%Z /\ (0 <= qt < 2 ^ 32)%Z /\
      In (if_type ifr) sigs /\ numeric_sig (if_type ifr) = true /\
      List.length (if_rets ifr) = List.length (ft_out (if_type ifr)) /\
      List.length (if_args ifr) = List.length (ft_in (if_type ifr)) /\
      (forall sd i v, nth_error (side_of sd ifr) i = Some (Some v) ->
         exists t, nth_error (side_types (if_type ifr) sd) i = Some t /\ typeof v = t /\ in_range v = true).
  Proof. exact (@im_at _ _ _ _ _ IM frs ifs l d ifr). Qed.

  Lemma with_lib_twice (s : store) l l' : with_lib (with_lib s l) l' = with_lib s l'.
  Proof. reflexivity. Qed.
  Lemma with_lib_same (s : store) : with_lib s (fst (st_x s)) = s.
  Proof. destruct s as [a b c d e [x y]]. reflexivity. Qed.
  Lemma with_lib_x (s : store) l : fst (st_x (with_lib s l)) = l.
  Proof. reflexivity. Qed.

  Lemma run_lib_agent export name args (s : store) :
    run_x export (lib_agent name args) s =
    match lcall name args (fst (st_x s)) with
    | Ok (vs, l) => Ok (vs, with_lib s l)
    | Trap l => Trap (with_lib s l)
    | Stuck | Oof => Stuck
    end.
  Proof.
    unfold System.lib_agent. cbn [run_x]. destruct (lcall name args (fst (st_x s))) as [[vs l]|l| |]; reflexivity.
  Qed.

  (** ** The program's calls *)
  (** [C] is any interpretation of calls that hands those of the library to it. *)
  Variable export : string -> list val -> store -> res store (list val * store).
  Variable C : callee -> list val -> store -> res store (list val * store).
  Hypothesis CL : forall ft o args s, fits_args (libop_type ft o) args = true ->
    C (CImport (libop_type ft o) stack_ns (op_name ft o)) args s =
    let* (rs, s') := run_x export (lib_agent (op_name ft o) args) s in
    if vals_ok (ft_out (libop_type ft o)) rs then Ok (rs, s') else Stuck.
  Notation plib := (Advice.lib C).

  Lemma lib_call_ok ft o args s vs l :
    fits_args (libop_type ft o) args = true -> lcall (op_name ft o) args (fst (st_x s)) = Ok (vs, l) ->
    vals_ok (ft_out (libop_type ft o)) vs = true ->
    plib ft o args s = Ok (vs, with_lib s l).
  Proof.
    intros F E V. unfold Advice.lib. rewrite (@CL ft o args s F), run_lib_agent, E. cbn [rbind]. now rewrite V.
  Qed.

  Definition fresh (ft : functy) (args : list val) : iframe := IF ft (repeat None (List.length (ft_out ft))) (map Some args).

  Lemma pointer_Some vs q : pointer vs = Some q -> vs = [vi32 q].
  Proof. destruct vs as [|[[]|] [|]]; try discriminate. intros [= ->]. reflexivity. Qed.
  Lemma vi32_ok q : (0 <= q < 2 ^ 32)%Z -> vals_ok [t_i32] [vi32 q] = true.
  Proof. intros R. apply vals_ok_intro; [reflexivity|]. cbn [in_range vi32 bits]. lia. Qed.

  (** Entering an intercepted function. *)
  Lemma enter_ok frs ifs s ft args : library frs ifs (fst (st_x s)) -> In ft sigs -> numeric_sig ft = true ->
    vals_ok (ft_in ft) args = true -> (live (map if_type ifs) + frame_bytes ft <= limit)%Z ->
    exists q qt l1 l2,
      plib ft LAlloc args s = Ok ([vi32 q], with_lib s l1) /\
      plib ft LAllocTypes [] (with_lib s l1) = Ok ([vi32 qt], with_lib s l2) /\
      library ((ft, q, qt) :: frs) (fresh ft args :: ifs) l2.
  Proof.
    intros I In_ Nu V R.
    destruct (@lib_step (EEnter ft args) frs ifs [] (fresh ft args :: ifs) _ I) as (vs & frs' & l' & E & O & I').
    - cbn [ideal_step]. now rewrite Nu, V.
    - intros ft' [<-|[]]. auto.
    - cbn [perform_step] in E.
      destruct (lcall (op_name ft LAlloc) args (fst (st_x s))) as [[v1 l1]|?| |] eqn:E1; try discriminate. cbn [rbind] in E.
      destruct (pointer v1) as [q|] eqn:P1; [|discriminate]. cbn [rget rbind] in E.
      destruct (lcall (op_name ft LAllocTypes) [] l1) as [[v2 l2]|?| |] eqn:E2; try discriminate. cbn [rbind] in E.
      destruct (pointer v2) as [qt|] eqn:P2; [|discriminate]. cbn [rget rbind] in E. injection E as <- <- <-.
      apply pointer_Some in P1, P2. subst v1 v2.
      destruct (@lib_frame _ _ _ 0 _ I' eq_refl) as (q' & qt' & [= <- <-] & Rq & Rt & _).
      exists q, qt, l1, l2. split; [|split; [|exact I']].
      + apply lib_call_ok; [|exact E1|now apply vi32_ok].
        unfold fits_args. cbn [libop_type ft_in]. apply Nat.eqb_eq. now apply vals_ok_len.
      + apply (@lib_call_ok ft LAllocTypes [] (with_lib s l1)); [reflexivity|exact E2|now apply vi32_ok].
  Qed.

  (** Reading back slots. *)
  Lemma load_ok frs ifs s d ifr q qt sd i v : library frs ifs (fst (st_x s)) -> nth_error ifs d = Some ifr ->
    nth_error frs d = Some (if_type ifr, q, qt) -> nth_error (side_of sd ifr) i = Some (Some v) ->
    exists l, plib (if_type ifr) (LLoad sd i) [vi32 q] s = Ok ([v], with_lib s l) /\ library frs ifs l.
  Proof.
    intros I Ed Ef Ev.
    destruct (@lib_frame _ _ _ d _ I Ed) as (q' & qt' & Ef' & Rq & Rt & In_ & Nu & Lr & La & Ty).
    destruct (Ty _ _ _ Ev) as (t & Et & Tv & Rv).
    destruct (@lib_step (ELoad false d sd i) frs ifs [Some v] ifs _ I) as (vs & frs' & l' & E & O & I').
    - cbn [ideal_step]. now rewrite Ed, Ev.
    - intros ft' [].
    - cbn [perform_step] in E. unfold frame in *. rewrite Ef in E.
      destruct (@num_side _ _ _ _ Nu Et) as (nt & ->). unfold side_type in E. rewrite Et in E. cbn [rget rbind] in E.
      destruct (lcall (op_name (if_type ifr) (LLoad sd i)) [vi32 q] (fst (st_x s))) as [[v1 l1]|?| |] eqn:E1; try discriminate.
      cbn [rbind] in E. injection E as <- <- <-.
      inversion O as [|? w ? ? Sw O']; subst. inversion O'; subst. cbn [sees] in Sw. subst w.
      exists l1. split; [|exact I'].
      apply lib_call_ok; [destruct sd; reflexivity|exact E1|].
      destruct sd; cbn [libop_type ft_out side_types] in *; rewrite Et; now apply vals_ok_intro.
  Qed.

  Lemma loads_from frs ifs d ifr q qt sd vs : nth_error ifs d = Some ifr ->
    nth_error frs d = Some (if_type ifr, q, qt) ->
    forall k s, library frs ifs (fst (st_x s)) -> (forall i v, nth_error vs i = Some v -> nth_error (side_of sd ifr) (k + i) = Some (Some v)) ->
    exists l, load_all (plib (if_type ifr)) (map (LLoad sd) (seq k (List.length vs))) (vi32 q) s = Ok (vs, with_lib s l) /\
      library frs ifs l.
  Proof.
    intros Ed Ef. induction vs as [|v vs IH]; intros k s I H.
    - exists (fst (st_x s)). cbn. rewrite with_lib_same. auto.
    - cbn [List.length seq map load_all].
      destruct (@load_ok frs ifs s d ifr q qt sd k v I Ed Ef) as (l & E & I').
      { rewrite <- (H 0 v eq_refl). f_equal. lia. }
      rewrite E. cbn [rbind].
      destruct (IH (S k) (with_lib s l)) as (l' & E' & I'').
      { exact I'. }
      { intros i w Ew. rewrite <- (H (S i) w Ew). f_equal. lia. }
      rewrite E'. cbn [rbind]. exists l'. auto.
  Qed.
  Lemma loads_ok frs ifs s d ifr q qt sd vs : library frs ifs (fst (st_x s)) -> nth_error ifs d = Some ifr ->
    nth_error frs d = Some (if_type ifr, q, qt) -> side_of sd ifr = map Some vs ->
    exists l, load_all (plib (if_type ifr)) (side_ops (LLoad sd) (side_types (if_type ifr) sd)) (vi32 q) s = Ok (vs, with_lib s l) /\
      library frs ifs l.
  Proof.
    intros I Ed Ef Ev. unfold side_ops.
    destruct (@lib_frame _ _ _ d _ I Ed) as (_ & _ & _ & _ & _ & _ & _ & Lr & La & _).
    assert (Ln : List.length (side_types (if_type ifr) sd) = List.length vs).
    { rewrite <- (map_length Some vs), <- Ev. destruct sd; cbn [side_types side_of]; congruence. }
    rewrite Ln. apply (@loads_from frs ifs d ifr q qt sd vs Ed Ef 0 s I).
    intros i v E. rewrite Ev, nth_error_map. cbn [plus]. now rewrite E.
  Qed.

  (** Writing the results. *)
  Lemma results_ok frs ifs s d ifr q qt rs : library frs ifs (fst (st_x s)) -> nth_error ifs d = Some ifr ->
    nth_error frs d = Some (if_type ifr, q, qt) -> vals_ok (ft_out (if_type ifr)) rs = true ->
    exists l, plib (if_type ifr) LStoreRets (vi32 q :: rs) s = Ok ([], with_lib s l) /\
      library frs (set_nth d (IF (if_type ifr) (map Some rs) (if_args ifr)) ifs) l.
  Proof.
    intros I Ed Ef V.
    destruct (@lib_step (EResults d rs) frs ifs [] (set_nth d (IF (if_type ifr) (map Some rs) (if_args ifr)) ifs) _ I) as (vs & frs' & l' & E & O & I').
    - cbn [ideal_step]. now rewrite Ed, V.
    - intros ft' [].
    - cbn [perform_step] in E. unfold frame in *. rewrite Ef in E.
      destruct (lcall (op_name (if_type ifr) LStoreRets) (vi32 q :: rs) (fst (st_x s))) as [[v1 l1]|?| |] eqn:E1; try discriminate.
      cbn [rbind] in E. injection E as <- <- <-. exists l1. split; [|exact I'].
      inversion O; subst v1. apply lib_call_ok; [|exact E1|reflexivity].
      unfold fits_args. cbn [libop_type ft_in List.length]. apply Nat.eqb_eq. f_equal. now apply vals_ok_len.
  Qed.

  (** Leaving. *)
  Lemma leave_ok frs ifs s ifr q qt : library ((if_type ifr, q, qt) :: frs) (ifr :: ifs) (fst (st_x s)) ->
    exists l1 l2, plib (if_type ifr) LFree [vi32 q] s = Ok ([], with_lib s l1) /\
      plib (if_type ifr) LFreeTypes [vi32 qt] (with_lib s l1) = Ok ([], with_lib s l2) /\ library frs ifs l2.
  Proof.
    intros I.
    destruct (@lib_step ELeave ((if_type ifr, q, qt) :: frs) (ifr :: ifs) [] ifs _ I) as (vs & frs' & l' & E & O & I').
    - reflexivity.
    - intros ft' [].
    - cbn [perform_step] in E.
      destruct (lcall (op_name (if_type ifr) LFree) [vi32 q] (fst (st_x s))) as [[v1 l1]|?| |] eqn:E1; try discriminate.
      cbn [rbind] in E.
      destruct (lcall (op_name (if_type ifr) LFreeTypes) [vi32 qt] l1) as [[v2 l2]|?| |] eqn:E2; try discriminate.
      cbn [rbind] in E. injection E as <- <- <-. destruct v1, v2; try (inversion O; fail).
      exists l1, l2. split; [|split; [|exact I']].
      + now apply lib_call_ok.
      + now apply (@lib_call_ok (if_type ifr) LFreeTypes [vi32 qt] (with_lib s l1)).
  Qed.

  (** ** The protocol of interception *)
  (** What the analysis is told about the call. *)
  Definition described (k f : nat) (fn : func) (q qt : Z) : list val :=
    [i32n k; i32n f; i32n (List.length (ft_in (fn_type fn))); i32n (List.length (ft_out (fn_type fn)));
     vi32 q; vi32 qt; vi32 (if has_code fn then 0 else 1)].
  (** The analysis, told so. *)
  Variable told : list val -> store -> res store (list val * store).
  Hypothesis CA : forall args s, List.length args = 7 ->
    Advice.analysis C generic_apply args s = let* (rs, s') := told args s in if vals_ok [] rs then Ok (rs, s') else Stuck.

  Lemma intercepted f fn k args s frs ifs :
    library frs ifs (fst (st_x s)) -> In (fn_type fn) sigs -> numeric_sig (fn_type fn) = true ->
    vals_ok (ft_in (fn_type fn)) args = true -> (live (map if_type ifs) + frame_bytes (fn_type fn) <= limit)%Z ->
    exists q qt l,
      library ((fn_type fn, q, qt) :: frs) (fresh (fn_type fn) args :: ifs) l /\
      forall r, told (described k f fn q qt) (with_lib s l) = r ->
      match r with
      | Ok (vs, s2) => vs = [] -> forall ifs' rs args',
          library ((fn_type fn, q, qt) :: frs) (IF (fn_type fn) (map Some rs) args' :: ifs') (fst (st_x s2)) ->
          exists l3, intercepted_call C k f fn args s = Ok (rs, with_lib s2 l3) /\ library frs ifs' l3
      | Trap s2 => intercepted_call C k f fn args s = Trap s2
      | Stuck => intercepted_call C k f fn args s = Stuck
      | Oof => intercepted_call C k f fn args s = Oof
      end.
  Proof.
    intros I In_ Nu V R.
    destruct (@enter_ok frs ifs s (fn_type fn) args I In_ Nu V R) as (q & qt & l1 & l2 & E1 & E2 & I2).
    exists q, qt, l2. split; [exact I2|]. intros r Er.
    assert (Q : intercepted_call C k f fn args s =
      let* (rs, s') := told (described k f fn q qt) (with_lib s l2) in
      let* (_, s3) := (if vals_ok [] rs then Ok (rs, s') else Stuck) in
      let* (rs, s4) := load_all (plib (fn_type fn)) (side_ops (LLoad SRet) (ft_out (fn_type fn))) (vi32 q) s3 in
      let* (_, s5) := plib (fn_type fn) LFree [vi32 q] s4 in
      let* (_, s6) := plib (fn_type fn) LFreeTypes [vi32 qt] s5 in Ok (rs, s6)).
    { unfold intercepted_call. rewrite E1. cbn [rbind]. rewrite E2. cbn [rbind].
      rewrite CA by reflexivity. cbn [app hd_error rget rbind].
      unfold described. destruct (told _ (with_lib s l2)) as [[vs s']|?| |]; cbn [rbind]; try reflexivity. }
    rewrite Er in Q. destruct r as [[vs s2]|s2| |]; [|exact Q..].
    intros -> ifs' rs args' I'. cbn [rbind] in Q. change (vals_ok [] []) with true in Q. cbn iota in Q. cbn [rbind] in Q.
    destruct (@loads_ok _ _ s2 0 _ q qt SRet rs I' eq_refl eq_refl eq_refl) as (l3 & E3 & I3).
    cbn [if_type side_types] in E3. rewrite E3 in Q. cbn [rbind] in Q.
    destruct (@leave_ok frs ifs' (with_lib s2 l3) (IF (fn_type fn) (map Some rs) args') q qt I3) as (l4 & l5 & E4 & E5 & I5).
    cbn [if_type] in E4, E5. rewrite E4 in Q. cbn [rbind] in Q. rewrite E5 in Q. cbn [rbind] in Q.
    exists l5. auto.
  Qed.

  Lemma resumed f fn d ifr q qt vs s frs ifs :
    library frs ifs (fst (st_x s)) -> nth_error ifs d = Some ifr -> nth_error frs d = Some (if_type ifr, q, qt) ->
    if_type ifr = fn_type fn -> if_args ifr = map Some vs ->
    exists l, library frs ifs l /\
      forall r, C (CBase f) vs (with_lib s l) = r ->
      match r with
      | Ok (rs, s2) => forall ifs' ifr',
          library frs ifs' (fst (st_x s2)) -> nth_error ifs' d = Some ifr' -> if_type ifr' = fn_type fn ->
          vals_ok (ft_out (fn_type fn)) rs = true ->
          exists l3, resume C f fn (vi32 q) s = Ok ([], with_lib s2 l3) /\
            library frs (set_nth d (IF (fn_type fn) (map Some rs) (if_args ifr')) ifs') l3
      | Trap s2 => resume C f fn (vi32 q) s = Trap s2
      | Stuck => resume C f fn (vi32 q) s = Stuck
      | Oof => resume C f fn (vi32 q) s = Oof
      end.
  Proof.
    intros I Ed Eq Et Ea.
    destruct (@loads_ok frs ifs s d ifr q qt SArg vs I Ed Eq Ea) as (l & E1 & I1).
    exists l. split; [exact I1|]. intros r Er.
    assert (Q : resume C f fn (vi32 q) s =
      let* (rs, s2) := C (CBase f) vs (with_lib s l) in
      let* (_, s3) := plib (fn_type fn) LStoreRets (vi32 q :: rs) s2 in
      Ok ([], s3)).
    { unfold resume. rewrite <- Et.
      change (side_types (if_type ifr) SArg) with (ft_in (if_type ifr)) in E1. rewrite E1. reflexivity. }
    rewrite Er in Q. destruct r as [[rs s2]|s2| |]; [|exact Q..].
    intros ifs' ifr' I' Ed' Et' V. cbn [rbind] in Q.
    assert (Eq' : nth_error frs d = Some (if_type ifr', q, qt)) by (rewrite Et', <- Et; exact Eq).
    rewrite <- Et' in V. destruct (@results_ok frs ifs' s2 d ifr' q qt rs I' Ed' Eq' V) as (l3 & E3 & I3).
    rewrite Et' in E3, I3. rewrite E3 in Q. cbn [rbind] in Q. exists l3. auto.
  Qed.
End System.
