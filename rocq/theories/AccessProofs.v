(** The analysis library's accessors over the generated buffer library. *)
From Verif Require Import Semantics RsStdlib StackLib StackNames StackRun StackOps StackSpec StackHist System SystemProofs.
Local Open Scope string_scope.
Local Open Scope list_scope.
Local Open Scope res_scope.

Lemma run_x_bind {X} (export : string -> list val -> store X -> res (store X) (list val * store X)) p k s :
  run_x export (xbind p k) s = let* (vs, s') := run_x export p s in run_x export (k vs) s'.
Proof.
  revert s. induction p as [vs| | |f IH|x m g p IH|name args f IH]; intros s; cbn [xbind run_x]; try reflexivity.
  - apply IH.
  - apply IH.
  - destruct (export name args s) as [[vs s']|s'| |]; cbn [rbind]; auto.
Qed.

(** The types of the slots as the analysis knows them. *)
Fixpoint nums (ts : list valty) : list numty :=
  match ts with [] => [] | TNum t :: r => t :: nums r | TRef _ :: r => nums r end.
Lemma nums_numeric ts : numeric ts -> ts = map TNum (nums ts).
Proof.
  unfold numeric. induction ts as [|[t|r] ts IH]; intros H; cbn in *; [reflexivity| |discriminate]. f_equal. auto.
Qed.

(** What [RuntimeValues::new] returns for a buffer [q] of signature [ft]. *)
Definition values_of (ft : functy) (q : Z) : runtime_values :=
  RV (Z.of_nat (List.length (ft_in ft))) (Z.of_nat (List.length (ft_out ft))) q (nums (ft_out ft ++ ft_in ft)).

Section Access.
  Context {Y : Type}.
  Variable sigs : list functy.
  Variable lc : lib_code.
  Variable library : lib_states.
  Variable limit : Z.
  Variable stops : Prop.
  Hypothesis IM : implements sigs lc library limit stops.
  Notation store := (store (sys Y)).
  Notation agent := (@lib_agent Y lc).
  Notation lcall := lc.
  Variable export : string -> list val -> store -> res store (list val * store).
  Notation run := (run_x export).

  Section Frame.
    Variables (frs : list frame) (ifs : list iframe) (d : nat) (ifr : iframe) (q qt : Z).
    Notation ft := (if_type ifr).
    Hypothesis Ed : nth_error ifs d = Some ifr.
    Hypothesis Ef : nth_error frs d = Some (ft, q, qt).

    Lemma type_ok s k t : library frs ifs (fst (st_x s)) -> nth_error (ft_out ft ++ ft_in ft) k = Some t ->
      exists l, run (agent "wastrumentation_stack_load_type" [vi32 qt; vi32 (Z.of_nat k)]) s
                = Ok ([vi32 (type_code t)], with_lib s l) /\ library frs ifs l.
    Proof.
      intros I Et. destruct (@lib_step sigs lc library limit stops IM (EType d k) frs ifs [Some (vi32 (type_code t))] ifs _ I)
        as (vs & frs' & l & E & O & I').
      - cbn [ideal_step]. now rewrite Ed, Et.
      - intros ? [].
      - cbn [perform_step] in E. unfold frame in *. rewrite Ef in E. rewrite run_lib_agent.
        destruct (lcall "wastrumentation_stack_load_type" [vi32 qt; vi32 (Z.of_nat k)] (fst (st_x s))) as [[v1 l1]|?| |]; try discriminate.
        cbn [rbind] in E. injection E as <- <- <-. inversion O as [|? w ? ? Sw O']; subst. inversion O'; subst. cbn [sees] in Sw. subst w.
        exists l1. auto.
    Qed.

    Lemma load_types_ok ts : forall k acc s,
      (forall i t, nth_error ts i = Some t -> nth_error (ft_out ft ++ ft_in ft) (k + i) = Some (TNum t)) ->
      library frs ifs (fst (st_x s)) ->
      exists l, library frs ifs l /\ forall c,
        run (load_types agent (List.length ts) (Z.of_nat k) qt acc c) s = run (c (acc ++ ts)) (with_lib s l).
    Proof.
      induction ts as [|t ts IH]; intros k acc s H I.
      - exists (fst (st_x s)). split; [exact I|]. intros c. cbn. now rewrite app_nil_r, with_lib_same.
      - destruct (@type_ok s k (TNum t) I) as (l & E & I').
        { rewrite <- (H 0 t eq_refl). f_equal. lia. }
        destruct (IH (S k) (acc ++ [t]) (with_lib s l)) as (l' & I'' & E').
        { intros i u Eu. rewrite <- (H (S i) u Eu). f_equal. lia. }
        { exact I'. }
        exists l'. split; [exact I''|]. intros c. cbn [List.length load_types]. rewrite run_x_bind, E. cbn [rbind].
        assert (W : wasm_type_from (type_code (TNum t)) = Some t) by (destruct t; reflexivity). unfold vi32. rewrite W.
        replace (Z.of_nat k + 1)%Z with (Z.of_nat (S k)) by lia. rewrite E'.
        rewrite <- app_assoc. reflexivity.
    Qed.
    Lemma values_new s : numeric_sig ft = true -> library frs ifs (fst (st_x s)) ->
      exists l, library frs ifs l /\ forall c,
        run (runtime_values_new agent (Z.of_nat (List.length (ft_in ft))) (Z.of_nat (List.length (ft_out ft))) q qt c) s
        = run (c (values_of ft q)) (with_lib s l).
    Proof.
      intros Nu I. destruct (num_sig _ Nu) as [No Ni].
      assert (En : ft_out ft ++ ft_in ft = map TNum (nums (ft_out ft ++ ft_in ft))).
      { apply nums_numeric. unfold numeric in *. rewrite existsb_app, No, Ni. reflexivity. }
      destruct (@load_types_ok (nums (ft_out ft ++ ft_in ft)) 0 [] s) as (l & I' & E).
      - intros i t Et. rewrite En, nth_error_map. cbn [plus]. now rewrite Et.
      - exact I.
      - exists l. split; [exact I'|]. intros c. unfold runtime_values_new.
        replace (Z.to_nat (Z.of_nat (List.length (ft_in ft)) + Z.of_nat (List.length (ft_out ft)))) with (List.length (nums (ft_out ft ++ ft_in ft))).
        + exact (E _).
        + rewrite <- (map_length TNum), <- En, app_length. lia.
    Qed.

    (** *** Accessors, by side *)
    Definition get_ sd rv i : xprog (sys Y) := match sd with SArg => get_arg agent rv i | SRet => get_res agent rv i end.
    Definition set_ sd rv i v : xprog (sys Y) := match sd with SArg => set_arg agent rv i v | SRet => set_res agent rv i v end.
    Definition count sd : nat := List.length (side_types ft sd).

    Lemma slot_type sd i t : numeric_sig ft = true -> nth_error (side_types ft sd) i = Some (TNum t) ->
      nth_error (nums (ft_out ft ++ ft_in ft)) (Z.to_nat (number ft sd i)) = Some t.
    Proof.
      intros Nu E. destruct (num_sig _ Nu) as [No Ni].
      assert (En : ft_out ft ++ ft_in ft = map TNum (nums (ft_out ft ++ ft_in ft))).
      { apply nums_numeric. unfold numeric in *. rewrite existsb_app, No, Ni. reflexivity. }
      assert (Li : i < List.length (side_types ft sd)) by (apply nth_error_Some; congruence).
      assert (H : nth_error (ft_out ft ++ ft_in ft) (Z.to_nat (number ft sd i)) = Some (TNum t)).
      { destruct sd; cbn [number side_types] in *; rewrite Nat2Z.id.
        - now rewrite nth_error_app1.
        - rewrite nth_error_app2 by lia. rewrite <- E. f_equal. lia. }
      rewrite En, nth_error_map in H. destruct (nth_error (nums _) _); [|discriminate]. cbn in H. congruence.
    Qed.
    Lemma get_in sd i : i < count sd -> numeric_sig ft = true ->
      exists t, side_type ft sd i = Some t /\
        get_ sd (values_of ft q) (Z.of_nat i) = agent (stack_load_name t) [vi32 q; vi32 (number ft sd i)].
    Proof.
      intros Li Nu. unfold count in Li. destruct (nth_error (side_types ft sd) i) as [t|] eqn:Et; [|apply nth_error_None in Et; lia].
      destruct (@num_side _ _ _ _ Nu Et) as (n & ->). exists n. unfold side_type. rewrite Et. split; [reflexivity|].
      pose proof (@slot_type sd i n Nu Et) as St.
      destruct sd; cbn [get_ side_types number] in *; unfold get_arg, get_res, check_bounds, get_value, arg_base, res_base; cbn [rv_argc rv_resc rv_types rv_sigv values_of];
        (destruct (Z.ltb_spec (Z.of_nat i) 0); [lia|]); (destruct (Z.leb_spec (Z.of_nat (List.length (if_type ifr).(ft_out))) (Z.of_nat i)) || idtac);
        (destruct (Z.leb_spec (Z.of_nat (List.length (ft_in ft))) (Z.of_nat i)) || idtac); try lia.
      all: rewrite ?Z.add_0_l, <- ?Nat2Z.inj_add; now rewrite St.
    Qed.

    Lemma set_in sd i v : ok_for (side_types ft sd) i v = true -> numeric_sig ft = true ->
      exists t, side_type ft sd i = Some t /\
        set_ sd (values_of ft q) (Z.of_nat i) v = agent (stack_store_name t) [vi32 q; v; vi32 (number ft sd i)].
    Proof.
      unfold ok_for. intros Ok_ Nu. destruct (nth_error (side_types ft sd) i) as [t|] eqn:Et; [|discriminate].
      assert (Li : i < List.length (side_types ft sd)) by (apply nth_error_Some; congruence).
      destruct (@num_side _ _ _ _ Nu Et) as (n & ->). exists n. unfold side_type. rewrite Et. split; [reflexivity|].
      assert (Tv : exists z, v = VNum n z).
      { destruct v as [n' z|r z]; unfold vals_ok in Ok_; cbn [map list_eqb typeof] in Ok_.
        - destruct (valty_eqb (TNum n') (TNum n)) eqn:Ev.
          + apply valty_eqb_eq in Ev. injection Ev as ->. now exists z.
          + cbn in Ok_. discriminate.
        - destruct (valty_eqb (TRef r) (TNum n)) eqn:Ev.
          + apply valty_eqb_eq in Ev. discriminate.
          + cbn in Ok_. discriminate. }
      destruct Tv as (z & ->).
      destruct sd; cbn [set_ side_types number] in *; unfold set_arg, set_res, check_bounds, set_value, arg_base, res_base; cbn [rv_argc rv_resc rv_types rv_sigv values_of];
        (destruct (Z.ltb_spec (Z.of_nat i) 0); [lia|]); (destruct (Z.leb_spec (Z.of_nat (List.length (if_type ifr).(ft_out))) (Z.of_nat i)) || idtac);
        (destruct (Z.leb_spec (Z.of_nat (List.length (ft_in ft))) (Z.of_nat i)) || idtac); try lia.
      all: rewrite ?Z.add_0_l, <- ?Nat2Z.inj_add; reflexivity.
    Qed.

    Lemma read_raw sd i t o s : library frs ifs (fst (st_x s)) -> nth_error (side_of sd ifr) i = Some o ->
      side_type ft sd i = Some t ->
      exists v l, run (agent (stack_load_name t) [vi32 q; vi32 (number ft sd i)]) s = Ok ([v], with_lib s l) /\
        library frs ifs l /\ sees o v.
    Proof.
      intros I Eo St.
      destruct (@lib_step sigs lc library limit stops IM (ELoad true d sd i) frs ifs [o] ifs _ I)
        as (vs & frs' & l & E & O & I').
      - cbn [ideal_step]. now rewrite Ed, Eo.
      - intros ? [].
      - cbn [perform_step] in E. unfold frame in *. rewrite Ef, St in E. cbn [rget rbind] in E. rewrite run_lib_agent.
        destruct (lcall (stack_load_name t) [vi32 q; vi32 (number ft sd i)] (fst (st_x s))) as [[v1 l1]|?| |]; try discriminate.
        cbn [rbind] in E. injection E as <- <- <-. inversion O as [|? w ? ? Sw O']; subst. inversion O'; subst.
        exists w, l1. auto.
    Qed.
    Lemma read_ok sd i o s : library frs ifs (fst (st_x s)) -> nth_error (side_of sd ifr) i = Some o ->
      exists v l, run (get_ sd (values_of ft q) (Z.of_nat i)) s = Ok ([v], with_lib s l) /\ library frs ifs l /\ sees o v.
    Proof.
      intros I Eo.
      destruct (@lib_frame sigs lc library limit stops IM frs ifs _ d ifr I Ed) as (_ & _ & _ & _ & _ & _ & Nu & Lr & La & _).
      destruct (@get_in sd i) as (t & St & ->); [|exact Nu|now apply read_raw].
      assert (i < List.length (side_of sd ifr)) by (apply nth_error_Some; congruence).
      unfold count. destruct sd; cbn [side_of side_types] in *; lia.
    Qed.
    Lemma write_ok sd i v s : library frs ifs (fst (st_x s)) -> ok_for (side_types ft sd) i v = true ->
      exists l, run (set_ sd (values_of ft q) (Z.of_nat i) v) s = Ok ([], with_lib s l) /\
        library frs (set_nth d (set_slot sd i v ifr) ifs) l.
    Proof.
      intros I Ov.
      destruct (@lib_frame sigs lc library limit stops IM frs ifs _ d ifr I Ed) as (_ & _ & _ & _ & _ & _ & Nu & Lr & La & _).
      destruct (@set_in sd i v Ov Nu) as (t & St & ->).
      destruct (@lib_step sigs lc library limit stops IM (EStore true d sd i v) frs ifs [] (set_nth d (set_slot sd i v ifr) ifs) _ I)
        as (vs & frs' & l & E & O & I').
      - cbn [ideal_step]. now rewrite Ed, Ov.
      - intros ? [].
      - cbn [perform_step] in E. unfold frame in *. rewrite Ef, St in E. cbn [rget rbind] in E. rewrite run_lib_agent.
        destruct (lcall (stack_store_name t) [vi32 q; v; vi32 (number ft sd i)] (fst (st_x s))) as [[v1 l1]|?| |]; try discriminate.
        cbn [rbind] in E. injection E as <- <- <-. inversion O; subst. exists l1. auto.
    Qed.
    (** Iterators. *)
    Lemma iterate_ok sd os : forall k acc s, library frs ifs (fst (st_x s)) ->
      (forall i o, nth_error os i = Some o -> nth_error (side_of sd ifr) (k + i) = Some o) ->
      exists vs l, Forall2 sees os vs /\ library frs ifs l /\ forall c,
        run (RsStdlib.iterate agent (values_of ft q) (List.length os) (number ft sd k) acc c) s = run (c (acc ++ vs)) (with_lib s l).
    Proof.
      induction os as [|o os IH]; intros k acc s I H.
      - exists [], (fst (st_x s)). split; [constructor|]. split; [exact I|]. intros c. cbn. now rewrite app_nil_r, with_lib_same.
      - destruct (@lib_frame sigs lc library limit stops IM frs ifs _ d ifr I Ed) as (_ & _ & _ & _ & _ & _ & Nu & Lr & La & _).
        assert (Eo : nth_error (side_of sd ifr) k = Some o) by (rewrite <- (H 0 o eq_refl); f_equal; lia).
        assert (Lk : k < List.length (side_types ft sd)).
        { assert (k < List.length (side_of sd ifr)) by (apply nth_error_Some; congruence).
          destruct sd; cbn [side_of side_types] in *; lia. }
        destruct (nth_error (side_types ft sd) k) as [t|] eqn:Et; [|apply nth_error_None in Et; lia].
        destruct (@num_side _ _ _ _ Nu Et) as (n & ->).
        destruct (@read_raw sd k n o s I Eo) as (v & l & E & I' & Sv); [unfold side_type; now rewrite Et|].
        destruct (IH (S k) (acc ++ [v]) (with_lib s l)) as (vs & l' & Ss & I'' & E').
        { exact I'. }
        { intros i u Eu. rewrite <- (H (S i) u Eu). f_equal. lia. }
        exists (v :: vs), l'. split; [now constructor|]. split; [exact I''|]. intros c.
        cbn [List.length RsStdlib.iterate]. rewrite run_x_bind. unfold get_value.
        cbn [rv_types rv_sigv values_of]. rewrite (@slot_type sd k n Nu Et), E. cbn [rbind].
        replace (number ft sd k + 1)%Z with (number ft sd (S k)) by (destruct sd; cbn [number]; lia).
        rewrite E', <- app_assoc. reflexivity.
    Qed.
  End Frame.

  (** Writing all slots of a side, from the [k]-th on. *)
  Lemma set_nth_twice {A} d (a b : A) l : set_nth d a (set_nth d b l) = set_nth d a l.
  Proof. revert d. induction l as [|x l IH]; intros [|d]; cbn; f_equal; auto. Qed.
  Lemma set_nth_at {A} d (a b : A) l : nth_error l d = Some b -> nth_error (set_nth d a l) d = Some a.
  Proof. revert d. induction l as [|x l IH]; intros [|d]; cbn; try discriminate; auto. Qed.
  Lemma set_nth_self {A} d (a : A) l : nth_error l d = Some a -> set_nth d a l = l.
  Proof. revert d. induction l as [|x l IH]; intros [|d]; cbn; try discriminate; [intros [= ->]|intros H; f_equal]; auto. Qed.
  Lemma set_nth_split {A} d (a : A) l pre x post : l = pre ++ x :: post -> List.length pre = d -> set_nth d a l = pre ++ a :: post.
  Proof. intros -> <-. induction pre as [|y pre IH]; cbn; f_equal; auto. Qed.

  Definition with_side (sd : side) (os : list (option val)) (fr : iframe) : iframe :=
    match sd with SRet => IF (if_type fr) os (if_args fr) | SArg => IF (if_type fr) (if_rets fr) os end.

  (** The values [f] makes of [vs], the first being number [k]. *)
  Fixpoint updated (f : Z -> val -> val) (k : nat) (vs : list val) : list val :=
    match vs with [] => [] | v :: r => f (Z.of_nat k) v :: updated f (S k) r end.

  Lemma update_ok sd f os : forall frs ifs d ifr q qt k s pre,
    nth_error ifs d = Some ifr -> nth_error frs d = Some (if_type ifr, q, qt) ->
    library frs ifs (fst (st_x s)) -> side_of sd ifr = pre ++ os -> List.length pre = k ->
    (forall i o v, nth_error os i = Some o -> sees o v -> ok_for (side_types (if_type ifr) sd) (k + i) (f (Z.of_nat (k + i)) v) = true) ->
    exists vs l, Forall2 sees os vs /\
      run (update_each (get_ sd (values_of (if_type ifr) q)) (set_ sd (values_of (if_type ifr) q)) f (List.length os) (Z.of_nat k)) s
        = Ok ([], with_lib s l) /\
      library frs (set_nth d (with_side sd (pre ++ map Some (updated f k vs)) ifr) ifs) l.
  Proof.
    induction os as [|o os IH]; intros frs ifs d ifr q qt k s pre Ed Ef I Es Lk H.
    - exists [], (fst (st_x s)). split; [constructor|]. cbn. rewrite with_lib_same. split; [reflexivity|].
      rewrite app_nil_r in *. rewrite set_nth_self; [exact I|]. rewrite Ed. f_equal.
      destruct ifr, sd; cbn in *; now rewrite <- Es.
    - assert (Eo : nth_error (side_of sd ifr) k = Some o) by (rewrite Es, nth_error_app2, <- Lk, Nat.sub_diag by lia; reflexivity).
      destruct (@read_ok frs ifs d ifr q qt Ed Ef sd k o s I Eo) as (v & l1 & E1 & I1 & Sv).
      assert (Ov : ok_for (side_types (if_type ifr) sd) k (f (Z.of_nat k) v) = true).
      { specialize (H 0 o v eq_refl Sv). now rewrite Nat.add_0_r in H. }
      destruct (@write_ok frs ifs d ifr q qt Ed Ef sd k _ (with_lib s l1) I1 Ov) as (l2 & E2 & I2).
      set (ifr' := set_slot sd k (f (Z.of_nat k) v) ifr) in *.
      assert (Et : if_type ifr' = if_type ifr) by (unfold ifr'; destruct sd; reflexivity).
      destruct (IH frs (set_nth d ifr' ifs) d ifr' q qt (S k) (with_lib s l2) (pre ++ [Some (f (Z.of_nat k) v)]))
        as (vs & l3 & Ss & E3 & I3).
      + eapply set_nth_at, Ed.
      + now rewrite Et.
      + exact I2.
      + rewrite <- app_assoc. cbn [app]. unfold ifr'. rewrite <- (@set_nth_split _ k (Some (f (Z.of_nat k) v)) _ pre o os Es Lk).
        destruct sd; reflexivity.
      + rewrite app_length. cbn. lia.
      + intros i o' v' Eo' Sv'. rewrite Et. replace (S k + i) with (k + S i) by lia. now apply (H (S i) o').
      + exists (v :: vs), l3. split; [now constructor|]. split.
        * cbn [List.length update_each]. rewrite run_x_bind, E1. cbn [rbind]. rewrite run_x_bind, E2. cbn [rbind].
          rewrite Et in E3. replace (Z.of_nat k + 1)%Z with (Z.of_nat (S k)) by lia. exact E3.
        * rewrite set_nth_twice in I3. cbn [updated map].
          replace (with_side sd (pre ++ Some (f (Z.of_nat k) v) :: map Some (updated f (S k) vs)) ifr)
            with (with_side sd ((pre ++ [Some (f (Z.of_nat k) v)]) ++ map Some (updated f (S k) vs)) ifr'); [exact I3|].
          rewrite <- app_assoc. unfold ifr'. destruct sd; reflexivity.
  Qed.
End Access.
