(** Sessions with the instrumented module follow the specification. *)
From Coq Require Import Permutation.
From Verif Require Import Semantics Advice RunLemmas AdviceRel InstrumentProofs SpecProofs Instantiate.
Local Open Scope res_scope.

Lemma opt_all_app {A} (a b : list (option A)) :
  opt_all (a ++ b) = match opt_all a, opt_all b with Some x, Some y => Some (x ++ y) | _, _ => None end.
Proof.
  induction a as [|[x|] a IH]; simpl.
  - destruct (opt_all b); reflexivity.
  - rewrite IH. destruct (opt_all a), (opt_all b); reflexivity.
  - reflexivity.
Qed.
Lemma opt_all_length {A} (a : list (option A)) l : opt_all a = Some l -> List.length l = List.length a.
Proof.
  revert l. induction a as [|[x|] a IH]; intros l E; simpl in E; try discriminate.
  - injection E as <-. reflexivity.
  - destruct (opt_all a) as [l'|]; [|discriminate]. injection E as <-. simpl. now rewrite (IH l').
Qed.

Section Init.
  Context {X : Type}.
  Notation store := (store X).
  Notation res := (res store).

  Lemma init_elems_app i a b (s : store) :
    init_elems i (a ++ b) s = let* s' := init_elems i a s in init_elems (i + List.length a) b s'.
  Proof.
    revert i s. induction a as [|e a IH]; intros i s; simpl; [now rewrite Nat.add_0_r|].
    destruct (init_elem i e s) as [s1|s1| |]; try reflexivity. cbn [rbind]. rewrite IH. now rewrite Nat.add_succ_r.
  Qed.

  Section Any.
    Variable tabs : list tblst.
    Variable segs : list (list (option nat)).
    Notation emb := (@emb X tabs segs).
    Notation rel := (@rel X tabs segs).
    Lemma rel_init_elem i e s : rel emb (init_elem i e s) (init_elem i e (emb s)).
    Proof.
      unfold init_elem. destruct (el_mode e) as [t off| |].
      - eapply rel_bind; [apply rel_rget|]. intros o _. apply rel_elem. intros seg _.
        eapply rel_bind; [apply rel_bulk|]. intros s1 _. apply rel_bulk.
      - reflexivity.
      - apply rel_bulk.
    Qed.
    Lemma rel_init_elems i l s : rel emb (init_elems i l s) (init_elems i l (emb s)).
    Proof.
      revert i s. induction l as [|e l IH]; intros i s; [reflexivity|]. simpl.
      eapply rel_bind; [apply rel_init_elem|]. intros s1 _. apply IH.
    Qed.
    Lemma rel_init_data i e s : rel emb (init_data i e s) (init_data i e (emb s)).
    Proof.
      unfold init_data. destruct (dt_active e) as [off|]; [|reflexivity].
      eapply rel_bind; [apply rel_rget|]. intros o _.
      eapply rel_bind; [apply rel_bulk|]. intros s1 _. apply rel_bulk.
    Qed.
    Lemma rel_init_datas i l s : rel emb (init_datas i l s) (init_datas i l (emb s)).
    Proof.
      revert i s. induction l as [|e l IH]; intros i s; [reflexivity|]. simpl.
      eapply rel_bind; [apply rel_init_data|]. intros s1 _. apply IH.
    Qed.
    Lemma rel_session call call' cs s : (forall name, crel tabs segs (call name) (call' name)) ->
      rel (fun '(os, s) => (os, emb s)) (session call cs s) (session call' cs (emb s)).
    Proof.
      intros R. revert s. induction cs as [|[name args] cs IH]; intros s; [reflexivity|]. simpl.
      specialize (R name args s). destruct (call name args s) as [[vs s1]|s1| |]; simpl in R; try exact I; rewrite R.
      - cbn [er]. eapply rel_bind; [apply IH|]. intros [os s2] _. reflexivity.
      - eapply rel_bind; [apply IH|]. intros [os s2] _. reflexivity.
      - reflexivity.
    Qed.
  End Any.

  (** Segments do not change the number of tables and element segments. *)
  Lemma set_nth_length {A} n (x : A) l : List.length (set_nth n x l) = List.length l.
  Proof. revert n. induction l as [|y l IH]; intros [|n]; simpl; auto. Qed.
  Lemma bulk_lengths b vs (s s' : store) : bulk b vs s = Ok s' ->
    List.length (st_tables s') = List.length (st_tables s) /\ List.length (st_elems s') = List.length (st_elems s).
  Proof.
    unfold bulk. intros E. destruct b; try discriminate; repeat (destruct vs as [|[[]|] vs]; try discriminate);
      repeat match type of E with
      | rbind (rget ?o) _ = _ => destruct o; cbn [rget rbind] in E; try discriminate
      | (if ?c then _ else _) = _ => destruct c; try discriminate
      end; injection E as <-; simpl; rewrite ?set_nth_length; auto.
  Qed.
  Lemma init_elem_lengths i e (s s' : store) : init_elem i e s = Ok s' ->
    List.length (st_tables s') = List.length (st_tables s) /\ List.length (st_elems s') = List.length (st_elems s).
  Proof.
    unfold init_elem. destruct (el_mode e) as [t off| |].
    - destruct (eval_i32 _ _); [|discriminate]. cbn [rget rbind]. destruct (nth_error _ i); [|discriminate]. cbn [rget rbind].
      destruct (bulk (BTableInit t i) _ s) as [s1| | |] eqn:E1; try discriminate. cbn [rbind]. intros E2.
      apply bulk_lengths in E1. apply bulk_lengths in E2. intuition congruence.
    - intros E. injection E as <-. auto.
    - apply bulk_lengths.
  Qed.
  Lemma init_elems_lengths i l (s s' : store) : init_elems i l s = Ok s' ->
    List.length (st_tables s') = List.length (st_tables s) /\ List.length (st_elems s') = List.length (st_elems s).
  Proof.
    revert i s. induction l as [|e l IH]; intros i s E; simpl in E; [injection E as <-; auto|].
    destruct (init_elem i e s) as [s1| | |] eqn:E1; try discriminate. cbn [rbind] in E.
    apply init_elem_lengths in E1. apply IH in E. intuition congruence.
  Qed.

  (** The apply table before it is filled. *)
  Definition tabs0 (generic : bool) (aps : list nat) : list tblst :=
    if generic then [TblSt FuncRef (Z.of_nat (List.length aps)) (repeat None (List.length aps))] else [].
  Definition segs0 (generic : bool) (aps : list nat) : list (list (option nat)) :=
    if generic then [map Some aps] else [].

  Lemma eval_apply gs aps : opt_all (map (eval_ref gs) (map (fun a => [LBasic (BRefFunc a); LEnd]) aps)) = Some (map Some aps).
  Proof. induction aps as [|a aps IH]; [reflexivity|]. simpl in *. now rewrite IH. Qed.

  Lemma allocate_emb imp m m' x (generic : bool) aps :
    md_tables m' = md_tables m ++ (if generic then [apply_table aps] else []) ->
    md_elems m' = md_elems m ++ (if generic then [apply_elem aps (List.length (md_tables m))] else []) ->
    md_mems m' = md_mems m -> md_globals m' = md_globals m -> md_datas m' = md_datas m ->
    @allocate X imp m' x = option_map (@emb X (tabs0 generic aps) (segs0 generic aps)) (@allocate X imp m x).
  Proof.
    intros Et Ee Em Eg Ed. unfold allocate. rewrite Et, Ee, Em, Eg, Ed.
    destruct (init_globals imp [] (md_globals m)) as [gs|]; [|reflexivity].
    rewrite map_app, opt_all_app. destruct (opt_all (map (init_table imp) (md_tables m))) as [ts|]; [|reflexivity].
    assert (opt_all (map (init_table imp) (if generic then [apply_table aps] else [])) = Some (tabs0 generic aps)) as ->
      by (destruct generic; reflexivity).
    destruct (init_mems imp (md_mems m)) as [me|]; [|reflexivity].
    rewrite map_app, opt_all_app. destruct (opt_all (map _ (md_elems m))) as [es|]; [|reflexivity].
    destruct generic; [|reflexivity]. cbn [map]. unfold apply_elem at 1. cbn [el_init]. rewrite eval_apply. reflexivity.
  Qed.

  Lemma init_apply aps (s : store) :
    init_elem (List.length (st_elems s)) (apply_elem aps (List.length (st_tables s)))
      (emb (tabs0 true aps) (segs0 true aps) s) = Ok (emb (tabs true aps) (segs true) s).
  Proof.
    unfold init_elem, apply_elem. cbn [el_mode]. change (eval_i32 _ _) with (Some 0%Z). cbn [rget rbind emb st_elems st_tables segs0 tabs0].
    rewrite nth_error_app_exact. cbn [rget rbind bulk vi32].
    unfold emb at 1 2 3. cbn [st_tables st_elems]. rewrite !nth_error_app_exact. cbn [rget rbind ts_elems].
    rewrite map_length, repeat_length. rewrite Z.add_0_l, Z.leb_refl. cbn [andb rbind].
    unfold set_tables, emb at 1. cbn [st_elems st_tables st_mem st_globals st_datas st_x bulk].
    rewrite nth_error_app_exact. cbn [rget rbind]. unfold set_elems. cbn [st_elems st_tables st_mem st_globals st_datas st_x].
    assert (S : forall A (l : list A) a b, set_nth (List.length l) b (l ++ [a]) = l ++ [b])
      by (clear; intros A l a b; induction l as [|y l IH]; [reflexivity|]; simpl; now rewrite IH).
    assert (C : set_cells (TblSt FuncRef (Z.of_nat (List.length aps)) (repeat None (List.length aps))) 0
                 (firstn (Z.to_nat (Z.of_nat (List.length aps))) (skipn (Z.to_nat 0) (map Some aps))) = apply_tab aps).
    { unfold set_cells, apply_tab. cbn [ts_ref ts_max ts_elems]. f_equal. simpl.
      rewrite Nat2Z.id, firstn_all2 by (rewrite map_length; lia).
      rewrite skipn_all2 by (rewrite repeat_length, map_length; lia). apply app_nil_r. }
    unfold emb at 1. cbn [st_tables]. rewrite C, !S. reflexivity.
  Qed.

  (** Instantiation. *)
  Lemma instantiate_emb imp m m' x (generic : bool) aps :
    md_tables m' = md_tables m ++ (if generic then [apply_table aps] else []) ->
    md_elems m' = md_elems m ++ (if generic then [apply_elem aps (List.length (md_tables m))] else []) ->
    md_mems m' = md_mems m -> md_globals m' = md_globals m -> md_datas m' = md_datas m ->
    match instantiate imp m x with
    | Ok s => instantiate imp m' x = Ok (@emb X (tabs generic aps) (segs generic) s)
    | Trap s => exists tabs' segs', instantiate imp m' x = Trap (emb tabs' segs' s)
    | Stuck => True
    | Oof => False
    end.
  Proof.
    intros Et Ee Em Eg Ed. unfold instantiate. rewrite (allocate_emb _ _ _ _ _ _ Et Ee Em Eg Ed), Ee, Ed.
    destruct (allocate imp m x) as [s|] eqn:Ea; [|exact I]. cbn [rget rbind option_map].
    rewrite init_elems_app. cbn [Nat.add].
    pose proof (rel_init_elems (tabs0 generic aps) (segs0 generic aps) 0 (md_elems m) s) as R.
    destruct (init_elems 0 (md_elems m) s) as [s1|s1| |] eqn:E1; simpl in R.
    - rewrite R. cbn [rbind].
      assert (L : List.length (st_tables s1) = List.length (md_tables m) /\ List.length (st_elems s1) = List.length (md_elems m)).
      { apply init_elems_lengths in E1. destruct E1 as [-> ->]. clear - Ea. unfold allocate in Ea.
        destruct (init_globals _ _ _); [|discriminate]. destruct (opt_all (map _ (md_tables m))) eqn:T; [|discriminate].
        destruct (init_mems _ _); [|discriminate]. destruct (opt_all (map _ (md_elems m))) eqn:E; [|discriminate].
        injection Ea as <-. simpl. apply opt_all_length in T. apply opt_all_length in E. rewrite map_length in T, E. auto. }
      assert (R2 : init_elems (List.length (md_elems m)) (if generic then [apply_elem aps (List.length (md_tables m))] else [])
                 (emb (tabs0 generic aps) (segs0 generic aps) s1) = Ok (emb (tabs generic aps) (segs generic) s1)).
      { destruct generic; [|reflexivity]. destruct L as [<- <-]. cbn [init_elems]. rewrite init_apply. reflexivity. }
      rewrite R2. cbn [rbind].
      pose proof (rel_init_datas (tabs generic aps) (segs generic) 0 (md_datas m) s1) as RD.
      destruct (init_datas 0 (md_datas m) s1) as [s2|s2| |] eqn:E2; simpl in RD; [exact RD|eauto|exact I|].
      clear - E2. revert E2. generalize 0. revert s1. induction (md_datas m) as [|d ds IH]; intros s1 i E; [discriminate|].
      simpl in E. destruct (init_data i d s1) as [s3|s3| |] eqn:F; try discriminate; [exact (IH _ _ E)|].
      clear - F. unfold init_data in F. destruct (dt_active d); [|discriminate].
      destruct (eval_i32 _ _); [|discriminate]. cbn [rget rbind] in F.
      destruct (bulk (BMemoryInit i) _ s1) as [s4| | |] eqn:B; try discriminate; cbn [rbind] in F;
        unfold bulk in *; [destruct (nth_error (st_datas s4) i); discriminate|].
      destruct (st_mem s1); [|discriminate]. cbn [vi32 rget rbind] in B. destruct (nth_error (st_datas s1) i); [|discriminate].
      cbn [rget rbind] in B. destruct (_ && _); discriminate.
    - rewrite R. cbn [rbind]. eauto.
    - exact I.
    - clear - E1. revert E1. generalize 0. revert s. induction (md_elems m) as [|d ds IH]; intros s1 i E; [discriminate|].
      simpl in E. destruct (init_elem i d s1) as [s3|s3| |] eqn:F; try discriminate; [exact (IH _ _ E)|].
      clear - F. unfold init_elem in F. destruct (el_mode d) as [t off| |]; [|discriminate|].
      + destruct (eval_i32 _ _); [|discriminate]. cbn [rget rbind] in F.
        destruct (nth_error (st_elems s1) i) eqn:N; [|discriminate]. cbn [rget rbind] in F.
        destruct (bulk (BTableInit t i) _ s1) as [s4| | |] eqn:B; try discriminate; cbn [rbind] in F;
          unfold bulk in *; [destruct (nth_error (st_elems s4) i); discriminate|].
        cbn [vi32] in B. destruct (nth_error (st_tables s1) t); [|discriminate]. rewrite N in B. cbn [rget rbind] in B.
        destruct (_ && _); discriminate.
      + unfold bulk in F. destruct (nth_error (st_elems s1) i); discriminate.
  Qed.
End Init.

Theorem instrument_sessions {X} num1 num2 (ext : string -> string -> list val -> xprog X)
    ord_i ord_c infer m on generic only m' lib :
  (forall l, Permutation (ord_i l) l) -> (forall l, Permutation (ord_c l) l) ->
  instrument ord_i ord_c infer m (std_ai on generic) only = IOk m' lib ->
  let is := if generic then ord_i (filter (selected_incl m only) (indices m)) else [] in
  forall n imp x calls,
  match spec_module num1 num2 ext infer on generic only is n imp m x calls with
  | Ok (os, s) => exists tabs segs, run_module num1 num2 ext n imp m' x calls = Ok (os, emb tabs segs s)
  | Trap s => exists tabs segs, run_module num1 num2 ext n imp m' x calls = Trap (emb tabs segs s)
  | Stuck => True
  | Oof => run_module num1 num2 ext n imp m' x calls = Oof
  end.
Proof.
  intros Pi Pc E is n imp x calls.
  destruct (@instrument_layout _ _ _ _ _ _ _ _ Pi Pc E) as (H & hf & aps & LY & Et & Ee & Em & Eg & Ed & Es & _).
  unfold std_ai in LY, Et, Ee. simpl in LY, Et, Ee.
  assert (LY' : layout infer m (std_ai on generic) only is H hf aps (md_funcs m')).
  { unfold is. destruct generic; exact LY. }
  assert (Hg : generic = false -> is = []) by (unfold is; intros ->; reflexivity).
  pose proof (@instantiate_emb X imp m m' x generic aps) as RI.
  unfold spec_module, run_module.
  assert (Et' : md_tables m' = md_tables m ++ (if generic then [apply_table aps] else []))
    by (rewrite Et; destruct generic; reflexivity).
  assert (Ee' : md_elems m' = md_elems m ++ (if generic then [apply_elem aps (List.length (md_tables m))] else []))
    by (rewrite Ee; destruct generic; reflexivity).
  specialize (RI Et' Ee' Em Eg Ed).
  destruct (instantiate imp m x) as [s|s| |]; [|destruct RI as (tb & sg & ->); simpl; eauto|exact I|destruct RI].
  rewrite RI, Es. cbn [rbind].
  set (T := tabs generic aps) in *. set (S := segs generic) in *.
  assert (G : @rel X T S _ _ (fun '(os, s) => (os, emb T S s))
    (let* (_, s1) := match md_start m with
                     | Some f => spec num1 num2 ext infer m on generic only is n (CFun f) [] s
                     | None => Ok ([], s) end in
     session (fun name args s => let* c := rget (export_callee m generic name) in
              spec num1 num2 ext infer m on generic only is n c args s) calls s1)
    (let* (_, s1) := match md_start m with
                     | Some f => call_fn num1 num2 ext (md_funcs m') n f [] (emb T S s)
                     | None => Ok ([], emb T S s) end in
     session (fun name args s => let* f := rget (export_index 0 (md_funcs m') name) in
              call_fn num1 num2 ext (md_funcs m') n f args s) calls s1)).
  { apply rel_bind with (e := @er X T S).
    - destruct (md_start m); [|reflexivity]. eapply spec_runs; [exact LY'|exact Hg|constructor].
    - intros [vs s1] _. apply rel_session. intros name args s2.
      destruct (export_callee m generic name) as [c|] eqn:Ec; [|exact I].
      destruct (@export_rep X num1 num2 ext infer m on generic only is H hf aps (md_funcs m') LY' Hg name c Ec) as (i & Ei & R). rewrite Ei. cbn [rget rbind].
      eapply spec_runs; [exact LY'|exact Hg|exact R]. }
  destruct (rbind _ _) as [[os s']|s'| |]; simpl in G; eauto.
Qed.
