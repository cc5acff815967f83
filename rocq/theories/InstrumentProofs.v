(** What [instrument] produces: where every function of the output is and what it contains. *)
From Coq Require Import Permutation.
From Verif Require Import Nesting NestingSpec NestingProofs WeaveSpec WeaveProofs WeavePropProofs.
From Verif Require Export Instrument.
Local Open Scope se_scope.

(** ** Growing the function list *)
Lemma nth_error_skipn {A} n (l : list A) i : nth_error (skipn n l) i = nth_error l (n + i).
Proof. revert l. induction n as [|n IH]; intros [|x l]; simpl; try reflexivity; [now destruct i|apply IH]. Qed.

Lemma Forall2_impl {A B} (P Q : A -> B -> Prop) l l' :
  (forall a b, P a b -> Q a b) -> Forall2 P l l' -> Forall2 Q l l'.
Proof. intros H F. induction F; constructor; auto. Qed.

Definition unexported (f : func) : Prop := fn_exports f = [].
Definition sig_of (f : func) : functy * list string := (fn_type f, fn_exports f).

(** The first [n] functions keep type and exports, later ones are unchanged, new ones are
    appended and not exported. *)
Definition grows (n : nat) (fs fs' : list func) : Prop :=
  n <= List.length fs /\
  map sig_of (firstn n fs') = map sig_of (firstn n fs) /\
  exists new, skipn n fs' = skipn n fs ++ new /\ Forall unexported new.

Lemma grows_refl n fs : n <= List.length fs -> grows n fs fs.
Proof. intros L. split; [exact L|]. split; [reflexivity|]. exists []. now rewrite app_nil_r. Qed.
Lemma grows_length n fs fs' : grows n fs fs' -> n <= List.length fs'.
Proof.
  intros (L & E & _). apply (f_equal (@List.length _)) in E. rewrite !map_length, !firstn_length in E. lia.
Qed.
Lemma grows_trans n a b c : grows n a b -> grows n b c -> grows n a c.
Proof.
  intros (L & E & new & S & F) (_ & E' & new' & S' & F'). split; [exact L|]. split; [congruence|].
  exists (new ++ new'). split; [now rewrite S', S, app_assoc|]. apply Forall_app; auto.
Qed.
Lemma grows_app n fs new : n <= List.length fs -> Forall unexported new -> grows n fs (fs ++ new).
Proof.
  intros L F. split; [exact L|]. rewrite firstn_app, skipn_app.
  replace (n - List.length fs) with 0 by lia. simpl. rewrite app_nil_r. split; [reflexivity|]. eauto.
Qed.
Lemma grows_nth n fs fs' i f : grows n fs fs' -> n <= i -> nth_error fs i = Some f -> nth_error fs' i = Some f.
Proof.
  intros (L & _ & new & S & _) Ge E. replace i with (n + (i - n)) in * by lia.
  rewrite <- nth_error_skipn in *. rewrite S. now apply nth_error_app_l.
Qed.
Lemma grows_len_le n fs fs' : grows n fs fs' -> List.length fs <= List.length fs'.
Proof.
  intros G. assert (L' := grows_length G). destruct G as (L & _ & new & S & _).
  apply (f_equal (@List.length _)) in S. rewrite app_length, !skipn_length in S. lia.
Qed.

Lemma update_length {A} i (g : A -> A) l : List.length (update i g l) = List.length l.
Proof. revert i. induction l as [|x l IH]; intros [|i]; simpl; auto. Qed.
Lemma update_nth_eq {A} i (g : A -> A) l : nth_error (update i g l) i = option_map g (nth_error l i).
Proof. revert i. induction l as [|x l IH]; intros [|i]; simpl; auto. Qed.
Lemma update_nth_neq {A} i j (g : A -> A) l : i <> j -> nth_error (update i g l) j = nth_error l j.
Proof.
  revert i j. induction l as [|x l IH]; intros [|i] [|j] N; simpl; try reflexivity; [congruence|].
  apply IH. congruence.
Qed.
Lemma update_skipn {A} n i (g : A -> A) l : i < n -> skipn n (update i g l) = skipn n l.
Proof.
  revert n i. induction l as [|x l IH]; intros [|n] [|i] L; simpl; try reflexivity; try lia. apply IH. lia.
Qed.
Lemma update_map {A B} (h : A -> B) i (g : A -> A) l :
  (forall x, nth_error l i = Some x -> h (g x) = h x) -> map h (update i g l) = map h l.
Proof.
  revert i. induction l as [|x l IH]; intros [|i] E; simpl; try reflexivity.
  - now rewrite (E x eq_refl).
  - rewrite IH; [reflexivity|]. intros y Hy. now apply E.
Qed.
Lemma firstn_map {A B} (h : A -> B) n l : map h (firstn n l) = firstn n (map h l).
Proof. revert n. induction l as [|x l IH]; intros [|n]; simpl; congruence. Qed.
Lemma grows_update n fs i g :
  n <= List.length fs -> i < n -> (forall x, nth_error fs i = Some x -> sig_of (g x) = sig_of x) ->
  grows n fs (update i g fs).
Proof.
  intros L I E. split; [exact L|]. split.
  - rewrite !firstn_map. now rewrite update_map.
  - exists []. rewrite app_nil_r. split; [now apply update_skipn|constructor].
Qed.

(** Indices below [n] untouched. *)
Definition same_below (n : nat) (fs fs' : list func) : Prop := forall i, i < n -> nth_error fs' i = nth_error fs i.
Lemma same_below_app n fs new : n <= List.length fs -> same_below n fs (fs ++ new).
Proof. intros L i I. apply nth_error_app1. lia. Qed.
Lemma same_below_trans n a b c : same_below n a b -> same_below n b c -> same_below n a c.
Proof. intros A B i I. now rewrite B, A. Qed.

(** ** Installing the hooks *)
Definition hook_import (e : wfun) : func := Fn (wf_type e) (FImport analysis_ns (wf_name e)) [].
Definition hook_imports (ai : interface) (hs : list hook) : list func :=
  flat_map (fun h => match ai_hook ai h with Some e => [hook_import e] | None => [] end) hs.
Definition ai_on (ai : interface) (h : hook) : bool := match ai_hook ai h with Some _ => true | None => false end.

Lemma install_spec ai hs s : exists ts,
  install ai hs s = Some (ts, s ++ hook_imports ai hs) /\
  map fst ts = filter (ai_on ai) hs /\
  forall h i, In (h, i) ts ->
    List.length s <= i /\
    exists e, ai_hook ai h = Some e /\ nth_error (s ++ hook_imports ai hs) i = Some (hook_import e).
Proof.
  revert s. induction hs as [|h hs IH]; intros s.
  - exists []. simpl. rewrite app_nil_r. split; [reflexivity|]. split; [reflexivity|]. intros ? ? [].
  - cbn [install hook_imports flat_map filter]. unfold ai_on at 1.
    destruct (ai_hook ai h) as [e|] eqn:Eh.
    + unfold se_bind, add_import, add_func, se_ret.
      destruct (IH (s ++ [hook_import e])) as (ts & E & F & N).
      unfold hook_import in E at 1. rewrite E. exists ((h, List.length s) :: ts).
      unfold hook_imports in *. rewrite <- app_assoc in *. split; [reflexivity|]. split.
      * cbn [map fst]. now rewrite F.
      * intros h' i [Q|I].
        -- injection Q as <- <-. split; [lia|]. exists e. split; [exact Eh|]. apply nth_error_app_exact.
        -- destruct (N _ _ I) as [Li Q]. split; [|exact Q]. rewrite app_length in Li. simpl in Li. lia.
    + destruct (IH s) as (ts & E & F & N). exists ts. auto.
Qed.

(** ** Transforming the bodies *)
Lemma helper_index_ge n bts p : n <= helper_index n bts p.
Proof. revert n. induction bts as [|[q x] r IH]; intros n; simpl; [lia|]. destruct (Nat.eqb p q); [lia|]. specialize (IH (S n)). lia. Qed.
Lemma helper_index_nth s bts new p x : NoDup (map fst bts) -> In (p, x) bts ->
  nth_error ((s ++ map helper_fn bts) ++ new) (helper_index (List.length s) bts p) = Some (helper_fn (p, x)).
Proof.
  revert s. induction bts as [|[q y] r IH]; intros s ND I; [destruct I|]. cbn [map] in *.
  inversion ND as [|? ? NI ND']; subst. cbn [helper_index]. destruct (Nat.eqb_spec p q) as [->|N].
  - destruct I as [E|I].
    + injection E as ->. rewrite <- app_assoc. apply nth_error_app_exact.
    + exfalso. apply NI. apply in_map_iff. now exists (q, x).
  - destruct I as [E|I]; [congruence|].
    specialize (IH (s ++ [helper_fn (q, y)]) ND' I). rewrite app_length in IH. simpl in IH.
    replace (List.length s + 1) with (S (List.length s)) in IH by lia.
    rewrite <- !app_assoc in *. exact IH.
Qed.

Definition woven_as (H : hook -> option nat) (n : nat) (fs : list func) (b b' : list tinstr) : Prop :=
  exists hf, b' = weave H hf b /\ (forall p, n <= hf p) /\
    forall p x, In (p, x) (br_tables b) -> H HkBrTable <> None ->
      nth_error fs (hf p) = Some (helper_fn (p, x)).

Lemma transform_all_spec n ts bodies s bs s' : n <= List.length s ->
  NoDup (map fst ts) -> if_then_first (map fst ts) ->
  Forall (fun b => NoDup (map fst (br_tables b))) bodies ->
  transform_all ts bodies s = Some (bs, s') ->
  (exists new, s' = s ++ new /\ Forall unexported new) /\
  Forall2 (woven_as (enabled_in ts) n s') bodies bs.
Proof.
  intros L ND IT. revert s bs s' L. induction bodies as [|b r IH]; intros s bs s' L NB E.
  - injection E as <- <-. split; [exists []; now rewrite app_nil_r|constructor].
  - inversion NB as [|? ? Nb Nr]; subst. cbn [transform_all] in E. unfold se_bind, se_ret in E.
    destruct (run_passes_weave ts b s ND IT Nb) as (c & _ & Ec). rewrite Ec in E.
    destruct c; [|discriminate].
    set (s1 := s ++ (if is_enabled (enabled_in ts) HkBrTable then map helper_fn (br_tables b) else [])) in *.
    destruct (transform_all ts r s1) as [[r' s2]|] eqn:Er; [|discriminate]. injection E as <- <-.
    assert (L1 : n <= List.length s1) by (unfold s1; rewrite app_length; lia).
    destruct (IH _ _ _ L1 Nr Er) as ((new & -> & Fn_) & F2).
    assert (U1 : Forall unexported (if is_enabled (enabled_in ts) HkBrTable then map helper_fn (br_tables b) else [])).
    { destruct (is_enabled _ _); [|constructor]. clear. induction (br_tables b); simpl; constructor; auto. reflexivity. }
    split.
    + eexists. split; [unfold s1; rewrite <- app_assoc; reflexivity|]. apply Forall_app; auto.
    + constructor; [|exact F2]. eexists. split; [reflexivity|].
      split; [intros p; pose proof (helper_index_ge (List.length s) (br_tables b) p); lia|].
      intros p x I Hn. unfold s1.
      unfold is_enabled. destruct (enabled_in ts HkBrTable); [|congruence].
      now apply helper_index_nth.
Qed.

(** ** Writing the bodies back *)
Lemma write_back_spec is bs fs : NoDup is -> List.length is = List.length bs ->
  forall i, match nth_error fs i with
            | None => nth_error (write_back is bs fs) i = None
            | Some f =>
                (~ In i is /\ nth_error (write_back is bs fs) i = Some f) \/
                (exists k b, nth_error is k = Some i /\ nth_error bs k = Some b /\
                   nth_error (write_back is bs fs) i = Some (set_body (flatten b) f))
            end.
Proof.
  revert bs fs. induction is as [|j is IH]; intros bs fs ND L i.
  - simpl. destruct (nth_error fs i); auto.
  - destruct bs as [|b bs]; [discriminate|]. inversion ND as [|? ? NI ND']; subst.
    cbn [write_back]. specialize (IH bs (update j (set_body (flatten b)) fs) ND' (f_equal pred L) i).
    destruct (Nat.eq_dec j i) as [->|N].
    + rewrite update_nth_eq in IH. destruct (nth_error fs i) as [f|]; simpl in IH; [|exact IH].
      right. destruct IH as [[_ E]|(k & b' & E & _)].
      * exists 0, b. auto.
      * exfalso. apply NI. eapply nth_error_In; eassumption.
    + rewrite update_nth_neq in IH by exact N. destruct (nth_error fs i) as [f|]; [|exact IH].
      destruct IH as [[NI' E]|(k & b' & E1 & E2 & E3)].
      * left. split; [|exact E]. intros [?|?]; tauto.
      * right. exists (S k), b'. auto.
Qed.
Lemma write_back_length is bs fs : List.length (write_back is bs fs) = List.length fs.
Proof.
  revert bs fs. induction is as [|i is IH]; intros [|b bs] fs; simpl; try reflexivity. now rewrite IH, update_length.
Qed.
Lemma set_body_sig body f : sig_of (set_body body f) = sig_of f.
Proof. unfold set_body. destruct (fn_code f); reflexivity. Qed.
Lemma write_back_grows n is bs fs : n <= List.length fs -> (forall i, In i is -> i < n) -> grows n fs (write_back is bs fs).
Proof.
  revert bs fs. induction is as [|i is IH]; intros [|b bs] fs L B; simpl; try (now apply grows_refl).
  eapply grows_trans; [apply grows_update with (i := i); [exact L|apply B; now left|]|].
  - intros x _. apply set_body_sig.
  - apply IH; [now rewrite update_length|]. intros j J. apply B. now right.
Qed.

(** ** The buffer library imports *)
Definition op_import (ft : functy) (o : libop) : func := Fn (libop_type ft o) (FImport stack_ns (op_name ft o)) [].
Definition op_at (fs : list func) (ft : functy) (o : libop) (i : nat) : Prop := nth_error fs i = Some (op_import ft o).
Record sh_ok (fs : list func) (n : nat) (ft : functy) (sh : stack_hooks) : Prop := {
  ok_alloc : op_at fs ft LAlloc (sh_alloc sh) /\ n <= sh_alloc sh;
  ok_free : op_at fs ft LFree (sh_free sh) /\ n <= sh_free sh;
  ok_alloc_types : op_at fs ft LAllocTypes (sh_alloc_types sh) /\ n <= sh_alloc_types sh;
  ok_free_types : op_at fs ft LFreeTypes (sh_free_types sh) /\ n <= sh_free_types sh;
  ok_arg_load : Forall2 (fun o i => op_at fs ft o i /\ n <= i) (side_ops (LLoad SArg) (ft_in ft)) (sh_arg_load sh);
  ok_ret_load : Forall2 (fun o i => op_at fs ft o i /\ n <= i) (side_ops (LLoad SRet) (ft_out ft)) (sh_ret_load sh);
  ok_store_rets : op_at fs ft LStoreRets (sh_store_rets sh) /\ n <= sh_store_rets sh }.

Lemma op_at_grows n fs fs' ft o i : grows n fs fs' -> op_at fs ft o i /\ n <= i -> op_at fs' ft o i /\ n <= i.
Proof. intros G [E L]. split; [|exact L]. unfold op_at in *. eapply grows_nth; eassumption. Qed.
Lemma sh_ok_grows n fs fs' ft sh : grows n fs fs' -> sh_ok fs n ft sh -> sh_ok fs' n ft sh.
Proof.
  intros G [A B C D E F I].
  constructor; try (eapply op_at_grows; eassumption);
    (eapply Forall2_impl; [|eassumption]; intros; eapply op_at_grows; eassumption).
Qed.

Lemma import_op_spec ft o s : import_op ft o s = Some (List.length s, s ++ [op_import ft o]).
Proof. reflexivity. Qed.
Lemma import_ops_spec ft os s : exists is,
  import_ops ft os s = Some (is, s ++ map (op_import ft) os) /\
  Forall2 (fun o i => op_at (s ++ map (op_import ft) os) ft o i /\ List.length s <= i) os is.
Proof.
  revert s. induction os as [|o os IH]; intros s.
  - exists []. simpl. rewrite app_nil_r. split; [reflexivity|constructor].
  - cbn [import_ops]. unfold se_bind, se_ret. rewrite import_op_spec.
    destruct (IH (s ++ [op_import ft o])) as (is & E & F). rewrite E. cbn [map]. rewrite <- app_assoc in *. simpl in *.
    exists (List.length s :: is). split; [reflexivity|]. constructor.
    + split; [|lia]. unfold op_at. apply nth_error_app_exact.
    + eapply Forall2_impl; [|exact F]. intros a b [P Q]. split; [exact P|]. rewrite app_length in Q. simpl in Q. lia.
Qed.

Definition sig_ops (ft : functy) : list libop :=
  [LAlloc; LFree; LAllocTypes; LFreeTypes]
  ++ side_ops (LLoad SArg) (ft_in ft) ++ side_ops (LLoad SRet) (ft_out ft)
  ++ side_ops (LStore SArg) (ft_in ft) ++ side_ops (LStore SRet) (ft_out ft) ++ [LStoreRets].

Lemma op_at_app fs new ft o i : op_at fs ft o i -> op_at (fs ++ new) ft o i.
Proof. unfold op_at. apply nth_error_app_l. Qed.

Lemma link_signature_spec ft s n : n <= List.length s -> exists sh,
  link_signature ft s = Some (sh, s ++ map (op_import ft) (sig_ops ft)) /\
  sh_ok (s ++ map (op_import ft) (sig_ops ft)) n ft sh.
Proof.
  intros L. unfold link_signature, se_bind, se_ret. rewrite !import_op_spec.
  set (s4 := (((s ++ [op_import ft LAlloc]) ++ [op_import ft LFree]) ++ [op_import ft LAllocTypes]) ++ [op_import ft LFreeTypes]).
  destruct (import_ops_spec ft (side_ops (LLoad SArg) (ft_in ft)) s4) as (la & Ela & Fla). rewrite Ela.
  match goal with |- context [import_ops ft _ ?x] => set (s5 := x) in * end.
  destruct (import_ops_spec ft (side_ops (LLoad SRet) (ft_out ft)) s5) as (lr & Elr & Flr). rewrite Elr.
  match goal with |- context [import_ops ft (side_ops (LStore SArg) _) ?x] => set (s6 := x) in * end.
  destruct (import_ops_spec ft (side_ops (LStore SArg) (ft_in ft)) s6) as (sa & Esa & Fsa). rewrite Esa.
  match goal with |- context [import_ops ft (side_ops (LStore SRet) _) ?x] => set (s7 := x) in * end.
  destruct (import_ops_spec ft (side_ops (LStore SRet) (ft_out ft)) s7) as (sr & Esr & Fsr). rewrite Esr.
  rewrite import_op_spec.
  match goal with |- context [import_op ft LStoreRets ?x] => idtac | |- _ => idtac end.
  assert (Efin : s ++ map (op_import ft) (sig_ops ft) =
                 (s7 ++ map (op_import ft) (side_ops (LStore SRet) (ft_out ft))) ++ [op_import ft LStoreRets]).
  { unfold s7, s6, s5, s4, sig_ops. rewrite !map_app. simpl. rewrite <- !app_assoc. reflexivity. }
  rewrite Efin. eexists. split; [reflexivity|].
  assert (L4 : List.length s4 = List.length s + 4) by (unfold s4; rewrite !app_length; simpl; lia).
  assert (L5 : List.length s4 <= List.length s5) by (unfold s5; rewrite app_length; lia).
  assert (L6 : List.length s5 <= List.length s6) by (unfold s6; rewrite app_length; lia).
  assert (L7 : List.length s6 <= List.length s7) by (unfold s7; rewrite app_length; lia).
  assert (Up4 : forall o i, op_at s4 ft o i ->
     op_at ((s7 ++ map (op_import ft) (side_ops (LStore SRet) (ft_out ft))) ++ [op_import ft LStoreRets]) ft o i).
  { intros o i A. unfold s7, s6, s5. do 5 apply op_at_app. exact A. }
  constructor; cbn.
  - split; [|lia]. apply Up4. unfold s4. do 3 apply op_at_app. apply nth_error_app_exact.
  - split; [|rewrite app_length; simpl; lia]. apply Up4. unfold s4. do 2 apply op_at_app. apply nth_error_app_exact.
  - split; [|rewrite !app_length; simpl; lia]. apply Up4. unfold s4. apply op_at_app. apply nth_error_app_exact.
  - split; [|rewrite !app_length; simpl; lia]. apply Up4. unfold s4. apply nth_error_app_exact.
  - eapply Forall2_impl; [|exact Fla]. intros o i [A B]. split; [|lia].
    fold s5 in A. unfold s7, s6. do 4 apply op_at_app. exact A.
  - eapply Forall2_impl; [|exact Flr]. intros o i [A B]. split; [|lia].
    fold s6 in A. unfold s7. do 3 apply op_at_app. exact A.
  - split; [|rewrite app_length; lia]. apply nth_error_app_exact.
Qed.

Lemma op_imports_unexported ft os : Forall unexported (map (op_import ft) os).
Proof. induction os; simpl; constructor; auto. reflexivity. Qed.

Definition links_ok (fs : list func) (n : nat) (ls : links) : Prop :=
  Forall (fun x => sh_ok fs n (fst x) (snd x)) ls.
Lemma links_ok_grows n fs fs' ls : grows n fs fs' -> links_ok fs n ls -> links_ok fs' n ls.
Proof. intros G. apply Forall_impl. intros x. now apply sh_ok_grows. Qed.
Lemma find_link_app_some a b ft sh : find_link a ft = Some sh -> find_link (a ++ b) ft = Some sh.
Proof. induction a as [|[ft' sh'] a IH]; simpl; [discriminate|]. destruct (functy_eqb ft ft'); auto. Qed.
Lemma find_link_app_none a b ft : find_link a ft = None -> find_link (a ++ b) ft = find_link b ft.
Proof. induction a as [|[ft' sh'] a IH]; simpl; [auto|]. destruct (functy_eqb ft ft'); [discriminate|auto]. Qed.
Lemma find_link_In ls ft sh : find_link ls ft = Some sh -> In (ft, sh) ls.
Proof.
  induction ls as [|[ft' sh'] ls IH]; simpl; [discriminate|].
  destruct (functy_eqb ft ft') eqn:E; [|auto]. apply functy_eqb_eq in E. intros Q. injection Q as ->. left. congruence.
Qed.

Lemma link_all_spec is acc s ls s' n :
  n <= List.length s -> links_ok s n acc -> link_all is acc s = Some (ls, s') ->
  (exists new, s' = s ++ new /\ Forall unexported new) /\
  links_ok s' n ls /\
  (forall ft sh, find_link acc ft = Some sh -> find_link ls ft = Some sh) /\
  (forall i f, In i is -> nth_error s i = Some f -> exists sh, find_link ls (fn_type f) = Some sh).
Proof.
  revert acc s. induction is as [|i is IH]; intros acc s L OK E.
  - injection E as <- <-. split; [exists []; now rewrite app_nil_r|]. split; [exact OK|]. split; [auto|]. intros i f [].
  - cbn [link_all] in E. unfold se_bind, get_func in E.
    destruct (nth_error s i) as [f|] eqn:Ef; [|discriminate].
    destruct (find_link acc (fn_type f)) as [sh|] eqn:Efl.
    + destruct (IH _ _ L OK E) as (A & B & C & D). split; [exact A|]. split; [exact B|]. split; [exact C|].
      intros j g [<-|J] Eg; [|eapply D; eassumption]. rewrite Ef in Eg. injection Eg as <-. eauto.
    + destruct (link_signature_spec (fn_type f) s L) as (sh & El & Osh). rewrite El in E.
      set (s1 := s ++ map (op_import (fn_type f)) (sig_ops (fn_type f))) in *.
      assert (G : grows n s s1) by (apply grows_app; [exact L|apply op_imports_unexported]).
      destruct (IH (acc ++ [(fn_type f, sh)]) s1) as ((new & -> & U) & B & C & D); [|  | exact E |].
      * unfold s1. rewrite app_length. lia.
      * apply Forall_app. split; [now apply links_ok_grows with s|]. constructor; [exact Osh|constructor].
      * split; [|split; [exact B|split]].
        -- exists (map (op_import (fn_type f)) (sig_ops (fn_type f)) ++ new). unfold s1. rewrite app_assoc. split; [reflexivity|].
           apply Forall_app. split; [apply op_imports_unexported|exact U].
        -- intros ft sh' Q. apply C. now apply find_link_app_some.
        -- intros j g [<-|J] Eg.
           ++ rewrite Ef in Eg. injection Eg as <-. exists sh. apply C. rewrite find_link_app_none by exact Efl. simpl.
              rewrite (proj2 (functy_eqb_eq _ _) eq_refl). reflexivity.
           ++ eapply D; [exact J|]. unfold s1. now apply nth_error_app_l.
Qed.

(** ** Interception *)
Definition wrapper_fn (sh : stack_hooks) (f : func) (g k i : nat) : func :=
  Fn (fn_type f)
     (FPresent [t_i32; t_i32]
        (wrapper_body sh (fn_type f) g (Z.of_nat k) (Z.of_nat i)
           (Z.of_nat (List.length (ft_in (fn_type f)))) (Z.of_nat (List.length (ft_out (fn_type f))))
           (if has_code f then 0 else 1)%Z)) (fn_exports f).

Lemma i32_of_Some n z : i32_of n = Some z -> z = Z.of_nat n /\ (Z.of_nat n < 2 ^ 31)%Z.
Proof. unfold i32_of. destruct (Z.ltb_spec (Z.of_nat n) (2 ^ 31)); [|discriminate]. intros E. injection E as <-. auto. Qed.

(** Function [i] of [s] has been intercepted as number [k]; [ap] is its apply function. *)
Definition intercepted (n : nat) (ls : links) (g k i ap : nat) (f : func) (fs : list func) : Prop :=
  exists sh base,
    find_link ls (fn_type f) = Some sh /\
    nth_error fs i = Some (wrapper_fn sh f g k i) /\
    nth_error fs base = Some (copy_of f) /\ n <= base /\
    nth_error fs ap = Some (apply_fn sh base) /\ n <= ap /\
    (Z.of_nat k < 2 ^ 31 /\ Z.of_nat i < 2 ^ 31)%Z.

Lemma intercept_spec ls g k i s n ap s' :
  n <= List.length s -> i < n -> intercept ls g k i s = Some (ap, s') ->
  exists f, nth_error s i = Some f /\ intercepted n ls g k i ap f s' /\ grows n s s' /\
    forall j, j < n -> j <> i -> nth_error s' j = nth_error s j.
Proof.
  intros L I E. unfold intercept, se_bind, get_func, lift, add_func, se_ret, set_func in E.
  destruct (nth_error s i) as [f|] eqn:Ef; [|discriminate].
  destruct (find_link ls (fn_type f)) as [sh|] eqn:Efl; [|discriminate].
  destruct (i32_of (List.length (ft_in (fn_type f)))) as [argc|] eqn:Ea; [|discriminate].
  destruct (i32_of (List.length (ft_out (fn_type f)))) as [resc|] eqn:Er; [|discriminate].
  destruct (i32_of k) as [kz|] eqn:Ek; [|discriminate].
  destruct (i32_of i) as [iz|] eqn:Ei; [|discriminate].
  destruct (i32_of_Some _ Ea) as [-> _], (i32_of_Some _ Er) as [-> _],
           (i32_of_Some _ Ek) as [-> Lk], (i32_of_Some _ Ei) as [-> Li].
  set (s1 := s ++ [copy_of f]) in *. set (s2 := s1 ++ [apply_fn sh (List.length s)]) in *.
  destruct (Nat.ltb_spec i (List.length s2)) as [L2|]; [|discriminate].
  injection E as <- <-.
  assert (N1 : List.length s < List.length s1) by (unfold s1; rewrite app_length; simpl; lia).
  assert (N2 : List.length s1 < List.length s2) by (unfold s2; rewrite app_length; simpl; lia).
  assert (Ei2 : nth_error s2 i = Some f) by (unfold s2, s1; now do 2 apply nth_error_app_l).
  exists f. split; [reflexivity|]. split; [|split].
  - exists sh, (List.length s). split; [exact Efl|]. rewrite update_nth_eq, Ei2. split; [reflexivity|].
    rewrite !update_nth_neq by lia. split; [|split; [lia|split; [|split; [lia|auto]]]].
    + unfold s2. apply nth_error_app_l. unfold s1. apply nth_error_app_exact.
    + unfold s2. apply nth_error_app_exact.
  - eapply grows_trans; [apply grows_app with (new := [copy_of f; apply_fn sh (List.length s)]); [exact L|]|].
    + repeat constructor.
    + replace (s ++ [copy_of f; apply_fn sh (List.length s)]) with s2
        by (unfold s2, s1; now rewrite <- app_assoc).
      apply grows_update; [lia|exact I|]. intros x Ex. rewrite Ei2 in Ex. now injection Ex as <-.
  - intros j J Nj. rewrite update_nth_neq by congruence. unfold s2, s1. rewrite !nth_error_app1; try rewrite app_length; auto; lia.
Qed.

Lemma intercepted_grows n ls g k i ap f fs fs' :
  grows n fs fs' -> nth_error fs' i = nth_error fs i ->
  intercepted n ls g k i ap f fs -> intercepted n ls g k i ap f fs'.
Proof.
  intros G E (sh & base & A & B & C & D & F & H & K). exists sh, base.
  split; [exact A|]. split; [congruence|]. split; [eapply grows_nth; eassumption|]. split; [exact D|].
  split; [eapply grows_nth; eassumption|]. auto.
Qed.

Lemma intercept_all_spec ls g is n : forall k s aps s',
  n <= List.length s -> (forall i, In i is -> i < n) -> NoDup is ->
  intercept_all ls g k is s = Some (aps, s') ->
  List.length aps = List.length is /\ grows n s s' /\
  (forall j, j < n -> ~ In j is -> nth_error s' j = nth_error s j) /\
  (forall p i, nth_error is p = Some i ->
     exists f ap, nth_error s i = Some f /\ nth_error aps p = Some ap /\
       intercepted n ls g (k + p) i ap f s').
Proof.
  induction is as [|i is IH]; intros k s aps s' L B ND E.
  - injection E as <- <-. split; [reflexivity|]. split; [now apply grows_refl|]. split; [auto|]. intros [|p] i Q; discriminate.
  - cbn [intercept_all] in E. unfold se_bind, se_ret in E. inversion ND as [|? ? NI ND']; subst.
    destruct (intercept ls g k i s) as [[ap s1]|] eqn:Ei; [|discriminate].
    destruct (intercept_all ls g (S k) is s1) as [[aps' s2]|] eqn:Er; [|discriminate]. injection E as <- <-.
    destruct (@intercept_spec ls g k i s n ap s1 L (B i (or_introl eq_refl)) Ei) as (f & Ef & If & G1 & Same1).
    destruct (IH (S k) s1 aps' s2) as (Len & G2 & Same2 & P2); auto.
    { eapply grows_length; eassumption. } { intros j J. apply B. now right. }
    split; [simpl; lia|]. split; [eapply grows_trans; eassumption|]. split.
    + intros j J N. rewrite Same2, Same1; auto. intros ->. apply N. now left. intros J'. apply N. now right.
    + intros [|p] j Q.
      * injection Q as <-. exists f, ap. split; [exact Ef|]. split; [reflexivity|]. rewrite Nat.add_0_r.
        eapply intercepted_grows; [exact G2| |exact If]. apply Same2; [apply B; now left|exact NI].
      * simpl in Q. destruct (P2 p j Q) as (f' & ap' & Ef' & Eap & I'). exists f', ap'.
        replace (k + S p) with (S k + p) by lia. split; [|auto].
        rewrite <- Ef'. symmetry. apply Same1; [apply B; right; eapply nth_error_In; eassumption|].
        intros ->. apply NI. eapply nth_error_In; eassumption.
Qed.

(** ** The whole output *)
Lemma structure_all_spec infer m is bodies : structure_all infer m is = COk bodies ->
  Forall2 (fun i b => exists ft locals body ex,
             nth_error (md_funcs m) i = Some (Fn ft (FPresent locals body) ex) /\
             structure_typed i (infer i) body = COk b) is bodies.
Proof.
  revert bodies. induction is as [|i is IH]; intros bodies E; simpl in E.
  - injection E as <-. constructor.
  - destruct (nth_error (md_funcs m) i) as [[ft [|locals body] ex]|] eqn:En; try discriminate.
    destruct (structure_typed i (infer i) body) as [b| |] eqn:Es; try discriminate.
    destruct (structure_all infer m is) as [bs| |] eqn:Ea; try discriminate.
    injection E as <-. constructor; [|now apply IH]. eauto 10.
Qed.

Lemma Forall2_nth {A B} (P : A -> B -> Prop) l l' k a :
  Forall2 P l l' -> nth_error l k = Some a -> exists b, nth_error l' k = Some b /\ P a b.
Proof.
  intros F. revert k. induction F as [|x y l l' H F IH]; intros [|k] E; simpl in E; try discriminate.
  - injection E as <-. exists y. auto.
  - destruct (IH _ E) as (b & Eb & Pb). exists b. auto.
Qed.
Lemma Forall2_len {A B} (P : A -> B -> Prop) l l' : Forall2 P l l' -> List.length l = List.length l'.
Proof. induction 1; simpl; auto. Qed.

(** The code of function [i] after weaving, before interception. *)
Definition woven (H : hook -> option nat) (hf : nat -> nat -> nat)
    (infer : nat -> list low -> option (list ity)) (m : module) (only : option (list nat)) (i : nat) (f : func) : fcode :=
  match fn_code f with
  | FPresent locals body =>
      if selected m only i then
        match structure_typed i (infer i) body with
        | COk b => FPresent locals (flatten (weave H (hf i) b))
        | _ => fn_code f
        end
      else fn_code f
  | c => c
  end.
Definition woven_fn H hf infer m only i f : func := Fn (fn_type f) (woven H hf infer m only i f) (fn_exports f).

(** Where everything is in the output. [is]: the intercepted functions in table order;
    [aps]: their apply functions. *)
Record layout (infer : nat -> list low -> option (list ity)) (m : module) (ai : interface)
    (only : option (list nat)) (is : list nat) (H : hook -> option nat) (hf : nat -> nat -> nat)
    (aps : list nat) (fs : list func) : Prop := {
  ly_hooks : forall h, match ai_hook ai h with
     | Some e => exists i, H h = Some i /\ nth_error fs i = Some (hook_import e)
     | None => H h = None
     end;
  ly_converted : forall i f locals body, nth_error (md_funcs m) i = Some f -> fn_code f = FPresent locals body ->
     selected m only i = true -> exists b, structure_typed i (infer i) body = COk b;
  ly_helpers : forall i f locals body b p x,
     nth_error (md_funcs m) i = Some f -> fn_code f = FPresent locals body -> selected m only i = true ->
     structure_typed i (infer i) body = COk b -> In (p, x) (br_tables b) -> H HkBrTable <> None ->
     nth_error fs (hf i p) = Some (helper_fn (p, x));
  ly_plain : forall i f, nth_error (md_funcs m) i = Some f -> ~ In i is ->
     nth_error fs i = Some (woven_fn H hf infer m only i f);
  ly_wrapped : forall k i, nth_error is k = Some i ->
     exists f ap gexp base g ls, nth_error (md_funcs m) i = Some f /\ ai_generic ai = Some (gexp, base) /\
       nth_error aps k = Some ap /\ nth_error fs g = Some (hook_import gexp) /\
       links_ok fs (List.length (md_funcs m)) ls /\
       intercepted (List.length (md_funcs m)) ls g k i ap (woven_fn H hf infer m only i f) fs;
  ly_shape : exists olds mid,
     fs = olds ++ mid
          ++ match ai_generic ai with Some (_, b) => [call_base_fn b (List.length (md_tables m))] | None => [] end
          ++ memory_helpers (Nat.eqb (List.length (md_mems m)) 1) /\
     List.length olds = List.length (md_funcs m) /\
     map sig_of olds = map sig_of (md_funcs m) /\ Forall unexported mid;
  ly_aps : List.length aps = List.length is }.

Lemma selected_In m only i : In i (filter (selected m only) (indices m)) <-> selected m only i = true.
Proof.
  rewrite filter_In. split; [tauto|]. intros S. split; [|exact S]. unfold indices. apply in_seq.
  unfold selected in S. destruct (nth_error (md_funcs m) i) eqn:E; [|discriminate].
  assert (i < List.length (md_funcs m)) by (apply nth_error_Some; congruence). lia.
Qed.
Lemma selected_incl_In m only i : In i (filter (selected_incl m only) (indices m)) <-> selected_incl m only i = true.
Proof.
  rewrite filter_In. split; [tauto|]. intros S. split; [|exact S]. unfold indices. apply in_seq.
  unfold selected_incl in S. destruct (nth_error (md_funcs m) i) eqn:E; [|discriminate].
  assert (i < List.length (md_funcs m)) by (apply nth_error_Some; congruence). lia.
Qed.
Lemma indices_filter_NoDup m p : NoDup (filter p (indices m)).
Proof. apply NoDup_filter, seq_NoDup. Qed.

(** After the traps are installed and the bodies transformed and written back. *)
Lemma step1_spec hs infer m ai only is_c bodies fs1 :
  NoDup hs -> if_then_first hs -> (forall h, In h hs) ->
  Permutation is_c (filter (selected m only) (indices m)) ->
  structure_all infer m is_c = COk bodies ->
  (ts <- install ai hs ;;
   bs <- transform_all ts bodies ;;
   fun s => Some (tt, write_back is_c bs s)) (md_funcs m) = Some (tt, fs1) ->
  exists H hf,
    grows (List.length (md_funcs m)) (md_funcs m) fs1 /\
    (forall h, match ai_hook ai h with
       | Some e => exists i, H h = Some i /\ nth_error fs1 i = Some (hook_import e) /\ List.length (md_funcs m) <= i
       | None => H h = None
       end) /\
    (forall i f locals body, nth_error (md_funcs m) i = Some f -> fn_code f = FPresent locals body ->
       selected m only i = true -> exists b, structure_typed i (infer i) body = COk b) /\
    (forall i f locals body b p x,
       nth_error (md_funcs m) i = Some f -> fn_code f = FPresent locals body -> selected m only i = true ->
       structure_typed i (infer i) body = COk b -> In (p, x) (br_tables b) -> H HkBrTable <> None ->
       nth_error fs1 (hf i p) = Some (helper_fn (p, x)) /\ List.length (md_funcs m) <= hf i p) /\
    (forall i f, nth_error (md_funcs m) i = Some f -> nth_error fs1 i = Some (woven_fn H hf infer m only i f)).
Proof.
  intros NDhs IThs Allhs Perm Es E. set (n := List.length (md_funcs m)) in *.
  assert (NDc : NoDup is_c) by (eapply Permutation_NoDup; [apply Permutation_sym, Perm|apply indices_filter_NoDup]).
  assert (InC : forall i, In i is_c <-> selected m only i = true).
  { intros i. rewrite <- selected_In. split; intros I; eapply Permutation_in; try eassumption. now apply Permutation_sym. }
  assert (Bc : forall i, In i is_c -> i < n).
  { intros i I. apply InC in I. unfold selected in I. destruct (nth_error (md_funcs m) i) eqn:Q; [|discriminate].
    apply nth_error_Some. congruence. }
  unfold se_bind in E.
  destruct (install_spec ai hs (md_funcs m)) as (ts & Ei & Ef & Nth). rewrite Ei in E.
  set (s0 := md_funcs m ++ hook_imports ai hs) in *.
  destruct (transform_all ts bodies s0) as [[bs s1]|] eqn:Et; [|discriminate]. injection E as <-.
  assert (NDt : NoDup (map fst ts)) by (rewrite Ef; apply NoDup_filter, NDhs).
  assert (ITt : if_then_first (map fst ts)).
  { rewrite Ef. apply if_then_first_filter, IThs. }
  assert (F2 := structure_all_spec _ _ _ Es).
  assert (NB : Forall (fun b => NoDup (map fst (br_tables b))) bodies).
  { clear - F2. induction F2 as [|i b is bodies (ft & lo & body & ex & _ & S) F IH]; constructor; auto.
    destruct (structure_typed_located _ _ _ S) as (tys & _ & _ & ND). now apply br_tables_positions. }
  assert (Ls0' : n <= List.length s0) by (unfold s0; rewrite app_length; unfold n; lia).
  destruct (@transform_all_spec n ts bodies s0 bs s1 Ls0' NDt ITt NB Et) as ((new & -> & U) & W).
  assert (Ghooks : Forall unexported (hook_imports ai hs)).
  { unfold hook_imports. apply Forall_forall. intros f I. apply in_flat_map in I. destruct I as (h & _ & I).
    destruct (ai_hook ai h); [|destruct I]. destruct I as [<-|[]]. reflexivity. }
  assert (G0 : grows n (md_funcs m) s0) by (apply grows_app; [unfold n; lia|exact Ghooks]).
  assert (Ls0 : n <= List.length s0) by (eapply grows_length; eassumption).
  assert (G1 : grows n s0 (s0 ++ new)) by (apply grows_app; assumption).
  assert (G2 : grows n (s0 ++ new) (write_back is_c bs (s0 ++ new))).
  { apply write_back_grows; [rewrite app_length; lia|exact Bc]. }
  set (H := enabled_in ts) in *.
  (* the helper indices, per function *)
  set (fs1 := write_back is_c bs (s0 ++ new)) in *.
  assert (Exhf : exists hf : nat -> nat -> nat, forall k i b b',
            nth_error is_c k = Some i -> nth_error bodies k = Some b -> nth_error bs k = Some b' ->
            b' = weave H (hf i) b /\ (forall p, n <= hf i p) /\
            forall p x, In (p, x) (br_tables b) -> H HkBrTable <> None ->
              nth_error (s0 ++ new) (hf i p) = Some (helper_fn (p, x))).
  { assert (Lc : List.length is_c = List.length bodies) by (eapply Forall2_len; exact F2).
    clear - W NDc Lc. revert is_c NDc Lc. induction W as [|b b' bodies bs (hf0 & Eb & Hge & Hp) W IH]; intros is_c ND L.
    - exists (fun _ _ => 0). intros [|k] i b b' _ Q; discriminate.
    - destruct is_c as [|j is_c]; [discriminate|]. inversion ND as [|? ? NI ND']; subst.
      destruct (IH is_c ND' (f_equal pred L)) as (hf & Hhf).
      exists (fun i => if Nat.eqb i j then hf0 else hf i). intros [|k] i c c' E1 E2 E3; simpl in E1, E2, E3.
      + injection E1 as <-. injection E2 as <-. injection E3 as <-. rewrite Nat.eqb_refl. auto.
      + destruct (Nat.eqb_spec i j) as [->|N]; [exfalso; apply NI; eapply nth_error_In; eassumption|].
        eapply Hhf; eassumption. }
  destruct Exhf as (hf & Hhf).
  assert (Lbs : List.length is_c = List.length bs).
  { rewrite (Forall2_len F2). eapply Forall2_len; exact W. }
  (* a selected function with its body *)
  assert (Sel : forall i f locals body, nth_error (md_funcs m) i = Some f -> fn_code f = FPresent locals body ->
             selected m only i = true -> exists k b b', nth_error is_c k = Some i /\ nth_error bodies k = Some b /\
               nth_error bs k = Some b' /\ structure_typed i (infer i) body = COk b).
  { intros i f locals body Ef' Ec S. apply InC, In_nth_error in S. destruct S as (k & Ek).
    destruct (Forall2_nth _ F2 Ek) as (b & Eb & ft & lo & body' & ex & Q & Sb).
    destruct (Forall2_nth _ W Eb) as (b' & Eb' & _).
    rewrite Ef' in Q. injection Q as ->. simpl in Ec. injection Ec as <- <-. exists k, b, b'. auto. }
  assert (Beyond : forall i f, n <= i -> nth_error (s0 ++ new) i = Some f -> nth_error fs1 i = Some f).
  { intros i f L Q. eapply grows_nth; eassumption. }
  exists H, hf. split; [exact (grows_trans (grows_trans G0 G1) G2)|]. split; [|split; [|split]].
  - intros h. destruct (enabled_in_spec ts h NDt) as [A B]. destruct (ai_hook ai h) as [e|] eqn:Eh.
    + assert (I : In h (map fst ts)).
      { rewrite Ef. apply filter_In. split; [apply Allhs|]. unfold ai_on. now rewrite Eh. }
      apply in_map_iff in I. destruct I as ([h' i] & Q & I). simpl in Q. subst h'.
      destruct (Nth h i I) as (Li & e' & Ee & Ni). rewrite Eh in Ee. injection Ee as <-.
      exists i. split; [now apply A|]. split; [|exact Li]. apply Beyond; [exact Li|]. now apply nth_error_app_l.
    + apply B. rewrite Ef, filter_In. unfold ai_on. rewrite Eh. intros [_ Q]. discriminate.
  - intros i f locals body Ef' Ec S. destruct (Sel _ _ _ _ Ef' Ec S) as (k & b & b' & _ & _ & _ & Q). eauto.
  - intros i f locals body b p x Ef' Ec S Sb I Hn.
    destruct (Sel _ _ _ _ Ef' Ec S) as (k & b0 & b' & Q1 & Q2 & Q3 & Q4). rewrite Q4 in Sb. injection Sb as ->.
    destruct (Hhf _ _ _ _ Q1 Q2 Q3) as (Eb & Hge & Hp). split; [|apply Hge]. apply Beyond; [apply Hge|]. now apply Hp.
  - intros i f Ef'. pose proof (write_back_spec bs (s0 ++ new) NDc Lbs i) as WB.
    assert (E0 : nth_error (s0 ++ new) i = Some f) by (unfold s0; now do 2 apply nth_error_app_l).
    rewrite E0 in WB. fold fs1 in WB. unfold woven_fn, woven. destruct WB as [[NI Q]|(k & b' & K1 & K2 & Q)].
    + rewrite Q. f_equal. destruct f as [ft c ex]. simpl. f_equal. destruct c; [reflexivity|].
      destruct (selected m only i) eqn:S; [|reflexivity]. exfalso. apply NI. now apply InC.
    + rewrite Q. f_equal.
      destruct (Forall2_nth _ F2 K1) as (b & Eb & ft & lo & body & ex & Q' & Sb).
      rewrite Ef' in Q'. injection Q' as ->. simpl. rewrite (proj1 (InC i) (nth_error_In _ _ K1)), Sb.
      destruct (Hhf _ _ _ _ K1 Eb K2) as (-> & _). reflexivity.
Qed.

Theorem instrument_layout ord_i ord_c infer m ai only m' lib :
  (forall l, Permutation (ord_i l) l) -> (forall l, Permutation (ord_c l) l) ->
  instrument ord_i ord_c infer m ai only = IOk m' lib ->
  exists H hf aps,
    let is := match ai_generic ai with
              | Some _ => ord_i (filter (selected_incl m only) (indices m)) | None => [] end in
    layout infer m ai only is H hf aps (md_funcs m') /\
    md_tables m' = md_tables m ++ match ai_generic ai with Some _ => [apply_table aps] | None => [] end /\
    md_elems m' = md_elems m ++ match ai_generic ai with
                                | Some _ => [apply_elem aps (List.length (md_tables m))] | None => [] end /\
    md_mems m' = md_mems m /\ md_globals m' = md_globals m /\ md_datas m' = md_datas m /\
    md_start m' = md_start m /\ List.length (md_mems m) <= 1.
Proof.
  intros Pi Pc E. unfold instrument in E.
  set (is_i := ord_i (filter (selected_incl m only) (indices m))) in *.
  set (is_c := ord_c (filter (selected m only) (indices m))) in *.
  destruct (structure_all infer m is_c) as [bodies| |] eqn:Es; try discriminate.
  match type of E with match ?X with _ => _ end = _ => destruct X as [[[] fs1]|] eqn:E1; [|discriminate] end.
  destruct (@step1_spec _ infer m ai only is_c bodies fs1 all_hooks_NoDup all_hooks_if_then_first all_hooks_complete (Pc _) Es E1) as (H & hf & G & Hh & Hc & Hp & Hw).
  set (n := List.length (md_funcs m)) in *.
  assert (Ln : n <= List.length fs1) by (eapply grows_length; eassumption).
  assert (Fn_ : forall f : list func, firstn n f ++ skipn n f = f) by (intros f; apply firstn_skipn).
  destruct (ai_generic ai) as [[gexp base]|] eqn:Eg.
  - destruct (function_application is_i gexp base (List.length (md_tables m)) fs1) as [[[aps sigs] fs2]|] eqn:Efa; [|discriminate].
    unfold inject_memory in E. destruct (Nat.leb_spec (List.length (md_mems m)) 1) as [Lm|]; [|discriminate].
    injection E as <- <-. simpl.
    unfold function_application, se_bind, add_import, add_func, lift, se_ret in Efa.
    change (Fn (wf_type gexp) (FImport analysis_ns (wf_name gexp)) []) with (hook_import gexp) in Efa.
    set (sg := fs1 ++ [hook_import gexp]) in *.
    destruct (link_all is_i [] sg) as [[ls sl]|] eqn:Ell; [|discriminate].
    destruct (intercept_all ls (List.length fs1) 0 is_i sl) as [[aps' si]|] eqn:Eia; [|discriminate].
    destruct (Z.of_nat (List.length aps') <? 2 ^ 32)%Z; [|discriminate]. injection Efa as <- <- <-.
    assert (Lsg : n <= List.length sg) by (unfold sg; rewrite app_length; lia).
    assert (Gg : grows n fs1 sg) by (apply grows_app; [exact Ln|repeat constructor]).
    destruct (@link_all_spec is_i [] sg ls sl n Lsg (Forall_nil _) Ell) as ((newl & -> & Ul) & Lok & _ & Lfind).
    assert (Gl : grows n sg (sg ++ newl)) by (apply grows_app; assumption).
    assert (NDi : NoDup is_i) by (eapply Permutation_NoDup; [apply Permutation_sym, Pi|apply indices_filter_NoDup]).
    assert (InI : forall i, In i is_i <-> selected_incl m only i = true).
    { intros i. rewrite <- selected_incl_In. unfold is_i.
      split; intros I; eapply Permutation_in; try eassumption; [apply Pi|apply Permutation_sym, Pi]. }
    assert (Bi : forall i, In i is_i -> i < n).
    { intros i I. apply InI in I. unfold selected_incl in I. destruct (nth_error (md_funcs m) i) eqn:Q; [|discriminate].
      apply nth_error_Some. congruence. }
    destruct (@intercept_all_spec ls (List.length fs1) is_i n 0 (sg ++ newl) aps' si (grows_length Gl) Bi NDi Eia)
      as (La & Gi & Same & Wr).
    set (cb := call_base_fn base (List.length (md_tables m))) in *.
    set (mh := memory_helpers (Nat.eqb (List.length (md_mems m)) 1)) in *.
    assert (Gall : grows n (md_funcs m) si) by exact (grows_trans (grows_trans (grows_trans G Gg) Gl) Gi).
    assert (Lsi : n <= List.length si) by (eapply grows_length; eassumption).
    assert (Up : forall i f, nth_error si i = Some f -> nth_error ((si ++ [cb]) ++ mh) i = Some f).
    { intros i f Q. now do 2 apply nth_error_app_l. }
    assert (Beyond : forall i f, n <= i -> nth_error fs1 i = Some f -> nth_error ((si ++ [cb]) ++ mh) i = Some f).
    { intros i f L Q. apply Up. eapply grows_nth; [exact Gi|exact L|]. eapply grows_nth; [exact Gl|exact L|].
      eapply grows_nth; [exact Gg|exact L|exact Q]. }
    exists H, hf, aps'. split; [|repeat split; try reflexivity; exact Lm].
    constructor.
    + intros h. specialize (Hh h). destruct (ai_hook ai h); [|exact Hh]. destruct Hh as (i & A & B & C). eauto.
    + exact Hc.
    + intros i f locals body b p x A1 A2 A3 A4 A5 A6. destruct (Hp _ _ _ _ _ _ _ A1 A2 A3 A4 A5 A6) as [B C]. auto.
    + intros i f A NI. apply Up. rewrite Same by (auto; apply nth_error_Some; congruence).
      do 2 apply nth_error_app_l. now apply Hw.
    + intros k i K. destruct (Wr k i K) as (f & ap & A & B & C).
      assert (Li : i < n) by (apply Bi; eapply nth_error_In; eassumption).
      destruct (nth_error (md_funcs m) i) as [f0|] eqn:Ef0; [|apply nth_error_None in Ef0; unfold n in Li; lia].
      assert (Q : nth_error (sg ++ newl) i = Some (woven_fn H hf infer m only i f0)).
      { do 2 apply nth_error_app_l. now apply Hw. }
      rewrite Q in A. injection A as <-.
      exists f0, ap, gexp, base, (List.length fs1), ls. split; [reflexivity|]. split; [exact Eg|]. split; [exact B|].
      split; [|split].
      * apply Up. eapply grows_nth; [exact Gi|exact Ln|]. eapply grows_nth; [exact Gl|exact Ln|].
        unfold sg. apply nth_error_app_exact.
      * assert (Lsi' : links_ok si n ls) by (eapply links_ok_grows; [exact Gi|exact Lok]).
        eapply Forall_impl; [|exact Lsi']. intros x O.
        assert (UpO : forall o j, op_at si (fst x) o j /\ n <= j -> op_at ((si ++ [cb]) ++ mh) (fst x) o j /\ n <= j).
        { intros o j [P R]. split; [now apply Up|exact R]. }
        destruct O. constructor; auto; (eapply Forall2_impl; [|eassumption]; intros; now apply UpO).
      * destruct C as (sh & bs & C1 & C2 & C3 & C4 & C5 & C6 & C7). exists sh, bs.
        repeat (split; [first [exact C1 | now apply Up | exact C4 | exact C6]|]); first [now apply Up|exact C7|auto].
    + rewrite Eg. exists (firstn n si), (skipn n si). split; [|split; [|split]].
      * fold cb mh. now rewrite app_assoc, Fn_, <- app_assoc.
      * rewrite firstn_length. fold n. lia.
      * destruct Gall as (_ & S & _). rewrite S, firstn_all2; [reflexivity|unfold n; lia].
      * destruct Gall as (_ & _ & new & S & U). rewrite S. rewrite skipn_all2 by (unfold n; lia). exact U.
    + exact La.
  - unfold inject_memory in E. destruct (Nat.leb_spec (List.length (md_mems m)) 1) as [Lm|]; [|discriminate].
    injection E as <- <-. simpl. rewrite !app_nil_r.
    set (mh := memory_helpers (Nat.eqb (List.length (md_mems m)) 1)) in *.
    assert (Up : forall i f, nth_error fs1 i = Some f -> nth_error (fs1 ++ mh) i = Some f) by (intros; now apply nth_error_app_l).
    exists H, hf, []. split; [|repeat split; try reflexivity; exact Lm].
    constructor.
    + intros h. specialize (Hh h). destruct (ai_hook ai h); [|exact Hh]. destruct Hh as (i & A & B & C). eauto.
    + exact Hc.
    + intros i f locals body b p x A1 A2 A3 A4 A5 A6. destruct (Hp _ _ _ _ _ _ _ A1 A2 A3 A4 A5 A6) as [B C]. auto.
    + intros i f A _. apply Up. now apply Hw.
    + intros [|k] i K; discriminate.
    + rewrite Eg. exists (firstn n fs1), (skipn n fs1). split; [|split; [|split]].
      * simpl. fold mh. now rewrite app_assoc, Fn_.
      * rewrite firstn_length. fold n. lia.
      * destruct G as (_ & S & _). rewrite S, firstn_all2; [reflexivity|unfold n; lia].
      * destruct G as (_ & _ & new & S & U). rewrite S. rewrite skipn_all2 by (unfold n; lia). exact U.
    + reflexivity.
Qed.
