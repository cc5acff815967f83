(** Proofs of C04, C05, C06, C11 about the weave and the passes. *)
From Verif Require Import Passes Nesting NestingSpec NestingProofs WeaveSpec WeaveProofs.
From Verif Require Export WeavePropSpec.
Local Open Scope se_scope.

(** ** C04: the concrete order *)
Lemma all_hooks_complete h : In h all_hooks_order.
Proof.
  assert (D : forall l : list hook, existsb (fun x => if hook_eq_dec x h then true else false) l = true -> In h l).
  { intros l E. apply existsb_exists in E. destruct E as (x & I & E). destruct (hook_eq_dec x h); [now subst|discriminate]. }
  apply D. destruct h; repeat match goal with t : numty |- _ => destruct t | k : binkind |- _ => destruct k
    | o : localop |- _ => destruct o | o : globalop |- _ => destruct o end; reflexivity.
Qed.
Definition nodupb (l : list hook) : bool :=
  (fix go l := match l with [] => true | x :: r => negb (existsb (fun y => if hook_eq_dec x y then true else false) r) && go r end) l.
Lemma nodupb_NoDup l : nodupb l = true -> NoDup l.
Proof.
  induction l as [|x r IH]; simpl; [constructor|]. rewrite andb_true_iff, negb_true_iff. intros [A B].
  constructor; [|now apply IH]. intros I.
  assert (E : existsb (fun y => if hook_eq_dec x y then true else false) r = true).
  { apply existsb_exists. exists x. split; [exact I|]. destruct (hook_eq_dec x x); congruence. }
  congruence.
Qed.
Lemma all_hooks_NoDup : NoDup all_hooks_order.
Proof. apply nodupb_NoDup. reflexivity. Qed.

Lemma passes_of_fst H : map fst (passes_of H) = filter (is_enabled H) all_hooks_order.
Proof.
  unfold passes_of, is_enabled. induction all_hooks_order as [|h l IH]; simpl; [reflexivity|].
  rewrite map_app, IH. destruct (H h); reflexivity.
Qed.
Lemma passes_of_NoDup H : NoDup (map fst (passes_of H)).
Proof. rewrite passes_of_fst. apply NoDup_filter, all_hooks_NoDup. Qed.
Lemma if_then_first_filter p l : if_then_first l -> if_then_first (filter p l).
Proof.
  induction l as [|h l IH]; simpl; [auto|]. intros [A B].
  destruct (p h); simpl; [|now apply IH]. split; [|now apply IH].
  intros E I. apply (A E). apply filter_In in I. tauto.
Qed.
Lemma all_hooks_if_then_first : if_then_first all_hooks_order.
Proof.
  unfold all_hooks_order. cbn [if_then_first].
  repeat (apply conj; [intros E; try discriminate E|]); try exact I.
  intros A. repeat (destruct A as [A|A]; [discriminate A|]). exact A.
Qed.
Lemma passes_of_if_then_first H : if_then_first (map fst (passes_of H)).
Proof. rewrite passes_of_fst. apply if_then_first_filter, all_hooks_if_then_first. Qed.

Lemma enabled_in_spec ts h : NoDup (map fst ts) ->
  (forall f, In (h, f) ts -> enabled_in ts h = Some f) /\
  (~ In h (map fst ts) -> enabled_in ts h = None).
Proof.
  unfold enabled_in. intros H. split.
  - generalize (fun _ : hook => @None nat) as H0.
    induction ts as [|[h' f'] ts IH]; intros H0 f I; [destruct I|].
    simpl in H. inversion H as [|? ? N1 N2]; subst. simpl. destruct I as [E|I].
    + injection E as -> ->. rewrite enable_list_other by exact N1. apply enable_same.
    + now apply IH.
  - intros N. now rewrite enable_list_other.
Qed.
Lemma enabled_in_passes_of H h : enabled_in (passes_of H) h = H h.
Proof.
  destruct (enabled_in_spec (passes_of H) h (passes_of_NoDup H)) as [A B].
  destruct (H h) as [f|] eqn:E.
  - apply A. unfold passes_of. apply in_flat_map. exists h. split; [apply all_hooks_complete|].
    rewrite E. now left.
  - apply B. rewrite passes_of_fst. rewrite filter_In. unfold is_enabled. rewrite E. intros [_ F]. discriminate.
Qed.

Lemma weave_ext H H' hf body : (forall h, H h = H' h) -> weave H hf body = weave H' hf body.
Proof.
  intros E.
  assert (Pt : forall h m ops, point H h m ops = point H' h m ops).
  { intros. unfold point. now rewrite E. }
  assert (In_ : forall h m ops o, instead H h m ops o = instead H' h m ops o).
  { intros. unfold instead. now rewrite E, Pt. }
  assert (Eb : forall m b, weave_basic H hf m b = weave_basic H' hf m b).
  { intros m b. unfold weave_basic. destruct (m_gen m); [reflexivity|].
    destruct b; rewrite ?Pt, ?In_; try reflexivity.
    - destruct o, (m_ty m) as [[[|[?|?] [|? ?]] [|[?|?] [|? ?]]]|]; rewrite ?Pt; reflexivity.
    - destruct o, (m_ty m) as [[[|[?|?] [|? ?]] [|[?|?] [|? ?]]]|]; rewrite ?Pt; reflexivity.
    - destruct (binary_class _ _); [|reflexivity]. now rewrite In_. }
  assert (Hcons : forall i r, weave1 H hf i = weave1 H' hf i -> weave H hf r = weave H' hf r ->
            weave H hf (i :: r) = weave H' hf (i :: r)).
  { intros i r E1 E2. unfold weave in *. cbn [flat_map]. now rewrite E1, E2. }
  induction body as [|m b r IHr|m ft body r IHb IHr|m ft body r IHb IHr|m ft thn r IHt IHr
                     |m ft thn els r IHt IHe IHr] using tbody_ind; [reflexivity|..];
    apply Hcons; try assumption; cbn [weave1]; unfold weave in *; try apply Eb; rewrite ?Pt, ?E;
    repeat match goal with E : flat_map _ _ = flat_map _ _ |- _ => rewrite E; clear E end; reflexivity.
Qed.

Lemma br_tables_positions body :
  incl (map fst (br_tables body)) (positions body) /\
  (NoDup (positions body) -> NoDup (map fst (br_tables body))).
Proof.
  assert (App : forall a b A B, incl (map fst a) A -> (NoDup A -> NoDup (map fst a)) ->
            incl (map fst b) B -> (NoDup B -> NoDup (map fst b)) ->
            incl (map (@fst nat (list nat * nat)) (a ++ b)) (A ++ B) /\
            (NoDup (A ++ B) -> NoDup (map fst (a ++ b)))).
  { intros a b A B I1 N1 I2 N2. rewrite map_app. split.
    - apply incl_app; [now apply incl_appl|now apply incl_appr].
    - intros ND. 
      assert (NA : NoDup A) by (clear - ND; induction A; [constructor|]; inversion ND; subst; constructor; [intros X; apply H1; apply in_or_app; now left|auto]).
      assert (NB : NoDup B) by (clear - ND; induction A; [exact ND|]; inversion ND; subst; auto).
      assert (Dj : forall x, In x A -> ~ In x B).
      { clear - ND. induction A as [|y A IH]; [intros ? []|]. inversion ND as [|? ? X Y]; subst.
        intros x [->|I] J; [apply X, in_or_app; now right|now apply (IH Y x)]. }
      specialize (N1 NA). specialize (N2 NB).
      assert (Dj' : forall x, In x (map fst a) -> ~ In x (map fst b)) by (intros x X Y; apply (Dj x); auto).
      clear - N1 N2 Dj'. induction (map fst a) as [|x l IH]; [exact N2|]. inversion N1; subst. simpl.
      constructor; [|apply IH; auto; intros y Y; apply Dj'; now right].
      intros X. apply in_app_or in X. destruct X; [contradiction|]. apply (Dj' x); [now left|assumption]. }
  assert (Cns : forall p a A, incl (map (@fst nat (list nat * nat)) a) A /\ (NoDup A -> NoDup (map fst a)) ->
            incl (map fst a) (p :: A) /\ (NoDup (p :: A) -> NoDup (map fst a))).
  { intros p a A [I1 N1]. split; [now apply incl_tl|]. intros ND. inversion ND; auto. }
  unfold br_tables, positions.
  induction body as [|m b r IHr|m ft body r IHb IHr|m ft body r IHb IHr|m ft thn r IHt IHr
                     |m ft thn els r IHt IHe IHr] using tbody_ind; cbn [flat_map].
  - split; [apply incl_refl|auto].
  - destruct IHr. apply App; auto.
    + cbn [br_tables1 positions1]. destruct b; try apply incl_nil_l.
      destruct (m_gen m); [apply incl_nil_l|apply incl_refl].
    + intros _. cbn [br_tables1]. destruct b; try constructor.
      destruct (m_gen m); constructor; [intros []|constructor].
  - destruct IHr. cbn [br_tables1 positions1]. apply App; auto; now apply Cns.
  - destruct IHr. cbn [br_tables1 positions1]. apply App; auto; now apply Cns.
  - destruct IHr. cbn [br_tables1 positions1]. rewrite !app_nil_r. apply App; auto; now apply Cns.
  - destruct IHr, IHt, IHe. cbn [br_tables1 positions1]. apply App; auto; apply Cns; now apply App.
Qed.

(** ** C06 *)
Lemma pass_unhooked h f body s :
  (forall i, occurs i body -> ~ In h (hooks_for i)) -> pass h f body s = Some (body, s).
Proof.
  revert s.
  assert (Hcons : forall i r s, (forall s, pass1 h f i s = Some ([i], s)) ->
            (forall s, pass h f r s = Some (r, s)) -> pass h f (i :: r) s = Some (i :: r, s)).
  { intros i r s E1 E2. change (i :: r) with ([i] ++ r). now rewrite pass_app, pass_one, E1, E2. }
  induction body as [|m b r IHr|m ft body r IHb IHr|m ft body r IHb IHr|m ft thn r IHt IHr
                     |m ft thn els r IHt IHe IHr] using tbody_ind; intros s N; [reflexivity|..];
    apply Hcons; try (intros s'; apply IHr; intros i O; apply N; now constructor); clear IHr.
  - intros s'. specialize (N _ (oc_here _ _)). cbn [pass1]. destruct (m_gen m); [reflexivity|].
    assert (E : rewrite_basic h f m b = None); [|now rewrite E].
    destruct h, b; try reflexivity; try (exfalso; apply N; simpl; now auto); cbn [rewrite_basic].
    + destruct (numty_eqb t t0) eqn:Et; [|reflexivity]. apply numty_eqb_eq in Et. subst.
      exfalso. apply N. now left.
    + rewrite unop_hook_spec. destruct (hook_eqb _ _) eqn:Eh; [|reflexivity].
      apply hook_eqb_eq in Eh. exfalso. apply N. rewrite Eh. now left.
    + destruct (hook_eqb _ _) eqn:Eh; [|reflexivity]. apply hook_eqb_eq in Eh. exfalso. apply N.
      rewrite Eh. destruct o; simpl; now left.
    + destruct (localop_eqb o o0 && _) eqn:Eh; [|reflexivity]. apply andb_true_iff in Eh.
      destruct Eh as [E1 E2]. apply localop_eqb_eq in E1. subst o0. exfalso. apply N.
      simpl. unfold ity_is in E2. destruct (m_ty m) as [ft|]; [|discriminate].
      apply functy_eqb_eq in E2. subst ft. destruct o; simpl; now left.
    + destruct (globalop_eqb o o0 && _) eqn:Eh; [|reflexivity]. apply andb_true_iff in Eh.
      destruct Eh as [E1 E2]. apply globalop_eqb_eq in E1. subst o0. exfalso. apply N.
      simpl. unfold ity_is in E2. destruct (m_ty m) as [ft|]; [|discriminate].
      apply functy_eqb_eq in E2. subst ft. destruct o; simpl; now left.
    + rewrite storeop_hook_spec. destruct (hook_eqb _ _) eqn:Eh; [|reflexivity].
      apply hook_eqb_eq in Eh. exfalso. apply N. rewrite Eh. now left.
    + rewrite loadop_hook_spec. destruct (hook_eqb _ _) eqn:Eh; [|reflexivity].
      apply hook_eqb_eq in Eh. exfalso. apply N. rewrite Eh. now left.
  - intros s'. rewrite pass1_block, IHb by (intros i O; apply N; now constructor).
    specialize (N _ (oc_here _ _)). unfold wrap_block. destruct (m_gen m); [reflexivity|].
    destruct h; try reflexivity; exfalso; apply N; simpl; auto.
  - intros s'. rewrite pass1_loop, IHb by (intros i O; apply N; now constructor).
    specialize (N _ (oc_here _ _)). unfold wrap_loop. destruct (m_gen m); [reflexivity|].
    destruct h; try reflexivity; exfalso; apply N; simpl; auto.
  - intros s'. rewrite pass1_if, IHt by (intros i O; apply N; now constructor).
    specialize (N _ (oc_here _ _)). unfold wrap_if. destruct (m_gen m); [reflexivity|].
    destruct h; try reflexivity; exfalso; apply N; simpl; auto.
  - intros s'. rewrite pass1_if_else, IHt by (intros i O; apply N; now constructor).
    rewrite IHe by (intros i O; apply N; now apply oc_else).
    specialize (N _ (oc_here _ _)). unfold wrap_if_else. destruct (m_gen m); [reflexivity|].
    destruct h; try reflexivity; exfalso; apply N; simpl; auto.
Qed.

Lemma run_passes_unhooked ts body s :
  (forall i h f, occurs i body -> In (h, f) ts -> ~ In h (hooks_for i)) ->
  run_passes ts body s = Some (body, s).
Proof.
  induction ts as [|[h f] ts IH]; intros N; [reflexivity|]. cbn [run_passes]. unfold se_bind.
  rewrite pass_unhooked by (intros i O; apply (N i h f O); now left).
  apply IH. intros i h' f' O I. apply (N i h' f' O). now right.
Qed.

Lemma weave_unhooked_basic H hf m b :
  (forall h, In h (hooks_for (TBasic m b)) -> H h = None) -> weave1 H hf (TBasic m b) = [TBasic m b].
Proof.
  intros N. cbn [weave1]. unfold weave_basic. destruct (m_gen m); [reflexivity|].
  assert (Pt : forall h ops, In h (hooks_for (TBasic m b)) -> point H h m ops = []).
  { intros h ops I. now apply point_none, N. }
  assert (In_ : forall h ops o, In h (hooks_for (TBasic m b)) -> instead H h m ops o = o).
  { intros h ops o I. unfold instead. now rewrite N. }
  destruct b; rewrite ?Pt, ?In_, ?app_nil_r by (simpl; auto); try reflexivity.
  - clear N In_. simpl in Pt.
    destruct o, (m_ty m) as [[[|[?|?] [|? ?]] [|[?|?] [|? ?]]]|]; try reflexivity;
      try (rewrite Pt by (simpl; auto); reflexivity).
    destruct (numty_eqb t t0) eqn:E; [|reflexivity]. apply numty_eqb_eq in E. subst.
    now rewrite Pt by (simpl; auto).
  - clear N In_. simpl in Pt.
    destruct o, (m_ty m) as [[[|[?|?] [|? ?]] [|[?|?] [|? ?]]]|]; try reflexivity;
      try (rewrite Pt by (simpl; auto); reflexivity).
  - destruct (binary_class _ _) as [k|] eqn:E; [|reflexivity]. apply In_.
    destruct o; simpl in E |- *; injection E as <-; now left.
Qed.

(** ** C11 *)
Lemma branches_point ctx H h m ops : flat_map (branches1 ctx) (point H h m ops) = [].
Proof.
  unfold point. destruct (H h); [|reflexivity].
  induction (ops ++ _) as [|b l IH]; [reflexivity|]. cbn [map flat_map]. now rewrite IH.
Qed.
Lemma branches_weave ctx H hf body :
  flat_map (branches1 ctx) (weave H hf body) = flat_map (branches1 ctx) body.
Proof.
  revert ctx.
  assert (Hcons : forall i r ctx, flat_map (branches1 ctx) (weave1 H hf i) = branches1 ctx i ->
            flat_map (branches1 ctx) (weave H hf r) = flat_map (branches1 ctx) r ->
            flat_map (branches1 ctx) (weave H hf (i :: r)) = flat_map (branches1 ctx) (i :: r)).
  { intros i r ctx E1 E2. unfold weave in *. cbn [flat_map]. now rewrite flat_map_app, E1, E2. }
  induction body as [|m b r IHr|m ft body r IHb IHr|m ft body r IHb IHr|m ft thn r IHt IHr
                     |m ft thn els r IHt IHe IHr] using tbody_ind; intros ctx; [reflexivity|..];
    apply Hcons; auto; clear Hcons IHr; cbn [weave1]; unfold weave in *.
  - unfold weave_basic. destruct (m_gen m) eqn:G; [simpl; now rewrite G|].
    assert (Is : forall h ops, branches1 ctx (TBasic m b) = [] ->
              flat_map (branches1 ctx) (instead H h m ops [TBasic m b]) = []).
    { intros h ops E. unfold instead. destruct (H h); [apply branches_point|].
      cbn [flat_map]. rewrite E. reflexivity. }
    assert (Bs : branches1 ctx (TBasic m b) = match b with
        | BBr l | BBrIf l => [(m_pos m, [nth_error ctx l])]
        | BBrTable ls d => [(m_pos m, map (nth_error ctx) (ls ++ [d]))]
        | _ => [] end).
    { simpl. now rewrite G. }
    destruct b; rewrite ?flat_map_app, ?branches_point; cbn [flat_map];
      rewrite ?Bs, ?Is by exact Bs; rewrite ?app_nil_r; try reflexivity.
    + destruct o, (m_ty m) as [[[|[?|?] [|? ?]] [|[?|?] [|? ?]]]|];
        rewrite ?flat_map_app, ?branches_point; cbn [flat_map]; rewrite ?Bs; try reflexivity.
      destruct (numty_eqb _ _); rewrite ?flat_map_app, ?branches_point; cbn [flat_map]; rewrite ?Bs; reflexivity.
    + destruct o, (m_ty m) as [[[|[?|?] [|? ?]] [|[?|?] [|? ?]]]|];
        rewrite ?flat_map_app, ?branches_point; cbn [flat_map]; rewrite ?Bs; reflexivity.
    + destruct (binary_class _ _); rewrite ?Is by exact Bs; cbn [flat_map]; rewrite ?Bs; reflexivity.
  - destruct (m_gen m); cbn [flat_map branches1]; rewrite ?flat_map_app, ?branches_point, IHb;
      cbn [app]; now rewrite ?app_nil_r.
  - destruct (m_gen m); cbn [flat_map branches1]; rewrite ?flat_map_app, ?branches_point, IHb;
      cbn [app]; now rewrite ?app_nil_r.
  - destruct (m_gen m); cbn [flat_map branches1];
      rewrite ?flat_map_app, ?branches_point, ?IHt; cbn [app]; [now rewrite ?app_nil_r|].
    destruct (H HkIfThenPost); cbn [flat_map branches1 m_pos];
      rewrite ?flat_map_app, ?branches_point, IHt; now rewrite ?app_nil_r.
  - destruct (m_gen m); cbn [flat_map branches1];
      rewrite ?flat_map_app, ?branches_point; cbn [flat_map branches1]; 
      rewrite ?flat_map_app, ?branches_point, IHt, IHe; cbn [app]; now rewrite ?app_nil_r.
Qed.

(** Generated code pushes constants and calls functions; it transfers control nowhere else. *)
Lemma occurs_point i H h m ops :
  (forall b, In b ops -> (exists t z, b = BConst t z) \/ (exists g, b = BCall g)) ->
  occurs i (point H h m ops) ->
  exists m', (exists t z, i = TBasic m' (BConst t z)) \/ (exists g, i = TBasic m' (BCall g)).
Proof.
  intros Ops. unfold point. destruct (H h) as [f|]; [|intros O; inversion O].
  assert (Ops' : forall b, In b (ops ++ [BConst TI64 (Z.of_nat (m_fun m)); BConst TI64 (Z.of_nat (m_pos m)); BCall f]) ->
     (exists t z, b = BConst t z) \/ (exists g, b = BCall g)).
  { intros b I. apply in_app_or in I. destruct I as [I|[<-|[<-|[<-|[]]]]]; eauto. }
  clear Ops. revert Ops'. generalize (ops ++ [BConst TI64 (Z.of_nat (m_fun m)); BConst TI64 (Z.of_nat (m_pos m)); BCall f]).
  intros l. induction l as [|b l IH]; intros Ops O; [inversion O|].
  cbn [map] in O. inversion O; subst.
  - exists (Meta (m_fun m) (m_pos m) IUnreach true). destruct (Ops b (or_introl eq_refl)) as [(t & z & ->)|(g & ->)]; [left|right]; unfold synth; eauto.
  - apply IH; [|assumption]. intros b' I. apply Ops. now right.
Qed.

(** ** C05 *)
Section EraseProofs.
  Variables (H : hook -> option nat) (hf : nat -> nat) (hook_of : nat -> option hook).
  Hypothesis hook_of_H : forall h f, H h = Some f -> hook_of f = Some h.
  Hypothesis hook_of_hf : forall p, hook_of (hf p) = None.

  (** List-level erasing, as in the definition of [erase1]. *)
  Fixpoint er (pending : list basic) (l : list tinstr) : list uinstr :=
    match l with
    | [] => []
    | TBasic m b :: r =>
        if m_gen m then
          match b with
          | BCall f =>
              match option_bind (hook_of f) (fun h => replaced h pending) with
              | Some u => u :: er [] r
              | None => er [] r
              end
          | _ => er (pending ++ [b]) r
          end
        else UBasic (no_align b) :: er [] r
    | x :: r => erase1 hook_of x :: er [] r
    end.
  Lemma erase1_block m ft body : erase1 hook_of (TBlock m ft body) = UBlock ft (er [] body).
  Proof. reflexivity. Qed.
  Lemma erase1_loop m ft body : erase1 hook_of (TLoop m ft body) = ULoop ft (er [] body).
  Proof. reflexivity. Qed.
  Lemma erase1_if m ft thn : erase1 hook_of (TIf m ft thn None) = UIf ft (er [] thn) None.
  Proof. reflexivity. Qed.
  Lemma erase1_if_else m ft thn els : erase1 hook_of (TIf m ft thn (Some els)) =
    UIf ft (er [] thn) (if m_gen m then None else Some (er [] els)).
  Proof. reflexivity. Qed.
  Lemma erase_er body : erase hook_of body = er [] body.
  Proof. reflexivity. Qed.

  Lemma er_consts m cs pend r :
    (forall b, In b cs -> exists t z, b = BConst t z) ->
    er pend (map (synth m) cs ++ r) = er (pend ++ cs) r.
  Proof.
    revert pend. induction cs as [|c cs IH]; intros pend A; [now rewrite app_nil_r|].
    destruct (A c (or_introl eq_refl)) as (t & z & ->). simpl. rewrite IH by (intros b I; apply A; now right).
    now rewrite <- app_assoc.
  Qed.

  (** A point whose hook does not replace the original disappears. *)
  Lemma er_point h m cs r :
    (forall b, In b cs -> exists t z, b = BConst t z) ->
    replaced h (cs ++ [BConst TI64 (Z.of_nat (m_fun m)); BConst TI64 (Z.of_nat (m_pos m))]) = None ->
    er [] (point H h m cs ++ r) = er [] r.
  Proof.
    intros A R. unfold point. destruct (H h) as [f|] eqn:E; [|reflexivity].
    set (fu := BConst TI64 (Z.of_nat (m_fun m))) in *. set (po := BConst TI64 (Z.of_nat (m_pos m))) in *.
    replace (cs ++ [fu; po; BCall f]) with ((cs ++ [fu; po]) ++ [BCall f]) by now rewrite <- app_assoc.
    rewrite map_app, <- app_assoc, er_consts.
    - simpl. rewrite (hook_of_H E). simpl. now rewrite R.
    - intros b I. apply in_app_or in I. destruct I as [I|[<-|[<-|[]]]]; eauto; unfold fu, po; eauto.
  Qed.
  Lemma er_instead h m cs o u r :
    (forall b, In b cs -> exists t z, b = BConst t z) ->
    replaced h (cs ++ [BConst TI64 (Z.of_nat (m_fun m)); BConst TI64 (Z.of_nat (m_pos m))]) = Some u ->
    (forall r, er [] (o ++ r) = u :: er [] r) ->
    er [] (instead H h m cs o ++ r) = u :: er [] r.
  Proof.
    intros A R O. unfold instead, point. destruct (H h) as [f|] eqn:E; [|apply O].
    set (fu := BConst TI64 (Z.of_nat (m_fun m))) in *. set (po := BConst TI64 (Z.of_nat (m_pos m))) in *.
    replace (cs ++ [fu; po; BCall f]) with ((cs ++ [fu; po]) ++ [BCall f]) by now rewrite <- app_assoc.
    rewrite map_app, <- app_assoc, er_consts.
    - simpl. rewrite (hook_of_H E). simpl. now rewrite R.
    - intros b I. apply in_app_or in I. destruct I as [I|[<-|[<-|[]]]]; eauto; unfold fu, po; eauto.
  Qed.

  Lemma decode_unop o : decode unop_code all_unops (unop_code o) = Some o.
  Proof. destruct o; reflexivity. Qed.
  Lemma decode_binop o : decode binop_code all_binops (binop_code o) = Some o.
  Proof. destruct o; reflexivity. Qed.
  Lemma decode_storeop o : decode storeop_code all_storeops (storeop_code o) = Some o.
  Proof. destruct o; reflexivity. Qed.
  Lemma decode_loadop o : decode loadop_code all_loadops (loadop_code o) = Some o.
  Proof. destruct o; reflexivity. Qed.

  Ltac consts := let b := fresh "b" in let I := fresh "I" in
    intros b I; simpl in I; repeat (destruct I as [<-|I]; [unfold i32c, i64c, arity; eauto|]); destruct I.

  Lemma er_orig m b r : m_gen m = false -> er [] (TBasic m b :: r) = UBasic (no_align b) :: er [] r.
  Proof. intros G. simpl. now rewrite G. Qed.

  Lemma er_weave_basic m b r : m_gen m = false ->
    er [] (weave_basic H hf m b ++ r) = UBasic (no_align b) :: er [] r.
  Proof.
    intros G. unfold weave_basic. rewrite G.
    assert (O : forall r, er [] ([TBasic m b] ++ r) = UBasic (no_align b) :: er [] r).
    { intros. now apply er_orig. }
    assert (A1 : forall h cs, (forall b, In b cs -> exists t z, b = BConst t z) ->
       replaced h (cs ++ [BConst TI64 (Z.of_nat (m_fun m)); BConst TI64 (Z.of_nat (m_pos m))]) = None ->
       er [] ((point H h m cs ++ [TBasic m b]) ++ r) = UBasic (no_align b) :: er [] r).
    { intros. rewrite <- app_assoc, er_point by assumption. apply O. }
    assert (A2 : forall h cs, (forall b, In b cs -> exists t z, b = BConst t z) ->
       replaced h (cs ++ [BConst TI64 (Z.of_nat (m_fun m)); BConst TI64 (Z.of_nat (m_pos m))]) = None ->
       er [] (([TBasic m b] ++ point H h m cs) ++ r) = UBasic (no_align b) :: er [] r).
    { intros. rewrite <- app_assoc, O, er_point by assumption. reflexivity. }
    assert (A3 : forall h cs h' cs', (forall b, In b cs -> exists t z, b = BConst t z) ->
       replaced h (cs ++ [BConst TI64 (Z.of_nat (m_fun m)); BConst TI64 (Z.of_nat (m_pos m))]) = None ->
       (forall b, In b cs' -> exists t z, b = BConst t z) ->
       replaced h' (cs' ++ [BConst TI64 (Z.of_nat (m_fun m)); BConst TI64 (Z.of_nat (m_pos m))]) = None ->
       er [] ((point H h m cs ++ [TBasic m b] ++ point H h' m cs') ++ r) = UBasic (no_align b) :: er [] r).
    { intros. rewrite <- !app_assoc, er_point by assumption. rewrite O, er_point by assumption. reflexivity. }
    destruct b; try apply O; try (apply A1; [consts|reflexivity]); try (apply A2; [consts|reflexivity]);
      try (apply A3; [consts|reflexivity|consts|reflexivity]).
    - (* br_table *)
      rewrite <- app_assoc. unfold point. destruct (H HkBrTable) as [f|] eqn:E; [|apply O].
      cbn [app map er m_gen synth]. rewrite hook_of_hf. simpl.
      rewrite (hook_of_H E). simpl. now rewrite G.
    - destruct o, (m_ty m) as [[[|[?|?] [|? ?]] [|[?|?] [|? ?]]]|]; try apply O;
        try (apply A1; [consts|reflexivity]); try (apply A2; [consts|reflexivity]).
      destruct (numty_eqb _ _); [apply A1; [consts|reflexivity]|apply O].
    - destruct o, (m_ty m) as [[[|[?|?] [|? ?]] [|[?|?] [|? ?]]]|]; try apply O;
        try (apply A1; [consts|reflexivity]); try (apply A2; [consts|reflexivity]).
    - apply er_instead; [consts| |exact O]. cbn [app replaced]. now rewrite decode_loadop.
    - apply er_instead; [consts| |exact O]. cbn [app replaced]. now rewrite decode_storeop.
    - apply er_instead; [consts| |exact O]. cbn [app replaced i64c]. unfold i64c. now rewrite Nat2Z.id.
    - apply er_instead; [consts| |exact O]. cbn [app replaced]. now rewrite decode_unop.
    - destruct (binary_class _ _) eqn:E; [|apply O].
      apply er_instead; [consts| |exact O]. cbn [app replaced]. now rewrite decode_binop.
  Qed.

  (** No instruction is flagged as generated. *)
  Lemma er_weave body : (forall i, occurs i body -> m_gen (meta_of i) = false) ->
    forall r, er [] (weave H hf body ++ r) = plain body ++ er [] r.
  Proof.
    assert (Hcons : forall i b r, (forall r, er [] (weave1 H hf i ++ r) = plain1 i :: er [] r) ->
       (forall r, er [] (weave H hf b ++ r) = plain b ++ er [] r) ->
       er [] (weave H hf (i :: b) ++ r) = plain (i :: b) ++ er [] r).
    { intros i b r E1 E2. unfold weave in *. cbn [flat_map]. now rewrite <- app_assoc, E1, E2. }
    assert (E0 : forall body, (forall r, er [] (weave H hf body ++ r) = plain body ++ er [] r) ->
              er [] (weave H hf body) = plain body).
    { intros b E. specialize (E []). now rewrite !app_nil_r in E. }
    assert (Pc : forall h m cs r, match h with HkUnary _ _ | HkBinary _ | HkMemoryGrow | HkStore _ | HkLoad _ => False | _ => True end ->
      (forall b, In b cs -> exists t z, b = BConst t z) -> er [] (point H h m cs ++ r) = er [] r).
    { intros h m cs r' T A. apply er_point; [exact A|]. destruct h; try destruct T; reflexivity. }
    assert (Pc0 : forall h m cs, match h with HkUnary _ _ | HkBinary _ | HkMemoryGrow | HkStore _ | HkLoad _ => False | _ => True end ->
      (forall b, In b cs -> exists t z, b = BConst t z) -> er [] (point H h m cs) = []).
    { intros h m cs T A. rewrite <- (app_nil_r (point _ _ _ _)). now apply (Pc h m cs []). }
    induction body as [|m b r IHr|m ft body r IHb IHr|m ft body r IHb IHr|m ft thn r IHt IHr
                     |m ft thn els r IHt IHe IHr] using tbody_ind; intros G r'; [reflexivity|..];
      (apply Hcons; [|apply IHr; intros i O; apply G; now constructor]); clear IHr Hcons r'; intros r';
      assert (Gm := G _ (oc_here _ _)); cbn [meta_of] in Gm.
    - cbn [weave1]. now apply er_weave_basic.
    - cbn [weave1]. rewrite Gm. fold (weave H hf body). cbn [app er]. rewrite erase1_block.
      rewrite Pc by (simpl; auto; consts). rewrite IHb by (intros i O; apply G; now constructor).
      rewrite Pc0 by (simpl; auto; consts). now rewrite app_nil_r.
    - cbn [weave1]. rewrite Gm. fold (weave H hf body). cbn [app er]. rewrite erase1_loop.
      rewrite Pc by (simpl; auto; consts). rewrite IHb by (intros i O; apply G; now constructor).
      rewrite Pc0 by (simpl; auto; consts). now rewrite app_nil_r.
    - cbn [weave1]. rewrite Gm. fold (weave H hf thn). rewrite <- app_assoc.
      rewrite Pc by (simpl; auto; consts). destruct (H HkIfThenPost) eqn:E; cbn [app er].
      + rewrite erase1_if_else. cbn [m_gen]. rewrite IHt by (intros i O; apply G; now constructor).
        rewrite Pc0 by (simpl; auto; consts). now rewrite app_nil_r.
      + rewrite erase1_if, E0; [reflexivity|]. apply IHt. intros i O. apply G. now constructor.
    - cbn [weave1]. rewrite Gm. fold (weave H hf thn). fold (weave H hf els). rewrite <- app_assoc.
      rewrite Pc by (simpl; auto; consts). cbn [app er].
      rewrite erase1_if_else, Gm, IHt by (intros i O; apply G; now constructor).
      rewrite IHe by (intros i O; apply G; now apply oc_else).
      rewrite !Pc0 by (simpl; auto; consts). now rewrite !app_nil_r.
  Qed.
  Lemma erase_weave body : (forall i, occurs i body -> m_gen (meta_of i) = false) ->
    erase hook_of (weave H hf body) = plain body.
  Proof.
    intros G. rewrite erase_er. rewrite <- (app_nil_r (weave _ _ _)), er_weave by exact G.
    now rewrite app_nil_r.
  Qed.
End EraseProofs.
