(** Proofs about Nesting.v. *)
From Verif Require Import Nesting NestingSpec.

Lemma flat_app a b : flat (a ++ b) = flat a ++ flat b.
Proof. apply flat_map_app. Qed.
Lemma flat_cons i b : flat (i :: b) = flat1 i ++ flat b.
Proof. reflexivity. Qed.
Lemma uflat_app a b : uflat (a ++ b) = uflat a ++ uflat b.
Proof. apply flat_map_app. Qed.

Lemma uflat_strip b : uflat (map strip b) = flat b.
Proof.
  induction b as [|m b r IHr|m ft body r IHb IHr|m ft body r IHb IHr|m ft thn r IHt IHr
                  |m ft thn els r IHt IHe IHr] using tbody_ind;
    unfold uflat, flat in *; cbn [map flat_map strip uflat1 flat1 app];
    rewrite ?IHb, ?IHt, ?IHe, ?IHr; reflexivity.
Qed.

Lemma uflat_well_nested b : well_nested (uflat b).
Proof.
  induction b as [|b r IHr|ft body r IHb IHr|ft body r IHb IHr|ft thn r IHt IHr
                  |ft thn els r IHt IHe IHr] using ubody_ind;
    unfold uflat in *; cbn [flat_map uflat1 app]; rewrite <- ?app_assoc; cbn [app].
  - constructor.
  - constructor; auto.
  - apply wn_block; auto.
  - apply wn_loop; auto.
  - apply wn_if; auto.
  - rewrite <- app_assoc. cbn [app]. apply wn_if_else; auto.
Qed.

Lemma well_nested_uflat l : well_nested l -> exists b, l = uflat b.
Proof.
  induction 1 as [|b r _ [r' ->]|ft body r _ [b' ->] _ [r' ->]|ft body r _ [b' ->] _ [r' ->]
                  |ft thn r _ [t' ->] _ [r' ->]|ft thn els r _ [t' ->] _ [e' ->] _ [r' ->]].
  - exists []. reflexivity.
  - exists (UBasic b :: r'). reflexivity.
  - exists (UBlock ft b' :: r'). unfold uflat. cbn [flat_map uflat1 app].
    now rewrite <- app_assoc.
  - exists (ULoop ft b' :: r'). unfold uflat. cbn [flat_map uflat1 app].
    now rewrite <- app_assoc.
  - exists (UIf ft t' None :: r'). unfold uflat. cbn [flat_map uflat1 app].
    now rewrite <- app_assoc.
  - exists (UIf ft t' (Some e') :: r'). unfold uflat. cbn [flat_map uflat1 app].
    now rewrite <- !app_assoc; cbn [app]; rewrite <- app_assoc.
Qed.

(** ** The untyped converter *)

Definition uopen (e : uentered) : list low :=
  match e with
  | UEnBlock ft => [LBlock ft]
  | UEnLoop ft => [LLoop ft]
  | UEnIfStart ft => [LIf ft]
  | UEnIfThenElse ft thn => LIf ft :: uflat thn ++ [LElse]
  end.

(** The flat prefix a parser state has consumed. *)
Fixpoint uprefix (es : list uentered) (bs : list (list uinstr)) : list low :=
  match es, bs with
  | e :: es', b :: bs' => uprefix es' bs' ++ uflat b ++ uopen e
  | _, _ => []
  end.

Lemma u_step_inv s i s' :
  List.length (ups_entered s) = List.length (ups_bodies s) ->
  u_step s i = COk s' ->
  List.length (ups_entered s') = List.length (ups_bodies s') /\
  uprefix (ups_entered s') (ups_bodies s') ++ uflat (ups_cur s') =
  uprefix (ups_entered s) (ups_bodies s) ++ uflat (ups_cur s) ++ [i].
Proof.
  destruct s as [es bs cur]; simpl. intros L H.
  destruct i as [ft|ft|ft| | |b]; simpl in H.
  - injection H as <-. simpl. split; [lia|]. now rewrite app_nil_r.
  - injection H as <-. simpl. split; [lia|]. now rewrite app_nil_r.
  - injection H as <-. simpl. split; [lia|]. now rewrite app_nil_r.
  - destruct es as [|[| |ft|] es]; try discriminate. injection H as <-.
    destruct bs as [|b bs]; [simpl in L; discriminate|]. cbn [ups_entered ups_bodies ups_cur uprefix uopen].
    split; [exact L|]. rewrite <- !app_assoc. cbn [app]. now rewrite app_nil_r.
  - destruct es as [|e es]; try discriminate. destruct bs as [|b bs]; try discriminate.
    injection H as <-. cbn [ups_entered ups_bodies ups_cur uprefix].
    split; [simpl in L; lia|]. rewrite uflat_app, <- !app_assoc. f_equal. f_equal.
    destruct e; unfold uflat; cbn [flat_map uflat1 uopen app]; rewrite ?app_nil_r; try reflexivity.
    now rewrite <- !app_assoc.
  - injection H as <-. cbn [ups_entered ups_bodies ups_cur]. split; [exact L|].
    now rewrite uflat_app.
Qed.

Lemma u_steps_inv l : forall s s',
  List.length (ups_entered s) = List.length (ups_bodies s) ->
  u_steps s l = COk s' ->
  List.length (ups_entered s') = List.length (ups_bodies s') /\
  uprefix (ups_entered s') (ups_bodies s') ++ uflat (ups_cur s') =
  uprefix (ups_entered s) (ups_bodies s) ++ uflat (ups_cur s) ++ l.
Proof.
  induction l as [|i l IH]; intros s s' L H; simpl in H.
  - injection H as <-. split; [exact L|]. now rewrite app_nil_r.
  - destruct (u_step s i) as [s1|e|] eqn:E; try discriminate.
    destruct (u_step_inv _ _ L E) as [L1 P1].
    destruct (IH _ _ L1 H) as [L2 P2]. split; [exact L2|].
    rewrite P2, app_assoc, P1, <- !app_assoc. reflexivity.
Qed.

Lemma u_steps_app l1 : forall l2 s s1,
  u_steps s l1 = COk s1 -> u_steps s (l1 ++ l2) = u_steps s1 l2.
Proof.
  induction l1 as [|i l1 IH]; intros l2 s s1 H; simpl in *.
  - injection H as ->. reflexivity.
  - destruct (u_step s i); try discriminate. auto.
Qed.

(** Parsing a flattened body appends that body. *)
Lemma u_steps_flat b : forall s,
  u_steps s (uflat b) = COk (UPS (ups_entered s) (ups_bodies s) (ups_cur s ++ b)).
Proof.
  induction b as [|b r IHr|ft body r IHb IHr|ft body r IHb IHr|ft thn r IHt IHr
                  |ft thn els r IHt IHe IHr] using ubody_ind;
    intros [es bs cur]; unfold uflat in *; cbn [flat_map uflat1 app ups_entered ups_bodies ups_cur].
  - now rewrite app_nil_r.
  - cbn [u_steps u_step]. rewrite IHr. cbn. now rewrite <- app_assoc.
  - cbn [u_steps u_step]. rewrite <- app_assoc. cbn [ups_entered ups_bodies ups_cur].
    erewrite u_steps_app by apply IHb. cbn. rewrite IHr. cbn. now rewrite <- app_assoc.
  - cbn [u_steps u_step]. rewrite <- app_assoc. cbn [ups_entered ups_bodies ups_cur].
    erewrite u_steps_app by apply IHb. cbn. rewrite IHr. cbn. now rewrite <- app_assoc.
  - cbn [u_steps u_step]. rewrite <- app_assoc. cbn [ups_entered ups_bodies ups_cur].
    erewrite u_steps_app by apply IHt. cbn. rewrite IHr. cbn. now rewrite <- app_assoc.
  - cbn [u_steps u_step]. rewrite <- app_assoc. cbn [app]. rewrite <- app_assoc.
    cbn [ups_entered ups_bodies ups_cur app].
    erewrite u_steps_app by apply IHt. cbn [u_steps u_step ups_entered ups_bodies ups_cur app].
    erewrite u_steps_app by apply IHe. cbn. rewrite IHr. cbn. now rewrite <- app_assoc.
Qed.

Lemma split_last_snoc {A} (l : list A) x : split_last (l ++ [x]) = Some (l, x).
Proof. unfold split_last. rewrite rev_app_distr. simpl. now rewrite rev_involutive. Qed.
Lemma split_last_inv {A} (l l' : list A) x : split_last l = Some (l', x) -> l = l' ++ [x].
Proof.
  unfold split_last. destruct (rev l) eqn:E; [discriminate|]. intros H; injection H as <- <-.
  rewrite <- (rev_involutive l), E. reflexivity.
Qed.
Lemma split_last_none {A} (l : list A) : split_last l = None -> l = [].
Proof.
  unfold split_last. destruct (rev l) eqn:E; [|discriminate]. intros _.
  rewrite <- (rev_involutive l), E. reflexivity.
Qed.

Lemma structure_untyped_flatten b : structure_untyped (uflatten b) = COk b.
Proof.
  unfold structure_untyped, uflatten. rewrite split_last_snoc, u_steps_flat. reflexivity.
Qed.

Lemma flatten_structure_untyped l b : structure_untyped l = COk b -> uflatten b = l.
Proof.
  unfold structure_untyped.
  destruct (split_last l) as [[ins [| | | | |]]|] eqn:E; try discriminate.
  destruct (u_steps (UPS [] [] []) ins) as [[es bs cur]|e|] eqn:S; try discriminate.
  simpl. destruct es, bs; try discriminate. intros H; injection H as <-.
  apply split_last_inv in E. subst l.
  destruct (u_steps_inv ins (UPS [] [] []) eq_refl S) as [_ P]. simpl in P.
  unfold uflatten. now rewrite P.
Qed.

(** Two of the error values are never produced. *)
Lemma u_steps_no_orphan l : forall s,
  List.length (ups_entered s) = List.length (ups_bodies s) ->
  u_steps s l <> CErr EEndWithoutParent /\ u_steps s l <> CErr ETrivialCastAttempt /\
  u_steps s l <> CErr ETypeInference /\ u_steps s l <> CErr EBodyNonEndTermination /\ u_steps s l <> CPanic.
Proof.
  induction l as [|i l IH]; intros s L; simpl; [repeat split; discriminate|].
  destruct (u_step s i) as [s1|e|] eqn:E.
  - apply IH. eapply u_step_inv; eauto.
  - destruct s as [es bs cur]. destruct i; simpl in E; try discriminate.
    + destruct es as [|[| | |]]; try discriminate; injection E as <-; repeat split; discriminate.
    + destruct es; [injection E as <-; repeat split; discriminate|].
      destruct bs; [simpl in L; discriminate|]. discriminate.
  - destruct s as [es bs cur]. destruct i; simpl in E; try discriminate.
    + destruct es as [|[| | |]]; discriminate.
    + destruct es; [discriminate|]. destruct bs; discriminate.
Qed.

(** ** The typed converter simulates the untyped one *)

Definition strip_entered (e : entered) : uentered :=
  match en_kind e with
  | EnBlock => UEnBlock (en_ft e)
  | EnLoop => UEnLoop (en_ft e)
  | EnIfStart => UEnIfStart (en_ft e)
  | EnIfThenElse thn => UEnIfThenElse (en_ft e) (map strip thn)
  end.
Definition strip_state (s : pstate) : upstate :=
  UPS (map strip_entered (ps_entered s)) (map (map strip) (ps_bodies s)) (map strip (ps_cur s)).
Definition conv_map {A B} (f : A -> B) (c : conv A) : conv B :=
  match c with COk a => COk (f a) | CErr e => CErr e | CPanic => CPanic end.

Lemma t_step_strip s i : u_step (strip_state s) (tl_ins i) = conv_map strip_state (t_step s i).
Proof.
  destruct s as [es bs cur], i as [f p ty ins]. unfold strip_state, t_step, enter. simpl.
  destruct ins; simpl; try reflexivity.
  - destruct es as [|[k f' p' ft'] es]; simpl; [reflexivity|].
    destruct k; simpl; reflexivity.
  - destruct es as [|[k f' p' ft'] es]; simpl; [reflexivity|].
    destruct bs as [|b bs]; simpl; [reflexivity|]. destruct k; simpl; rewrite map_app; reflexivity.
  - rewrite map_app. reflexivity.
Qed.

Lemma t_steps_strip l : forall s,
  u_steps (strip_state s) (map tl_ins l) = conv_map strip_state (t_steps s l).
Proof.
  induction l as [|i l IH]; intros s; simpl; [reflexivity|].
  rewrite t_step_strip. destruct (t_step s i) as [s1|e|]; simpl; auto.
Qed.

Lemma split_last_map {A B} (f : A -> B) l :
  split_last (map f l) = match split_last l with Some (a, x) => Some (map f a, f x) | None => None end.
Proof.
  unfold split_last. rewrite <- map_rev. destruct (rev l); simpl; [reflexivity|].
  now rewrite map_rev.
Qed.

Lemma structure_indexed_strip l :
  structure_untyped (map tl_ins l) = conv_map (map strip) (structure_indexed l).
Proof.
  unfold structure_untyped, structure_indexed. rewrite split_last_map.
  destruct (split_last l) as [[ins [f p ty x]]|]; [|reflexivity]. simpl.
  destruct x; try reflexivity.
  change (UPS [] [] []) with (strip_state (PS [] [] [])). rewrite t_steps_strip.
  destruct (t_steps (PS [] [] []) ins) as [[es bs cur]|e|]; simpl; try reflexivity.
  destruct es; simpl; [|reflexivity]. destruct bs; reflexivity.
Qed.

Lemma index_from_ins f body : forall pos tys,
  List.length tys = List.length body -> map tl_ins (index_from f pos body tys) = body.
Proof.
  induction body as [|i body IH]; intros pos [|t tys] L; simpl in *; try discriminate; [reflexivity|].
  f_equal. apply IH. lia.
Qed.

(** ** Positions *)

Lemma positions_app a b : positions (a ++ b) = positions a ++ positions b.
Proof. apply flat_map_app. Qed.

Lemma occurs_app i a b : occurs i (a ++ b) <-> occurs i a \/ occurs i b.
Proof.
  split.
  - induction a as [|x a IH]; simpl; intros H; [right; exact H|].
    inversion H; subst; try (left; constructor; assumption).
    destruct IH as [IH|IH]; auto. left. now apply oc_next.
  - induction a as [|x a IH]; simpl; intros [H|H].
    + inversion H.
    + exact H.
    + inversion H; subst; try (constructor; assumption). apply oc_next. auto.
    + apply oc_next. auto.
Qed.

(** What is known about one structured instruction with respect to the flat input. *)
Definition located (f : nat) (F : nat -> option (low * ity)) (i : tinstr) : Prop :=
  m_fun (meta_of i) = f /\ m_gen (meta_of i) = false /\
  exists ty, F (m_pos (meta_of i)) = Some (opening i, ty) /\
             match i with TBasic m _ => m_ty m = ty | _ => True end.

Definition lookup (l : list tlow) (p : nat) : option (low * ity) :=
  match nth_error l p with Some x => Some (tl_ins x, tl_ty x) | None => None end.

Definition en_low (e : entered) : low :=
  match en_kind e with EnBlock => LBlock (en_ft e) | EnLoop => LLoop (en_ft e) | _ => LIf (en_ft e) end.
Definition en_body (e : entered) : list tinstr :=
  match en_kind e with EnIfThenElse thn => thn | _ => [] end.

Fixpoint st_positions (es : list entered) (bs : list (list tinstr)) : list nat :=
  match es, bs with
  | e :: es', b :: bs' => st_positions es' bs' ++ positions b ++ en_pos e :: positions (en_body e)
  | _, _ => []
  end.
Definition all_positions (s : pstate) : list nat :=
  st_positions (ps_entered s) (ps_bodies s) ++ positions (ps_cur s).

Inductive increasing : list nat -> Prop :=
| inc_nil : increasing []
| inc_snoc l x : increasing l -> (forall y, In y l -> y < x) -> increasing (l ++ [x]).

Lemma increasing_NoDup l : increasing l -> NoDup l.
Proof.
  induction 1 as [|l x H IH Hlt]; [constructor|].
  apply NoDup_rev in IH. rewrite <- (rev_involutive (l ++ [x])). apply NoDup_rev.
  rewrite rev_app_distr. simpl. constructor; [|exact IH].
  rewrite <- in_rev. intros Hin. specialize (Hlt _ Hin). lia.
Qed.

Record pinv (f : nat) (F : nat -> option (low * ity)) (p : nat) (s : pstate) : Prop := {
  pi_len : List.length (ps_entered s) = List.length (ps_bodies s);
  pi_cur : forall i, occurs i (ps_cur s) -> located f F i;
  pi_bodies : forall b i, In b (ps_bodies s) -> occurs i b -> located f F i;
  pi_ent : forall e, In e (ps_entered s) ->
           (exists ty, F (en_pos e) = Some (en_low e, ty)) /\
           (forall i, occurs i (en_body e) -> located f F i);
  pi_inc : increasing (all_positions s);
  pi_lt : forall y, In y (all_positions s) -> y < p }.

Lemma pinv_step f F p s i s' :
  pinv f F p s -> tl_fun i = f -> tl_pos i = p -> F p = Some (tl_ins i, tl_ty i) ->
  t_step s i = COk s' -> pinv f F (S p) s'.
Proof.
  intros [L C B E I LT] Hf Hp HF H.
  destruct s as [es bs cur], i as [f' p' ty ins]; unfold all_positions in *;
    cbn [tl_fun tl_pos tl_ty tl_ins ps_entered ps_bodies ps_cur] in *. subst f' p'.
  assert (Hopen : forall k ft, en_low (En k f p ft) = ins -> en_body (En k f p ft) = [] ->
            s' = PS (En k f p ft :: es) (cur :: bs) [] -> pinv f F (S p) s').
  { intros k ft Hl Hb ->. constructor; simpl.
    - lia.
    - intros i Hi; inversion Hi.
    - intros b i [<-|Hb'] Hi; eauto.
    - intros e [<-|He]; [|eauto]. split; [exists ty; simpl; rewrite Hl; exact HF|].
      rewrite Hb. intros i Hi; inversion Hi.
    - unfold all_positions. simpl. rewrite Hb. simpl. rewrite app_nil_r, app_assoc.
      constructor; [exact I|exact LT].
    - unfold all_positions. simpl. rewrite Hb. simpl. rewrite app_nil_r, app_assoc.
      intros y Hy. apply in_app_or in Hy. destruct Hy as [Hy|[<-|[]]]; [|lia].
      specialize (LT _ Hy). lia. }
  destruct ins as [ft|ft|ft| | |b]; simpl in H.
  - injection H as <-. now apply (Hopen EnBlock ft).
  - injection H as <-. now apply (Hopen EnLoop ft).
  - injection H as <-. now apply (Hopen EnIfStart ft).
  - destruct es as [|[k f' p' ft] es]; [discriminate|]. destruct k; try discriminate. injection H as <-.
    destruct bs as [|b bs]; [discriminate|].
    destruct (E (En EnIfStart f' p' ft)) as [E1 _]; [now left|].
    assert (Hall : all_positions (PS (En (EnIfThenElse cur) f' p' ft :: es) (b :: bs) []) =
                   st_positions (En EnIfStart f' p' ft :: es) (b :: bs) ++ positions cur).
    { unfold all_positions. simpl. rewrite app_nil_r, <- !app_assoc. reflexivity. }
    constructor.
    + exact L.
    + simpl. intros i Hi; inversion Hi.
    + exact B.
    + simpl. intros e [<-|He]; [|apply E; now right]. split; [exact E1|]. exact C.
    + rewrite Hall. exact I.
    + rewrite Hall. intros y Hy. specialize (LT _ Hy). lia.
  - destruct es as [|[k f' p' ft] es]; [discriminate|]. destruct bs as [|b bs]; [discriminate|].
    destruct (E (En k f' p' ft)) as [[ty' E1] E2]; [now left|].
    cbn [en_pos en_kind en_ft] in *.
    set (ins := match k with
                | EnBlock => TBlock (Meta f p' ty false) ft cur
                | EnLoop => TLoop (Meta f p' ty false) ft cur
                | EnIfStart => TIf (Meta f p' ty false) ft cur None
                | EnIfThenElse thn => TIf (Meta f p' ty false) ft thn (Some cur)
                end).
    assert (Hs' : s' = PS es bs (b ++ [ins])) by (injection H as <-; destruct k; reflexivity).
    subst s'; clear H.
    assert (Hloc : forall i, occurs i [ins] -> located f F i).
    { assert (Hself : located f F ins).
      { destruct k; cbn [en_low en_kind en_ft] in E1; subst ins; unfold located;
          cbn [meta_of m_fun m_gen m_pos opening]; (split; [reflexivity|]);
          (split; [reflexivity|]); exists ty'; split; auto. }
      intros i Hi. inversion Hi as [r|x r Hr|m ft' body r Hr|m ft' body r Hr|m ft' thn els r Hr
                                    |m ft' thn els r Hr]; subst.
      - exact Hself.
      - inversion Hr.
      - destruct k; subst ins; try discriminate. injection H as -> -> ->. auto.
      - destruct k; subst ins; try discriminate. injection H as -> -> ->. auto.
      - destruct k; subst ins; try discriminate; injection H as -> -> -> ->; auto.
      - destruct k; subst ins; try discriminate. injection H as -> -> -> ->. auto. }
    assert (Hpos : positions [ins] = p' :: positions (en_body (En k f' p' ft)) ++ positions cur).
    { destruct k; subst ins; unfold positions, en_body; cbn [flat_map positions1 en_kind app m_pos];
        rewrite ?app_nil_r; reflexivity. }
    assert (Hall : all_positions (PS es bs (b ++ [ins])) =
                   st_positions (En k f' p' ft :: es) (b :: bs) ++ positions cur).
    { unfold all_positions. cbn [ps_entered ps_bodies ps_cur st_positions en_pos].
      rewrite positions_app, Hpos, <- !app_assoc. reflexivity. }
    constructor.
    + simpl in L |- *. lia.
    + cbn [ps_cur]. intros i Hi. apply occurs_app in Hi. destruct Hi as [Hi|Hi]; [|auto].
      apply (B b); [now left|exact Hi].
    + cbn [ps_bodies]. intros b' i Hb' Hi. apply (B b'); [now right|exact Hi].
    + cbn [ps_entered]. intros e He. apply E. now right.
    + rewrite Hall. exact I.
    + rewrite Hall. intros y Hy. specialize (LT _ Hy). lia.
  - injection H as <-.
    assert (Hall : all_positions (PS es bs (cur ++ [TBasic (Meta f p ty false) b])) =
                   (st_positions es bs ++ positions cur) ++ [p]).
    { unfold all_positions. cbn [ps_entered ps_bodies ps_cur].
      rewrite positions_app, app_assoc. reflexivity. }
    constructor; cbn [ps_entered ps_bodies ps_cur]; auto.
    + intros i Hi. apply occurs_app in Hi. destruct Hi as [Hi|Hi]; [auto|].
      inversion Hi as [r|x r Hr| | | |]; subst; [|inversion Hr].
      unfold located. cbn [meta_of m_fun m_gen m_pos opening m_ty].
      split; [reflexivity|]. split; [reflexivity|]. exists ty. auto.
    + rewrite Hall. constructor; auto.
    + rewrite Hall. intros y Hy. apply in_app_or in Hy. destruct Hy as [Hy|[<-|[]]]; [|lia].
      specialize (LT _ Hy). lia.
Qed.

Lemma pinv_steps f F l : forall p s s',
  pinv f F p s ->
  (forall k i, nth_error l k = Some i ->
     tl_fun i = f /\ tl_pos i = p + k /\ F (p + k) = Some (tl_ins i, tl_ty i)) ->
  t_steps s l = COk s' -> pinv f F (p + List.length l) s'.
Proof.
  induction l as [|i l IH]; intros p s s' Hinv Hl H; simpl in H.
  - injection H as <-. simpl. now rewrite Nat.add_0_r.
  - destruct (t_step s i) as [s1|e|] eqn:E; try discriminate.
    destruct (Hl 0 i eq_refl) as (H1 & H2 & H3). rewrite Nat.add_0_r in *.
    simpl. rewrite <- Nat.add_succ_comm. apply (IH (S p) s1 s'); [|clear Hinv|exact H].
    + eapply pinv_step; eauto.
    + intros k j Hk. destruct (Hl (S k) j Hk) as (? & ? & ?).
      rewrite Nat.add_succ_comm. auto.
Qed.

Lemma index_from_nth f body : forall pos tys k i,
  nth_error (index_from f pos body tys) k = Some i ->
  tl_fun i = f /\ tl_pos i = pos + k /\ nth_error body k = Some (tl_ins i) /\ nth_error tys k = Some (tl_ty i).
Proof.
  induction body as [|x body IH]; intros pos [|t tys] k i H; simpl in H;
    try (destruct k; discriminate).
  destruct k as [|k]; simpl in H.
  - injection H as <-. simpl. rewrite Nat.add_0_r. auto.
  - destruct (IH _ _ _ _ H) as (A & B & C & D). simpl. repeat split; auto. lia.
Qed.

Lemma pinv_init f F : pinv f F 0 (PS [] [] []).
Proof.
  constructor; unfold all_positions; simpl; auto; try tauto.
  - intros i Hi; inversion Hi.
  - constructor.
Qed.

Lemma structure_typed_located f infer body b :
  structure_typed f infer body = COk b ->
  exists tys, infer body = Some tys /\
    (forall i, occurs i b ->
       m_fun (meta_of i) = f /\ m_gen (meta_of i) = false /\
       nth_error body (m_pos (meta_of i)) = Some (opening i) /\
       match i with TBasic m _ => nth_error tys (m_pos m) = Some (m_ty m) | _ => True end) /\
    NoDup (positions b).
Proof.
  unfold structure_typed. destruct (infer body) as [tys|]; [|discriminate].
  unfold structure_indexed.
  destruct (split_last (index_from f 0 body tys)) as [[ins last]|] eqn:ES; [|discriminate].
  destruct (tl_ins last); try discriminate.
  intros H. unfold t_finish in H.
  destruct (t_steps (PS [] [] []) ins) as [[es bs cur]|e|] eqn:ET; try discriminate.
  simpl in H. destruct es, bs; try discriminate. injection H as <-.
  apply split_last_inv in ES.
  assert (HL : forall k i, nth_error ins k = Some i ->
     tl_fun i = f /\ tl_pos i = 0 + k /\
     lookup (index_from f 0 body tys) (0 + k) = Some (tl_ins i, tl_ty i)).
  { intros k i Hk. assert (Hk' : nth_error (index_from f 0 body tys) k = Some i).
    { rewrite ES. now apply nth_error_app_l. }
    destruct (index_from_nth _ _ _ _ _ Hk') as (A & B & C & D).
    repeat split; auto. unfold lookup. simpl. now rewrite Hk'. }
  destruct (pinv_steps ins (pinv_init f _) HL ET) as [_ C _ _ I _].
  exists tys. split; [reflexivity|]. split.
  - intros i Hi. simpl in C. destruct (C _ Hi) as (A & B & ty & D & T).
    repeat split; auto.
    + unfold lookup in D.
      destruct (nth_error (index_from f 0 body tys) (m_pos (meta_of i))) as [x|] eqn:N; [|discriminate].
      injection D as D1 D2. destruct (index_from_nth _ _ _ _ _ N) as (_ & _ & N1 & _).
      rewrite N1, D1. reflexivity.
    + destruct i; auto. simpl in *. unfold lookup in D.
      destruct (nth_error (index_from f 0 body tys) (m_pos m)) as [x|] eqn:N; [|discriminate].
      injection D as D1 D2. destruct (index_from_nth _ _ _ _ _ N) as (_ & _ & _ & N2).
      rewrite N2. now f_equal; rewrite D2.
  - apply increasing_NoDup. exact I.
Qed.

(** ** Acceptance and failure *)

Lemma untyped_accepts_iff l :
  (exists b, structure_untyped l = COk b) <-> (exists l', l = l' ++ [LEnd] /\ well_nested l').
Proof.
  split.
  - intros [b H]. exists (uflat b). split; [|apply uflat_well_nested].
    symmetry. exact (flatten_structure_untyped _ H).
  - intros (l' & -> & H). destruct (well_nested_uflat H) as [b ->]. exists b.
    apply structure_untyped_flatten.
Qed.

Lemma u_steps_prefix l1 l2 : forall s s',
  u_steps s (l1 ++ l2) = COk s' -> exists s1, u_steps s l1 = COk s1 /\ u_steps s1 l2 = COk s'.
Proof.
  induction l1 as [|i l1 IH]; intros s s' H; simpl in *; [eauto|].
  destruct (u_step s i); try discriminate. eauto.
Qed.

(** Closing every open construct empties the stacks. *)
Lemma u_close es : forall bs cur, List.length es = List.length bs ->
  exists cur', u_steps (UPS es bs cur) (repeat LEnd (List.length es)) = COk (UPS [] [] cur').
Proof.
  induction es as [|e es IH]; intros [|b bs] cur L; simpl in L; try discriminate.
  - exists cur. reflexivity.
  - destruct (IH bs (b ++ [match e with
                         | UEnBlock ft => UBlock ft cur
                         | UEnLoop ft => ULoop ft cur
                         | UEnIfStart ft => UIf ft cur None
                         | UEnIfThenElse ft thn => UIf ft thn (Some cur)
                         end])) as [cur' H]; [lia|].
    exists cur'. exact H.
Qed.

Lemma untyped_panics_iff l :
  structure_untyped l = CPanic <->
  (exists l' rest, l = l' ++ [LEnd] /\ ~ well_nested l' /\ well_nested (l' ++ rest)).
Proof.
  split.
  - intros H. assert (Hl : exists l', l = l' ++ [LEnd] /\
      exists s, u_steps (UPS [] [] []) l' = COk s /\ (ups_entered s <> [] \/ ups_bodies s <> [])).
    { unfold structure_untyped in H.
      destruct (split_last l) as [[ins [| | | | |]]|] eqn:E; try discriminate.
      apply split_last_inv in E. exists ins. split; [exact E|].
      destruct (u_steps (UPS [] [] []) ins) as [[es bs cur]|e|] eqn:S; try discriminate.
      - exists (UPS es bs cur). split; [reflexivity|]. simpl in *.
        destruct es; [|left; discriminate]. destruct bs; [discriminate|right; discriminate].
      - destruct (u_steps_no_orphan ins (UPS [] [] []) eq_refl) as (_ & _ & _ & _ & N).
        contradiction. }
    destruct Hl as (l' & -> & [es bs cur] & S & NE). simpl in NE.
    destruct (u_steps_inv _ (UPS [] [] []) eq_refl S) as [L P]. simpl in L, P.
    destruct (u_close es bs cur L) as [cur' Hc].
    exists l', (repeat LEnd (List.length es)). split; [reflexivity|]. split.
    + intros W. destruct (well_nested_uflat W) as [b ->].
      rewrite u_steps_flat in S. injection S as <- <- _. destruct NE; congruence.
    + pose proof (u_steps_app l' (repeat LEnd (List.length es)) (UPS [] [] []) S) as A.
      rewrite Hc in A.
      destruct (u_steps_inv _ (UPS [] [] []) eq_refl A) as [_ P']. simpl in P'.
      rewrite <- P'. apply uflat_well_nested.
  - intros (l' & rest & -> & NW & W).
    destruct (well_nested_uflat W) as [b Hb].
    pose proof (u_steps_flat b (UPS [] [] [])) as S. rewrite <- Hb in S.
    destruct (u_steps_prefix _ _ _ S) as ([es bs cur] & S1 & _).
    destruct (u_steps_inv _ (UPS [] [] []) eq_refl S1) as [L P]. simpl in L, P.
    unfold structure_untyped. rewrite split_last_snoc, S1. simpl.
    destruct es, bs; simpl in *; try discriminate; try reflexivity.
    exfalso. apply NW. rewrite <- P. apply uflat_well_nested.
Qed.

(** ** The same facts for the typed converter *)

Definition same_length_oracle (infer : list low -> option (list ity)) : Prop :=
  forall l tys, infer l = Some tys -> List.length tys = List.length l.

Lemma typed_vs_untyped f infer l :
  same_length_oracle infer ->
  match infer l with
  | None => structure_typed f infer l = CErr ETypeInference
  | Some _ => conv_map (map strip) (structure_typed f infer l) = structure_untyped l
  end.
Proof.
  intros Hi. unfold structure_typed. destruct (infer l) as [tys|] eqn:E; [|reflexivity].
  rewrite <- structure_indexed_strip, index_from_ins by (now apply Hi). reflexivity.
Qed.

Lemma flatten_strip b : uflatten (map strip b) = flatten b.
Proof. unfold uflatten, flatten. now rewrite uflat_strip. Qed.

Lemma typed_flatten_structure f infer l b :
  same_length_oracle infer -> structure_typed f infer l = COk b -> flatten b = l.
Proof.
  intros Hi H. pose proof (typed_vs_untyped f l Hi) as V.
  destruct (infer l) as [tys|] eqn:E; [|congruence].
  rewrite H in V. simpl in V. rewrite <- flatten_strip.
  apply flatten_structure_untyped. now symmetry.
Qed.

Lemma typed_structure_flatten f infer b tys :
  same_length_oracle infer -> infer (flatten b) = Some tys ->
  exists b', structure_typed f infer (flatten b) = COk b' /\ map strip b' = map strip b.
Proof.
  intros Hi E. pose proof (typed_vs_untyped f (flatten b) Hi) as V. rewrite E in V.
  rewrite <- flatten_strip, structure_untyped_flatten, flatten_strip in V.
  destruct (structure_typed f infer (flatten b)) as [b'| |]; try discriminate.
  exists b'. split; [reflexivity|]. simpl in V. congruence.
Qed.

Lemma typed_accepts_iff f infer l :
  same_length_oracle infer ->
  (exists b, structure_typed f infer l = COk b) <->
  (infer l <> None /\ exists l', l = l' ++ [LEnd] /\ well_nested l').
Proof.
  intros Hi. pose proof (typed_vs_untyped f l Hi) as V.
  destruct (infer l) as [tys|] eqn:E.
  - rewrite <- untyped_accepts_iff, <- V. split.
    + intros [b ->]. split; [discriminate|]. eexists; reflexivity.
    + intros [_ [b H]]. destruct (structure_typed f infer l); try discriminate. eauto.
  - split; [intros [b H]; congruence|]. intros [H _]. congruence.
Qed.

Lemma typed_panics_iff f infer l :
  same_length_oracle infer ->
  structure_typed f infer l = CPanic <->
  (infer l <> None /\
   exists l' rest, l = l' ++ [LEnd] /\ ~ well_nested l' /\ well_nested (l' ++ rest)).
Proof.
  intros Hi. pose proof (typed_vs_untyped f l Hi) as V.
  destruct (infer l) as [tys|] eqn:E.
  - rewrite <- untyped_panics_iff, <- V. split.
    + intros ->. split; [discriminate|reflexivity].
    + intros [_ H]. destruct (structure_typed f infer l); try discriminate. reflexivity.
  - split; [intros H; congruence|]. intros [H _]. congruence.
Qed.

Lemma untyped_errors l e :
  structure_untyped l = CErr e ->
  e = EBodyNonEndTermination \/ e = EIfDidNotPrecedeElse \/ e = EExcessiveEnd.
Proof.
  unfold structure_untyped.
  destruct (split_last l) as [[ins [| | | | |]]|]; try (intros H; injection H as <-; now left).
  destruct (u_steps_no_orphan ins (UPS [] [] []) eq_refl) as (A & B & C & D & _).
  destruct (u_steps (UPS [] [] []) ins) as [[es bs cur]|e'|]; try discriminate.
  - simpl. destruct es, bs; discriminate.
  - intros H; injection H as ->. destruct e; tauto.
Qed.

Lemma typed_errors f infer l e :
  same_length_oracle infer ->
  structure_typed f infer l = CErr e ->
  (e = ETypeInference /\ infer l = None) \/
  (infer l <> None /\
   (e = EBodyNonEndTermination \/ e = EIfDidNotPrecedeElse \/ e = EExcessiveEnd)).
Proof.
  intros Hi H. pose proof (typed_vs_untyped f l Hi) as V.
  destruct (infer l) eqn:E.
  - right. split; [discriminate|]. rewrite H in V. simpl in V. eapply untyped_errors. symmetry. exact V.
  - left. split; [congruence|reflexivity].
Qed.
