(** C39, C40, C41: the WASP advice language. *)
From Verif Require Import Wasp.
Local Open Scope string_scope.
Local Open Scope list_scope.

(** ** C39: which apply advice is accepted *)

(** The documented pairs of argument and result types. *)
Definition documented_pairs : list (string * string) :=
  [("Args", "Results"); ("DynArgs", "DynResults"); ("MutDynArgs", "MutDynResults")].
Definition number_types : list string := ["I32"; "F32"; "I64"; "F64"].

Definition acceptable (s : papply) : Prop :=
  match s with
  | PGen f a r => In (ta_type a, ta_type r) documented_pairs /\ NoDup [f; ta_id a; ta_id r]
  | PSpeInter _ args ress | PSpeIntro _ args ress =>
      Forall (fun a => In (ta_type a) number_types) (args ++ ress) /\ NoDup (map ta_id (args ++ ress))
  end.

(** The compiled advice has the names and types that were written. *)
Definition type_name (t : numty) : string :=
  match t with TI32 => "I32" | TF32 => "F32" | TI64 => "I64" | TF64 => "F64" end.
Definition says (p : wparam) : typed_arg := TA (wp_id p) (type_name (wp_type p)).
Definition faithful (s : papply) (a : apply_sig) : Prop :=
  match s, a with
  | PGen f x y, AGen g f' x' y' =>
      f = f' /\ ta_id x = x' /\ ta_id y = y' /\
      ta_type x = match g with HighLevel => "Args" | Dynamic => "DynArgs" | MutableDynamic => "MutDynArgs" end
  | PSpeInter f x y, ASpe _ f' x' y' | PSpeIntro f x y, ASpe _ f' x' y' =>
      f = f' /\ x = map says x' /\ y = map says y'
  | _, _ => False
  end.

Lemma memb_In x l : memb x l = true <-> In x l.
Proof.
  induction l as [|y l IH]; cbn; [split; [discriminate|tauto]|].
  rewrite orb_true_iff, IH, String.eqb_eq. split; intros [H|H]; auto.
Qed.
Lemma insert_In x y l : In x (insert y l) <-> x = y \/ In x l.
Proof.
  unfold insert. destruct (memb y l) eqn:E; cbn; [|intuition].
  apply memb_In in E. intuition. now subst.
Qed.
Lemma wasm_type_spec s : match wasm_type s with
                         | Some t => s = type_name t /\ In s number_types
                         | None => ~ In s number_types end.
Proof.
  unfold wasm_type, number_types.
  repeat match goal with |- context [String.eqb s ?k] => destruct (String.eqb_spec s k) as [->|]; [cbn; tauto|] end.
  cbn. intuition congruence.
Qed.

Lemma params_from_spec l : forall seen,
  match params_from seen l with
  | WOk ps => l = map says ps /\ Forall (fun a => In (ta_type a) number_types) l /\ NoDup (map ta_id l) /\
              (forall a, In a l -> ~ In (ta_id a) seen)
  | WErr _ => ~ (Forall (fun a => In (ta_type a) number_types) l /\ NoDup (map ta_id l) /\
                 (forall a, In a l -> ~ In (ta_id a) seen))
  | WPanic => False
  end.
Proof.
  induction l as [|a l IH]; intros seen; cbn [params_from].
  - repeat split; try constructor. intros a [].
  - assert (T := wasm_type_spec (ta_type a)). destruct (wasm_type (ta_type a)) as [t|].
    + destruct T as [Ty In_]. destruct (memb (ta_id a) seen) eqn:M.
      * apply memb_In in M. intros (_ & _ & D). apply (D a); [now left|exact M].
      * assert (NM : ~ In (ta_id a) seen) by (rewrite <- memb_In, M; discriminate).
        specialize (IH (insert (ta_id a) seen)).
        destruct (params_from (insert (ta_id a) seen) l) as [ps|e|]; cbn [wbind]; [| |exact IH].
        -- destruct IH as (-> & F & N & D). repeat split.
           ++ cbn [map]. f_equal. unfold says. cbn. rewrite <- Ty. now destruct a.
           ++ now constructor.
           ++ cbn [map]. constructor; [|exact N]. intros I. apply in_map_iff in I. destruct I as (b & Q & I).
              apply (D b I). rewrite insert_In. now left.
           ++ intros b [<-|I]; [exact NM|]. intros C. apply (D b I). rewrite insert_In. now right.
        -- intros (F & N & D). apply IH. inversion F; subst. cbn [map] in N. inversion N as [|? ? NI N']; subst.
           repeat split; try assumption. intros b I C. rewrite insert_In in C. destruct C as [C|C].
           ++ apply NI. rewrite <- C. now apply in_map.
           ++ apply (D b); [now right|exact C].
    + intros (F & _). inversion F; subst. contradiction.
Qed.
Lemma distinct_from_spec l : forall seen,
  match distinct_from seen l with
  | WOk _ => NoDup (map wp_id l) /\ (forall p, In p l -> ~ In (wp_id p) seen)
  | WErr _ => ~ (NoDup (map wp_id l) /\ (forall p, In p l -> ~ In (wp_id p) seen))
  | WPanic => False
  end.
Proof.
  induction l as [|p l IH]; intros seen; cbn [distinct_from].
  - split; [constructor|]. intros p [].
  - destruct (memb (wp_id p) seen) eqn:M.
    + apply memb_In in M. intros (_ & D). apply (D p); [now left|exact M].
    + assert (NM : ~ In (wp_id p) seen) by (rewrite <- memb_In, M; discriminate).
      specialize (IH (insert (wp_id p) seen)).
      destruct (distinct_from (insert (wp_id p) seen) l); [| |exact IH].
      * destruct IH as (N & D). split.
        -- cbn [map]. constructor; [|exact N]. intros I. apply in_map_iff in I. destruct I as (b & Q & I).
           apply (D b I). rewrite insert_In. now left.
        -- intros b [<-|I]; [exact NM|]. intros C. apply (D b I). rewrite insert_In. now right.
      * intros (N & D). apply IH. cbn [map] in N. inversion N as [|? ? NI N']; subst.
        split; [assumption|]. intros b I C. rewrite insert_In in C. destruct C as [C|C].
        -- apply NI. rewrite <- C. now apply in_map.
        -- apply (D b); [now right|exact C].
Qed.

Lemma NoDup_app_l {A} (l1 l2 : list A) : NoDup (l1 ++ l2) -> NoDup l1 /\ NoDup l2.
Proof.
  induction l1 as [|x l1 IH]; cbn; intros N; [split; [constructor|exact N]|].
  inversion N as [|? ? NI N']; subst. destruct (IH N') as [N1 N2]. split; [|exact N2]. constructor; [|exact N1].
  intros I. apply NI. apply in_or_app. now left.
Qed.
Lemma map_says_id ps : map ta_id (map says ps) = map wp_id ps.
Proof. rewrite map_map. reflexivity. Qed.

Lemma spe_from_spec m f args ress : args <> [] ->
  match spe_from m f args ress with
  | WOk (ASpe m' f' pa pr) => m' = m /\ f' = f /\ args = map says pa /\ ress = map says pr /\
      Forall (fun a => In (ta_type a) number_types) (args ++ ress) /\ NoDup (map ta_id (args ++ ress))
  | WOk (AGen _ _ _ _) => False
  | WErr _ => ~ (Forall (fun a => In (ta_type a) number_types) (args ++ ress) /\ NoDup (map ta_id (args ++ ress)))
  | WPanic => False
  end.
Proof.
  intros Ne. unfold spe_from.
  assert (Pa := params_from_spec args []). destruct (params_from [] args) as [pa|e|]; cbn [wbind]; [| |exact Pa].
  2:{ intros [F N]. apply Pa. rewrite Forall_app in F. rewrite map_app in N. apply NoDup_app_l in N.
      repeat split; try tauto. }
  assert (Pr := params_from_spec ress []). destruct (params_from [] ress) as [pr|e|]; cbn [wbind]; [| |exact Pr].
  2:{ intros [F N]. apply Pr. rewrite Forall_app in F. rewrite map_app in N. apply NoDup_app_l in N.
      repeat split; try tauto. }
  destruct Pa as (Ea & Fa & _), Pr as (Er & Fr & _).
  unfold distinct_arguments. destruct pa as [|p pa]; [now subst args|].
  assert (D := distinct_from_spec ((p :: pa) ++ pr) []).
  destruct (distinct_from [] ((p :: pa) ++ pr)) as [u|e|]; cbn [wbind]; [| |exact D].
  - destruct D as (N & _). repeat split; try assumption; [rewrite Forall_app; now split|].
    rewrite Ea, Er, <- map_app, map_says_id. exact N.
  - intros [F N]. apply D. split; [|intros ? ? []]. rewrite Ea, Er, <- map_app, map_says_id in N. exact N.
Qed.

Lemma gen_from_spec f a r :
  match gen_from f a r with
  | WOk x => faithful (PGen f a r) x /\ acceptable (PGen f a r)
  | WErr _ => ~ acceptable (PGen f a r)
  | WPanic => False
  end.
Proof.
  unfold gen_from, acceptable, documented_pairs.
  cbv zeta.
  match goal with |- context [match ?X with Some g => _ | None => WErr _ end] => set (means := X) end.
  assert (M : match means with
              | Some g => In (ta_type a, ta_type r) documented_pairs /\
                  ta_type a = match g with HighLevel => "Args" | Dynamic => "DynArgs" | MutableDynamic => "MutDynArgs" end
              | None => ~ In (ta_type a, ta_type r) documented_pairs end).
  { unfold means, documented_pairs. clear means.
    generalize (ta_type a) (ta_type r). intros x y.
    destruct (String.eqb_spec x "Args"), (String.eqb_spec x "DynArgs"), (String.eqb_spec x "MutDynArgs"),
      (String.eqb_spec y "Results"), (String.eqb_spec y "DynResults"), (String.eqb_spec y "MutDynResults");
      try congruence; cbn [andb]; subst; cbn; intuition congruence. }
  destruct means as [g|]; [|tauto]. destruct M as [M1 M2].
  assert (L : Nat.eqb (List.length (insert (ta_id r) (insert (ta_id a) (insert f [])))) 3 = true
              <-> NoDup [f; ta_id a; ta_id r]).
  { unfold insert at 3. cbn [memb]. unfold insert at 2. cbn [memb].
    destruct (String.eqb_spec (ta_id a) f) as [E|E]; cbn [orb].
    - split.
      + unfold insert. cbn [memb]. destruct (_ || _); discriminate.
      + intros N. apply NoDup_cons_iff in N as [NI _]. exfalso. apply NI. rewrite E. now left.
    - unfold insert. cbn [memb]. destruct (String.eqb_spec (ta_id r) (ta_id a)) as [E1|E1]; cbn [orb].
      + split; [discriminate|]. intros N. apply NoDup_cons_iff in N as [_ N]. apply NoDup_cons_iff in N as [NI _].
        exfalso. apply NI. rewrite E1. now left.
      + destruct (String.eqb_spec (ta_id r) f) as [E2|E2]; cbn [orb].
        * split; [discriminate|]. intros N. apply NoDup_cons_iff in N as [NI _]. exfalso. apply NI. rewrite E2.
          right. now left.
        * split; [|reflexivity]. intros _. repeat constructor; cbn; intuition congruence. }
  destruct (Nat.eqb _ 3).
  - cbn [faithful]. repeat split; try assumption. now apply L.
  - intros [_ N]. apply L in N. discriminate.
Qed.

Section Parsed.
  Variables is_identifier is_type_identifier : string -> bool.

  Lemma parse_typeds1_nonempty ts l r :
    parse_typeds1 is_identifier is_type_identifier ts = Some (l, r) -> l <> [].
  Proof.
    unfold parse_typeds1. destruct (parse_typeds _ _ ts ts) as [[|a l'] r']; [discriminate|]. intros E. injection E as <- <-.
    discriminate.
  Qed.
  Lemma parse_lists_spec mk ts f l l' r :
    parse_lists is_identifier is_type_identifier mk ts = Some (f, l, l', r) -> l <> [] /\ l' <> [] /\
    exists w ts', ts = LP :: Word f :: Word w :: RP :: ts' /\ exists r', eats (LP :: mk) ts' = Some r' /\
       exists x, parse_typeds1 is_identifier is_type_identifier r' = Some x.
  Proof.
    unfold parse_lists, parse_wasm_f.
    destruct ts as [|[| |] [|[| |g] [|[| |w] [|[| |] ts']]]]; try discriminate.
    destruct (_ && _); [|discriminate].
    destruct (eats (LP :: mk) ts') as [r1|] eqn:E1; [|discriminate].
    destruct (parse_typeds1 _ _ r1) as [[l1 r2]|] eqn:E2; [|discriminate].
    destruct (eats (RP :: LP :: mk) r2) as [r3|]; [|discriminate].
    destruct (parse_typeds1 _ _ r3) as [[l2 r4]|] eqn:E3; [|discriminate].
    destruct (eats [RP] r4); [|discriminate]. intros E. injection E as <- <- <- <-.
    split; [eapply parse_typeds1_nonempty, E2|]. split; [eapply parse_typeds1_nonempty, E3|].
    exists w, ts'. split; [reflexivity|]. exists r1. split; [exact E1|]. now exists (l1, r2).
  Qed.
  Lemma parse_apply_args ts s rest : parse_apply is_identifier is_type_identifier ts = Some (s, rest) ->
    match s with PGen _ _ _ => True | PSpeInter _ args _ | PSpeIntro _ args _ => args <> [] end.
  Proof.
    unfold parse_apply, parse_gen, parse_spe_intro, parse_spe_inter. intros E.
    destruct (parse_wasm_f _ ts) as [[f r]|] eqn:Ew.
    2:{ destruct (parse_lists _ _ [] ts) as [[[[f l] l'] r]|] eqn:E1.
        - injection E as <- <-. now apply parse_lists_spec in E1.
        - destruct (parse_lists _ _ [Word "Mut"] ts) as [[[[f l] l'] r]|] eqn:E2; [|discriminate E].
          injection E as <- <-. now apply parse_lists_spec in E2. }
    destruct (parse_typed _ _ r) as [[a r1]|]; [destruct (parse_typed _ _ r1) as [[b r2]|]|];
      try (injection E as <- <-; exact I);
      (destruct (parse_lists _ _ [] ts) as [[[[f1 l] l'] r3]|] eqn:E1;
        [injection E as <- <-; now apply parse_lists_spec in E1
        |destruct (parse_lists _ _ [Word "Mut"] ts) as [[[[f1 l] l'] r3]|] eqn:E2; [|discriminate E];
         injection E as <- <-; now apply parse_lists_spec in E2]).
  Qed.

  (** Advice that parses is validated without a panic; it is accepted exactly when it is
      acceptable, and then compiled with the names and types that were written. *)
  Theorem C39_apply_validation : forall ts s rest,
    parse_apply is_identifier is_type_identifier ts = Some (s, rest) ->
    apply_from s <> WPanic /\
    ((exists a, apply_from s = WOk a) <-> acceptable s) /\
    (forall a, apply_from s = WOk a -> faithful s a).
  Proof.
    intros ts s rest E. apply parse_apply_args in E.
    assert (G : match apply_from s with
                | WOk a => faithful s a /\ acceptable s | WErr _ => ~ acceptable s | WPanic => False end).
    { destruct s as [f a r|f args ress|f args ress]; cbn [apply_from].
      - apply gen_from_spec.
      - assert (G := spe_from_spec false f ress E). destruct (spe_from false f args ress) as [[|m' f' pa pr]|e|];
          cbn [acceptable faithful]; intuition congruence.
      - assert (G := spe_from_spec true f ress E). destruct (spe_from true f args ress) as [[|m' f' pa pr]|e|];
          cbn [acceptable faithful]; intuition congruence. }
    destruct (apply_from s) as [a|e|]; [| |contradiction].
    - split; [discriminate|]. split; [|intros b Q; injection Q as <-; apply G].
      split; [intros _; apply G|intros _; now exists a].
    - split; [discriminate|]. split; [|discriminate]. split; [intros [b Q]; discriminate|intros A; contradiction].
  Qed.

  (** ** C41

      An advice is written with [Mut] when that word follows the parenthesis opening its
      argument list. The compiled flag says the opposite for every accepted advice. *)
  Theorem C41_mutability_refuted : forall ts s rest m f args ress,
    parse_apply is_identifier is_type_identifier ts = Some (s, rest) ->
    apply_from s = WOk (ASpe m f args ress) ->
    (m = false <-> nth_error ts 5 = Some (Word "Mut")).
  Proof.
    intros ts s rest m f args ress E A.
    assert (N := parse_apply_args _ E).
    unfold parse_apply in E.
    destruct (parse_gen _ _ ts) as [[s0 r0]|] eqn:Eg.
    { injection E as <- <-. unfold parse_gen in Eg. destruct (parse_wasm_f _ ts) as [[? ?]|]; [|discriminate].
      destruct (parse_typed _ _ _) as [[? ?]|]; [|discriminate].
      destruct (parse_typed _ _ _) as [[? ?]|]; [|discriminate]. injection Eg as <- <-. cbn in A.
      match type of A with gen_from ?x ?y ?z = _ => assert (G := gen_from_spec x y z) end.
      rewrite A in G. destruct G as [[] _]. }
    destruct (parse_spe_intro _ _ ts) as [[s1 r1]|] eqn:Ei.
    - injection E as <- <-. unfold parse_spe_intro in Ei.
      destruct (parse_lists _ _ [] ts) as [[[[f1 l] l'] r]|] eqn:E1; [|discriminate]. injection Ei as <- <-.
      assert (Q := parse_lists_spec _ _ E1). destruct Q as (_ & _ & w & ts' & -> & r' & Ee & x & Ex).
      cbn in Ee. destruct ts' as [|[| |] ts']; try discriminate. injection Ee as <-.
      cbn [apply_from] in A. assert (S := spe_from_spec true f1 l' N). rewrite A in S. destruct S as (-> & _).
      split; [discriminate|]. cbn. intros Q. destruct ts' as [|t ts']; [discriminate|]. injection Q as ->.
      cbn in Ex. discriminate.
    - unfold parse_spe_inter in E.
      destruct (parse_lists _ _ [Word "Mut"] ts) as [[[[f1 l] l'] r]|] eqn:E1; [|discriminate]. injection E as <- <-.
      assert (Q := parse_lists_spec _ _ E1). destruct Q as (_ & _ & w & ts' & -> & r' & Ee & x & Ex).
      cbn [eats eat] in Ee. destruct ts' as [|[| |] ts']; try discriminate.
      destruct ts' as [|[| |k] ts']; try discriminate.
      destruct (String.eqb_spec "Mut" k) as [<-|]; [|discriminate].
      cbn [apply_from] in A. assert (S := spe_from_spec false f1 l' N). rewrite A in S. destruct S as (-> & _).
      split; reflexivity.
  Qed.
End Parsed.

(** ** C40: join points, interface and generated program agree *)
Definition wants (p : join_points) (h : hook) : bool :=
  match h with
  | HkIfThen => jp_if_then p | HkIfThenElse => jp_if_then_else p
  | HkBrIf => jp_br_if p | HkBrTable => jp_br_table p
  | HkCallPre => jp_call_pre p | HkCallPost => jp_call_post p
  | HkCallIndPre => jp_call_indirect_pre p | HkCallIndPost => jp_call_indirect_post p
  | HkBlockPre => jp_block_pre p | HkBlockPost => jp_block_post p
  | HkLoopPre => jp_loop_pre p | HkLoopPost => jp_loop_post p
  | HkSelect => jp_select p
  | _ => false
  end.
Definition agrees (ai : interface) (p : join_points) : Prop :=
  (forall h, ai_hook ai h = if wants p h then Some (std_hook h) else None) /\
  ai_generic ai = (if jp_generic p then Some (generic_apply, call_base) else None).
(** Functions an interface imports from the analysis. *)
Definition imports (ai : interface) (e : wfun) : Prop :=
  (exists h, ai_hook ai h = Some e) \/ (exists b, ai_generic ai = Some (e, b)).
Definition specialised (a : advice_def) : bool :=
  match a with ATrap (TApply (ASpe _ _ _ _) _) => true | _ => false end.

Lemma agree_step t ai p : specialised (ATrap t) = false -> agrees ai p ->
  exists ai', set_trap t ai = Some ai' /\ agrees ai' (include (join_point_of t) p) /\
              forall e, imports ai' e <-> imports ai e \/ e = exported t.
Proof.
  intros Sp [Ah Ag].
  assert (Fld : forall h, agrees (set_field h (std_hook h) ai)
                  (include (join_point_of t) p) ->
                (forall e, imports (set_field h (std_hook h) ai) e <-> imports ai e \/ e = std_hook h)).
  { intros h _ e. unfold imports, set_field. cbn [ai_hook ai_generic]. split.
    - intros [[h' E]|G]; [|now left; right]. destruct (hook_eq_dec h' h) as [->|]; [right; congruence|left; left; eauto].
    - intros [[[h' E]|G]| ->]; [|now right|left; exists h; now destruct (hook_eq_dec h h)].
      left. exists h'. destruct (hook_eq_dec h' h) as [->|]; [|exact E].
      rewrite Ah in E. destruct (wants p h); congruence. }
  assert (Go : forall h, set_trap t ai = Some (set_field h (std_hook h) ai) ->
     (forall h', wants (include (join_point_of t) p) h' = if hook_eq_dec h' h then true else wants p h') ->
     jp_generic (include (join_point_of t) p) = jp_generic p -> exported t = std_hook h ->
     exists ai', set_trap t ai = Some ai' /\ agrees ai' (include (join_point_of t) p) /\
              forall e, imports ai' e <-> imports ai e \/ e = exported t).
  { intros h Es W G X. assert (AG : agrees (set_field h (std_hook h) ai) (include (join_point_of t) p)).
    { split.
      - intros h'. cbn. rewrite W. destruct (hook_eq_dec h' h) as [->|]; [reflexivity|apply Ah].
      - cbn. now rewrite G. }
    exists (set_field h (std_hook h) ai). split; [exact Es|]. split; [exact AG|]. rewrite X. now apply Fld. }
  destruct p. destruct t as [[m f a r|m f a r] b|[] x b|b|b|b|b|c b|x y b|x b|c b|c b|c l b|t d b]; try discriminate Sp.
  { exists (set_generic (generic_apply, call_base) ai). split; [reflexivity|]. split.
    - split; [exact Ah|reflexivity].
    - intros e. unfold imports. cbn. split.
      + intros [H|[b0 E]]; [now left; left|right]. injection E as <- _. reflexivity.
      + intros [[H|[b0 E]]| ->]; [now left| |right; eexists; reflexivity].
        right. cbn in Ag. rewrite E in Ag. destruct jp_generic; [|discriminate]. injection Ag as -> ->.
        eexists. reflexivity. }
  - apply (Go HkCallPre); try reflexivity. intros []; reflexivity.
  - apply (Go HkCallPost); try reflexivity. intros []; reflexivity.
  - apply (Go HkBlockPre); try reflexivity. intros []; reflexivity.
  - apply (Go HkBlockPost); try reflexivity. intros []; reflexivity.
  - apply (Go HkLoopPre); try reflexivity. intros []; reflexivity.
  - apply (Go HkLoopPost); try reflexivity. intros []; reflexivity.
  - apply (Go HkSelect); try reflexivity. intros []; reflexivity.
  - apply (Go HkCallIndPre); try reflexivity. intros []; reflexivity.
  - apply (Go HkCallIndPost); try reflexivity. intros []; reflexivity.
  - apply (Go HkIfThen); try reflexivity. intros []; reflexivity.
  - apply (Go HkIfThenElse); try reflexivity. intros []; reflexivity.
  - apply (Go HkBrIf); try reflexivity. intros []; reflexivity.
  - apply (Go HkBrTable); try reflexivity. intros []; reflexivity.
Qed.

(** For a program without specialised apply advice: the interface exists, it consists of
    exactly the join points, and the generated program exports exactly the functions the
    interface imports, with the same types. *)
Theorem C40_join_points_interface : forall root,
  existsb specialised root = false ->
  exists ai, interface_of_root root = Some ai /\ agrees ai (root_join_points root) /\
    forall e, imports ai e <-> In e (program_exports root).
Proof.
  assert (H : forall root ai p, existsb specialised root = false -> agrees ai p ->
    exists ai', wasp_interface root ai = Some ai' /\
      agrees ai' (fold_left (fun p a => match a with AGlobal _ => p | ATrap t => include (join_point_of t) p end) root p) /\
      forall e, imports ai' e <-> imports ai e \/ In e (program_exports root)).
  { induction root as [|a root IH]; intros ai p Sp Ag.
    - exists ai. split; [reflexivity|]. split; [exact Ag|]. cbn. tauto.
    - cbn [existsb] in Sp. apply orb_false_elim in Sp as [Sa Sr].
      destruct a as [code|t]; cbn [wasp_interface fold_left program_exports flat_map app].
      + destruct (IH ai p Sr Ag) as (ai' & E & A & I). exists ai'. split; [exact E|]. split; [exact A|]. exact I.
      + destruct (agree_step _ Sa Ag) as (ai1 & E1 & A1 & I1). rewrite E1.
        destruct (IH ai1 _ Sr A1) as (ai' & E & A & I). exists ai'. split; [exact E|]. split; [exact A|].
        intros e. rewrite I, I1. cbn [app In]. unfold program_exports. intuition. }
  intros root Sp. destruct (H root no_interface no_join_points Sp) as (ai & E & A & I).
  { split; [intros []; reflexivity|reflexivity]. }
  exists ai. split; [exact E|]. split; [exact A|]. intros e. rewrite I. unfold imports, no_interface. cbn.
  split; [intros [[[h Q]|[b Q]]|Q]; try discriminate; exact Q|now right].
Qed.

(** As soon as there is specialised apply advice the translation panics, although the
    program is accepted and its join points are computed. *)
Theorem C40_specialised_refuted : forall root,
  existsb specialised root = true <-> interface_of_root root = None.
Proof.
  assert (H : forall root ai, existsb specialised root = true <-> wasp_interface root ai = None).
  { induction root as [|a root IH]; intros ai; cbn [existsb wasp_interface]; [split; discriminate|].
    destruct a as [code|t]; cbn [specialised]; [apply IH|].
    destruct t as [[m f a r|m f a r] b|[] x b|b|b|b|b|c b|x y b|x b|c b|c b|c l b|t d b]; cbn [orb set_trap];
      try apply IH. tauto. }
  intros root. apply H.
Qed.

(** *** Examples *)
Definition any (s : string) : bool := true.
Definition ex_inter : list token :=
  [LP; Word "f"; Word "WasmFunction"; RP;
   LP; Word "Mut"; LP; Word "a"; Word "I32"; RP; LP; Word "b"; Word "F32"; RP; RP;
   LP; Word "Mut"; LP; Word "c"; Word "I64"; RP; RP].
Example ex_c39_c41 :
  exists s, parse_apply any any ex_inter = Some (s, []) /\ acceptable s /\
  apply_from s = WOk (ASpe false "f" [WP "a" TI32; WP "b" TF32] [WP "c" TI64]) /\
  nth_error ex_inter 5 = Some (Word "Mut").
Proof.
  eexists. split; [reflexivity|]. split; [|split; reflexivity].
  split; [repeat constructor; cbn; tauto|]. repeat constructor; cbn; intuition discriminate.
Qed.
Example ex_c39_gen :
  acceptable (PGen "f" (TA "x" "DynArgs") (TA "y" "DynResults")) /\
  apply_from (PGen "f" (TA "x" "DynArgs") (TA "y" "DynResults")) = WOk (AGen Dynamic "f" "x" "y") /\
  apply_from (PGen "f" (TA "x" "DynArgs") (TA "f" "DynResults")) = WErr (NonUniqueParameters ["f"; "x"; "f"]) /\
  apply_from (PGen "f" (TA "x" "Args") (TA "y" "DynResults")) = WErr (IncorrectArgsRessType "Args" "DynResults").
Proof.
  split; [|repeat split]. split; [cbn; tauto|]. repeat constructor; cbn; intuition discriminate.
Qed.
(** The name of the function parameter is not compared with the others. *)
Example ex_c39_function_name_unchecked :
  apply_from (PSpeIntro "a" [TA "a" "I32"] [TA "b" "I32"]) = WOk (ASpe true "a" [WP "a" TI32] [WP "b" TI32]).
Proof. reflexivity. Qed.
Definition ex_root : list padvice :=
  [PGlobal "let x = 0;"; PTrap (PCall Pre "f" ""); PTrap (PSelect "c" ""); PTrap (PIfThen "c" "");
   PTrap (PApply (PGen "f" (TA "x" "Args") (TA "y" "Results")) "")].
Example ex_c40 :
  match root_from ex_root with
  | WOk root => existsb specialised root = false /\ map wf_name (program_exports root)
      = ["specialized_call_pre"; "specialized_select"; "specialized_if_then_k"; "generic_apply"]
  | _ => False
  end.
Proof. vm_compute. split; reflexivity. Qed.
Example ex_c40_specialised :
  match root_from [PTrap (PApply (PSpeIntro "f" [TA "a" "I32"] [TA "b" "F64"]) "")] with
  | WOk root => jp_specialized (root_join_points root) = [([TF64], [TI32])] /\ interface_of_root root = None
  | _ => False
  end.
Proof. vm_compute. split; reflexivity. Qed.

Print Assumptions C39_apply_validation.
Print Assumptions C40_join_points_interface.
Print Assumptions C40_specialised_refuted.
Print Assumptions C41_mutability_refuted.
