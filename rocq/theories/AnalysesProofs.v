(** What the statistics of the analyses amount to after any sequence of events. *)
From Verif Require Import Semantics RsStdlib Trace TraceProofs TraceBalance Analyses RunLemmas Typing ModuleTyping StackSpec.
Local Open Scope list_scope.
Local Open Scope Z_scope.

(** ** Arithmetic that wraps *)
Lemma wrapS_add k a b : 0 < k -> wrapS k (wrapS k a + b) = wrapS k (a + b).
Proof.
  intros H. unfold wrapS. f_equal.
  replace ((a + 2 ^ (k - 1)) mod 2 ^ k - 2 ^ (k - 1) + b + 2 ^ (k - 1)) with ((a + 2 ^ (k - 1)) mod 2 ^ k + b) by lia.
  rewrite Zplus_mod_idemp_l. f_equal. lia.
Qed.
Lemma wrapS_small k z : 0 < k -> - 2 ^ (k - 1) <= z < 2 ^ (k - 1) -> wrapS k z = z.
Proof.
  intros K H. unfold wrapS. rewrite Z.mod_small; [lia|]. replace (2 ^ k) with (2 * 2 ^ (k - 1)); [lia|].
  rewrite <- Z.pow_succ_r by lia. f_equal. lia.
Qed.
Lemma wrapS_zero k : 0 < k -> wrapS k 0 = 0.
Proof. intros H. apply wrapS_small; [exact H|]. assert (0 < 2 ^ (k - 1)) by (apply Z.pow_pos_nonneg; lia). lia. Qed.
(** Wrapping functions. *)
Definition wraps (w : Z -> Z) : Prop := w 0 = 0 /\ forall a b, w (w a + b) = w (a + b).
Lemma wraps_signed k : 0 < k -> wraps (wrapS k).
Proof. intros H. split; [now apply wrapS_zero|intros; now apply wrapS_add]. Qed.
Lemma wraps_mod k : wraps (fun z => z mod 2 ^ k).
Proof. split; [apply Zmod_0_l|]. intros. apply Zplus_mod_idemp_l. Qed.

(** Number of events with a property. *)
Definition count {A} (p : A -> bool) (l : list A) : Z := Z.of_nat (List.length (filter p l)).
Lemma count_cons {A} (p : A -> bool) a l : count p (a :: l) = (if p a then 1 else 0) + count p l.
Proof. unfold count. simpl. destruct (p a); simpl List.length; lia. Qed.
Lemma count_app {A} (p : A -> bool) a b : count p (a ++ b) = count p a + count p b.
Proof. unfold count. rewrite filter_app, app_length. lia. Qed.
Lemma count_nonneg {A} (p : A -> bool) l : 0 <= count p l. Proof. unfold count. lia. Qed.
Lemma count_le {A} (p : A -> bool) l : count p l <= Z.of_nat (List.length l).
Proof. induction l as [|a l IH]; [reflexivity|]. rewrite count_cons. simpl List.length. destruct (p a); lia. Qed.
Lemma count_zero {A} (p : A -> bool) l : count p l = 0 <-> forall a, In a l -> p a = false.
Proof.
  induction l as [|b l IH]; [split; [intros _ a []|reflexivity]|]. rewrite count_cons. pose proof (count_nonneg p l). split.
  - intros H0 a [->|Ha]; [destruct (p a); [lia|reflexivity]|]. apply IH; [|exact Ha]. destruct (p b); lia.
  - intros H0. rewrite (H0 b (or_introl eq_refl)). rewrite (proj2 IH); [reflexivity|]. intros a Ha. apply H0. now right.
Qed.

(** ** Arrays of counters *)
Lemma nth_bump w l : forall i j, nth_error (bump w i l) j =
  if Nat.eqb i j then option_map (fun c => w (c + 1)) (nth_error l j) else nth_error l j.
Proof.
  induction l as [|c l IH]; intros i j; [destruct i, j; simpl; try reflexivity; destruct (Nat.eqb _ _); reflexivity|].
  destruct i, j; simpl; auto.
Qed.
Lemma array_counts w (W : wraps w) (idx : event -> option nat) (obs : list Z -> event -> list Z) :
  (forall l e, obs l e = match idx e with Some i => bump w i l | None => l end) ->
  forall j evs l, nth_error l j = None \/ (exists c, nth_error l j = Some (w c)) ->
  nth_error (fold_left obs evs l) j =
  option_map (fun c => w (c + count (fun e => match idx e with Some i => Nat.eqb i j | None => false end) evs)) (nth_error l j).
Proof.
  intros O j. induction evs as [|e evs IH]; intros l H; simpl fold_left.
  - destruct H as [->|(c & ->)]; [reflexivity|]. unfold count. simpl. rewrite (proj2 W), Z.add_0_r. reflexivity.
  - rewrite O. destruct (idx e) as [i|] eqn:Ei.
    + rewrite IH; rewrite nth_bump.
      * destruct (Nat.eqb i j) eqn:E; [|destruct (nth_error l j); [|reflexivity]; cbn [option_map]; do 2 f_equal; rewrite count_cons, Ei, E; lia].
        destruct (nth_error l j) as [c|]; [|reflexivity]. cbn [option_map]. f_equal. rewrite (proj2 W). f_equal.
        rewrite count_cons, Ei, E. lia.
      * destruct (Nat.eqb i j); [|exact H]. destruct H as [->|(c & ->)]; [now left|]. right. eexists. reflexivity.
    + rewrite IH by exact H. destruct (nth_error l j); [|reflexivity]. cbn [option_map]. do 2 f_equal. rewrite count_cons, Ei. lia.
Qed.

(** ** Maps of counters that start at 0 on the first occurrence *)
Section Keyed.
  Context {K : Type}.
  Variable eqb : K -> K -> bool.
  Hypothesis eqb_eq : forall a b, eqb a b = true <-> a = b.
  Variable keyed : event -> option K.
  Definition hits (k : K) (e : event) : bool := match keyed e with Some k' => eqb k k' | None => false end.
  Lemma keyed_counts w (W : wraps w) (obs : @kmap K Z -> event -> @kmap K Z) :
    (forall m e, obs m e = match keyed e with Some k => modify_or_insert eqb k (fun c => w (c + 1)) 0 m | None => m end) ->
    forall k evs, kget eqb k (fold_left obs evs []) = let c := count (hits k) evs in if c =? 0 then None else Some (w (c - 1)).
  Proof.
    intros O k evs.
    assert (G : forall m, match kget eqb k m with Some v => v = w v | None => True end ->
      kget eqb k (fold_left obs evs m) =
      match kget eqb k m with
      | Some v => Some (w (v + count (hits k) evs))
      | None => let c := count (hits k) evs in if c =? 0 then None else Some (w (c - 1))
      end); [|apply (G []); exact I].
    induction evs as [|e evs IH]; intros m H; simpl fold_left.
    - unfold count. simpl. destruct (kget eqb k m); [|reflexivity]. f_equal. rewrite Z.add_0_r. exact H.
    - rewrite O. cbv zeta. rewrite count_cons. change (hits k e) with (match keyed e with Some k' => eqb k k' | None => false end).
      destruct (keyed e) as [k'|]; [|rewrite (IH _ H), Z.add_0_l; reflexivity].
      pose proof (count_nonneg (hits k) evs) as NN.
      rewrite IH; rewrite (get_modify _ eqb_eq); destruct (eqb k k') eqn:E; auto.
      + destruct (kget eqb k m) as [v|]; f_equal; [rewrite (proj2 W); f_equal; lia|].
        replace (1 + count (hits k) evs =? 0) with false by (symmetry; apply Z.eqb_neq; lia). do 2 f_equal. lia.
      + destruct (kget eqb k m) as [v|]; [symmetry|symmetry; exact (proj1 W)]. pose proof (proj2 W (v + 1) 0) as Q. now rewrite !Z.add_0_r in Q.
  Qed.
  (** Maps that are only inserted into. *)
  Lemma inserted {V} (v : V) (obs : @kmap K V -> event -> @kmap K V) :
    (forall m e, obs m e = match keyed e with Some k => kput eqb k v m | None => m end) ->
    forall k evs m, kget eqb k (fold_left obs evs m) = if existsb (hits k) evs then Some v else kget eqb k m.
  Proof.
    intros O k. induction evs as [|e evs IH]; intros m; [reflexivity|]. simpl fold_left. rewrite IH, O. simpl existsb.
    unfold hits at 2. destruct (keyed e) as [k'|]; [|reflexivity]. rewrite (get_put _ eqb_eq).
    destruct (eqb k k'), (existsb (hits k) evs); reflexivity.
  Qed.
End Keyed.

(** ** Depth *)
(** The largest sum of weights in any prefix. *)
Fixpoint peak (w : event -> Z) (evs : list event) : Z :=
  match evs with [] => 0 | e :: r => Z.max 0 (w e + peak w r) end.
Lemma peak_nonneg w evs : 0 <= peak w evs.
Proof. destruct evs; simpl; lia. Qed.
Lemma peak_app w a b : peak w (a ++ b) = Z.max (peak w a) (total w a + peak w b).
Proof. pose proof (peak_nonneg w b). induction a as [|e a IH]; simpl; [lia|]. rewrite IH. fold (total w a). lia. Qed.
(** It is reached by some prefix, and no prefix has more. *)
Lemma peak_reached w evs : (exists b a, evs = b ++ a /\ total w b = peak w evs) /\ forall b a, evs = b ++ a -> total w b <= peak w evs.
Proof.
  split.
  - induction evs as [|e evs (b & a & E & H)]; [exists [], []; auto|]. simpl.
    destruct (Z.max_spec 0 (w e + peak w evs)) as [(L & ->)|(L & ->)].
    + exists (e :: b), a. subst evs. split; [reflexivity|]. simpl. fold (total w b). lia.
    + exists [], (e :: evs). split; reflexivity.
  - intros b a ->. rewrite peak_app. pose proof (peak_nonneg w a). pose proof (peak_nonneg w b). lia.
Qed.

(** ** call-stack *)
Definition apply_weight (e : event) : Z := match e with EvEnter _ _ _ => 1 | EvLeave _ _ => -1 | _ => 0 end.
Definition call_weight (e : event) : Z :=
  match e with EvAdvice (AdCallPre _ _) => 1 | EvAdvice (AdCallPost _ _) => -1 | _ => 0 end.
Definition is_enter (e : event) : bool := match e with EvEnter _ _ _ => true | _ => false end.
Definition is_call (e : event) : bool := match e with EvAdvice (AdCallPre _ _) => true | _ => false end.

Lemma wrapS_32 z : - 2 ^ 31 <= z < 2 ^ 31 -> wrapS 32 z = z.
Proof. intros H. apply wrapS_small; [reflexivity|exact H]. Qed.
Lemma cs_counts evs : forall na ma nc mc sa sc,
  let L := Z.of_nat (List.length evs) in
  0 <= na -> na + L < 2 ^ 31 -> 0 <= nc -> nc + L < 2 ^ 31 -> sa <= ma -> sc <= mc ->
  sa + L < 2 ^ 31 -> - 2 ^ 31 <= sa - L -> sc + L < 2 ^ 31 -> - 2 ^ 31 <= sc - L ->
  fold_left cs_obs evs (CS na ma nc mc sa sc) =
  CS (na + count is_enter evs) (Z.max ma (sa + peak apply_weight evs))
     (nc + count is_call evs) (Z.max mc (sc + peak call_weight evs))
     (sa + total apply_weight evs) (sc + total call_weight evs).
Proof.
  induction evs as [|e evs IH]; intros na ma nc mc sa sc L H1 H2 H3 H4 H5 H6 H7 H8 H9 H10.
  - simpl. unfold count. simpl. f_equal; lia.
  - assert (EL : L = 1 + Z.of_nat (List.length evs)) by (unfold L; simpl List.length; lia). clearbody L. subst L.
    pose proof (Zle_0_nat (List.length evs)) as NN. pose proof (peak_nonneg apply_weight evs). pose proof (peak_nonneg call_weight evs).
    simpl fold_left. rewrite !count_cons. cbn [peak total fold_right]. fold (total apply_weight evs) (total call_weight evs).
    assert (SK : fold_left cs_obs evs (CS na ma nc mc sa sc) =
      CS (na + (0 + count is_enter evs)) (Z.max ma (sa + Z.max 0 (0 + peak apply_weight evs)))
         (nc + (0 + count is_call evs)) (Z.max mc (sc + Z.max 0 (0 + peak call_weight evs)))
         (sa + (0 + total apply_weight evs)) (sc + (0 + total call_weight evs))).
    { rewrite IH by (try assumption; cbv zeta; lia). f_equal; lia. }
    destruct e as [[]|f c args|f rs]; try exact SK; clear SK; cbn [cs_obs apply_weight call_weight is_enter is_call
      number_of_applies max_apply_depth number_of_calls max_call_depth apply_stack calls_stack];
      rewrite ?wrapS_32 by lia; rewrite IH by (cbv zeta; lia); f_equal; lia.
Qed.
Lemma cs_from_zero evs : Z.of_nat (List.length evs) < 2 ^ 31 ->
  fold_left cs_obs evs cs_zero =
  CS (count is_enter evs) (peak apply_weight evs) (count is_call evs) (peak call_weight evs) (total apply_weight evs) (total call_weight evs).
Proof.
  intros H. unfold cs_zero. rewrite cs_counts by lia. pose proof (peak_nonneg apply_weight evs). pose proof (peak_nonneg call_weight evs).
  f_equal; lia.
Qed.

(** ** globals *)
(** The accesses of a global, in order. *)
Fixpoint accesses (g : Z) (evs : list event) : list globalop :=
  match evs with
  | [] => []
  | EvAdvice (AdGlobal _ i o _) :: r => if Z.eqb g i then o :: accesses g r else accesses g r
  | _ :: r => accesses g r
  end.
Definition is_get (o : globalop) : bool := match o with GGet => true | GSet => false end.
Definition is_set (o : globalop) : bool := match o with GGet => false | GSet => true end.
Lemma globals_counts g evs : kget Z.eqb g (fold_left globals_obs evs []) =
  match accesses g evs with [] => None | _ :: r => Some (wrapS 32 (count is_get r), wrapS 32 (count is_set r)) end.
Proof.
  assert (W : wraps (wrapS 32)) by (apply wraps_signed; reflexivity).
  assert (G : forall m, match kget Z.eqb g m with Some v => fst v = wrapS 32 (fst v) /\ snd v = wrapS 32 (snd v) | None => True end ->
    kget Z.eqb g (fold_left globals_obs evs m) =
    match kget Z.eqb g m with
    | Some v => Some (wrapS 32 (fst v + count is_get (accesses g evs)), wrapS 32 (snd v + count is_set (accesses g evs)))
    | None => match accesses g evs with [] => None | _ :: r => Some (wrapS 32 (count is_get r), wrapS 32 (count is_set r)) end
    end); [|apply (G []); exact I].
  induction evs as [|e evs IH]; intros m H; simpl fold_left.
  - simpl. unfold count. simpl. destruct (kget Z.eqb g m) as [[a b]|]; [|reflexivity]. simpl in *. rewrite !Z.add_0_r. destruct H as [<- <-]. reflexivity.
  - destruct e as [[]|f c args|f rs]; try exact (IH m H). cbn [globals_obs accesses].
    rewrite IH; rewrite (get_modify _ Z.eqb_eq).
    + destruct (g =? i) eqn:E; [|reflexivity].
      destruct (kget Z.eqb g m) as [[a b]|]; destruct o; cbn [fst snd]; rewrite ?count_cons; cbn [is_get is_set]; rewrite ?Z.add_0_l;
        rewrite ?(proj2 W); try reflexivity; do 2 f_equal; f_equal; lia.
    + destruct (g =? i) eqn:E; [|exact H].
      pose proof (fun z => proj2 W z 0) as Q. 
      destruct (kget Z.eqb g m) as [[a b]|]; destruct o; cbn [fst snd] in *; repeat split; try (symmetry; apply (proj1 W)); try apply H;
        specialize (Q (a + 1)) as Q1; specialize (Q (b + 1)) as Q2; rewrite !Z.add_0_r in Q1, Q2; congruence.
Qed.

(** ** icount *)
Definition in_function (f : Z) (e : event) : bool :=
  match e with EvAdvice a => Z.eqb f (function_index (location_of a)) | _ => false end.
Definition icount_step (l : list Z) (e : event) : list Z :=
  match e with EvAdvice a => bump (wrapS 32) (opcode_index a) l | _ => l end.
Lemma icount_counts f evs : kget Z.eqb f (fold_left icount_obs evs []) =
  match filter (in_function f) evs with [] => None | _ :: r => Some (fold_left icount_step r opcodes_zero) end.
Proof.
  assert (G : forall m, kget Z.eqb f (fold_left icount_obs evs m) =
    match kget Z.eqb f m with
    | Some l => Some (fold_left icount_step (filter (in_function f) evs) l)
    | None => match filter (in_function f) evs with [] => None | _ :: r => Some (fold_left icount_step r opcodes_zero) end
    end); [|apply (G [])].
  induction evs as [|e evs IH]; intros m; [simpl; destruct (kget Z.eqb f m); reflexivity|].
  simpl fold_left. rewrite IH. destruct e as [a|? ? ?|? ?]; try reflexivity. cbn [icount_obs filter in_function].
  rewrite (get_modify _ Z.eqb_eq). destruct (f =? function_index (location_of a)); [|reflexivity].
  destruct (kget Z.eqb f m); reflexivity.
Qed.
Definition has_index (j : nat) (e : event) : bool := match e with EvAdvice a => Nat.eqb (opcode_index a) j | _ => false end.
Lemma icount_nth j evs : (j < opcode_count)%nat ->
  nth_error (fold_left icount_step evs opcodes_zero) j = Some (wrapS 32 (count (has_index j) evs)).
Proof.
  intros J. assert (W : wraps (wrapS 32)) by (apply wraps_signed; reflexivity).
  assert (N0 : nth_error opcodes_zero j = Some 0) by (apply nth_error_repeat; exact J).
  rewrite (@array_counts _ W (fun e => match e with EvAdvice a => Some (opcode_index a) | _ => None end)).
  - rewrite N0. cbn [option_map]. f_equal. f_equal. rewrite Z.add_0_l. unfold count. apply (f_equal (fun l => Z.of_nat (List.length l))).
    apply filter_ext. intros []; reflexivity.
  - intros l [a| |]; reflexivity.
  - right. exists 0. rewrite N0. reflexivity.
Qed.

(** ** The last condition *)
(** What the last event to say something says. *)
Fixpoint last_said (say : event -> option Z) (evs : list event) : option Z :=
  match evs with
  | [] => None
  | e :: r => match last_said say r with Some c => Some c | None => say e end
  end.
Lemma branches_last select k evs : forall m,
  kget eqb2 k (fold_left (branches_obs select) evs m) =
  match last_said (fun e => match e with EvAdvice a => if eqb2 k (key_of (location_of a)) then condition select a else None | _ => None end) evs with
  | Some c => Some c
  | None => kget eqb2 k m
  end.
Proof.
  induction evs as [|e evs IH]; intros m; [reflexivity|]. simpl fold_left. rewrite IH. simpl last_said.
  destruct (last_said _ evs) as [c|]; [reflexivity|]. destruct e as [a| |]; try reflexivity. cbn [branches_obs].
  destruct (condition select a) as [c|]; [|destruct (eqb2 k _); reflexivity]. rewrite (get_put _ eqb2_eq).
  destruct (eqb2 k (key_of (location_of a))); reflexivity.
Qed.
