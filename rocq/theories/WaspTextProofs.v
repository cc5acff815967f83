(** Proofs for [WaspText]: the parser accepts the texts that spell a syntax tree. *)
From Coq Require Import Ascii Lia.
From Verif Require Import Wasp WaspText WaspGrammar.
Local Open Scope string_scope.
Local Open Scope list_scope.
Import String.

(** ** Strings and character classes *)
Lemma app_assoc_s a b c : (a +++ b) +++ c = a +++ b +++ c.
Proof. induction a; cbn; congruence. Qed.
Lemma app_nil_s a : a +++ "" = a.
Proof. induction a; cbn; congruence. Qed.
Lemma length_app_s a b : String.length (a +++ b) = (String.length a + String.length b)%nat.
Proof. induction a; cbn; congruence. Qed.
Lemma app_inv_s a b c : a +++ b = a +++ c -> b = c.
Proof. induction a; cbn; [easy|]. intros [=]; auto. Qed.
Lemma prefix_app k s : String.prefix k (k +++ s) = true.
Proof. induction k; cbn; [now destruct s|]. destruct (ascii_dec a a); [auto|congruence]. Qed.
Lemma drop_app k s : drop (String.length k) (k +++ s) = s.
Proof. induction k; cbn; auto. Qed.
Lemma prefix_inv k s : String.prefix k s = true -> s = k +++ drop (String.length k) s.
Proof.
  revert s; induction k; [easy|]. intros [|b s]; [easy|]. cbn. destruct (ascii_dec a b); [|intros [=]]. intros H%IHk. subst. f_equal. exact H.
Qed.
Ltac bits a := destruct a as [[] [] [] [] [] [] [] []].
Lemma white_iff a : white a = true <-> In a blanks.
Proof. split; [bits a; vm_compute; intros E; try discriminate E; auto 10|]. cbn. intros [<-|[<-|[<-|[<-|[]]]]]; reflexivity. Qed.
Fixpoint memc (a : ascii) (l : list ascii) : bool := match l with [] => false | b :: l' => Ascii.eqb a b || memc a l' end.
Lemma memc_iff a l : memc a l = true <-> In a l.
Proof.
  induction l as [|b l IH]; cbn; [easy|]. rewrite Bool.orb_true_iff, IH, Ascii.eqb_eq. split; intros [|]; auto.
Qed.
Lemma upper_iff a : upper a = true <-> In a letters_upper.
Proof. rewrite <- memc_iff. replace (upper a) with (memc a letters_upper) by (bits a; reflexivity). easy. Qed.
Lemma alpha_iff a : alpha a = true <-> In a all_letters.
Proof. rewrite <- memc_iff. replace (alpha a) with (memc a all_letters) by (bits a; reflexivity). easy. Qed.
Lemma alphanumeric_iff a : alphanumeric a = true <-> In a letters_digits.
Proof. rewrite <- memc_iff. replace (alphanumeric a) with (memc a letters_digits) by (bits a; reflexivity). easy. Qed.

(** ** Comments *)
Lemma closed_iff s : closed s = true <-> occurs "|#" s.
Proof.
  split.
  - induction s as [|a s IH]; cbn [closed]; [easy|]. intros [E|E]%Bool.orb_true_iff.
    + apply prefix_inv in E. exists "", (drop 2 (String a s)). exact E.
    + destruct (IH E) as (x & y & ->). now exists (String a x), y.
  - intros (x & y & ->). induction x as [|a x IH]; [now destruct y|].
    change ((String a x) +++ "|#" +++ y) with (String a (x +++ "|#" +++ y)). cbn [closed]. rewrite IH. now destruct (String.prefix _ _).
Qed.
(** The first end of a comment. *)
Lemma ends_two : ends_with_first "|#" "|#".
Proof. exists "". split; [reflexivity|]. intros [|a [|b y]] z; cbn; try congruence; intros [=]; destruct y; discriminate. Qed.
Lemma ends_more a b c : ~ (a = "|"%char /\ b = "#"%char) -> ends_with_first "|#" (String b c) -> ends_with_first "|#" (String a (String b c)).
Proof.
  intros N (x & E & U). exists (String a x). split; [cbn; congruence|]. intros [|a' y] z; cbn.
  - intros [=]. now elim N.
  - intros [= _ F]. exact (U _ _ F).
Qed.
Lemma ends_inv c : ends_with_first "|#" c -> c = "|#" \/
  exists a b d, c = String a (String b d) /\ ~ (a = "|"%char /\ b = "#"%char) /\ ends_with_first "|#" (String b d).
Proof.
  intros (x & -> & U). destruct x as [|a [|b x]]; [now left| |]; right.
  - exists a, "|"%char, "#". split; [reflexivity|]. split; [now intros (_ & [=])|]. exact ends_two.
  - exists a, b, (x +++ "|#"). split; [reflexivity|]. split.
    + intros (-> & ->). specialize (U "" (x +++ "|#") eq_refl). destruct x; discriminate U.
    + exists (String b x). split; [reflexivity|]. intros y z F. apply (U (String a y)). cbn in *. now rewrite F.
Qed.
Lemma first_end s : closed s = true -> exists c r, s = c +++ r /\ ends_with_first "|#" c.
Proof.
  induction s as [|a s IH]; cbn [closed]; [easy|]. destruct (String.prefix "|#" (String a s)) eqn:P; cbn [orb].
  - intros _. apply prefix_inv in P. eexists _, _. split; [exact P|exact ends_two].
  - intros C. destruct (IH C) as (c & r & -> & E). exists (String a c), r. split; [reflexivity|].
    destruct (ends_inv E) as [->|(a1 & b & d & -> & _)].
    + apply ends_more; [|exact E]. now intros (_ & [=]).
    + apply ends_more; [|exact E]. intros (-> & ->). change (String.prefix "|#" ("|#" +++ (String b d +++ r)) = false) in P. now rewrite prefix_app in P.
Qed.
Lemma ends_closed c r : ends_with_first "|#" c -> closed (c +++ r) = true.
Proof. intros (x & -> & _). apply closed_iff. exists x, r. apply app_assoc_s. Qed.
Lemma ends_ind (P : string -> Prop) : P "|#" ->
  (forall a b d, ~ (a = "|"%char /\ b = "#"%char) -> ends_with_first "|#" (String b d) -> P (String b d) -> P (String a (String b d))) ->
  forall c, ends_with_first "|#" c -> P c.
Proof.
  intros A B c. induction c as [|a c IH]; intros E; destruct (ends_inv E) as [->|(a1 & b & d & [= -> ->] & N & F)]; try easy. now apply B; auto.
Qed.
Lemma pair_false a b : ~ (a = "|"%char /\ b = "#"%char) -> (Ascii.eqb a "|" && Ascii.eqb b "#")%bool = false.
Proof. intros N. apply Bool.not_true_iff_false. intros (E & F)%andb_prop. apply Ascii.eqb_eq in E, F. now apply N. Qed.
Lemma skip_comment c r : ends_with_first "|#" c -> skip true (c +++ r) = skip false r.
Proof.
  revert c. refine (@ends_ind (fun c => skip true (c +++ r) = skip false r) _ _); [reflexivity|]. intros a b d N _ IH. cbn [String.append skip] in *. rewrite (pair_false N). exact IH.
Qed.
Definition solid (a : ascii) : bool := negb (white a) && negb (Ascii.eqb a "#").
Lemma skip_solid a r : solid a = true -> skip false (String a r) = String a r.
Proof. intros (W & H)%andb_prop. cbn [skip]. destruct (white a); [easy|]. destruct (Ascii.eqb a "#"); [easy|]. now destruct r. Qed.
Lemma skip_gap g r : gap g -> skip false (g +++ r) = skip false r.
Proof.
  induction 1 as [|a g W G IH|c g E G IH]; [reflexivity| |].
  - apply white_iff in W. cbn [String.append skip]. now rewrite W.
  - rewrite !app_assoc_s. cbn [String.append skip Ascii.eqb]. change (white "#") with false. rewrite ends_closed by assumption. cbn. now rewrite (skip_comment (g +++ r) E).
Qed.
Lemma skip_is_gap s : exists g, gap g /\ s = g +++ skip false s.
Proof.
  remember (String.length s) as n eqn:L. assert (M : (String.length s <= n)%nat) by lia. clear L. revert s M.
  induction n as [|n IH]; intros s M.
  { destruct s; [|cbn in M; lia]. exists "". split; [constructor|reflexivity]. }
  destruct s as [|a r]; [exists ""; split; [constructor|reflexivity]|]. cbn [String.length] in M.
  destruct (white a) eqn:W.
  - destruct (IH r) as (g & G & E); [lia|]. exists (String a g). split; [constructor; [now apply white_iff|assumption]|].
    cbn [skip]. rewrite W. cbn. now rewrite <- E.
  - destruct r as [|b r]; [exists ""; split; [constructor|cbn; now rewrite W]|].
    destruct (Ascii.eqb a "#" && Ascii.eqb b "|" && closed r)%bool eqn:C.
    + cbn [skip]. rewrite W, C. apply andb_prop in C as ((A & B)%andb_prop & C). apply Ascii.eqb_eq in A, B. subst.
      destruct (first_end _ C) as (c & r' & -> & E). rewrite (skip_comment r' E).
      destruct (IH r') as (g & G & F). { cbn in M. rewrite length_app_s in M. lia. }
      exists ("#|" +++ c +++ g). split; [now constructor|]. cbn. now rewrite app_assoc_s, <- F.
    + exists "". split; [constructor|]. cbn [skip]. now rewrite W, C.
Qed.
Lemma gap_iff s : gap s <-> skip false s = "".
Proof.
  split; [intros G; rewrite <- (app_nil_s s); exact (skip_gap "" G)|]. intros E. destruct (skip_is_gap s) as (g & G & F). rewrite E, app_nil_s in F. now subst.
Qed.
Definition solid_start (s : string) : bool := match s with String a _ => solid a | "" => false end.
Lemma skip_start k r : solid_start k = true -> skip false (k +++ r) = k +++ r.
Proof. destruct k; [easy|]. apply skip_solid. Qed.

(** ** Tokens *)
Lemma lit_sound k s u r ts : lit k s = Some (u, r) -> spells ts r -> spells (KLit k :: ts) s.
Proof.
  unfold lit. destruct (skip_is_gap s) as (g & G & F). destruct (String.prefix k (skip false s)) eqn:P; [|easy]. intros [= _ <-] R.
  apply prefix_inv in P. rewrite F, P. now apply (@spells_cons g (KLit k)).
Qed.
Lemma lit_yes k s ts : solid_start k = true -> spells (KLit k :: ts) s -> exists r, lit k s = Some (tt, r) /\ spells ts r.
Proof.
  intros K R. inversion R as [|g t ts' r G _ Q]; subst. exists r. split; [|assumption]. unfold lit. cbn [text].
  rewrite (skip_gap _ G), skip_start, prefix_app, drop_app by assumption. reflexivity.
Qed.
Lemma lit_no k t s ts : solid_start (text t) = true -> (forall r, String.prefix k (text t +++ r) = false) -> spells (t :: ts) s -> lit k s = None.
Proof.
  intros K P R. inversion R as [|g t' ts' r G _ Q]; subst. unfold lit. rewrite (skip_gap _ G), skip_start by assumption. now rewrite P.
Qed.
(** A keyword that continues another one. *)
Lemma lit_begins k x s ts : solid_start k = true -> spells (KLit (k +++ x) :: ts) s -> exists r, lit k s = Some (tt, x +++ r) /\ spells ts r.
Proof.
  intros K R. inversion R as [|g t ts' r G _ Q]; subst. exists r. split; [|assumption]. unfold lit. cbn [text].
  rewrite (skip_gap _ G), app_assoc_s, skip_start, prefix_app, drop_app by assumption. reflexivity.
Qed.
Lemma span_sound f s w r : span f s = (w, r) -> s = w +++ r /\ Forall (fun a => f a = true) (chars w) /\ (forall a q, r = String a q -> f a = false).
Proof.
  revert w r. induction s as [|a s IH]; cbn; intros w r; [intros [= <- <-]; repeat split; [constructor|easy]|].
  destruct (f a) eqn:F; [|intros [= <- <-]; repeat split; [constructor|congruence]].
  destruct (span f s) as [w' r'] eqn:E. intros [= <- <-]. destruct (IH _ _ eq_refl) as (-> & A & B). repeat split; [now constructor|assumption].
Qed.
Lemma span_complete f w r : Forall (fun a => f a = true) (chars w) -> (forall a q, r = String a q -> f a = false) -> span f (w +++ r) = (w, r).
Proof.
  intros F N. induction w as [|a w IH]; cbn in *.
  - destruct r as [|a r]; [reflexivity|]. cbn. now rewrite (N _ _ eq_refl).
  - inversion F; subst. rewrite H1, IH; auto.
Qed.
Lemma not_starts f l r : (forall a, f a = true <-> In a l) -> ((forall a q, r = String a q -> f a = false) <-> ~ starts_in l r).
Proof.
  intros E. split.
  - intros N. destruct r as [|a r]; [easy|]. cbn. intros I%E. now rewrite (N _ _ eq_refl) in I.
  - intros N a q ->. cbn in N. apply Bool.not_true_iff_false. now rewrite E.
Qed.
Lemma all_iff f l w : (forall a, f a = true <-> In a l) -> (Forall (fun a => f a = true) (chars w) <-> Forall (fun a => In a l) (chars w)).
Proof. intros E. split; apply Forall_impl; intros a; apply E. Qed.
Lemma alpha_solid a : alpha a = true -> solid a = true.
Proof. bits a; intros E; try reflexivity; discriminate E. Qed.
Lemma word_solid x : word x -> solid_start x = true.
Proof. intros (N & F). destruct x as [|a x]; [easy|]. inversion F; subst. now apply alpha_solid, alpha_iff. Qed.
Lemma upper_alpha a : upper a = true -> alpha a = true.
Proof. unfold alpha. intros ->. reflexivity. Qed.
Lemma identifier_sound s x r ts : identifier s = Some (x, r) -> spells ts r -> spells (KId x :: ts) s.
Proof.
  unfold identifier. destruct (skip_is_gap s) as (g & G & F). destruct (span alpha (skip false s)) as [w r'] eqn:E. destruct w as [|a w]; [easy|]. intros [= <- <-] R.
  apply span_sound in E as (E & A & B). rewrite F, E. apply (@spells_cons g (KId (String a w))); [assumption| |assumption]. split.
  - split; [easy|]. now apply (all_iff _ _ _ alpha_iff).
  - now apply (not_starts _ _ _ alpha_iff).
Qed.
Lemma identifier_yes s x ts : spells (KId x :: ts) s -> exists r, identifier s = Some (x, r) /\ spells ts r.
Proof.
  intros R. inversion R as [|g t ts' r G XN Q]; subst. cbn [fits] in XN. destruct XN as (X & N). exists r. split; [|assumption]. unfold identifier. cbn [text].
  rewrite (skip_gap _ G), (skip_start _ r (word_solid X)). destruct X as (Z & X).
  rewrite span_complete; [destruct x; easy|now apply (all_iff _ _ _ alpha_iff)|now apply (not_starts _ _ _ alpha_iff)].
Qed.
Lemma identifier_no t s ts : solid_start (text t) = true -> (forall r, span alpha (text t +++ r) = ("", text t +++ r)) -> spells (t :: ts) s -> identifier s = None.
Proof.
  intros K P R. inversion R as [|g t' ts' r G _ Q]; subst. unfold identifier. rewrite (skip_gap _ G), skip_start by assumption. now rewrite P.
Qed.
Lemma type_sound s x r ts : type_identifier s = Some (x, r) -> spells ts r -> spells (KType x :: ts) s.
Proof.
  unfold type_identifier. destruct (skip_is_gap s) as (g & G & F). destruct (skip false s) as [|a q] eqn:Q; [easy|]. destruct (upper a) eqn:U; [|easy].
  destruct (span alphanumeric q) as [w r'] eqn:E. intros H R. destruct w as [|b w]; [easy|]. injection H as <- <-.
  apply span_sound in E as (-> & A & B). rewrite F. apply (@spells_cons g (KType (String a (String b w)))); [assumption| |assumption]. split.
  - exists a, (String b w). split; [reflexivity|]. split; [now apply upper_iff|]. split; [easy|]. now apply (all_iff _ _ _ alphanumeric_iff).
  - now apply (not_starts _ _ _ alphanumeric_iff).
Qed.
Lemma type_yes s x ts : spells (KType x :: ts) s -> exists r, type_identifier s = Some (x, r) /\ spells ts r.
Proof.
  intros R. inversion R as [|g t ts' r G XN Q]; subst. cbn [fits] in XN. destruct XN as ((a & w & -> & U & Z & X) & N). exists r. split; [|assumption]. unfold type_identifier. cbn [text].
  apply upper_iff in U. rewrite (skip_gap _ G), skip_start by (now apply alpha_solid, upper_alpha). cbn [String.append]. rewrite U.
  rewrite span_complete; [destruct w; easy|now apply (all_iff _ _ _ alphanumeric_iff)|now apply (not_starts _ _ _ alphanumeric_iff)].
Qed.
Lemma type_no t s ts : solid_start (text t) = true -> (forall r, type_identifier (text t +++ r) = None) -> spells (t :: ts) s -> type_identifier s = None.
Proof.
  intros K P R. inversion R as [|g t' ts' r G _ Q]; subst. specialize (P r). unfold type_identifier in *. rewrite skip_start in P by assumption.
  now rewrite (skip_gap _ G), skip_start by assumption.
Qed.

(** ** Guest code *)
Lemma more_some a x c r : more a x = Some (c, r) -> exists c', c = String a c' /\ x = Some (c', r).
Proof. destruct x as [[c' r']|]; [|easy]. cbn. intros [= <- <-]. now exists c'. Qed.
Lemma guest_in_comment c r : ends_with_first "|#" c -> guest true (c +++ r) = option_map (fun x => (c +++ fst x, snd x)) (guest false r).
Proof.
  revert c. refine (@ends_ind (fun c => guest true (c +++ r) = option_map (fun x => (c +++ fst x, snd x)) (guest false r)) _ _).
  - cbn [String.append guest Ascii.eqb andb]. destruct (guest false r) as [[]|]; reflexivity.
  - intros a b d N _ IH. cbn [String.append guest] in *. rewrite (pair_false N). rewrite IH. now destruct (guest false r) as [[]|].
Qed.
Lemma guest_sound s c r : guest false s = Some (c, r) -> s = c +++ ending +++ r /\ guest_code r c.
Proof.
  remember (String.length s) as n eqn:L. assert (M : (String.length s <= n)%nat) by lia. clear L. revert s c M.
  induction n as [|n IH]; intros s c M H; [destruct s; [easy|cbn in M; lia]|].
  destruct s as [|a s]; [easy|]. cbn [String.length] in M. cbn [guest] in H.
  destruct (String.prefix ending (String a s)) eqn:P.
  { injection H as <- <-. apply prefix_inv in P. split; [exact P|constructor]. }
  assert (NP : forall z, String a s <> ending +++ z) by (intros z Z; rewrite Z, prefix_app in P; easy).
  assert (PLAIN : more a (guest false s) = Some (c, r) -> (forall z, occurs "|#" z -> String a s <> "#|" +++ z) -> String a s = c +++ ending +++ r /\ guest_code r c).
  { clear H. intros H NC. apply more_some in H as (c' & -> & H). destruct (IH s c' ltac:(lia) H) as (-> & G). split; [reflexivity|]. now constructor. }
  destruct s as [|b s]; [apply PLAIN; [exact H|]; intros z _ [=]|].
  destruct (Ascii.eqb a "#" && Ascii.eqb b "|" && closed s)%bool eqn:C.
  - clear PLAIN. apply andb_prop in C as ((A & B)%andb_prop & C). apply Ascii.eqb_eq in A, B. subst.
    destruct (first_end _ C) as (d & q & -> & E). rewrite (guest_in_comment q E) in H.
    destruct (guest false q) as [[c' r']|] eqn:Q; [|easy]. cbn in H. injection H as <- <-.
    destruct (IH q c') as (-> & G); [cbn in M; rewrite length_app_s in M; lia|exact Q|]. split; [cbn [String.append]; now rewrite app_assoc_s|].
    apply (@guest_comment _ d); assumption.
  - apply PLAIN; [exact H|]. intros z O%closed_iff Z. injection Z as -> -> ->. now rewrite O in C.
Qed.
Lemma guest_complete r c : guest_code r c -> guest false (c +++ ending +++ r) = Some (c, r).
Proof.
  induction 1 as [|d c E G IH|a c N C G IH].
  - now destruct r.
  - rewrite !app_assoc_s. pose proof (guest_in_comment (c +++ ending +++ r) E) as H. rewrite IH in H. cbn [option_map fst snd] in H.
    cbn [String.append guest]. rewrite ends_closed by assumption. cbn [Ascii.eqb andb]. 
    replace (String.prefix ending _) with false by reflexivity.
    change (more "#" (more "|" (guest true (d +++ c +++ ending +++ r))) = Some (String "#" (String "|" (d +++ c)), r)). now rewrite H.
  - change ((String a c) +++ ending +++ r) with (String a (c +++ ending +++ r)) in *. cbn [guest].
    change "<<<GUEST<<<" with ending in *.
    destruct (String.prefix ending (String a (c +++ ending +++ r))) eqn:P; [apply prefix_inv in P; now apply N in P|].
    destruct (c +++ ending +++ r) as [|b q] eqn:Q; [destruct c; discriminate Q|].
    destruct (Ascii.eqb a "#" && Ascii.eqb b "|" && closed q)%bool eqn:CC; [|now rewrite IH].
    apply andb_prop in CC as ((A & B)%andb_prop & CC). apply Ascii.eqb_eq in A, B. subst. elim (C q); [now apply closed_iff|].
    change (String "#" (c +++ ending +++ r) = "#|" +++ q). now rewrite Q.
Qed.
Lemma guest_block_sound s c r ts : GUEST_BLOCK s = Some (c, r) -> spells ts r -> spells (KGuest c :: ts) s.
Proof.
  unfold GUEST_BLOCK, lit. destruct (skip_is_gap s) as (g & G & F). destruct (String.prefix opening (skip false s)) eqn:P; [|easy]. intros H R.
  apply prefix_inv in P. apply guest_sound in H as (E & C). rewrite F, P, E. 
  replace (opening +++ c +++ ending +++ r) with (text (KGuest c) +++ r) by (cbn [text]; now rewrite !app_assoc_s). now constructor.
Qed.
Lemma guest_block_yes s c ts : spells (KGuest c :: ts) s -> exists r, GUEST_BLOCK s = Some (c, r) /\ spells ts r.
Proof.
  intros R. inversion R as [|g t ts' r G X Q]; subst. exists r. split; [|assumption]. unfold GUEST_BLOCK, lit.
  rewrite (skip_gap _ G). cbn [text]. rewrite !app_assoc_s. rewrite (@skip_start ">>>GUEST>>>") by reflexivity. fold opening. rewrite prefix_app, drop_app. now apply guest_complete.
Qed.
