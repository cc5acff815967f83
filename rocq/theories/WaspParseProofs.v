(** Proofs for [WaspText], the rules of the grammar: what they accept and that they accept it. *)
From Coq Require Import Ascii Lia.
From Verif Require Import Wasp WaspText WaspGrammar WaspTextProofs.
Local Open Scope string_scope.
Local Open Scope list_scope.
Import String.

(** ** Sound: what is accepted is spelled *)
Definition sound {A} (a : rule A) (tk : A -> list token) : Prop :=
  forall s x r, a s = Some (x, r) -> forall ts, spells ts r -> spells (tk x ++ ts) s.
Ltac steps H :=
  repeat (unfold bind at 1 in H; match type of H with
    | match ?a with _ => _ end = Some _ => let E := fresh "E" in destruct a as [[? ?]|] eqn:E; [|discriminate H] end);
  unfold ret in H.
Ltac back := repeat match goal with
  | |- spells (KLit _ :: _) _ => eapply lit_sound; [eassumption|]
  | |- spells (KId _ :: _) _ => eapply identifier_sound; [eassumption|]
  | |- spells (KType _ :: _) _ => eapply type_sound; [eassumption|]
  | |- spells (KGuest _ :: _) _ => eapply guest_block_sound; [eassumption|] end.
Lemma formal_sound k : sound (formal k) (fun x => formal_tokens x k).
Proof. intros s x r H ts R. unfold formal in H. steps H. injection H as <- <-. cbn. back. exact R. Qed.
Lemma typed_argument_sound : sound typed_argument arg_tokens.
Proof. intros s x r H ts R. unfold typed_argument in H. steps H. injection H as <- <-. cbn. back. exact R. Qed.
Lemma many_sound A (a : rule A) tk n : sound a tk -> sound (many n a) (flat_map tk).
Proof.
  intros S. induction n as [|n IH]; intros s x r H ts R.
  - injection H as <- <-. exact R.
  - cbn in H. destruct (a s) as [[y q]|] eqn:E; [|injection H as <- <-; exact R]. steps H. injection H as <- <-. cbn. rewrite <- app_assoc. eapply S; [exact E|]. eapply IH; eassumption.
Qed.
Lemma star_sound A (a : rule A) tk : sound a tk -> sound (star a) (flat_map tk).
Proof. intros S s x r H. unfold star in H. eapply many_sound; eassumption. Qed.
Lemma plus_sound A (a : rule A) tk : sound a tk -> sound (plus a) (flat_map tk).
Proof.
  intros S s x r H ts R. unfold plus in H. steps H. injection H as <- <-. cbn. rewrite <- app_assoc. eapply S; [eassumption|]. eapply star_sound; eassumption.
Qed.
Lemma plus_some A (a : rule A) s x r : plus a s = Some (x, r) -> x <> [].
Proof. intros H. unfold plus in H. steps H. injection H as <- <-. easy. Qed.
Lemma choice_sound A (a b : rule A) tk : sound a tk -> sound b tk -> sound (a <|> b) tk.
Proof. intros SA SB s x r H. unfold choice in H. destruct (a s) as [[]|] eqn:E; [injection H as <- <-; now apply SA|now apply SB]. Qed.
Ltac through := repeat first
  [ progress (rewrite <- ?app_assoc, <- ?app_comm_cons, ?app_nil_l)
  | progress back
  | match goal with
    | |- spells (formal_tokens _ _ ++ _) _ => eapply formal_sound; [eassumption|]
    | |- spells (arg_tokens _ ++ _) _ => eapply typed_argument_sound; [eassumption|]
    | |- spells (flat_map arg_tokens _ ++ _) _ => eapply plus_sound; [exact typed_argument_sound|eassumption|] end ].
Lemma apply_sound : sound apply_hook_signature apply_tokens.
Proof.
  unfold apply_hook_signature. repeat apply choice_sound; intros s x r H ts R.
  - unfold apply_gen in H. steps H. injection H as <- <-. cbn [apply_tokens]. through. exact R.
  - unfold apply_spe_intro in H. steps H. injection H as <- <-. cbn [apply_tokens]. through. exact R.
  - unfold apply_spe_inter in H. steps H. injection H as <- <-. cbn [apply_tokens]. through. exact R.
Qed.
Lemma qualifier_sound s q r : call_qualifier s = Some (q, r) -> forall ts, spells ts r -> spells (KLit (match q with Pre => "pre" | Post => "post" end) :: ts) s.
Proof.
  unfold call_qualifier, choice. intros H ts R. destruct ((lit "pre" ~> ret Pre) s) as [[]|] eqn:E.
  - injection H as <- <-. steps E. injection E as <- <-. back. exact R.
  - steps H. injection H as <- <-. back. exact R.
Qed.
Lemma trap_sound : sound trap_signature trap_tokens.
Proof.
  unfold trap_signature. repeat apply choice_sound; intros s x r H ts R.
  1:{ unfold trap_apply in H. steps H. injection H as <- <-. cbn [trap_tokens]. through. eapply apply_sound; [eassumption|]. through. exact R. }
  1:{ unfold trap_call in H. steps H. injection H as <- <-. 
      match goal with E : call_qualifier _ = Some (?q, _) |- _ => pose proof (qualifier_sound _ E) as Q; destruct q end; cbn [trap_tokens]; through; apply Q; through; exact R. }
  all: unfold trap_block_pre, trap_block_post, trap_loop_pre, trap_loop_post, trap_select, trap_call_indirect_pre, trap_call_indirect_post,
    trap_if_then, trap_if_then_else, trap_br_if, trap_br_table in H; steps H; injection H as <- <-; cbn [trap_tokens]; through; exact R.
Qed.
Definition one_advice : rule padvice := lit "(" ~> let~ a := advice_definition in lit ")" ~> ret a.
Lemma advice_sound : sound one_advice advice_tokens.
Proof.
  intros s x r H ts R. unfold one_advice in H. steps H. injection H as <- <-. unfold advice_tokens. cbn [app]. back. rewrite <- !app_assoc.
  unfold advice_definition, choice in *. destruct (advice_global s0) as [[]|] eqn:G.
  - injection E0 as <- <-. unfold advice_global in G. steps G. injection G as <- <-. through. exact R.
  - unfold advice_trap in E0. steps E0. injection E0 as <- <-. through. eapply trap_sound; [eassumption|]. through. exact R.
Qed.
Lemma apply_given s x r : apply_hook_signature s = Some (x, r) -> forall g, lists_given (PTrap (PApply x g)).
Proof.
  unfold apply_hook_signature, choice. intros H g. destruct (apply_gen s) as [[]|] eqn:E1.
  { injection H as <- <-. unfold apply_gen in E1. steps E1. injection E1 as <- <-. exact Logic.I. }
  destruct (apply_spe_intro s) as [[]|] eqn:E2.
  { injection H as <- <-. unfold apply_spe_intro in E2. steps E2. injection E2 as <- <-. split; eapply plus_some; eassumption. }
  unfold apply_spe_inter in H. steps H. injection H as <- <-. split; eapply plus_some; eassumption.
Qed.
Lemma trap_given s t r : trap_signature s = Some (t, r) -> lists_given (PTrap t).
Proof.
  unfold trap_signature, choice. intros H. destruct (trap_apply s) as [[]|] eqn:T.
  - injection H as <- <-. unfold trap_apply in T. steps T. injection T as <- <-. eapply apply_given; eassumption.
  - clear T.
    repeat (match type of H with match ?a with _ => _ end = _ => let T := fresh "T" in destruct a as [[? ?]|] eqn:T; [injection H as <- <-; rename T into H|clear T] end).
    all: unfold trap_call, trap_block_pre, trap_block_post, trap_loop_pre, trap_loop_post, trap_select, trap_call_indirect_pre, trap_call_indirect_post,
      trap_if_then, trap_if_then_else, trap_br_if, trap_br_table in H; steps H; injection H as <- <-; exact Logic.I.
Qed.
Lemma advice_given s x r : one_advice s = Some (x, r) -> lists_given x.
Proof.
  intros H. unfold one_advice in H. steps H. injection H as <- <-. unfold advice_definition, choice in *. destruct (advice_global s0) as [[]|] eqn:G.
  - injection E0 as <- <-. unfold advice_global in G. steps G. injection G as <- <-. exact Logic.I.
  - unfold advice_trap in E0. steps E0. injection E0 as <- <-. eapply trap_given; eassumption.
Qed.
Lemma many_all A (a : rule A) (P : A -> Prop) n : (forall s x r, a s = Some (x, r) -> P x) -> forall s l r, many n a s = Some (l, r) -> Forall P l.
Proof.
  intros S. induction n as [|n IH]; intros s l r H.
  - injection H as <- <-. constructor.
  - cbn in H. destruct (a s) as [[y q]|] eqn:E; [|injection H as <- <-; constructor]. steps H. injection H as <- <-. constructor; [eapply S; eassumption|eapply IH; eassumption].
Qed.
Lemma wasp_sound s l r ts : wasp s = Some (l, r) -> spells ts r -> spells (file_tokens l ++ ts) s /\ Forall lists_given l.
Proof.
  intros H R. unfold wasp in H. fold one_advice in H. steps H. injection H as <- <-. split.
  - unfold file_tokens. cbn [app]. rewrite <- app_assoc. back. eapply star_sound; [exact advice_sound|eassumption|]. cbn [app]. back. exact R.
  - unfold star in E1. eapply many_all; [exact advice_given|eassumption].
Qed.

(** ** Complete: what is spelled is accepted *)
Definition complete {A} (ok : A -> Prop) (a : rule A) (tk : A -> list token) : Prop :=
  forall x ts s, ok x -> spells (tk x ++ ts) s -> exists r, a s = Some (x, r) /\ spells ts r.
Ltac step H :=
  match type of H with
  | spells (KLit ?k :: _) _ => let r := fresh "r" in let E := fresh "E" in let H' := fresh "H'" in
      destruct (@lit_yes k _ _ eq_refl H) as (r & E & H'); unfold bind at 1; rewrite E; cbv beta iota; clear E H; rename H' into H
  | spells (KId ?k :: _) _ => let r := fresh "r" in let E := fresh "E" in let H' := fresh "H'" in
      destruct (identifier_yes H) as (r & E & H'); unfold bind at 1; rewrite E; cbv beta iota; clear E H; rename H' into H
  | spells (KType ?k :: _) _ => let r := fresh "r" in let E := fresh "E" in let H' := fresh "H'" in
      destruct (type_yes H) as (r & E & H'); unfold bind at 1; rewrite E; cbv beta iota; clear E H; rename H' into H
  | spells (KGuest ?k :: _) _ => let r := fresh "r" in let E := fresh "E" in let H' := fresh "H'" in
      destruct (guest_block_yes H) as (r & E & H'); unfold bind at 1; rewrite E; cbv beta iota; clear E H; rename H' into H
  end.
Ltac done H := unfold ret; eexists; split; [reflexivity|exact H].
Lemma formal_yes k x s ts : solid_start k = true -> spells (formal_tokens x k ++ ts) s -> exists r, formal k s = Some (x, r) /\ spells ts r.
Proof.
  intros K H. cbn in H. unfold formal. step H. step H.
  destruct (@lit_yes k _ _ K H) as (r' & E & H'). unfold bind at 1. rewrite E. clear H. rename H' into H. step H. done H.
Qed.
Lemma typed_argument_complete : complete (fun _ => True) typed_argument arg_tokens.
Proof. intros [x t] ts s _ H. cbn in H. unfold typed_argument. do 4 step H. done H. Qed.
Lemma spells_after us ts s : spells (us ++ ts) s -> exists r, spells ts r /\ (String.length r <= String.length s)%nat.
Proof.
  revert s. induction us as [|u us IH]; intros s H; [now exists s|]. inversion H as [|g t ts' r G F Q]; subst.
  destruct (IH _ Q) as (r' & R & L). exists r'. split; [exact R|]. rewrite !length_app_s. lia.
Qed.
Lemma spells_count A (tk : A -> list token) l ts s : (forall x, exists us, tk x = KLit "(" :: us) -> spells (flat_map tk l ++ ts) s -> (List.length l <= String.length s)%nat.
Proof.
  intros O. revert s. induction l as [|x l IH]; intros s H; [cbn; lia|]. cbn [flat_map] in H. destruct (O x) as (us & E). rewrite E, <- app_assoc in H.
  inversion H as [|g t ts' r G F Q]; subst. destruct (spells_after _ _ Q) as (r' & R & L). apply IH in R. rewrite !length_app_s. cbn in *. lia.
Qed.
Lemma many_yes A ok (a : rule A) tk ts : complete ok a tk -> (forall s, spells ts s -> a s = None) ->
  forall l n s, Forall ok l -> (List.length l <= n)%nat -> spells (flat_map tk l ++ ts) s -> exists r, many n a s = Some (l, r) /\ spells ts r.
Proof.
  intros C N. induction l as [|x l IH]; intros n s F L H.
  - exists s. split; [|exact H]. destruct n; [reflexivity|]. cbn. now rewrite (N _ H).
  - inversion F; subst. cbn [flat_map] in H. rewrite <- app_assoc in H. destruct n as [|n]; [cbn in L; lia|].
    destruct (C _ _ _ H2 H) as (r & E & H'). destruct (IH n r H3) as (r' & E' & R); [cbn in L; lia|exact H'|].
    exists r'. split; [|exact R]. cbn. rewrite E. unfold bind. now rewrite E'.
Qed.
Lemma star_yes A ok (a : rule A) tk ts : complete ok a tk -> (forall x, exists us, tk x = KLit "(" :: us) -> (forall s, spells ts s -> a s = None) ->
  forall l s, Forall ok l -> spells (flat_map tk l ++ ts) s -> exists r, star a s = Some (l, r) /\ spells ts r.
Proof. intros C O N l s F H. unfold star. eapply many_yes; try eassumption. eapply spells_count; eassumption. Qed.
Lemma close_no k s ts : spells (KLit ")" :: ts) s -> lit (String "(" k) s = None.
Proof. apply lit_no; [reflexivity|]. intros r. reflexivity. Qed.
Lemma args_yes l ts s : l <> [] -> spells (flat_map arg_tokens l ++ KLit ")" :: ts) s -> exists r, plus typed_argument s = Some (l, r) /\ spells (KLit ")" :: ts) r.
Proof.
  destruct l as [|x l]; [easy|]. intros _ H. cbn [flat_map] in H. rewrite <- app_assoc in H. destruct (@typed_argument_complete x _ _ Logic.I H) as (r & E & H').
  destruct (@star_yes _ (fun _ => True) typed_argument arg_tokens (KLit ")" :: ts) typed_argument_complete) with (l := l) (s := r) as (r' & E' & R).
  - intros y. eexists. reflexivity.
  - intros q Q. unfold typed_argument, bind. now rewrite (close_no _ Q).
  - now apply Forall_forall.
  - exact H'.
  - exists r'. split; [|exact R]. unfold plus, bind. rewrite E, E'. reflexivity.
Qed.
Ltac formal_step H :=
  match type of H with
  | spells (formal_tokens ?x ?k ++ _) _ => let r := fresh "r" in let E := fresh "E" in let H' := fresh "H'" in
      destruct (@formal_yes k x _ _ eq_refl H) as (r & E & H'); unfold bind at 1; rewrite E; cbv beta iota; clear E H; rename H' into H
  end.
Ltac args_step H N :=
  match type of H with
  | spells (flat_map arg_tokens ?l ++ _) _ => let r := fresh "r" in let E := fresh "E" in let H' := fresh "H'" in
      destruct (@args_yes l _ _ N H) as (r & E & H'); unfold bind at 1; rewrite E; cbv beta iota; clear E H; rename H' into H
  end.
Ltac flat H := rewrite <- ?app_assoc, <- ?app_comm_cons, ?app_nil_l in H.
Lemma typed_argument_no t ts s : spells (KLit "(" :: t :: ts) s -> 
  (forall s, spells (t :: ts) s -> identifier s = None \/ exists x r, identifier s = Some (x, r) /\ type_identifier r = None) -> typed_argument s = None.
Proof.
  intros H N. unfold typed_argument. step H. unfold bind at 1. destruct (N _ H) as [->|(x & q & -> & E)]; [reflexivity|]. unfold bind. now rewrite E.
Qed.
Lemma open_identifier ts s : spells (KLit "(" :: ts) s -> identifier s = None.
Proof. apply identifier_no; [reflexivity|]. reflexivity. Qed.
Lemma open_type ts s : spells (KLit "(" :: ts) s -> type_identifier s = None.
Proof. apply type_no; [reflexivity|]. intros [|]; reflexivity. Qed.
(** The word before an opening parenthesis ends there. *)
Lemma gap_no_letter g r : gap g -> span alpha (g +++ "(" +++ r) = ("", g +++ "(" +++ r).
Proof.
  intros [|a g' W _|c g' _ _]; [reflexivity| |reflexivity]. cbn. apply white_iff in W. replace (alpha a) with false; [reflexivity|].
  revert W. clear. bits a; intros [=]; reflexivity.
Qed.
Lemma mut_identifier ts s : spells (KLit "Mut" :: KLit "(" :: ts) s -> exists r, identifier s = Some ("Mut", r) /\ spells (KLit "(" :: ts) r.
Proof.
  intros H. inversion H as [|g t ts' r G _ Q]; subst. exists r. split; [|exact Q]. unfold identifier. rewrite (skip_gap _ G). cbn [text]. rewrite skip_start by reflexivity.
  inversion Q as [|g' t' ts'' r' G' _ Q']; subst. cbn [text String.append]. cbn [span]. change (alpha "M") with true. change (alpha "u") with true. change (alpha "t") with true. cbv iota.
  change (String "(" r') with ("(" +++ r'). now rewrite (gap_no_letter r' G').
Qed.
Lemma apply_complete : complete (fun a => lists_given (PTrap (PApply a ""))) apply_hook_signature apply_tokens.
Proof.
  intros a ts s G H. unfold apply_hook_signature.
  destruct a as [f x y|f l l'|f l l']; cbn [apply_tokens lists_given] in *; flat H.
  - unfold choice at 1. unfold apply_gen. unfold apply_formal_wasm_f. formal_step H.
    destruct (@typed_argument_complete x _ _ Logic.I H) as (r1 & E1 & H1). destruct (@typed_argument_complete y _ _ Logic.I H1) as (r2 & E2 & H2).
    unfold bind. rewrite E1, E2. done H2.
  - destruct G as (N & N'). assert (N1 : apply_gen s = None).
    { unfold apply_gen, apply_formal_wasm_f. destruct l as [|x l]; [easy|]. formal_step H. unfold bind at 1.
      rewrite (typed_argument_no H); [reflexivity|]. intros q Q. right. cbn [flat_map arg_tokens app] in Q. destruct (mut_identifier Q) as (r' & E & R).
      exists "Mut", r'. split; [exact E|]. eapply open_type. exact R. }
    assert (N2 : apply_spe_intro s = None).
    { unfold apply_spe_intro, apply_formal_wasm_f. formal_step H. step H. unfold bind at 1. unfold plus at 1. unfold bind at 1. unfold typed_argument at 1, bind at 1.
      rewrite (@lit_no "(" (KLit "Mut") _ _ eq_refl (fun _ => eq_refl) H). reflexivity. }
    unfold choice. rewrite N1, N2. unfold apply_spe_inter, apply_formal_wasm_f. 
    formal_step H. step H. step H. args_step H N. step H. step H. step H. args_step H N'. step H. done H.
  - assert (N1 : apply_gen s = None).
    { unfold apply_gen, apply_formal_wasm_f. destruct G as (N & _). destruct l as [|x l]; [easy|]. formal_step H. unfold bind at 1.
      rewrite (typed_argument_no H); [reflexivity|]. intros q Q. left. eapply open_identifier. exact Q. }
    unfold choice at 1. rewrite N1. unfold choice at 1. unfold apply_spe_intro, apply_formal_wasm_f. destruct G as (N & N').
    formal_step H. step H. args_step H N. step H. step H. args_step H N'. step H. done H.
Qed.

(** An alternative that does not apply: another keyword, another word after it, or a keyword that continues it. *)
Ltac fails H := match type of H with spells (?t :: _) ?s =>
  match goal with |- context[lit ?k s] => rewrite (@lit_no k t _ _ eq_refl (fun _ => eq_refl) H) end end; cbv beta iota; reflexivity.
Ltac continues k x H := match type of H with spells (KLit _ :: _) _ => let r := fresh "r" in let E := fresh "E" in
  destruct (@lit_begins k x _ _ eq_refl H) as (r & E & _); unfold bind at 1; rewrite E; cbv beta iota; reflexivity end.
Ltac reject H := first
  [ unfold bind at 1; fails H | step H; unfold bind at 1; fails H
  | continues "call" "_indirect" H | continues "if_then" "_else" H ].
Ltac next H := match goal with |- exists r, (?a <|> ?b) ?s = _ /\ _ =>
  let N := fresh "N" in assert (N : a s = None) by
    (unfold trap_apply, trap_call, trap_block_pre, trap_block_post, trap_loop_pre, trap_loop_post, trap_select, trap_call_indirect_pre, trap_call_indirect_post,
      trap_if_then, trap_if_then_else, trap_br_if; reject H);
  unfold choice at 1; rewrite N; clear N end.
Ltac here := unfold choice at 1;
  unfold trap_apply, trap_call, trap_block_pre, trap_block_post, trap_loop_pre, trap_loop_post, trap_select, trap_call_indirect_pre, trap_call_indirect_post,
      trap_if_then, trap_if_then_else, trap_br_if.
Lemma found A (a b : rule A) s x ts : (exists r, a s = Some (x, r) /\ spells ts r) -> exists r, (a <|> b) s = Some (x, r) /\ spells ts r.
Proof. intros (r & E & R). exists r. unfold choice. now rewrite E. Qed.
Ltac walk H := repeat first [step H | formal_step H]; done H.
Lemma trap_complete : complete (fun t => lists_given (PTrap t)) trap_signature trap_tokens.
Proof.
  intros t ts s G H. unfold trap_signature.
  destruct t as [a g|q x g|g|g|g|g|c g|t i g|t g|c g|c g|c l g|t d g]; [| |cbn [trap_tokens] in H; flat H..].
  - cbn [trap_tokens] in H. flat H. apply found. unfold trap_apply. step H. 
    destruct (@apply_complete a _ _ G H) as (r1 & E & H'). unfold bind at 1. rewrite E. cbv beta iota. clear E H. rename H' into H. step H. done H.
  - destruct q; cbn [trap_tokens] in H; flat H; next H; apply found; unfold trap_call; step H.
    + destruct (@lit_yes "pre" _ _ eq_refl H) as (r1 & E & H'). unfold bind at 1. unfold call_qualifier at 1, choice at 1, bind at 1. rewrite E. cbv beta iota. clear H E. rename H' into H.
      unfold ret at 1. cbv beta iota. walk H.
    + destruct (@lit_yes "post" _ _ eq_refl H) as (r1 & E & H'). unfold bind at 1. unfold call_qualifier at 1, choice at 1, bind at 1.
      rewrite (@lit_no "pre" (KLit "post") _ _ eq_refl (fun _ => eq_refl) H). unfold bind at 1. rewrite E. cbv beta iota. clear H E. rename H' into H.
      unfold ret at 1. cbv beta iota. walk H.
  - next H. next H. apply found. unfold trap_block_pre. walk H.
  - next H. next H. next H. apply found. unfold trap_block_post. walk H.
  - do 4 next H. apply found. unfold trap_loop_pre. walk H.
  - do 5 next H. apply found. unfold trap_loop_post. walk H.
  - do 6 next H. apply found. unfold trap_select. walk H.
  - do 7 next H. apply found. unfold trap_call_indirect_pre. walk H.
  - do 8 next H. apply found. unfold trap_call_indirect_post. walk H.
  - do 9 next H. apply found. unfold trap_if_then. walk H.
  - do 10 next H. apply found. unfold trap_if_then_else. walk H.
  - do 11 next H. apply found. unfold trap_br_if. walk H.
  - do 12 next H. unfold trap_br_table. walk H.
Qed.
Lemma advice_complete : complete lists_given one_advice advice_tokens.
Proof.
  intros a ts s G H. unfold advice_tokens in H. flat H. unfold one_advice. step H. unfold bind at 1. unfold advice_definition.
  destruct a as [g|t]; flat H.
  - unfold choice at 1, advice_global at 1. do 2 step H. unfold ret at 1. cbv beta iota. walk H.
  - unfold choice at 1. unfold advice_global at 1, bind at 1. rewrite (@lit_no "global" (KLit "advice") _ _ eq_refl (fun _ => eq_refl) H). cbv beta iota.
    unfold advice_trap at 1. step H. destruct (@trap_complete t _ _ G H) as (r1 & E & H'). unfold bind at 1. rewrite E. cbv beta iota. clear H E. rename H' into H.
    unfold ret at 1. cbv beta iota. walk H.
Qed.
Lemma wasp_complete l ts s : Forall lists_given l -> spells (file_tokens l ++ ts) s -> exists r, wasp s = Some (l, r) /\ spells ts r.
Proof.
  intros F H. unfold file_tokens in H. flat H. unfold wasp. fold one_advice. step H. step H.
  destruct (@star_yes _ lists_given one_advice advice_tokens (KLit ")" :: ts) advice_complete) with (l := l) (s := r0) as (r' & E & H').
  - intros y. eexists. reflexivity.
  - intros q Q. unfold one_advice, bind. now rewrite (close_no _ Q).
  - exact F.
  - exact H.
  - unfold bind at 1. rewrite E. clear H. rename H' into H. walk H.
Qed.
Theorem parse_iff s l : parse s = Some l <-> spells (file_tokens l) s /\ Forall lists_given l.
Proof.
  unfold parse. split.
  - destruct (wasp s) as [[l' r]|] eqn:E; [|easy]. destruct (skip false r) eqn:S; [|easy]. intros [= ->].
    destruct (@wasp_sound s l r [] E) as (H & G); [constructor; now apply gap_iff|]. rewrite app_nil_r in H. easy.
  - intros (H & G). rewrite <- (app_nil_r (file_tokens l)) in H. destruct (@wasp_complete l [] s G H) as (r & -> & R). inversion R as [g Q|]; subst. apply gap_iff in Q. now rewrite Q.
Qed.
