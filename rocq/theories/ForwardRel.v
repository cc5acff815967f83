(** Simulation of a plain run by the instrumented run under an analysis that observes and
    forwards (towards C08, C09, C10): the relation and its congruences. *)
From Verif Require Import Semantics Advice RsStdlib System Trace RunLemmas.
Local Open Scope res_scope.

Section Rel.
  (** [A] is the analysis' part of the state as far as it is determined by the events, [L0] all the
      rest that the library and the analysis have; together they give the library's state and the
      analysis' state proper. *)
  Context {Y A L0 B0 : Type}.
  Notation X := (sys (B0 * Y)).
  Variable lib_part : L0 -> store unit.
  Variable ana_part : L0 -> A -> B0.
  (** What the analysis makes of the events. *)
  Variable obs : A -> event -> A.
  Notation seen := (fold_left obs).

  (** The program's store, with the state of the library and of the analysis beside the host's. *)
  Definition glift (l : L0) (a : A) (s : store Y) : store X :=
    St (st_mem s) (st_globals s) (st_tables s) (st_elems s) (st_datas s) (lib_part l, (ana_part l a, st_x s)).
  Notation lift := glift.

  Section At.
    (** What the events of a call that returns are like. *)
    Variable good : event -> Prop.
    (** Invariant of the library on normal outcomes, after a trap, and what else may happen (for
        instance a trap for lack of buffer space); the latter in terms of the events so far. The
        first argument of [D] says whether the plain run traps, the last whether the instrumented run does. *)
    Variables (Lb : L0 -> Prop) (Lt : list event -> L0 -> Prop) (D : bool -> list event -> Prop -> Prop).
    Record closed : Prop := {
      cl_ok : forall e l, Lb l -> Lt e l;
      cl_trap : forall e1 e2 l, Lt e2 l -> Lt (e1 ++ e2) l;
      cl_imp : forall b e (P Q : Prop), (P -> Q) -> D b e P -> D b e Q;
      cl_left : forall b e1 e2 P, D b e1 P -> D b (e1 ++ e2) P;
      cl_right : forall b e1 e2 P, D b e2 P -> D b (e1 ++ e2) P;
      cl_late : forall e P, D false e P -> D true e P }.
    Definition gsim {B} (evs : list event) (a : A) (r : res (store Y) (B * store Y)) (r' : res (store X) (B * store X)) : Prop :=
      match r with
      | Ok (b, s) =>
          (Forall good evs /\ exists l, Lb l /\ r' = Ok (b, lift l (seen evs a) s)) \/ D false evs (exists s', r' = Trap s')
      | Trap s => Forall in_range32 evs -> (exists l, Lt evs l /\ r' = Trap (lift l (seen evs a) s)) \/ D true evs (exists s', r' = Trap s')
      | _ => True
      end.

    Notation sim := gsim.
    Hypothesis Cl : closed.

    Lemma sim_ok {B} l a s (b : B) : Lb l -> sim [] a (Ok (b, s)) (Ok (b, lift l a s)).
    Proof. intros H. left. split; [constructor|]. exists l. auto. Qed.
    Lemma sim_trap {B} l a s : Lb l -> sim (B := B) [] a (Trap s) (Trap (lift l a s)).
    Proof. intros H W. left. exists l. split; [now apply (cl_ok Cl)|reflexivity]. Qed.
    Lemma sim_bind {B B'} e1 e2 a r r' (K : B * store Y -> res (store Y) (B' * store Y)) K' :
      sim e1 a r r' ->
      (forall s, r = Trap s -> e2 = []) ->
      (forall b s l, r = Ok (b, s) -> Lb l -> sim e2 (seen e1 a) (K (b, s)) (K' (b, lift l (seen e1 a) s))) ->
      sim (e1 ++ e2) a (rbind r K) (rbind r' K').
    Proof.
      intros H Ht Hk. destruct r as [[b s]|s| |]; simpl in H |- *; auto.
      - destruct H as [(Gd & l & Hl & ->)|Hd].
        + specialize (Hk b s l eq_refl Hl). simpl. unfold sim in *. rewrite fold_left_app.
          destruct (K (b, s)) as [[b' s1]|s1| |]; auto.
          * destruct Hk as [(Gd2 & Hk)|Hd]; [left; split; [now apply Forall_app|exact Hk]|right; now apply (cl_right Cl)].
          * intros W. apply Forall_app in W as [_ W].
            destruct (Hk W) as [(l1 & Hl1 & Ek)|Hd]; [left|right; now apply (cl_right Cl)].
            exists l1. split; [now apply (cl_trap Cl)|exact Ek].
        + assert (Hd2 : D false (e1 ++ e2) (exists s', rbind r' K' = Trap s')).
          { apply (cl_left Cl). revert Hd. apply (cl_imp Cl). intros (s' & ->). exists s'. reflexivity. }
          destruct (K (b, s)) as [[b' s1]|s1| |]; simpl; auto. intros _. right. now apply (cl_late Cl).
      - rewrite (Ht _ eq_refl), app_nil_r. intros W. destruct (H W) as [(l & Hl & ->)|Hd]; simpl; [eauto|right].
        revert Hd. apply (cl_imp Cl). intros (s' & ->). exists s'. reflexivity.
    Qed.
    Lemma sim_get {B B'} e a (o : option B) (K : B -> res (store Y) (B' * store Y)) K' :
      (forall b, o = Some b -> sim e a (K b) (K' b)) -> sim e a (rbind (rget o) K) (rbind (rget o) K').
    Proof. destruct o; simpl; auto. Qed.

    (** ** Executions of code *)
    Notation blk := (list val -> list val -> store Y -> res (store Y) (@conf Y)).
    Notation blk' := (list val -> list val -> store X -> res (store X) (@conf X)).
    Notation csim := (sim (B := out * list val * list val)).

    Lemma csim_next l a st ls s : Lb l -> csim [] a (next st ls s) (next st ls (lift l a s)).
    Proof. intros. now apply (@sim_ok (out * list val * list val)). Qed.
    Lemma csim_andthen e1 e2 a (r : res (store Y) (@conf Y)) r' (k : blk) (k' : blk') :
      csim e1 a r r' ->
      (forall s, r = Trap s -> e2 = []) -> (forall o st ls s, r = Ok (o, st, ls, s) -> o <> ONext -> e2 = []) ->
      (forall st ls s l, r = Ok (ONext, st, ls, s) -> Lb l ->
         csim e2 (seen e1 a) (k st ls s) (k' st ls (lift l (seen e1 a) s))) ->
      csim (e1 ++ e2) a (andthen r k) (andthen r' k').
    Proof.
      intros H Ht Ho Hk. unfold andthen. apply (@sim_bind (out * list val * list val)); [exact H|exact Ht|].
      intros [[o st] ls] s l E Hl. destruct o; [now apply Hk|..];
        rewrite (Ho _ _ _ _ E) by discriminate; now apply (@sim_ok (out * list val * list val)).
    Qed.
    (** With events of the form the trace has. *)
    Lemma csim_then e1 a (r : res (store Y) (@conf Y)) r' (k : blk) (k' : blk') ek :
      csim e1 a r r' ->
      (forall st ls s l, r = Ok (ONext, st, ls, s) -> Lb l ->
         csim (ek st ls s) (seen e1 a) (k st ls s) (k' st ls (lift l (seen e1 a) s))) ->
      csim (e1 ++ then_ r ek) a (andthen r k) (andthen r' k').
    Proof.
      intros H Hk. apply csim_andthen; [exact H|intros s ->; reflexivity|intros o st ls s ->; destruct o; simpl; congruence|].
      intros st ls s l E Hl. rewrite E. now apply Hk.
    Qed.
    Lemma csim_skip a (r : res (store Y) (@conf Y)) r' (k' : blk') e1 e2 :
      (* the plain side has nothing to do in the second step *)
      csim e1 a r r' ->
      (forall st ls s l, r = Ok (ONext, st, ls, s) -> Lb l ->
         csim e2 (seen e1 a) (next st ls s) (k' st ls (lift l (seen e1 a) s))) ->
      csim (e1 ++ then_ r (fun _ _ _ => e2)) a r (andthen r' k').
    Proof. intros H Hk. rewrite <- (andthen_next r) at 2. apply csim_then; [exact H|exact Hk]. Qed.

    Lemma csim_inside a (body : blk) (body' pre' post' : blk') e1 eb e2 st ls s l :
      Lb l ->
      (forall l, Lb l -> csim e1 a (next st ls s) (pre' st ls (lift l a s))) ->
      (forall l, Lb l -> csim (eb st ls s) (seen e1 a) (body st ls s) (body' st ls (lift l (seen e1 a) s))) ->
      (forall a st1 ls1 s1 l, body st ls s = Ok (ONext, st1, ls1, s1) -> Lb l -> csim e2 a (next st1 ls1 s1) (post' st1 ls1 (lift l a s1))) ->
      csim (around eb body e1 e2 st ls s) a (body st ls s) (inside pre' post' body' st ls (lift l a s)).
    Proof.
      intros Hl H1 Hb H2. unfold around, inside.
      change (body st ls s) with (andthen (next st ls s) body) at 2.
      apply csim_andthen; [now apply H1|discriminate|intros o ? ? ? E; inversion E; subst; congruence|].
      intros ? ? ? l1 E Hl1. inversion E; subst. apply csim_skip; [now apply Hb|].
      intros. now apply H2.
    Qed.

    (** Blocks and loops. *)
    Lemma csim_block a ft (body : blk) (body' : blk') eb st ls s l : Lb l ->
      (forall st1 rest, popn (List.length (ft_in ft)) st = Some (st1, rest) ->
         csim (eb (pushn st1 []) ls s) a (body (pushn st1 []) ls s) (body' (pushn st1 []) ls (lift l a s))) ->
      csim (block_events eb ft st ls s) a (run_block body ft st ls s) (run_block body' ft st ls (lift l a s)).
    Proof.
      intros Hl H. unfold run_block, block_events. destruct (popn _ st) as [[ps rest]|]; [|exact I]. cbn [rget rbind].
      specialize (H ps rest eq_refl). rewrite <- (app_nil_r (eb _ _ _)).
      apply (@sim_bind (out * list val * list val)); [exact H|reflexivity|].
      intros [[o st1] ls1] s1 l1 E Hl1. destruct o as [|[|d]|].
      - now apply csim_next.
      - destruct (popn _ st1) as [[rs ?]|]; [|exact I]. now apply csim_next.
      - now apply (@sim_ok (out * list val * list val)).
      - now apply (@sim_ok (out * list val * list val)).
    Qed.
    Lemma csim_loop ft (body : blk) (body' : blk') eb (P : list val -> list val -> store Y -> Prop) k k' st ls s l a : Lb l -> k <= k' ->
      (forall st1 rest, popn (List.length (ft_in ft)) st = Some (st1, rest) -> P st1 ls s) ->
      (forall a ps ls s l, Lb l -> P ps ls s ->
         csim (eb (pushn ps []) ls s) a (body (pushn ps []) ls s) (body' (pushn ps []) ls (lift l a s))) ->
      (forall ps ls s st' ls' s' ps' rest', P ps ls s -> body (pushn ps []) ls s = Ok (OBr 0, st', ls', s') ->
         popn (List.length (ft_in ft)) st' = Some (ps', rest') -> P ps' ls' s') ->
      csim (loop_events k eb body ft st ls s) a (run_loop k body ft st ls s) (run_loop k' body' ft st ls (lift l a s)).
    Proof.
      intros Hl Hk H0 Hb Hp. unfold run_loop, loop_events. destruct (popn _ st) as [[ps rest]|]; [|exact I]. cbn [rget rbind].
      specialize (H0 ps rest eq_refl). clear st. revert ps ls s l a k' Hl Hk H0.
      induction k as [|k IH]; intros ps ls s l a k' Hl Hk H0; [exact I|]. destruct k' as [|k']; [lia|].
      cbn [run_iter iter_events].
      apply (@sim_bind (out * list val * list val)); [now apply Hb|intros s' ->; reflexivity|].
      intros [[o st1] ls1] s1 l1 E Hl1. rewrite E. destruct o as [|[|d]|].
      - now apply csim_next.
      - destruct (popn _ st1) as [[rs ?]|] eqn:EP; [|exact I]. cbn [rget rbind]. apply IH; [assumption|lia|]. eapply Hp; eauto.
      - now apply (@sim_ok (out * list val * list val)).
      - now apply (@sim_ok (out * list val * list val)).
    Qed.
  End At.

  Lemma sim_le {B} good Lb Lt D (Cl : closed Lb Lt D) e a (r : res (store Y) (B * store Y)) r' r'' :
    (r' <> Stuck -> r'' = r') -> gsim good Lb Lt D e a r r' -> gsim good Lb Lt D e a r r''.
  Proof.
    intros Hl H.
    assert (Hd : forall b, D b e (exists s', r' = Trap s') -> D b e (exists s', r'' = Trap s')).
    { intros b. apply (cl_imp Cl). intros (s' & ->). exists s'. apply Hl. discriminate. }
    destruct r as [[b s]|s| |]; simpl in *; auto.
    - destruct H as [(Gd & l & ? & ->)|H]; [left; split; [exact Gd|]; exists l|right; auto]; rewrite Hl; auto; discriminate.
    - intros W. destruct (H W) as [(l & ? & ->)|H']; [left; exists l|right; auto]; rewrite Hl; auto; discriminate.
  Qed.
End Rel.
(** An analysis whose state is determined by the events. *)
Notation lift := (glift (fun l : store unit => l) (fun (_ : store unit) a => a)).
Notation sim := (gsim (fun l : store unit => l) (fun (_ : store unit) a => a)).

(** ** Hosts *)
Section Aside.
  Context {Y A : Type}.
  Fixpoint aside (p : xprog Y) : xprog (A * Y) :=
    match p with
    | XRet vs => XRet vs
    | XTrap => XTrap
    | XStuck => XStuck
    | XGet k => XGet (fun x m g => aside (k (snd x) m g))
    | XPut y m g k => XGet (fun x _ _ => XPut (fst x, y) m g (aside k))
    | XCall name args k => XCall name args (fun vs => aside (k vs))
    end.
End Aside.
