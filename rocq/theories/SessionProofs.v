(** Simulation of whole sessions (towards C08, C09, C10). *)
From Coq Require Import Permutation.
From Verif Require Import Semantics Advice RsStdlib StackLib StackNames StackRun StackOps StackSpec StackHist System
  SystemProofs SpecProofs Trace TraceProofs RunLemmas NestingSpec NestingProofs Instantiate
  Typing TypingProofs AdvisedTyping ModuleTyping InstantiateTyping PropInstrument PropSpec PropTyping PropPipeline ImportProofs ForwardRel ForwardBody OwnProofs ForwardProofs.
Local Open Scope string_scope.
Local Open Scope list_scope.
Local Open Scope res_scope.

Section Lift.
  Context {Y A L0 B0 : Type}.
  Notation X := (sys (B0 * Y)).
  Variable lib_part : L0 -> store unit.
  Variable ana_part : L0 -> A -> B0.
  Notation lift := (glift lib_part ana_part).
  Notation upb := (upb lib_part ana_part).
  Lemma allocate_up imp m l (a : A) (x : Y) : allocate imp m (lib_part l, (ana_part l a, x)) = option_map (lift l a) (allocate imp m x).
  Proof.
    unfold allocate. destruct (init_globals _ _ _); [|reflexivity]. destruct (opt_all _); [|reflexivity].
    destruct (init_mems _ _); [|reflexivity]. destruct (opt_all _); reflexivity.
  Qed.
  Lemma upb_bind l (a : A) (r : res (store Y) (store Y)) r' (k : store Y -> res (store Y) (store Y)) k' :
    r' = upb l a r -> (forall s, k' (lift l a s) = upb l a (k s)) -> rbind r' k' = upb l a (rbind r k).
  Proof. intros -> H. destruct r; simpl; auto. Qed.
  Lemma upb_get {B} l (a : A) (o : option B) (k : B -> res (store Y) (store Y)) (k' : B -> res (store X) (store X)) :
    (forall b, k' b = upb l a (k b)) -> rbind (rget o) k' = upb l a (rbind (rget o) k).
  Proof. destruct o; simpl; auto. Qed.
  Lemma init_elems_up l (a : A) es : forall i (s : store Y), init_elems i es (lift l a s) = upb l a (init_elems i es s).
  Proof.
    induction es as [|e es IH]; intros i s; cbn [init_elems]; [reflexivity|]. apply upb_bind; [|intros; apply IH].
    unfold init_elem. destruct (el_mode e); [|reflexivity|apply bulk_up].
    cbn [glift st_globals st_elems]. apply upb_get. intros o. apply upb_get. intros seg.
    apply upb_bind; [apply (bulk_up lib_part ana_part _ _ l a s)|]. intros. apply bulk_up.
  Qed.
  Lemma init_datas_up l (a : A) es : forall i (s : store Y), init_datas i es (lift l a s) = upb l a (init_datas i es s).
  Proof.
    induction es as [|e es IH]; intros i s; cbn [init_datas]; [reflexivity|]. apply upb_bind; [|intros; apply IH].
    unfold init_data. destruct (dt_active e); [|reflexivity].
    cbn [glift st_globals]. apply upb_get. intros o.
    apply upb_bind; [apply (bulk_up lib_part ana_part _ _ l a s)|]. intros. apply bulk_up.
  Qed.
  Lemma instantiate_up imp m l (a : A) (x : Y) : instantiate imp m (lib_part l, (ana_part l a, x)) = upb l a (instantiate imp m x).
  Proof.
    unfold instantiate. rewrite allocate_up. destruct (allocate imp m x) as [s|]; [|reflexivity]. cbn [option_map rget rbind].
    apply upb_bind; [apply init_elems_up|]. intros. apply init_datas_up.
  Qed.
End Lift.

(** ** Buffer space *)
Section Room.
  Variable limit : Z.
  Variable m : module.
  (** With [u] bytes in use before, the space there is suffices at every point among the events. *)
  Definition fits (u : Z) (evs : list event) : Prop := forall p q, evs = p ++ q -> (u + usage m p <= limit)%Z.
  Lemma fits_left u e1 e2 : fits u (e1 ++ e2) -> fits u e1.
  Proof. intros H p q E. apply (H p (q ++ e2)). rewrite E. now rewrite <- app_assoc. Qed.
  Lemma fits_right u e1 e2 : fits u (e1 ++ e2) -> fits (u + usage m e1) e2.
  Proof. intros H p q E. rewrite <- Z.add_assoc, <- usage_app. apply (H _ q). rewrite E. now rewrite <- app_assoc. Qed.
  Lemma nested_all e : nested m e -> (0 <= usage m e)%Z.
  Proof. intros H. apply (H e []). now rewrite app_nil_r. Qed.
  Lemma not_deep u ifs e : (live (map if_type ifs) <= u)%Z -> nested m e -> fits u e -> ~ deep limit m ifs e.
  Proof.
    intros L Ne F (p & mid & q & -> & H). specialize (F (p ++ mid) q). rewrite <- app_assoc, usage_app in F. specialize (F eq_refl).
    specialize (Ne p _ eq_refl). lia.
  Qed.
End Room.

(** What may let the instrumented run trap, where the plain run has a call that traps or has none. *)
Definition halts (T : bool -> list event -> Prop) (traps : Prop) (evs : list event) : Prop := T false evs \/ traps /\ T true evs.
Lemma halts_const (T : list event -> Prop) P e : halts (fun _ => T) P e -> T e.
Proof. intros [H|(_ & H)]; exact H. Qed.
Lemma never_halts P e : ~ halts (fun _ _ => False) P e.
Proof. intros [H|(_ & H)]; exact H. Qed.
Lemma halts_imp (T : bool -> list event -> Prop) (P Q : Prop) e e' : (P -> Q) -> (forall b, T b e -> T b e') -> halts T P e -> halts T Q e'.
Proof. intros PQ H [A|(B & A)]; [left; auto|right; auto]. Qed.

Section Session.
  Context {Y A L0 B0 : Type}.
  Notation X := (sys (B0 * Y)).
  Variable lib_part : L0 -> store unit.
  Variable ana_part : L0 -> A -> B0.
  Notation lift := (glift lib_part ana_part).
  Variable Inv : L0 -> Prop.
  Variable good : event -> Prop.
  Variable Fo : list event -> Prop.
  Variable T : bool -> list event -> Prop.
  Hypothesis FL : forall e1 e2, Fo e1 -> Fo (e1 ++ e2).
  Hypothesis FR : forall e1 e2, Fo e2 -> Fo (e1 ++ e2).
  Hypothesis TL : forall b e1 e2, T b e1 -> T b (e1 ++ e2).
  Hypothesis TR : forall b e1 e2, T b e2 -> T b (e1 ++ e2).
  Variable obs : A -> event -> A.
  Variable num1 : unop -> Z -> option Z.
  Variable num2 : binop -> Z -> Z -> option Z.
  Variable libs : lib_states.
  Variable limit : Z.
  Variable stops : Prop.
  Variable host : string -> string -> list val -> xprog Y.
  Variable I : Y -> Prop.
  Variable infer : nat -> list low -> option (list ity).
  Variable m : module.
  Variable on : hook -> bool.
  Variable generic : bool.
  Variable only : option (list nat).
  Variable is : list nat.
  Hypothesis V : valid m.
  Hypothesis U : in_format m.
  Hypothesis HO : hosts_ok host I m (plain_xty m).
  Variable n : nat.
  Notation C0 := (ctx_of m).
  Notation ok := (val_ok (List.length (md_funcs m))).
  Notation library := (kept lib_part Inv libs).
  Notation plain := (call_fn num1 num2 host (md_funcs m) n).
  Notation trace := (trace num1 num2 host infer m on generic only n).
  Notation session_trace := (session_trace num1 num2 host infer m on generic only n).
  Notation fits := (fits limit m).
  Notation usage := (usage m).
  Variable call' : nat -> list val -> store X -> res (store X) (list val * store X).
  Hypothesis CS : forall frs ifs f fn args s l a, nth_error (md_funcs m) f = Some fn -> Forall2 ok args (ft_in (fn_type fn)) ->
    store_ok C0 I s -> library frs ifs l ->
    gsim lib_part ana_part obs good (library frs ifs) (leaky lib_part Inv libs m frs ifs) (lost limit m Fo T stops ifs) (trace f args s) a (plain f args s) (call' f args (lift l a s)).
  Variable named : string -> option nat.
  Hypothesis NM : forall name f, export_index 0 (md_funcs m) name = Some f -> named name = Some f.

  Lemma one_ok f fn args s vs s1 l a frs ifs u : nth_error (md_funcs m) f = Some fn -> Forall2 ok args (ft_in (fn_type fn)) ->
    store_ok C0 I s -> library frs ifs l -> (live (map if_type ifs) <= u)%Z -> stops \/ fits u (trace f args s) -> ~ Fo (trace f args s) ->
    plain f args s = Ok (vs, s1) ->
    (Forall good (trace f args s) /\ exists l1, library frs ifs l1 /\ call' f args (lift l a s) = Ok (vs, lift l1 (fold_left obs (trace f args s) a) s1)) \/
    (T false (trace f args s) \/ ~ fits u (trace f args s)) /\ exists s', call' f args (lift l a s) = Trap s'.
  Proof.
    intros Nf F SO Hl R SF NF E. pose proof (@CS frs ifs f fn args s l a Nf F SO Hl) as W. rewrite E in W. cbn [gsim] in W.
    destruct W as [W|[[(D & HP)|([D|(D & _)] & HP)]|D]]; [left; exact W|right|right; eauto|discriminate D|contradiction].
    assert (NR : ~ fits u (trace f args s)) by (intros Ro; revert D; apply (@not_deep limit m u); [exact R|apply trace_nested|exact Ro]).
    destruct SF as [St|Ro]; [|contradiction]. split; [now right|exact (HP St)].
  Qed.
  Lemma one_trap f fn args s s1 l a frs ifs u : nth_error (md_funcs m) f = Some fn -> Forall2 ok args (ft_in (fn_type fn)) ->
    store_ok C0 I s -> library frs ifs l -> (live (map if_type ifs) <= u)%Z -> stops \/ fits u (trace f args s) -> ~ Fo (trace f args s) ->
    plain f args s = Trap s1 -> Forall in_range32 (trace f args s) ->
    (exists l1, leaky lib_part Inv libs m frs ifs (trace f args s) l1 /\ call' f args (lift l a s) = Trap (lift l1 (fold_left obs (trace f args s) a) s1)) \/
    (halts T True (trace f args s) \/ ~ fits u (trace f args s)) /\ exists s', call' f args (lift l a s) = Trap s'.
  Proof.
    intros Nf F SO Hl R SF NF E W0. pose proof (@CS frs ifs f fn args s l a Nf F SO Hl) as W. rewrite E in W. cbn [gsim] in W.
    destruct (W W0) as [W'|[[(D & HP)|([D|(_ & D)] & HP)]|D]]; [left; exact W'|right|right; split; [left; now left|exact HP]|right; split; [left; right; auto|exact HP]|contradiction].
    assert (NR : ~ fits u (trace f args s)) by (intros Ro; revert D; apply (@not_deep limit m u); [exact R|apply trace_nested|exact Ro]).
    destruct SF as [St|Ro]; [|contradiction]. split; [now right|exact (HP St)].
  Qed.
  Lemma typed f fn args s : nth_error (md_funcs m) f = Some fn -> Forall2 ok args (ft_in (fn_type fn)) -> store_ok C0 I s ->
    call_res I C0 (ft_out (fn_type fn)) (plain f args s).
  Proof.
    intros Nf F SO. apply (@call_fn_ok Y num1 num2 host I m V U HO n f (fn_type fn)); auto. cbn. now rewrite nth_error_map, Nf.
  Qed.

  Notation calls_typed := (Forall (fun c => exists ft, plain_xty m (fst c) = Some ft /\ Forall2 ok (snd c) (ft_in ft))).
  (** The session goes on as in the original until its end, or until a call that traps for other reasons. *)
  Notation plain_session := (session (fun name args s => let* f := rget (export_index 0 (md_funcs m) name) in plain f args s)).
  Notation other_session := (session (fun name args s => let* f := rget (named name) in call' f args s)).
  Lemma session_any calls : forall s l a frs ifs u outs s1, calls_typed calls -> store_ok C0 I s -> library frs ifs l ->
    (live (map if_type ifs) <= u)%Z -> stops \/ fits u (session_trace calls s) ->
    plain_session calls s = Ok (outs, s1) ->
    ~ Fo (session_trace calls s) ->
    ~ In None outs \/ Forall in_range32 (session_trace calls s) ->
    exists calls1 rest s2 l1 frs1 ifs1,
      calls = calls1 ++ rest /\ plain_session calls1 s = Ok (firstn (List.length calls1) outs, s2) /\
      other_session calls1 (lift l a s) = Ok (firstn (List.length calls1) outs, lift l1 (fold_left obs (session_trace calls1 s) a) s2) /\
      library frs1 ifs1 l1 /\ (live (map if_type ifs1) <= u + usage (session_trace calls1 s))%Z /\
      (~ In None (firstn (List.length calls1) outs) -> Forall good (session_trace calls1 s)) /\
      (rest = [] \/ exists c rest' s3, rest = c :: rest' /\ (halts T (In None outs) (session_trace calls s) \/ ~ fits u (session_trace calls s)) /\
         other_session (calls1 ++ [c]) (lift l a s) = Ok (firstn (List.length calls1) outs ++ [None], s3)).
  Proof.
    induction calls as [|[name args] calls IH]; intros s l a frs ifs u outs s1 Tc SO Hl R SF E NF W; cbn [session Trace.session_trace] in *.
    - injection E as <- <-. exists [], [], s, l, frs, ifs. split; [reflexivity|]. split; [reflexivity|]. split; [reflexivity|].
      split; [exact Hl|]. split; [simpl; lia|]. split; [intros _; constructor|now left].
    - inversion Tc as [|? ? (ft & Ex & F) T']; subst. cbn [fst snd] in *. unfold plain_xty in Ex.
      destruct (export_index 0 (md_funcs m) name) as [f|] eqn:EI; [|discriminate].
      destruct (nth_error (md_funcs m) f) as [fn|] eqn:Nf; [|discriminate]. injection Ex as <-.
      cbn [rget rbind] in E.
      pose proof (@typed f fn args s Nf F SO) as TY.
      pose proof (nested_all (trace_nested m num1 num2 host infer on generic only n f args s)) as Pos.
      assert (Stop : forall s', call' f args (lift l a s) = Trap s' ->
        (halts T (In None outs) (trace f args s) \/ ~ fits u (trace f args s)) ->
        exists calls1 rest s2 l1 frs1 ifs1,
          (name, args) :: calls = calls1 ++ rest /\ plain_session calls1 s = Ok (firstn (List.length calls1) outs, s2) /\
          other_session calls1 (lift l a s) = Ok (firstn (List.length calls1) outs, lift l1 (fold_left obs (session_trace calls1 s) a) s2) /\
          library frs1 ifs1 l1 /\ (live (map if_type ifs1) <= u + usage (session_trace calls1 s))%Z /\
          (~ In None (firstn (List.length calls1) outs) -> Forall good (session_trace calls1 s)) /\
          (rest = [] \/ exists c rest' s3, rest = c :: rest' /\ (halts T (In None outs) (trace f args s ++ match plain f args s with Ok (_, s') | Trap s' => session_trace calls s' | _ => [] end) \/ ~ fits u (trace f args s ++ match plain f args s with Ok (_, s') | Trap s' => session_trace calls s' | _ => [] end)) /\
             other_session (calls1 ++ [c]) (lift l a s) = Ok (firstn (List.length calls1) outs ++ [None], s3))).
      { intros s' Es Why. exists [], ((name, args) :: calls), s, l, frs, ifs. split; [reflexivity|]. split; [reflexivity|]. split; [reflexivity|].
        split; [exact Hl|]. split; [simpl; lia|]. split; [intros _; constructor|]. right. exists (name, args), calls, s'. split; [reflexivity|]. split.
        - destruct Why as [Why|Why]; [left; revert Why; apply halts_imp; auto|right]. intros H. apply Why. eapply fits_left; exact H.
        - cbn [app session]. rewrite (NM _ EI). cbn [rget rbind]. rewrite Es. reflexivity. }
      destruct (plain f args s) as [[vs s2]|s2| |] eqn:EP; try discriminate;
        pose proof (fun H => NF (@FL _ _ H)) as NF1; pose proof (fun H => NF (@FR _ _ H)) as NF2;
        (assert (SF1 : stops \/ fits u (trace f args s)) by (destruct SF as [SF|SF]; [now left|right; eapply fits_left; exact SF]));
        (assert (SF2 : stops \/ fits (u + usage (trace f args s)) (session_trace calls s2)) by (destruct SF as [SF|SF]; [now left|right; now apply fits_right in SF])).
      + destruct TY as (_ & SO2).
        destruct (session _ calls s2) as [[os s3]|?| |] eqn:ES; try discriminate. cbn [rbind] in E. injection E as <- <-.
        destruct (@one_ok f fn args s vs s2 l a frs ifs u Nf F SO Hl R SF1 NF1 EP) as [(Gd & l1 & H1 & E1)|(Why & s' & Es)]; [|apply (Stop s' Es); destruct Why as [Why|Why]; [left; now left|now right]].
        destruct (IH s2 l1 (fold_left obs (trace f args s) a) frs ifs (u + usage (trace f args s))%Z os s3 T' SO2 H1)
          as (calls1 & rest & s4 & l2 & frs1 & ifs1 & -> & P1 & P2 & P3 & P4 & PG & P5).
        * lia.
        * exact SF2.
        * exact ES.
        * exact NF2.
        * destruct W as [W|W]; [left; intros H; apply W; now right|right]. apply Forall_app in W. apply W.
        * exists ((name, args) :: calls1), rest, s4, l2, frs1, ifs1. cbn [List.length firstn app session Trace.session_trace].
          rewrite EI, (NM _ EI). cbn [rget rbind]. rewrite EP, E1. rewrite P1, fold_left_app, P2, usage_app. cbn [rbind].
          split; [reflexivity|]. split; [reflexivity|]. split; [reflexivity|]. split; [exact P3|]. split; [lia|].
          split; [intros N; apply Forall_app; split; [exact Gd|apply PG; intros N1; apply N; now right]|].
          destruct P5 as [->|(c & rest' & s5 & -> & Why & P5)]; [now left|right]. exists c, rest', s5. split; [reflexivity|]. split.
          -- destruct Why as [Why|Why]; [left; revert Why; apply halts_imp; [now right|auto]|right]. intros H. apply Why. now apply fits_right in H.
          -- rewrite P5. reflexivity.
      + cbn in TY.
        destruct (session _ calls s2) as [[os s3]|?| |] eqn:ES; try discriminate. cbn [rbind] in E. injection E as <- <-.
        destruct W as [W|W]; [destruct W; now left|]. apply Forall_app in W as [W W'].
        destruct (@one_trap f fn args s s2 l a frs ifs u Nf F SO Hl R SF1 NF1 EP W) as [(l1 & (frs1 & ifs1 & p & q & Et & L1 & H1) & E1)|(Why & s' & Es)]; [|apply (Stop s' Es); destruct Why as [Why|Why]; [left; revert Why; apply halts_imp; [now left|auto]|now right]].
        destruct (IH s2 l1 (fold_left obs (trace f args s) a) (frs1 ++ frs) (ifs1 ++ ifs) (u + usage (trace f args s))%Z os s3 T' TY H1)
          as (calls1 & rest & s4 & l2 & frs2 & ifs2 & -> & P1 & P2 & P3 & P4 & PG & P5).
        * rewrite map_app, live_app, Et, usage_app.
          pose proof (trace_nested m num1 num2 host infer on generic only n f args s p q Et). lia.
        * exact SF2.
        * exact ES.
        * exact NF2.
        * right. exact W'.
        * exists ((name, args) :: calls1), rest, s4, l2, frs2, ifs2. cbn [List.length firstn app session Trace.session_trace].
          rewrite EI, (NM _ EI). cbn [rget rbind]. rewrite EP, E1. rewrite P1, fold_left_app, P2, usage_app. cbn [rbind].
          split; [reflexivity|]. split; [reflexivity|]. split; [reflexivity|]. split; [exact P3|]. split; [lia|].
          split; [intros N; destruct N; now left|].
          destruct P5 as [->|(c & rest' & s5 & -> & Why & P5)]; [now left|right]. exists c, rest', s5. split; [reflexivity|]. split.
          -- destruct Why as [Why|Why]; [left; revert Why; apply halts_imp; [now right|auto]|right]. intros H. apply Why. now apply fits_right in H.
          -- rewrite P5. reflexivity.
  Qed.
End Session.

(** ** Modules *)
(** What the analysis needs of a module: its own names are free, static offsets of reported
    accesses are below 2^31 (C28), and intercepted functions have at most 8191 parameters and results. *)
Record compatible (m : module) (on : hook -> bool) (is : list nat) : Prop := {
  co_imports : forall fn ns name, In fn (md_funcs m) -> fn_code fn = FImport ns name -> ns <> stack_ns /\ ns <> analysis_ns;
  co_exports : forall fn x, In fn (md_funcs m) -> In x ("call_base" :: memory_names) -> ~ In x (fn_exports fn);
  co_offsets : forall fn locals code, In fn (md_funcs m) -> fn_code fn = FPresent locals code ->
    (forall o ma, In (LBasic (BLoad o ma)) code -> on (HkLoad (loadop_ty o)) = true -> (ma_offset ma < 2 ^ 31)%Z) /\
    (forall o ma, In (LBasic (BStore o ma)) code -> on (HkStore (storeop_ty o)) = true -> (ma_offset ma < 2 ^ 31)%Z);
  co_slots : forall f fn, In f is -> nth_error (md_funcs m) f = Some fn ->
    (Z.of_nat (List.length (ft_out (fn_type fn)) + List.length (ft_in (fn_type fn))) <= 8191)%Z }.

Lemma intercepts_reported m generic only ord f : (forall l, Permutation (ord l) l) ->
  In f (intercepts m generic only ord) <-> reported m generic only f = true.
Proof.
  intros P. unfold intercepts, reported. destruct generic; [|split; [intros []|discriminate]]. simpl.
  assert (E : In f (ord (filter (selected_incl m only) (indices m))) <-> In f (filter (selected_incl m only) (indices m))).
  { split; apply Permutation_in; [apply P|apply Permutation_sym, P]. }
  rewrite E, filter_In. split; [intros [_ H]; exact H|]. intros H. split; [|exact H].
  unfold selected_incl in H. unfold indices. apply in_seq. destruct (nth_error (md_funcs m) f) eqn:N; [|discriminate].
  assert (f < List.length (md_funcs m)) by (apply nth_error_Some; congruence). lia.
Qed.

Section Top.
  Context {Y A L0 B0 : Type}.
  Notation X := (sys (B0 * Y)).
  Variable lib_part : L0 -> store unit.
  Variable ana_part : L0 -> A -> B0.
  Notation lift := (glift lib_part ana_part).
  Variable Inv : L0 -> Prop.
  Variable good : event -> Prop.
  Variable Fo : list event -> Prop.
  Variable T : bool -> list event -> Prop.
  Hypothesis FL : forall e1 e2, Fo e1 -> Fo (e1 ++ e2).
  Hypothesis FR : forall e1 e2, Fo e2 -> Fo (e1 ++ e2).
  Hypothesis TL : forall b e1 e2, T b e1 -> T b (e1 ++ e2).
  Hypothesis TR : forall b e1 e2, T b e2 -> T b (e1 ++ e2).
  Variable obs : A -> event -> A.
  Variable num1 : unop -> Z -> option Z.
  Variable num2 : binop -> Z -> Z -> option Z.
  Variable lc : lib_code.
  Variable libs : lib_states.
  Variable limit : Z.
  Variable stops : Prop.
  Variable host : string -> string -> list val -> xprog Y.
  Variable I : Y -> Prop.
  Variables ord_i ord_c : list nat -> list nat.
  Variable infer : nat -> list low -> option (list ity).
  Variable m : module.
  Variable on : hook -> bool.
  Variable generic : bool.
  Variable only : option (list nat).
  Variable imp : provided.
  Variable m' : module.
  Variable sigs : list functy.
  Variable lib : option (list functy).
  Hypothesis Pi : forall l, Permutation (ord_i l) l.
  Hypothesis Pc : forall l, Permutation (ord_c l) l.
  Hypothesis E : instrument ord_i ord_c infer m (std_ai on generic) only = IOk m' lib.
  Hypothesis SI : forall l, lib = Some l -> sigs = l.
  Variable ana : string -> list val -> xprog X.
  Notation is := (intercepts m generic only ord_i).
  Hypothesis V : valid m.
  Hypothesis U : in_format m.
  Hypothesis AN : annotates infer m.
  Hypothesis PV : provided_ok m imp.
  Hypothesis HO : hosts_ok host I m (plain_xty m).
  Hypothesis CO : compatible m on is.
  Hypothesis HK : forall n1 Lb ifs h', (forall h, h' h = true -> on h = true) ->
    hooks_sim lib_part ana_part obs good Lb (lost limit m Fo T stops ifs) num1 num2 h'
      (fun h => analysis (spec num1 num2 (system lc ana host) infer m on generic only is (S n1)) (std_hook h))
      (reenter m generic (spec num1 num2 (system lc ana host) infer m on generic only is n1)).
  Hypothesis HI : forall n n',
    own_simulated lib_part ana_part Inv good Fo T obs num1 num2 lc libs limit stops ana host I infer m on generic only is n n' ->
    intercepted_simulated lib_part ana_part Inv good Fo T obs num1 num2 lc libs limit stops ana host I infer m on generic only is n n'.
  Variables n fuel : nat.
  Hypothesis Fu : 5 * n + 2 <= fuel.
  Notation C0 := (ctx_of m).
  Notation ok := (val_ok (List.length (md_funcs m))).
  Notation library := (kept lib_part Inv libs).
  Notation system := (system lc ana host).
  Notation plain := (call_fn num1 num2 host (md_funcs m) n).
  Notation spec' := (spec num1 num2 system infer m on generic only is fuel).
  Notation trace := (trace num1 num2 host infer m on generic only n).
  Notation session_trace := (session_trace num1 num2 host infer m on generic only n).
  Notation module_trace := (module_trace num1 num2 host infer m on generic only n).
  Notation fits := (fits limit m).
  Notation usage := (usage m).
  Notation calls_typed := (Forall (fun c => exists ft, plain_xty m (fst c) = Some ft /\ Forall2 ok (snd c) (ft_in ft))).

  Lemma covered f fn : In f is -> nth_error (md_funcs m) f = Some fn -> In (fn_type fn) sigs /\ (slots (fn_type fn) <= 8191)%Z.
  Proof.
    intros H Nf. split; [|exact (@co_slots _ _ _ CO f fn H Nf)].
    apply intercepts_reported in H; [|exact Pi]. unfold reported in H. apply andb_true_iff in H as [G H].
    pose proof (lib_iff_generic _ _ _ _ _ _ E) as L. cbn in L. rewrite G in L. destruct lib as [l|]; [|discriminate (proj1 L eq_refl)].
    rewrite (@SI l eq_refl). exact (@sigs_cover ord_i ord_c infer m (std_ai on generic) only m' l Pi Pc E f fn H Nf).
  Qed.
  Lemma accesses f fn locals code b : nth_error (md_funcs m) f = Some fn -> fn_code fn = FPresent locals code ->
    selected m only f = true -> structure_typed f (infer f) code = COk b -> all_access on b.
  Proof.
    intros Nf EC _ Es mt b' Oc. destruct (structure_typed_located _ _ _ Es) as (tys & _ & P & _).
    destruct (P _ Oc) as (_ & _ & P2 & _). cbn [opening] in P2. apply nth_error_In in P2.
    destruct (co_offsets CO _ (nth_error_In _ _ Nf) EC) as (A1 & A2). destruct b'; cbn [access_ok]; auto; intros; eauto.
  Qed.
  Lemma calls_simulated frs ifs f fn args s l a : nth_error (md_funcs m) f = Some fn -> Forall2 ok args (ft_in (fn_type fn)) ->
    store_ok C0 I s -> library frs ifs l ->
    gsim lib_part ana_part obs good (library frs ifs) (leaky lib_part Inv libs m frs ifs) (lost limit m Fo T stops ifs) (trace f args s) a (plain f args s) (spec' (CFun f) args (lift l a s)).
  Proof.
    intros Nf F SO Hl. apply (@OwnProofs.call_sim Y A L0 B0 lib_part ana_part Inv good Fo T FL FR TL TR obs num1 num2 sigs lc libs limit stops ana host I) with (fn := fn); auto.
    - intros g gn ns name Ng. apply (co_imports CO). eapply nth_error_In; eauto.
    - intros x Hx Hi. apply in_flat_map in Hi as (g & Hg & Hi). exact (@co_exports _ _ _ CO g x Hg Hx Hi).
    - intros g. now apply intercepts_reported.
    - exact covered.
    - exact accesses.
  Qed.

  Lemma session_ext {Z0} (c1 c2 : string -> list val -> store Z0 -> res (store Z0) (list val * store Z0)) calls :
    Forall (fun c => forall s, c1 (fst c) (snd c) s = c2 (fst c) (snd c) s) calls -> forall s, session c1 calls s = session c2 calls s.
  Proof.
    induction 1 as [|[name args] calls H F IH]; intros s; cbn [session]; [reflexivity|]. cbn [fst snd] in H. rewrite H.
    destruct (c2 name args s) as [[vs s1]|s1| |]; auto; now rewrite IH.
  Qed.
  (** The calls the host makes are calls of functions of the module. *)
  Lemma named_calls calls : calls_typed calls -> forall s,
    session (fun name args s => let* c := rget (export_callee m generic name) in spec' c args s) calls s =
    session (fun name args s => let* f := rget (export_index 0 (md_funcs m) name) in spec' (CFun f) args s) calls s.
  Proof.
    intros Tc. apply session_ext. eapply Forall_impl; [|exact Tc]. intros [name args] (ft & Ex & _) s. cbn [fst snd] in *.
    unfold plain_xty in Ex. unfold export_callee. destruct (export_index 0 (md_funcs m) name); [reflexivity|discriminate].
  Qed.

  Notation plain_module := (run_module num1 num2 host n imp m).
  Notation spec_run l a x := (spec_module num1 num2 system infer on generic only is fuel imp m (lib_part l, (ana_part l a, x))).
  Lemma spec_any x l a calls outs s : I x -> library [] [] l -> calls_typed calls ->
    plain_module x calls = Ok (outs, s) ->
    stops \/ fits 0 (module_trace imp x calls) -> ~ Fo (module_trace imp x calls) -> ~ In None outs \/ Forall in_range32 (module_trace imp x calls) ->
    (halts T (In None outs) (module_trace imp x calls) \/ ~ fits 0 (module_trace imp x calls)) /\ (exists s', forall calls, spec_run l a x calls = Trap s') \/
    exists calls1 rest s1 l1 frs1 ifs1,
      calls = calls1 ++ rest /\ plain_module x calls1 = Ok (firstn (List.length calls1) outs, s1) /\
      spec_run l a x calls1 = Ok (firstn (List.length calls1) outs, lift l1 (fold_left obs (module_trace imp x calls1) a) s1) /\
      library frs1 ifs1 l1 /\ (live (map if_type ifs1) <= usage (module_trace imp x calls1))%Z /\
      (~ In None (firstn (List.length calls1) outs) -> Forall good (module_trace imp x calls1)) /\
      (rest = [] \/ exists c rest' s2, rest = c :: rest' /\ (halts T (In None outs) (module_trace imp x calls) \/ ~ fits 0 (module_trace imp x calls)) /\
         spec_run l a x (calls1 ++ [c]) = Ok (firstn (List.length calls1) outs ++ [None], s2)).
  Proof.
    intros Ix Hl Tc R SF NF W. unfold run_module in *. unfold spec_module, Trace.module_trace in *.
    pose proof (@instantiate_ok Y I m imp V U PV x Ix) as IO. rewrite instantiate_up.
    destruct (instantiate imp m x) as [s0|?| |]; try discriminate. cbn [rbind upb fine_store] in *. destruct IO as (SO & _).
    pose proof (@session_any Y A L0 B0 lib_part ana_part Inv good Fo T FL FR TL TR obs num1 num2 libs limit stops host I infer m on generic only V U HO n (fun f => spec' (CFun f)) calls_simulated
        (export_index 0 (md_funcs m)) (fun _ _ H => H) calls) as SS.
    pose proof (va_start V) as VS. destruct (md_start m) as [f|].
    - destruct (nth_error (md_funcs m) f) as [fn|] eqn:Nf; [|discriminate]. injection VS as Ft.
      assert (F0 : Forall2 ok [] (ft_in (fn_type fn))) by (rewrite Ft; constructor).
      pose proof (@typed Y num1 num2 host I m V U HO n f fn [] s0 Nf F0 SO) as TY.
      destruct (plain f [] s0) as [[vs s1]|?| |] eqn:EP; try discriminate. cbn [rbind] in R. destruct TY as (_ & SO1).
      pose proof (nested_all (trace_nested m num1 num2 host infer on generic only n f [] s0)) as Pos.
      destruct (@one_ok Y A L0 B0 lib_part ana_part Inv good Fo T obs num1 num2 libs limit stops host I infer m on generic only n (fun f => spec' (CFun f)) calls_simulated
        f fn [] s0 vs s1 l a [] [] 0%Z Nf F0 SO Hl (Z.le_refl 0)) as [(Gd & l1 & H1 & E1)|(Why & s' & Es)]; [destruct SF as [SF|SF]; [now left|right; eapply fits_left; exact SF]|intros H; apply NF; now apply FL|exact EP| |].
      2:{ left. split; [|exists s'; intros; now rewrite Es]. destruct Why as [Why|Why]; [left; left; now apply TL|right]. intros H. apply Why. eapply fits_left; exact H. }
      right. rewrite E1. cbn [rbind].
      destruct (SS s1 l1 (fold_left obs (trace f [] s0) a) [] [] (usage (trace f [] s0)) outs s Tc SO1 H1 Pos)
        as (calls1 & rest & s2 & l2 & frs1 & ifs1 & -> & P1 & P2 & P3 & P4 & PG & P5).
      + destruct SF as [SF|SF]; [now left|right; now apply fits_right in SF].
      + exact R.
      + intros H. apply NF. now apply FR.
      + destruct W as [W|W]; [left; exact W|right; apply Forall_app in W; apply W].
      + exists calls1, rest, s2, l2, frs1, ifs1. split; [reflexivity|]. split; [exact P1|].
        rewrite named_calls by (apply Forall_app in Tc; apply Tc). rewrite P2, fold_left_app, usage_app.
        split; [reflexivity|]. split; [exact P3|]. split; [lia|].
        split; [intros N; apply Forall_app; split; [exact Gd|now apply PG]|].
        destruct P5 as [->|(c & rest' & s5 & -> & Why & P5)]; [now left|right]. exists c, rest', s5. split; [reflexivity|]. split.
        * destruct Why as [Why|Why]; [left; revert Why; apply halts_imp; auto|right]. intros H. apply Why. apply fits_right in H. exact H.
        * rewrite named_calls; [exact P5|]. change (c :: rest') with ([c] ++ rest') in Tc. rewrite app_assoc in Tc. apply Forall_app in Tc. apply Tc.
    - right. cbn [rbind] in *.
      destruct (SS s0 l a [] [] 0%Z outs s Tc SO Hl (Z.le_refl 0) SF R NF W)
        as (calls1 & rest & s2 & l2 & frs1 & ifs1 & -> & P1 & P2 & P3 & P4 & PG & P5).
      exists calls1, rest, s2, l2, frs1, ifs1. split; [reflexivity|]. split; [exact P1|].
      rewrite named_calls by (apply Forall_app in Tc; apply Tc). rewrite P2.
      split; [reflexivity|]. split; [exact P3|]. split; [lia|]. split; [exact PG|].
      destruct P5 as [->|(c & rest' & s5 & -> & Why & P5)]; [now left|right]. exists c, rest', s5. split; [reflexivity|]. split; [exact Why|].
      rewrite named_calls; [exact P5|]. change (c :: rest') with ([c] ++ rest') in Tc. rewrite app_assoc in Tc. apply Forall_app in Tc. apply Tc.
  Qed.
  Lemma spec_session_trap x l a calls s : I x -> library [] [] l ->
    plain_module x calls = Trap s -> stops \/ fits 0 (module_trace imp x calls) -> ~ Fo (module_trace imp x calls) -> Forall in_range32 (module_trace imp x calls) ->
    calls_typed calls ->
    (exists l1, spec_run l a x calls = Trap (lift l1 (fold_left obs (module_trace imp x calls) a) s)) \/
    (halts T True (module_trace imp x calls) \/ ~ fits 0 (module_trace imp x calls)) /\ exists s', spec_run l a x calls = Trap s'.
  Proof.
    intros Ix Hl R SF NF W Tc. unfold run_module in R. unfold spec_module, Trace.module_trace in *.
    pose proof (@instantiate_ok Y I m imp V U PV x Ix) as IO. rewrite instantiate_up.
    destruct (instantiate imp m x) as [s0|?| |]; try discriminate; cbn [rbind upb fine_store] in *;
      [|injection R as <-; left; exists l; reflexivity]. destruct IO as (SO & _).
    assert (NT : forall s1, session (fun name args s => let* f := rget (export_index 0 (md_funcs m) name) in plain f args s) calls s1 <> Trap s).
    { clear. induction calls as [|[name args] calls IH]; intros s1; cbn [session]; [discriminate|].
      destruct (rbind _ _) as [[vs s2]|s2| |]; try discriminate; specialize (IH s2); destruct (session _ _ _) as [[? ?]|?| |]; cbn; congruence. }
    pose proof (va_start V) as VS. destruct (md_start m) as [f|]; [|now apply NT in R].
    destruct (nth_error (md_funcs m) f) as [fn|] eqn:Nf; [|discriminate]. injection VS as Ft.
    assert (F0 : Forall2 ok [] (ft_in (fn_type fn))) by (rewrite Ft; constructor).
    destruct (plain f [] s0) as [[vs s1]|s1| |] eqn:EP; try discriminate; cbn [rbind] in R; [now apply NT in R|].
    injection R as <-. rewrite app_nil_r in *.
    destruct (@one_trap Y A L0 B0 lib_part ana_part Inv good Fo T obs num1 num2 libs limit stops host I infer m on generic only n (fun f => spec' (CFun f)) calls_simulated
        f fn [] s0 s1 l a [] [] 0%Z Nf F0 SO Hl (Z.le_refl 0) SF NF EP W) as [(l1 & H1 & E1)|(Why & s' & Es)].
    - left. rewrite E1. exists l1. reflexivity.
    - right. split; [exact Why|]. exists s'. now rewrite Es.
  Qed.

  (** ** Sessions with the output module *)
  Notation output := (run_module num1 num2 system fuel imp m').
  Lemma output_ok x l a calls outs s : spec_run l a x calls = Ok (outs, s) ->
    exists s', output (lib_part l, (ana_part l a, x)) calls = Ok (outs, s') /\ extends s s'.
  Proof.
    intros E1. pose proof (@C07_sessions X num1 num2 system ord_i ord_c infer m on generic only m' lib Pi Pc E fuel imp (lib_part l, (ana_part l a, x)) calls) as R7.
    cbv zeta in R7. fold is in R7. rewrite E1 in R7.
    destruct (output _ calls) as [[os s']|?| |]; try contradiction. destruct R7 as (-> & R7). exists s'. auto.
  Qed.
  Lemma output_trap x l a calls s : spec_run l a x calls = Trap s ->
    exists s', output (lib_part l, (ana_part l a, x)) calls = Trap s' /\ extends s s'.
  Proof.
    intros E1. pose proof (@C07_sessions X num1 num2 system ord_i ord_c infer m on generic only m' lib Pi Pc E fuel imp (lib_part l, (ana_part l a, x)) calls) as R7.
    cbv zeta in R7. fold is in R7. rewrite E1 in R7.
    destruct (output _ calls) as [[os s']|s'| |]; try contradiction. exists s'. auto.
  Qed.
  Theorem simulated_any x l a calls outs s : I x -> library [] [] l -> calls_typed calls ->
    plain_module x calls = Ok (outs, s) ->
    stops \/ fits 0 (module_trace imp x calls) -> ~ Fo (module_trace imp x calls) -> ~ In None outs \/ Forall in_range32 (module_trace imp x calls) ->
    (halts T (In None outs) (module_trace imp x calls) \/ ~ fits 0 (module_trace imp x calls)) /\ (forall calls, exists s', output (lib_part l, (ana_part l a, x)) calls = Trap s') \/
    exists calls1 rest s1 s' l1 frs1 ifs1,
      calls = calls1 ++ rest /\ plain_module x calls1 = Ok (firstn (List.length calls1) outs, s1) /\
      output (lib_part l, (ana_part l a, x)) calls1 = Ok (firstn (List.length calls1) outs, s') /\
      extends (lift l1 (fold_left obs (module_trace imp x calls1) a) s1) s' /\
      library frs1 ifs1 l1 /\ (live (map if_type ifs1) <= usage (module_trace imp x calls1))%Z /\
      (~ In None (firstn (List.length calls1) outs) -> Forall good (module_trace imp x calls1)) /\
      (rest = [] \/ exists c rest' s2, rest = c :: rest' /\ (halts T (In None outs) (module_trace imp x calls) \/ ~ fits 0 (module_trace imp x calls)) /\
         output (lib_part l, (ana_part l a, x)) (calls1 ++ [c]) = Ok (firstn (List.length calls1) outs ++ [None], s2)).
  Proof.
    intros Ix Hl Tc R SF NF W. destruct (@spec_any x l a calls outs s Ix Hl Tc R SF NF W)
      as [(Why & s' & Es)|(calls1 & rest & s1 & l1 & frs1 & ifs1 & -> & P1 & P2 & P3 & P4 & PG & P5)]; [left|right].
    - split; [exact Why|]. intros calls0. destruct (output_trap _ _ _ _ (Es calls0)) as (s2 & E2 & _). eauto.
    - destruct (output_ok _ _ _ _ P2) as (s' & E' & X'). exists calls1, rest, s1, s', l1, frs1, ifs1.
      split; [reflexivity|]. split; [exact P1|]. split; [exact E'|]. split; [exact X'|]. split; [exact P3|]. split; [exact P4|]. split; [exact PG|].
      destruct P5 as [->|(c & rest' & s5 & -> & Why & P5)]; [now left|right].
      destruct (output_ok _ _ _ _ P5) as (s6 & E6 & _). exists c, rest', s6. auto.
  Qed.
  Theorem simulated_sessions x l a calls outs s : I x -> library [] [] l -> calls_typed calls ->
    plain_module x calls = Ok (outs, s) -> ~ halts T (In None outs) (module_trace imp x calls) ->
    fits 0 (module_trace imp x calls) -> ~ Fo (module_trace imp x calls) -> ~ In None outs \/ Forall in_range32 (module_trace imp x calls) ->
    exists s' l1 frs1 ifs1, output (lib_part l, (ana_part l a, x)) calls = Ok (outs, s') /\
      extends (lift l1 (fold_left obs (module_trace imp x calls) a) s) s' /\
      library frs1 ifs1 l1 /\ (live (map if_type ifs1) <= usage (module_trace imp x calls))%Z.
  Proof.
    intros Ix Hl Tc R NT Ro NF W. destruct (@simulated_any x l a calls outs s Ix Hl Tc R (or_intror Ro) NF W)
      as [([Q|Q] & _)|(calls1 & rest & s1 & s' & l1 & frs1 & ifs1 & -> & P1 & P2 & P3 & P4 & P5 & PG & [->|(c & rest' & s2 & _ & [Q|Q] & _)])]; try contradiction.
    rewrite app_nil_r in *. rewrite R in P1. injection P1 as P1 <-. rewrite <- P1 in P2. exists s', l1, frs1, ifs1. auto.
  Qed.
  Theorem simulated_trap x l a calls s : I x -> library [] [] l -> calls_typed calls ->
    plain_module x calls = Trap s -> ~ halts T True (module_trace imp x calls) -> fits 0 (module_trace imp x calls) -> ~ Fo (module_trace imp x calls) -> Forall in_range32 (module_trace imp x calls) ->
    exists s' l1, output (lib_part l, (ana_part l a, x)) calls = Trap s' /\
      extends (lift l1 (fold_left obs (module_trace imp x calls) a) s) s'.
  Proof.
    intros Ix Hl Tc R NT Ro NF W. destruct (@spec_session_trap x l a calls s Ix Hl R (or_intror Ro) NF W Tc) as [(l1 & E1)|([Q|Q] & _)]; try contradiction.
    destruct (output_trap _ _ _ _ E1) as (s' & E' & X'). exists s', l1. auto.
  Qed.
  Theorem simulated_trap_any x l a calls s : I x -> library [] [] l -> calls_typed calls ->
    plain_module x calls = Trap s -> stops \/ fits 0 (module_trace imp x calls) -> ~ Fo (module_trace imp x calls) -> Forall in_range32 (module_trace imp x calls) ->
    exists s', output (lib_part l, (ana_part l a, x)) calls = Trap s'.
  Proof.
    intros Ix Hl Tc R SF NF W. destruct (@spec_session_trap x l a calls s Ix Hl R SF NF W Tc) as [(l1 & E1)|(_ & s1 & E1)];
      destruct (output_trap _ _ _ _ E1) as (s' & E' & _); eauto.
  Qed.
End Top.

(** ** Analyses that note and forward, where they need not forward everything *)
Section Guarded.
  Context {Y A : Type}.
  Notation X := (sys (A * Y)).
  Variable obs : A -> event -> A.
  Variable good : event -> Prop.
  Variable Fo : list event -> Prop.
  Variable T : bool -> list event -> Prop.
  Hypothesis FL : forall e1 e2, Fo e1 -> Fo (e1 ++ e2).
  Hypothesis FR : forall e1 e2, Fo e2 -> Fo (e1 ++ e2).
  Hypothesis TL : forall b e1 e2, T b e1 -> T b (e1 ++ e2).
  Hypothesis TR : forall b e1 e2, T b e2 -> T b (e1 ++ e2).
  Hypothesis GE : forall f c args, good (EvEnter f c args).
  Hypothesis GL : forall f rs, good (EvLeave f rs).
  Variable num1 : unop -> Z -> option Z.
  Variable num2 : binop -> Z -> Z -> option Z.
  Variable host : string -> string -> list val -> xprog Y.
  Variable I : Y -> Prop.
  Variables ord_i ord_c : list nat -> list nat.
  Variable infer : nat -> list low -> option (list ity).
  Variable m : module.
  Variable on : hook -> bool.
  Variable generic : bool.
  Variable only : option (list nat).
  Variable imp : provided.
  Variable m' : module.
  Variable sigs : list functy.
  Variable lc : lib_code.
  Variable library : lib_states.
  Variable limit : Z.
  Variable stops : Prop.
  Hypothesis IM : implements sigs lc library limit stops.
  Variable lib : option (list functy).
  Hypothesis Pi : forall l, Permutation (ord_i l) l.
  Hypothesis Pc : forall l, Permutation (ord_c l) l.
  Hypothesis E : instrument ord_i ord_c infer m (std_ai on generic) only = IOk m' lib.
  Hypothesis SI : forall l, lib = Some l -> sigs = l.
  Variable body : advice -> xprog X.
  Variable apply_body : wasm_function -> runtime_values -> runtime_values -> xprog X.
  Hypothesis HB : guards_advice obs num1 num2 good Fo T body.
  Hypothesis HA : hands_calls obs library Fo apply_body.
  Notation is := (intercepts m generic only ord_i).
  Hypothesis V : valid m.
  Hypothesis U : in_format m.
  Hypothesis AN : annotates infer m.
  Hypothesis PV : provided_ok m imp.
  Hypothesis HO : hosts_ok host I m (plain_xty m).
  Hypothesis CO : compatible m on is.
  Variables n fuel : nat.
  Hypothesis Fu : 5 * n + 2 <= fuel.
  Notation C0 := (ctx_of m).
  Notation ok := (val_ok (List.length (md_funcs m))).
  Notation system := (all_agents lc body apply_body host).
  Notation plain := (call_fn num1 num2 host (md_funcs m) n).
  Notation spec' := (spec num1 num2 system infer m on generic only is fuel).
  Notation trace := (trace num1 num2 host infer m on generic only n).
  Notation session_trace := (session_trace num1 num2 host infer m on generic only n).
  Notation module_trace := (module_trace num1 num2 host infer m on generic only n).
  Notation fits := (fits limit m).
  Notation usage := (usage m).
  Notation calls_typed := (Forall (fun c => exists ft, plain_xty m (fst c) = Some ft /\ Forall2 ok (snd c) (ft_in ft))).


  Lemma intercepted_noted n0 n' :
    own_simulated (fun l => l) (fun _ a => a) (fun _ => True) good Fo T obs num1 num2 lc library limit stops
      (rs_analysis body (lib_agent lc) apply_body) host I infer m on generic only is n0 n' ->
    intercepted_simulated (fun l => l) (fun _ a => a) (fun _ => True) good Fo T obs num1 num2 lc library limit stops
      (rs_analysis body (lib_agent lc) apply_body) host I infer m on generic only is n0 n'.
  Proof.
    intros OS frs ifs f fn args s l a Hi Nf F SO Hl.
    apply (@intercepted_sim Y A obs num1 num2 sigs lc library limit stops IM good Fo T FL FR TL TR GE GL
      (rs_analysis body (lib_agent lc) apply_body) (rs_generic_apply (lib_agent lc) apply_body) (@told_of_calls Y A obs sigs lc library limit stops IM Fo apply_body HA) (fun _ => eq_refl)
      host I infer m on generic only is V U HO) with (fn := fn); auto.
    - intros x Hx Hi'. apply in_flat_map in Hi' as (g & Hg & Hi'). exact (@co_exports _ _ _ CO g x Hg Hx Hi').
    - intros g. now apply intercepts_reported.
    - intros g gn. apply (@covered ord_i ord_c infer m on generic only m' sigs lib Pi Pc E SI CO).
  Qed.
  Theorem guarded_sessions x l a calls outs s : I x -> library [] [] l -> calls_typed calls ->
    run_module num1 num2 host n imp m x calls = Ok (outs, s) -> ~ halts T (In None outs) (module_trace imp x calls) ->
    fits 0 (module_trace imp x calls) -> ~ Fo (module_trace imp x calls) -> ~ In None outs \/ Forall in_range32 (module_trace imp x calls) ->
    exists s' l1 frs1 ifs1, run_module num1 num2 system fuel imp m' (l, (a, x)) calls = Ok (outs, s') /\
      extends (lift l1 (fold_left obs (module_trace imp x calls) a) s) s' /\
      library frs1 ifs1 l1 /\ (live (map if_type ifs1) <= usage (module_trace imp x calls))%Z.
  Proof.
    intros Ix Hl Tc R NT Ro NF W.
    destruct (@simulated_sessions Y A (store unit) A (fun l => l) (fun _ a => a) (fun _ => True) good Fo T FL FR TL TR
      obs num1 num2 lc library limit stops host I ord_i ord_c infer m on generic only imp m' sigs lib Pi Pc E SI (rs_analysis body (lib_agent lc) apply_body)
      V U AN PV HO CO (@hooks_of Y A obs num1 num2 lc limit stops good Fo T body apply_body HB host infer m on generic only is) intercepted_noted n fuel Fu x l a calls outs s Ix (conj Hl Logic.I) Tc R NT Ro NF W)
      as (s' & l1 & frs1 & ifs1 & A1 & A2 & (A3 & _) & A4). exists s', l1, frs1, ifs1. auto.
  Qed.
  Theorem guarded_any x l a calls outs s : I x -> library [] [] l -> calls_typed calls ->
    run_module num1 num2 host n imp m x calls = Ok (outs, s) ->
    stops \/ fits 0 (module_trace imp x calls) -> ~ Fo (module_trace imp x calls) -> ~ In None outs \/ Forall in_range32 (module_trace imp x calls) ->
    (halts T (In None outs) (module_trace imp x calls) \/ ~ fits 0 (module_trace imp x calls)) /\ (forall calls, exists s', run_module num1 num2 system fuel imp m' (l, (a, x)) calls = Trap s') \/
    exists calls1 rest s1 s' l1,
      calls = calls1 ++ rest /\ run_module num1 num2 host n imp m x calls1 = Ok (firstn (List.length calls1) outs, s1) /\
      run_module num1 num2 system fuel imp m' (l, (a, x)) calls1 = Ok (firstn (List.length calls1) outs, s') /\
      extends (lift l1 (fold_left obs (module_trace imp x calls1) a) s1) s' /\
      (~ In None (firstn (List.length calls1) outs) -> Forall good (module_trace imp x calls1)) /\
      (rest = [] \/ exists c rest' s2, rest = c :: rest' /\ (halts T (In None outs) (module_trace imp x calls) \/ ~ fits 0 (module_trace imp x calls)) /\
         run_module num1 num2 system fuel imp m' (l, (a, x)) (calls1 ++ [c]) = Ok (firstn (List.length calls1) outs ++ [None], s2)).
  Proof.
    intros Ix Hl Tc R SF NF W.
    destruct (@simulated_any Y A (store unit) A (fun l => l) (fun _ a => a) (fun _ => True) good Fo T FL FR TL TR
      obs num1 num2 lc library limit stops host I ord_i ord_c infer m on generic only imp m' sigs lib Pi Pc E SI (rs_analysis body (lib_agent lc) apply_body)
      V U AN PV HO CO (@hooks_of Y A obs num1 num2 lc limit stops good Fo T body apply_body HB host infer m on generic only is) intercepted_noted n fuel Fu x l a calls outs s Ix (conj Hl Logic.I) Tc R SF NF W)
      as [(Q & P)|(calls1 & rest & s1 & s' & l1 & frs1 & ifs1 & P1 & P2 & P3 & P4 & P5 & P6 & PG & P7)]; [left; split; [exact Q|exact P]|right].
    exists calls1, rest, s1, s', l1. split; [exact P1|]. split; [exact P2|]. split; [exact P3|]. split; [exact P4|].
    split; [exact PG|exact P7].
  Qed.
  Theorem guarded_trap x l a calls s : I x -> library [] [] l -> calls_typed calls ->
    run_module num1 num2 host n imp m x calls = Trap s -> ~ halts T True (module_trace imp x calls) -> fits 0 (module_trace imp x calls) -> ~ Fo (module_trace imp x calls) -> Forall in_range32 (module_trace imp x calls) ->
    exists s' l1, run_module num1 num2 system fuel imp m' (l, (a, x)) calls = Trap s' /\
      extends (lift l1 (fold_left obs (module_trace imp x calls) a) s) s'.
  Proof.
    intros Ix Hl Tc R NT Ro NF W.
    exact (@simulated_trap Y A (store unit) A (fun l => l) (fun _ a => a) (fun _ => True) good Fo T FL FR TL TR
      obs num1 num2 lc library limit stops host I ord_i ord_c infer m on generic only imp m' sigs lib Pi Pc E SI (rs_analysis body (lib_agent lc) apply_body)
      V U AN PV HO CO (@hooks_of Y A obs num1 num2 lc limit stops good Fo T body apply_body HB host infer m on generic only is) intercepted_noted n fuel Fu x l a calls s Ix (conj Hl Logic.I) Tc R NT Ro NF W).
  Qed.
  Theorem guarded_trap_any x l a calls s : I x -> library [] [] l -> calls_typed calls ->
    run_module num1 num2 host n imp m x calls = Trap s -> stops \/ fits 0 (module_trace imp x calls) -> ~ Fo (module_trace imp x calls) ->
    Forall in_range32 (module_trace imp x calls) ->
    exists s', run_module num1 num2 system fuel imp m' (l, (a, x)) calls = Trap s'.
  Proof.
    intros Ix Hl Tc R SF NF W.
    exact (@simulated_trap_any Y A (store unit) A (fun l => l) (fun _ a => a) (fun _ => True) good Fo T FL FR TL TR
      obs num1 num2 lc library limit stops host I ord_i ord_c infer m on generic only imp m' sigs lib Pi Pc E SI (rs_analysis body (lib_agent lc) apply_body)
      V U AN PV HO CO (@hooks_of Y A obs num1 num2 lc limit stops good Fo T body apply_body HB host infer m on generic only is) intercepted_noted n fuel Fu x l a calls s Ix (conj Hl Logic.I) Tc R SF NF W).
  Qed.
End Guarded.

(** ** Analyses that note and forward *)
Section Observed.
  Context {Y A : Type}.
  Notation X := (sys (A * Y)).
  Variable obs : A -> event -> A.
  Variable num1 : unop -> Z -> option Z.
  Variable num2 : binop -> Z -> Z -> option Z.
  Variable host : string -> string -> list val -> xprog Y.
  Variable I : Y -> Prop.
  Variables ord_i ord_c : list nat -> list nat.
  Variable infer : nat -> list low -> option (list ity).
  Variable m : module.
  Variable on : hook -> bool.
  Variable generic : bool.
  Variable only : option (list nat).
  Variable imp : provided.
  Variable m' : module.
  Variable sigs : list functy.
  Variable lc : lib_code.
  Variable library : lib_states.
  Variable limit : Z.
  Variable stops : Prop.
  Hypothesis IM : implements sigs lc library limit stops.
  Variable lib : option (list functy).
  Hypothesis Pi : forall l, Permutation (ord_i l) l.
  Hypothesis Pc : forall l, Permutation (ord_c l) l.
  Hypothesis E : instrument ord_i ord_c infer m (std_ai on generic) only = IOk m' lib.
  Hypothesis SI : forall l, lib = Some l -> sigs = l.
  Variable body : advice -> xprog X.
  Variable apply_body : wasm_function -> runtime_values -> runtime_values -> xprog X.
  Hypothesis HB : notes_advice obs num1 num2 body.
  Hypothesis HA : notes_calls obs library apply_body.
  Notation is := (intercepts m generic only ord_i).
  Hypothesis V : valid m.
  Hypothesis U : in_format m.
  Hypothesis AN : annotates infer m.
  Hypothesis PV : provided_ok m imp.
  Hypothesis HO : hosts_ok host I m (plain_xty m).
  Hypothesis CO : compatible m on is.
  Variables n fuel : nat.
  Hypothesis Fu : 5 * n + 2 <= fuel.
  Notation C0 := (ctx_of m).
  Notation ok := (val_ok (List.length (md_funcs m))).
  Notation system := (all_agents lc body apply_body host).
  Notation plain := (call_fn num1 num2 host (md_funcs m) n).
  Notation spec' := (spec num1 num2 system infer m on generic only is fuel).
  Notation trace := (trace num1 num2 host infer m on generic only n).
  Notation session_trace := (session_trace num1 num2 host infer m on generic only n).
  Notation module_trace := (module_trace num1 num2 host infer m on generic only n).
  Notation fits := (fits limit m).
  Notation usage := (usage m).
  Notation calls_typed := (Forall (fun c => exists ft, plain_xty m (fst c) = Some ft /\ Forall2 ok (snd c) (ft_in ft))).


  Lemma guards : guards_advice obs num1 num2 (fun _ => True) (fun _ => False) (fun _ _ => False) body.
  Proof. intros export adv l a s _. left. split; [exact Logic.I|apply HB]. Qed.
  Theorem observed_sessions x l a calls outs s : I x -> library [] [] l -> calls_typed calls ->
    run_module num1 num2 host n imp m x calls = Ok (outs, s) ->
    fits 0 (module_trace imp x calls) -> ~ In None outs \/ Forall in_range32 (module_trace imp x calls) ->
    exists s' l1 frs1 ifs1, run_module num1 num2 system fuel imp m' (l, (a, x)) calls = Ok (outs, s') /\
      extends (lift l1 (fold_left obs (module_trace imp x calls) a) s) s' /\
      library frs1 ifs1 l1 /\ (live (map if_type ifs1) <= usage (module_trace imp x calls))%Z.
  Proof.
    intros Ix Hl T R Ro W.
    exact (@guarded_sessions Y A obs (fun _ => True) (fun _ => False) (fun _ _ => False) (fun _ _ H => H) (fun _ _ H => H) (fun _ _ _ H => H) (fun _ _ _ H => H)
      (fun _ _ _ => Logic.I) (fun _ _ => Logic.I) num1 num2 host I ord_i ord_c infer m on generic only imp m' sigs lc library limit stops IM lib Pi Pc E SI
      body apply_body guards (notes_hands_calls (fun _ => False) HA) V U AN PV HO CO n fuel Fu x l a calls outs s Ix Hl T R (@never_halts _ _) Ro (fun H => H) W).
  Qed.
  Theorem observed_any x l a calls outs s : I x -> library [] [] l -> calls_typed calls ->
    run_module num1 num2 host n imp m x calls = Ok (outs, s) ->
    stops \/ fits 0 (module_trace imp x calls) -> ~ In None outs \/ Forall in_range32 (module_trace imp x calls) ->
    ~ fits 0 (module_trace imp x calls) /\ (forall calls, exists s', run_module num1 num2 system fuel imp m' (l, (a, x)) calls = Trap s') \/
    exists calls1 rest s1 s' l1,
      calls = calls1 ++ rest /\ run_module num1 num2 host n imp m x calls1 = Ok (firstn (List.length calls1) outs, s1) /\
      run_module num1 num2 system fuel imp m' (l, (a, x)) calls1 = Ok (firstn (List.length calls1) outs, s') /\
      extends (lift l1 (fold_left obs (module_trace imp x calls1) a) s1) s' /\
      (rest = [] \/ exists c rest' s2, rest = c :: rest' /\ ~ fits 0 (module_trace imp x calls) /\
         run_module num1 num2 system fuel imp m' (l, (a, x)) (calls1 ++ [c]) = Ok (firstn (List.length calls1) outs ++ [None], s2)).
  Proof.
    intros Ix Hl T R SF W.
    destruct (@guarded_any Y A obs (fun _ => True) (fun _ => False) (fun _ _ => False) (fun _ _ H => H) (fun _ _ H => H) (fun _ _ _ H => H) (fun _ _ _ H => H)
      (fun _ _ _ => Logic.I) (fun _ _ => Logic.I) num1 num2 host I ord_i ord_c infer m on generic only imp m' sigs lc library limit stops IM lib Pi Pc E SI
      body apply_body guards (notes_hands_calls (fun _ => False) HA) V U AN PV HO CO n fuel Fu x l a calls outs s Ix Hl T R SF (fun H => H) W)
      as [([Q%never_halts|Q] & P)|(calls1 & rest & s1 & s' & l1 & P1 & P2 & P3 & P4 & _ & P7)]; [easy|left; split; [exact Q|exact P]|right].
    exists calls1, rest, s1, s', l1. split; [exact P1|]. split; [exact P2|]. split; [exact P3|]. split; [exact P4|].
    destruct P7 as [->|(c & rest' & s2 & -> & [Q%never_halts|Q] & P7)]; [now left|easy|right]. exists c, rest', s2. auto.
  Qed.
  Theorem observed_trap x l a calls s : I x -> library [] [] l -> calls_typed calls ->
    run_module num1 num2 host n imp m x calls = Trap s -> fits 0 (module_trace imp x calls) -> Forall in_range32 (module_trace imp x calls) ->
    exists s' l1, run_module num1 num2 system fuel imp m' (l, (a, x)) calls = Trap s' /\
      extends (lift l1 (fold_left obs (module_trace imp x calls) a) s) s'.
  Proof.
    intros Ix Hl T R Ro W.
    exact (@guarded_trap Y A obs (fun _ => True) (fun _ => False) (fun _ _ => False) (fun _ _ H => H) (fun _ _ H => H) (fun _ _ _ H => H) (fun _ _ _ H => H)
      (fun _ _ _ => Logic.I) (fun _ _ => Logic.I) num1 num2 host I ord_i ord_c infer m on generic only imp m' sigs lc library limit stops IM lib Pi Pc E SI
      body apply_body guards (notes_hands_calls (fun _ => False) HA) V U AN PV HO CO n fuel Fu x l a calls s Ix Hl T R (@never_halts _ _) Ro (fun H => H) W).
  Qed.
End Observed.
