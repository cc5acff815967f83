(** Property theorems C92: when instrumentation reports an error. *)
From Coq Require Import Permutation.
From Verif Require Import Typing Nesting NestingSpec NestingProofs WeaveSpec WeaveProofs InstrumentProofs ImportProofs Interface ExModule PropTyping.
Local Open Scope string_scope.
Local Open Scope list_scope.

(** ** Specification *)
(** A function whose body is looked at: it is not imported, has no references among its parameters and results, and is asked for. *)
Definition looked_at (m : module) (only : option (list nat)) (i : nat) (body : list low) : Prop :=
  exists fn locals, nth_error (md_funcs m) i = Some fn /\ fn_code fn = FPresent locals body /\
    (forall t, In t (ft_in (fn_type fn) ++ ft_out (fn_type fn)) -> exists n, t = TNum n) /\
    match only with None => True | Some is => In i is end.
(** The body consists of properly nested constructs and a final end. *)
Definition nests (body : list low) : Prop := exists l, body = l ++ [LEnd] /\ well_nested l.
(** The final end is there, but closes a construct: more would have to follow. *)
Definition unclosed (body : list low) : Prop := exists l rest, body = l ++ [LEnd] /\ ~ well_nested l /\ well_nested (l ++ rest).

(** ** Proofs *)
Section Errors.
  Variable infer : nat -> list low -> option (list ity).
  Hypothesis Lengths : forall i, same_length_oracle (infer i).
  Variable m : module.
  Variable only : option (list nat).

  Lemma looked_at_selected i : selected m only i = true <-> exists body, looked_at m only i body.
  Proof using.
    unfold selected, looked_at, uses_refs. split.
    - destruct (nth_error (md_funcs m) i) as [fn|]; [|discriminate]. unfold has_code. destruct (fn_code fn) as [|locals body] eqn:C; [discriminate|].
      cbn [andb]. intros H. apply andb_prop in H as (H & Q). exists body, fn, locals. split; [reflexivity|]. split; [exact C|]. split.
      + intros t J. apply negb_true_iff, orb_false_iff in H as (H1 & H2). destruct t as [n|r]; [eauto|]. exfalso. apply in_app_or in J as [J|J].
        * assert (X : existsb is_ref (ft_in (fn_type fn)) = true) by (apply existsb_exists; eauto). congruence.
        * assert (X : existsb is_ref (ft_out (fn_type fn)) = true) by (apply existsb_exists; eauto). congruence.
      + unfold requested in Q. destruct only; [|exact Logic.I]. apply existsb_exists in Q as (j & J & Q). apply Nat.eqb_eq in Q. now subst j.
    - intros (body & fn & locals & N & C & T & O). rewrite N. unfold has_code. rewrite C. cbn [andb]. apply andb_true_intro. split.
      + apply negb_true_iff, orb_false_iff. split; apply not_true_is_false; intros X; apply existsb_exists in X as (t & J & R);
          (destruct (T t) as (n & ->); [apply in_or_app; auto|discriminate R]).
      + unfold requested. destruct only; [|reflexivity]. apply existsb_exists. exists i. split; [exact O|apply Nat.eqb_refl].
  Qed.
  Lemma structure_all_cases is : (forall i, In i is -> selected m only i = true) ->
    match structure_all infer m is with
    | COk _ => forall i body, In i is -> looked_at m only i body -> exists b, structure_typed i (infer i) body = COk b
    | CErr e => exists i body, looked_at m only i body /\ structure_typed i (infer i) body = CErr e
    | CPanic => exists i body, looked_at m only i body /\ structure_typed i (infer i) body = CPanic
    end.
  Proof using.
    induction is as [|i r IH]; intros Sl; [intros i body []|].
    destruct (proj1 (looked_at_selected i) (Sl i (or_introl eq_refl))) as (body & fn & locals & N & C & La). cbn [structure_all]. rewrite N.
    destruct fn as [ft code ex]. cbn [fn_code] in C. subst code.
    assert (At : looked_at m only i body) by (eexists; eexists; split; [exact N|]; split; [reflexivity|exact La]).
    destruct (structure_typed i (infer i) body) as [b|e|] eqn:St; [|now exists i, body..].
    specialize (IH (fun j J => Sl j (or_intror J))). destruct (structure_all infer m r) as [bs|e|]; [|exact IH..].
    intros j body' [<-|J] At'; [|now apply IH].
    destruct At' as (fn' & locals' & N' & C' & _). rewrite N in N'. injection N' as <-. cbn [fn_code] in C'. injection C' as _ <-. eauto.
  Qed.
  Variables ord_i ord_c : list nat -> list nat.
  Hypothesis Pc : forall l, Permutation (ord_c l) l.
  Variable ai : interface.
  Notation result := (instrument ord_i ord_c infer m ai only).
  Lemma instrument_cases :
    match result with
    | IOk _ _ => forall i body, looked_at m only i body -> exists b, structure_typed i (infer i) body = COk b
    | IErr e => exists i body, looked_at m only i body /\ structure_typed i (infer i) body = CErr e
    | IPanic => (forall i body, looked_at m only i body -> exists b, structure_typed i (infer i) body = COk b) \/
        exists i body, looked_at m only i body /\ structure_typed i (infer i) body = CPanic
    end.
  Proof using Pc.
    unfold instrument. set (is_c := ord_c (filter (selected m only) (indices m))).
    assert (Sl : forall i, In i is_c <-> selected m only i = true).
    { intros i. rewrite <- selected_In. split; apply Permutation_in; [apply Pc|apply Permutation_sym, Pc]. }
    pose proof (@structure_all_cases is_c (fun i J => proj1 (Sl i) J)) as H.
    destruct (structure_all infer m is_c) as [bodies|e|]; [|exact H|right; exact H].
    assert (H' : forall i body, looked_at m only i body -> exists b, structure_typed i (infer i) body = COk b).
    { intros i body At. apply H; [|exact At]. apply Sl, looked_at_selected. eauto. }
    repeat match goal with |- context [match ?x with Some _ => _ | None => _ end] => destruct x as [[]|] end; auto;
    repeat match goal with |- context [match ?x with (_, _) => _ end] => destruct x end; auto;
    repeat match goal with |- context [match ?x with Some _ => _ | None => _ end] => destruct x as [[]|] end; auto;
    repeat match goal with |- context [match ?x with (_, _) => _ end] => destruct x end; auto.
  Qed.
  Lemma typed_iff i body : (exists b, structure_typed i (infer i) body = COk b) <-> infer i body <> None /\ nests body.
  Proof using Lengths. exact (typed_accepts_iff i body (@Lengths i)). Qed.
  Lemma typed_panics i body : structure_typed i (infer i) body = CPanic -> infer i body <> None /\ unclosed body.
  Proof using Lengths. exact (proj1 (typed_panics_iff i body (@Lengths i))). Qed.
  Lemma nests_dec i body : infer i body <> None -> nests body \/ ~ nests body.
  Proof using Lengths.
    intros N. destruct (structure_typed i (infer i) body) as [b|e|] eqn:St.
    - left. apply (proj1 (typed_iff i body)). eauto.
    - right. intros Q. destruct (proj2 (typed_iff i body) (conj N Q)) as (b & St'). congruence.
    - right. intros Q. destruct (proj2 (typed_iff i body) (conj N Q)) as (b & St'). congruence.
  Qed.

  (** An error blames a body that is looked at, for what is wrong with it. *)
  Theorem C92_blames : forall e, result = IErr e -> exists i body, looked_at m only i body /\
    ((e = ETypeInference /\ infer i body = None) \/
     (infer i body <> None /\ ~ nests body /\ ~ unclosed body /\ (e = EBodyNonEndTermination \/ e = EIfDidNotPrecedeElse \/ e = EExcessiveEnd))).
  Proof.
    intros e R. pose proof instrument_cases as H. rewrite R in H. destruct H as (i & body & At & St). exists i, body. split; [exact At|].
    destruct (typed_errors i body (@Lengths i) St) as [H|(N & H)]; [now left|]. right. split; [exact N|]. split; [|split; [|exact H]].
    - intros Q. destruct (proj2 (typed_iff i body) (conj N Q)) as (b & St'). congruence.
    - intros Q. pose proof (proj2 (typed_panics_iff i body (@Lengths i)) (conj N Q)). congruence.
  Qed.
  (** If no body that is looked at leaves a construct open, an error is reported exactly if the type checker rejects one of them or one is not nested. *)
  Theorem C92_reports : (forall i body, looked_at m only i body -> ~ unclosed body) ->
    (exists e, result = IErr e) <-> exists i body, looked_at m only i body /\ (infer i body = None \/ ~ nests body).
  Proof.
    intros NU. split.
    - intros (e & R). destruct (C92_blames R) as (i & body & At & [(_ & H)|(_ & H & _)]); eauto.
    - intros (i & body & At & F). pose proof instrument_cases as H.
      assert (No : ~ exists b, structure_typed i (infer i) body = COk b) by (rewrite typed_iff; tauto).
      destruct result as [m' lib|e|]; [|eauto|].
      + destruct No. eauto.
      + destruct H as [H|(j & body' & At' & St)]; [destruct No; eauto|]. exfalso. apply (NU j body' At'). apply (typed_panics _ _ St).
  Qed.
  (** A binary that decodes has nested bodies: then the only error is that of the type checker. *)
  Theorem C92_type_errors : (forall i body, looked_at m only i body -> nests body) ->
    forall e, result = IErr e <-> e = ETypeInference /\ exists i body, looked_at m only i body /\ infer i body = None.
  Proof.
    intros NE e. split.
    - intros R. destruct (C92_blames R) as (i & body & At & [(Q & H)|(_ & H & _)]); [eauto|]. destruct H. eauto.
    - intros (-> & i & body & At & F). pose proof instrument_cases as H.
      assert (No : ~ exists b, structure_typed i (infer i) body = COk b) by (rewrite typed_iff; tauto).
      destruct result as [m' lib|e|] eqn:R; [destruct No; eauto| |].
      + destruct (C92_blames R) as (j & body' & At' & [(-> & _)|(_ & Q & _)]); [reflexivity|]. destruct Q. eauto.
      + destruct H as [H|(j & body' & At' & St)]; [destruct No; eauto|].
        destruct (typed_panics _ _ St) as (N & l & rest & -> & Q & _). destruct (NE _ _ At') as (l' & El & W). apply app_inj_tail in El as (-> & _). contradiction.
  Qed.
  (** A module with such a body is never instrumented. *)
  Theorem C92_no_output : forall i body, looked_at m only i body -> infer i body = None \/ ~ nests body -> forall m' lib, result <> IOk m' lib.
  Proof.
    intros i body At F m' lib R. pose proof instrument_cases as H. rewrite R in H. destruct (proj1 (typed_iff i body) (H i body At)). tauto.
  Qed.
End Errors.
Print Assumptions C92_blames.
Print Assumptions C92_reports.
Print Assumptions C92_type_errors.
Print Assumptions C92_no_output.

(** ** Examples: a module with a good function, one the type checker rejects and one with an [else] without [if]. *)
Definition faulty_module : module :=
  Mod [Fn (FT [] []) (FPresent [] [LBlock (FT [] []); LBasic BNop; LEnd; LEnd]) []; Fn (FT [] [t_i32]) (FPresent [] [LEnd]) ["bad"];
       Fn (FT [] []) (FPresent [] [LElse; LEnd]) []] [] [] [] [] [] None.
(** The second function gives no result. *)
Definition faulty_infer (i : nat) (l : list low) : option (list ity) := if Nat.eqb i 1 then None else Some (map (fun _ => IReach (FT [] [])) l).
Lemma faulty_lengths i : same_length_oracle (faulty_infer i).
Proof. intros l tys. unfold faulty_infer. destruct (Nat.eqb i 1); [discriminate|]. intros H. injection H as <-. apply map_length. Qed.
Lemma else_not_nested : ~ nests [LElse; LEnd].
Proof.
  intros H. destruct (proj2 (typed_accepts_iff 2 [LElse; LEnd] (faulty_lengths 2))) as (b & E); [split; [discriminate|exact H]|discriminate E].
Qed.
Example C92_faulty :
  let run := instrument ex_id ex_id faulty_infer faulty_module (interface_from []) in
  looked_at faulty_module None 1 [LEnd] /\ looked_at faulty_module (Some [0; 2]) 2 [LElse; LEnd] /\
  run None = IErr ETypeInference /\ run (Some [1]) = IErr ETypeInference /\ run (Some [0; 2]) = IErr EIfDidNotPrecedeElse /\
  (exists m', run (Some [0]) = IOk m' None) /\
  (forall ord_i ord_c, (forall l, Permutation (ord_c l) l) -> forall hs, exists e, instrument ord_i ord_c faulty_infer faulty_module (interface_from hs) (Some [1; 0]) = IErr e).
Proof.
  intros run. assert (A1 : forall only, match only with None => True | Some is => In 1 is end -> looked_at faulty_module only 1 [LEnd]).
  { intros only O. eexists. eexists. split; [reflexivity|]. split; [reflexivity|]. split; [|exact O]. cbn. intros t [<-|[]]. unfold t_i32. eauto. }
  split; [now apply A1|]. split.
  { eexists. eexists. split; [reflexivity|]. split; [reflexivity|]. split; [intros t []|]. cbn. tauto. }
  split; [reflexivity|]. split; [reflexivity|]. split; [reflexivity|]. split; [eexists; reflexivity|].
  intros ord_i ord_c P hs. apply (@C92_reports faulty_infer faulty_lengths faulty_module (Some [1; 0]) ord_i ord_c P).
  - intros i body (fn & locals & N & C & _ & J) (l & rest & E & W & W2). cbn in J. destruct J as [<-|[<-|[]]].
    + injection N as <-. injection C as _ <-. destruct l as [|x [|y l]]; [|discriminate E..]. apply W. constructor.
    + injection N as <-. injection C as _ <-. change ([LBlock (FT [] []); LBasic BNop; LEnd] ++ [LEnd] = l ++ [LEnd]) in E. apply app_inj_tail in E as (<- & _).
      destruct (proj1 (typed_accepts_iff 0 [LBlock (FT [] []); LBasic BNop; LEnd; LEnd] (faulty_lengths 0))) as (_ & l & E & H); [eexists; reflexivity|].
      change ([LBlock (FT [] []); LBasic BNop; LEnd] ++ [LEnd] = l ++ [LEnd]) in E. apply app_inj_tail in E as (<- & _). contradiction.
  - exists 1, [LEnd]. split; [apply A1; now left|]. left. reflexivity.
Qed.
