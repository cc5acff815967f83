(** Programs edited at their decisions: code inserted before [select], [if], [br_if], [br_table] and [call_indirect] (towards C90). *)
From Verif Require Import Semantics Advice Nesting NestingProofs RunLemmas Instrument Instantiate Interface Typing ModuleTyping.
Local Open Scope string_scope.
Local Open Scope list_scope.
Local Open Scope res_scope.

(** ** The edited program (specification) *)
Section Edited.
  (** The code inserted before the instructions a hook is about. *)
  Variable edit : hook -> list basic.
  (** Before an instruction without a body. *)
  Definition before_basic (b : basic) : list basic :=
    match b with
    | BSelect | BTypedSelect _ => edit HkSelect
    | BBrIf _ => edit HkBrIf
    | BBrTable _ _ => edit HkBrTable
    | BCallIndirect _ _ => edit HkCallIndPre
    | _ => []
    end.
  (** The edited structured body. *)
  Fixpoint edited1 (i : uinstr) : list uinstr :=
    match i with
    | UBasic b => map UBasic (before_basic b) ++ [i]
    | UBlock ft body => [UBlock ft (flat_map edited1 body)]
    | ULoop ft body => [ULoop ft (flat_map edited1 body)]
    | UIf ft thn None => map UBasic (edit HkIfThen) ++ [UIf ft (flat_map edited1 thn) None]
    | UIf ft thn (Some els) => map UBasic (edit HkIfThenElse) ++ [UIf ft (flat_map edited1 thn) (Some (flat_map edited1 els))]
    end.
  (** The same for a sequence. *)
  Definition edited (b : list uinstr) : list uinstr := flat_map edited1 b.
  (** The edited flat body. *)
  Definition edited_body (l : list low) : list low :=
    match structure_untyped l with COk b => uflatten (edited b) | _ => l end.
  (** The same for a function; imports are left alone. *)
  Definition edited_func (fn : func) : func :=
    match fn_code fn with
    | FPresent locals body => Fn (fn_type fn) (FPresent locals (edited_body body)) (fn_exports fn)
    | FImport _ _ => fn
    end.
  (** The functions the instrumentation is asked to treat are edited. *)
  Fixpoint edited_from (which : nat -> bool) (k : nat) (fs : list func) : list func :=
    match fs with [] => [] | fn :: r => (if which k then edited_func fn else fn) :: edited_from which (S k) r end.
  (** The same for a module. *)
  Definition edited_module (m : module) (only : option (list nat)) : module :=
    set_funcs m (edited_from (selected m only) 0 (md_funcs m)).
End Edited.

(** The hooks about decisions. *)
Definition decision (h : hook) : bool :=
  match h with HkSelect | HkIfThen | HkIfThenElse | HkBrIf | HkBrTable | HkCallIndPre => true | _ => false end.

(** ** Lemmas *)
Lemma edited_nth edit which fs : forall k i, nth_error (edited_from edit which k fs) i =
  option_map (fun fn => if which (k + i) then edited_func edit fn else fn) (nth_error fs i).
Proof.
  induction fs as [|fn r IH]; intros k [|i]; cbn [edited_from nth_error option_map]; try reflexivity.
  - now rewrite Nat.add_0_r.
  - rewrite IH. now replace (S k + i) with (k + S i) by (rewrite Nat.add_succ_r; reflexivity).
Qed.
Lemma edited_func_type edit fn : fn_type (edited_func edit fn) = fn_type fn.
Proof. unfold edited_func. now destruct (fn_code fn). Qed.
Lemma edited_func_exports edit fn : fn_exports (edited_func edit fn) = fn_exports fn.
Proof. unfold edited_func. now destruct (fn_code fn). Qed.
Lemma edited_export edit which fs name : forall k j, export_index j (edited_from edit which k fs) name = export_index j fs name.
Proof.
  induction fs as [|fn r IH]; intros k j; [reflexivity|]. cbn [edited_from export_index].
  rewrite IH. destruct (which k); [|reflexivity]. now rewrite edited_func_exports.
Qed.

Section Agree.
  Context {X : Type}.
  Notation store := (store X).
  Notation res := (res store).
  (** Whether the second run may use more fuel than the first, or only as much. *)
  Variable more : bool.
  (** Two runs that end alike, if neither is ill-formed and they end. *)
  Definition alike {A} (r r' : res A) : Prop :=
    r = Stuck \/ r' = Stuck \/ (if more then r = Oof else r' = Oof) \/ r' = r.
  Lemma alike_same {A} (r : res A) : alike r r. Proof. right. right. now right. Qed.
  Lemma alike_stuck {A} (r : res A) : alike r Stuck. Proof. right. now left. Qed.
  Lemma alike_bind {A B} (r r' : res A) (k k' : A -> res B) : alike r r' -> (forall a, alike (k a) (k' a)) -> alike (rbind r k) (rbind r' k').
  Proof.
    intros [->|[->|[H| ->]]] K; [now left|right; now left| |].
    - right. right. left. now destruct more; rewrite H.
    - destruct r; cbn [rbind]; auto using alike_same.
  Qed.
  Notation body := (list val -> list val -> store -> res (@conf X)).
  (** The same for bodies. *)
  Definition balike (f f' : body) : Prop := forall st ls s, alike (f st ls s) (f' st ls s).
  Lemma alike_andthen r r' (k k' : body) : alike r r' -> balike k k' -> alike (andthen r k) (andthen r' k').
  Proof. intros H K. apply alike_bind; [exact H|]. intros [[[[] ?] ?] ?]; [apply K|apply alike_same|apply alike_same]. Qed.
  Lemma balike_block f f' ft : balike f f' -> balike (run_block f ft) (run_block f' ft).
  Proof.
    intros H st ls s. apply alike_bind; [apply alike_same|]. intros [ps rest]. apply alike_bind; [apply H|].
    intros [[[[|[|l]|] ?] ?] ?]; apply alike_same.
  Qed.
  (** The fuel of the second run. *)
  Definition fuel' (n : nat) : nat := if more then S n else n.
  Lemma alike_iter f f' nin rest : balike f f' -> forall k ps ls s, alike (run_iter f k nin rest ps ls s) (run_iter f' (fuel' k) nin rest ps ls s).
  Proof.
    intros H. unfold fuel'. destruct more eqn:M.
    - induction k as [|k IH]; intros ps ls s; [right; right; left; now rewrite M|]. cbn [run_iter].
      apply alike_bind; [apply H|]. intros [[[[|[|l]|] st'] ls'] s']; try apply alike_same.
      apply alike_bind; [apply alike_same|]. intros [ps' ?]. apply IH.
    - induction k as [|k IH]; intros ps ls s; [apply alike_same|]. cbn [run_iter].
      apply alike_bind; [apply H|]. intros [[[[|[|l]|] st'] ls'] s']; try apply alike_same.
      apply alike_bind; [apply alike_same|]. intros [ps' ?]. apply IH.
  Qed.
  Lemma balike_loop f f' k ft : balike f f' -> balike (run_loop k f ft) (run_loop (fuel' k) f' ft).
  Proof. intros H st ls s. apply alike_bind; [apply alike_same|]. intros [ps rest]. now apply alike_iter. Qed.
  Lemma alike_invoke f f' ft locals args s : balike f f' -> alike (invoke f ft locals args s) (invoke f' ft locals args s).
  Proof. intros H. apply alike_bind; [apply H|]. intros [[[o st] ?] s']. apply alike_same. Qed.
  Lemma alike_run_x (export export' : string -> list val -> store -> res (list val * store)) p :
    (forall nm args s, alike (export nm args s) (export' nm args s)) -> forall s, alike (run_x export p s) (run_x export' p s).
  Proof.
    intros H. induction p as [vs| | |k IH|x m g k IH|name args k IH]; intros s; cbn [run_x]; try apply alike_same; auto.
    apply alike_bind; [apply H|]. intros [vs s']. apply IH.
  Qed.
  Lemma alike_import ext (export export' : string -> list val -> store -> res (list val * store)) ft ns name args s :
    (forall nm args s, alike (export nm args s) (export' nm args s)) ->
    alike (call_import ext export ft ns name args s) (call_import ext export' ft ns name args s).
  Proof. intros H. apply alike_bind; [now apply alike_run_x|]. intros [rs s']. apply alike_same. Qed.

  Variable num1 : unop -> Z -> option Z.
  Variable num2 : binop -> Z -> Z -> option Z.
  Variables ftype ftype' : nat -> option functy.
  Hypothesis FT : forall f, ftype' f = ftype f.
  Variables call call' : nat -> list val -> store -> res (list val * store).
  Hypothesis CA : forall f args s, alike (call f args s) (call' f args s).
  Notation exec := (exec num1 num2 ftype call).
  Notation exec' := (Semantics.exec num1 num2 ftype' call').
  Lemma alike_do_call f ft st ls s : alike (do_call call f ft st ls s) (do_call call' f ft st ls s).
  Proof. apply alike_bind; [apply alike_same|]. intros [args st']. apply alike_bind; [apply CA|]. intros [rs s']. apply alike_same. Qed.
  Lemma balike_exec b : balike (exec b) (exec' b).
  Proof.
    intros st ls s. destruct b; try apply alike_same; cbn [Semantics.exec].
    - rewrite FT. apply alike_bind; [apply alike_same|]. intros ft. apply alike_do_call.
    - apply alike_bind; [apply alike_same|]. intros [i st']. apply alike_bind; [apply alike_same|]. intros tb.
      destruct (nth_error _ _) as [[g|]|]; try apply alike_same. rewrite FT. apply alike_bind; [apply alike_same|]. intros ft'.
      destruct (functy_eqb _ _); [apply alike_do_call|apply alike_same].
  Qed.
  Variable loops : nat.
  Notation run1 := (run1 num1 num2 ftype call loops).
  Notation run := (run num1 num2 ftype call loops).
  Notation run1' := (Semantics.run1 num1 num2 ftype' call' (fuel' loops)).
  Notation run' := (Semantics.run num1 num2 ftype' call' (fuel' loops)).
  (** A body as it is. *)
  Lemma balike_run b : balike (run b) (run' b).
  Proof.
    unfold Semantics.run. induction b as [|b r IHr|ft b r IHb IHr|ft b r IHb IHr|ft t r IHt IHr|ft t e r IHt IHe IHr] using ubody_ind;
      intros st ls s; cbn [run_seq Semantics.run1]; try apply alike_same; (apply alike_andthen; [|exact IHr]).
    - apply balike_exec.
    - now apply balike_block.
    - now apply balike_loop.
    - apply alike_bind; [apply alike_same|]. intros [c st']. destruct (c =? 0)%Z; [apply alike_same|now apply balike_block].
    - apply alike_bind; [apply alike_same|]. intros [c st']. destruct (c =? 0)%Z; now apply balike_block.
  Qed.

  (** ** An advised body and the edited one *)
  Variable edit : hook -> list basic.
  Variable on : hook -> bool.
  Hypothesis ON : forall h, on h = true -> decision h = true.
  Hypothesis OFF : forall h, on h = false -> edit h = [].
  Variable answer : hook -> Z -> Z.
  Variable hook_call : hook -> list val -> store -> res (list val * store).
  (** The hooks asked about an operand give the answer. *)
  Hypothesis HC : forall h c rest s, on h = true -> map typeof (vi32 c :: rest) = map TNum (trap_args h) ->
    alike (Ok ([vi32 (answer h c)], s)) (hook_call h (vi32 c :: rest) s).
  (** The inserted code computes it. *)
  Hypothesis ED : forall h c st ls s, on h = true -> run (map UBasic (edit h)) (vi32 c :: st) ls s = next (vi32 (answer h c) :: st) ls s.
  Hypothesis EW : forall h v st ls s, on h = true -> typeof v <> TNum TI32 -> run (map UBasic (edit h)) (v :: st) ls s = Stuck.
  Notation consult := (consult on hook_call).
  Notation advise := (advise num1 num2 on ftype' call' hook_call (fuel' loops)).
  Notation advised1 := (advised1 num1 num2 on ftype' call' hook_call (fuel' loops)).
  Notation advised := (advised num1 num2 on ftype' call' hook_call (fuel' loops)).
  Lemma consult_off h k cs m st ls s : decision h = false -> consult h k cs m st ls s = next st ls s.
  Proof. intros D. unfold Advice.consult. destruct (on h) eqn:O; [|reflexivity]. rewrite (ON O) in D. discriminate D. Qed.
  Lemma alike_consult h cs m st ls s : map TNum (trap_args h) = TNum TI32 :: map typeof (cs ++ loc m) ->
    alike (run (map UBasic (edit h)) st ls s) (consult h 1 cs m st ls s).
  Proof.
    intros T. unfold Advice.consult. destruct (on h) eqn:O; [|rewrite (OFF O); apply alike_same].
    destruct st as [|v st]; [apply alike_stuck|]. change (popn 1 (v :: st)) with (Some ([v], st)). cbn [rget rbind app].
    assert (D : (exists c, v = vi32 c) \/ typeof v <> TNum TI32) by (destruct v as [[] z|]; [left; now exists z|right; discriminate..]).
    destruct D as [(c & ->)|D]; [|left; now rewrite EW]. rewrite ED by exact O.
    change (next (vi32 (answer h c) :: st) ls s) with
      (rbind (Ok ([vi32 (answer h c)], s) : res (list val * store)) (fun p => let (rs, s') := p in next (pushn rs st) ls s')).
    apply alike_bind; [|intros [rs s']; apply alike_same].
    apply HC; [exact O|]. cbn [map typeof vi32]. now rewrite T.
  Qed.
  Lemma decides b m st ls s :
    alike (run (map UBasic (before_basic edit b) ++ [UBasic b]) st ls s) (advise m b st ls s).
  Proof.
    assert (NB : forall h, decision h = false -> before_basic edit b = [] -> forall k cs,
              alike (run (map UBasic (before_basic edit b) ++ [UBasic b]) st ls s) (before num1 num2 on ftype' call' hook_call h k cs m b st ls s)).
    { intros h D Q k cs. rewrite Q. unfold before. rewrite consult_off by exact D. cbn [map app]. unfold Semantics.run.
      cbn [run_seq Semantics.run1]. rewrite andthen_next. apply balike_exec. }
    assert (NA : forall h, decision h = false -> before_basic edit b = [] -> forall k cs,
              alike (run (map UBasic (before_basic edit b) ++ [UBasic b]) st ls s) (after num1 num2 on ftype' call' hook_call h k cs m b st ls s)).
    { intros h D Q k cs. rewrite Q. unfold after. cbn [map app]. unfold Semantics.run. cbn [run_seq Semantics.run1].
      apply alike_andthen; [apply balike_exec|]. intros st' ls' s'. rewrite consult_off by exact D. apply alike_same. }
    assert (NE : before_basic edit b = [] -> alike (run (map UBasic (before_basic edit b) ++ [UBasic b]) st ls s) (exec' b st ls s)).
    { intros Q. rewrite Q. cbn [map app]. unfold Semantics.run. cbn [run_seq Semantics.run1]. rewrite andthen_next. apply balike_exec. }
    assert (NI : forall h, decision h = false -> before_basic edit b = [] -> forall k cs,
              alike (run (map UBasic (before_basic edit b) ++ [UBasic b]) st ls s) (instead_of num1 num2 on ftype' call' hook_call h k cs m b st ls s)).
    { intros h D Q k cs. unfold instead_of. destruct (on h) eqn:O; [rewrite (ON O) in D; discriminate D|]. now apply NE. }
    assert (YB : forall h cs, before_basic edit b = edit h -> map TNum (trap_args h) = TNum TI32 :: map typeof (cs ++ loc m) ->
              alike (run (map UBasic (before_basic edit b) ++ [UBasic b]) st ls s) (before num1 num2 on ftype' call' hook_call h 1 cs m b st ls s)).
    { intros h cs Q T. rewrite Q, run_app. apply alike_andthen; [now apply alike_consult|]. intros st' ls' s'.
      unfold Semantics.run. cbn [run_seq Semantics.run1]. rewrite andthen_next. apply balike_exec. }
    destruct b; unfold Advice.advise; try (now apply NE); try (now apply NB); try (now apply NA); try (now apply NI); try (now apply YB).
    - (* br_table *)
      destruct (on HkBrTable) eqn:O.
      + cbn [before_basic]. rewrite run_app.
        destruct st as [|v st]; [apply alike_stuck|].
        assert (D : (exists c, v = vi32 c) \/ typeof v <> TNum TI32) by (destruct v as [[] z|]; [left; now exists z|right; discriminate..]).
        destruct D as [(c & ->)|D]; [|left; now rewrite EW]. rewrite ED by exact O.
        cbn [pop_i32 vi32 rbind]. destruct (c <? 0)%Z; [apply alike_stuck|].
        destruct (fuel' loops) as [|n] eqn:F.
        { right. right. left. unfold fuel' in F. destruct more; [discriminate F|reflexivity]. }
        cbv zeta. cbn [andthen next rbind].
        assert (Q : run [UBasic (BBrTable table dflt)] (vi32 (answer HkBrTable c) :: st) ls s =
          rbind (Ok ([vi32 (answer HkBrTable c)], s) : res (list val * store)) (fun p => let (rs, s') := p in exec (BBrTable table dflt) (pushn rs st) ls s'))
          by (unfold Semantics.run; cbn [run_seq Semantics.run1]; now rewrite andthen_next).
        change (alike (run [UBasic (BBrTable table dflt)] (vi32 (answer HkBrTable c) :: st) ls s) (rbind
          (hook_call HkBrTable ([vi32 c; i32n (nth (Z.to_nat c) table dflt); i32n dflt] ++ loc m) s)
          (fun p => let (rs, s') := p in exec' (BBrTable table dflt) (pushn rs st) ls s'))).
        rewrite Q. apply alike_bind; [apply HC; [exact O|reflexivity]|]. intros [rs s']. apply balike_exec.
      + cbn [before_basic]. rewrite (OFF O). cbn [map app]. unfold Semantics.run. cbn [run_seq Semantics.run1]. rewrite andthen_next. apply balike_exec.
    - (* call *)
      rewrite <- (andthen_next (run _ st ls s)). apply alike_andthen; [now apply NB|]. intros st' ls' s'. rewrite consult_off by reflexivity. apply alike_same.
    - (* call_indirect *)
      rewrite <- (andthen_next (run _ st ls s)). apply alike_andthen; [now apply YB|]. intros st' ls' s'. rewrite consult_off by reflexivity. apply alike_same.
    - destruct o.
      + destruct (nth_error ls i) as [v|]; cbn [rget rbind]; [|apply alike_stuck]. destruct (annotated _ _); [|apply alike_stuck].
        destruct (typeof v); [now apply NA|now apply NE].
      + destruct (hd_error st) as [v|]; cbn [rget rbind]; [|apply alike_stuck]. destruct (annotated _ _); [|apply alike_stuck].
        destruct (typeof v); [now apply NB|now apply NE].
      + destruct (hd_error st) as [v|]; cbn [rget rbind]; [|apply alike_stuck]. destruct (annotated _ _); [|apply alike_stuck].
        destruct (typeof v); [now apply NB|now apply NE].
    - destruct o.
      + destruct (nth_error (st_globals s) i) as [v|]; cbn [rget rbind]; [|apply alike_stuck]. destruct (annotated _ _); [|apply alike_stuck].
        destruct (typeof v); [now apply NA|now apply NE].
      + destruct (hd_error st) as [v|]; cbn [rget rbind]; [|apply alike_stuck]. destruct (annotated _ _); [|apply alike_stuck].
        destruct (typeof v); [now apply NB|now apply NE].
    - destruct (binary_hook o) as [h|] eqn:B; [|apply alike_stuck].
      apply NI; [|reflexivity]. unfold binary_hook in B. destruct (binop_in o), (binop_out o); try discriminate B; injection B as <-; reflexivity.
  Qed.
  Lemma inside_off h h' m ft (f : body) : decision h = false -> decision h' = false -> forall st ls s,
    inside (consult h 0 (arities ft) m) (consult h' 0 [] m) f st ls s = f st ls s.
  Proof.
    intros D D' st ls s. unfold inside. rewrite consult_off by exact D. cbn [andthen next rbind].
    rewrite <- (andthen_next (f st ls s)) at 2. apply andthen_ext. intros. now rewrite consult_off.
  Qed.
  Lemma inside_post h' m (f : body) : decision h' = false -> forall st ls s, inside next (consult h' 0 [] m) f st ls s = f st ls s.
  Proof.
    intros D' st ls s. unfold inside. cbn [andthen next rbind].
    rewrite <- (andthen_next (f st ls s)) at 2. apply andthen_ext. intros. now rewrite consult_off.
  Qed.
  Lemma balike_eq f f' f1 : balike f f' -> (forall st ls s, f1 st ls s = f' st ls s) -> balike f f1.
  Proof. intros H E st ls s. rewrite E. apply H. Qed.
  Lemma balike_advised b : balike (run (edited edit (map strip b))) (advised b).
  Proof.
    unfold edited, Advice.advised.
    induction b as [|m b r IHr|m ft b r IHb IHr|m ft b r IHb IHr|m ft t r IHt IHr|m ft t e r IHt IHe IHr] using tbody_ind;
      intros st ls s; cbn [map flat_map strip edited1 option_map]; try rewrite run_app; cbn [run_seq Advice.advised1].
    - apply alike_same.
    - apply alike_andthen; [apply decides|exact IHr].
    - apply alike_andthen; [|exact IHr]. unfold Semantics.run at 1. cbn [run_seq Semantics.run1]. rewrite andthen_next.
      apply balike_block. eapply balike_eq; [exact IHb|]. now apply inside_off.
    - apply alike_andthen; [|exact IHr]. unfold Semantics.run at 1. cbn [run_seq Semantics.run1]. rewrite andthen_next.
      apply balike_loop. eapply balike_eq; [exact IHb|]. now apply inside_off.
    - apply alike_andthen; [|exact IHr]. rewrite run_app. apply alike_andthen; [now apply alike_consult|]. intros st' ls' s'.
      unfold Semantics.run at 1. cbn [run_seq Semantics.run1]. rewrite andthen_next.
      apply alike_bind; [apply alike_same|]. intros [c st1]. cbv zeta. destruct (c =? 0)%Z; apply balike_block.
      + eapply balike_eq; [intros ? ? ?; apply alike_same|]. intros. now apply consult_off.
      + eapply balike_eq; [exact IHt|]. now apply inside_post.
    - apply alike_andthen; [|exact IHr]. rewrite run_app. apply alike_andthen; [now apply alike_consult|]. intros st' ls' s'.
      unfold Semantics.run at 1. cbn [run_seq Semantics.run1]. rewrite andthen_next.
      apply alike_bind; [apply alike_same|]. intros [c st1]. cbv zeta. destruct (c =? 0)%Z; apply balike_block.
      + eapply balike_eq; [exact IHe|]. now apply inside_post.
      + eapply balike_eq; [exact IHt|]. now apply inside_post.
  Qed.
End Agree.

(** ** Whole programs *)
Section Whole.
  Context {X : Type}.
  Notation store := (store X).
  Notation res := (res store).
  Variable more : bool.
  Variable num1 : unop -> Z -> option Z.
  Variable num2 : binop -> Z -> Z -> option Z.
  Variable ext : string -> string -> list val -> xprog X.
  Variable infer : nat -> list low -> option (list ity).
  Variable m : module.
  Hypothesis AN : annotates infer m.
  Variable on : hook -> bool.
  Hypothesis ON : forall h, on h = true -> decision h = true.
  Variable only : option (list nat).
  Variable edit : hook -> list basic.
  Hypothesis OFF : forall h, on h = false -> edit h = [].
  Variable answer : hook -> Z -> Z.
  (** The analysis answers by a function of the operand and touches nothing. *)
  Definition answers : Prop := forall h c rest export s, on h = true -> map typeof (vi32 c :: rest) = map TNum (trap_args h) ->
    run_x export (ext analysis_ns (trap_name h) (vi32 c :: rest)) s = Ok ([vi32 (answer h c)], s) /\ (0 <= answer h c < 2 ^ 32)%Z.
  (** The inserted code leaves the answer in place of the operand, and fails on anything but an [i32]. *)
  Definition computes : Prop := forall h, on h = true -> forall ftype (call : nat -> list val -> store -> res (list val * store)) loops st ls s,
    (forall c, run num1 num2 ftype call loops (map UBasic (edit h)) (vi32 c :: st) ls s = next (vi32 (answer h c) :: st) ls s) /\
    (forall v, typeof v <> TNum TI32 -> run num1 num2 ftype call loops (map UBasic (edit h)) (v :: st) ls s = Stuck).
  Hypothesis AS : answers.
  Hypothesis CP : computes.
  Notation m1 := (edited_module edit m only).
  Notation spec := (spec num1 num2 ext infer m on false only []).
  Notation plain := (call_fn num1 num2 ext (md_funcs m1)).
  Notation fuel' := (fuel' more).
  Lemma m1_nth f : nth_error (md_funcs m1) f = option_map (fun fn => if selected m only f then edited_func edit fn else fn) (nth_error (md_funcs m) f).
  Proof. apply edited_nth. Qed.
  Lemma m1_type f : ftype_of (md_funcs m) f = ftype_of (md_funcs m1) f.
  Proof.
    unfold ftype_of. rewrite m1_nth. destruct (nth_error (md_funcs m) f) as [fn|]; [|reflexivity]. cbn [option_map].
    destruct (selected m only f); [now rewrite edited_func_type|reflexivity].
  Qed.
  Lemma trap_decision h : decision h = true -> trap_results h = [TI32].
  Proof. destruct h; (reflexivity || discriminate). Qed.
  Lemma stripped f fn locals body b : nth_error (md_funcs m) f = Some fn -> fn_code fn = FPresent locals body ->
    structure_typed f (infer f) body = COk b -> structure_untyped body = COk (map strip b).
  Proof.
    intros N C S. destruct (AN _ N C) as (tys & b' & I1 & L1 & S1 & _). rewrite S1 in S. injection S as <-.
    unfold structure_typed in S1. rewrite I1 in S1.
    rewrite <- (@index_from_ins f body 0 tys) by (now rewrite L1). rewrite structure_indexed_strip, S1. reflexivity.
  Qed.
  Lemma edited_calls n : forall f args s, alike more (plain n f args s) (spec (fuel' n) (CFun f) args s).
  Proof.
    assert (HC : forall n h c rest s, on h = true -> map typeof (vi32 c :: rest) = map TNum (trap_args h) ->
      alike more (Ok ([vi32 (answer h c)], s)) (spec (fuel' n) (CImport (wf_type (std_hook h)) analysis_ns (wf_name (std_hook h))) (vi32 c :: rest) s)).
    { intros k h c rest s O T. destruct (fuel' k) as [|j] eqn:F.
      { right. right. left. unfold Edit.fuel' in F. destruct more; [discriminate F|reflexivity]. }
      cbn [Advice.spec level].
      assert (FA : fits_args (wf_type (std_hook h)) (vi32 c :: rest) = true).
      { unfold fits_args. apply Nat.eqb_eq. rewrite <- (map_length typeof), T. unfold std_hook, wf_type. cbn [wf_args wf_results ft_in]. now rewrite !map_length. }
      rewrite FA. unfold call_import. cbn [std_hook wf_name].
      destruct (@AS h c rest (reenter m false (spec j)) s O T) as (R & B). rewrite R. cbn [rbind].
      assert (VO : vals_ok (ft_out (wf_type (std_hook h))) [vi32 (answer h c)] = true).
      { cbn [std_hook wf_type wf_results ft_out]. rewrite (trap_decision h (ON O)). unfold vals_ok. cbn.
        rewrite andb_true_r. apply andb_true_intro. split; [apply Z.leb_le|apply Z.ltb_lt]; apply B. }
      rewrite VO. apply alike_same. }
    induction n as [|n IH]; intros f args s.
    { unfold Edit.fuel'. destruct more eqn:M; [right; right; left; reflexivity|apply alike_same]. }
    assert (FS : fuel' (S n) = S (fuel' n)) by (unfold Edit.fuel'; now destruct more). rewrite FS.
    cbn [call_fn Advice.spec level]. rewrite m1_nth. destruct (nth_error (md_funcs m) f) as [fn|] eqn:N; [|apply alike_same].
    cbn [option_map rget rbind position].
    assert (T : fn_type (if selected m only f then edited_func edit fn else fn) = fn_type fn)
      by (destruct (selected m only f); [apply edited_func_type|reflexivity]).
    rewrite T. unfold fits_args. destruct (Nat.eqb _ _); [|apply alike_same].
    assert (EX : forall nm args s,
      alike more (rbind (rget (export_index 0 (md_funcs m1) nm)) (fun g => plain n g args s)) (reenter m false (spec (fuel' n)) nm args s)).
    { intros nm args' s'. unfold reenter, export_callee, edited_module, set_funcs. cbn [md_funcs]. rewrite edited_export.
      destruct (export_index 0 (md_funcs m) nm) as [g|]; cbn [rget rbind]; [apply IH|now left]. }
    unfold own. unfold edited_func. destruct (fn_code fn) as [ns name|locals body] eqn:C.
    - destruct (selected m only f); rewrite C; now apply alike_import.
    - destruct (selected m only f) eqn:Sel; cbn [fn_code].
      + destruct (structure_typed f (infer f) body) as [b| |] eqn:S; try apply alike_stuck.
        unfold edited_body. rewrite (stripped f N C S), structure_untyped_flatten.
        apply alike_invoke. apply balike_advised with (answer := answer); auto using m1_type.
        * intros h c rest s' O T'. now apply HC.
        * intros h c st ls s' O. now apply CP.
        * intros h v st ls s' O V. now apply CP.
      + rewrite C. destruct (structure_untyped body); try apply alike_same. apply alike_invoke. apply balike_run; auto using m1_type.
  Qed.
  Lemma edited_sessions n calls : forall s,
    alike more (session (fun name args s => rbind (rget (export_index 0 (md_funcs m1) name)) (fun f => plain n f args s)) calls s)
               (session (fun name args s => rbind (rget (export_callee m false name)) (fun c => spec (fuel' n) c args s)) calls s).
  Proof.
    induction calls as [|(name & args) calls IH]; intros s; [apply alike_same|]. cbn [session].
    assert (EX : alike more (rbind (rget (export_index 0 (md_funcs m1) name)) (fun g => plain n g args s))
                            (rbind (rget (export_callee m false name)) (fun c => spec (fuel' n) c args s))).
    { unfold export_callee, edited_module, set_funcs. cbn [md_funcs]. rewrite edited_export.
      destruct (export_index 0 (md_funcs m) name) as [g|]; cbn [rget rbind]; [apply edited_calls|now left]. }
    revert EX. match goal with |- alike _ ?a ?b -> _ => generalize a b end. intros r r' [->|[->|[Q| ->]]].
    - now left.
    - right. now left.
    - right. right. left. destruct more; now rewrite Q.
    - destruct r as [[vs s1]|s1| |]; try apply alike_same; (apply alike_bind; [apply IH|]); intros [os s2]; apply alike_same.
  Qed.
  Theorem edited_modules n imp x calls :
    alike more (run_module num1 num2 ext n imp m1 x calls) (spec_module num1 num2 ext infer on false only [] (fuel' n) imp m x calls).
  Proof.
    unfold run_module, spec_module. change (instantiate imp m1 x) with (instantiate imp m x).
    apply alike_bind; [apply alike_same|]. intros s. change (md_start m1) with (md_start m). apply alike_bind.
    - destruct (md_start m) as [f|]; [apply edited_calls|apply alike_same].
    - intros [vs s1]. apply edited_sessions.
  Qed.
End Whole.
