(** Property theorems about an intercepted call, from the program through the generated buffer
    library to the analysis and back: C17 (protocol) and C36 (accessors of the analysis library). *)
From Coq Require Import Permutation.
From Verif Require Import Semantics Advice WeaveSpec RunLemmas AdviceRel InstrumentProofs ImportProofs SpecProofs Instantiate InstantiateProofs
  RsStdlib StackLib StackNames StackRun StackOps StackSpec StackHist PropStack System SystemProofs AccessProofs ExModule PropSpec.
Local Open Scope string_scope.
Local Open Scope list_scope.
Local Open Scope res_scope.

(** ** States of the library
    [library sigs frs ifs l]: in state [l] of the library the buffers of the calls in progress are
    [frs] (innermost first; signature, value buffer, type buffer) and hold [ifs]. What this means:
    every history of calls, reads and writes from there on sees what a stack of separate frames
    with that content would show, and ends in such a state. *)
Theorem C36_library_behaves : forall num1 num2 sigs N frs ifs l es obs ifs', (70010 <= Z.of_nat N)%Z ->
  library sigs frs ifs l -> ideal es ifs = Some (obs, ifs') -> uses_only sigs es ->
  (peak es (map if_type ifs) <= limit)%Z ->
  exists vs frs' l', perform (wat_lib num1 num2 sigs N) es frs l = Ok (vs, frs', l') /\
    Forall2 sees obs vs /\ library sigs frs' ifs' l'.
Proof.
  intros num1 num2 sigs N frs ifs l es obs ifs' Big (p & pg & f & -> & I) E U Pk.
  destruct (@history_ok unit num1 num2 no_agent sigs N es frs ifs obs ifs' tt p pg f Big I E U (or_intror Pk))
    as [(vs & frs' & p' & pg' & f' & A & B & C & _)|(s & _ & Lt)]; [|lia].
  exists vs, frs', (L tt p' pg' f'). split; [exact A|]. split; [exact B|]. exists p', pg', f'. auto.
Qed.
Print Assumptions C36_library_behaves.
(** The library is so when it is instantiated. *)
Theorem C36_library_starts : forall sigs, exists lm s,
  lib_module sigs = Some lm /\ instantiate no_imports lm tt = Ok s /\ library sigs [] [] s.
Proof.
  intros sigs. destruct (@lib_starts unit tt sigs) as (lm & A & B & _). exists lm, (lib_start tt).
  split; [exact A|]. split; [exact B|]. exists 0%Z, 1%Z, (fun _ => 0%Z). split; [reflexivity|]. apply start_inv.
Qed.
Print Assumptions C36_library_starts.

(** C17 and the rest of C36 hold of any library that implements these operations; the library
    generated as WebAssembly text does. *)
Theorem C36_library_implements : forall num1 num2 sigs N, (70010 <= Z.of_nat N)%Z ->
  implements sigs (wat_lib num1 num2 sigs N) (library sigs) limit True.
Proof. intros. now apply wat_implements. Qed.
Print Assumptions C36_library_implements.

(** ** C36: what the analysis reads and writes *)
Section Accessors.
  Context {Y : Type}.
  Variable sigs : list functy.
  Variable lc : lib_code.
  Variable library : lib_states.
  Variable limit : Z.
  Variable stops : Prop.
  Hypothesis IM : implements sigs lc library limit stops.
  Notation agent := (@lib_agent Y lc).
  Notation store := (store (sys Y)).

  (** [RuntimeValues::new] on the buffers of a call in progress yields its counts, its buffer and
      the types of its results and arguments. *)
  Theorem C36_values_of_call :
    forall export frs ifs d ifr q qt (s : store),
    library frs ifs (fst (st_x s)) -> nth_error ifs d = Some ifr -> nth_error frs d = Some (if_type ifr, q, qt) ->
    let ft := if_type ifr in
    exists rv l, library frs ifs l /\
      map TNum (rv_types rv) = ft_out ft ++ ft_in ft /\
      rv_argc rv = Z.of_nat (List.length (ft_in ft)) /\ rv_resc rv = Z.of_nat (List.length (ft_out ft)) /\ rv_sigv rv = q /\
      forall k, run_x export (runtime_values_new agent (Z.of_nat (List.length (ft_in ft))) (Z.of_nat (List.length (ft_out ft))) q qt k) s
                = run_x export (k rv) (with_lib s l).
  Proof.
    intros export frs ifs d ifr q qt s I Ed Ef ft.
    destruct (@lib_frame sigs lc library limit stops IM frs ifs _ d ifr I Ed) as (_ & _ & _ & _ & _ & _ & Nu & _).
    destruct (@values_new Y sigs lc library limit stops IM export frs ifs d ifr q qt Ed Ef s Nu I) as (l & I' & E).
    exists (values_of ft q), l. split; [exact I'|]. split; [|repeat split; exact E].
    destruct (num_sig _ Nu) as [No Ni]. symmetry. apply nums_numeric. unfold numeric in *. unfold ft. now rewrite existsb_app, No, Ni.
  Qed.

  (** A [RuntimeValues] that describes a buffer of signature [ft] at [q]. *)
  Definition describes (rv : runtime_values) (ft : functy) (q : Z) : Prop :=
    map TNum (rv_types rv) = ft_out ft ++ ft_in ft /\
    rv_argc rv = Z.of_nat (List.length (ft_in ft)) /\ rv_resc rv = Z.of_nat (List.length (ft_out ft)) /\ rv_sigv rv = q.
  Lemma describes_is rv ft q : describes rv ft q -> rv = values_of ft q.
  Proof.
    intros (T & A & R & Q). destruct rv as [a r p ts]. cbn in *. subst. unfold values_of. f_equal.
    rewrite <- T. clear. induction ts; cbn; congruence.
  Qed.

  (** Reading: argument [i] is the slot the program's argument [i] is in, result [i] likewise. *)
  Theorem C36_reads :
    forall export frs ifs d ifr q qt rv (s : store) i o,
    library frs ifs (fst (st_x s)) -> nth_error ifs d = Some ifr -> nth_error frs d = Some (if_type ifr, q, qt) ->
    describes rv (if_type ifr) q ->
    (nth_error (if_args ifr) i = Some o ->
       exists v l, run_x export (get_arg agent rv (Z.of_nat i)) s = Ok ([v], with_lib s l) /\ library frs ifs l /\ sees o v) /\
    (nth_error (if_rets ifr) i = Some o ->
       exists v l, run_x export (get_res agent rv (Z.of_nat i)) s = Ok ([v], with_lib s l) /\ library frs ifs l /\ sees o v).
  Proof.
    intros export frs ifs d ifr q qt rv s i o I Ed Ef D. rewrite (describes_is D). split; intros Eo.
    - exact (@read_ok Y sigs lc library limit stops IM export frs ifs d ifr q qt Ed Ef SArg i o s I Eo).
    - exact (@read_ok Y sigs lc library limit stops IM export frs ifs d ifr q qt Ed Ef SRet i o s I Eo).
  Qed.
  (** Writing a value of the slot's type replaces that slot of that frame and nothing else. *)
  Theorem C36_writes :
    forall export frs ifs d ifr q qt rv (s : store) i v,
    library frs ifs (fst (st_x s)) -> nth_error ifs d = Some ifr -> nth_error frs d = Some (if_type ifr, q, qt) ->
    describes rv (if_type ifr) q ->
    (ok_for (ft_in (if_type ifr)) i v = true ->
       exists l, run_x export (set_arg agent rv (Z.of_nat i) v) s = Ok ([], with_lib s l) /\
         library frs (set_nth d (IF (if_type ifr) (if_rets ifr) (set_nth i (Some v) (if_args ifr))) ifs) l) /\
    (ok_for (ft_out (if_type ifr)) i v = true ->
       exists l, run_x export (set_res agent rv (Z.of_nat i) v) s = Ok ([], with_lib s l) /\
         library frs (set_nth d (IF (if_type ifr) (set_nth i (Some v) (if_rets ifr)) (if_args ifr)) ifs) l).
  Proof.
    intros export frs ifs d ifr q qt rv s i v I Ed Ef D. rewrite (describes_is D). split; intros Ov.
    - exact (@write_ok Y sigs lc library limit stops IM export frs ifs d ifr q qt Ed Ef SArg i v s I Ov).
    - exact (@write_ok Y sigs lc library limit stops IM export frs ifs d ifr q qt Ed Ef SRet i v s I Ov).
  Qed.
  (** Indices out of bounds panic before the library is called: the store is not touched. *)
  Theorem C36_rejects : forall export rv ft q (s : store) i v, describes rv ft q ->
    ((i < 0 \/ Z.of_nat (List.length (ft_in ft)) <= i)%Z ->
       run_x export (get_arg agent rv i) s = Trap s /\ run_x export (set_arg agent rv i v) s = Trap s /\ get_arg_type rv i = None) /\
    ((i < 0 \/ Z.of_nat (List.length (ft_out ft)) <= i)%Z ->
       run_x export (get_res agent rv i) s = Trap s /\ run_x export (set_res agent rv i v) s = Trap s /\ get_res_type rv i = None).
  Proof.
    intros export rv ft q s i v (_ & A & R & _).
    unfold get_arg, set_arg, get_res, set_res, get_arg_type, get_res_type, check_bounds. rewrite A, R.
    split; intros B;
      (destruct (Z.ltb_spec i 0); [repeat split|]);
      match goal with |- context [(?c <=? i)%Z] => destruct (Z.leb_spec c i); [repeat split|lia] end.
  Qed.
  (** The types reported are those of the parameters and results. *)
  Theorem C36_types : forall rv ft q i, describes rv ft q ->
    option_map TNum (get_arg_type rv (Z.of_nat i)) = nth_error (ft_in ft) i /\
    option_map TNum (get_res_type rv (Z.of_nat i)) = nth_error (ft_out ft) i.
  Proof.
    intros rv ft q i (T & A & R & _). unfold get_arg_type, get_res_type, arg_base, res_base. rewrite A, R.
    destruct (Z.ltb_spec (Z.of_nat i) 0); [lia|]. cbn [orb]. split.
    - destruct (Z.leb_spec (Z.of_nat (List.length (ft_in ft))) (Z.of_nat i)).
      + symmetry. apply nth_error_None. lia.
      + rewrite <- nth_error_map, T, <- Nat2Z.inj_add, Nat2Z.id, nth_error_app2 by lia. f_equal. lia.
    - destruct (Z.leb_spec (Z.of_nat (List.length (ft_out ft))) (Z.of_nat i)).
      + symmetry. apply nth_error_None. lia.
      + rewrite <- nth_error_map, T, Z.add_0_l, Nat2Z.id, nth_error_app1 by lia. reflexivity.
  Qed.
  (** The iterators yield all arguments (results) in order, once. *)
  Theorem C36_iterates :
    forall export frs ifs d ifr q qt rv (s : store),
    library frs ifs (fst (st_x s)) -> nth_error ifs d = Some ifr -> nth_error frs d = Some (if_type ifr, q, qt) ->
    describes rv (if_type ifr) q ->
    (exists vs l, Forall2 sees (if_args ifr) vs /\ library frs ifs l /\
       forall k, run_x export (args_iter agent rv k) s = run_x export (k vs) (with_lib s l)) /\
    (exists vs l, Forall2 sees (if_rets ifr) vs /\ library frs ifs l /\
       forall k, run_x export (ress_iter agent rv k) s = run_x export (k vs) (with_lib s l)).
  Proof.
    intros export frs ifs d ifr q qt rv s I Ed Ef D. rewrite (describes_is D).
    destruct (@lib_frame sigs lc library limit stops IM frs ifs _ d ifr I Ed) as (_ & _ & _ & _ & _ & _ & Nu & Lr & La & _).
    split.
    - destruct (@iterate_ok Y sigs lc library limit stops IM export frs ifs d ifr q qt Ed Ef SArg (if_args ifr) 0 [] s I) as (vs & l & A & B & C); [auto|].
      exists vs, l. split; [exact A|]. split; [exact B|]. intros k. unfold args_iter, arg_base. cbn [rv_argc rv_resc values_of].
      rewrite Nat2Z.id, <- La. specialize (C k). cbn [number] in C. now rewrite Nat.add_0_r in C.
    - destruct (@iterate_ok Y sigs lc library limit stops IM export frs ifs d ifr q qt Ed Ef SRet (if_rets ifr) 0 [] s I) as (vs & l & A & B & C); [auto|].
      exists vs, l. split; [exact A|]. split; [exact B|]. intros k. unfold ress_iter, res_base. cbn [rv_argc rv_resc values_of].
      rewrite Nat2Z.id, <- Lr. exact (C k).
  Qed.
  (** Bulk update replaces every argument (result) by what [f] makes of its number and value. *)
  Definition made (f : Z -> val -> val) (vs : list val) : list val := map (fun p => f (Z.of_nat (fst p)) (snd p)) (combine (seq 0 (List.length vs)) vs).
  Lemma made_updated f vs : updated f 0 vs = made f vs.
  Proof.
    unfold made. generalize 0. induction vs as [|v vs IH]; intros k; [reflexivity|]. cbn. now rewrite IH.
  Qed.
  Theorem C36_updates :
    forall export frs ifs d ifr q qt rv (s : store) f,
    library frs ifs (fst (st_x s)) -> nth_error ifs d = Some ifr -> nth_error frs d = Some (if_type ifr, q, qt) ->
    describes rv (if_type ifr) q ->
    ((forall i o v, nth_error (if_args ifr) i = Some o -> sees o v -> ok_for (ft_in (if_type ifr)) i (f (Z.of_nat i) v) = true) ->
     exists vs l, Forall2 sees (if_args ifr) vs /\ run_x export (update_each_arg agent rv f) s = Ok ([], with_lib s l) /\
       library frs (set_nth d (IF (if_type ifr) (if_rets ifr) (map Some (made f vs))) ifs) l) /\
    ((forall i o v, nth_error (if_rets ifr) i = Some o -> sees o v -> ok_for (ft_out (if_type ifr)) i (f (Z.of_nat i) v) = true) ->
     exists vs l, Forall2 sees (if_rets ifr) vs /\ run_x export (update_each_res agent rv f) s = Ok ([], with_lib s l) /\
       library frs (set_nth d (IF (if_type ifr) (map Some (made f vs)) (if_args ifr)) ifs) l).
  Proof.
    intros export frs ifs d ifr q qt rv s f I Ed Ef D. rewrite (describes_is D).
    destruct (@lib_frame sigs lc library limit stops IM frs ifs _ d ifr I Ed) as (_ & _ & _ & _ & _ & _ & Nu & Lr & La & _).
    split; intros H.
    - destruct (@update_ok Y sigs lc library limit stops IM export SArg f (if_args ifr) frs ifs d ifr q qt 0 s [] Ed Ef I eq_refl eq_refl H) as (vs & l & A & B & C).
      exists vs, l. split; [exact A|]. rewrite <- made_updated. split; [|exact C].
      unfold update_each_arg. cbn [rv_argc values_of]. rewrite Nat2Z.id, <- La. exact B.
    - destruct (@update_ok Y sigs lc library limit stops IM export SRet f (if_rets ifr) frs ifs d ifr q qt 0 s [] Ed Ef I eq_refl eq_refl H) as (vs & l & A & B & C).
      exists vs, l. split; [exact A|]. rewrite <- made_updated. split; [|exact C].
      unfold update_each_res. cbn [rv_resc values_of]. rewrite Nat2Z.id, <- Lr. exact B.
  Qed.
End Accessors.
Print Assumptions C36_values_of_call.
Print Assumptions C36_reads.
Print Assumptions C36_writes.
Print Assumptions C36_rejects.
Print Assumptions C36_types.
Print Assumptions C36_iterates.
Print Assumptions C36_updates.

(** ** C17 *)
(** The exports of a module, as the analysis calls them. *)
Definition exported {X} (fs : list func) (call : nat -> list val -> store X -> res (store X) (list val * store X))
    (name : string) (args : list val) (s : store X) : res (store X) (list val * store X) :=
  let* g := rget (export_index 0 fs name) in call g args s.

Lemma emb_nil {X} (s : store X) : emb [] [] s = s.
Proof. destruct s. unfold emb. cbn. now rewrite !app_nil_r. Qed.
Lemma crel_same {X} (c : list val -> store X -> res (store X) (list val * store X)) c' :
  (forall args s, c args s = Stuck \/ c args s = c' args s) -> crel [] [] c c'.
Proof.
  intros H args s. rewrite emb_nil. destruct (H args s) as [E|E]; rewrite E; [exact Logic.I|].
  destruct (c' args s) as [[vs s']|s'| |]; cbn; rewrite ?emb_nil; auto.
Qed.

Section Protocol.
  Context {Y : Type}.
  Variable num1 : unop -> Z -> option Z.
  Variable num2 : binop -> Z -> Z -> option Z.
  Variable analysis : string -> list val -> xprog (sys Y).
  Variable host : string -> string -> list val -> xprog Y.
  Variable lc : lib_code.
  Notation ext := (agents lc analysis host).
  Notation call := (fun fs => call_fn num1 num2 ext fs).

  (** Callees in the module itself. *)
  Definition inside (fs : list func) (n : nat) (base : nat) (c : callee) (args : list val) (s : store (sys Y)) :
      res (store (sys Y)) (list val * store (sys Y)) :=
    match c with
    | CImport ft ns name => if fits_args ft args then call_import ext (exported fs (call fs n)) ft ns name args s else Stuck
    | CBase _ => call fs (S n) base args s
    | _ => Stuck
    end.
  Lemma inside_imports fs n base ft ns name i : nth_error fs i = Some (Fn ft (FImport ns name) []) ->
    crel [] [] (inside fs n base (CImport ft ns name)) (call fs (S n) i).
  Proof.
    intros E. apply crel_same. intros args s. cbn [inside]. destruct (fits_args ft args) eqn:F; [right|now left].
    cbn [Semantics.call_fn]. rewrite E. cbn [rget rbind fn_type fn_code]. unfold fits_args in F. rewrite F. reflexivity.
  Qed.
  Lemma inside_results fs n base ft ns name args s rs s' :
    inside fs n base (CImport ft ns name) args s = Ok (rs, s') -> vals_ok (ft_out ft) rs = true.
  Proof.
    cbn [inside]. destruct (fits_args ft args); [|discriminate]. unfold call_import.
    destruct (run_x _ _ _) as [[vs s1]| | |]; try discriminate. cbn [rbind]. destruct (vals_ok _ _) eqn:V; [|discriminate].
    intros [= <- <-]. exact V.
  Qed.
  Lemma inside_lib fs n base ft o args s : fits_args (libop_type ft o) args = true ->
    inside fs n base (CImport (libop_type ft o) stack_ns (op_name ft o)) args s =
    let* (rs, s') := run_x (exported fs (call fs n)) (@lib_agent Y lc (op_name ft o) args) s in
    if vals_ok (ft_out (libop_type ft o)) rs then Ok (rs, s') else Stuck.
  Proof. intros F. cbn [inside]. rewrite F. reflexivity. Qed.
  Lemma inside_analysis fs n base args s : List.length args = 7 ->
    Advice.analysis (inside fs n base) generic_apply args s =
    let* (rs, s') := run_x (exported fs (call fs n)) (analysis "generic_apply" args) s in
    if vals_ok [] rs then Ok (rs, s') else Stuck.
  Proof. intros Ln. unfold Advice.analysis, inside, fits_args. rewrite Ln. reflexivity. Qed.
End Protocol.

(** A call of a selected function [f] with arguments [args] in the output module: a fresh frame is
    pushed that holds exactly the arguments, in order, and the analysis is run on
    - the position [k] of [f] in the order of the apply table, the index [f], the counts of
      arguments and results, the two buffers, and the flag that is 1 for imports.
    If it returns having left, on top of whatever stack of frames, results [rs] in that frame, the
    caller gets [rs], and the frame is gone; if it traps so does the call. Here [analysis] and
    [host] are arbitrary agents; the analysis may call back any export and the library. *)
Theorem C17_intercepted_call : forall Y num1 num2 analysis (host : string -> string -> list val -> xprog Y)
    ord_i ord_c infer m on only m' sigs lc library limit stops,
  (forall l, Permutation (ord_i l) l) -> (forall l, Permutation (ord_c l) l) ->
  instrument ord_i ord_c infer m (std_ai on true) only = IOk m' (Some sigs) ->
  implements sigs lc library limit stops ->
  let call := call_fn num1 num2 (agents lc analysis host) (md_funcs m') in
  let intercepted := ord_i (filter (selected_incl m only) (indices m)) in
  forall n f fn args s frs ifs,
  nth_error (md_funcs m) f = Some fn -> selected_incl m only f = true ->
  vals_ok (ft_in (fn_type fn)) args = true ->
  library frs ifs (fst (st_x s)) -> (live (map if_type ifs) + frame_bytes (fn_type fn) <= limit)%Z ->
  let ft := fn_type fn in
  exists k q qt l,
    nth_error intercepted k = Some f /\
    library ((ft, q, qt) :: frs) (IF ft (repeat None (List.length (ft_out ft))) (map Some args) :: ifs) l /\
    match run_x (exported (md_funcs m') (call n))
            (analysis "generic_apply" [i32n k; i32n f; i32n (List.length (ft_in ft)); i32n (List.length (ft_out ft));
                                       vi32 q; vi32 qt; vi32 (match fn_code fn with FImport _ _ => 1 | FPresent _ _ => 0 end)])
            (with_lib s l) with
    | Ok ([], s2) => forall rs args' ifs',
        library ((ft, q, qt) :: frs) (IF ft (map Some rs) args' :: ifs') (fst (st_x s2)) ->
        exists l3, call (S (S n)) f args s = Ok (rs, with_lib s2 l3) /\ library frs ifs' l3
    | Trap s2 => call (S (S n)) f args s = Trap s2
    | Oof => call (S (S n)) f args s = Oof
    | _ => True
    end.
Proof.
  intros Y num1 num2 analysis host ord_i ord_c infer m on only m' sigs lc library limit stops Pi Pc E IM call intercepted n f fn args s frs ifs Ef Sel V I R ft.
  destruct (@instrument_layout _ _ _ _ _ _ _ _ Pi Pc E) as (H & hf & aps & LY & _). cbn in LY.
  assert (Inf : In f intercepted) by (eapply Permutation_in; [apply Permutation_sym, Pi|]; now apply selected_incl_In).
  apply In_nth_error in Inf. destruct Inf as (k & Ek).
  destruct (@wrapped infer m on true only _ H hf aps _ LY (fun e => ltac:(discriminate e)) k f Ek)
    as (fn' & sh & gi & base & ap & Ef' & _ & SH & Eg & W & _). rewrite Ef in Ef'. injection Ef' as <-.
  pose proof (@sigs_cover _ _ _ _ _ _ _ _ Pi Pc E f fn Sel Ef) as In_.
  pose proof (@selected_numeric m only f fn Sel Ef) as Nu.
  set (C := inside num1 num2 analysis host lc (md_funcs m') n base).
  assert (Fa : fits_args (fn_type fn) args = true) by (unfold fits_args; apply Nat.eqb_eq; now apply vals_ok_len).
  assert (St : rel [] [] (@er _ [] []) (intercepted_call C k f fn args s) (call (S (S n)) f args (emb [] [] s))).
  { unfold call. eapply wrapper_step with (nf := List.length (md_funcs m)); try eassumption.
    - apply inside_imports.
    - apply inside_results.
    - reflexivity.
    - unfold has_code, woven_fn, woven. simpl. destruct (fn_code fn); [reflexivity|].
      destruct (selected m only f); [|reflexivity]. destruct (structure_typed _ _ _); reflexivity. }
  rewrite emb_nil in St.
  destruct (@SystemProofs.intercepted Y sigs lc library limit stops IM _ C (fun ft o args s => @inside_lib _ _ _ _ _ _ _ n base ft o args s)
              _ (@inside_analysis _ _ _ analysis host lc _ n base) f fn k args s frs ifs I In_ Nu V R)
    as (q & qt & l & I' & P).
  exists k, q, qt, l. split; [exact Ek|]. split; [exact I'|]. specialize (P _ eq_refl).
  unfold described in P. fold ft in P.
  assert (Eh : (if has_code fn then 0 else 1)%Z = match fn_code fn with FImport _ _ => 1 | FPresent _ _ => 0 end%Z)
    by (unfold has_code; destruct (fn_code fn); reflexivity).
  rewrite Eh in P. fold call in P.
  destruct (run_x _ _ _) as [[[|v vs] s2]|s2| |]; [|exact Logic.I| |exact Logic.I|].
  - intros rs args' ifs' I2. destruct (P eq_refl ifs' rs args' I2) as (l3 & A & B). exists l3. split; [|exact B].
    rewrite A in St. cbn in St. now rewrite emb_nil in St.
  - rewrite P in St. cbn in St. now rewrite emb_nil in St.
  - rewrite P in St. exact St.
Qed.
Print Assumptions C17_intercepted_call.

(** [call_base k] with the buffer of a frame in progress, holding arguments [vs]: the function at
    position [k] runs on [vs] with its own (instrumented) code — the code the interpreter of
    Advice.v runs for it — and its results replace those of that frame. *)
Lemma call_fn_length {X} num1 num2 (ext : string -> string -> list val -> xprog X) fs n i f args s rs s' :
  nth_error fs i = Some f -> call_fn num1 num2 ext fs n i args s = Ok (rs, s') -> List.length rs = List.length (ft_out (fn_type f)).
Proof.
  intros Ei. destruct n as [|n]; [discriminate|]. cbn [call_fn]. rewrite Ei. cbn [rget rbind].
  destruct (Nat.eqb _ _); [|discriminate]. destruct (fn_code f) as [ns nm|locals body].
  - unfold call_import. destruct (run_x _ _ _) as [[rs' s'']| | |]; try discriminate. cbn [rbind].
    destruct (vals_ok _ rs') eqn:V; [|discriminate]. intros [= <- <-]. now apply vals_ok_length.
  - destruct (structure_untyped _); try discriminate. apply invoke_length.
Qed.

Theorem C17_resume : forall Y num1 num2 analysis (host : string -> string -> list val -> xprog Y)
    ord_i ord_c infer m on only m' sigs lc library limit stops,
  (forall l, Permutation (ord_i l) l) -> (forall l, Permutation (ord_c l) l) ->
  instrument ord_i ord_c infer m (std_ai on true) only = IOk m' (Some sigs) ->
  implements sigs lc library limit stops -> export_index 0 (md_funcs m) "call_base" = None ->
  let ext := agents lc analysis host in
  let call := call_fn num1 num2 ext (md_funcs m') in
  let intercepted := ord_i (filter (selected_incl m only) (indices m)) in
  let apply_table_is tab (s : store (sys Y)) := nth_error (st_tables s) (List.length (md_tables m)) = Some tab in
  exists tab,
  (* the table of the module when it starts *)
  (forall imp x s0, instantiate imp m x = Ok s0 -> exists s, instantiate imp m' x = Ok s /\ apply_table_is tab s) /\
  (* positions out of range trap *)
  (forall n k q s, apply_table_is tab s -> List.length intercepted <= k ->
     exported (md_funcs m') (call (S n)) "call_base" [i32n k; vi32 q] s = Trap s) /\
  forall k f, nth_error intercepted k = Some f ->
  exists fn base g, nth_error (md_funcs m) f = Some fn /\
  nth_error (md_funcs m') base = Some g /\ fn_type g = fn_type fn /\ fn_exports g = [] /\
  (exists addt adde, nth_error addt 0 = Some tab /\ forall n args s,
    match spec num1 num2 ext infer m on true only intercepted n (CBase f) args s,
          call n base args (St (st_mem s) (st_globals s) (st_tables s ++ addt) (st_elems s ++ adde) (st_datas s) (st_x s)) with
    | Ok (vs, s1), Ok (vs', s2) => vs' = vs /\ extends s1 s2
    | Trap s1, Trap s2 => extends s1 s2
    | Oof, Oof => True
    | Stuck, _ => True
    | _, _ => False
    end) /\
  let ft := fn_type fn in
  forall n s d rets vs q qt frs ifs,
  apply_table_is tab s -> library frs ifs (fst (st_x s)) ->
  nth_error ifs d = Some (IF ft rets (map Some vs)) -> nth_error frs d = Some (ft, q, qt) ->
  exists l, library frs ifs l /\
    match call (S n) base vs (with_lib s l) with
    | Ok (rs, s2) => forall ifs' rets' args',
        vals_ok (ft_out ft) rs = true ->
        library frs ifs' (fst (st_x s2)) -> nth_error ifs' d = Some (IF ft rets' args') ->
        exists l3, exported (md_funcs m') (call (S (S (S n)))) "call_base" [i32n k; vi32 q] s = Ok ([], with_lib s2 l3) /\
          library frs (set_nth d (IF ft (map Some rs) args') ifs') l3
    | Trap s2 => exported (md_funcs m') (call (S (S (S n)))) "call_base" [i32n k; vi32 q] s = Trap s2
    | Oof => exported (md_funcs m') (call (S (S (S n)))) "call_base" [i32n k; vi32 q] s = Oof
    | Stuck => True
    end.
Proof.
  intros Y num1 num2 analysis host ord_i ord_c infer m on only m' sigs lc library limit stops Pi Pc E IM Nx ext call intercepted atab.
  destruct (@instrument_layout _ _ _ _ _ _ _ _ Pi Pc E) as (H & hf & aps & LY & Et & Ee & Em & Eg & Ed & _). cbn in LY, Et, Ee.
  assert (Hg : true = false -> intercepted = []) by discriminate.
  destruct (@export_rep _ num1 num2 ext infer m on true only intercepted H hf aps _ LY Hg "call_base" CCallBase) as (cb & Ecb & Rcb).
  { unfold export_callee. now rewrite Nx. }
  inversion Rcb as [| | | |cb' _ Ncb| | | |]; subst cb'. clear Rcb.
  exists (apply_tab aps).
  (* what call_base does *)
  assert (Step : forall n k q s, atab (apply_tab aps) s ->
    exported (md_funcs m') (call (S n)) "call_base" [i32n k; vi32 q] s =
    match nth_error aps k with
    | Some ap => let* ft := rget (ftype_of (md_funcs m') ap) in
        if functy_eqb ft apply_type then
          let* (rs, s1) := call n ap [vi32 q] s in
          match rs with [] => Ok ([], s1) | _ => Stuck end
        else Trap s
    | None => Trap s
    end).
  { intros n k q s At. unfold exported. rewrite Ecb. cbn [rget rbind]. unfold call at 1. cbn [Semantics.call_fn]. rewrite Ncb.
    cbn [rget rbind call_base_fn fn_type fn_code wf_type wf_args wf_results call_base ft_in ft_out map List.length Nat.eqb].
    change (structure_untyped _) with (COk (map UBasic [BLocal LGet 1; BLocal LGet 0; BCallIndirect apply_type (List.length (md_tables m))])).
    unfold invoke. cbn [map app].
    rewrite run_get with (v := vi32 q) by reflexivity. rewrite run_get with (v := i32n k) by reflexivity.
    unfold run. cbn [run_seq run1 exec pop_i32 rbind i32n vi32]. unfold atab in At. rewrite At. cbn [rget rbind apply_tab ts_elems].
    rewrite Nat2Z.id, nth_error_map. destruct (nth_error aps k) as [ap|]; [|reflexivity]. cbn [option_map].
    destruct (ftype_of (md_funcs m') ap) as [ft'|]; [|reflexivity]. cbn [rget rbind].
    destruct (functy_eqb ft' apply_type); [|reflexivity]. unfold do_call.
    change (popn _ [vi32 q]) with (Some ([vi32 q], @nil val)). cbn [rget rbind]. fold call.
    destruct (call n ap [vi32 q] s) as [[[|v vs] s1]|s1| |]; try reflexivity. cbn [rbind]. unfold pushn.
    destruct (rev (v :: vs) ++ []) as [|w ws] eqn:Rv; [|reflexivity].
    apply (f_equal (@List.length val)) in Rv. rewrite app_nil_r, rev_length in Rv. discriminate. }
  split; [|split].
  - intros imp x s0 Ei. pose proof (@instantiate_emb _ imp m m' x true aps Et Ee Em Eg Ed) as RI. rewrite Ei in RI.
    eexists. split; [exact RI|]. unfold atab. cbn [emb st_tables tabs].
    assert (L : List.length (st_tables s0) = List.length (md_tables m)).
    { clear - Ei. unfold instantiate in Ei. destruct (allocate imp m x) as [s|] eqn:Ea; [|discriminate]. cbn [rget rbind] in Ei.
      destruct (init_elems 0 (md_elems m) s) as [s1| | |] eqn:E1; try discriminate. cbn [rbind] in Ei.
      apply init_elems_lengths in E1. destruct E1 as [E1 _].
      assert (D : forall l i (a b : store (sys Y)), init_datas i l a = Ok b -> st_tables b = st_tables a).
      { clear. induction l as [|d l IH]; intros i a b Q; cbn [init_datas] in Q; [injection Q as <-; reflexivity|].
        destruct (init_data i d a) as [a1| | |] eqn:F; try discriminate. cbn [rbind] in Q. rewrite (IH _ _ _ Q). clear - F.
        unfold init_data in F. destruct (dt_active d); [|injection F as <-; reflexivity].
        destruct (eval_i32 _ _); [|discriminate]. cbn [rget rbind] in F.
        destruct (bulk (BMemoryInit i) _ a) as [a2| | |] eqn:B; try discriminate. cbn [rbind] in F.
        unfold bulk in *. destruct (nth_error (st_datas a2) i); [|discriminate]. cbn [rget rbind] in F. injection F as <-.
        destruct (st_mem a); [|discriminate]. cbn [vi32 rget rbind] in B. destruct (nth_error (st_datas a) i); [|discriminate].
        cbn [rget rbind] in B. destruct (_ && _); [|discriminate]. injection B as <-. reflexivity. }
      rewrite (D _ _ _ _ Ei), E1. clear - Ea. unfold allocate in Ea.
      destruct (init_globals _ _ _); [|discriminate]. destruct (opt_all (map _ (md_tables m))) eqn:T; [|discriminate].
      destruct (init_mems _ _); [|discriminate]. destruct (opt_all (map _ (md_elems m))) eqn:E; [|discriminate].
      injection Ea as <-. cbn [st_tables]. apply opt_all_length in T. now rewrite map_length in T. }
    rewrite <- L, nth_error_app_exact. reflexivity.
  - intros n k q s At Lk. rewrite Step by exact At.
    assert (nth_error aps k = None) as -> by (apply nth_error_None; rewrite (ly_aps LY); exact Lk). reflexivity.
  - intros k f Ek.
    destruct (@wrapped infer m on true only _ H hf aps _ LY Hg k f Ek)
      as (fn & sh & gi & base & ap & Ef & _ & SH & Egi & _ & Eb & Eap & Ap).
    exists fn, base, (copy_of (woven_fn H hf infer m only f fn)). split; [exact Ef|]. split; [exact Eb|].
    split; [reflexivity|]. split; [reflexivity|]. split.
    { exists (tabs true aps), (segs true). split; [reflexivity|]. intros n args s.
      assert (Rb : rep infer m true only H hf (md_funcs m') (CBase f) base) by (eapply rep_base; eassumption).
      pose proof (@spec_runs _ num1 num2 ext infer m on true only intercepted H hf aps _ LY Hg n _ _ Rb args s) as R.
      change (St _ _ _ _ _ _) with (emb [apply_tab aps] [[]] s). fold call in R.
      destruct (spec num1 num2 ext infer m on true only intercepted n (CBase f) args s) as [[os s1]|s1| |]; simpl in R.
      - rewrite R. split; [reflexivity|apply extends_emb].
      - rewrite R. apply extends_emb.
      - exact Logic.I.
      - rewrite R. exact Logic.I. }
    intros ft n s d rets vs q qt frs ifs At I Ed' Ef'.
    set (C := inside num1 num2 analysis host lc (md_funcs m') n base).
    assert (St : rel [] [] (@er _ [] []) (resume C f fn (vi32 q) s) (call (S (S n)) ap [vi32 q] (emb [] [] s))).
    { unfold call. eapply resume_step with (nf := List.length (md_funcs m)); try eassumption.
      - apply inside_imports.
      - apply inside_results.
      - apply crel_same. intros args s0. right. reflexivity.
      - intros args s0 rs s' Q. exact (@call_fn_length _ _ _ _ _ _ _ _ _ _ _ _ Eb Q).
      - unfold ftype_of. now rewrite Eb. }
    rewrite emb_nil in St.
    destruct (@resumed Y sigs lc library limit stops IM _ C (fun ft o args s => @inside_lib _ _ _ _ _ _ _ n base ft o args s)
                f fn d _ q qt vs s frs ifs I Ed' Ef' eq_refl eq_refl) as (l & I' & P).
    exists l. split; [exact I'|]. specialize (P _ eq_refl).
    assert (Tap : ftype_of (md_funcs m') ap = Some apply_type) by (unfold ftype_of; now rewrite Ap).
    assert (Cb : exported (md_funcs m') (call (S (S (S n)))) "call_base" [i32n k; vi32 q] s =
                 let* (rs, s1) := call (S (S n)) ap [vi32 q] s in match rs with [] => Ok ([], s1) | _ => Stuck end).
    { rewrite Step by exact At. rewrite Eap, Tap. cbn [rget rbind]. rewrite (proj2 (functy_eqb_eq _ _) eq_refl). reflexivity. }
    rewrite Cb. clear Cb Step. generalize dependent (call (S (S n)) ap [vi32 q] s). intros z St. unfold C at 1 in P. cbn [inside] in P. change (Semantics.call_fn num1 num2 _ (md_funcs m')) with call in P.
    destruct (call (S n) base vs (with_lib s l)) as [[rs s2]|s2| |].
    + intros ifs' rets' args' V I2 Ed2. destruct (P ifs' _ I2 Ed2 eq_refl V) as (l3 & A & B). exists l3. split; [|exact B].
      rewrite A in St. cbn in St. rewrite St, emb_nil. reflexivity.
    + rewrite P in St. cbn in St. rewrite St, emb_nil. reflexivity.
    + exact Logic.I.
    + rewrite P in St. cbn in St. rewrite St. reflexivity.
Qed.
Print Assumptions C17_resume.

(** The example module with every function intercepted, over the library: forwarding, and an
    analysis that counts its calls and adds 10 to the results of function 1 ([sum], recursive). *)
Definition ex_sigs : list functy :=
  match instrument ex_id ex_id ex_types ex_module (std_ai (fun _ => false) true) None with IOk _ (Some l) => l | _ => [] end.
Definition ex_lib {Y} := @lib_agent Y (wat_lib ex_num1 ex_num2 ex_sigs (Z.to_nat 70010)).
Definition ex_adding : string -> list val -> xprog (sys nat) :=
  rs_analysis (forward_body ex_num1 ex_num2) ex_lib (fun f args ress =>
    XGet (fun x m g => XPut (fst x, S (snd x)) m g (
    xbind (wasm_function_apply f) (fun _ =>
    if Z.eqb (wf_index f) 1 then update_each_res ex_lib ress (fun _ v => match v with VNum t z => VNum t (z + 10) | r => r end) else XRet [])))).
Definition ex_host (ns name : string) (args : list val) : xprog nat := XRet [].
Definition ex_run (analysis : string -> list val -> xprog (sys nat)) (calls : list (string * list val)) :=
  match ex_out (fun _ => false) true None with
  | Some m' =>
      match run_module ex_num1 ex_num2 (agents (wat_lib ex_num1 ex_num2 ex_sigs (Z.to_nat 70010)) analysis ex_host)
              40 ex_imports m' (lib_start tt, 0) calls with
      | Ok (outs, s) => Some (outs, snd (st_x s), free_pointer (fst (st_x s)))
      | _ => None
      end
  | None => None
  end.
Example ex_c17 :
  ex_sigs = [FT [t_i32] []; ex_i32_1] /\ export_index 0 (md_funcs ex_module) "call_base" = None /\
  ex_run (forward ex_num1 ex_num2 ex_lib) [("sum", [vi32 3]); ("poke", [vi32 0])]
    = Some ([Some [vi32 6]; Some [vi32 7]], 0, Some (vi32 0)) /\
  ex_run ex_adding [("sum", [vi32 3]); ("poke", [vi32 0])] = Some ([Some [vi32 46]; Some [vi32 7]], 7, Some (vi32 0)).
Proof. vm_compute. repeat split. Qed.

(** A state of the library with two calls in progress, and what the accessors see of the outer. *)
Definition ex_frames : list ev := [EEnter ft_outer [VNum TI32 7; VNum TF32 2143289345]; EEnter ft_inner [VNum TF64 5]]%Z.
Definition ex_sees (r : res (store unit) (list val * list frame * store unit)) : bool :=
  match r with
  | Ok (_, frs, l) =>
      let a := @lib_agent nat (wat_lib ex_num1 ex_num2 [ft_inner; ft_outer] (Z.to_nat 70010)) in
      let run := run_x (fun _ _ _ => Stuck) (runtime_values_new a 2 1 0 24 (fun rv => args_iter a rv (fun vs => XRet vs)))
                   (St None [] [] [] [] (l, 0)) in
      match run, nth_error frs 1 with
      | Ok ([VNum TI32 7; VNum TF32 2143289345], _), Some (_, 0, 24) => true
      | _, _ => false
      end%Z
  | _ => false
  end.
Example ex_c36 :
  let r := perform (wat_lib ex_num1 ex_num2 [ft_inner; ft_outer] (Z.to_nat 70010)) ex_frames [] (lib_start tt) in
  (exists vs frs l, r = Ok (vs, frs, l) /\
     library [ft_inner; ft_outer] frs
       [IF ft_inner [None; None] [Some (VNum TF64 5)]; IF ft_outer [None] [Some (VNum TI32 7); Some (VNum TF32 2143289345)]]%Z l) /\
  ex_sees r = true.
Proof.
  split; [|vm_compute; reflexivity].
  assert (I0 : library [ft_inner; ft_outer] [] [] (lib_start tt)).
  { exists 0%Z, 1%Z, (fun _ => 0%Z). split; [reflexivity|]. apply start_inv. }
  destruct (@C36_library_behaves ex_num1 ex_num2 [ft_inner; ft_outer] (Z.to_nat 70010) [] [] (lib_start tt) ex_frames
              _ _ ltac:(rewrite Z2Nat.id; lia) I0 eq_refl) as (vs & frs & l & P & _ & L).
  - intros ft [<-|[<-|[]]]; cbn; auto.
  - vm_compute. discriminate.
  - exists vs, frs, l. split; [exact P|exact L].
Qed.
