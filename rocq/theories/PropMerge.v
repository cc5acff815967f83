(** Property theorems C83-C85: how the external program wasm-merge is run, and the command-line tool. *)
From Coq Require Import Ascii Permutation.
From Verif Require Import InstrumentProofs Interface ExModule Merge PropPipeline PropInterface.
Local Open Scope string_scope.
Local Open Scope list_scope.

Notation chars := list_ascii_of_string.
Lemma chars_app s t : chars (s ++ t)%string = chars s ++ chars t.
Proof. induction s as [|c s IH]; [reflexivity|]. cbn. now rewrite IH. Qed.
Lemma concat_nil x l : String.concat "" (x :: l) = (x ++ String.concat "" l)%string.
Proof. destruct l; cbn; [|reflexivity]. induction x as [|c x IH]; [reflexivity|]. cbn. now rewrite <- IH. Qed.
Lemma concat_cons sep x y l : String.concat sep (x :: y :: l) = (x ++ sep ++ String.concat sep (y :: l))%string.
Proof. reflexivity. Qed.
Notation ordinary c := (negb (among meta_chars c || among blank_chars c)).

Lemma split_word s : forall w l, forallb (fun c => ordinary c) (chars s) = true ->
  split_blanks w (chars s ++ l) = split_blanks (rev (chars s) ++ w) l.
Proof.
  induction s as [|c s IH]; intros w l H; [reflexivity|]. cbn [chars forallb] in H. apply andb_prop in H as (H1 & H2).
  cbn [chars app split_blanks]. destruct (among blank_chars c); [rewrite orb_true_r in H1; discriminate H1|].
  rewrite IH by assumption. cbn [chars rev]. now rewrite <- app_assoc.
Qed.
Lemma word_then s l : plain_word s -> split_blanks [] (chars s ++ " "%char :: l) = s :: split_blanks [] l.
Proof.
  intros (N & H). rewrite split_word by assumption. rewrite app_nil_r. cbn [split_blanks].
  change (among blank_chars " ") with true. cbn iota. destruct (rev (chars s)) as [|c r] eqn:E.
  - destruct s; [congruence|]. cbn in E. destruct (rev (chars s)); discriminate E.
  - rewrite <- E, rev_involutive, string_of_list_ascii_of_string. reflexivity.
Qed.
Lemma word_last s : plain_word s -> split_blanks [] (chars s) = [s].
Proof.
  intros (N & H). rewrite <- (app_nil_r (chars s)), split_word by assumption. rewrite app_nil_r. cbn [split_blanks].
  destruct (rev (chars s)) as [|c r] eqn:E.
  - destruct s; [congruence|]. cbn in E. destruct (rev (chars s)); discriminate E.
  - rewrite <- E, rev_involutive, string_of_list_ascii_of_string. reflexivity.
Qed.
Lemma flag_plain f : plain_word (flag_text f). Proof. destruct f; split; (discriminate || reflexivity). Qed.

Notation plain_text s := (existsb (among meta_chars) (chars s) = false).
Lemma word_plain s : plain_word s -> plain_text s.
Proof.
  intros (_ & H). induction (chars s) as [|c l IH]; [reflexivity|]. cbn [forallb existsb] in *. apply andb_prop in H as (H1 & H2).
  rewrite (IH H2), orb_false_r. destruct (among meta_chars c); [discriminate H1|reflexivity].
Qed.
Lemma plain_app s t : plain_text s -> plain_text t -> plain_text (s ++ t)%string.
Proof. intros H1 H2. now rewrite chars_app, existsb_app, H1, H2. Qed.

Lemma arguments_words o fl : forall l,
  split_blanks [] (chars (String.concat "" (map (fun f => " " ++ as_option o f ++ " ")%string fl)) ++ l) = map flag_text (filter o fl) ++ split_blanks [] l.
Proof.
  induction fl as [|f fl IH]; intros l; [reflexivity|]. cbn [map filter]. rewrite concat_nil, !chars_app, <- !app_assoc. cbn [chars app].
  change (split_blanks [] (" "%char :: ?x)) with (split_blanks [] x). cbn [split_blanks]. change (among blank_chars " ") with true. cbn iota.
  unfold as_option at 1. destruct (o f).
  - cbn [map app]. rewrite word_then by apply flag_plain. now rewrite IH.
  - cbn [chars app split_blanks]. change (among blank_chars " ") with true. cbn iota. apply IH.
Qed.
Lemma arguments_plain o fl : plain_text (String.concat "" (map (fun f => " " ++ as_option o f ++ " ")%string fl)).
Proof.
  induction fl as [|f fl IH]; [reflexivity|]. cbn [map]. rewrite concat_nil. apply plain_app; [|exact IH]. repeat apply plain_app; try reflexivity.
  unfold as_option. destruct (o f); [apply word_plain, flag_plain|reflexivity].
Qed.
Notation plain_pair := (fun p : string * string => plain_word (fst p) /\ plain_word (snd p)).
Lemma named_words named : Forall plain_pair named -> forall l,
  split_blanks [] (chars (String.concat " " (map (fun p => fst p ++ " " ++ snd p)%string named)) ++ " "%char :: l) =
  flat_map (fun p => [fst p; snd p]) named ++ split_blanks [] l.
Proof.
  induction named as [|[p ns] named IH]; intros F l; [reflexivity|]. inversion F as [|? ? (P1 & P2) F']; subst. cbn [fst snd] in *.
  destruct named as [|q named].
  - cbn [map String.concat fst snd flat_map app]. rewrite !chars_app, <- !app_assoc. cbn [chars app].
    rewrite word_then by assumption. now rewrite word_then by assumption.
  - cbn [map]. rewrite concat_cons. cbn [map] in IH. cbn [fst snd]. rewrite !chars_app, <- !app_assoc. cbn [chars app].
    rewrite !word_then by assumption. cbn [flat_map app fst snd]. do 2 f_equal. apply (IH F').
Qed.
Lemma named_plain named : Forall plain_pair named -> plain_text (String.concat " " (map (fun p => fst p ++ " " ++ snd p)%string named)).
Proof.
  induction named as [|[p ns] named IH]; intros F; [reflexivity|]. inversion F as [|? ? (P1 & P2) F']; subst. cbn [fst snd] in *.
  assert (One : plain_text (p ++ " " ++ ns)%string) by (repeat apply plain_app; try (apply word_plain; assumption); reflexivity).
  destruct named as [|q named]; [exact One|]. cbn [map]. rewrite concat_cons. cbn [fst snd]. apply plain_app; [exact One|]. apply plain_app; [reflexivity|]. exact (IH F').
Qed.

Lemma command_words o named out : Forall plain_pair named -> plain_word out ->
  shell_words (merge_command o named out) =
    Some ("wasm-merge" :: map flag_text (filter o flag_order) ++ flat_map (fun p => [fst p; snd p]) named ++ ["-o"; out]).
Proof.
  intros F P. unfold shell_words, merge_command, as_bash_arguments. generalize flag_order. intros fl.
  pose proof (arguments_plain o fl) as Pa. pose proof (arguments_words o fl) as Wa. revert Pa Wa.
  generalize (String.concat "" (map (fun f => " " ++ as_option o f ++ " ")%string fl)). intros ar Pa Wa.
  pose proof (named_plain F) as Pn. pose proof (named_words F) as Wn. revert Pn Wn.
  generalize (String.concat " " (map (fun p : string * string => fst p ++ " " ++ snd p)%string named)). intros na Pn Wn.
  assert (Pl : plain_text ("wasm-merge" ++ " " ++ ar ++ " " ++ na ++ " -o " ++ out)%string).
  { repeat (apply plain_app; [reflexivity || assumption|]). now apply word_plain. }
  rewrite Pl. f_equal. rewrite !chars_app. change (chars " ") with [" "%char]. change (chars " -o ") with (" "%char :: chars "-o" ++ [" "%char]).
  assert (W : plain_word "wasm-merge") by (split; [discriminate|reflexivity]).
  assert (W' : plain_word "-o") by (split; [discriminate|reflexivity]).
  change ([" "%char] ++ ?x) with (" "%char :: x).
  rewrite (word_then _ W), Wa. do 2 f_equal.
  transitivity (split_blanks [] (chars na ++ " "%char :: (chars "-o" ++ " "%char :: chars out))); [reflexivity|].
  rewrite Wn. f_equal. rewrite (word_then _ W'), word_last by assumption. reflexivity.
Qed.

(** ** C83: the arguments of wasm-merge *)
(** The names of the fields, wasm-merge/src/lib.rs L47-73. *)
Definition field_name (f : flag) : string :=
  match f with
  | NoValidation => "no_validation" | RenameExportConflicts => "rename_export_conflicts" | BulkMemory => "bulk_memory"
  | BulkMemoryOpt => "bulk_memory_opt" | CallIndirectOverlong => "call_indirect_overlong" | ExtendedConst => "extended_const"
  | ExceptionHandling => "exception_handling" | Fp16 => "fp16" | Gc => "gc" | Memory64 => "memory64" | Multimemory => "multimemory"
  | Multivalue => "multivalue" | MutableGlobals => "mutable_globals" | NontrappingFloatToInt => "nontrapping_float_to_int"
  | ReferenceTypes => "reference_types" | RelaxedSimd => "relaxed_simd" | SharedEverything => "shared_everything"
  | SignExt => "sign_ext" | Simd => "simd" | Strings => "strings" | TailCall => "tail_call" | Threads => "threads"
  | TypedContinuations => "typed_continuations"
  end.
Fixpoint dashes (s : string) : string :=
  match s with "" => "" | String c s' => String (if Ascii.eqb c "_" then "-" else c)%char (dashes s') end.
(** For paths and namespaces of letters bash gives no meaning to: the enabled options, each once and under the name of
    its field; each module's path followed by its namespace, in order; and the output. *)
Theorem C83_command : forall o named out, Forall plain_pair named -> plain_word out ->
  exists fl, NoDup fl /\ (forall f, In f fl <-> o f = true) /\
    shell_words (merge_command o named out) =
      Some ("wasm-merge" ::
            map (fun f => (match f with NoValidation | RenameExportConflicts => "--" | _ => "--enable-" end ++ dashes (field_name f))%string) fl ++
            flat_map (fun p => [fst p; snd p]) named ++ ["-o"; out]).
Proof.
  intros o named out F P. exists (filter o flag_order). split.
  { apply NoDup_filter. repeat (constructor; [cbn; intuition discriminate|]). constructor. }
  split.
  { intros f. rewrite filter_In. split; [tauto|]. intros H. split; [|exact H]. destruct f; cbn; tauto. }
  assert (Tx : forall fl, map (fun f => (match f with NoValidation | RenameExportConflicts => "--" | _ => "--enable-" end ++ dashes (field_name f))%string) fl
    = map flag_text fl) by (intros fl; apply map_ext; intros []; reflexivity).
  rewrite Tx. now apply command_words.
Qed.
(** The command of the pipeline. *)
Theorem C83_pipeline : forall named out, Forall plain_pair named -> plain_word out ->
  shell_words (merge_command wastrument_flags named out) =
    Some (["wasm-merge"; "--no-validation"; "--rename-export-conflicts"; "--enable-bulk-memory"; "--enable-multimemory"] ++
          flat_map (fun p => [fst p; snd p]) named ++ ["-o"; out]).
Proof. intros named out F P. now rewrite command_words. Qed.
(** A namespace or a directory for temporary files with a blank in it, and one that is a command of its own. *)
Theorem C83_refuted :
  shell_words (merge_command (fun _ => false) [("/tmp/my files/.tmpA", "a")] "/tmp/my files/.tmpB") =
    Some ["wasm-merge"; "/tmp/my"; "files/.tmpA"; "a"; "-o"; "/tmp/my"; "files/.tmpB"] /\
  shell_words (merge_command (fun _ => false) [("/tmp/.tmpA", "a"); ("/tmp/.tmpB", "b -o /tmp/.tmpC")] "/tmp/.tmpD") =
    Some ["wasm-merge"; "/tmp/.tmpA"; "a"; "/tmp/.tmpB"; "b"; "-o"; "/tmp/.tmpC"; "-o"; "/tmp/.tmpD"] /\
  shell_words (merge_command (fun _ => false) [("/tmp/.tmpA", "a;reboot")] "/tmp/.tmpB") = None.
Proof. repeat split; vm_compute; reflexivity. Qed.

(** ** C84: the result of wasm-merge *)
Lemma same_seconds {A B C} : forall (l : list (A * C)) (l' : list (B * C)), List.length l = List.length l' ->
  (forall i b c, nth_error l' i = Some (b, c) -> exists a, nth_error l i = Some (a, c)) -> map snd l = map snd l'.
Proof.
  intros l l'. revert l. induction l' as [|[b c] l' IH]; intros [|[a c'] l] Ln H; try discriminate Ln; [reflexivity|].
  destruct (H 0 b c eq_refl) as (a' & E). injection E as -> ->. cbn [map snd]. f_equal. apply IH; [now injection Ln|].
  intros i b' c2 E. exact (H (S i) b' c2 E).
Qed.
Section Run.
  Context {B : Type}.
  Variable empty : B.
  Variable M : @machine B.
  Lemma staged mods : forall k fs, (forall i, i < List.length mods -> mc_new M (k + i) <> None /\ mc_write M (k + i) = true) ->
    (forall i j p, i <= k + List.length mods -> j <= k + List.length mods -> mc_new M i = Some p -> mc_new M j = Some p -> i = j) ->
    exists named fs', stage M k mods fs = inr (named, fs') /\ List.length named = List.length mods /\
      (forall i b ns, nth_error mods i = Some (b, ns) -> exists p, mc_new M (k + i) = Some p /\ nth_error named i = Some (p, ns) /\ fs' p = Some b) /\
      (forall q, (forall i, k <= i < k + List.length mods -> mc_new M i <> Some q) -> fs' q = fs q).
  Proof.
    induction mods as [|[b ns] mods IH]; intros k fs W D; cbn [stage].
    - exists [], fs. split; [reflexivity|]. split; [reflexivity|]. split; [intros [|i] ? ? E; discriminate E|reflexivity].
    - destruct (W 0) as (N0 & W0); [cbn; lia|]. rewrite Nat.add_0_r in N0, W0. destruct (mc_new M k) as [p|] eqn:Ep; [|congruence]. rewrite W0.
      destruct (IH (S k) (put_file p b fs)) as (named & fs' & E & Ln & Hn & Hq).
      + intros i Hi. replace (S k + i) with (k + S i) by lia. apply W. cbn. lia.
      + intros i j q Hi Hj. apply D; cbn; lia.
      + rewrite E. exists ((p, ns) :: named), fs'. split; [reflexivity|]. split; [cbn; now rewrite Ln|]. split.
        * intros [|i] b' ns' En; cbn [nth_error] in En.
          -- injection En as <- <-. exists p. rewrite Nat.add_0_r. split; [exact Ep|]. split; [reflexivity|].
             rewrite Hq; [unfold put_file; now rewrite String.eqb_refl|]. intros i Hi Ei. assert (i = k); [|lia]. apply (D i k p); cbn; auto; lia.
          -- destruct (Hn i b' ns' En) as (q & H1 & H2 & H3). exists q. replace (k + S i) with (S k + i) by lia. auto.
        * intros q H. rewrite Hq.
          -- unfold put_file. destruct (String.eqb_spec q p) as [->|]; [|reflexivity]. exfalso. apply (H k); [cbn; lia|exact Ep].
          -- intros i Hi. apply H. cbn. lia.
  Qed.
  (** The temporary files needed can be made, have different paths without special letters, and can be written. *)
  Record enough_files (k : nat) (out : string) : Prop := {
    ef_new : forall i, i < k -> exists p, mc_new M i = Some p /\ plain_word p /\ mc_write M i = true;
    ef_out : mc_new M k = Some out /\ plain_word out;
    ef_distinct : forall i j p, i <= k -> j <= k -> mc_new M i = Some p -> mc_new M j = Some p -> i = j }.
  Lemma invoked tool o mods fs out : runs_tool M tool -> enough_files (List.length mods) out ->
    Forall (fun x => plain_word (snd x)) mods ->
    exists named fs1, map snd named = map snd mods /\
      (forall i b ns, nth_error mods i = Some (b, ns) -> exists p, nth_error named i = Some (p, ns) /\ fs1 p = Some b) /\
      fs1 out = Some empty /\
      merge_run empty M o mods fs =
        let '(code, stderr, fs2) := tool ("wasm-merge" :: map flag_text (filter o flag_order) ++ flat_map (fun p => [fst p; snd p]) named ++ ["-o"; out]) fs1 in
        if String.eqb stderr "" then match fs2 out with Some b => MOk b | None => MErr ReadFromOutputFileFailed end
        else MErr (MergeExecutionFailedReason stderr).
  Proof.
    intros RT [N [No Po] D] Pn.
    destruct (@staged mods 0 fs) as (named & fs' & E & Ln & Hn & Hq).
    - intros i Hi. destruct (N i Hi) as (p & H1 & _ & H2). cbn. split; congruence.
    - intros i j p Hi Hj. apply D; cbn in *; lia.
    - assert (Sn : map snd named = map snd mods).
      { apply same_seconds; [exact Ln|]. intros i b ns Ei. destruct (Hn i b ns Ei) as (p & _ & H & _). eauto. }
      assert (F : Forall plain_pair named).
      { apply Forall_forall. intros [p ns] Hi. apply In_nth_error in Hi as (i & Hi).
        destruct (nth_error mods i) as [[b ns']|] eqn:Ei.
        - destruct (Hn i b ns' Ei) as (p' & H1 & H2 & _). rewrite Hi in H2. injection H2 as <- <-. cbn in H1.
          destruct (N i) as (p2 & H3 & H4 & _); [apply nth_error_Some; congruence|]. rewrite H1 in H3. injection H3 as <-. split; [exact H4|].
          rewrite Forall_forall in Pn. apply (Pn (b, ns)). eapply nth_error_In, Ei.
        - apply nth_error_None in Ei. rewrite <- Ln in Ei. apply nth_error_None in Ei. congruence. }
      pose proof (@command_words o named out F Po) as Wd.
      exists named, (put_file out empty fs'). split; [exact Sn|]. split.
      { intros i b ns Ei. destruct (Hn i b ns Ei) as (p & H1 & H2 & H3). exists p. split; [exact H2|]. unfold put_file.
        destruct (String.eqb_spec p out) as [->|]; [|exact H3]. exfalso. cbn in H1. assert (i = List.length mods) by (apply (D i (List.length mods) out); auto;
          apply Nat.lt_le_incl, nth_error_Some; congruence). assert (i < List.length mods) by (apply nth_error_Some; congruence). lia. }
      split; [unfold put_file; now rewrite String.eqb_refl|].
      unfold merge_run. rewrite E, No. rewrite (RT _ _ (put_file out empty fs') Wd).
      destruct (tool _ _) as [[code stderr] fs2]. reflexivity.
  Qed.
  (** wasm-merge is run once, on the files of the modules in order; its output is what is delivered, if it writes nothing
      to standard error, and what it writes there is the error otherwise. *)
  Theorem C84_invoked : forall tool o mods fs out, runs_tool M tool -> enough_files (List.length mods) out ->
    Forall (fun x => plain_word (snd x)) mods ->
    exists named fl fs1, map snd named = map snd mods /\
      (forall i b ns, nth_error mods i = Some (b, ns) -> exists p, nth_error named i = Some (p, ns) /\ fs1 p = Some b) /\
      fs1 out = Some empty /\ (forall f, In f fl <-> o f = true) /\
      merge_run empty M o mods fs =
        let '(code, stderr, fs2) := tool ("wasm-merge" :: map flag_text fl ++ flat_map (fun p => [fst p; snd p]) named ++ ["-o"; out]) fs1 in
        if String.eqb stderr "" then match fs2 out with Some b => MOk b | None => MErr ReadFromOutputFileFailed end
        else MErr (MergeExecutionFailedReason stderr).
  Proof.
    intros tool o mods fs out RT EF Pn. destruct (@invoked tool o mods fs out RT EF Pn) as (named & fs1 & H1 & H2 & H3 & H4).
    exists named, (filter o flag_order), fs1. split; [exact H1|]. split; [exact H2|]. split; [exact H3|]. split; [|exact H4].
    intros f. rewrite filter_In. split; [tauto|]. intros H. split; [|exact H]. destruct f; cbn; tauto.
  Qed.
End Run.

(** The pipeline with wasm-merge run in this way. *)
Definition with_merge {B A L} (T : tools B A L) (empty : B) (M : machine) (fs : files) : tools B A L :=
  Tools (t_parse T) (t_encode T) (t_infer T) (t_ord_i T) (t_ord_c T) (t_compile_analysis T) (t_generate T) (t_compile_lib T)
    (fun mods => match merge_run empty M wastrument_flags mods fs with MOk b => Some b | MErr _ => None end).
Theorem C84_pipeline : forall B A L (T : tools B A L) empty M fs tool program analysis ai only sel out,
  runs_tool M tool -> (forall k, k <= 3 -> exists p, enough_files M k p) ->
  wastrument (with_merge T empty M fs) program analysis ai only sel = Done out ->
  exists m m' lib aw named fs1 fs2 code p,
    t_parse T program = Some m /\ t_compile_analysis T analysis = Some aw /\
    instrument (t_ord_i T) (t_ord_c T) (t_infer T) m ai only = IOk m' lib /\
    (exists f, In (f, "instrumented_input") named /\ fs1 f = Some (t_encode T m')) /\
    (exists f, In (f, "WASTRUMENTATION_ANALYSIS") named /\ fs1 f = Some aw) /\
    (forall sigs, lib = Some sigs -> exists f l, In (f, "wastrumentation_stack") named /\ t_compile_lib T (t_generate T sigs) = Some l /\ fs1 f = Some l) /\
    List.length named = (match lib with Some _ => 3 | None => 2 end) /\
    tool (["wasm-merge"; "--no-validation"; "--rename-export-conflicts"; "--enable-bulk-memory"; "--enable-multimemory"] ++
          flat_map (fun p => [fst p; snd p]) named ++ ["-o"; p]) fs1 = (code, "", fs2) /\
    fs2 p = Some out.
Proof.
  intros B A L T empty M fs tool program analysis ai only sel out RT EF E.
  destruct (C30_merge_order _ _ _ _ _ _ E) as (m & m' & lib & aw & args & Hp & Ha & Hi & Hm & (libs & Pm & Hl) & _).
  cbn [with_merge t_parse t_encode t_infer t_ord_i t_ord_c t_compile_analysis t_generate t_compile_lib t_merge] in *.
  assert (Ll : List.length args = match lib with Some _ => 3 | None => 2 end).
  { rewrite (Permutation_length Pm). destruct lib as [sigs|]; [destruct Hl as (l & _ & ->)|subst libs]; reflexivity. }
  destruct (EF (List.length args)) as (p & Ef); [rewrite Ll; destruct lib; lia|].
  assert (Pl : Forall (fun x => plain_word (snd x)) args).
  { apply Forall_forall. intros x Hx. apply (Permutation_in _ Pm) in Hx.
    destruct Hx as [<-|[<-|Hx]]; [split; [discriminate|reflexivity]..|].
    destruct lib as [sigs|]; [destruct Hl as (l & _ & ->)|subst libs; contradiction Hx]. destruct Hx as [<-|[]]. split; [discriminate|reflexivity]. }
  destruct (@invoked B empty M tool wastrument_flags args fs p RT Ef Pl) as (named & fs1 & Sn & Hn & Ho & R).
  assert (At : forall b ns, In (b, ns) args -> exists f, In (f, ns) named /\ fs1 f = Some b).
  { intros b ns Hx. apply In_nth_error in Hx as (i & Hx). destruct (Hn i b ns Hx) as (f & H1 & H2). exists f. split; [eapply nth_error_In, H1|exact H2]. }
  rewrite R in Hm. clear R.
  change ("wasm-merge" :: map flag_text (filter wastrument_flags flag_order) ++ ?x)
    with (["wasm-merge"; "--no-validation"; "--rename-export-conflicts"; "--enable-bulk-memory"; "--enable-multimemory"] ++ x) in Hm.
  destruct (tool _ fs1) as [[code stderr] fs2] eqn:Et.
  destruct (String.eqb_spec stderr "") as [->|]; [|discriminate Hm]. destruct (fs2 p) as [b|] eqn:Eb; [|discriminate Hm]. injection Hm as <-.
  exists m, m', lib, aw, named, fs1, fs2, code, p. split; [exact Hp|]. split; [exact Ha|]. split; [exact Hi|].
  split; [apply At, (Permutation_in _ (Permutation_sym Pm)); now left|].
  split; [apply At, (Permutation_in _ (Permutation_sym Pm)); right; now left|].
  split; [|split; [|split; [exact Et|exact Eb]]].
  - intros sigs ->. destruct Hl as (l & Hl & ->). destruct (At l "wastrumentation_stack") as (f & H1 & H2).
    { apply (Permutation_in _ (Permutation_sym Pm)). right. right. now left. }
    exists f, l. auto.
  - rewrite <- Ll, <- (map_length snd named), Sn. apply map_length.
Qed.

(** The exit status plays no role: a wasm-merge that dies without a word (killed for lack of memory, say) counts as a success and an
    empty module is delivered; one that succeeds but prints a warning counts as a failure. *)
Definition slots (k : nat) : option string := nth_error ["/tmp/.tmp0"; "/tmp/.tmp1"; "/tmp/.tmp2"; "/tmp/.tmp3"] k.
Definition with_tool {B} (tool : list string -> files -> Z * string * files) : @machine B :=
  Machine slots (fun _ => true) (fun cmd fs => match shell_words cmd with
    | Some words => let '(_, stderr, fs') := tool words fs in Some (stderr, fs') | None => None end).
Lemma with_tool_runs {B} tool : runs_tool (@with_tool B tool) tool.
Proof. intros cmd words fs E. cbn. rewrite E. destruct (tool words fs) as [[code stderr] fs']. reflexivity. Qed.
Lemma with_tool_files {B} tool k : k <= 3 -> exists p, enough_files (@with_tool B tool) k p.
Proof.
  intros Hk. assert (Pw : forall i p, slots i = Some p -> plain_word p).
  { intros i p E. do 4 (destruct i as [|i]; [injection E as <-; split; [discriminate|reflexivity]|]). destruct i; discriminate E. }
  assert (Some_ : forall i, i <= 3 -> exists p, slots i = Some p).
  { intros i Hi. do 4 (destruct i as [|i]; [eexists; reflexivity|]). lia. }
  destruct (Some_ k Hk) as (p & Ep). exists p. constructor.
  - intros i Hi. destruct (Some_ i) as (q & Eq); [lia|]. exists q. split; [exact Eq|]. split; [exact (Pw _ _ Eq)|reflexivity].
  - split; [exact Ep|exact (Pw _ _ Ep)].
  - intros i j q Hi Hj E1 E2. cbn in E1, E2. do 4 (destruct i as [|i]; [do 4 (destruct j as [|j]; [first [reflexivity | exfalso; rewrite <- E2 in E1; discriminate E1]|]); lia|]). lia.
Qed.
(** The modules of the example are lists of numbers. *)
Definition silent_crash (_ : list string) (fs : @files (list Z)) : Z * string * @files (list Z) := (137%Z, "", fs).
Definition cautious (words : list string) (fs : @files (list Z)) : Z * string * @files (list Z) :=
  (0%Z, "warning: unused import", put_file (last words "") [7%Z] fs).
Definition two_modules : list (list Z * string) := [([1%Z], "even"); ([2%Z], "odd")].
Theorem C84_exit_status_refuted :
  (exists M, runs_tool M silent_crash /\ enough_files M 2 "/tmp/.tmp2" /\
     (forall words fs, fst (fst (silent_crash words fs)) <> 0%Z) /\
     merge_run [] M wastrument_flags two_modules (fun _ => None) = MOk []) /\
  (exists M, runs_tool M cautious /\ enough_files M 2 "/tmp/.tmp2" /\
     (forall words fs, fst (fst (cautious words fs)) = 0%Z /\ snd (cautious words fs) (last words "") = Some [7%Z]) /\
     merge_run [] M wastrument_flags two_modules (fun _ => None) = MErr (MergeExecutionFailedReason "warning: unused import")).
Proof.
  split; [exists (with_tool silent_crash)|exists (with_tool cautious)];
    (split; [apply with_tool_runs|]; split; [destruct (@with_tool_files (list Z) silent_crash 2) as (p & [H1 [H2 H2'] H3]); [lia|]; cbn in H2; injection H2 as <-; constructor; [exact H1|now split|exact H3]|]).
  - split; [discriminate|vm_compute; reflexivity].
  - split; [|vm_compute; reflexivity]. intros words fs. split; [reflexivity|]. cbn. unfold put_file. now rewrite String.eqb_refl.
Qed.
(** C84: a wasm-merge that puts the modules of its arguments together. *)
Fixpoint inputs (words : list string) (fs : @files (list Z)) : list Z :=
  match words with
  | w :: rest => match fs w with Some b => b ++ inputs rest fs | None => inputs rest fs end
  | [] => []
  end.
Definition joining (words : list string) (fs : @files (list Z)) : Z * string * @files (list Z) :=
  (0%Z, "", put_file (last words "") (inputs words fs) fs).
Example ex_merge : exists M, runs_tool M joining /\ enough_files M 2 "/tmp/.tmp2" /\ Forall (fun x => plain_word (snd x)) two_modules /\
  merge_run [] M wastrument_flags two_modules (fun _ => None) = MOk [1%Z; 2%Z] /\
  shell_words (merge_command wastrument_flags [("/tmp/.tmp0", "even"); ("/tmp/.tmp1", "odd")] "/tmp/.tmp2") =
    Some ["wasm-merge"; "--no-validation"; "--rename-export-conflicts"; "--enable-bulk-memory"; "--enable-multimemory";
          "/tmp/.tmp0"; "even"; "/tmp/.tmp1"; "odd"; "-o"; "/tmp/.tmp2"].
Proof.
  exists (with_tool joining). split; [apply with_tool_runs|]. split.
  { destruct (@with_tool_files (list Z) silent_crash 2) as (p & [H1 [H2 H2'] H3]); [lia|]. cbn in H2. injection H2 as <-. constructor; [exact H1|now split|exact H3]. }
  split; [repeat constructor; discriminate|]. split; vm_compute; reflexivity.
Qed.
(** The pipeline on the example module, with a wasm-merge that delivers the module of the target. *)
Fixpoint target_of (words : list string) (fs : @files module) : module :=
  match words with
  | f :: ((ns :: _) as rest) => if String.eqb ns "instrumented_input" then match fs f with Some m => m | None => ex_module end else target_of rest fs
  | _ => ex_module
  end.
Definition picking (words : list string) (fs : @files module) : Z * string * @files module :=
  (0%Z, "", put_file (last words "") (target_of words fs) fs).
Example ex_merge_pipeline : exists M, runs_tool M picking /\ (forall k, k <= 3 -> exists p, enough_files M k p) /\
  exists m lib, instrument (fun l => l) (fun l => rev l) ex_types ex_module (std_ai (fun _ => true) true) None = IOk m lib /\
    wastrument (with_merge ex_tools ex_module M (fun _ => None)) ex_module tt (std_ai (fun _ => true) true) None (Some PAnalysis) = Done m.
Proof.
  exists (with_tool picking). split; [apply with_tool_runs|]. split; [intros k Hk; now apply with_tool_files|].
  do 2 eexists. split; vm_compute; reflexivity.
Qed.
Print Assumptions C83_command.
Print Assumptions C83_pipeline.
Print Assumptions C83_refuted.
Print Assumptions C84_invoked.
Print Assumptions C84_pipeline.
Print Assumptions C84_exit_status_refuted.

(** ** C85: the command-line tool *)
Lemma hook_args_distinct h k : hook_arg h = hook_arg k -> h = k.
Proof. destruct h, k; intros E; reflexivity || discriminate E. Qed.
Lemma find_hook h : find (fun k => String.eqb (hook_arg k) (hook_arg h)) cli_hooks = Some h.
Proof. destruct h; reflexivity. Qed.
Lemma cli_hook_same h : cli_hook h = h. Proof. destruct h; reflexivity. Qed.
Lemma parse_hooks_ok l hs : parse_hooks l = Some hs <-> l = map hook_arg hs.
Proof.
  revert hs. induction l as [|s l IH]; intros hs; cbn [parse_hooks].
  - split; [intros E; injection E as <-; reflexivity|]. destruct hs; [reflexivity|discriminate].
  - split.
    + destruct (find _ cli_hooks) as [h|] eqn:Ef; [|discriminate]. destruct (parse_hooks l) as [hs'|] eqn:El; [|discriminate].
      intros E. injection E as <-. apply find_some in Ef as (_ & Ef). apply String.eqb_eq in Ef. cbn [map]. rewrite Ef. f_equal. now apply IH.
    + destruct hs as [|h hs]; [discriminate|]. intros E. injection E as -> E. rewrite find_hook. apply IH in E. now rewrite E.
Qed.

(** The names of the variants of [Hook], and kebab case. *)
Definition variant_name (h : shook) : string :=
  match h with
  | SGenericApply => "GenericApply" | SCallPre => "CallPre" | SCallPost => "CallPost" | SCallIndirectPre => "CallIndirectPre"
  | SCallIndirectPost => "CallIndirectPost" | SIfThen => "IfThen" | SIfThenPost => "IfThenPost" | SIfThenElse => "IfThenElse"
  | SIfThenElsePost => "IfThenElsePost" | SBranch => "Branch" | SBranchIf => "BranchIf" | SBranchTable => "BranchTable"
  | SSelect => "Select" | SUnary => "Unary" | SBinary => "Binary" | SDrop => "Drop" | SReturn => "Return" | SConst => "Const"
  | SLocal => "Local" | SGlobal => "Global" | SStore => "Store" | SLoad => "Load" | SMemorySize => "MemorySize"
  | SMemoryGrow => "MemoryGrow" | SBlockPre => "BlockPre" | SBlockPost => "BlockPost" | SLoopPre => "LoopPre" | SLoopPost => "LoopPost"
  end.
Definition is_upper (c : ascii) : bool := ((65 <=? N_of_ascii c) && (N_of_ascii c <=? 90))%N.
Fixpoint kebab (first : bool) (s : string) : string :=
  match s with
  | EmptyString => EmptyString
  | String c s' =>
      if is_upper c then
        let low := String (ascii_of_N (N_of_ascii c + 32)) (kebab false s') in
        if first then low else String "-" low
      else String c (kebab false s')
  end.
Definition option_value (h : shook) : string := kebab true (variant_name h).
Lemma option_value_arg h : hook_arg h = option_value h. Proof. destruct h; reflexivity. Qed.
Lemma all_shooks_all h : In h all_shooks. Proof. destruct h; cbn; tauto. Qed.

(** The hooks that the options ask for. *)
Definition asked (hooks : option (list string)) (h : shook) : Prop :=
  match hooks with None => True | Some l => In (option_value h) l end.
Definition known (hooks : option (list string)) : Prop :=
  match hooks with None => True | Some l => forall w, In w l -> exists h, w = option_value h end.

Lemma parsed_known hooks : known hooks <->
  exists hs, match hooks with None => Some all_shooks | Some l => option_map (map cli_hook) (parse_hooks l) end = Some hs.
Proof.
  destruct hooks as [l|]; cbn [known]; [|split; eauto]. split.
  - intros K. assert (E : exists hs, l = map hook_arg hs).
    { induction l as [|w l IH]; [now exists []|]. destruct IH as (hs & ->); [intros; apply K; now right|].
      destruct (K w) as (h & ->); [now left|]. exists (h :: hs). cbn. now rewrite option_value_arg. }
    destruct E as (hs & E). apply parse_hooks_ok in E. rewrite E. cbn. eauto.
  - intros (hs & E) w Hw. destruct (parse_hooks l) as [hs'|] eqn:El; [|discriminate E]. apply parse_hooks_ok in El as ->.
    apply in_map_iff in Hw as (h & <- & _). exists h. apply option_value_arg.
Qed.
Lemma parsed_asked hooks hs :
  match hooks with None => Some all_shooks | Some l => option_map (map cli_hook) (parse_hooks l) end = Some hs ->
  forall h, In h hs <-> asked hooks h.
Proof.
  destruct hooks as [l|]; cbn [asked]; intros E h.
  - destruct (parse_hooks l) as [hs'|] eqn:El; [|discriminate E]. injection E as <-. apply parse_hooks_ok in El as ->.
    rewrite <- option_value_arg. rewrite (map_ext _ (fun x => x) cli_hook_same), map_id. split; [apply in_map|].
    intros Hw. apply in_map_iff in Hw as (k & E & Hk). now apply hook_args_distinct in E as <-.
  - injection E as <-. split; [easy|intros _; apply all_shooks_all].
Qed.

Section Cli.
  Context {B A L : Type}.

  (** The tool refuses exactly the option values that name no hook. *)
  Theorem C85_refuses : forall (T : tools B A L) ord program manifest hooks targets,
    cli_main T ord program manifest hooks targets = BadArguments <-> ~ known hooks.
  Proof.
    intros T ord program manifest hooks targets. rewrite parsed_known. unfold cli_main.
    destruct (match hooks with None => _ | Some l => _ end) as [hs|].
    - split; [|intros N; destruct N; eauto]. destruct (wastrument _ _ _ _ _ _); discriminate.
    - split; [|easy]. intros _ (hs & E). discriminate E.
  Qed.

  (** What the tool writes is the merge of the target, instrumented for exactly the hooks asked for (all of them when [--hooks] is
      absent), the library if one is needed, and the compiled analysis; the target imports every trap of the hooks asked for, no
      other, and none twice. *)
  Theorem C85_written : forall (T : tools B A L) ord program manifest hooks targets out m,
    (forall l, Permutation (ord l) l) -> (forall l, Permutation (t_ord_i T l) l) -> (forall l, Permutation (t_ord_c T l) l) ->
    t_parse T program = Some m -> analysis_imports m = [] ->
    cli_main T ord program manifest hooks targets = Written out ->
    exists hs m' sigs aw lib,
      (forall h, In h hs <-> asked hooks h) /\
      instrument (t_ord_i T) (t_ord_c T) (t_infer T) m (interface_from hs) targets = IOk m' sigs /\
      (forall nm ft, In (nm, ft) (analysis_imports m') <-> wanted hs nm ft) /\ NoDup (map fst (analysis_imports m')) /\
      t_compile_analysis T manifest = Some aw /\
      match sigs with
      | None => lib = []
      | Some s => exists l, t_compile_lib T (t_generate T s) = Some l /\ lib = [(l, "wastrumentation_stack")]
      end /\
      t_merge T ([(t_encode T m', "instrumented_input")] ++ lib ++ [(aw, "WASTRUMENTATION_ANALYSIS")]) = Some out.
  Proof.
    intros T ord program manifest hooks targets out m Po Pi Pc Em Na E. unfold cli_main in E.
    destruct (match hooks with None => _ | Some l => _ end) as [hs|] eqn:Eh; [|discriminate E].
    pose proof (parsed_asked _ Eh) as As. set (hs' := ord (nodup shook_eq_dec hs)) in *.
    assert (As' : forall h, In h hs' <-> asked hooks h).
    { intros h. rewrite <- As. unfold hs'. split; intros H.
      - apply (Permutation_in _ (Po _)) in H. now apply nodup_In in H.
      - apply (Permutation_in _ (Permutation_sym (Po _))). now apply nodup_In. }
    unfold wastrument in E. destruct (t_compile_analysis T manifest) as [aw|] eqn:Ea; [|discriminate E]. rewrite Em in E.
    destruct (instrument _ _ _ _ _ _) as [m' sigs| |] eqn:Ei; [|discriminate E|discriminate E].
    destruct (C23_imports_exact _ _ _ _ _ _ Pi Pc Na Ei) as (W & N).
    destruct sigs as [s|].
    - destruct (t_compile_lib T (t_generate T s)) as [l|] eqn:El; [|discriminate E]. cbn [option_map] in E.
      destruct (merge _ _ _ _ _) as [b|] eqn:Eb; [|discriminate E]. injection E as <-.
      exists hs', m', (Some s), aw, [(l, "wastrumentation_stack")]. repeat (split; [assumption || (eexists; split; eauto)|]). exact Eb.
    - destruct (merge _ _ _ _ _) as [b|] eqn:Eb; [|discriminate E]. injection E as <-.
      exists hs', m', None, aw, []. repeat (split; [assumption || reflexivity|]). exact Eb.
  Qed.

  Lemma wastrument_ext (T : tools B A L) program manifest hs hs' targets : (forall h, In h hs <-> In h hs') ->
    wastrument T program manifest (interface_from hs) targets None = wastrument T program manifest (interface_from hs') targets None.
  Proof.
    intros S_. unfold wastrument. destruct (t_compile_analysis T manifest); [|reflexivity]. destruct (t_parse T program); [|reflexivity].
    assert (D : forall h, (if in_dec shook_eq_dec h hs then true else false) = (if in_dec shook_eq_dec h hs' then true else false)).
    { intros h. destruct (in_dec _ h hs) as [H|H], (in_dec _ h hs') as [H'|H']; try reflexivity; apply S_ in H || apply S_ in H'; contradiction. }
    rewrite (instrument_ext (t_ord_i T) (t_ord_c T) (t_infer T) m (interface_from hs) (interface_from hs') targets); [reflexivity| |].
    - intros h. rewrite !interface_from_fields. specialize (D (family h)). now destruct (in_dec _ _ hs), (in_dec _ _ hs').
    - rewrite !interface_from_generic. specialize (D SGenericApply). now destruct (in_dec _ _ hs), (in_dec _ _ hs').
  Qed.
  (** Neither the order nor the repetition of the values, nor the iteration order of the hash set, changes what the tool does; leaving
      [--hooks] out is asking for every hook. *)
  Theorem C85_set : forall (T : tools B A L) ord ord' program manifest hooks hooks' targets,
    (forall l, Permutation (ord l) l) -> (forall l, Permutation (ord' l) l) -> known hooks -> known hooks' ->
    (forall h, asked hooks h <-> asked hooks' h) ->
    cli_main T ord program manifest hooks targets = cli_main T ord' program manifest hooks' targets.
  Proof.
    intros T ord ord' program manifest hooks hooks' targets Po Po' K K' S_. apply parsed_known in K as (hs & E). apply parsed_known in K' as (hs' & E').
    unfold cli_main. rewrite E, E'. pose proof (parsed_asked _ E) as As. pose proof (parsed_asked _ E') as As'.
    rewrite (@wastrument_ext T program manifest _ (ord' (nodup shook_eq_dec hs'))); [reflexivity|].
    intros h. transitivity (In h hs).
    - transitivity (In h (nodup shook_eq_dec hs)); [|apply nodup_In]. split; apply Permutation_in; [apply Po|apply Permutation_sym, Po].
    - transitivity (In h hs'); [rewrite As, As'; apply S_|].
      transitivity (In h (nodup shook_eq_dec hs')); [symmetry; apply nodup_In|]. split; apply Permutation_in; [apply Permutation_sym, Po'|apply Po'].
  Qed.
End Cli.

(** *** Example: the values in another order and repeated; a misspelt one. *)
Example ex_cli :
  known (Some ["load"; "generic-apply"; "return"; "load"]) /\
  (forall h, asked (Some ["load"; "generic-apply"; "return"; "load"]) h <-> asked (Some ["return"; "load"; "generic-apply"]) h) /\
  analysis_imports ex_module = [] /\
  match cli_main (ex_failing 4) (fun l => rev l) ex_module tt (Some ["load"; "generic-apply"; "return"; "load"]) None with
  | Written m' => map fst (analysis_imports m') =
      ["return_trap"; "trap_f32_load"; "trap_f64_load"; "trap_i32_load"; "trap_i64_load"; "generic_apply"]
  | _ => False
  end /\
  cli_main (ex_failing 4) (fun l => l) ex_module tt (Some ["load"; "genericapply"]) None = BadArguments.
Proof.
  split.
  { intros w [<-|[<-|[<-|[<-|[]]]]]; [exists SLoad|exists SGenericApply|exists SReturn|exists SLoad]; reflexivity. }
  split; [intros h; cbn [asked In]; tauto|]. split; [vm_compute; reflexivity|]. split; vm_compute; reflexivity.
Qed.
Print Assumptions C85_refuses.
Print Assumptions C85_written.
Print Assumptions C85_set.
