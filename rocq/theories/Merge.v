(** The crate wasm-merge, which runs the external program wasm-merge through bash, and the command-line tool of the
    repository. *)
From Coq Require Import Ascii.
From Verif Require Export Pipeline Interface.
Local Open Scope string_scope.
Local Open Scope list_scope.

(** ** wasm-merge/src/options.rs *)
(** The fields of [MergeOptions] that are options, wasm-merge/src/lib.rs L47-73. *)
Inductive flag :=
| NoValidation | RenameExportConflicts
| BulkMemory | BulkMemoryOpt | CallIndirectOverlong | ExtendedConst | ExceptionHandling | Fp16 | Gc | Memory64
| Multimemory | Multivalue | MutableGlobals | NontrappingFloatToInt | ReferenceTypes | RelaxedSimd | SharedEverything
| SignExt | Simd | Strings | TailCall | Threads | TypedContinuations.
(** [as_option] of an enabled option, options.rs L5-23 and L25-72. *)
Definition flag_text (f : flag) : string :=
  match f with
  | NoValidation => "--no-validation" | RenameExportConflicts => "--rename-export-conflicts"
  | SignExt => "--enable-sign-ext" | Threads => "--enable-threads" | MutableGlobals => "--enable-mutable-globals"
  | NontrappingFloatToInt => "--enable-nontrapping-float-to-int" | Simd => "--enable-simd"
  | BulkMemory => "--enable-bulk-memory" | BulkMemoryOpt => "--enable-bulk-memory-opt"
  | CallIndirectOverlong => "--enable-call-indirect-overlong" | ExceptionHandling => "--enable-exception-handling"
  | TailCall => "--enable-tail-call" | ReferenceTypes => "--enable-reference-types" | Multivalue => "--enable-multivalue"
  | Gc => "--enable-gc" | Memory64 => "--enable-memory64" | RelaxedSimd => "--enable-relaxed-simd"
  | ExtendedConst => "--enable-extended-const" | Strings => "--enable-strings" | Multimemory => "--enable-multimemory"
  | TypedContinuations => "--enable-typed-continuations" | SharedEverything => "--enable-shared-everything"
  | Fp16 => "--enable-fp16"
  end.
(** [as_option], options.rs L14-21: [Enable] or [Disable]. *)
Definition as_option (o : flag -> bool) (f : flag) : string := if o f then flag_text f else "".

(** ** wasm-merge/src/lib.rs *)
(** The fields listed by [as_bash_arguments], L153-179. *)
Definition flag_order : list flag :=
  [NoValidation; RenameExportConflicts; SignExt; Threads; MutableGlobals; NontrappingFloatToInt; Simd; BulkMemory; BulkMemoryOpt;
   CallIndirectOverlong; ExceptionHandling; TailCall; ReferenceTypes; Multivalue; Gc; Memory64; RelaxedSimd; ExtendedConst; Strings;
   Multimemory; TypedContinuations; SharedEverything; Fp16].
(** [as_bash_arguments], with the format string of [as_bash_args!], L28-37. *)
Definition as_bash_arguments (o : flag -> bool) : string :=
  String.concat "" (map (fun f => " " ++ as_option o f ++ " ")%string flag_order).
(** [merge_command], L106-128, for modules in files with the given paths, each with its namespace. *)
Definition merge_command (o : flag -> bool) (named : list (string * string)) (out : string) : string :=
  ("wasm-merge" ++ " " ++ as_bash_arguments o ++ " "
    ++ String.concat " " (map (fun p => fst p ++ " " ++ snd p) named) ++ " -o " ++ out)%string.

(** The errors, wasm-merge/src/error.rs L4-20. *)
Inductive merge_error :=
| TempInputFileCreationFailed | TempInputFileWriteFailed | TempOutputFileCreationFailed | MergeExecutionFailed
| MergeExecutionFailedReason (stderr : string) | ReadFromOutputFileFailed.
(** The result of [merge], L81. *)
Inductive merge_result (B : Type) := MOk (b : B) | MErr (e : merge_error).
Arguments MOk {B} b.
Arguments MErr {B} e.

Section Files.
  Context {B : Type}.
  (** The contents of files by path. *)
  Definition files := string -> option B.
  (** Auxiliary: a file (over)written. *)
  Definition put_file (p : string) (b : B) (fs : files) : files := fun q => if String.eqb q p then Some b else fs q.
  (** What the operating system does: the path of the k-th temporary file (or an error), whether writing it works, and
      the outcome of running bash: what is written to its standard error, and the files afterwards ([None]: it could
      not be started). *)
  Record machine := Machine {
    mc_new : nat -> option string;
    mc_write : nat -> bool;
    mc_bash : string -> files -> option (string * files) }.
  (** The content of a new file. *)
  Variable empty : B.
  Variable M : machine.
  (** L90-104: the input files, up to the first error. *)
  Fixpoint stage (k : nat) (mods : list (B * string)) (fs : files) : merge_error + list (string * string) * files :=
    match mods with
    | [] => inr ([], fs)
    | (b, ns) :: mods' =>
        match mc_new M k with
        | None => inl TempInputFileCreationFailed
        | Some p =>
            if mc_write M k then
              match stage (S k) mods' (put_file p b fs) with
              | inr (named, fs') => inr ((p, ns) :: named, fs')
              | inl e => inl e
              end
            else inl TempInputFileWriteFailed
        end
    end.
  (** [MergeOptions::merge], L81-151, for the modules [merge_arguments] of the primary and the input modules; the exit
      status of the command is not looked at. Reading goes by the path of the output file (the code has it open). *)
  Definition merge_run (o : flag -> bool) (mods : list (B * string)) (fs : files) : merge_result B :=
    match stage 0 mods fs with
    | inl e => MErr e
    | inr (named, fs1) =>
        match mc_new M (List.length mods) with                                (* L115-116 *)
        | None => MErr TempOutputFileCreationFailed
        | Some out =>
            match mc_bash M (merge_command o named out) (put_file out empty fs1) with  (* L118-138 *)
            | None => MErr MergeExecutionFailed
            | Some (stderr, fs2) =>
                if String.eqb stderr "" then                                  (* L140-143 *)
                  match fs2 out with Some b => MOk b | None => MErr ReadFromOutputFileFailed end  (* L145-150 *)
                else MErr (MergeExecutionFailedReason stderr)
            end
        end
    end.
End Files.

(** The options the pipeline sets, wastrumentation/src/lib.rs L192-200. *)
Definition wastrument_flags (f : flag) : bool :=
  match f with NoValidation | RenameExportConflicts | Multimemory | BulkMemory => true | _ => false end.

(** ** bash *)
(** The characters bash gives a meaning to, other than blanks. *)
Definition meta_chars : list ascii := list_ascii_of_string "|&;()<>$`\*?[]#~=%!{}'" ++ [ascii_of_nat 34].
(** Blanks and line ends. *)
Definition blank_chars : list ascii := [" "; ascii_of_nat 9; ascii_of_nat 10; ascii_of_nat 13]%char.
Definition among (l : list ascii) (c : ascii) : bool := existsb (Ascii.eqb c) l.
(** A word of letters bash gives no meaning to, not empty. *)
Definition plain_word (s : string) : Prop :=
  s <> "" /\ forallb (fun c => negb (among meta_chars c || among blank_chars c)) (list_ascii_of_string s) = true.
(** Text split at blanks; [w] is the word read so far, reversed. *)
Fixpoint split_blanks (w : list ascii) (l : list ascii) : list string :=
  match l with
  | [] => match w with [] => [] | _ => [string_of_list_ascii (rev w)] end
  | c :: l' =>
      if among blank_chars c then
        match w with [] => split_blanks [] l' | _ => string_of_list_ascii (rev w) :: split_blanks [] l' end
      else split_blanks (c :: w) l'
  end.
(** The words of a command without characters of special meaning; [None] if there are any (it may then be more than
    one command, or its words may not be what they seem). *)
Definition shell_words (cmd : string) : option (list string) :=
  let l := list_ascii_of_string cmd in
  if existsb (among meta_chars) l then None else Some (split_blanks [] l).
(** bash runs the program named by the first word with the other words as arguments; the program gives an exit status,
    output on standard error, and changes files. *)
Definition runs_tool {B} (M : @machine B) (tool : list string -> files -> Z * string * files) : Prop :=
  forall cmd words fs, shell_words cmd = Some words ->
    mc_bash M cmd fs = Some (let '(code, stderr, fs') := tool words fs in (stderr, fs')).

(** ** cli/src/main.rs *)
(** [From<&Hook> for AnalysisHook], L69-102; the enum [Hook] of L38-67 has the variants of [shook]. *)
Definition cli_hook (h : shook) : shook :=
  match h with
  | SGenericApply => SGenericApply | SCallPre => SCallPre | SCallPost => SCallPost | SCallIndirectPre => SCallIndirectPre
  | SCallIndirectPost => SCallIndirectPost | SIfThen => SIfThen | SIfThenPost => SIfThenPost | SIfThenElse => SIfThenElse
  | SIfThenElsePost => SIfThenElsePost | SBranch => SBranch | SBranchIf => SBranchIf | SBranchTable => SBranchTable
  | SSelect => SSelect | SUnary => SUnary | SBinary => SBinary | SDrop => SDrop | SReturn => SReturn | SConst => SConst
  | SLocal => SLocal | SGlobal => SGlobal | SStore => SStore | SLoad => SLoad | SMemorySize => SMemorySize
  | SMemoryGrow => SMemoryGrow | SBlockPre => SBlockPre | SBlockPost => SBlockPost | SLoopPre => SLoopPre | SLoopPost => SLoopPost
  end.
(** The values of [--hooks] as clap's [ValueEnum] (L38) names them: the variants in kebab case. *)
Definition hook_arg (h : shook) : string :=
  match h with
  | SGenericApply => "generic-apply" | SCallPre => "call-pre" | SCallPost => "call-post"
  | SCallIndirectPre => "call-indirect-pre" | SCallIndirectPost => "call-indirect-post" | SIfThen => "if-then"
  | SIfThenPost => "if-then-post" | SIfThenElse => "if-then-else" | SIfThenElsePost => "if-then-else-post"
  | SBranch => "branch" | SBranchIf => "branch-if" | SBranchTable => "branch-table" | SSelect => "select" | SUnary => "unary"
  | SBinary => "binary" | SDrop => "drop" | SReturn => "return" | SConst => "const" | SLocal => "local" | SGlobal => "global"
  | SStore => "store" | SLoad => "load" | SMemorySize => "memory-size" | SMemoryGrow => "memory-grow" | SBlockPre => "block-pre"
  | SBlockPost => "block-post" | SLoopPre => "loop-pre" | SLoopPost => "loop-post"
  end.
(** The variants of [Hook], L38-67, in order. *)
Definition cli_hooks : list shook := all_shooks.
(** clap: each value is looked up; an unknown one ends the program. *)
Fixpoint parse_hooks (l : list string) : option (list shook) :=
  match l with
  | [] => Some []
  | s :: l' =>
      match find (fun h => String.eqb (hook_arg h) s) cli_hooks, parse_hooks l' with
      | Some h, Some hs => Some (h :: hs)
      | _, _ => None
      end
  end.
(** What a run of the tool comes to: the output written; an error of clap; a panic at the [expect] of L143. *)
Inductive cli_outcome (B : Type) := Written (b : B) | BadArguments | Aborted.
Arguments Written {B} b.
Arguments BadArguments {B}.
Arguments Aborted {B}.
(** [main], L104-148; [ord] is the iteration order of the hash set of hooks (L117, [collect]). Reading the input and writing the
    output are taken to work. *)
Definition cli_main {B A L} (T : tools B A L) (ord : list shook -> list shook) (program : B) (manifest : A)
    (hooks : option (list string)) (targets : option (list nat)) : cli_outcome B :=
  match match hooks with None => Some all_shooks | Some l => option_map (map cli_hook) (parse_hooks l) end with
  | None => BadArguments
  | Some hs =>
      match wastrument T program manifest (interface_from (ord (nodup shook_eq_dec hs))) targets None with
      | Done out => Written out
      | _ => Aborted
      end
  end.
