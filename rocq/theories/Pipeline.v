(** The top-level pipeline: compile the analysis, instrument the program, compile the
    generated buffer library and merge the modules. *)
From Verif Require Export Instrument.
Local Open Scope string_scope.
Local Open Scope list_scope.

(** [PrimaryTarget], wastrumentation/src/lib.rs L51-56. *)
Inductive primary := PInstrumentation | PTarget | PAnalysis.

(** [INSTRUMENTATION_INSTRUMENTED_MODULE],
    wastrumentation/src/instrument/function_application.rs L19-21 (the other two constants
    are [analysis_ns] and [stack_ns]). *)
Definition target_ns : string := "instrumented_input".

(** Everything the pipeline takes from outside: the module parser and encoder, the type
    inference, the iteration orders of the two hash sets, the two compilers, the library
    generator and the external program wasm-merge. The latter receives the list of
    (module, namespace) arguments in order; for its fixed flags (lib.rs L192-200) and the
    temporary files (wasm-merge/src/lib.rs L95-104) see Merge.v. [None] is an error. *)
Record tools (B A L : Type) := Tools {
  t_parse : B -> option module;
  t_encode : module -> B;
  t_infer : nat -> list low -> option (list ity);
  t_ord_i : list nat -> list nat;
  t_ord_c : list nat -> list nat;
  t_compile_analysis : A -> option B;
  t_generate : list functy -> L;
  t_compile_lib : L -> option B;
  t_merge : list (B * string) -> option B }.

(** Outcome of [wastrument]: the merged module, one of the four kinds of error of
    wastrumentation/src/error.rs, or a panic. *)
Inductive outcome (B : Type) :=
| Done (b : B) | ErrAnalysis | ErrInstrument | ErrLib | ErrMerge | Panicked.
Arguments Done {B} b.
Arguments ErrAnalysis {B}.
Arguments ErrInstrument {B}.
Arguments ErrLib {B}.
Arguments ErrMerge {B}.
Arguments Panicked {B}.

Section Pipeline.
  Variables (B A L : Type).

  (** [MergeOptions::merge], wasm-merge/src/lib.rs L90-112: the primary module, if any,
      followed by the other modules. *)
  Definition merge_arguments (p : option (B * string)) (input_modules : list (B * string)) : list (B * string) :=
    match p with Some x => [x] | None => [] end ++ input_modules.

  (** [into_iter().flatten()], lib.rs L190. *)
  Definition flatten (l : list (option (B * string))) : list (B * string) :=
    flat_map (fun o => match o with Some x => [x] | None => [] end) l.

  (** [merge], lib.rs L146-202. *)
  Definition merge (T : tools B A L) (sel : option primary) (target analysis : B) (lib : option B) : option B :=
    let input_analysis := Some (analysis, analysis_ns) in
    let input_target := Some (target, target_ns) in
    let input_instrumentation := option_map (fun l => (l, stack_ns)) lib in
    let '(p, input_modules) :=
      match sel with
      | Some PAnalysis => (input_analysis, [input_target; input_instrumentation])
      | Some PTarget => (input_target, [input_analysis; input_instrumentation])
      | Some PInstrumentation => (input_instrumentation, [input_target; input_analysis])
      | None => (None, [input_target; input_instrumentation; input_analysis])
      end in
    t_merge T (merge_arguments p (flatten input_modules)).

  (** [wastrument], lib.rs L90-144. *)
  Definition wastrument (T : tools B A L) (program : B) (analysis : A) (ai : interface)
      (only : option (list nat)) (sel : option primary) : outcome B :=
    match t_compile_analysis T analysis with                                  (* L105-110 *)
    | None => ErrAnalysis
    | Some analysis_wasm =>
        match t_parse T program with                                          (* L112-120 *)
        | None => ErrInstrument
        | Some m =>
            match instrument (t_ord_i T) (t_ord_c T) (t_infer T) m ai only with
            | IErr _ => ErrInstrument
            | IPanic => Panicked
            | IOk m' lib =>
                let compiled :=                                               (* L122-132 *)
                  match lib with
                  | Some sigs => option_map Some (t_compile_lib T (t_generate T sigs))
                  | None => Some None
                  end in
                match compiled with
                | None => ErrLib
                | Some clib =>
                    match merge T sel (t_encode T m') analysis_wasm clib with (* L135-140 *)
                    | None => ErrMerge
                    | Some out => Done out
                    end
                end
            end
        end
    end.
End Pipeline.
