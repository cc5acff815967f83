(** The static analysis that reports immutable functions:
    wastrumentation-static-analysis/src/lib.rs. *)
From Verif Require Export Nesting.

(** [Purity], [PurityEstimate] and [AnalysisTargetFunction], lib.rs L6-24. *)
Inductive purity := PUnknown (body : list tinstr) | PPure | PImpure.
(** [PurityEstimate], lib.rs L6-24. *)
Inductive estimate := EUnknown | EPure | EImpure.
(** [AnalysisTargetFunction], lib.rs L6-24. *)
Record target := AT { at_index : nat; at_purity : purity }.

(** The search in [is_pure] for the target of a call, L177-187; [None] is the panic of its
    [expect]. *)
Fixpoint find_target (ts : list target) (f : nat) : option purity :=
  match ts with
  | [] => None
  | t :: r => if Nat.eqb (at_index t) f then Some (at_purity t) else find_target r f
  end.

(** What [is_pure] does at an instruction without a body, L149-204: [Some EPure] stands for
    [continue]. *)
Definition is_pure_basic (index : nat) (ts : list target) (b : basic) : option estimate :=
  match b with
  | BBrTable _ _ | BBr _ | BBrIf _ | BUnreachable | BNop | BReturn | BRefNull _ | BRefIsNull
  | BRefFunc _ | BDrop | BSelect | BTypedSelect _ | BConst _ _ | BUnary _ | BLocal _ _ | BBinary _ =>
      Some EPure
  | BCall f =>
      if Nat.eqb index f then Some EPure
      else match find_target ts f with
           | None => None
           | Some (PUnknown _) => Some EUnknown
           | Some PImpure => Some EImpure
           | Some PPure => Some EPure
           end
  | BGlobal _ _ | BTableGet _ | BTableSet _ | BTableSize _ | BTableGrow _ | BTableFill _
  | BTableCopy _ _ | BTableInit _ _ | BElemDrop _ | BLoad _ _ | BStore _ _ | BMemorySize _
  | BMemoryGrow _ | BMemoryFill | BMemoryCopy | BMemoryInit _ | BDataDrop _ | BCallIndirect _ _ =>
      Some EImpure
  end.

(** The [for] loop of [is_pure], L123-206: the first estimate other than pure is returned. *)
Section Scan.
  Context {I : Type} (f : I -> option estimate).
  Fixpoint scan (l : list I) : option estimate :=
    match l with
    | [] => Some EPure
    | i :: r => match f i with Some EPure => scan r | e => e end
    end.
End Scan.

(** The body of that loop, L124-205. *)
Fixpoint is_pure1 (index : nat) (ts : list target) (i : tinstr) : option estimate :=
  match i with
  | TBasic _ b => is_pure_basic index ts b
  | TBlock _ _ body | TLoop _ _ body | TIf _ _ body None => scan (is_pure1 index ts) body
  | TIf _ _ thn (Some els) =>
      match scan (is_pure1 index ts) thn with
      | Some EPure => scan (is_pure1 index ts) els
      | e => e
      end
  end.

(** [is_pure], L118-207. *)
Definition is_pure (index : nat) (body : list tinstr) (ts : list target) : option estimate :=
  scan (is_pure1 index ts) body.

(** Auxiliary: nothing in the repository corresponds to it. *)
Fixpoint all_some {A} (l : list (option A)) : option (list A) :=
  match l with
  | [] => Some []
  | None :: _ => None
  | Some x :: r => match all_some r with Some xs => Some (x :: xs) | None => None end
  end.

(** One round, L53-72: every target is judged against the targets before the round. *)
Definition judge (ts : list target) (t : target) : option target :=
  match at_purity t with
  | PPure | PImpure => Some t
  | PUnknown body =>
      match is_pure (at_index t) body ts with
      | None => None
      | Some EUnknown => Some t
      | Some EPure => Some (AT (at_index t) PPure)
      | Some EImpure => Some (AT (at_index t) PImpure)
      end
  end.
(** One round, L53-72. *)
Definition round (ts : list target) : option (list target) := all_some (map (judge ts) ts).

(** The comparison at the end of a round, L74-92. *)
Definition estimate_of (t : target) : estimate :=
  match at_purity t with PUnknown _ => EUnknown | PPure => EPure | PImpure => EImpure end.
(** Derived [PartialEq] of [Purity]. *)
Definition estimate_eqb (a b : estimate) : bool :=
  match a, b with EUnknown, EUnknown | EPure, EPure | EImpure, EImpure => true | _, _ => false end.
(** The comparison of L74-92. *)
Definition no_more_findings (ts ts' : list target) : bool :=
  list_eqb estimate_eqb (map estimate_of ts) (map estimate_of ts').

(** The loop, L95-103, watched for at most [k] rounds: it has finished after some number of
    rounds, has panicked, or is still running. *)
Inductive outcome := Finished (rounds : nat) (ts : list target) | Panicked | Running.
(** The loop, L95-103. *)
Fixpoint iterate (k : nat) (ts : list target) : outcome :=
  match k with
  | O => Running
  | S k' =>
      match round ts with
      | None => Panicked
      | Some ts' =>
          if no_more_findings ts ts' then Finished 1 ts'
          else match iterate k' ts' with
               | Finished n r => Finished (S n) r
               | o => o
               end
      end
  end.

(** The initial targets, L32-49: a function with code is unknown, an import impure; the
    [unwrap] panics if a body does not convert. [infer] is the external type checker. *)
Definition initial_target (infer : nat -> list low -> option (list ity)) (f : nat) (fn : func)
  : option target :=
  match fn_code fn with
  | FPresent _ code =>
      match structure_typed f (infer f) code with
      | COk body => Some (AT f (PUnknown body))
      | _ => None
      end
  | FImport _ _ => Some (AT f PImpure)
  end.
(** The initial targets from index [f] on, L32-49. *)
Fixpoint initial_from (infer : nat -> list low -> option (list ity)) (f : nat) (fs : list func)
  : list (option target) :=
  match fs with
  | [] => []
  | fn :: r => initial_target infer f fn :: initial_from infer (S f) r
  end.
(** The initial targets, L32-49. *)
Definition initial (infer : nat -> list low -> option (list ity)) (m : module) : option (list target) :=
  all_some (initial_from infer 0 (md_funcs m)).

(** The reported indices, L105-110. *)
Definition reported (ts : list target) : list nat :=
  map at_index (filter (fun t => match at_purity t with PPure => true | _ => false end) ts).

(** [immutable_functions], L31-111, given at most [k] rounds. *)
Inductive verdict := Immutable (rounds : nat) (fs : list nat) | VPanic | VRunning.
(** [immutable_functions], L31-111. *)
Definition immutable_functions (k : nat) infer (m : module) : verdict :=
  match initial infer m with
  | None => VPanic
  | Some ts =>
      match iterate k ts with
      | Finished n ts' => Immutable n (reported ts')
      | Panicked => VPanic
      | Running => VRunning
      end
  end.
