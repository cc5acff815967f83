(** Specification of the instrumented body as a single weave: at every instruction, the code
    that calls the enabled hooks around it. Uses the operator typing of the WebAssembly
    specification, not the repository's operator tables. *)
From Verif Require Export Hooks BrTable.

Section Weave.
  (** [H h]: index of the trap function of hook [h], when enabled. *)
  Variable H : hook -> option nat.
  (** [hf p]: index of the helper function for the branch table at position [p]. *)
  Variable hf : nat -> nat.

  Definition synth (m : meta) (b : basic) : tinstr :=
    TBasic (Meta (m_fun m) (m_pos m) IUnreach true) b.

  (** Call the hook, when enabled, with the given code pushing operands, then the location. *)
  Definition point (h : hook) (m : meta) (operands : list basic) : list tinstr :=
    match H h with
    | None => []
    | Some f => map (synth m) (operands ++
                  [BConst TI64 (Z.of_nat (m_fun m)); BConst TI64 (Z.of_nat (m_pos m)); BCall f])
    end.
  (** Call the hook in place of the original, when enabled. *)
  Definition instead (h : hook) (m : meta) (operands : list basic) (original : list tinstr) :=
    match H h with None => original | Some _ => point h m operands end.

  (** Constants to push. *)
  Definition i32c (n : nat) : basic := BConst TI32 (Z.of_nat n).
  Definition i64c (n : nat) : basic := BConst TI64 (Z.of_nat n).

  (** The hook on binary operators by the types of operands and result. *)
  Definition binary_class (a r : numty) : option binkind :=
    match a, r with
    | TI32, TI32 => Some BkI32
    | TI64, TI32 => Some BkI64I32
    | TF32, TI32 => Some BkF32I32
    | TF64, TI32 => Some BkF64I32
    | TI64, TI64 => Some BkI64
    | TF32, TF32 => Some BkF32
    | TF64, TF64 => Some BkF64
    | _, _ => None
    end.

  (** The code around, or in place of, an instruction of the program. Instructions that the instrumentation itself added are left alone. *)
  Definition weave_basic (m : meta) (b : basic) : list tinstr :=
    let orig := [TBasic m b] in
    if m_gen m then orig else
    match b with
    | BSelect | BTypedSelect _ => point HkSelect m [] ++ orig
    | BCall g => point HkCallPre m [i32c g] ++ orig ++ point HkCallPost m [i32c g]
    | BCallIndirect _ t => point HkCallIndPre m [i32c t] ++ orig ++ point HkCallIndPost m [i32c t]
    | BBr l => point HkBr m [i64c l] ++ orig
    | BBrIf l => point HkBrIf m [i32c l] ++ orig
    | BBrTable _ d => point HkBrTable m [BCall (hf (m_pos m)); i32c d] ++ orig
    | BReturn => point HkReturn m [] ++ orig
    | BDrop => point HkDrop m [] ++ orig
    | BConst t _ => orig ++ point (HkConst t) m []
    | BUnary o => instead (HkUnary (unop_in o) (unop_out o)) m [BConst TI32 (unop_code o)] orig
    | BBinary o =>
        match binary_class (binop_in o) (binop_out o) with
        | Some k => instead (HkBinary k) m [BConst TI32 (binop_code o)] orig
        | None => orig
        end
    | BMemorySize i => orig ++ point HkMemorySize m [i64c i]
    | BMemoryGrow i => instead HkMemoryGrow m [i64c i] orig
    | BLocal o i =>
        match o, m_ty m with
        | LGet, IReach (FT [] [TNum t]) => orig ++ point (HkLocal LGet t) m [i64c i]
        | LSet, IReach (FT [TNum t] []) => point (HkLocal LSet t) m [i64c i] ++ orig
        | LTee, IReach (FT [TNum t] [TNum t']) =>
            if numty_eqb t t' then point (HkLocal LTee t) m [i64c i] ++ orig else orig
        | _, _ => orig
        end
    | BGlobal o i =>
        match o, m_ty m with
        | GGet, IReach (FT [] [TNum t]) => orig ++ point (HkGlobal GGet t) m [i64c i]
        | GSet, IReach (FT [TNum t] []) => point (HkGlobal GSet t) m [i64c i] ++ orig
        | _, _ => orig
        end
    | BStore o ma =>
        instead (HkStore (storeop_ty o)) m [BConst TI64 (ma_offset ma); BConst TI32 (storeop_code o)] orig
    | BLoad o ma =>
        instead (HkLoad (loadop_ty o)) m [BConst TI64 (ma_offset ma); BConst TI32 (loadop_code o)] orig
    | _ => orig
    end.

  (** The arities pushed by the structured hooks. *)
  Definition arity (ft : functy) : list basic :=
    [i32c (List.length (ft_in ft)); i32c (List.length (ft_out ft))].

  (** The same for all instructions. *)
  Fixpoint weave1 (i : tinstr) : list tinstr :=
    match i with
    | TBasic m b => weave_basic m b
    | TBlock m ft body =>
        let body' := flat_map weave1 body in
        if m_gen m then [TBlock m ft body'] else
        [TBlock m ft (point HkBlockPre m (arity ft) ++ body' ++ point HkBlockPost m [])]
    | TLoop m ft body =>
        let body' := flat_map weave1 body in
        if m_gen m then [TLoop m ft body'] else
        [TLoop m ft (point HkLoopPre m (arity ft) ++ body' ++ point HkLoopPost m [])]
    | TIf m ft thn None =>
        let thn' := flat_map weave1 thn in
        if m_gen m then [TIf m ft thn' None] else
        point HkIfThen m (arity ft) ++
        match H HkIfThenPost with
        | None => [TIf m ft thn' None]
        | Some _ => [TIf (Meta (m_fun m) (m_pos m) IUnreach true) ft
                         (thn' ++ point HkIfThenPost m []) (Some (point HkIfThenPost m []))]
        end
    | TIf m ft thn (Some els) =>
        let thn' := flat_map weave1 thn in
        let els' := flat_map weave1 els in
        if m_gen m then [TIf m ft thn' (Some els')] else
        point HkIfThenElse m (arity ft) ++
        [TIf m ft (thn' ++ point HkIfThenElsePost m []) (Some (els' ++ point HkIfThenElsePost m []))]
    end.
  (** The same for a sequence. *)
  Definition weave (body : list tinstr) : list tinstr := flat_map weave1 body.
End Weave.

(** The branch tables of a body that will be instrumented, in source order. *)
Fixpoint br_tables1 (i : tinstr) : list (nat * (list nat * nat)) :=
  match i with
  | TBasic m (BBrTable t d) => if m_gen m then [] else [(m_pos m, (t, d))]
  | TBasic _ _ => []
  | TBlock _ _ body | TLoop _ _ body => flat_map br_tables1 body
  | TIf _ _ thn els =>
      flat_map br_tables1 thn ++ match els with Some e => flat_map br_tables1 e | None => [] end
  end.
(** The branch tables of a body, in order. *)
Definition br_tables (body : list tinstr) := flat_map br_tables1 body.

(** The helper function of a branch table, and the index it gets when the helpers of [bts]
    are appended, in order, to a module of [n] functions. *)
Definition helper_fn (x : nat * (list nat * nat)) : func :=
  Fn br_helper_type
     (FPresent [t_i32] (br_helper_body (map Z.of_nat (fst (snd x))) (Z.of_nat (snd (snd x))))) [].
(** Index of the helper of the branch table at position [p]. *)
Fixpoint helper_index (n : nat) (bts : list (nat * (list nat * nat))) (p : nat) : nat :=
  match bts with
  | [] => n
  | (q, _) :: r => if Nat.eqb p q then n else helper_index (S n) r p
  end.

(** Enabling one more hook. *)
Definition enable (H : hook -> option nat) (h : hook) (f : nat) : hook -> option nat :=
  fun h' => if hook_eq_dec h' h then Some f else H h'.
(** The hooks enabled by a list of pairs of hook and function, the last one for a hook counting. *)
Definition enabled_in (ts : list (hook * nat)) : hook -> option nat :=
  fold_left (fun H t => enable H (fst t) (snd t)) ts (fun _ => None).

(** Every index in the body fits the constant it is pushed as. *)
Definition fits32 (n : nat) : Prop := (Z.of_nat n < 2 ^ 31)%Z.
(** The same for 64-bit constants. *)
Definition fits64 (n : nat) : Prop := (Z.of_nat n < 2 ^ 63)%Z.
(** Counts of parameters and results fit. *)
Definition fits_ft (ft : functy) : Prop :=
  fits32 (List.length (ft_in ft)) /\ fits32 (List.length (ft_out ft)).
(** The indices in an instruction fit. *)
Definition fits_basic (b : basic) : Prop :=
  match b with
  | BCall g => fits32 g
  | BCallIndirect _ t => fits32 t
  | BBrIf l => fits32 l
  | BBrTable t d => Forall fits32 t /\ fits32 d
  | _ => True
  end.
(** The same for all instructions; positions are pushed as 64-bit constants. *)
Fixpoint fits1 (i : tinstr) : Prop :=
  match i with
  | TBasic m b => fits64 (m_pos m) /\ fits_basic b
  | TBlock m ft body | TLoop m ft body =>
      fits64 (m_pos m) /\ fits_ft ft /\ fold_right (fun x P => fits1 x /\ P) True body
  | TIf m ft thn els =>
      fits64 (m_pos m) /\ fits_ft ft /\ fold_right (fun x P => fits1 x /\ P) True thn /\
      match els with Some e => fold_right (fun x P => fits1 x /\ P) True e | None => True end
  end.
(** The same for a sequence. *)
Definition fits (body : list tinstr) : Prop := fold_right (fun x P => fits1 x /\ P) True body.
