(** The WASP advice language: the part of the grammar that concerns apply advice, the
    validation of the syntax tree, the join points, the interface and the functions exported
    by the generated AssemblyScript program. *)
From Verif Require Export Interface.
Local Open Scope string_scope.
Local Open Scope list_scope.

(** ** Syntax tree produced by the parser, wasp-compiler/src/ast/pest/mod.rs *)

(** [TypedArgument], L275-282. *)
Record typed_arg := TA { ta_id : string; ta_type : string }.
(** [ApplyHookSignature], L171-215. *)
Inductive papply :=
| PGen (f : string) (arg res : typed_arg)
| PSpeInter (f : string) (args ress : list typed_arg)
| PSpeIntro (f : string) (args ress : list typed_arg).
(** [pre] or [post], [CallQualifier] of the grammar's tree. *)
Inductive qualifier := Pre | Post.
(** [TrapSignature], L64-80; the guest code is opaque text. *)
Inductive ptrap :=
| PApply (s : papply) (body : string)
| PCall (q : qualifier) (target body : string)
| PBlockPre (body : string) | PBlockPost (body : string)
| PLoopPre (body : string) | PLoopPost (body : string)
| PSelect (cond body : string)
| PCallIndirectPre (table index body : string)
| PCallIndirectPost (table body : string)
| PIfThen (cond body : string) | PIfThenElse (cond body : string)
| PBrIf (cond label body : string)
| PBrTable (target default body : string).
(** [AdviceDefinition], L46-62. *)
Inductive padvice := PGlobal (code : string) | PTrap (t : ptrap).

(** ** The grammar of apply advice, wasp-compiler/wasp.pest L40-55

    Over the sequence of parentheses and words, that is after white space and comments are
    skipped. The character classes of identifiers (L20-21) are parameters of the rules. *)
Inductive token := LP | RP | Word (s : string).

Section Grammar.
  (** [identifier] and [type_identifier], L20-21. *)
  Variables (is_identifier is_type_identifier : string -> bool).

  (** [typed_argument], L55. *)
  Definition parse_typed (ts : list token) : option (typed_arg * list token) :=
    match ts with
    | LP :: Word i :: Word t :: RP :: rest =>
        if is_identifier i && is_type_identifier t then Some (TA i t, rest) else None
    | _ => None
    end.
  (** [typed_argument*]: greedy. The list of tokens itself bounds the number of rounds. *)
  Fixpoint parse_typeds (fuel : list token) (ts : list token) : list typed_arg * list token :=
    match fuel with
    | [] => ([], ts)
    | _ :: fuel' =>
        match parse_typed ts with
        | None => ([], ts)
        | Some (a, rest) => let (l, rest') := parse_typeds fuel' rest in (a :: l, rest')
        end
    end.
  (** [typed_argument+]. *)
  Definition parse_typeds1 (ts : list token) : option (list typed_arg * list token) :=
    match parse_typeds ts ts with ([], _) => None | r => Some r end.
  (** [apply_formal_wasm_f], L52. *)
  Definition parse_wasm_f (ts : list token) : option (string * list token) :=
    match ts with
    | LP :: Word f :: Word w :: RP :: rest =>
        if is_identifier f && String.eqb w "WasmFunction" then Some (f, rest) else None
    | _ => None
    end.
  (** One literal of a rule. *)
  Definition eat (t : token) (ts : list token) : option (list token) :=
    match t, ts with
    | LP, LP :: r => Some r
    | RP, RP :: r => Some r
    | Word a, Word b :: r => if String.eqb a b then Some r else None
    | _, _ => None
    end.
  (** Several literals of a rule. *)
  Fixpoint eats (l ts : list token) : option (list token) :=
    match l with
    | [] => Some ts
    | t :: l' => match eat t ts with Some r => eats l' r | None => None end
    end.
  (** [apply_gen], L45. *)
  Definition parse_gen (ts : list token) : option (papply * list token) :=
    match parse_wasm_f ts with None => None | Some (f, r) =>
    match parse_typed r with None => None | Some (a, r) =>
    match parse_typed r with None => None | Some (b, r) => Some (PGen f a b, r) end end end.
  (** "(" marker argument+ ")" "(" marker result+ ")" *)
  Definition parse_lists (marker : list token) (ts : list token)
      : option (string * list typed_arg * list typed_arg * list token) :=
    match parse_wasm_f ts with None => None | Some (f, r) =>
    match eats (LP :: marker) r with None => None | Some r =>
    match parse_typeds1 r with None => None | Some (l, r) =>
    match eats (RP :: LP :: marker) r with None => None | Some r =>
    match parse_typeds1 r with None => None | Some (l', r) =>
    match eats [RP] r with None => None | Some r => Some (f, l, l', r) end end end end end end.
  (** [apply_spe_intro], L47. *)
  Definition parse_spe_intro (ts : list token) : option (papply * list token) :=
    match parse_lists [] ts with Some (f, l, l', r) => Some (PSpeIntro f l l', r) | None => None end.
  (** [apply_spe_inter], L49. *)
  Definition parse_spe_inter (ts : list token) : option (papply * list token) :=
    match parse_lists [Word "Mut"] ts with Some (f, l, l', r) => Some (PSpeInter f l l', r) | None => None end.
  (** [apply_hook_signature], L42: ordered choice. *)
  Definition parse_apply (ts : list token) : option (papply * list token) :=
    match parse_gen ts with
    | Some r => Some r
    | None => match parse_spe_intro ts with Some r => Some r | None => parse_spe_inter ts end
    end.
End Grammar.

(** ** Validated tree, wasp-compiler/src/ast/wasp.rs L25-212 *)
Inductive generic_target := HighLevel | Dynamic | MutableDynamic.
(** [WasmParameter], wasp.rs L202-206. *)
Record wparam := WP { wp_id : string; wp_type : numty }.
(** [ApplyHookSignature], [ApplyGen], [ApplySpe], wasp.rs L58-85. *)
Inductive apply_sig :=
| AGen (means : generic_target) (f args ress : string)
| ASpe (mutable_signature : bool) (f : string) (args ress : list wparam).
(** [TrapSignature], wasp.rs L35-181. *)
Inductive trap_sig :=
| TApply (s : apply_sig) (body : string)
| TCall (q : qualifier) (target body : string)
| TBlockPre (body : string) | TBlockPost (body : string)
| TLoopPre (body : string) | TLoopPost (body : string)
| TSelect (cond body : string)
| TCallIndirectPre (table index body : string)
| TCallIndirectPost (table body : string)
| TIfThen (cond body : string) | TIfThenElse (cond body : string)
| TBrIf (cond label body : string)
| TBrTable (target default body : string).
(** [AdviceDefinition], wasp.rs L29-32. *)
Inductive advice_def := AGlobal (code : string) | ATrap (t : trap_sig).

(** Errors of wasp-compiler/src/error.rs that validation can raise; [WPanic]: the
    subtraction of L577 underflows. *)
Inductive werror :=
| NonUniqueParameters (l : list string)
| IncorrectArgsRessType (a r : string)
| DuplicateArgsRessParameter (s : string)
| DuplicateParameter (s : string)
| UnsupportedIdentifierType (s : string).
(** [Result], or a panic. *)
Inductive wres (A : Type) := WOk (a : A) | WErr (e : werror) | WPanic.
Arguments WOk {A} a.
Arguments WErr {A} e.
Arguments WPanic {A}.
(** The [?] operator. *)
Definition wbind {A B} (r : wres A) (f : A -> wres B) : wres B :=
  match r with WOk a => f a | WErr e => WErr e | WPanic => WPanic end.

(** [HashSet::contains]. *)
Fixpoint memb (x : string) (l : list string) : bool :=
  match l with [] => false | y :: l' => String.eqb x y || memb x l' end.
(** [HashSet::insert]. *)
Definition insert (x : string) (l : list string) : list string := if memb x l then l else x :: l.

(** [ApplyGen::try_from], wasp.rs L477-523. *)
Definition gen_from (f : string) (arg res : typed_arg) : wres apply_sig :=
  let means :=                                                               (* L488-501 *)
    if String.eqb (ta_type arg) "Args" && String.eqb (ta_type res) "Results" then Some HighLevel
    else if String.eqb (ta_type arg) "DynArgs" && String.eqb (ta_type res) "DynResults" then Some Dynamic
    else if String.eqb (ta_type arg) "MutDynArgs" && String.eqb (ta_type res) "MutDynResults" then Some MutableDynamic
    else None in
  match means with
  | None => WErr (IncorrectArgsRessType (ta_type arg) (ta_type res))
  | Some g =>
      let parameters := insert (ta_id res) (insert (ta_id arg) (insert f [])) in  (* L503-506 *)
      if Nat.eqb (List.length parameters) 3
      then WOk (AGen g f (ta_id arg) (ta_id res))
      else WErr (NonUniqueParameters [f; ta_id arg; ta_id res])
  end.

(** Type names, L602-618. *)
Definition wasm_type (s : string) : option numty :=
  if String.eqb s "I32" then Some TI32 else if String.eqb s "F32" then Some TF32
  else if String.eqb s "I64" then Some TI64 else if String.eqb s "F64" then Some TF64 else None.

(** [WasmParameterVec::try_from], wasp.rs L590-630. *)
Fixpoint params_from (seen : list string) (l : list typed_arg) : wres (list wparam) :=
  match l with
  | [] => WOk []
  | a :: l' =>
      match wasm_type (ta_type a) with
      | None => WErr (UnsupportedIdentifierType (ta_type a))
      | Some t =>
          if memb (ta_id a) seen then WErr (DuplicateParameter (ta_id a))
          else wbind (params_from (insert (ta_id a) seen) l') (fun ps => WOk (WP (ta_id a) t :: ps))
      end
  end.

(** [distinct_arguments], wasp.rs L573-587: the capacity [parameters_1.len() - 1]
    underflows on an empty list. *)
Fixpoint distinct_from (seen : list string) (l : list wparam) : wres unit :=
  match l with
  | [] => WOk tt
  | p :: l' => if memb (wp_id p) seen then WErr (DuplicateArgsRessParameter (wp_id p))
               else distinct_from (insert (wp_id p) seen) l'
  end.
(** [distinct_arguments], wasp.rs L573-587. *)
Definition distinct_arguments (l1 l2 : list wparam) : wres unit :=
  match l1 with [] => WPanic | _ => distinct_from [] (l1 ++ l2) end.

(** [ApplySpe::try_from] for [ApplySpeInter], wasp.rs L525-546, and for [ApplySpeIntro],
    L548-569; the two differ in the constant given for [mutable_signature]. *)
Definition spe_from (mutable_signature : bool) (f : string) (args ress : list typed_arg) : wres apply_sig :=
  wbind (params_from [] args) (fun pa =>
  wbind (params_from [] ress) (fun pr =>
  wbind (distinct_arguments pa pr) (fun _ =>
  WOk (ASpe mutable_signature f pa pr)))).

(** [ApplyHookSignature::try_from], wasp.rs L457-475. *)
Definition apply_from (s : papply) : wres apply_sig :=
  match s with
  | PGen f a r => gen_from f a r
  | PSpeInter f a r => spe_from false f a r
  | PSpeIntro f a r => spe_from true f a r
  end.

(** [TrapSignature::try_from], wasp.rs L309-399. *)
Definition trap_from (t : ptrap) : wres trap_sig :=
  match t with
  | PApply s body => wbind (apply_from s) (fun a => WOk (TApply a body))
  | PCall q x body => WOk (TCall q x body)
  | PCallIndirectPre x y body => WOk (TCallIndirectPre x y body)
  | PCallIndirectPost x body => WOk (TCallIndirectPost x body)
  | PIfThen c body => WOk (TIfThen c body)
  | PIfThenElse c body => WOk (TIfThenElse c body)
  | PBrIf c l body => WOk (TBrIf c l body)
  | PBrTable t d body => WOk (TBrTable t d body)
  | PBlockPre body => WOk (TBlockPre body)
  | PBlockPost body => WOk (TBlockPost body)
  | PLoopPre body => WOk (TLoopPre body)
  | PLoopPost body => WOk (TLoopPost body)
  | PSelect c body => WOk (TSelect c body)
  end.
(** [AdviceDefinition::try_from], wasp.rs L294-307. *)
Definition advice_from (a : padvice) : wres advice_def :=
  match a with
  | PGlobal code => WOk (AGlobal code)
  | PTrap t => wbind (trap_from t) (fun t => WOk (ATrap t))
  end.
(** [Root::try_from], wasp.rs L276-292. *)
Fixpoint root_from (l : list padvice) : wres (list advice_def) :=
  match l with
  | [] => WOk []
  | a :: l' => wbind (advice_from a) (fun d => wbind (root_from l') (fun ds => WOk (d :: ds)))
  end.

(** ** Join points, wasp-compiler/src/joinpoints.rs

    [JoinPoint], L58-74; a hash set of specialised join points, L12, is a list without
    repetition. *)
Inductive join_point :=
| JGeneric | JSpecialised (results arguments : list numty)
| JBlockPre | JBlockPost | JLoopPre | JLoopPost | JSelect | JCallPre | JCallPost
| JCallIndirectPre | JCallIndirectPost | JIfThen | JIfThenElse | JBrIf | JBrTable.
(** [JoinPoints], joinpoints.rs L10-26. *)
Record join_points := JPs {
  jp_generic : bool; jp_specialized : list (list numty * list numty);
  jp_if_then : bool; jp_if_then_else : bool; jp_br_if : bool; jp_br_table : bool;
  jp_call_pre : bool; jp_call_post : bool; jp_call_indirect_pre : bool; jp_call_indirect_post : bool;
  jp_block_pre : bool; jp_block_post : bool; jp_loop_pre : bool; jp_loop_post : bool; jp_select : bool }.
(** [JoinPoints::default()]. *)
Definition no_join_points : join_points :=
  JPs false [] false false false false false false false false false false false false false.

(** Auxiliary: nothing in the repository corresponds to it. *)
Definition numty_dec (a b : numty) : {a = b} + {a <> b}.
Proof. decide equality. Defined.
(** Auxiliary: nothing in the repository corresponds to it. *)
Definition sig_dec (a b : list numty * list numty) : {a = b} + {a <> b}.
Proof. decide equality; apply list_eq_dec, numty_dec. Defined.

(** [JoinPoints::include], L35-55. *)
Definition include (j : join_point) (p : join_points) : join_points :=
  let '(JPs g s it ite bi bt cp cq ip iq kp kq lp lq se) := p in
  match j with
  | JSpecialised r a =>
      JPs g (if in_dec sig_dec (r, a) s then s else (r, a) :: s) it ite bi bt cp cq ip iq kp kq lp lq se
  | JGeneric => JPs true s it ite bi bt cp cq ip iq kp kq lp lq se
  | JIfThen => JPs g s true ite bi bt cp cq ip iq kp kq lp lq se
  | JIfThenElse => JPs g s it true bi bt cp cq ip iq kp kq lp lq se
  | JBrIf => JPs g s it ite true bt cp cq ip iq kp kq lp lq se
  | JCallPre => JPs g s it ite bi bt true cq ip iq kp kq lp lq se
  | JCallPost => JPs g s it ite bi bt cp true ip iq kp kq lp lq se
  | JCallIndirectPre => JPs g s it ite bi bt cp cq true iq kp kq lp lq se
  | JCallIndirectPost => JPs g s it ite bi bt cp cq ip true kp kq lp lq se
  | JBrTable => JPs g s it ite bi true cp cq ip iq kp kq lp lq se
  | JBlockPre => JPs g s it ite bi bt cp cq ip iq true kq lp lq se
  | JBlockPost => JPs g s it ite bi bt cp cq ip iq kp true lp lq se
  | JLoopPre => JPs g s it ite bi bt cp cq ip iq kp kq true lq se
  | JLoopPost => JPs g s it ite bi bt cp cq ip iq kp kq lp true se
  | JSelect => JPs g s it ite bi bt cp cq ip iq kp kq lp lq true
  end.
(** [join_point], L93-139. *)
Definition join_point_of (t : trap_sig) : join_point :=
  match t with
  | TApply (AGen _ _ _ _) _ => JGeneric
  | TApply (ASpe _ _ args ress) _ => JSpecialised (map wp_type ress) (map wp_type args)
  | TIfThen _ _ => JIfThen
  | TIfThenElse _ _ => JIfThenElse
  | TBrIf _ _ _ => JBrIf
  | TCall Pre _ _ => JCallPre
  | TCall Post _ _ => JCallPost
  | TCallIndirectPre _ _ _ => JCallIndirectPre
  | TCallIndirectPost _ _ => JCallIndirectPost
  | TBrTable _ _ _ => JBrTable
  | TBlockPre _ => JBlockPre
  | TBlockPost _ => JBlockPost
  | TLoopPre _ => JLoopPre
  | TLoopPost _ => JLoopPost
  | TSelect _ _ => JSelect
  end.
(** [Root::join_points], L76-91. *)
Definition root_join_points (root : list advice_def) : join_points :=
  fold_left (fun p a => match a with AGlobal _ => p | ATrap t => include (join_point_of t) p end)
            root no_join_points.

(** ** The interface, supported-languages/assemblyscript/src/generate/analysis/wasp.rs L12-92

    [None]: the [todo!()] of L27-36. *)
Definition set_trap (t : trap_sig) (ai : interface) : option interface :=
  match t with
  | TApply (AGen _ _ _ _) _ => Some (set_generic (generic_apply, call_base) ai)
  | TApply (ASpe _ _ _ _) _ => None
  | TIfThen _ _ => Some (set_field HkIfThen (std_hook HkIfThen) ai)
  | TIfThenElse _ _ => Some (set_field HkIfThenElse (std_hook HkIfThenElse) ai)
  | TBrIf _ _ _ => Some (set_field HkBrIf (std_hook HkBrIf) ai)
  | TBrTable _ _ _ => Some (set_field HkBrTable (std_hook HkBrTable) ai)
  | TCall Pre _ _ => Some (set_field HkCallPre (std_hook HkCallPre) ai)
  | TCall Post _ _ => Some (set_field HkCallPost (std_hook HkCallPost) ai)
  | TCallIndirectPre _ _ _ => Some (set_field HkCallIndPre (std_hook HkCallIndPre) ai)
  | TCallIndirectPost _ _ => Some (set_field HkCallIndPost (std_hook HkCallIndPost) ai)
  | TBlockPre _ => Some (set_field HkBlockPre (std_hook HkBlockPre) ai)
  | TBlockPost _ => Some (set_field HkBlockPost (std_hook HkBlockPost) ai)
  | TLoopPre _ => Some (set_field HkLoopPre (std_hook HkLoopPre) ai)
  | TLoopPost _ => Some (set_field HkLoopPost (std_hook HkLoopPost) ai)
  | TSelect _ _ => Some (set_field HkSelect (std_hook HkSelect) ai)
  end.
(** The loop over the advices, generate/analysis/wasp.rs L12-92. *)
Fixpoint wasp_interface (root : list advice_def) (ai : interface) : option interface :=
  match root with
  | [] => Some ai
  | AGlobal _ :: r => wasp_interface r ai
  | ATrap t :: r => match set_trap t ai with Some ai' => wasp_interface r ai' | None => None end
  end.
(** The same from the empty interface. *)
Definition interface_of_root (root : list advice_def) : option interface := wasp_interface root no_interface.

(** ** The functions exported by the generated program,
    supported-languages/assemblyscript/src/generate/analysis/mod.rs L140-683

    Only name, parameter types and result types of the [export function] header; the guest
    code itself and what the libraries prepended in L75-85 export are not modelled. *)
Definition type_text (t : numty) : string :=                     (* wasp.rs L190-199 *)
  match t with TI32 => "i32" | TF32 => "f32" | TI64 => "i64" | TF64 => "f64" end.
Definition sig_text (mutable_signature : bool) (args ress : list wparam) : string :=  (* L200-221 *)
  (if mutable_signature then "mut_" else "") ++ "args_" ++ String.concat "_" (map (fun p => type_text (wp_type p)) args)
  ++ "_ress_" ++ String.concat "_" (map (fun p => type_text (wp_type p)) ress).
(** The export declared for an advice, generate/analysis/wasp.rs. *)
Definition exported (t : trap_sig) : wfun :=
  match t with
  | TApply (AGen _ _ _ _) _ => WF "generic_apply" [TI32; TI32; TI32; TI32; TI32; TI32; TI32] []   (* L159-198 *)
  | TApply (ASpe m _ args ress) _ =>                                          (* L273-290, L332-376 *)
      WF ("apply_func_" ++ sig_text m args ress) (map wp_type args) (map wp_type ress)
  | TIfThen _ _ => WF "specialized_if_then_k" [TI32; TI32; TI32; TI64; TI64] [TI32]               (* L384-410 *)
  | TIfThenElse _ _ => WF "specialized_if_then_else_k" [TI32; TI32; TI32; TI64; TI64] [TI32]      (* L412-438 *)
  | TBrIf _ _ _ => WF "specialized_br_if" [TI32; TI32; TI64; TI64] [TI32]                         (* L440-467 *)
  | TBrTable _ _ _ => WF "specialized_br_table" [TI32; TI32; TI32; TI64; TI64] [TI32]             (* L468-496 *)
  | TCall Pre _ _ => WF "specialized_call_pre" [TI32; TI64; TI64] []                              (* L498-526 *)
  | TCall Post _ _ => WF "specialized_call_post" [TI32; TI64; TI64] []
  | TCallIndirectPre _ _ _ => WF "specialized_call_indirect_pre" [TI32; TI32; TI64; TI64] [TI32]  (* L528-555 *)
  | TCallIndirectPost _ _ => WF "specialized_call_indirect_post" [TI32; TI64; TI64] []            (* L557-578 *)
  | TBlockPre _ => WF "trap_block_pre" [TI32; TI32; TI64; TI64] []                                (* L580-599 *)
  | TBlockPost _ => WF "trap_block_post" [TI64; TI64] []                                          (* L601-618 *)
  | TLoopPre _ => WF "trap_loop_pre" [TI32; TI32; TI64; TI64] []                                  (* L620-639 *)
  | TLoopPost _ => WF "trap_loop_post" [TI64; TI64] []                                            (* L641-658 *)
  | TSelect _ _ => WF "specialized_select" [TI32; TI64; TI64] [TI32]                              (* L660-683 *)
  end.
Definition program_exports (root : list advice_def) : list wfun :=
  flat_map (fun a => match a with AGlobal _ => [] | ATrap t => [exported t] end) root.
