(** The text of WASP files: the grammar wasp-compiler/wasp.pest as run by the generated parser, and
    [compile] of wasp-compiler/src/lib.rs L22-33. *)
From Coq Require Import Ascii.
From Verif Require Import Wasp.
Local Open Scope string_scope.
Local Open Scope list_scope.
Local Open Scope char_scope.

(** A text is a string of bytes. Pest reads UTF-8 characters; all characters that the grammar
    mentions are ASCII, no byte of another character is, so that reading [ANY] byte by byte makes
    no difference. *)
Notation "a +++ b" := (String.append a b) (at level 60, right associativity).
Definition in_class (lo hi c : ascii) : bool := (nat_of_ascii lo <=? nat_of_ascii c)%nat && (nat_of_ascii c <=? nat_of_ascii hi)%nat.
Definition upper (c : ascii) : bool := in_class "A" "Z" c.                           (* ASCII_ALPHA_UPPER *)
Definition alpha (c : ascii) : bool := upper c || in_class "a" "z" c.                (* ASCII_ALPHA *)
Definition alphanumeric (c : ascii) : bool := alpha c || in_class "0" "9" c.         (* ASCII_ALPHANUMERIC *)
(** [WHITESPACE], wasp.pest L2. *)
Definition white (c : ascii) : bool := (c =? " ") || (c =? "013") || (c =? "010") || (c =? "009").

(** Auxiliary: nothing in the repository corresponds to it. *)
Fixpoint drop (n : nat) (s : string) : string :=
  match n, s with S n', String _ r => drop n' r | _, _ => s end.
(** The rest of an open comment has an end. *)
Fixpoint closed (s : string) : bool :=
  match s with
  | EmptyString => false
  | String a r => String.prefix "|#" s || closed r
  end.
(** Implicit white space: [WHITESPACE* ~ (COMMENT ~ WHITESPACE* )*]; [COMMENT], L5, is atomic. [inside]:
    within a comment that has an end. *)
Fixpoint skip (inside : bool) (s : string) : string :=
  match s with
  | EmptyString => s
  | String a r =>
      if inside then
        match r with
        | String b r' => if (a =? "|") && (b =? "#") then skip false r' else skip true r
        | EmptyString => skip true r
        end
      else if white a then skip false r
      else match r with
           | String b r' => if (a =? "#") && (b =? "|") && closed r' then skip true r' else s
           | EmptyString => s
           end
  end.
(** The inside of [GUEST_BLOCK], L12, after the opening marker. The rule is not atomic: white space
    and comments are skipped between any two characters, so that a marker within [#| |#] does not end
    the block. White space itself makes no difference to where the block ends. *)
Definition opening : string := ">>>GUEST>>>".
(** The closing marker, wasp.pest L12. *)
Definition ending : string := "<<<GUEST<<<".
(** Auxiliary: nothing in the repository corresponds to it. *)
Definition more (a : ascii) (x : option (string * string)) : option (string * string) :=
  option_map (fun x => (String a (fst x), snd x)) x.
(** The characters of a guest block, wasp.pest L12. *)
Fixpoint guest (inside : bool) (s : string) : option (string * string) :=
  match s with
  | EmptyString => None
  | String a r =>
      if inside then
        match r with
        | String b r' => if (a =? "|") && (b =? "#") then more a (more b (guest false r')) else more a (guest true r)
        | EmptyString => more a (guest true r)
        end
      else if String.prefix ending s then Some (""%string, drop (String.length ending) s)
      else match r with
           | String b r' => if (a =? "#") && (b =? "|") && closed r' then more a (more b (guest true r')) else more a (guest false r)
           | EmptyString => more a (guest false r)
           end
  end.

(** ** Rules. A rule gives what the syntax tree keeps of it, and the rest of the text.

    Every literal, identifier and guest block of the grammar is preceded by another element of a
    sequence, beginning with [SOI], so that white space is skipped before each of them. *)
Definition rule (A : Type) := string -> option (A * string).
(** A rule that takes nothing. *)
Definition ret {A} (x : A) : rule A := fun s => Some (x, s).
(** [a ~ b]. *)
Definition bind {A B} (a : rule A) (b : A -> rule B) : rule B := fun s => match a s with Some (x, r) => b x r | None => None end.
(** [a | b], ordered. *)
Definition choice {A} (a b : rule A) : rule A := fun s => match a s with Some x => Some x | None => b s end.
Notation "'let~' x := a 'in' b" := (bind a (fun x => b)) (at level 200, x name, right associativity).
Notation "a ~> b" := (bind a (fun _ => b)) (at level 61, right associativity).
Notation "a <|> b" := (choice a b) (at level 62, right associativity).
(** A literal, after skipping white space and comments. *)
Definition lit (k : string) : rule unit := fun s =>
  let s := skip false s in if String.prefix k s then Some (tt, drop (String.length k) s) else None.
(** Auxiliary: nothing in the repository corresponds to it. *)
Fixpoint span (f : ascii -> bool) (s : string) : string * string :=
  match s with
  | String a r => if f a then let (w, r') := span f r in (String a w, r') else (""%string, s)
  | EmptyString => (""%string, s)
  end.
Definition identifier : rule string := fun s =>                                       (* L20 *)
  match span alpha (skip false s) with (EmptyString, _) => None | x => Some x end.
Definition type_identifier : rule string := fun s =>                                  (* L21 *)
  match skip false s with
  | String a r => if upper a then match span alphanumeric r with (EmptyString, _) => None | (w, r') => Some (String a w, r') end else None
  | EmptyString => None
  end.
(** [GUEST_BLOCK] with [drop_guest_delimiter], ast/pest/mod.rs L27-33. *)
Definition GUEST_BLOCK : rule string := fun s => match lit opening s with Some (_, r) => guest false r | None => None end.
(** [e*], greedy; at most [n] times. *)
Fixpoint many {A} (n : nat) (a : rule A) : rule (list A) :=
  match n with
  | O => ret []
  | S n' => fun s => match a s with None => Some ([], s) | Some (x, r) => (let~ xs := many n' a in ret (x :: xs)) r end
  end.
(** [e*]. *)
Definition star {A} (a : rule A) : rule (list A) := fun s => many (String.length s) a s.
(** [e+]. *)
Definition plus {A} (a : rule A) : rule (list A) := let~ x := a in let~ xs := star a in ret (x :: xs).
Local Open Scope string_scope.

(** "(" ~ identifier ~ k ~ ")" *)
Definition formal (k : string) : rule string := lit "(" ~> let~ x := identifier in lit k ~> lit ")" ~> ret x.
Definition apply_formal_wasm_f := formal "WasmFunction".                              (* L51 *)
Definition typed_argument : rule typed_arg :=                                         (* L54 *)
  lit "(" ~> let~ x := identifier in let~ t := type_identifier in lit ")" ~> ret (TA x t).
Definition apply_gen : rule papply :=                                                 (* L45 *)
  let~ f := apply_formal_wasm_f in let~ a := typed_argument in let~ b := typed_argument in ret (PGen f a b).
Definition apply_spe_intro : rule papply :=                                           (* L47 *)
  let~ f := apply_formal_wasm_f in
  lit "(" ~> let~ a := plus typed_argument in lit ")" ~> lit "(" ~> let~ b := plus typed_argument in lit ")" ~> ret (PSpeIntro f a b).
Definition apply_spe_inter : rule papply :=                                           (* L49 *)
  let~ f := apply_formal_wasm_f in
  lit "(" ~> lit "Mut" ~> let~ a := plus typed_argument in lit ")" ~>
  lit "(" ~> lit "Mut" ~> let~ b := plus typed_argument in lit ")" ~> ret (PSpeInter f a b).
Definition apply_hook_signature := apply_gen <|> apply_spe_intro <|> apply_spe_inter. (* L42 *)
Definition call_qualifier : rule qualifier :=                                         (* L59 *)
  (lit "pre" ~> ret Pre) <|> (lit "post" ~> ret Post).
Definition trap_apply : rule ptrap :=                                                 (* L41 *)
  lit "apply" ~> let~ a := apply_hook_signature in let~ g := GUEST_BLOCK in ret (PApply a g).
Definition trap_call : rule ptrap :=                                                  (* L62-63 *)
  lit "call" ~> let~ q := call_qualifier in let~ x := formal "FunctionIndex" in let~ g := GUEST_BLOCK in ret (PCall q x g).
Definition trap_block_pre : rule ptrap := lit "block" ~> lit "pre" ~> let~ g := GUEST_BLOCK in ret (PBlockPre g).      (* L66-67 *)
(** wasp.pest L67. *)
Definition trap_block_post : rule ptrap := lit "block" ~> lit "post" ~> let~ g := GUEST_BLOCK in ret (PBlockPost g).
Definition trap_loop_pre : rule ptrap := lit "loop" ~> lit "pre" ~> let~ g := GUEST_BLOCK in ret (PLoopPre g).         (* L70-71 *)
(** wasp.pest L71. *)
Definition trap_loop_post : rule ptrap := lit "loop" ~> lit "post" ~> let~ g := GUEST_BLOCK in ret (PLoopPost g).
Definition trap_select : rule ptrap :=                                                (* L74-75 *)
  lit "select" ~> let~ c := formal "Condition" in let~ g := GUEST_BLOCK in ret (PSelect c g).
Definition trap_call_indirect_pre : rule ptrap :=                                     (* L78-81 *)
  lit "call_indirect" ~> lit "pre" ~> let~ t := formal "FunctionTable" in let~ i := formal "FunctionTableIndex" in
  let~ g := GUEST_BLOCK in ret (PCallIndirectPre t i g).
(** wasp.pest L79. *)
Definition trap_call_indirect_post : rule ptrap :=
  lit "call_indirect" ~> lit "post" ~> let~ t := formal "FunctionTable" in let~ g := GUEST_BLOCK in ret (PCallIndirectPost t g).
Definition trap_if_then : rule ptrap :=                                               (* L84-85 *)
  lit "if_then" ~> let~ c := formal "Condition" in let~ g := GUEST_BLOCK in ret (PIfThen c g).
(** wasp.pest L85. *)
Definition trap_if_then_else : rule ptrap :=
  lit "if_then_else" ~> let~ c := formal "Condition" in let~ g := GUEST_BLOCK in ret (PIfThenElse c g).
Definition trap_br_if : rule ptrap :=                                                 (* L88 *)
  lit "br_if" ~> let~ c := formal "Condition" in let~ l := formal "Label" in let~ g := GUEST_BLOCK in ret (PBrIf c l g).
Definition trap_br_table : rule ptrap :=                                              (* L91-93 *)
  lit "br_table" ~> let~ t := formal "Target" in let~ d := formal "Default" in let~ g := GUEST_BLOCK in ret (PBrTable t d g).
Definition trap_signature : rule ptrap :=                                             (* L24-38 *)
  trap_apply <|> trap_call <|> trap_block_pre <|> trap_block_post <|> trap_loop_pre <|> trap_loop_post <|> trap_select
  <|> trap_call_indirect_pre <|> trap_call_indirect_post <|> trap_if_then <|> trap_if_then_else <|> trap_br_if <|> trap_br_table.
Definition advice_global : rule padvice := lit "global" ~> let~ g := GUEST_BLOCK in ret (PGlobal g).                   (* L16 *)
Definition advice_trap : rule padvice := lit "advice" ~> let~ t := trap_signature in ret (PTrap t).                    (* L17 *)
Definition advice_definition : rule padvice := advice_global <|> advice_trap.         (* L15 *)
Definition wasp : rule (list padvice) :=                                              (* L9 *)
  lit "(" ~> lit "aspect" ~> let~ l := star (lit "(" ~> let~ a := advice_definition in lit ")" ~> ret a) in lit ")" ~> ret l.
(** [wasp_input], L8. *)
Definition parse (s : string) : option (list padvice) :=
  match wasp s with
  | Some (l, r) => match skip false r with EmptyString => Some l | _ => None end
  | None => None
  end.
(** [compile], wasp-compiler/src/lib.rs L22-33; [None]: the error of the parser. *)
Definition compile (s : string) : option (wres (list advice_def * join_points)) :=
  option_map (fun l => wbind (root_from l) (fun root => WOk (root, root_join_points root))) (parse s).
