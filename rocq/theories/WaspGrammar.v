(** What a WASP text spells: tokens, and what may stand between them. Nothing here refers to the parser. *)
From Coq Require Import Ascii.
From Verif Require Import Wasp.
Local Open Scope string_scope.
Local Open Scope list_scope.
Local Notation "a +++ b" := (String.append a b) (at level 60, right associativity).

(** [p] occurs in [s] exactly once: at the end. *)
Definition ends_with_first (p s : string) : Prop :=
  exists x, s = x +++ p /\ forall y z, s = y +++ p +++ z -> z = "".
(** [p] occurs somewhere in [s]. *)
Definition occurs (p s : string) : Prop := exists x y, s = x +++ p +++ y.
(** The characters of a string. *)
Fixpoint chars (s : string) : list ascii := match s with EmptyString => [] | String a r => a :: chars r end.
(** ASCII_ALPHA_UPPER of pest. *)
Definition letters_upper : list ascii := chars "ABCDEFGHIJKLMNOPQRSTUVWXYZ".
(** ASCII_ALPHA of pest. *)
Definition all_letters : list ascii := letters_upper ++ chars "abcdefghijklmnopqrstuvwxyz".
(** ASCII_ALPHANUMERIC of pest. *)
Definition letters_digits : list ascii := all_letters ++ chars "0123456789".
(** The rule WHITESPACE of wasp.pest. *)
Definition blanks : list ascii := [" "; "009"; "010"; "013"]%char.

(** Blank space and comments. *)
Inductive gap : string -> Prop :=
| gap_none : gap ""
| gap_blank a g : In a blanks -> gap g -> gap (String a g)
| gap_comment c g : ends_with_first "|#" c -> gap g -> gap ("#|" +++ c +++ g).

(** Keywords and punctuation, identifiers, type identifiers, guest code: the atomic rules of wasp.pest. *)
Inductive token := KLit (k : string) | KId (x : string) | KType (x : string) | KGuest (code : string).
(** How a token is written. *)
Definition text (t : token) : string :=
  match t with
  | KLit k => k
  | KId x | KType x => x
  | KGuest code => ">>>GUEST>>>" +++ code +++ "<<<GUEST<<<"
  end.
(** [s] begins with a character of [l]. *)
Definition starts_in (l : list ascii) (s : string) : Prop := match s with EmptyString => False | String a _ => In a l end.
(** Guest code that is followed by the closing marker and then [rest]: it is made of comments that
    have an end, and of characters at which neither the marker nor such a comment begins. *)
Inductive guest_code (rest : string) : string -> Prop :=
| guest_none : guest_code rest ""
| guest_comment c code : ends_with_first "|#" c -> guest_code rest code -> guest_code rest ("#|" +++ c +++ code)
| guest_char a code :
    (forall z, String a code +++ "<<<GUEST<<<" +++ rest <> "<<<GUEST<<<" +++ z) ->
    (forall z, occurs "|#" z -> String a code +++ "<<<GUEST<<<" +++ rest <> "#|" +++ z) ->
    guest_code rest code -> guest_code rest (String a code).
(** An identifier. *)
Definition word (x : string) : Prop := x <> "" /\ Forall (fun a => In a all_letters) (chars x).
(** A type identifier. *)
Definition type_word (x : string) : Prop :=
  exists a w, x = String a w /\ In a letters_upper /\ w <> "" /\ Forall (fun a => In a letters_digits) (chars w).
(** The token stands before [rest]: words are as long as possible. *)
Definition fits (t : token) (rest : string) : Prop :=
  match t with
  | KLit _ => True
  | KId x => word x /\ ~ starts_in all_letters rest
  | KType x => type_word x /\ ~ starts_in letters_digits rest
  | KGuest code => guest_code rest code
  end.
(** A text that consists of the tokens, with gaps before and after each. *)
Inductive spells : list token -> string -> Prop :=
| spells_nil g : gap g -> spells [] g
| spells_cons g t ts r : gap g -> fits t r -> spells ts r -> spells (t :: ts) (g +++ text t +++ r).

(** ** The tokens of a syntax tree *)
Definition formal_tokens (x kind : string) : list token := [KLit "("; KId x; KLit kind; KLit ")"].
(** A typed argument. *)
Definition arg_tokens (a : typed_arg) : list token := [KLit "("; KId (ta_id a); KType (ta_type a); KLit ")"].
(** The formal parameters of an [apply] advice. *)
Definition apply_tokens (s : papply) : list token :=
  match s with
  | PGen f a b => formal_tokens f "WasmFunction" ++ arg_tokens a ++ arg_tokens b
  | PSpeIntro f l l' => formal_tokens f "WasmFunction" ++ [KLit "("] ++ flat_map arg_tokens l ++ [KLit ")"; KLit "("] ++ flat_map arg_tokens l' ++ [KLit ")"]
  | PSpeInter f l l' => formal_tokens f "WasmFunction" ++ [KLit "("; KLit "Mut"] ++ flat_map arg_tokens l ++ [KLit ")"; KLit "("; KLit "Mut"] ++ flat_map arg_tokens l' ++ [KLit ")"]
  end.
(** An advice, without its keyword. *)
Definition trap_tokens (t : ptrap) : list token :=
  match t with
  | PApply s g => [KLit "apply"] ++ apply_tokens s ++ [KGuest g]
  | PCall Pre x g => [KLit "call"; KLit "pre"] ++ formal_tokens x "FunctionIndex" ++ [KGuest g]
  | PCall Post x g => [KLit "call"; KLit "post"] ++ formal_tokens x "FunctionIndex" ++ [KGuest g]
  | PBlockPre g => [KLit "block"; KLit "pre"; KGuest g]
  | PBlockPost g => [KLit "block"; KLit "post"; KGuest g]
  | PLoopPre g => [KLit "loop"; KLit "pre"; KGuest g]
  | PLoopPost g => [KLit "loop"; KLit "post"; KGuest g]
  | PSelect c g => [KLit "select"] ++ formal_tokens c "Condition" ++ [KGuest g]
  | PCallIndirectPre t i g => [KLit "call_indirect"; KLit "pre"] ++ formal_tokens t "FunctionTable" ++ formal_tokens i "FunctionTableIndex" ++ [KGuest g]
  | PCallIndirectPost t g => [KLit "call_indirect"; KLit "post"] ++ formal_tokens t "FunctionTable" ++ [KGuest g]
  | PIfThen c g => [KLit "if_then"] ++ formal_tokens c "Condition" ++ [KGuest g]
  | PIfThenElse c g => [KLit "if_then_else"] ++ formal_tokens c "Condition" ++ [KGuest g]
  | PBrIf c l g => [KLit "br_if"] ++ formal_tokens c "Condition" ++ formal_tokens l "Label" ++ [KGuest g]
  | PBrTable t d g => [KLit "br_table"] ++ formal_tokens t "Target" ++ formal_tokens d "Default" ++ [KGuest g]
  end.
(** An advice or global declaration, in parentheses. *)
Definition advice_tokens (a : padvice) : list token :=
  [KLit "("] ++ match a with PGlobal g => [KLit "global"; KGuest g] | PTrap t => [KLit "advice"] ++ trap_tokens t end ++ [KLit ")"].
(** A whole file. *)
Definition file_tokens (l : list padvice) : list token := [KLit "("; KLit "aspect"] ++ flat_map advice_tokens l ++ [KLit ")"].
(** The argument and result lists of an introspecting or intercepting specialised advice are not empty. *)
Definition lists_given (a : padvice) : Prop :=
  match a with
  | PTrap (PApply (PSpeIntro _ l l') _) | PTrap (PApply (PSpeInter _ l l') _) => l <> [] /\ l' <> []
  | _ => True
  end.
