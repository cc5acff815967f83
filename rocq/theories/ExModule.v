(** A small module used by the examples. *)
From Verif Require Import Semantics Advice Instantiate.
Local Open Scope string_scope.
Local Open Scope list_scope.

Definition ex_i32_1 : functy := FT [t_i32] [t_i32].
(** [sum n = if n = 0 then 0 else n + sum (n - 1)] *)
Definition ex_sum : list low :=
  [LBasic (BLocal LGet 0); LBasic (BUnary I32Eqz); LIf (FT [] [t_i32]);
   LBasic (BConst TI32 0); LElse;
   LBasic (BLocal LGet 0); LBasic (BLocal LGet 0); LBasic (BConst TI32 (2 ^ 32 - 1)); LBasic (BBinary I32Add);
   LBasic (BCall 1); LBasic (BBinary I32Add); LEnd; LEnd].
(** Stores its argument, switches on it, sets the global, reads it back and calls through the table. *)
Definition ex_poke : list low :=
  [LBasic (BConst TI32 8); LBasic (BLocal LGet 0); LBasic (BStore I32Store (MA 2 4));
   LBlock (FT [] []); LBlock (FT [] []); LBasic (BLocal LGet 0); LBasic (BBrTable [1] 0); LEnd;
   LBasic (BConst TI32 100); LBasic (BGlobal GSet 0); LEnd;
   LBasic (BConst TI32 8); LBasic (BLoad I32Load (MA 2 4)); LBasic (BConst TI32 0);
   LBasic (BCallIndirect ex_i32_1 0); LBasic (BCall 0); LBasic (BGlobal GGet 0); LEnd].
Definition ex_module : module :=
  Mod [Fn (FT [t_i32] []) (FImport "env" "log") [];
       Fn ex_i32_1 (FPresent [] ex_sum) ["sum"];
       Fn ex_i32_1 (FPresent [t_i32] ex_poke) ["poke"];
       Fn (FT [TRef FuncRef] []) (FPresent [] [LBasic BNop; LEnd]) ["unused"]]
      [Tbl 1 None FuncRef None ["tab"]] [Mem 1 None None ["memory"]]
      [Glb t_i32 true [LBasic (BConst TI32 7); LEnd] None ["g"]]
      [Elem FuncRef [[LBasic (BRefFunc 1); LEnd]] (EActive 0 [LBasic (BConst TI32 0); LEnd])]
      [Data [1; 2; 3]%Z (Some [LBasic (BConst TI32 16); LEnd])] None.
(** Annotations of the type checker where the passes look at them. *)
Definition ex_types (_ : nat) (l : list low) : option (list ity) :=
  Some (map (fun i => match i with
    | LBasic (BLocal LGet _) | LBasic (BGlobal GGet _) => IReach (FT [] [t_i32])
    | LBasic (BLocal LSet _) | LBasic (BGlobal GSet _) => IReach (FT [t_i32] [])
    | LBasic (BLocal LTee _) => IReach (FT [t_i32] [t_i32])
    | _ => IReach (FT [] []) end) l).
Definition ex_id : list nat -> list nat := fun l => l.
Definition ex_imports : provided := Imp (fun _ _ => None) (fun _ _ => None) (fun _ _ => None).
Definition ex_num1 : unop -> Z -> option Z := fun _ z => Some z.
Definition ex_num2 : binop -> Z -> Z -> option Z := fun _ a b => Some (a * b)%Z.
Definition ex_out (on : hook -> bool) (generic : bool) (only : option (list nat)) : option module :=
  match instrument ex_id ex_id ex_types ex_module (std_ai on generic) only with
  | IOk m' _ => Some m'
  | _ => None
  end.
