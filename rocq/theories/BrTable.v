(** Branch-table helper functions: instrument/branch_if/generate_branch_table.rs. *)
From Verif Require Export Syntax.

(** [i32::try_from] / [try_into().unwrap()] from an unsigned value: [None] is the panic. *)
Definition i32_of (n : nat) : option Z :=
  if (Z.of_nat n <? 2 ^ 31)%Z then Some (Z.of_nat n) else None.
(** [usize -> i64], typed_high_level_body.rs L51. *)
Definition i64_of (n : nat) : option Z :=
  if (Z.of_nat n <? 2 ^ 63)%Z then Some (Z.of_nat n) else None.

(** The conversions of all labels, branch_if/generate_branch_table.rs. *)
Fixpoint i32_all (l : list nat) : option (list Z) :=
  match l with
  | [] => Some []
  | x :: xs =>
      match i32_of x, i32_all xs with
      | Some z, Some zs => Some (z :: zs)
      | _, _ => None
      end
  end.

(** [ValType::I32]. *)
Definition t_i32 : valty := TNum TI32.
(** [FunctionType::empty()]. *)
Definition ft_empty : functy := FT [] [].

(** [generate_body] L26-90, once the labels are known to fit an [i32]. *)
Definition br_helper_body (table : list Z) (dflt : Z) : list low :=
  match table with
  | [] =>                                                                     (* L31-38 *)
      [LBasic (BLocal LGet 0); LBasic (BConst TI32 dflt); LEnd]
  | [x] =>                                                                    (* L40-53 *)
      [LBasic (BLocal LGet 0); LBasic (BLocal LGet 0); LBasic (BUnary I32Eqz);
       LIf (FT [] [t_i32]); LBasic (BConst TI32 x); LElse; LBasic (BConst TI32 dflt); LEnd; LEnd]
  | _ =>                                                                      (* L55-89 *)
      map (fun _ => LBlock ft_empty) table
      ++ [LBlock ft_empty; LBasic (BLocal LGet 0);
          LBasic (BBrTable (seq 0 (List.length table)) (List.length table)); LEnd] (* L61-66, L92-100 *)
      ++ flat_map (fun x => [LBasic (BLocal LGet 0); LBasic (BConst TI32 x); LBasic BReturn; LEnd]) table
      ++ [LBasic (BLocal LGet 0); LBasic (BConst TI32 dflt); LEnd]
  end.

(** The function added by branch_if.rs L68-81: [reify] L13-23 and the type of L74. *)
Definition br_helper_type : functy := FT [t_i32] [t_i32; t_i32].
(** The helper function as a whole, branch_if.rs L68-81. *)
Definition br_helper (table : list nat) (dflt : nat) : option func :=
  match i32_all table, i32_of dflt with
  | Some t, Some d => Some (Fn br_helper_type (FPresent [t_i32] (br_helper_body t d)) [])
  | _, _ => None
  end.
