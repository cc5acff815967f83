(** Vocabulary of C31-C33. None of it mentions the analysis. *)
From Verif Require Export Syntax Semantics.

(** Instructions that read or write a memory, global, table or segment, or whose callee is
    taken from a table. *)
Definition stateful (b : basic) : bool :=
  match b with
  | BCallIndirect _ _ | BGlobal _ _
  | BTableGet _ | BTableSet _ | BTableSize _ | BTableGrow _ | BTableFill _ | BTableCopy _ _
  | BTableInit _ _ | BElemDrop _
  | BLoad _ _ | BStore _ _ | BMemorySize _ | BMemoryGrow _ | BMemoryFill | BMemoryCopy
  | BMemoryInit _ | BDataDrop _ => true
  | _ => false
  end.

(** The rules: the function has code, no instruction of it is stateful, and every function it
    calls, other than itself, satisfies the rules. *)
Definition obeys (m : module) (P : nat -> Prop) (f : nat) : Prop :=
  exists fn locals code,
    nth_error (md_funcs m) f = Some fn /\ fn_code fn = FPresent locals code /\
    (forall b, In (LBasic b) code -> stateful b = false) /\
    (forall g, In (LBasic (BCall g)) code -> g <> f -> P g).

(** A set of functions closed under the rules: it has every function that obeys them. *)
Definition closed_under_rules (m : module) (P : nat -> Prop) : Prop :=
  forall f, obeys m P f -> P f.

(** Two runs with the same outcome, each leaving its own store as it was. *)
Definition indifferent {X Y A : Type} (s1 : store X) (s2 : store Y)
    (r1 : res (store X) (A * store X)) (r2 : res (store Y) (A * store Y)) : Prop :=
  match r1, r2 with
  | Ok (a1, s1'), Ok (a2, s2') => a1 = a2 /\ s1' = s1 /\ s2' = s2
  | Trap s1', Trap s2' => s1' = s1 /\ s2' = s2
  | Stuck, Stuck => True
  | Oof, Oof => True
  | _, _ => False
  end.
