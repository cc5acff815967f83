(** Specification vocabulary for the flat/structured conversion (C01-C03). *)
From Verif Require Import Syntax.

(** Specification: well-nested instruction sequences, as a grammar. *)
Inductive well_nested : list low -> Prop :=
| wn_nil : well_nested []
| wn_basic b r : well_nested r -> well_nested (LBasic b :: r)
| wn_block ft body r :
    well_nested body -> well_nested r -> well_nested (LBlock ft :: body ++ LEnd :: r)
| wn_loop ft body r :
    well_nested body -> well_nested r -> well_nested (LLoop ft :: body ++ LEnd :: r)
| wn_if ft thn r :
    well_nested thn -> well_nested r -> well_nested (LIf ft :: thn ++ LEnd :: r)
| wn_if_else ft thn els r :
    well_nested thn -> well_nested els -> well_nested r ->
    well_nested (LIf ft :: thn ++ LElse :: els ++ LEnd :: r).

(** [occurs i b]: instruction [i] is somewhere in body [b]. *)
Inductive occurs (i : tinstr) : list tinstr -> Prop :=
| oc_here r : occurs i (i :: r)
| oc_next x r : occurs i r -> occurs i (x :: r)
| oc_block m ft body r : occurs i body -> occurs i (TBlock m ft body :: r)
| oc_loop m ft body r : occurs i body -> occurs i (TLoop m ft body :: r)
| oc_then m ft thn els r : occurs i thn -> occurs i (TIf m ft thn els :: r)
| oc_else m ft thn els r : occurs i els -> occurs i (TIf m ft thn (Some els) :: r).

Definition meta_of (i : tinstr) : meta :=
  match i with TBasic m _ | TBlock m _ _ | TLoop m _ _ | TIf m _ _ _ => m end.

(** The flat instruction that starts a structured instruction. *)
Definition opening (i : tinstr) : low :=
  match i with
  | TBasic _ b => LBasic b
  | TBlock _ ft _ => LBlock ft
  | TLoop _ ft _ => LLoop ft
  | TIf _ ft _ _ => LIf ft
  end.

(** All positions of a body, in source order. *)
Fixpoint positions1 (i : tinstr) : list nat :=
  match i with
  | TBasic m _ => [m_pos m]
  | TBlock m _ body | TLoop m _ body => m_pos m :: flat_map positions1 body
  | TIf m _ thn els =>
      m_pos m :: flat_map positions1 thn ++ match els with Some e => flat_map positions1 e | None => [] end
  end.
Definition positions (b : list tinstr) : list nat := flat_map positions1 b.

