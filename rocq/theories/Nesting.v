(** Flat bodies <-> structured bodies:
    wastrumentation/src/parse_nesting/{typed_high_level_body,high_level_body,typed_indexed_instr}.rs *)
From Verif Require Export Syntax.

(** [LowToHighError] (typed_high_level_body_error.rs), without payloads. *)
Inductive lh_error :=
| ETypeInference | EBodyNonEndTermination | EIfDidNotPrecedeElse
| EExcessiveEnd | EEndWithoutParent | ETrivialCastAttempt.

(** A conversion returns [Ok], [Err], or panics in one of the two final [assert!]s. *)
Inductive conv (A : Type) := COk (a : A) | CErr (e : lh_error) | CPanic.
Arguments COk {A}. Arguments CErr {A}. Arguments CPanic {A}.

(** [TypedIndexedInstr], typed_indexed_instr.rs L6-11. *)
Record tlow := TL { tl_fun : nat; tl_pos : nat; tl_ty : ity; tl_ins : low }.

(** [type_inference_index_function], typed_indexed_instr.rs L14-43: enumerate the body,
    attach the type the external [TypeChecker] infers for each instruction.
    [tys] is that checker's output, [None] standing for a type error. *)
Fixpoint index_from (f pos : nat) (body : list low) (tys : list ity) : list tlow :=
  match body, tys with
  | i :: body', t :: tys' => TL f pos t i :: index_from f (S pos) body' tys'
  | _, _ => []
  end.

(** [EnteredType] and [Entered], typed_high_level_body.rs L237-249. *)
Inductive entered_type := EnBlock | EnLoop | EnIfStart | EnIfThenElse (thn : list tinstr).
(** [Entered], typed_high_level_body.rs L237-249. *)
Record entered := En { en_kind : entered_type; en_fun : nat; en_pos : nat; en_ft : functy }.

(** Local variables of the conversion loop, L261-263. Stacks have their top first;
    bodies are in source order. *)
Record pstate := PS { ps_entered : list entered; ps_bodies : list (list tinstr); ps_cur : list tinstr }.

(** Pushing an [Entered], L265-330. *)
Definition enter (k : entered_type) (i : tlow) (ft : functy) (s : pstate) : pstate :=
  PS (En k (tl_fun i) (tl_pos i) ft :: ps_entered s) (ps_cur s :: ps_bodies s) [].

(** One iteration of the loop, L265-365. *)
Definition t_step (s : pstate) (i : tlow) : conv pstate :=
  match tl_ins i with
  | LBlock ft => COk (enter EnBlock i ft s)                                   (* L273-282 *)
  | LLoop ft => COk (enter EnLoop i ft s)                                     (* L283-292 *)
  | LIf ft => COk (enter EnIfStart i ft s)                                    (* L293-302 *)
  | LElse =>                                                                  (* L303-320 *)
      match ps_entered s with
      | En EnIfStart f p ft :: es =>
          COk (PS (En (EnIfThenElse (ps_cur s)) f p ft :: es) (ps_bodies s) [])
      | _ => CErr EIfDidNotPrecedeElse
      end
  | LEnd =>                                                                   (* L321-357 *)
      match ps_entered s with
      | [] => CErr EExcessiveEnd
      | e :: es =>
          match ps_bodies s with
          | [] => CErr EEndWithoutParent
          | parent :: bs =>
              let m := Meta (tl_fun i) (en_pos e) (tl_ty i) false in
              let ins := match en_kind e with
                         | EnBlock => TBlock m (en_ft e) (ps_cur s)
                         | EnLoop => TLoop m (en_ft e) (ps_cur s)
                         | EnIfStart => TIf m (en_ft e) (ps_cur s) None
                         | EnIfThenElse thn => TIf m (en_ft e) thn (Some (ps_cur s))
                         end in
              COk (PS es bs (parent ++ [ins]))
          end
      end
  | LBasic b =>                                                               (* L358-363 *)
      COk (PS (ps_entered s) (ps_bodies s)
              (ps_cur s ++ [TBasic (Meta (tl_fun i) (tl_pos i) (tl_ty i) false) b]))
  end.

Fixpoint t_steps (s : pstate) (l : list tlow) : conv pstate :=
  match l with
  | [] => COk s
  | i :: l' =>
      match t_step s i with
      | COk s' => t_steps s' l'
      | CErr e => CErr e
      | CPanic => CPanic
      end
  end.

(** The slice pattern [[instructions @ .., End]] (L251-259): split off a final [End]. *)
Definition split_last {A} (l : list A) : option (list A * A) :=
  match rev l with [] => None | x :: r => Some (rev r, x) end.

(** The check after the loop, L251-259. *)
Definition t_finish (c : conv pstate) : conv (list tinstr) :=
  match c with
  | COk s =>                                                                  (* L367-369 *)
      match ps_entered s, ps_bodies s with
      | [], [] => COk (ps_cur s)
      | _, _ => CPanic
      end
  | CErr e => CErr e
  | CPanic => CPanic
  end.

(** [TryFrom<(&Module, &Function, &Code, &Idx<Function>)> for Body], L226-371, after type
    inference. *)
Definition structure_indexed (l : list tlow) : conv (list tinstr) :=
  match split_last l with
  | Some (ins, last) =>
      match tl_ins last with
      | LEnd => t_finish (t_steps (PS [] [] []) ins)
      | _ => CErr EBodyNonEndTermination
      end
  | None => CErr EBodyNonEndTermination
  end.

(** The whole conversion of function [f]: [infer] is the external type checker applied to
    the body. *)
Definition structure_typed (f : nat) (infer : list low -> option (list ity)) (body : list low)
  : conv (list tinstr) :=
  match infer body with
  | None => CErr ETypeInference
  | Some tys => structure_indexed (index_from f 0 body tys)
  end.

(** [from_recurse], typed_high_level_body.rs L382-453. *)
Fixpoint flat1 (i : tinstr) : list low :=
  match i with
  | TBasic _ b => [LBasic b]
  | TBlock _ ft body => LBlock ft :: flat_map flat1 body ++ [LEnd]
  | TLoop _ ft body => LLoop ft :: flat_map flat1 body ++ [LEnd]
  | TIf _ ft thn (Some els) => LIf ft :: flat_map flat1 thn ++ LElse :: flat_map flat1 els ++ [LEnd]
  | TIf _ ft thn None => LIf ft :: flat_map flat1 thn ++ [LEnd]
  end.
(** [from_recurse] on a body, L382-453. *)
Definition flat (b : list tinstr) : list low := flat_map flat1 b.

(** [From<Body> for LowLevelBody], L373-380. *)
Definition flatten (b : list tinstr) : list low := flat b ++ [LEnd].

(** ** The untyped converter, high_level_body.rs *)

(** [Entered], high_level_body.rs L138-146. *)
Inductive uentered :=
| UEnBlock (ft : functy) | UEnLoop (ft : functy) | UEnIfStart (ft : functy)
| UEnIfThenElse (ft : functy) (thn : list uinstr).
(** Local variables of the loop, high_level_body.rs L154-156. *)
Record upstate := UPS { ups_entered : list uentered; ups_bodies : list (list uinstr); ups_cur : list uinstr }.

(** Loop body, L158-202. *)
Definition u_step (s : upstate) (i : low) : conv upstate :=
  match i with
  | LBlock ft => COk (UPS (UEnBlock ft :: ups_entered s) (ups_cur s :: ups_bodies s) [])
  | LLoop ft => COk (UPS (UEnLoop ft :: ups_entered s) (ups_cur s :: ups_bodies s) [])
  | LIf ft => COk (UPS (UEnIfStart ft :: ups_entered s) (ups_cur s :: ups_bodies s) [])
  | LElse =>
      match ups_entered s with
      | UEnIfStart ft :: es => COk (UPS (UEnIfThenElse ft (ups_cur s) :: es) (ups_bodies s) [])
      | _ => CErr EIfDidNotPrecedeElse
      end
  | LEnd =>
      match ups_entered s with
      | [] => CErr EExcessiveEnd
      | e :: es =>
          match ups_bodies s with
          | [] => CErr EEndWithoutParent
          | parent :: bs =>
              let ins := match e with
                         | UEnBlock ft => UBlock ft (ups_cur s)
                         | UEnLoop ft => ULoop ft (ups_cur s)
                         | UEnIfStart ft => UIf ft (ups_cur s) None
                         | UEnIfThenElse ft thn => UIf ft thn (Some (ups_cur s))
                         end in
              COk (UPS es bs (parent ++ [ins]))
          end
      end
  | LBasic b => COk (UPS (ups_entered s) (ups_bodies s) (ups_cur s ++ [UBasic b]))
  end.

(** The loop, high_level_body.rs L158-202. *)
Fixpoint u_steps (s : upstate) (l : list low) : conv upstate :=
  match l with
  | [] => COk s
  | i :: l' =>
      match u_step s i with
      | COk s' => u_steps s' l'
      | CErr e => CErr e
      | CPanic => CPanic
      end
  end.

(** [TryFrom<LowLevelBody> for Body], L134-208. *)
Definition structure_untyped (l : list low) : conv (list uinstr) :=
  match split_last l with
  | Some (ins, LEnd) =>
      match u_steps (UPS [] [] []) ins with
      | COk s =>
          match ups_entered s, ups_bodies s with
          | [], [] => COk (ups_cur s)
          | _, _ => CPanic
          end
      | CErr e => CErr e
      | CPanic => CPanic
      end
  | _ => CErr EBodyNonEndTermination
  end.

(** [LowLevelBody::from_recurse] L220-292 and [From<Body>] L210-216. *)
Fixpoint uflat1 (i : uinstr) : list low :=
  match i with
  | UBasic b => [LBasic b]
  | UBlock ft body => LBlock ft :: flat_map uflat1 body ++ [LEnd]
  | ULoop ft body => LLoop ft :: flat_map uflat1 body ++ [LEnd]
  | UIf ft thn (Some els) => LIf ft :: flat_map uflat1 thn ++ LElse :: flat_map uflat1 els ++ [LEnd]
  | UIf ft thn None => LIf ft :: flat_map uflat1 thn ++ [LEnd]
  end.
(** [from_recurse] on a body, high_level_body.rs L220-292. *)
Definition uflat (b : list uinstr) : list low := flat_map uflat1 b.
(** [From<Body> for LowLevelBody], high_level_body.rs L210-216. *)
Definition uflatten (b : list uinstr) : list low := uflat b ++ [LEnd].
