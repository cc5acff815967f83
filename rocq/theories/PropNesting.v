(** Property theorems C01-C03: flat bodies and structured bodies. *)
From Verif Require Import Nesting NestingSpec NestingProofs.

(** C01: structuring then flattening gives back exactly the input, and flattening then
    structuring gives back the same structure; both converters. The only thing assumed of
    the external type checker is that it annotates every instruction once. *)
Theorem C01_flatten_after_structure : forall f infer l b,
  same_length_oracle infer -> structure_typed f infer l = COk b -> flatten b = l.
Proof. exact typed_flatten_structure. Qed.
Print Assumptions C01_flatten_after_structure.

Theorem C01_structure_after_flatten : forall f infer b tys,
  same_length_oracle infer -> infer (flatten b) = Some tys ->
  exists b', structure_typed f infer (flatten b) = COk b' /\ map strip b' = map strip b.
Proof. exact typed_structure_flatten. Qed.
Print Assumptions C01_structure_after_flatten.

Theorem C01_untyped_round_trip :
  (forall b, structure_untyped (uflatten b) = COk b) /\
  (forall l b, structure_untyped l = COk b -> uflatten b = l).
Proof. exact (conj structure_untyped_flatten flatten_structure_untyped). Qed.
Print Assumptions C01_untyped_round_trip.

(** C02: a body is accepted exactly when it is well nested and ends with an [end]; with an
    [end]-terminated body that leaves a construct open the conversion panics; the remaining
    failures are the three documented errors. *)
Theorem C02_accepts_exactly_well_nested : forall f infer l,
  same_length_oracle infer ->
  (exists b, structure_typed f infer l = COk b) <->
  (infer l <> None /\ exists l', l = l' ++ [LEnd] /\ well_nested l').
Proof. exact typed_accepts_iff. Qed.
Print Assumptions C02_accepts_exactly_well_nested.

Theorem C02_untyped_accepts_exactly_well_nested : forall l,
  (exists b, structure_untyped l = COk b) <-> (exists l', l = l' ++ [LEnd] /\ well_nested l').
Proof. exact untyped_accepts_iff. Qed.
Print Assumptions C02_untyped_accepts_exactly_well_nested.

Theorem C02_panics_exactly_on_unclosed : forall f infer l,
  same_length_oracle infer ->
  structure_typed f infer l = CPanic <->
  (infer l <> None /\
   exists l' rest, l = l' ++ [LEnd] /\ ~ well_nested l' /\ well_nested (l' ++ rest)).
Proof. exact typed_panics_iff. Qed.
Print Assumptions C02_panics_exactly_on_unclosed.

Theorem C02_untyped_panics_exactly_on_unclosed : forall l,
  structure_untyped l = CPanic <->
  (exists l' rest, l = l' ++ [LEnd] /\ ~ well_nested l' /\ well_nested (l' ++ rest)).
Proof. exact untyped_panics_iff. Qed.
Print Assumptions C02_untyped_panics_exactly_on_unclosed.

Theorem C02_errors : forall f infer l e,
  same_length_oracle infer ->
  structure_typed f infer l = CErr e ->
  (e = ETypeInference /\ infer l = None) \/
  (infer l <> None /\
   (e = EBodyNonEndTermination \/ e = EIfDidNotPrecedeElse \/ e = EExcessiveEnd)).
Proof. exact typed_errors. Qed.
Print Assumptions C02_errors.

(** C03: every instruction of the structured body, at any depth, carries the function index it
    was converted for and the position of the flat instruction that starts it; positions are
    pairwise distinct; basic instructions carry the type inferred for that position. *)
Theorem C03_locations : forall f infer body b,
  structure_typed f infer body = COk b ->
  exists tys, infer body = Some tys /\
    (forall i, occurs i b ->
       m_fun (meta_of i) = f /\ m_gen (meta_of i) = false /\
       nth_error body (m_pos (meta_of i)) = Some (opening i) /\
       match i with TBasic m _ => nth_error tys (m_pos m) = Some (m_ty m) | _ => True end) /\
    NoDup (positions b).
Proof. exact structure_typed_located. Qed.
Print Assumptions C03_locations.

(** A nested example with both [if] forms, meeting every hypothesis above. *)
Definition ex_ft := FT [] [].
Definition ex_body : list low :=
  [LBlock ex_ft; LBasic (BConst TI32 1); LIf ex_ft; LLoop ex_ft; LBasic BNop; LEnd; LElse;
   LBasic (BBr 1); LEnd; LEnd; LBasic (BConst TI32 0); LIf ex_ft; LEnd; LEnd].
Definition ex_infer (l : list low) : option (list ity) := Some (map (fun _ => IReach ex_ft) l).
Example ex_oracle : same_length_oracle ex_infer.
Proof. intros l tys H. injection H as <-. apply map_length. Qed.
Example ex_structured : exists b, structure_typed 7 ex_infer ex_body = COk b /\
  List.length b = 3 /\ positions b = [0; 1; 2; 3; 4; 7; 10; 11] /\ flatten b = ex_body.
Proof. eexists. split; [vm_compute; reflexivity|]. vm_compute. auto. Qed.
Example ex_unclosed : structure_typed 7 ex_infer [LBlock ex_ft; LBasic BNop; LEnd] = CPanic.
Proof. reflexivity. Qed.
Example ex_errors :
  structure_typed 7 ex_infer [LElse; LEnd] = CErr EIfDidNotPrecedeElse /\
  structure_typed 7 ex_infer [LEnd; LEnd] = CErr EExcessiveEnd /\
  structure_typed 7 ex_infer [LBasic BNop] = CErr EBodyNonEndTermination.
Proof. repeat split. Qed.
