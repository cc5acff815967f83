(** Call histories over the generated call-buffer library, and what they should observe.

    A history is what the instrumented program and the analysis do with the library: entering a
    selected function allocates its buffers, leaving it frees them, and in between any slot of any
    live buffer may be read or written, from either side. *)
From Verif Require Import StackLib StackRun StackOps RsStdlib.
Local Open Scope string_scope.
Local Open Scope list_scope.
Local Open Scope res_scope.

Inductive ev :=
| EEnter (ft : functy) (args : list val)
| ELeave
| EStore (analysis : bool) (d : nat) (s : side) (i : nat) (v : val)
| ELoad (analysis : bool) (d : nat) (s : side) (i : nat)
| EResults (d : nat) (vs : list val)
| EType (d k : nat).

(** ** The ideal: a stack of frames, each with its own slots *)
Record iframe := IF { if_type : functy; if_rets : list (option val); if_args : list (option val) }.
(** The slots of the arguments or of the results. *)
Definition side_of (s : side) (fr : iframe) : list (option val) := match s with SRet => if_rets fr | SArg => if_args fr end.
(** Write a slot. *)
Definition set_slot (s : side) (i : nat) (v : val) (fr : iframe) : iframe :=
  match s with
  | SRet => IF (if_type fr) (set_nth i (Some v) (if_rets fr)) (if_args fr)
  | SArg => IF (if_type fr) (if_rets fr) (set_nth i (Some v) (if_args fr))
  end.
(** No references among parameters and results. *)
Definition numeric_sig (ft : functy) : bool := negb (existsb is_ref (ft_out ft)) && negb (existsb is_ref (ft_in ft)).
(** The codes the analysis library knows types by. *)
Definition type_code (t : valty) : Z :=
  match t with
  | TNum TI32 => 0 | TNum TF32 => 1 | TNum TI64 => 2 | TNum TF64 => 3
  | TRef FuncRef => 4 | TRef ExternRef => 5
  end.
(** [v] may go to slot [i] of those with the types [ts]. *)
Definition ok_for (ts : list valty) (i : nat) (v : val) : bool :=
  match nth_error ts i with Some t => vals_ok [t] [v] | None => false end.

(** Observations; [None] is a slot nobody has written. The whole is [None] when the event makes
    no sense at this point. *)
Definition ideal_step (e : ev) (st : list iframe) : option (list (option val) * list iframe) :=
  match e with
  | EEnter ft args =>
      if numeric_sig ft && vals_ok (ft_in ft) args
      then Some ([], IF ft (repeat None (List.length (ft_out ft))) (map Some args) :: st) else None
  | ELeave => match st with [] => None | _ :: r => Some ([], r) end
  | EStore _ d s i v =>
      match nth_error st d with
      | Some fr => if ok_for (side_types (if_type fr) s) i v then Some ([], set_nth d (set_slot s i v fr) st) else None
      | None => None
      end
  | ELoad _ d s i =>
      match nth_error st d with
      | Some fr => match nth_error (side_of s fr) i with Some o => Some ([o], st) | None => None end
      | None => None
      end
  | EResults d vs =>
      match nth_error st d with
      | Some fr => if vals_ok (ft_out (if_type fr)) vs
                   then Some ([], set_nth d (IF (if_type fr) (map Some vs) (if_args fr)) st) else None
      | None => None
      end
  | EType d k =>
      match nth_error st d with
      | Some fr => match nth_error (ft_out (if_type fr) ++ ft_in (if_type fr)) k with
                   | Some t => Some ([Some (vi32 (type_code t))], st)
                   | None => None
                   end
      | None => None
      end
  end.
(** A history: the observations, and the frames at the end. *)
Fixpoint ideal (es : list ev) (st : list iframe) : option (list (option val) * list iframe) :=
  match es with
  | [] => Some ([], st)
  | e :: r =>
      match ideal_step e st with
      | Some (o, st1) => match ideal r st1 with Some (os, st2) => Some (o ++ os, st2) | None => None end
      | None => None
      end
  end.

(** Bytes of the buffers of a call: eight per value, four per type. *)
Definition frame_bytes (ft : functy) : Z := 12 * Z.of_nat (List.length (ft_out ft) + List.length (ft_in ft)).
(** The bytes of the buffers of the calls in progress. *)
Fixpoint live (st : list functy) : Z := match st with [] => 0 | ft :: r => frame_bytes ft + live r end.
(** The most that is live at any time. *)
Fixpoint peak (es : list ev) (st : list functy) : Z :=
  match es with
  | [] => live st
  | EEnter ft _ :: r => Z.max (live st) (peak r (ft :: st))
  | ELeave :: r => Z.max (live st) (peak r (tl st))
  | _ :: r => peak r st
  end.

(** ** The library *)
Definition frame : Type := functy * Z * Z.
Section Perform.
  Context {X : Type}.
  Notation store := (store X).
  (** Calls of the library's exports, by name. *)
  Variable lib : string -> list val -> store -> res store (list val * store).

  Definition pointer (vs : list val) : option Z := match vs with [VNum TI32 z] => Some z | _ => None end.
  (** The slot numbers of the analysis library: results first, then arguments. *)
  Definition number (ft : functy) (s : side) (i : nat) : Z :=
    match s with SRet => Z.of_nat i | SArg => Z.of_nat (List.length (ft_out ft) + i) end.
  (** The type of a slot. *)
  Definition side_type (ft : functy) (s : side) (i : nat) : option numty :=
    match nth_error (side_types ft s) i with Some (TNum t) => Some t | _ => None end.

  (** An event, carried out by calling the library's exports: by the code of the instrumented program (function_application.rs) or, if the flag of a load or store says so, by the analysis library. A frame is a signature with the pointers to its values and types. *)
  Definition perform_step (e : ev) (frs : list frame) (s : store) : res store (list val * list frame * store) :=
    match e with
    | EEnter ft args =>
        let* (vs, s1) := lib (op_name ft LAlloc) args s in
        let* q := rget (pointer vs) in
        let* (ts, s2) := lib (op_name ft LAllocTypes) [] s1 in
        let* qt := rget (pointer ts) in
        Ok ([], (ft, q, qt) :: frs, s2)
    | ELeave =>
        match frs with
        | [] => Stuck
        | (ft, q, qt) :: r =>
            let* (vs, s1) := lib (op_name ft LFree) [vi32 q] s in
            let* (ws, s2) := lib (op_name ft LFreeTypes) [vi32 qt] s1 in
            Ok (vs ++ ws, r, s2)
        end
    | EStore an d sd i v =>
        match nth_error frs d with
        | None => Stuck
        | Some (ft, q, _) =>
            let* t := rget (side_type ft sd i) in
            let* (vs, s1) :=
              (if an then lib (stack_store_name t) [vi32 q; v; vi32 (number ft sd i)] s
               else lib (op_name ft (LStore sd i)) [vi32 q; v] s) in
            Ok (vs, frs, s1)
        end
    | ELoad an d sd i =>
        match nth_error frs d with
        | None => Stuck
        | Some (ft, q, _) =>
            let* t := rget (side_type ft sd i) in
            let* (vs, s1) :=
              (if an then lib (stack_load_name t) [vi32 q; vi32 (number ft sd i)] s
               else lib (op_name ft (LLoad sd i)) [vi32 q] s) in
            Ok (vs, frs, s1)
        end
    | EResults d vs =>
        match nth_error frs d with
        | None => Stuck
        | Some (ft, q, _) => let* (ws, s1) := lib (op_name ft LStoreRets) (vi32 q :: vs) s in Ok (ws, frs, s1)
        end
    | EType d k =>
        match nth_error frs d with
        | None => Stuck
        | Some (ft, _, qt) =>
            let* (vs, s1) := lib "wastrumentation_stack_load_type" [vi32 qt; vi32 (Z.of_nat k)] s in Ok (vs, frs, s1)
        end
    end.
  (** A history. *)
  Fixpoint perform (es : list ev) (frs : list frame) (s : store) : res store (list val * list frame * store) :=
    match es with
    | [] => Ok ([], frs, s)
    | e :: r =>
        let* (vs, frs1, s1) := perform_step e frs s in
        let* (ws, frs2, s2) := perform r frs1 s1 in
        Ok (vs ++ ws, frs2, s2)
    end.
End Perform.

(** ** What is wanted *)
Definition sees (o : option val) (v : val) : Prop := match o with Some w => v = w | None => True end.
(** Byte ranges. *)
Definition buffers (frs : list frame) : list (Z * Z) :=
  flat_map (fun fr => match fr with (ft, q, qt) =>
    let k := Z.of_nat (List.length (ft_out ft) + List.length (ft_in ft)) in [(q, 8 * k); (qt, 4 * k)] end%Z) frs.
(** Two byte ranges do not overlap. *)
Definition apart (a b : Z * Z) : Prop := (snd a = 0 \/ snd b = 0 \/ fst a + snd a <= fst b \/ fst b + snd b <= fst a)%Z.
(** No two do. *)
Definition all_apart (bs : list (Z * Z)) : Prop :=
  forall i j a b, nth_error bs i = Some a -> nth_error bs j = Some b -> i <> j -> apart a b.
(** Signatures of a history. *)
Definition entered (es : list ev) : list functy := flat_map (fun e => match e with EEnter ft _ => [ft] | _ => [] end) es.
