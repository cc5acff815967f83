(** The complete program the pipeline produces (C30): instrumented module, generated buffer
    library, compiled analysis and host, each with its own state. The library has its own memory
    and globals; the analysis has state [Y] and uses the library through its exports (rs-stdlib
    lib.rs L69-78). *)
From Verif Require Import Semantics Advice RsStdlib StackLib StackRun StackOps StackSpec StackHist.
Local Open Scope string_scope.
Local Open Scope list_scope.
Local Open Scope res_scope.

(** State of the agents: the library's store and the rest. *)
Notation sys Y := (store unit * Y)%type.

(** A buffer library: what calls of its exports do. *)
Notation lib_code := (string -> list val -> store unit -> res (store unit) (list val * store unit)).

Section System.
  Context {Y : Type}.
  Variable lc : lib_code.

  (** A call of an exported function of the library. *)
  Definition lib_agent (name : string) (args : list val) : xprog (sys Y) :=
    XGet (fun x m g =>
      match lc name args (fst x) with
      | Ok (vs, l) => XPut (l, snd x) m g (XRet vs)
      | Trap l => XPut (l, snd x) m g XTrap
      | Stuck | Oof => XStuck
      end).

  (** Agents that do not use the library. *)
  Fixpoint beside (p : xprog Y) : xprog (sys Y) :=
    match p with
    | XRet vs => XRet vs
    | XTrap => XTrap
    | XStuck => XStuck
    | XGet k => XGet (fun x m g => beside (k (snd x) m g))
    | XPut y m g k => XGet (fun x _ _ => XPut (fst x, y) m g (beside k))
    | XCall name args k => XCall name args (fun vs => beside (k vs))
    end.

  (** All agents, by namespace: library, analysis, host. *)
  Definition agents (analysis : string -> list val -> xprog (sys Y)) (host : string -> string -> list val -> xprog Y)
      (ns name : string) (args : list val) : xprog (sys Y) :=
    if String.eqb ns stack_ns then lib_agent name args
    else if String.eqb ns analysis_ns then analysis name args
    else beside (host ns name args).

  (** The store with the library in another state. *)
  Definition with_lib (s : store (sys Y)) (l : store unit) : store (sys Y) :=
    St (st_mem s) (st_globals s) (st_tables s) (st_elems s) (st_datas s) (l, snd (st_x s)).
End System.

(** What the system needs of the library: it follows the ideal stack of frames (StackSpec.v) for the
    signatures [sigs]. [library frs ifs] are its states with live buffers [frs] and contents [ifs].
    It may need [limit] bytes for live buffers, beyond that it traps, if [stops], or else may do
    anything. *)
Notation lib_states := (list frame -> list iframe -> store unit -> Prop).
Record implements (sigs : list functy) (lc : lib_code) (library : lib_states) (limit : Z) (stops : Prop) : Prop := {
  im_step : forall e frs ifs obs ifs' l, library frs ifs l -> ideal_step e ifs = Some (obs, ifs') ->
    (forall ft, In ft (entered [e]) -> In ft sigs /\ (live (map if_type ifs) + frame_bytes ft <= limit)%Z) ->
    exists vs frs' l', perform_step lc e frs l = Ok (vs, frs', l') /\ Forall2 sees obs vs /\ library frs' ifs' l';
  im_at : forall frs ifs l d ifr, library frs ifs l -> nth_error ifs d = Some ifr ->
    exists q qt, nth_error frs d = Some (if_type ifr, q, qt) /\ (0 <= q < 2 ^ 32)%Z /\ (0 <= qt < 2 ^ 32)%Z /\
      In (if_type ifr) sigs /\ numeric_sig (if_type ifr) = true /\
      List.length (if_rets ifr) = List.length (ft_out (if_type ifr)) /\
      List.length (if_args ifr) = List.length (ft_in (if_type ifr)) /\
      (forall sd i v, nth_error (side_of sd ifr) i = Some (Some v) ->
         exists t, nth_error (side_types (if_type ifr) sd) i = Some t /\ typeof v = t /\ in_range v = true);
  im_full : stops -> forall frs ifs l ft args, library frs ifs l -> In ft sigs -> numeric_sig ft = true -> vals_ok (ft_in ft) args = true ->
    (Z.of_nat (List.length (ft_out ft) + List.length (ft_in ft)) <= 8191)%Z -> (limit < live (map if_type ifs) + frame_bytes ft)%Z ->
    (exists l', lc (op_name ft LAlloc) args l = Trap l') \/
    exists q l1 l', lc (op_name ft LAlloc) args l = Ok ([vi32 q], l1) /\ (0 <= q < 2 ^ 32)%Z /\
      lc (op_name ft LAllocTypes) [] l1 = Trap l' }.

(** ** The library of StackLib.v *)
Definition no_agent (ns name : string) (args : list val) : xprog unit := XStuck.
(** Generated for [sigs]; [N] are the steps it may take per call. *)
Definition wat_lib num1 num2 (sigs : list functy) (N : nat) := lib_call num1 num2 no_agent sigs N.
Definition library (sigs : list functy) (frs : list frame) (ifs : list iframe) (l : store unit) : Prop :=
  exists p pg f, l = L tt p pg f /\ Inv sigs frs ifs p pg f.
