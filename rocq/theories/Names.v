(** Symbol names of the call-buffer library: wastrumentation/src/wasm_constructs/mod.rs. *)
From Verif Require Export Syntax.
From Coq Require Import DecimalString.

(** [WasmType::as_str], L41-50. *)
Definition as_str (t : valty) : string :=
  match t with
  | TNum TI32 => "i32" | TNum TF32 => "f32" | TNum TI64 => "i64" | TNum TF64 => "f64"
  | TRef FuncRef => "ref_func" | TRef ExternRef => "ref_extern"
  end%string.

(** [usize] in decimal, as [format!] prints it. *)
Definition decimal (n : nat) : string := NilEmpty.string_of_uint (Nat.to_uint n).

(** [slice::join("_")]. *)
Fixpoint join (sep : string) (l : list string) : string :=
  match l with
  | [] => ""
  | [x] => x
  | x :: r => x ++ sep ++ join sep r
  end%string.

(** [Signature], L59-63, is the function type it is built from (stack_library.rs L71-87).
    [generate_name], L73-89. *)
Definition sig_name (ft : functy) (name : string) : string :=
  let rets := join "_" ("ret"%string :: map as_str (ft_out ft)) in
  let args := join "_" ("arg"%string :: map as_str (ft_in ft)) in
  (name ++ "_" ++ rets ++ "_" ++ args)%string.

(** [SignatureSide], L137-151. *)
Inductive side := SRet | SArg.
(** [SignatureSide] as text, L137-151. *)
Definition side_str (s : side) : string := match s with SRet => "ret" | SArg => "arg" end%string.

(** The library's functions for one signature, L91-134. *)
Inductive libop :=
| LAlloc | LAllocTypes | LFree | LFreeTypes
| LLoad (s : side) (i : nat) | LStore (s : side) (i : nat) | LStoreArgs | LStoreRets.
(** The fixed part of the names, L91-134. *)
Definition op_prefix (o : libop) : string :=
  match o with
  | LAlloc => "allocate" | LAllocTypes => "allocate_types"
  | LFree => "free_values" | LFreeTypes => "free_types"
  | LLoad s i => "load_" ++ side_str s ++ decimal i
  | LStore s i => "store_" ++ side_str s ++ decimal i
  | LStoreArgs => "store_args" | LStoreRets => "store_rets"
  end%string.
(** The name of a library function, L91-134. *)
Definition op_name (ft : functy) (o : libop) : string := sig_name ft (op_prefix o).
