(** The command-line tool of the static analysis: wastrumentation-static-analysis/src/main.rs. *)
From Coq Require Import Ascii DecimalString.
From Verif Require Export Purity.
Local Open Scope string_scope.
Local Open Scope list_scope.

(** A [u32] as serde_json writes it: its decimal digits. *)
Definition decimal (k : N) : string := NilZero.string_of_uint (N.to_uint k).
(** [serde_json::ser::to_vec] of a vector of [u32], main.rs L51. *)
Definition to_json (l : list N) : string := ("[" ++ String.concat "," (map decimal l) ++ "]")%string.
(** The test of [retain], L38-49: whether the body has at least so many instructions; [None] is the panic of [expect], L43.
    The conversion of a [u32] to [usize] (L46-48) works on the targets the tool is run on. *)
Definition long_enough (m : module) (count : N) (f : nat) : option bool :=
  match nth_error (md_funcs m) f with
  | Some fn =>
      match fn_code fn with
      | FPresent _ body => Some (N.leb count (N.of_nat (List.length body)))
      | FImport _ _ => None
      end
  | None => None
  end.
(** [retain], L38-49. *)
Fixpoint retain (m : module) (count : N) (l : list nat) : option (list nat) :=
  match l with
  | [] => Some []
  | f :: l' =>
      match long_enough m count f with
      | None => None
      | Some b => option_map (fun r => if b then f :: r else r) (retain m count l')
      end
  end.
(** What a run comes to: success, with what is then in the output file; a panic; an error of writing; still running. *)
Inductive tool_outcome := TWritten (text : string) | TPanic | TIoError | TRunning.
(** [main], L25-53, on a program that can be read and parsed. [ord] is the iteration order of the hash set (L36); [write]
    is how many bytes one call of [write] takes (L51), [None] an error. [k] bounds the rounds of the analysis. *)
Definition tool_main (k : nat) infer (ord : list nat -> list nat) (write : string -> option nat) (m : module)
    (minimum_body : option N) : tool_outcome :=
  match immutable_functions k infer m with
  | VPanic => TPanic
  | VRunning => TRunning
  | Immutable _ fs =>
      let results := ord (nodup Nat.eq_dec fs) in                             (* L35-36 *)
      match match minimum_body with Some count => retain m count results | None => Some results end with
      | None => TPanic
      | Some results =>
          let text := to_json (map N.of_nat results) in
          match write text with
          | None => TIoError
          | Some taken => TWritten (substring 0 taken text)
          end
      end
  end.
