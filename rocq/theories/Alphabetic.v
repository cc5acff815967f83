(** Identifiers generated from numbers for AssemblyScript parameter names. *)
From Coq Require Export Ascii NArith.
From Verif Require Export Base.
Local Open Scope string_scope.

(** [char::from(b'a' + u8::try_from(rem).unwrap())],
    supported-languages/assemblyscript/src/generate/analysis/util.rs L26. The conversion
    fails from 256 on and the addition overflows from 159 on; both panic. *)
Definition letter (rem : N) : option ascii :=
  if (rem <=? 158)%N then Some (ascii_of_N (97 + rem)) else None.

(** The loop of [to_alphabetic], util.rs L24-28: the letters pushed, first pushed first.
    [None]: panic, or the bound on the number of rounds is exhausted. *)
Fixpoint letters (fuel : nat) (number : N) : option string :=
  if (number =? 0)%N then Some "" else
  match fuel with
  | O => None
  | S fuel' =>
      let div := (number / 26)%N in
      let rem := (number mod 26)%N in
      match letter rem, letters fuel' div with
      | Some c, Some s => Some (String c s)
      | _, _ => None
      end
  end.

(** [to_alphabetic], util.rs L16-30. *)
Definition to_alphabetic (n : N) : option string :=
  if (n =? 0)%N then Some "a" else letters (N.size_nat n) n.
