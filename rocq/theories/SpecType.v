(** Vocabulary for the theorems about the type selectors. *)
From Coq Require Import ZArith.
From Verif Require Import TypeModel.
Open Scope Z_scope.

(** Size in bytes of the standard unsigned types on x86-64 Linux (LP64 data
    model). *)
Definition bytes_of (t : uty) : Z :=
  match t with UChar => 1 | UShort => 2 | UInt => 4 | ULong => 8 | ULongLong => 8 end.

(** An unsigned type has no padding bits there: eight binary digits a byte. *)
Definition bits_of (t : uty) : Z := 8 * bytes_of t.
