(** Counting the accesses of a call, for the statements of property C67. *)
From Coq Require Import ZArith Bool List.
From Verif Require Import Base ThreadModel.
Open Scope Z_scope.

(** The number of words read when the thread runs alone on memory [m]; an access
    outside the memory ends it. *)
Fixpoint reads {A} (t : thread A) (m : mem) : Z :=
  match t with
  | Done _ => 0
  | Read a k => match m a with Some x => 1 + reads (k x) m | None => 0 end
  | Write a v k => match m a with Some _ => reads k (mset m a v) | None => 0 end
  end.

(** The number of words written. *)
Fixpoint writes {A} (t : thread A) (m : mem) : Z :=
  match t with
  | Done _ => 0
  | Read a k => match m a with Some x => writes (k x) m | None => 0 end
  | Write a v k => match m a with Some _ => 1 + writes k (mset m a v) | None => 0 end
  end.

(** At most [r] reads and [n] writes, whatever the memory holds. *)
Definition at_most {A} (t : thread A) (r n : Z) : Prop :=
  forall m, reads t m <= r /\ writes t m <= n.

(** The number of words that hold bits of the bit addresses A, A + 1, ... B - 1. *)
Definition words_of (w A B : Z) : Z :=
  if A <? B then (B - 1) / w - A / w + 1 else 0.
