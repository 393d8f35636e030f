(** The addresses a thread reads, for the statements about count of property C67. *)
From Coq Require Import ZArith Bool List.
From Verif Require Import Base PopcntModel ThreadModel.
Open Scope Z_scope.

(** The addresses read when the thread runs alone on memory [m], in order. *)
Fixpoint read_at {A} (t : thread A) (m : mem) : list Z :=
  match t with
  | Done _ => nil
  | Read a k => a :: match m a with Some x => read_at (k x) m | None => nil end
  | Write a v k => match m a with Some _ => read_at k (mset m a v) | None => nil end
  end.

(** The addresses written when the thread runs alone on memory [m], in order. *)
Fixpoint write_at {A} (t : thread A) (m : mem) : list Z :=
  match t with
  | Done _ => nil
  | Read a k => match m a with Some x => write_at (k x) m | None => nil end
  | Write a v k => a :: match m a with Some _ => write_at k (mset m a v) | None => nil end
  end.

(** The addresses a, a + 1, ... b - 1. *)
Definition from_to (a b : Z) : list Z :=
  map (fun i => a + Z.of_nat i) (seq 0 (Z.to_nat (b - a))).

(** libpopcnt on [size] bytes at [a] does not read beyond them (C40): machines that need
    aligned loads step over the bytes in front of a multiple of eight, and may do so only if
    at least as many are left over behind the last eight. *)
Definition keeps_inside (t : target) (a size : Z) : Prop :=
  match t with
  | X86 _ | Neon true => True
  | Neon false => size mod 64 < 8 \/ (- a) mod 8 <= size mod 8
  | Generic => size < 8 \/ (- a) mod 8 <= size mod 8
  end.

(** Whatever it reads, the thread writes to none of the addresses of [P]. *)
Inductive avoids {A} (P : Z -> Prop) : thread A -> Prop :=
| avoids_done : forall r, avoids P (Done r)
| avoids_read : forall a k, (forall x, avoids P (k x)) -> avoids P (Read a k)
| avoids_write : forall a v k, ~ P a -> avoids P k -> avoids P (Write a v k).
