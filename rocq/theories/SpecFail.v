(** Vocabulary for the theorems about failing allocations in bit_vector
    (/repo/include/bitlib/bit-containers/bit_vector.hpp). *)
From Coq Require Import ZArith Bool List.
From Verif Require Import Base Spec VecModel CapModel FailModel SpecVec SpecCap.
Import ListNotations.
Open Scope Z_scope.

(** How a call ends that shows [x] to the client: at throws std::out_of_range
    (bit_vector.hpp:364-382). *)
Definition ended (x : vout) : outcome vout :=
  match x with OThrow => Exception OutOfRange | _ => Value x end.

(** The call needs more room than capacity() (bit_vector.hpp:486-490). The other
    calls must not fail. *)
Definition needs_room (w : Z) (c : cvec) (o : vop) : Prop :=
  match o with
  | OpPush _ | OpInsert _ _ | OpInsertN _ _ _ | OpInsertRange _ _ _ _ =>
    vcapacity w (snd c) < zlen (snd (vspec w (vbits w (fst c)) o))
  | OpReserve n => vcapacity w (snd c) < n mod 2 ^ 32
  | OpAssign other => vcapacity w (snd c) < zlen (vwords other) * w
  | OpShrinkToFit => zlen (vwords (fst c)) * w < vcapacity w (snd c)
  | _ => False
  end.

(** A client that keeps the preconditions of C32 whatever happens: after a call that
    failed it goes on with the bits it had before. *)
Fixpoint careful_pre (p : policy) (w : Z) (l : list bool) (q : careful) : Prop :=
  match q with
  | Stop => True
  | Call o k =>
    vpre p w l o /\
    careful_pre p w (snd (vspec w l o)) (k (ended (fst (vspec w l o)))) /\
    forall f, careful_pre p w l (k (Exception (Refused f)))
  end.

(** The calls [tr], ending as they did, make the bits [l] into [l']: a call that
    failed did nothing, every other call did what std::vector<bool> does. *)
Inductive explains (w : Z) : list bool -> list (vop * outcome vout) -> list bool -> Prop :=
| ex_none : forall l, explains w l [] l
| ex_done : forall l o tr l', explains w (snd (vspec w l o)) tr l' ->
    explains w l ((o, ended (fst (vspec w l o))) :: tr) l'
| ex_failed : forall l o f tr l', explains w l tr l' ->
    explains w l ((o, Exception (Refused f)) :: tr) l'.

(** The client assigns no vector (bit_vector.hpp:132). *)
Fixpoint assigns_none (q : careful) : Prop :=
  match q with
  | Stop => True
  | Call o k => match o with OpAssign _ => False | _ => True end /\ forall x, assigns_none (k x)
  end.
