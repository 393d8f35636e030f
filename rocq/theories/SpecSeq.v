(** Vocabulary for the theorems about sequences of words that are not arrays. *)
From Coq Require Import ZArith.
From Verif Require Import Base Spec.
Open Scope Z_scope.

(** The words of the sequence in an array of their own. *)
Definition as_array (loc : Z -> Z) (m : mem) : mem := fun i => m (loc i).

(** [r], the outcome of a call on the sequence in the memory [m], is the outcome [ra] of
    the call on the array: the same end, the same value, the same words afterwards; the
    words that are not in the sequence are as before. *)
Definition like_array {A : Type} (loc : Z -> Z) (m : mem) (r ra : res (A * mem)) : Prop :=
  match ra with
  | Ok (x, ma) => exists m', r = Ok (x, m') /\ (forall i, m' (loc i) = ma i) /\
      forall a, (forall i, loc i <> a) -> m' a = m a
  | UB k => r = UB k
  | Assert => r = Assert
  | Throw => r = Throw
  | Fuel => r = Fuel
  end.

(** The words from position [i] to position [j] lie one after the other. *)
Definition adjacent (loc : Z -> Z) (i j : Z) : Prop :=
  forall k, i <= k <= j -> loc k = loc i + (k - i).
