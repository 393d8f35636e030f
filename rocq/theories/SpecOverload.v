(** Specification vocabulary for C64 and C65, independent of how the calls are
    dispatched. *)
From Coq Require Import Bool List Arith.
From Verif Require Import OverloadModel.
Import ListNotations.

(** [f] is the first function of the list that can be called with [a]: it
    stands at place [i], and no function before it can be called. *)
Definition first_callable {A S R} (fs : list (fn A S R)) (a : A) (i : nat) (f : fn A S R)
  : Prop :=
  nth_error fs i = Some f /\ f_lvalue f a = true /\
  forall j g, j < i -> nth_error fs j = Some g -> f_lvalue g a = false.

(** None of the functions can be called with [a]. *)
Definition none_callable {A S R} (fs : list (fn A S R)) (a : A) : Prop :=
  forall j g, nth_error fs j = Some g -> f_lvalue g a = false.

(** The function is called in the same way as an lvalue and as an rvalue (no
    ref-qualified operator()), at least with the arguments [a]. *)
Definition unqualified {A S R} (a : A) (f : fn A S R) : Prop :=
  f_rvalue f a = f_lvalue f a.

(** How much an iterator of a category can do, [iterator.tags] of the C++
    standard: each of these categories refines the ones before it. *)
Definition strength (c : cat) : nat :=
  match c with
  | COutput => 0
  | CInput => 1
  | CForward => 2
  | CBidirectional => 3
  | CRandom => 4
  end.
