(** Model of /repo/include/bitlib/bit-iterator/linear_overload.hpp (line numbers
    without a file name refer to that file) and of
    /repo/include/bitlib/bit-algorithms/type_traits.hpp.

    Overload resolution and SFINAE are part of what these files do, so they are
    modelled: a function object is described by the argument lists it accepts,
    a type by what the traits look at. *)
From Coq Require Import Bool List Arith.
Import ListNotations.

(** One function of the overload, the element N of the tuple _f (line 93). [A]:
    types, value categories and values of the arguments; [S]: the state that
    calls may change, the function objects held by the overload included; [R]:
    results.
    [f_lvalue]: a call through an lvalue of the function object is well formed,
    [f_rvalue]: through an rvalue (they differ when operator() is
    ref-qualified); [f_ref]: the tuple element is a reference. *)
Record fn (A S R : Type) : Type := Fn {
  f_ref : bool;
  f_lvalue : A -> bool;
  f_rvalue : A -> bool;
  f_body : A -> S -> R * S }.
Arguments Fn {A S R}.
Arguments f_ref {A S R}.
Arguments f_lvalue {A S R}.
Arguments f_rvalue {A S R}.
Arguments f_body {A S R}.

(** What a call does: the result of a function (None for the empty body of
    lines 187-193) and the new state, or a program that does not compile. *)
Inductive called (S R : Type) : Type :=
| Done (r : option R) (s : S)
| IllFormed.
Arguments Done {S R}.
Arguments IllFormed {S R}.

(** The test decltype(std::get<N>(std::declval<tuple>())(...)) of lines 70 and
    78-81: std::get of an rvalue tuple is an rvalue, unless the element is an
    lvalue reference. *)
Definition detected {A S R} (f : fn A S R) (a : A) : bool :=
  if f_ref f then f_lvalue f a else f_rvalue f a.

(** std::get<N>(_f)(args...), lines 201 and 212: _f is an lvalue there. *)
Definition invoke {A S R} (f : fn A S R) (a : A) (s : S) : called S R :=
  if f_lvalue f a then let (r, s') := f_body f a s in Done (Some r) s'
  else IllFormed.

(** operator()<N>(args...), lines 186-223. From N = size() on the first overload
    is the only one; below it the overloads of lines 196-202 (no argument) and
    205-213 are more specialised than that of lines 216-223, which calls
    operator()<N + 1>. [fuel] bounds the template recursion. *)
Fixpoint call_from {A S R} (fuel : nat) (fs : list (fn A S R)) (n : nat) (a : A) (s : S)
  : called S R :=
  match nth_error fs n with
  | None => Done None s
  | Some f =>
    if detected f a then invoke f a s
    else match fuel with
         | O => IllFormed
         | Datatypes.S k => call_from k fs (n + 1) a s
         end
  end.

(** A call of the overload, N = 0 (lines 62, 68, 74 and 85). *)
Definition overload_call {A S R} (fs : list (fn A S R)) (a : A) (s : S) : called S R :=
  call_from (length fs) fs 0 a s.

(** empty(), size() and max_size(), lines 159-181. *)
Definition overload_size {A S R} (fs : list (fn A S R)) : nat := length fs.
Definition overload_max_size {A S R} (fs : list (fn A S R)) : nat := length fs.
Definition overload_empty {A S R} (fs : list (fn A S R)) : bool := length fs =? 0.

(** One argument of overload_linearly(g...), lines 230-234: G is deduced as a
    reference type for an lvalue, so the tuple then holds a reference. *)
Definition deduce {A S R} (lvalue : bool) (f : fn A S R) : fn A S R :=
  Fn lvalue (f_lvalue f) (f_rvalue f) (f_body f).

(** overload_linearly, lines 230-234: functions with their value categories. *)
Definition overload_linearly {A S R} (gs : list (bool * fn A S R)) : list (fn A S R) :=
  map (fun g => deduce (fst g) (snd g)) gs.

(** The iterator categories named in type_traits.hpp:70-189 and the iterator
    tags the standard library derives from one another. *)
Inductive cat : Type := CInput | COutput | CForward | CBidirectional | CRandom.

(** Direct base class of an iterator tag, [iterator.tags] of the C++ standard, used through
    std::is_base_of_v in type_traits.hpp:94, 115, 137, 159, 180. *)
Definition tag_base (c : cat) : option cat :=
  match c with
  | CInput | COutput => None
  | CForward => Some CInput
  | CBidirectional => Some CForward
  | CRandom => Some CBidirectional
  end.

(** Equality of iterator tags (std::is_base_of of a class and itself holds,
    type_traits.hpp:94). *)
Definition tag_eqb (a b : cat) : bool :=
  match a, b with
  | CInput, CInput | COutput, COutput | CForward, CForward
  | CBidirectional, CBidirectional | CRandom, CRandom => true
  | _, _ => false
  end.

(** std::is_base_of_v<a, b>, type_traits.hpp:94-97; the inheritance is at most
    three steps deep. *)
Fixpoint base_of (fuel : nat) (a b : cat) : bool :=
  tag_eqb a b ||
  match fuel, tag_base b with
  | Datatypes.S k, Some b' => base_of k a b'
  | _, _ => false
  end.

(** A type as far as type_traits.hpp looks at it: [TBit] is ::bit::bit (lines
    27-29), [TRef] bit_reference of some word type, [TIter] a class with the
    member types of an iterator, [TPtr] a pointer to an object. *)
Inductive ty : Type :=
| TBit | TValue | TRef (word : nat) | TIter (c : cat) | TPtr | TOther
| TConst (t : ty) | TLref (t : ty).

(** is_bit, type_traits.hpp:36-66: the primary template and the three
    specialisations, none of which matches a const type or a reference. *)
Definition is_bit (t : ty) : bool :=
  match t with
  | TBit | TValue | TRef _ => true
  | _ => false
  end.

(** iterator_category of std::iterator_traits<T>, type_traits.hpp:77, 96, 117,
    139, 161, 182: the members of a class, also of a const one; random access for
    a pointer, but nothing for a const pointer, a reference or another type. *)
Definition category (t : ty) : option cat :=
  match t with
  | TIter c => Some c
  | TPtr => Some CRandom
  | TConst (TIter c) => Some c
  | _ => None
  end.

(** is_iterator, type_traits.hpp:71-82: std::iterator_traits<T>::value_type exists. *)
Definition is_iterator (t : ty) : bool :=
  match category t with Some _ => true | None => false end.

(** The common form of the five other traits, type_traits.hpp:86-189. *)
Definition has_category (c : cat) (t : ty) : bool :=
  match category t with Some d => base_of 3 c d | None => false end.

(** is_forward_iterator (87-102), is_bidirectional_iterator (108-124),
    is_random_access_iterator (130-146), is_input_iterator (152-167) and
    is_output_iterator (173-188) of type_traits.hpp. *)
Definition is_forward_iterator : ty -> bool := has_category CForward.
Definition is_bidirectional_iterator : ty -> bool := has_category CBidirectional.
Definition is_random_access_iterator : ty -> bool := has_category CRandom.
Definition is_input_iterator : ty -> bool := has_category CInput.
Definition is_output_iterator : ty -> bool := has_category COutput.
