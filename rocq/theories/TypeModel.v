(** Model of the type selectors of
    /repo/include/bitlib/bit-iterator/bit_details.hpp:95-257 (line numbers refer to
    that file). The selectors are class templates that compute a type from types; the
    model computes a name of a type. *)
From Coq Require Import ZArith Bool List.
Import ListNotations.
Open Scope Z_scope.

(** The standard unsigned integer types, members of the tuples of lines 186-192 and
    224-230. Simplification: unsigned __int128 and cv-qualified types are left out. *)
Inductive uty : Type := UChar | UShort | UInt | ULong | ULongLong.

(** binary_digits, lines 41-58 (x86-64 LP64). *)
Definition digits_of (t : uty) : Z :=
  match t with UChar => 8 | UShort => 16 | UInt => 32 | ULong => 64 | ULongLong => 64 end.

(** std::common_type<T, U> for types of the same width, lines 120 and 160: the type
    itself, or the one of higher rank (C++17 [expr.arith.conv]). For types of
    different widths the result is computed but discarded (lines 114-122); [t] here. *)
Definition common_ty (t u : uty) : uty :=
  match t, u with
  | ULong, ULongLong => ULongLong
  | _, _ => t
  end.

(** _narrowest_type<T, U>, lines 110-125. *)
Definition narrowest2 (t u : uty) : uty :=
  if digits_of t <? digits_of u then t
  else if digits_of u <? digits_of t then u
  else common_ty t u.

(** _narrowest_type<T, U...>, lines 102-107 and 127-132; [t] is the first argument. *)
Fixpoint narrowest (t : uty) (us : list uty) : uty :=
  match us with
  | [] => t
  | u :: us' => narrowest2 t (narrowest u us')
  end.

(** _widest_type<T, U>, lines 150-165. *)
Definition widest2 (t u : uty) : uty :=
  if digits_of u <? digits_of t then t
  else if digits_of t <? digits_of u then u
  else common_ty t u.

(** _widest_type<T, X...>, lines 142-147 and 167-172. *)
Fixpoint widest (t : uty) (us : list uty) : uty :=
  match us with
  | [] => t
  | u :: us' => widest2 t (widest u us')
  end.

(** The tuple of _narrower_type, lines 186-192. *)
Definition down_tuple : list uty := [ULongLong; ULong; UInt; UShort; UChar].

(** The tuple of _wider_type, lines 224-230. *)
Definition up_tuple : list uty := [UChar; UShort; UInt; ULong; ULongLong].

(** _narrower_type<T, I>, lines 182-207 and 209-214: [rest] is the tuple from element I
    on. The specialization for -1 is the empty [rest]. *)
Fixpoint narrower_from (t : uty) (rest : list uty) : uty :=
  match rest with
  | [] => t
  | u :: rest' =>
    if digits_of u <? digits_of t then u
    else match rest' with [] => u | _ => narrower_from t rest' end
  end.

(** _narrower_type<T>, lines 182-218. *)
Definition narrower (t : uty) : uty := narrower_from t down_tuple.

(** _wider_type<T>, lines 220-256. Past the first element it goes on in
    _narrower_type<T, 1> (lines 238-241). *)
Definition wider (t : uty) : uty :=
  let u := hd UChar up_tuple in
  if digits_of t <? digits_of u then u else narrower_from t (tl down_tuple).
