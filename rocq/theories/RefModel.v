(** Model of bit_reference.hpp, bit_value.hpp and bit_pointer.hpp in
    /repo/include/bitlib/bit-iterator. [w] is the number of digits of the word
    type. A bit_value is a bool. *)
From Coq Require Import ZArith Bool List.
From Verif Require Import Base WordOps IterModel.
Import ListNotations.
Open Scope Z_scope.

(** bit_reference: members _ptr and _mask, bit_reference.hpp:102-103. *)
Record bref : Type := Ref { rptr : Z; rmask : Z }.

(** bit_reference(ref), bit_reference.hpp:160-167, 523-530. *)
Definition ref_aligned (a : Z) : bref := Ref a 1.

(** bit_reference(ref, pos), bit_reference.hpp:170-178, 533-541. *)
Definition mk_ref (p : policy) (w a q : Z) : res bref :=
  if (0 <=? q) && (q <? w) then
    let? s := cshl p w 1 q in Ok (Ref a (wrap w s))
  else Assert.

(** *it, bit_iterator.hpp:203-209. *)
Definition ideref (p : policy) (w : Z) (it : iter) : res bref :=
  mk_ref p w (ib it) (ip it).

(** it[n], bit_iterator.hpp:221-234. *)
Definition iindex (p : policy) (w : Z) (it : iter) (n : Z) : res bref :=
  let sum := swrap64 (ip it + n) in
  let diff := floor_diff w sum in
  mk_ref p w (ib it + diff) (wrap 64 (sum - diff * w)).

(** operator bool, bit_reference.hpp:276-281. *)
Definition ref_get (r : bref) : M bool :=
  let* x := load (rptr r) in
  ret (negb (Z.land x (rmask r) =? 0)).

(** set(), bit_reference.hpp:339-345. *)
Definition ref_set1 (r : bref) : M unit :=
  let* x := load (rptr r) in
  store (rptr r) (Z.lor x (rmask r)).

(** reset(), bit_reference.hpp:348-354; ~_mask is converted back to the word
    type. *)
Definition ref_reset (w : Z) (r : bref) : M unit :=
  let* x := load (rptr r) in
  store (rptr r) (wrap w (Z.land x (Z.lnot (rmask r)))).

(** flip(), bit_reference.hpp:357-363. *)
Definition ref_flip (r : bref) : M unit :=
  let* x := load (rptr r) in
  store (rptr r) (Z.lxor x (rmask r)).

(** set(b), bit_reference.hpp:329-336, and operator=(bit_value), 206-213. *)
Definition ref_set (w : Z) (r : bref) (b : bool) : M unit :=
  if b then ref_set1 r else ref_reset w r.
Definition ref_assign_val (w : Z) (r : bref) (b : bool) : M unit :=
  if b then ref_set1 r else ref_reset w r.

(** operator=(bit_reference), bit_reference.hpp:185-203. *)
Definition ref_assign_ref (w : Z) (r other : bref) : M unit :=
  let* b := ref_get other in
  if b then ref_set1 r else ref_reset w r.

(** assign(val), bit_reference.hpp:216-223. *)
Definition ref_assign_word (w : Z) (r : bref) (val : Z) : M unit :=
  if negb (Z.land val 1 =? 0) then ref_set1 r else ref_reset w r.

(** assign(val, pos), bit_reference.hpp:226-235. *)
Definition ref_assign_word_pos (p : policy) (w : Z) (r : bref) (val q : Z)
  : M unit :=
  if q <? w then
    let! s := cshr p w val q in
    if negb (Z.land s 1 =? 0) then ref_set1 r else ref_reset w r
  else lift Assert.

(** operator&=, |=, ^=, bit_reference.hpp:242-269. *)
Definition ref_and (w : Z) (r : bref) (b : bool) : M unit :=
  let* x := load (rptr r) in
  store (rptr r) (wrap w (Z.land x (Z.lnot (rmask r * b2z (negb b))))).
Definition ref_or (w : Z) (r : bref) (b : bool) : M unit :=
  let* x := load (rptr r) in
  store (rptr r) (wrap w (Z.lor x (rmask r * b2z b))).
Definition ref_xor (w : Z) (r : bref) (b : bool) : M unit :=
  let* x := load (rptr r) in
  store (rptr r) (wrap w (Z.lxor x (rmask r * b2z b))).

(** position() and mask(), bit_reference.hpp:379-395. *)
Definition ref_position (w : Z) (r : bref) : Z := tzcnt w (rmask r).

(** Member swap with another reference, bit_reference.hpp:300-310, and the
    non-member swap, 402-412: the same statements. *)
Definition ref_swap (l r : bref) : M unit :=
  let* x := ref_get l in
  let* y := ref_get r in
  if negb (eqb x y) then ref_flip l ;; ref_flip r else ret tt.

(** Swaps with a bit_value, bit_reference.hpp:313-322, 415-438; returns the new
    bit_value. The member of bit_value, bit_value.hpp:285-294, has the same
    statements but compares a reference with a bool, which does not compile as
    bit_value(bool) is explicit. *)
Definition ref_swap_val (l : bref) (v : bool) : M bool :=
  let* x := ref_get l in
  if negb (eqb x v) then ref_flip l ;; ret (negb v) else ret v.

(** bit_value(val, pos), bit_value.hpp:183-191, and assign(val, pos),
    219-228. *)
Definition val_of_word (p : policy) (w val q : Z) : res bool :=
  if q <? w then
    let? s := cshr p w val q in
    Ok (negb (Z.land s 1 =? 0))
  else Assert.

(** Operators on bit_value, bit_value.hpp:338-374: the bool result goes
    through an unsigned int whose lowest bit is taken. *)
Definition val_low (x : Z) : bool := negb (Z.land x 1 =? 0).
Definition val_not (v : bool) : bool := val_low (b2z (negb v)).
Definition val_and (l r : bool) : bool := val_low (Z.land (b2z l) (b2z r)).
Definition val_or (l r : bool) : bool := val_low (Z.lor (b2z l) (b2z r)).
Definition val_xor (l r : bool) : bool := val_low (Z.lxor (b2z l) (b2z r)).

(** Compound assignments of bit_value, bit_value.hpp:235-259:
    [_value &= other._value] etc. on bool. *)
Definition val_and_assign (v o : bool) : bool :=
  negb (Z.land (b2z v) (b2z o) =? 0).
Definition val_or_assign (v o : bool) : bool :=
  negb (Z.lor (b2z v) (b2z o) =? 0).
Definition val_xor_assign (v o : bool) : bool :=
  negb (Z.lxor (b2z v) (b2z o) =? 0).

(** bit_pointer: the member _ref (address or null, mask),
    bit_pointer.hpp:80-82. *)
Record bptr : Type := Ptr { pp : option Z; pmask : Z }.

(** Null pointer, bit_pointer.hpp:137-142, 155-161, 187-195. *)
Definition ptr_null : bptr := Ptr None 0.

(** bit_pointer(ptr), whose argument may be a null pointer, and
    bit_pointer(ptr, pos), modelled for a pointer that is not null,
    bit_pointer.hpp:164-180. *)
Definition ptr_aligned (a : option Z) : bptr := Ptr a 1.
Definition mk_ptr (p : policy) (w a q : Z) : res bptr :=
  let? r := mk_ref p w a q in Ok (Ptr (Some (rptr r)) (rmask r)).

(** operator bool, bit_pointer.hpp:225-230. *)
Definition ptr_bool (x : bptr) : bool :=
  match pp x with Some _ => true | None => false end.

(** _ref.position(), bit_reference.hpp:379-385. *)
Definition ptr_pos (w : Z) (x : bptr) : Z := tzcnt w (pmask x).

(** operator*, bit_pointer.hpp:237-242. Dereferencing null is UB. *)
Definition ptr_deref (x : bptr) : res bref :=
  match pp x with Some a => Ok (Ref a (pmask x)) | None => UB BadUse end.

(** operator& of a reference, bit_reference.hpp:288-293. *)
Definition ref_addr (p : policy) (w : Z) (r : bref) : res bptr :=
  mk_ptr p w (rptr r) (ref_position w r).

(** operator+ and operator- with an offset, bit_pointer.hpp:332-359. Arithmetic
    on a null pointer is UB. *)
Definition padd (p : policy) (w : Z) (x : bptr) (n : Z) : res bptr :=
  match pp x with
  | None => UB BadUse
  | Some a =>
    let sum := swrap64 (ptr_pos w x + n) in
    let diff := floor_diff w sum in
    mk_ptr p w (a + diff) (wrap 64 (sum - diff * w))
  end.
Definition psub (p : policy) (w : Z) (x : bptr) (n : Z) : res bptr :=
  match pp x with
  | None => UB BadUse
  | Some a =>
    let sum := swrap64 (ptr_pos w x - n) in
    let diff := floor_diff w sum in
    mk_ptr p w (a + diff) (wrap 64 (sum - diff * w))
  end.

(** operator[], bit_pointer.hpp:253-265. *)
Definition pindex (p : policy) (w : Z) (x : bptr) (n : Z) : res bref :=
  match pp x with
  | None => UB BadUse
  | Some a =>
    let sum := swrap64 (ptr_pos w x + n) in
    let diff := floor_diff w sum in
    mk_ref p w (a + diff) (wrap 64 (sum - diff * w))
  end.

(** operator++, bit_pointer.hpp:272-288. *)
Definition pinc (w : Z) (x : bptr) : res bptr :=
  match pp x with
  | None => UB BadUse
  | Some a =>
    if ptr_pos w x + 1 <? w then Ok (Ptr (Some a) (wrap w (Z.shiftl (pmask x) 1)))
    else Ok (Ptr (Some (a + 1)) 1)
  end.

(** operator--, bit_pointer.hpp:291-307. *)
Definition pdec (w : Z) (x : bptr) : res bptr :=
  match pp x with
  | None => UB BadUse
  | Some a =>
    if ptr_pos w x =? 0 then Ok (Ptr (Some (a - 1)) (wrap w (Z.shiftl 1 (w - 1))))
    else Ok (Ptr (Some a) (Z.shiftr (pmask x) 1))
  end.

(** Difference, bit_pointer.hpp:396-414. *)
Definition pdiff (w : Z) (l r : bptr) : res Z :=
  match pp l, pp r with
  | Some a, Some b =>
    if in_int64 ((a - b) * w) then
      Ok (swrap64 ((a - b) * w + (ptr_pos w l - ptr_pos w r)))
    else UB SignedOverflow
  | _, _ => UB BadUse
  end.

(** Comparisons, bit_pointer.hpp:421-488. Relational comparison with a null
    pointer is unspecified; modelled as UB. Equality with null is defined. *)
Definition peq (w : Z) (l r : bptr) : bool :=
  match pp l, pp r with
  | Some a, Some b => (a =? b) && (ptr_pos w l =? ptr_pos w r)
  | None, None => ptr_pos w l =? ptr_pos w r
  | _, _ => false
  end.
Definition plt (w : Z) (l r : bptr) : res bool :=
  match pp l, pp r with
  | Some a, Some b =>
    Ok ((a <? b) || ((a =? b) && (ptr_pos w l <? ptr_pos w r)))
  | _, _ => UB BadUse
  end.
Definition ple (w : Z) (l r : bptr) : res bool :=
  match pp l, pp r with
  | Some a, Some b =>
    Ok ((a <? b) || ((a =? b) && (ptr_pos w l <=? ptr_pos w r)))
  | _, _ => UB BadUse
  end.

Definition pne (w : Z) (l r : bptr) : bool :=  (* bit_pointer.hpp:433-441 *)
  match pp l, pp r with
  | Some a, Some b => negb (a =? b) || negb (ptr_pos w l =? ptr_pos w r)
  | None, None => negb (ptr_pos w l =? ptr_pos w r)
  | _, _ => true
  end.
Definition pgt (w : Z) (l r : bptr) : res bool :=  (* bit_pointer.hpp:467-476 *)
  match pp l, pp r with
  | Some a, Some b =>
    Ok ((b <? a) || ((a =? b) && (ptr_pos w r <? ptr_pos w l)))
  | _, _ => UB BadUse
  end.
Definition pge (w : Z) (l r : bptr) : res bool :=  (* bit_pointer.hpp:479-488 *)
  match pp l, pp r with
  | Some a, Some b =>
    Ok ((b <? a) || ((a =? b) && (ptr_pos w r <=? ptr_pos w l)))
  | _, _ => UB BadUse
  end.

(** Input stream: remaining characters, the state bits and the skipws flag.
    Simplification: the characters are those of one in-memory buffer (so that
    sputbackc of the character just read succeeds and nothing throws), and
    widen is the identity (char streams). For bit_value.hpp:439-488 and
    bit_reference.hpp:445-494. *)
Record istream : Type := Is {
  chars : list Z; eofb : bool; failb : bool; badb : bool; skipws : bool }.

(** Whitespace of the "C" locale, used by std::istream::sentry
    (bit_value.hpp:454). *)
Definition is_space (c : Z) : bool := (c =? 32) || ((9 <=? c) && (c <=? 13)).

Fixpoint skip_spaces (l : list Z) : list Z :=  (* bit_value.hpp:454 *)
  match l with
  | c :: l' => if is_space c then skip_spaces l' else l
  | [] => []
  end.

(** std::istream::sentry (C++17 [istream::sentry]), constructed in
    bit_value.hpp:454: (sentry ok, stream). *)
Definition sentry (s : istream) : bool * istream :=
  if eofb s || failb s || badb s then
    (false, Is (chars s) (eofb s) true (badb s) (skipws s))
  else if skipws s then
    match skip_spaces (chars s) with
    | [] => (false, Is [] true true false true)
    | l => (true, Is l false false false true)
    end
  else (true, s).

(** operator>> for bit_value, bit_value.hpp:439-488: (new value, stream). *)
Definition extract (s : istream) (x : bool) : bool * istream :=
  let (ok, s1) := sentry s in
  if ok then
    match chars s1 with
    | [] => (x, Is [] true true (badb s1) (skipws s1))
    | c :: l =>
      if c =? 48 then (false, Is l (eofb s1) (failb s1) (badb s1) (skipws s1))
      else if c =? 49 then
        (true, Is l (eofb s1) (failb s1) (badb s1) (skipws s1))
      else (x, Is (c :: l) (eofb s1) true (badb s1) (skipws s1))
    end
  else (x, Is (chars s1) (eofb s1) true (badb s1) (skipws s1)).

(** operator>> for bit_reference, bit_reference.hpp:445-494: the referenced bit
    is read into tmp and assigned from it only on success. *)
Definition extract_ref (w : Z) (s : istream) (r : bref) : M istream :=
  let* x := ref_get r in
  let (ok, s1) := sentry s in
  if ok then
    match chars s1 with
    | [] => ret (Is [] true true (badb s1) (skipws s1))
    | c :: l =>
      if c =? 48 then
        ref_assign_val w r false ;;
        ret (Is l (eofb s1) (failb s1) (badb s1) (skipws s1))
      else if c =? 49 then
        ref_assign_val w r true ;;
        ret (Is l (eofb s1) (failb s1) (badb s1) (skipws s1))
      else ret (Is (c :: l) (eofb s1) true (badb s1) (skipws s1))
    end
  else ret (Is (chars s1) (eofb s1) true (badb s1) (skipws s1)).

(** operator<< for bit_value and bit_reference, bit_value.hpp:491-500 and
    bit_reference.hpp:497-506: the character appended to the output. *)
Definition insert_char (v : bool) : Z := if v then 49 else 48.

(** Extraction of [n] bits in sequence into a list of bit_values
    (bit_value.hpp:439-488 called n times). *)
Fixpoint extract_many (n : nat) (s : istream) : list bool * istream :=
  match n with
  | O => ([], s)
  | S n' =>
    let (x, s1) := extract s false in
    let (l, s2) := extract_many n' s1 in
    (x :: l, s2)
  end.
