(** Specification vocabulary: what the theorems talk about besides the modelled
    functions. Bits are numbered by absolute bit address: bit [i] of a memory
    of [w]-bit words is bit [i mod w] of word [i / w] (README.md: least
    significant bit first). *)
From Coq Require Import ZArith Bool List.
From Verif Require Import Base IterModel.
Import ListNotations.
Open Scope Z_scope.

(** The bit at absolute bit address [i] (README.md, LSB-first numbering; the
    bit that bit_iterator.hpp:203-209 refers to). Unmapped words read as 0. *)
Definition bit (w : Z) (m : mem) (i : Z) : bool :=
  match m (i / w) with
  | Some x => Z.testbit x (i mod w)
  | None => false
  end.

(** Absolute bit address of the bit an iterator designates
    (bit_iterator.hpp:203-209). *)
Definition addr (w : Z) (it : iter) : Z := ib it * w + ip it.

(** The class invariant of bit_iterator (bit_iterator.hpp:178). *)
Definition valid_it (w : Z) (it : iter) : Prop := 0 <= ip it < w.

(** All words of the memory are values of the [w]-bit word type
    (word_type, bit_iterator.hpp:60-70). *)
Definition wf_mem (w : Z) (m : mem) : Prop :=
  forall a x, m a = Some x -> 0 <= x < 2 ^ w.

(** Every bit of [lo, hi) lies in a mapped word: the range is readable
    (std::vector storage handed to the algorithms). Nothing is said about any
    other word, so an [Ok] outcome shows that no other word is needed. *)
Definition mapped (w : Z) (m : mem) (lo hi : Z) : Prop :=
  forall i, lo <= i < hi -> m (i / w) <> None.

(** No word is mapped or unmapped by a computation (the algorithms never
    allocate). *)
Definition same_dom (m m' : mem) : Prop :=
  forall a, m a = None <-> m' a = None.

(** [x] lies in [lo, hi): used to state which bits change. *)
Definition inr (lo hi x : Z) : bool := (lo <=? x) && (x <? hi).

(** The memory [m'] results from [m] by setting exactly the bits in [lo, hi) to
    [f]: every other bit is as before, no word is allocated or freed and all
    words keep their type. *)
Definition updated (w : Z) (m m' : mem) (lo hi : Z) (f : Z -> bool) : Prop :=
  wf_mem w m' /\ same_dom m m' /\
  forall i, bit w m' i = if inr lo hi i then f i else bit w m i.

(** Lengths of bit ranges: no array in a 64-bit address space has 2^62 bits. *)
Definition max_bits : Z := 2 ^ 62.

(** Number of indices [k < n] with [f (lo + k)]. *)
Fixpoint count_true (f : Z -> bool) (lo : Z) (n : nat) : Z :=
  match n with
  | O => 0
  | S n' => (if f lo then 1 else 0) + count_true f (lo + 1) n'
  end.

(** Shift policies under which a blend of a whole word (start 0, length equal
    to the width; bit_details.hpp:753-761) is defined. *)
Definition full_blend_defined (p : policy) (w : Z) : Prop :=
  match p with
  | Strict17 => False
  | Strict20 => w < 32
  | Hw _ => True
  end.

(** A range [first, last) handed to an algorithm: both iterators satisfy the
    class invariant, last is not before first, the length is that of a real
    array and every bit of the range lies in a mapped word (the precondition of
    the algorithms, e.g. bit-algorithms/fill.hpp:38-46, with the range check of
    bit_details.hpp:377-387). *)
Definition good_range (w : Z) (m : mem) (first last : iter) : Prop :=
  valid_it w first /\ valid_it w last /\
  0 <= addr w last - addr w first <= max_bits /\
  mapped w m (addr w first) (addr w last).

(** A destination of [len] bits starting at [d] (precondition of the algorithms
    with an output range, e.g. copy.hpp:30-43). *)
Definition good_dest (w : Z) (m : mem) (d : iter) (len : Z) : Prop :=
  valid_it w d /\ mapped w m (addr w d) (addr w d + len).

(** The same for a destination that ends at [d] (copy_backward.hpp:27-40). *)
Definition good_dest_end (w : Z) (m : mem) (d : iter) (len : Z) : Prop :=
  valid_it w d /\ mapped w m (addr w d - len) (addr w d).

