(** Vocabulary for the theorems about bit_vector
    (/repo/include/bitlib/bit-containers/bit_vector.hpp): a bit vector stands for
    a list of booleans, and every operation is described on lists. *)
From Coq Require Import ZArith Bool List.
From Verif Require Import Base Spec VecModel.
Import ListNotations.
Open Scope Z_scope.

(** The bits of a list of words, least significant bit of the first word first
    (README.md). *)
Definition list_bits (w : Z) (ws : list Z) : list bool :=
  flat_map (fun x => map (fun k => Z.testbit x (Z.of_nat k)) (seq 0 (Z.to_nat w))) ws.

(** The contents of a bit vector: the first length_ bits of its words
    (bit_vector.hpp:39-40, 424-434). *)
Definition vbits (w : Z) (v : bvec) : list bool :=
  firstn (Z.to_nat (vlen v)) (list_bits w (vwords v)).

(** Values of the word type (bit_vector.hpp:35-39). *)
Definition words_ok (w : Z) (ws : list Z) : Prop := Forall (fun x => 0 <= x < 2 ^ w) ws.

(** Class invariant of bit_vector: the words are words, and length_ bits fit into
    them; the storage is that of a real array (bit_vector.hpp:39-40). *)
Definition vec_ok (w : Z) (v : bvec) : Prop :=
  words_ok w (vwords v) /\
  0 <= vlen v <= Z.of_nat (length (vwords v)) * w /\
  Z.of_nat (length (vwords v)) * w <= max_bits.

(** Length of a list as an integer (std::vector::size). *)
Definition zlen {A} (l : list A) : Z := Z.of_nat (length l).

(** The list [l] with [x] inserted before position [i] (std::vector::insert). *)
Definition insert_at (i : Z) (x l : list bool) : list bool :=
  firstn (Z.to_nat i) l ++ x ++ skipn (Z.to_nat i) l.

(** The list [l] without the positions [i, j) (std::vector::erase). *)
Definition erase_at (i j : Z) (l : list bool) : list bool :=
  firstn (Z.to_nat i) l ++ skipn (Z.to_nat j) l.

(** The positions [i, j) of [l]. *)
Definition slice (i j : Z) (l : list bool) : list bool :=
  firstn (Z.to_nat (j - i)) (skipn (Z.to_nat i) l).

(** The list [l] with [b] at position [i]. *)
Definition set_at (i : Z) (b : bool) (l : list bool) : list bool :=
  firstn (Z.to_nat i) l ++ [b] ++ skipn (Z.to_nat (i + 1)) l.

(** Element [i]. *)
Definition get_at (i : Z) (l : list bool) : bool := nth (Z.to_nat i) l false.

(** What a call does to the list of bits and what the caller sees
    (std::vector<bool>). *)
Definition vspec (w : Z) (l : list bool) (o : vop) : vout * list bool :=
  match o with
  | OpPush b => (ONone, l ++ [b])
  | OpPop => (ONone, removelast l)
  | OpInsert i b => (OIdx i, insert_at i [b] l)
  | OpInsertN i n b => (OIdx i, insert_at i (repeat b (Z.to_nat n)) l)
  | OpInsertRange i src j k => (OIdx i, insert_at i (slice j k (list_bits w src)) l)
  | OpErase i => (OIdx i, erase_at i (i + 1) l)
  | OpEraseRange i j => (OIdx i, erase_at i j l)
  | OpSet i b => (ONone, set_at i b l)
  | OpSetAt i b => if i <? zlen l then (ONone, set_at i b l) else (OThrow, l)
  | OpGet i => (OBit (get_at i l), l)
  | OpAt i => (if i <? zlen l then OBit (get_at i l) else OThrow, l)
  | OpFront => (OBit (hd false l), l)
  | OpBack => (OBit (last l false), l)
  | OpSize => (ONum (zlen l), l)
  | OpEmpty => (OBit match l with [] => true | _ => false end, l)
  | OpClear => (ONone, [])
  | OpReserve _ => (ONone, l)
  | OpShrinkToFit => (ONone, l)
  | OpResize n => (ONone, firstn (Z.to_nat n) l)
  | OpAssign other => (ONone, vbits w other)
  | OpMoveAssign other => (ONone, vbits w other)
  end.

(** Shifting the bits [lo, hi) of a vector is defined under the policy: the only
    undefined case is a range that is exactly one word (C24). *)
Definition shift_defined (p : policy) (w lo hi : Z) : Prop :=
  lo mod w <> 0 \/ hi - lo <> w \/ full_blend_defined p w.

(** Preconditions of the calls: positions are those std::vector<bool> asks for;
    lengths are bounded so that storage sizes fit 64-bit arithmetic, and by 2^24
    for the insertions that compute in float and 2^32 for the calls of
    word_count. resize may only shrink (see C34). *)
Definition vpre (p : policy) (w : Z) (l : list bool) (o : vop) : Prop :=
  match o with
  | OpPush _ => zlen l + w <= max_bits
  | OpPop => l <> []
  | OpInsert i _ =>
    0 <= i <= zlen l /\ zlen l + w <= max_bits /\
    (i < zlen l -> shift_defined p w i (zlen l + 1))
  | OpInsertN i n _ =>
    0 <= i <= zlen l /\ 0 <= n /\ zlen l + n <= 2 ^ 24 /\
    (0 < n -> i < zlen l -> shift_defined p w i (zlen l + n))
  | OpInsertRange i src j k =>
    0 <= i <= zlen l /\ 0 <= j <= k /\ k <= zlen src * w /\ words_ok w src /\
    zlen src * w <= max_bits /\ zlen l + (k - j) <= 2 ^ 24 /\
    (j < k -> i < zlen l -> shift_defined p w i (zlen l + (k - j)))
  | OpErase i =>
    0 <= i < zlen l /\ (i + 1 < zlen l -> shift_defined p w i (zlen l))
  | OpEraseRange i j =>
    0 <= i <= j /\ j <= zlen l /\ zlen l - (j - i) < 2 ^ 32 /\
    (i < j < zlen l -> shift_defined p w i (zlen l))
  | OpSet i _ | OpGet i => 0 <= i < zlen l
  | OpSetAt i _ | OpAt i => 0 <= i < 2 ^ 64
  | OpFront | OpBack => l <> []
  | OpResize n => 0 <= n <= zlen l /\ n < 2 ^ 32
  | OpAssign other | OpMoveAssign other => vec_ok w other
  | OpSize | OpEmpty | OpClear | OpReserve _ | OpShrinkToFit => True
  end.

(** A history on lists: preconditions of all calls, observations and result. *)
Fixpoint vpre_all (p : policy) (w : Z) (l : list bool) (os : list vop) : Prop :=
  match os with
  | [] => True
  | o :: os' => vpre p w l o /\ vpre_all p w (snd (vspec w l o)) os'
  end.
Fixpoint vspec_run (w : Z) (l : list bool) (os : list vop) : list vout * list bool :=
  match os with
  | [] => ([], l)
  | o :: os' =>
    let '(x, l') := vspec w l o in
    let '(xs, l'') := vspec_run w l' os' in
    (x :: xs, l'')
  end.

(** The bits that a string of '0' (48), '1' (49) and other characters denotes
    (bit_vector.hpp:274). *)
Definition string_bits (s : list Z) : list bool :=
  map (fun c => c =? 49) (filter (fun c => (c =? 48) || (c =? 49)) s).

(** The text for bit number [i]: its digit, preceded by a space (32) at a multiple
    of the word width and a dot (46) at any other multiple of 8. *)
Definition digit_text (w i : Z) (b : bool) : list Z :=
  (if i =? 0 then [] else if i mod w =? 0 then [32] else if i mod 8 =? 0 then [46] else [])
  ++ [if b then 49 else 48].

(** The text for the bits [l] numbered from [i]. *)
Fixpoint bits_text (w i : Z) (l : list bool) : list Z :=
  match l with
  | [] => []
  | b :: l' => digit_text w i b ++ bits_text w (i + 1) l'
  end.
