(** Vocabulary for the theorems about the constructors of bit_vector
    (/repo/include/bitlib/bit-containers/bit_vector.hpp:94-120). *)
From Coq Require Import ZArith Bool List.
From Verif Require Import Base Spec VecModel CapModel FailModel CtorModel SpecVec SpecCap.
Import ListNotations.
Open Scope Z_scope.

(** The bits that the constructor is asked for (bit_vector.hpp:94-120). *)
Definition asked (w : Z) (s : source) : list bool :=
  match s with
  | FromNothing => []
  | FromCount n => repeat false (Z.to_nat n)
  | FromFill n b => repeat b (Z.to_nat n)
  | FromBits src i j => slice i j (list_bits w src)
  | FromBools bs | FromInit bs => bs
  | FromWords ws => list_bits w ws
  | FromString t => string_bits t
  | FromCopy other | FromMove other | FromMoveAlloc other => vbits w other
  end.

(** The arguments are valid: counts below 2^32 (word_count takes an unsigned int, C36),
    ranges inside their words, and everything of a size that fits (bit_vector.hpp:94-120). *)
Definition can_ask (w : Z) (s : source) : Prop :=
  match s with
  | FromNothing => True
  | FromCount n | FromFill n _ => 0 <= n < 2 ^ 32
  | FromBits src i j => 0 <= i <= j /\ j <= zlen src * w /\ words_ok w src /\
                        zlen src * w <= max_bits /\ (j - i) * w <= max_bits
  | FromBools bs => zlen bs * w <= max_bits
  | FromWords ws => words_ok w ws /\ zlen ws * w <= max_bits
  | FromInit bs => zlen bs + w <= max_bits
  | FromString t => zlen (string_bits t) * w <= max_bits
  | FromCopy other | FromMove other | FromMoveAlloc other => vec_ok w other
  end.

(** The bits are moved out of another vector (bit_vector.hpp:115). *)
Definition moves (s : source) : Prop := match s with FromMove _ => True | _ => False end.

(** A request to the allocator may be necessary: there is something to store. A vector
    can have words and no bits (bit_vector.hpp:39-40). *)
Definition stores (w : Z) (s : source) : Prop :=
  match s with
  | FromCopy other | FromMove other | FromMoveAlloc other => vwords other <> []
  | _ => asked w s <> []
  end.

(** The fewest words that hold [n] bits. *)
Definition fewest (w n : Z) : Z := (n + w - 1) / w.

(** Sources whose constructor makes one word for every bit (bit_vector.hpp:219-228,
    275-287, 291-311). *)
Definition one_word_per_bit (s : source) : bool :=
  match s with FromBits _ _ _ | FromBools _ | FromString _ => true | _ => false end.

(** A std::vector that makes room for exactly the words it is asked to hold when it is
    constructed, as libstdc++, libc++ and Microsoft's do. *)
Definition exact_room (g : growth) : Prop := forall n, g_other g 0 0 n = n.
