(** The words behind a bit_vector and the ends of its range
    (/repo/include/bitlib/bit-containers/bit_vector.hpp; line numbers refer to that
    file). Addresses are those of VecModel: word k of the storage has address k. *)
From Coq Require Import ZArith Bool List.
From Verif Require Import Base WordOps IterModel RefModel VecModel.
Import ListNotations.
Open Scope Z_scope.

(** data(), lines 408-412: [length_ ? &(word_vector[0]) : 0]. *)
Definition vdata (v : bvec) : res (option Z) :=
  if vlen v =? 0 then Ok None
  else match vwords v with [] => UB BadUse | _ => Ok (Some 0) end.

(** data() const, lines 414-418: [word_vector.size() ? &(word_vector[0]) : 0]. *)
Definition vdata_const (v : bvec) : option Z :=
  if wsize (vwords v) =? 0 then None else Some 0.

(** data()[k] and data()[k] = x for a pointer [a] that data() returned (408-418). *)
Definition data_get (v : bvec) (a k : Z) : res Z :=
  let? (x, _) := on_words (vwords v) (load (a + k)) in Ok x.
Definition data_put (v : bvec) (a k x : Z) : res bvec :=
  let? (_, l) := on_words (vwords v) (store (a + k) x) in Ok (BV l (vlen v)).

(** begin() const and cbegin(), lines 436-440 and 448-452: a const_iterator made
    from word_vector.begin(). *)
Definition vcbegin (v : bvec) : iter := mk_aligned 0.

(** end() const and cend(), lines 442-446 and 454-458. *)
Definition vcend (w : Z) (v : bvec) : res iter := iadd w (mk_aligned 0) (swrap64 (vlen v)).

(** max_size(), lines 475-479, in size_t; [most] is word_vector.max_size(). *)
Definition vmax_size (w most : Z) : Z := wrap 64 (most * w).

(** word_vector.max_size() with std::allocator (line 34): PTRDIFF_MAX bytes. *)
Definition most_words (w : Z) : Z := (2 ^ 63 - 1) / (w / 8).
