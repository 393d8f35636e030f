(** The algorithms on words that do not lie one after the other in memory. The class
    template bit_iterator takes any random access iterator to words
    (/repo/include/bitlib/bit-iterator/bit_iterator.hpp:28-34, bit_details.hpp:56-92), for
    instance that of a std::deque<word> or a std::reverse_iterator<word*>. [loc] tells
    where the words are: the word at the position [i] of the sequence is at the address
    [loc i]; iterators are compared, subtracted and advanced by their positions.
    Simplification: addresses count words, and all sequences a call is about are parts
    of one sequence of positions. *)
From Coq Require Import ZArith Bool List.
From Verif Require Import Base WordOps IterModel RefModel PopcntModel AlgModel ThreadModel
  HwyModel.
Import ListNotations.
Open Scope Z_scope.

(** The accesses of a thread through iterators at the positions it names instead of
    through pointers: *it is the word at [loc it] (bit_iterator.hpp:203-209 and every
    "*it" and "*first.base()" of bit-algorithms). *)
Fixpoint via {A} (loc : Z -> Z) (t : thread A) : thread A :=
  match t with
  | Done r => Done r
  | Read a k => Read (loc a) (fun x => via loc (k x))
  | Write a v k => Write (loc a) v (via loc k)
  end.

(** count, count.hpp:34-117. The words at both ends are read through the iterators
    (lines 57, 100, 106), the words between them by libpopcnt from the pointer &*it on
    (line 96). *)
Definition count_seq (loc : Z -> Z) (t : target) (p : policy) (w : Z) (first last : iter)
  (value : bool) : M Z :=
  let! _ := assert_viable w first last in
  let* result :=
    (if negb (ib first =? ib last) then
       let* (result, it) :=
         (if negb (ip first =? 0) then
            let* x := load (loc (ib first)) in
            let! s := cshr p w x (ip first) in
            ret (popcnt_intrin w (wrap w s), ib first + 1)
          else ret (0, ib first)) in
       let* c := popcnt_mem t w (loc it) (w / 8 * (ib last - it)) in
       let result := swrap64 (result + c) in
       if negb (ip last =? 0) then
         let* x := load (loc (ib last)) in
         let! s := cshl p w x (w - ip last) in
         ret (swrap64 (result + popcnt_intrin w (wrap w s)))
       else ret result
     else
       let* x := load (loc (ib first)) in
       let! e := bextr p w x (ip first) (ip last - ip first) in
       ret (popcnt_intrin w e)) in
  if negb value then
    let! d := idiff w last first in
    ret (d - result)
  else ret result.

(** What a call does on such words: count is [count_seq], the other algorithms and the
    operations on references reach the words through iterators only (the lines of
    ThreadModel.call; fill.hpp:79 makes a pointer of one iterator and stays in its
    word). *)
Definition seq_call (loc : Z -> Z) (p : policy) (w : Z) (c : call) (r : M answer) : Prop :=
  match c with
  | CCount t f l b => r = (let* n := count_seq loc t p w f l b in ret (ANum n))
  | _ => exists t, (forall m, alone t m = run_call p w c m) /\ r = alone (via loc t)
  end.

(** The whole words of fill in the build with BITLIB_HWY, fill.hpp:66-76: the words in
    front of the first 64 byte boundary through the iterator, *)
Fixpoint fill_align_seq (loc : Z -> Z) (p : policy) (h : simd_unit) (w : Z) (fuel : nat)
  (it last v : Z) : M Z :=
  if it =? last then ret it else
  let* al := is_aligned p h w (loc it) in            (* fill.hpp:66 *)
  if al then ret it else
  match fuel with
  | O => lift Fuel
  | S f => store (loc it) v ;; fill_align_seq loc p h w f (it + 1) last v
  end.

(** then vectors from the pointer &*it on, fill.hpp:71-74, *)
Fixpoint fill_vectors_seq (loc : Z -> Z) (h : simd_unit) (w : Z) (fuel : nat) (it last v : Z)
  : M Z :=
  if lanes h <=? wrap 64 (last - it) then
    match fuel with
    | O => lift Fuel
    | S f =>
      vstore h w (loc it) (repeat v (Z.to_nat (lanes h))) ;;
      fill_vectors_seq loc h w f (it + lanes h) last v
    end
  else ret it.

(** and the rest through iterators, std::fill of fill.hpp:76. *)
Fixpoint fill_rest_seq (loc : Z -> Z) (n : nat) (it v : Z) : M unit :=
  match n with
  | O => ret tt
  | S n' => store (loc it) v ;; fill_rest_seq loc n' (it + 1) v
  end.
Definition fill_words_seq (loc : Z -> Z) (p : policy) (h : simd_unit) (w it last v : Z)
  : M unit :=
  let* it := fill_align_seq loc p h w (Z.to_nat (last - it)) it last v in  (* fill.hpp:66 *)
  let* it := fill_vectors_seq loc h w (Z.to_nat (last - it)) it last v in
  fill_rest_seq loc (Z.to_nat (last - it)) it v.
