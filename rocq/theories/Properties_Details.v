(** Properties C41 and C45: the padded read and the shifts of whole words in
    bit_algorithm_details.hpp. *)
From Coq Require Import ZArith Bool List Lia.
From Verif Require Import Base WordOps IterModel AlgModel Spec Demo ProofDetails.
Import ListNotations.
Open Scope Z_scope.

(** C41. Only the word of [first] has to be readable; bits of the range beyond
    that word do not matter. *)
Theorem C41_padded_read : forall p w m first last b,
  valid_w w -> wf_mem w m -> valid_it w first -> valid_it w last ->
  addr w first < addr w last -> m (ib first) <> None ->
  exists v, padded_read p w first last b m = Ok (v, m) /\ 0 <= v < 2 ^ w /\
    forall k, 0 <= k < w -> Z.testbit v k =
      if inr (addr w first) (addr w last) (ib first * w + k)
      then bit w m (ib first * w + k) else b.
Proof. exact padded_read_ok. Qed.
Print Assumptions C41_padded_read.

(** The four cases in the comment of bit_algorithm_details.hpp:349-366. *)
Example C41_padded_read_example :
  valid_w 8 /\ wf_mem 8 (mem_of [93; 255]) /\ valid_it 8 (It 0 2) /\
  valid_it 8 (It 0 5) /\ addr 8 (It 0 2) < addr 8 (It 0 5) /\
  mem_of [93; 255] (ib (It 0 2)) <> None /\
  run 0 (padded_read Strict17 8 (It 0 0) (It 1 3) true) [93; 255] = Ok (93, []) /\
  run 0 (padded_read Strict17 8 (It 0 0) (It 0 4) true) [93; 255] = Ok (253, []) /\
  run 0 (padded_read Strict17 8 (It 0 3) (It 1 4) false) [93; 255] = Ok (88, []) /\
  run 0 (padded_read Strict17 8 (It 0 2) (It 0 5) true) [93; 255] = Ok (255, []) /\
  run 0 (padded_read Strict17 8 (It 0 2) (It 0 5) false) [93; 255] = Ok (28, []).
Proof. demo. Qed.

(** C45: the words [first, last - n) receive the words n places further on, as
    std::shift_left does; every other word is left alone. *)
Theorem C45_word_shift_left : forall m first last n, first <= last ->
  (forall a, first <= a < last -> m a <> None) ->
  exists m', word_shift_left first last n m =
      Ok (if n <=? 0 then last else if last - first <=? n then first else last - n, m') /\
    forall a, m' a =
      if (0 <? n) && (n <? last - first) && inr first (last - n) a
      then m (a + n) else m a.
Proof. exact word_shift_left_ok. Qed.
Print Assumptions C45_word_shift_left.

Example C45_word_shift_left_example :
  run 6 (word_shift_left 1 5 3) [10; 11; 12; 13; 14; 15] =
    Ok (2, [Some 10; Some 14; Some 12; Some 13; Some 14; Some 15]) /\
  run 6 (word_shift_left 0 6 2) [10; 11; 12; 13; 14; 15] =
    Ok (4, [Some 12; Some 13; Some 14; Some 15; Some 14; Some 15]) /\
  run 6 (word_shift_left 0 6 6) [10; 11; 12; 13; 14; 15] =
    Ok (0, [Some 10; Some 11; Some 12; Some 13; Some 14; Some 15]).
Proof. demo. Qed.

Theorem C45_word_shift_right : forall m first last n, first <= last ->
  (forall a, first <= a < last -> m a <> None) ->
  exists m', word_shift_right first last n m =
      Ok (if n <=? 0 then first else if last - first <=? n then last else first + n, m') /\
    forall a, m' a =
      if (0 <? n) && (n <? last - first) && inr (first + n) last a
      then m (a - n) else m a.
Proof. exact word_shift_right_ok. Qed.
Print Assumptions C45_word_shift_right.

Example C45_word_shift_right_example :
  run 6 (word_shift_right 1 5 3) [10; 11; 12; 13; 14; 15] =
    Ok (4, [Some 10; Some 11; Some 12; Some 13; Some 11; Some 15]) /\
  run 6 (word_shift_right 0 6 2) [10; 11; 12; 13; 14; 15] =
    Ok (2, [Some 10; Some 11; Some 10; Some 11; Some 12; Some 13]) /\
  run 6 (word_shift_right 0 6 (-1)) [10; 11; 12; 13; 14; 15] =
    Ok (0, [Some 10; Some 11; Some 12; Some 13; Some 14; Some 15]).
Proof. demo. Qed.
