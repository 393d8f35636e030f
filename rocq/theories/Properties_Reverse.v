(** Property C21: reverse. *)
From Coq Require Import ZArith Bool List Lia.
From Verif Require Import Base WordOps IterModel AlgModel ShiftModel ReverseModel
  Spec Demo ProofReverse.
Import ListNotations.
Open Scope Z_scope.

(** C21, on any machine: whatever an over-wide shift yields. For an empty range
    inside a word, that word must exist (reverse.hpp:103 reads it). *)
Theorem C21_reverse : forall o w m first last,
  valid_w w -> wf_mem w m -> good_range w m first last ->
  addr w last - addr w first + 2 * w <= max_bits ->
  (addr w first = addr w last -> ip first = 0 \/ m (ib first) <> None) ->
  exists m', reverse (Hw o) w first last m = Ok (tt, m') /\
    updated w m m' (addr w first) (addr w last)
      (fun i => bit w m (addr w last - 1 - (i - addr w first))).
Proof. exact reverse_hw. Qed.
Print Assumptions C21_reverse.

(** Exactly the case in which the shifts of the language are undefined. *)
Example C21_reverse_example :
  let m := mem_of [227; 90] in
  valid_w 8 /\ wf_mem 8 m /\ good_range 8 m (It 0 3) (It 1 0) /\
  addr 8 (It 1 0) - addr 8 (It 0 3) + 2 * 8 <= max_bits /\
  (addr 8 (It 0 3) = addr 8 (It 1 0) -> ip (It 0 3) = 0 \/ m (ib (It 0 3)) <> None) /\
  run 2 (reverse (Hw (fun _ _ _ => 77)) 8 (It 0 3) (It 1 0)) [227; 90]
    = Ok (tt, [Some 59; Some 90]).
Proof. cbv zeta. demo. Qed.

(** C21 under the language rules: excluded is a range that ends with its word
    and starts inside the same word (see C24_reverse_partial). *)
Theorem C21_reverse_strict_partial : forall p w m first last,
  valid_w w -> wf_mem w m -> good_range w m first last ->
  addr w last - addr w first + 2 * w <= max_bits ->
  (addr w first = addr w last -> ip first = 0 \/ m (ib first) <> None) ->
  (ip first = 0 \/ ip last <> 0 \/ ib last - ib first <> 1 \/ full_blend_defined p w) ->
  exists m', reverse p w first last m = Ok (tt, m') /\
    updated w m m' (addr w first) (addr w last)
      (fun i => bit w m (addr w last - 1 - (i - addr w first))).
Proof. exact reverse_ok. Qed.
Print Assumptions C21_reverse_strict_partial.

Example C21_reverse_strict_example :
  let m := mem_of [227; 90; 165; 17] in
  valid_w 8 /\ wf_mem 8 m /\ good_range 8 m (It 0 3) (It 3 6) /\
  addr 8 (It 3 6) - addr 8 (It 0 3) + 2 * 8 <= max_bits /\
  (addr 8 (It 0 3) = addr 8 (It 3 6) -> ip (It 0 3) = 0 \/ m (ib (It 0 3)) <> None) /\
  (ip (It 0 3) = 0 \/ ip (It 3 6) <> 0 \/ ib (It 3 6) - ib (It 0 3) <> 1 \/
   full_blend_defined Strict17 8) /\
  run 4 (reverse Strict17 8 (It 0 3) (It 3 6)) [227; 90; 165; 17]
    = Ok (tt, [Some 19; Some 75; Some 181; Some 14]).
Proof. cbv zeta. demo. Qed.

Example C21_reverse_strict_example2 :
  let m := mem_of [4660; 22136; 39612] in
  good_range 16 m (It 0 5) (It 2 9) /\
  run 3 (reverse Strict17 16 (It 0 5) (It 2 9)) [4660; 22136; 39612]
    = Ok (tt, [Some 36692; Some 1946; Some 39698]).
Proof. cbv zeta. demo. Qed.

(** C21: reversing twice restores every bit. *)
Theorem C21_reverse_twice : forall o w m first last,
  valid_w w -> wf_mem w m -> good_range w m first last ->
  addr w last - addr w first + 2 * w <= max_bits ->
  (addr w first = addr w last -> ip first = 0 \/ m (ib first) <> None) ->
  exists m' m'', reverse (Hw o) w first last m = Ok (tt, m') /\
    reverse (Hw o) w first last m' = Ok (tt, m'') /\
    forall i, bit w m'' i = bit w m i.
Proof. exact reverse_twice. Qed.
Print Assumptions C21_reverse_twice.

Example C21_reverse_twice_example :
  let m := mem_of [227; 90; 165; 17] in
  valid_w 8 /\ wf_mem 8 m /\ good_range 8 m (It 0 3) (It 3 6) /\
  addr 8 (It 3 6) - addr 8 (It 0 3) + 2 * 8 <= max_bits /\
  (addr 8 (It 0 3) = addr 8 (It 3 6) -> ip (It 0 3) = 0 \/ m (ib (It 0 3)) <> None) /\
  run 4 (bind (reverse (Hw (fun _ _ _ => 5)) 8 (It 0 3) (It 3 6))
              (fun _ => reverse (Hw (fun _ _ _ => 5)) 8 (It 0 3) (It 3 6)))
      [227; 90; 165; 17]
    = Ok (tt, [Some 227; Some 90; Some 165; Some 17]).
Proof. cbv zeta. demo. Qed.
