(** C67, continued: the words that fill, copy, move, transform and copy_backward write and
    those that find reads. *)
From Coq Require Import ZArith Bool List Lia.
From Verif Require Import Base IterModel AlgModel TransformModel ThreadModel Spec SpecReads Demo
  ProofWrites ProofFindReads.
From Verif Require TraceModel.
Import ListNotations.
Open Scope Z_scope.

(** fill writes every word that holds bits of its range exactly once, in ascending order,
    and no other word. *)
Theorem C67_fill_writes : forall p w first last b m x, valid_w w -> valid_it w first ->
  valid_it w last -> 0 < addr w last - addr w first <= max_bits ->
  fill p w first last b m = Ok x ->
  write_at (TraceModel.fill p w first last b) m = from_to (ib first) ((addr w last - 1) / w + 1).
Proof. exact fill_writes. Qed.
Print Assumptions C67_fill_writes.

(** Bits 5 to 37: all of words 1 to 3, parts of words 0 and 4. *)
Example C67_fill_writes_example :
  valid_w 8 /\ valid_it 8 (It 0 5) /\ valid_it 8 (It 4 6) /\
  0 < addr 8 (It 4 6) - addr 8 (It 0 5) <= max_bits /\
  run 5 (fill Strict20 8 (It 0 5) (It 4 6) true) [0; 0; 0; 0; 0] =
    Ok (tt, map Some [224; 255; 255; 255; 63]) /\
  write_at (TraceModel.fill Strict20 8 (It 0 5) (It 4 6) true) (mem_of [0; 0; 0; 0; 0]) =
    [0; 1; 2; 3; 4].
Proof. split; [demo|]. split; [demo|]. split; [demo|]. split; [demo|]. split; [demo|demo]. Qed.

(** copy, move and both transforms write every word that holds bits of their destination
    exactly once, in ascending order, and no other word. *)
Theorem C67_copy_writes : forall p w op op2 first last first2 d m x, valid_w w ->
  valid_it w first -> valid_it w last -> valid_it w d ->
  0 < addr w last - addr w first <= max_bits ->
  let l := from_to (ib d) ((addr w d + (addr w last - addr w first) - 1) / w + 1) in
  (copy p w first last d m = Ok x -> write_at (TraceModel.copy p w first last d) m = l) /\
  (move p w first last d m = Ok x -> write_at (TraceModel.move p w first last d) m = l) /\
  (transform1 p w op first last d m = Ok x ->
     write_at (TraceModel.transform1 p w op first last d) m = l) /\
  (transform2 p w op2 first last first2 d m = Ok x ->
     write_at (TraceModel.transform2 p w op2 first last first2 d) m = l).
Proof. exact copy_writes. Qed.
Print Assumptions C67_copy_writes.

(** 18 bits from bit 3 to the bits 29 to 46, in words 3 to 5. *)
Example C67_copy_writes_example :
  valid_w 8 /\ valid_it 8 (It 0 3) /\ valid_it 8 (It 2 5) /\ valid_it 8 (It 3 5) /\
  0 < addr 8 (It 2 5) - addr 8 (It 0 3) <= max_bits /\
  run 6 (copy Strict20 8 (It 0 3) (It 2 5) (It 3 5)) [165; 60; 15; 0; 0; 0] =
    Ok (It 5 7, map Some [165; 60; 15; 128; 242; 60]) /\
  write_at (TraceModel.copy Strict20 8 (It 0 3) (It 2 5) (It 3 5)) (mem_of [165; 60; 15; 0; 0; 0]) =
    [3; 4; 5] /\
  from_to 3 ((addr 8 (It 3 5) + (addr 8 (It 2 5) - addr 8 (It 0 3)) - 1) / 8 + 1) = [3; 4; 5].
Proof.
  split; [demo|]. split; [demo|]. split; [demo|]. split; [demo|]. split; [demo|]. split; [demo|].
  split; demo.
Qed.

(** copy_backward writes every word that holds bits of its destination exactly once, in
    descending order, and no other word. *)
Theorem C67_copy_backward_writes : forall p w first last d m x, valid_w w -> valid_it w first ->
  valid_it w last -> valid_it w d -> 0 < addr w last - addr w first <= max_bits ->
  copy_backward p w first last d m = Ok x ->
  write_at (TraceModel.copy_backward p w first last d) m =
    rev (from_to ((addr w d - (addr w last - addr w first)) / w) ((addr w d - 1) / w + 1)).
Proof. exact copy_backward_writes. Qed.
Print Assumptions C67_copy_backward_writes.

(** 18 bits from bit 3 to the bits before bit 47. *)
Example C67_copy_backward_writes_example :
  valid_w 8 /\ valid_it 8 (It 0 3) /\ valid_it 8 (It 2 5) /\ valid_it 8 (It 5 7) /\
  0 < addr 8 (It 2 5) - addr 8 (It 0 3) <= max_bits /\
  run 6 (copy_backward Strict20 8 (It 0 3) (It 2 5) (It 5 7)) [165; 60; 15; 0; 0; 0] =
    Ok (It 3 5, map Some [165; 60; 15; 128; 242; 60]) /\
  write_at (TraceModel.copy_backward Strict20 8 (It 0 3) (It 2 5) (It 5 7))
    (mem_of [165; 60; 15; 0; 0; 0]) = [5; 4; 3].
Proof.
  split; [demo|]. split; [demo|]. split; [demo|]. split; [demo|]. split; [demo|]. split; demo.
Qed.

(** find reads the words of its range in ascending order from the first one on, each once,
    except that it may look again at the last one it has read; it reads all words before
    that of its answer, and none behind it or behind the range. *)
Theorem C67_find_reads : forall p w first last b m r m', valid_w w -> valid_it w first ->
  valid_it w last -> 0 < addr w last - addr w first <= max_bits ->
  find p w first last b m = Ok (r, m') ->
  exists e l, read_at (TraceModel.find p w first last b) m = from_to (ib first) e ++ l /\
    (l = [] \/ l = [e - 1]) /\ ib r <= e <= ib r + 1 /\ e <= (addr w last - 1) / w + 1.
Proof. exact find_reads. Qed.
Print Assumptions C67_find_reads.

(** The bit found is in word 2, which is read twice; nothing is found in words 0 and 1. *)
Example C67_find_reads_example :
  let m := mem_of [7; 0; 68; 255; 1] in
  valid_w 8 /\ valid_it 8 (It 0 3) /\ valid_it 8 (It 4 6) /\
  0 < addr 8 (It 4 6) - addr 8 (It 0 3) <= max_bits /\
  run 5 (find Strict20 8 (It 0 3) (It 4 6) true) [7; 0; 68; 255; 1] =
    Ok (It 2 2, map Some [7; 0; 68; 255; 1]) /\
  read_at (TraceModel.find Strict20 8 (It 0 3) (It 4 6) true) m = [0; 1; 2; 2] /\
  read_at (TraceModel.find Strict20 8 (It 0 3) (It 2 0) true) m = [0; 1].
Proof.
  cbv zeta. split; [demo|]. split; [demo|]. split; [demo|]. split; [demo|]. split; [demo|].
  split; demo.
Qed.
