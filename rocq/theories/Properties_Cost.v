(** C67: how many words the algorithms read and write. *)
From Coq Require Import ZArith Bool List Lia.
From Verif Require Import Base IterModel PopcntModel AlgModel ShiftModel TransformModel
  SwapModel ReverseModel RotateModel ThreadModel Spec SpecCost Demo ProofCost5 ProofCost6 ProofCost7.
From Verif Require TraceModel.
Import ListNotations.
Open Scope Z_scope.

(** The threads counted below are the algorithms of the other properties: run alone on
    any memory each gives the same result, undefined behaviour and failures included. *)
Theorem C67_same : forall p w m first n_first last first2 d b n op op2,
  alone (TraceModel.fill p w first last b) m = fill p w first last b m /\
  alone (TraceModel.find p w first last b) m = find p w first last b m /\
  alone (TraceModel.equal p w first last d) m = equal p w first last d m /\
  alone (TraceModel.copy p w first last d) m = copy p w first last d m /\
  alone (TraceModel.move p w first last d) m = move p w first last d m /\
  alone (TraceModel.copy_backward p w first last d) m = copy_backward p w first last d m /\
  alone (TraceModel.transform1 p w op first last d) m = transform1 p w op first last d m /\
  alone (TraceModel.transform2 p w op2 first last first2 d) m =
    transform2 p w op2 first last first2 d m /\
  alone (TraceModel.swap_ranges p w first last first2) m = swap_ranges p w first last first2 m /\
  alone (TraceModel.shift_left p w first last n) m = shift_left p w first last n m /\
  alone (TraceModel.shift_right p w first last n) m = shift_right p w first last n m /\
  alone (TraceModel.reverse p w first last) m = reverse p w first last m /\
  alone (TraceModel.rotate p w first n_first last) m = rotate p w first n_first last m.
Proof. exact same_calls. Qed.
Print Assumptions C67_same.

Example C67_same_example :
  run 3 (alone (TraceModel.rotate Strict20 8 (It 0 3) (It 1 2) (It 2 6))) [165; 60; 15] =
  run 3 (rotate Strict20 8 (It 0 3) (It 1 2) (It 2 6)) [165; 60; 15] /\
  run 3 (alone (TraceModel.rotate Strict20 8 (It 0 3) (It 1 2) (It 2 6))) [165; 60; 15] <>
  run 3 (ret (It 2 0)) [165; 60; 15].
Proof. split; [reflexivity|vm_compute; discriminate]. Qed.

(** [fill] writes every word of its range at most once and reads two words at most. *)
Theorem C67_fill : forall p w first last b, valid_w w -> valid_it w first -> valid_it w last ->
  0 <= addr w last - addr w first <= max_bits ->
  let T := words_of w (addr w first) (addr w last) in
  at_most (TraceModel.fill p w first last b) 2 T.
Proof. exact fill_cost. Qed.
Print Assumptions C67_fill.

(** Five words: two reads, five writes. *)
Example C67_fill_example :
  let m := mem_of [165; 60; 15; 240; 85; 170; 204; 51; 1; 128] in
  valid_w 8 /\ valid_it 8 (It 0 3) /\ valid_it 8 (It 4 6) /\
  0 <= addr 8 (It 4 6) - addr 8 (It 0 3) <= max_bits /\
  words_of 8 (addr 8 (It 0 3)) (addr 8 (It 4 6)) = 5 /\
  reads (TraceModel.fill Strict20 8 (It 0 3) (It 4 6) true) m = 2 /\ writes (TraceModel.fill Strict20 8 (It 0 3) (It 4 6) true) m = 5.
Proof. demo. Qed.

(** [find] writes nothing and reads at most one word more than its range holds. *)
Theorem C67_find : forall p w first last b, valid_w w -> valid_it w first -> valid_it w last ->
  0 <= addr w last - addr w first <= max_bits ->
  let T := words_of w (addr w first) (addr w last) in
  at_most (TraceModel.find p w first last b) (T + 1) 0.
Proof. exact find_cost. Qed.
Print Assumptions C67_find.

(** Two words, the answer in the second, which is read twice. *)
Example C67_find_example :
  let m := mem_of [165; 60; 15; 240; 85; 170; 204; 51; 1; 128] in
  valid_w 8 /\ valid_it 8 (It 2 4) /\ valid_it 8 (It 4 0) /\
  0 <= addr 8 (It 4 0) - addr 8 (It 2 4) <= max_bits /\
  words_of 8 (addr 8 (It 2 4)) (addr 8 (It 4 0)) = 2 /\
  reads (TraceModel.find Strict20 8 (It 2 4) (It 4 0) true) m = 3 /\ writes (TraceModel.find Strict20 8 (It 2 4) (It 4 0) true) m = 0.
Proof. demo. Qed.

(** [find] stops: it reads no word behind the one that holds its answer, and so at most
    one more than the words from [first] to the answer. *)
Theorem C67_find_stops : forall p w m first last b r m', valid_w w -> valid_it w first ->
  valid_it w last -> 0 <= addr w last - addr w first <= max_bits ->
  find p w first last b m = Ok (r, m') ->
  reads (TraceModel.find p w first last b) m <= words_of w (addr w first) (addr w r + 1) + 1.
Proof. exact find_stops. Qed.
Print Assumptions C67_find_stops.

(** Eight words, the answer in the second: three reads. *)
Example C67_find_stops_example :
  let l := [165; 60; 15; 240; 85; 170; 204; 51; 1; 128] in
  run 10 (find Strict20 8 (It 2 4) (It 9 6) true) l = Ok (It 3 4, map Some l) /\
  valid_w 8 /\ valid_it 8 (It 2 4) /\ valid_it 8 (It 9 6) /\
  0 <= addr 8 (It 9 6) - addr 8 (It 2 4) <= max_bits /\
  words_of 8 (addr 8 (It 2 4)) (addr 8 (It 9 6)) = 8 /\
  words_of 8 (addr 8 (It 2 4)) (addr 8 (It 3 4) + 1) = 2 /\
  reads (TraceModel.find Strict20 8 (It 2 4) (It 9 6) true) (mem_of l) = 3.
Proof. demo. Qed.

(** [equal] writes nothing and reads at most three words for each word of the second range. *)
Theorem C67_equal : forall p w first last d, valid_w w -> valid_it w first -> valid_it w last ->
  valid_it w d -> 0 <= addr w last - addr w first <= max_bits ->
  let T := words_of w (addr w d) (addr w d + (addr w last - addr w first)) in
  at_most (TraceModel.equal p w first last d) (3 * T) 0.
Proof. exact equal_cost. Qed.
Print Assumptions C67_equal.

(** Five words that are equal: ten reads; five that differ at once: three. *)
Example C67_equal_example :
  let m := mem_of [165; 60; 15; 240; 85; 170; 204; 51; 1; 128] in
  valid_w 8 /\ valid_it 8 (It 0 3) /\ valid_it 8 (It 4 6) /\
  0 <= addr 8 (It 4 6) - addr 8 (It 0 3) <= max_bits /\
  valid_it 8 (It 5 1) /\ words_of 8 (addr 8 (It 5 1)) (addr 8 (It 5 1) + 35) = 5 /\
  reads (TraceModel.equal Strict20 8 (It 0 3) (It 4 6) (It 0 3)) m = 10 /\ writes (TraceModel.equal Strict20 8 (It 0 3) (It 4 6) (It 0 3)) m = 0 /\
  reads (TraceModel.equal Strict20 8 (It 0 3) (It 4 6) (It 5 1)) m = 3 /\ writes (TraceModel.equal Strict20 8 (It 0 3) (It 4 6) (It 5 1)) m = 0.
Proof. demo. Qed.

(** [equal] stops: when the ranges differ at their [i]-th bits it reads at most three words
    for each word of the second range up to the one that holds that bit. *)
Theorem C67_equal_stops : forall p w first last d m i, valid_w w -> wf_mem w m ->
  good_range w m first last -> good_dest w m d (addr w last - addr w first) ->
  0 <= i < addr w last - addr w first ->
  bit w m (addr w first + i) <> bit w m (addr w d + i) ->
  reads (TraceModel.equal p w first last d) m <= 3 * words_of w (addr w d) (addr w d + i + 1).
Proof. exact equal_stops. Qed.
Print Assumptions C67_equal_stops.

(** Ranges of four words, the tenth bits are the first that differ and lie in the second
    word of the second range: five reads. *)
Example C67_equal_stops_example :
  let l := [165; 60; 15; 240; 85; 74; 125; 15; 1; 128] in
  let m := mem_of l in
  valid_w 8 /\ wf_mem 8 m /\ good_range 8 m (It 0 0) (It 3 5) /\
  good_dest 8 m (It 5 1) (addr 8 (It 3 5) - addr 8 (It 0 0)) /\
  bit 8 m (addr 8 (It 0 0) + 9) <> bit 8 m (addr 8 (It 5 1) + 9) /\
  map (fun k => bit 8 m (addr 8 (It 0 0) + k)) [0; 1; 2; 3; 4; 5; 6; 7; 8] =
  map (fun k => bit 8 m (addr 8 (It 5 1) + k)) [0; 1; 2; 3; 4; 5; 6; 7; 8] /\
  words_of 8 (addr 8 (It 5 1)) (addr 8 (It 5 1) + 9 + 1) = 2 /\
  reads (TraceModel.equal Strict20 8 (It 0 0) (It 3 5) (It 5 1)) m = 5.
Proof. cbv zeta. demo. Qed.

(** [copy] and [move] write every word of the destination at most once and read at most
    three words for each. *)
Theorem C67_copy : forall p w first last d, valid_w w -> valid_it w first -> valid_it w last ->
  valid_it w d -> 0 <= addr w last - addr w first <= max_bits ->
  let T := words_of w (addr w d) (addr w d + (addr w last - addr w first)) in
  at_most (TraceModel.copy p w first last d) (3 * T) T /\
  at_most (TraceModel.move p w first last d) (3 * T) T.
Proof. exact copy_cost. Qed.
Print Assumptions C67_copy.

(** Five words to five others. *)
Example C67_copy_example :
  let m := mem_of [165; 60; 15; 240; 85; 170; 204; 51; 1; 128] in
  valid_w 8 /\ valid_it 8 (It 0 3) /\ valid_it 8 (It 4 6) /\
  0 <= addr 8 (It 4 6) - addr 8 (It 0 3) <= max_bits /\
  valid_it 8 (It 5 1) /\ words_of 8 (addr 8 (It 5 1)) (addr 8 (It 5 1) + 35) = 5 /\
  reads (TraceModel.copy Strict20 8 (It 0 3) (It 4 6) (It 5 1)) m = 11 /\ writes (TraceModel.copy Strict20 8 (It 0 3) (It 4 6) (It 5 1)) m = 5.
Proof. demo. Qed.

(** So does [copy_backward]. *)
Theorem C67_copy_backward : forall p w first last d, valid_w w -> valid_it w first -> valid_it w last ->
  valid_it w d -> 0 <= addr w last - addr w first <= max_bits ->
  let T := words_of w (addr w d - (addr w last - addr w first)) (addr w d) in
  at_most (TraceModel.copy_backward p w first last d) (3 * T) T.
Proof. exact copy_backward_cost. Qed.
Print Assumptions C67_copy_backward.

(** Five words to six others. *)
Example C67_copy_backward_example :
  let m := mem_of [165; 60; 15; 240; 85; 170; 204; 51; 1; 128] in
  valid_w 8 /\ valid_it 8 (It 0 3) /\ valid_it 8 (It 4 6) /\
  0 <= addr 8 (It 4 6) - addr 8 (It 0 3) <= max_bits /\
  valid_it 8 (It 9 1) /\ words_of 8 (addr 8 (It 9 1) - 35) (addr 8 (It 9 1)) = 6 /\
  reads (TraceModel.copy_backward Strict20 8 (It 0 3) (It 4 6) (It 9 1)) m = 12 /\ writes (TraceModel.copy_backward Strict20 8 (It 0 3) (It 4 6) (It 9 1)) m = 6.
Proof. demo. Qed.

(** [transform] with one range: as [copy]. *)
Theorem C67_transform : forall p w op first last d, valid_w w -> valid_it w first -> valid_it w last ->
  valid_it w d -> 0 <= addr w last - addr w first <= max_bits ->
  let T := words_of w (addr w d) (addr w d + (addr w last - addr w first)) in
  at_most (TraceModel.transform1 p w op first last d) (3 * T) T.
Proof. exact transform_cost. Qed.
Print Assumptions C67_transform.

(** The complement of five words. *)
Example C67_transform_example :
  let m := mem_of [165; 60; 15; 240; 85; 170; 204; 51; 1; 128] in
  valid_w 8 /\ valid_it 8 (It 0 3) /\ valid_it 8 (It 4 6) /\
  0 <= addr 8 (It 4 6) - addr 8 (It 0 3) <= max_bits /\
  valid_it 8 (It 5 1) /\ words_of 8 (addr 8 (It 5 1)) (addr 8 (It 5 1) + 35) = 5 /\
  reads (TraceModel.transform1 Strict20 8 (fun a => 255 - a) (It 0 3) (It 4 6) (It 5 1)) m = 11 /\ writes (TraceModel.transform1 Strict20 8 (fun a => 255 - a) (It 0 3) (It 4 6) (It 5 1)) m = 5.
Proof. demo. Qed.

(** [transform] with two ranges: five reads for each word of the destination. *)
Theorem C67_transform2 : forall p w op first last first2 d, valid_w w -> valid_it w first -> valid_it w last ->
  valid_it w d -> 0 <= addr w last - addr w first <= max_bits ->
  let T := words_of w (addr w d) (addr w d + (addr w last - addr w first)) in
  at_most (TraceModel.transform2 p w op first last first2 d) (5 * T) T.
Proof. exact transform2_cost. Qed.
Print Assumptions C67_transform2.

(** Exclusive or of five words with five others. *)
Example C67_transform2_example :
  let m := mem_of [165; 60; 15; 240; 85; 170; 204; 51; 1; 128] in
  valid_w 8 /\ valid_it 8 (It 0 3) /\ valid_it 8 (It 4 6) /\
  0 <= addr 8 (It 4 6) - addr 8 (It 0 3) <= max_bits /\
  valid_it 8 (It 5 1) /\ words_of 8 (addr 8 (It 5 1)) (addr 8 (It 5 1) + 35) = 5 /\
  reads (TraceModel.transform2 Strict20 8 Z.lxor (It 0 3) (It 4 6) (It 1 0) (It 5 1)) m = 20 /\ writes (TraceModel.transform2 Strict20 8 Z.lxor (It 0 3) (It 4 6) (It 1 0) (It 5 1)) m = 5.
Proof. demo. Qed.

(** [swap_ranges]: twelve reads and six writes for each word of the first range, both
    ranges counted. *)
Theorem C67_swap_ranges : forall p w first last first2, valid_w w -> valid_it w first -> valid_it w last ->
  0 <= addr w last - addr w first <= max_bits ->
  let T := words_of w (addr w first) (addr w last) in
  at_most (TraceModel.swap_ranges p w first last first2) (12 * T) (6 * T).
Proof. exact swap_ranges_cost. Qed.
Print Assumptions C67_swap_ranges.

(** Five words at another alignment: the bound is 60 and 30. *)
Example C67_swap_ranges_example :
  let m := mem_of [165; 60; 15; 240; 85; 170; 204; 51; 1; 128] in
  valid_w 8 /\ valid_it 8 (It 0 3) /\ valid_it 8 (It 4 6) /\
  0 <= addr 8 (It 4 6) - addr 8 (It 0 3) <= max_bits /\
  words_of 8 (addr 8 (It 0 3)) (addr 8 (It 4 6)) = 5 /\
  reads (TraceModel.swap_ranges Strict20 8 (It 0 3) (It 4 6) (It 5 1)) m = 54 /\ writes (TraceModel.swap_ranges Strict20 8 (It 0 3) (It 4 6) (It 5 1)) m = 27.
Proof. demo. Qed.

(** The shifts: two reads and one write for each word of the range, and a constant. *)
Theorem C67_shift : forall p w first last n, valid_w w -> valid_it w first -> valid_it w last ->
  0 <= addr w last - addr w first <= max_bits ->
  let T := words_of w (addr w first) (addr w last) in
  at_most (TraceModel.shift_left p w first last n) (2 * T + 12) (T + 5) /\
  at_most (TraceModel.shift_right p w first last n) (2 * T + 10) (T + 5).
Proof. exact shift_cost. Qed.
Print Assumptions C67_shift.

(** Five words by ten bits. *)
Example C67_shift_example :
  let m := mem_of [165; 60; 15; 240; 85; 170; 204; 51; 1; 128] in
  valid_w 8 /\ valid_it 8 (It 0 3) /\ valid_it 8 (It 4 6) /\
  0 <= addr 8 (It 4 6) - addr 8 (It 0 3) <= max_bits /\
  words_of 8 (addr 8 (It 0 3)) (addr 8 (It 4 6)) = 5 /\
  reads (TraceModel.shift_left Strict20 8 (It 0 3) (It 4 6) 10) m = 13 /\ writes (TraceModel.shift_left Strict20 8 (It 0 3) (It 4 6) 10) m = 6 /\
  reads (TraceModel.shift_right Strict20 8 (It 0 3) (It 4 6) 10) m = 9 /\ writes (TraceModel.shift_right Strict20 8 (It 0 3) (It 4 6) 10) m = 4.
Proof. demo. Qed.

(** [reverse]: four reads and three writes for each word of the range, and a constant. *)
Theorem C67_reverse : forall p w first last, valid_w w -> valid_it w first -> valid_it w last ->
  0 <= addr w last - addr w first <= max_bits ->
  let T := words_of w (addr w first) (addr w last) in
  at_most (TraceModel.reverse p w first last) (4 * T + 16) (3 * T + 7).
Proof. exact reverse_cost. Qed.
Print Assumptions C67_reverse.

(** Five words. *)
Example C67_reverse_example :
  let m := mem_of [165; 60; 15; 240; 85; 170; 204; 51; 1; 128] in
  valid_w 8 /\ valid_it 8 (It 0 3) /\ valid_it 8 (It 4 6) /\
  0 <= addr 8 (It 4 6) - addr 8 (It 0 3) <= max_bits /\
  words_of 8 (addr 8 (It 0 3)) (addr 8 (It 4 6)) = 5 /\
  reads (TraceModel.reverse Strict20 8 (It 0 3) (It 4 6)) m = 23 /\ writes (TraceModel.reverse Strict20 8 (It 0 3) (It 4 6)) m = 16.
Proof. demo. Qed.

(** [rotate]: linear too, whatever the lengths of the two parts. *)
Theorem C67_rotate : forall p w first n_first last, valid_w w -> valid_it w first ->
  valid_it w n_first -> valid_it w last -> addr w first <= addr w n_first <= addr w last ->
  addr w last - addr w first <= max_bits ->
  let T := words_of w (addr w first) (addr w last) in
  at_most (TraceModel.rotate p w first n_first last) (60 * T + 20) (30 * T + 10).
Proof. exact rotate_cost. Qed.
Print Assumptions C67_rotate.

(** Five words, rotated by eleven bits. *)
Example C67_rotate_example :
  let m := mem_of [165; 60; 15; 240; 85; 170; 204; 51; 1; 128] in
  valid_w 8 /\ valid_it 8 (It 0 3) /\ valid_it 8 (It 4 6) /\
  0 <= addr 8 (It 4 6) - addr 8 (It 0 3) <= max_bits /\
  valid_it 8 (It 1 6) /\ addr 8 (It 0 3) <= addr 8 (It 1 6) <= addr 8 (It 4 6) /\
  words_of 8 (addr 8 (It 0 3)) (addr 8 (It 4 6)) = 5 /\
  reads (TraceModel.rotate Strict20 8 (It 0 3) (It 1 6) (It 4 6)) m = 61 /\ writes (TraceModel.rotate Strict20 8 (It 0 3) (It 1 6) (It 4 6)) m = 30.
Proof. demo. Qed.
