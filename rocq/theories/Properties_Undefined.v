(** C24 and C25: undefined shifts. Only theorems, each closed by a lemma, with
    an example beside it. *)
From Coq Require Import ZArith Bool List Lia.
From Verif Require Import Base WordOps IterModel PopcntModel AlgModel TransformModel
  ShiftModel SwapModel ReverseModel RotateModel Spec SpecRotate Demo ProofOracle.
Import ListNotations.
Open Scope Z_scope.

(** C24 as stated is false: four algorithms execute an undefined shift on valid
    ranges. *)
Theorem C24_undefined_shift_refuted :
  (exists w m first last n, valid_w w /\ wf_mem w m /\ good_range w m first last /\
     0 < n < addr w last - addr w first /\
     shift_left Strict20 w first last n m = UB OverShift) /\
  (exists w m first last n, valid_w w /\ wf_mem w m /\ good_range w m first last /\
     0 < n < addr w last - addr w first /\
     shift_right Strict17 w first last n m = UB NegShift) /\
  (exists w m first last, valid_w w /\ wf_mem w m /\ good_range w m first last /\
     addr w first < addr w last /\
     reverse Strict20 w first last m = UB OverShift) /\
  (exists w m first last d, valid_w w /\ wf_mem w m /\ good_range w m first last /\
     good_dest_end w m d (addr w last - addr w first) /\
     addr w last <= addr w d /\
     copy_backward Strict20 w first last d m = UB OverShift).
Proof. exact undefined_shift_refuted. Qed.
Print Assumptions C24_undefined_shift_refuted.

(** C24 for shift_left: the exact set of valid calls that are undefined, under
    every policy. Missing from C24: the calls in [undef]. *)
Theorem C24_shift_left_partial : forall p w m first last n,
  valid_w w -> wf_mem w m -> good_range w m first last ->
  0 < n < addr w last - addr w first ->
  let undef := ip first = 0 /\ ip last = 0 /\ ib last - ib first = 1 /\
    (p = Strict17 \/ (p = Strict20 /\ 32 <= w)) in
  (undef -> exists k, shift_left p w first last n m = UB k /\
     (k = OverShift \/ k = NegShift)) /\
  (~ undef -> exists r m', shift_left p w first last n m = Ok (r, m')).
Proof. exact shift_left_defined. Qed.
Print Assumptions C24_shift_left_partial.

Example C24_shift_left_example :
  valid_w 32 /\ wf_mem 32 (mem_of [4660; 9]) /\
  good_range 32 (mem_of [4660; 9]) (It 0 0) (It 1 0) /\
  0 < 5 < addr 32 (It 1 0) - addr 32 (It 0 0) /\
  shift_left Strict20 32 (It 0 0) (It 1 0) 5 (mem_of [4660; 9]) = UB OverShift /\
  run 2 (shift_left Strict20 32 (It 0 0) (It 1 1) 5) [4660; 9]
    = Ok (It 0 28, [Some 134217873; Some 9]).
Proof. demo. Qed.

(** C24 for shift_right, as for shift_left. *)
Theorem C24_shift_right_partial : forall p w m first last n,
  valid_w w -> wf_mem w m -> good_range w m first last ->
  0 < n < addr w last - addr w first ->
  let undef := ip first = 0 /\ ip last = 0 /\ ib last - ib first = 1 /\
    (p = Strict17 \/ (p = Strict20 /\ 32 <= w)) in
  (undef -> exists k, shift_right p w first last n m = UB k /\
     (k = OverShift \/ k = NegShift)) /\
  (~ undef -> exists r m', shift_right p w first last n m = Ok (r, m')).
Proof. exact shift_right_defined. Qed.
Print Assumptions C24_shift_right_partial.

Example C24_shift_right_example :
  valid_w 8 /\ wf_mem 8 (mem_of [77; 9]) /\
  good_range 8 (mem_of [77; 9]) (It 0 0) (It 1 0) /\
  0 < 3 < addr 8 (It 1 0) - addr 8 (It 0 0) /\
  shift_right Strict17 8 (It 0 0) (It 1 0) 3 (mem_of [77; 9]) = UB NegShift /\
  run 2 (shift_right Strict20 8 (It 0 0) (It 1 0) 3) [77; 9]
    = Ok (It 0 3, [Some 104; Some 9]).
Proof. demo. Qed.

(** C24 for reverse of a non-empty range. *)
Theorem C24_reverse_partial : forall p w m first last,
  valid_w w -> wf_mem w m -> good_range w m first last ->
  addr w first < addr w last -> addr w last - addr w first + 2 * w <= max_bits ->
  let undef := ip first <> 0 /\ ip last = 0 /\ ib last - ib first = 1 /\
    (p = Strict17 \/ (p = Strict20 /\ 32 <= w)) in
  (undef -> exists k, reverse p w first last m = UB k /\
     (k = OverShift \/ k = NegShift)) /\
  (~ undef -> exists m', reverse p w first last m = Ok (tt, m')).
Proof. exact reverse_defined. Qed.
Print Assumptions C24_reverse_partial.

Example C24_reverse_example :
  valid_w 64 /\ wf_mem 64 (mem_of [4660; 9]) /\
  good_range 64 (mem_of [4660; 9]) (It 0 3) (It 1 0) /\
  addr 64 (It 0 3) < addr 64 (It 1 0) /\
  addr 64 (It 1 0) - addr 64 (It 0 3) + 2 * 64 <= max_bits /\
  reverse Strict20 64 (It 0 3) (It 1 0) (mem_of [4660; 9]) = UB OverShift /\
  run 2 (reverse Strict20 64 (It 0 3) (It 0 9)) [4660; 9]
    = Ok (tt, [Some 4804; Some 9]).
Proof. demo. Qed.

(** C24 for copy_backward. *)
Theorem C24_copy_backward_partial : forall p w m first last d,
  valid_w w -> wf_mem w m -> good_range w m first last ->
  good_dest_end w m d (addr w last - addr w first) ->
  addr w last <= addr w d \/ addr w d <= addr w first ->
  let undef := ip first = 0 /\ ip last = ip d /\ 2 <= ib last - ib first /\
    (p = Strict17 \/ (p = Strict20 /\ 32 <= w)) in
  (undef -> exists k, copy_backward p w first last d m = UB k /\
     (k = OverShift \/ k = NegShift)) /\
  (~ undef -> exists r m', copy_backward p w first last d m = Ok (r, m')).
Proof. exact copy_backward_defined. Qed.
Print Assumptions C24_copy_backward_partial.

Example C24_copy_backward_example :
  let m := mem_of [1; 2; 3; 4] in
  valid_w 32 /\ wf_mem 32 m /\ good_range 32 m (It 0 0) (It 2 0) /\
  good_dest_end 32 m (It 4 0) (addr 32 (It 2 0) - addr 32 (It 0 0)) /\
  (addr 32 (It 2 0) <= addr 32 (It 4 0) \/ addr 32 (It 4 0) <= addr 32 (It 0 0)) /\
  copy_backward Strict20 32 (It 0 0) (It 2 0) (It 4 0) m = UB OverShift /\
  run 4 (copy_backward Strict20 32 (It 0 0) (It 1 0) (It 4 0)) [1; 2; 3; 4]
    = Ok (It 3 0, [Some 1; Some 2; Some 3; Some 1]).
Proof. cbv zeta. demo. Qed.

(** C24 for the remaining algorithms, under the strictest rules: every valid
    call is defined (rotate inside a 128-bit word: C69). *)
Theorem C24_others : forall w m first last,
  valid_w w -> wf_mem w m -> good_range w m first last ->
  let len := addr w last - addr w first in
  (forall b, exists m', fill Strict17 w first last b m = Ok (tt, m')) /\
  (forall b, ip first = 0 \/ m (ib first) <> None ->
     exists r, find Strict17 w first last b m = Ok (r, m)) /\
  (forall c b, first <> last \/ m (ib first) <> None ->
     exists r, count (X86 c) Strict17 w first last b m = Ok (r, m)) /\
  (forall d, good_dest w m d len ->
     exists r, equal Strict17 w first last d m = Ok (r, m)) /\
  (forall d, good_dest w m d len ->
     addr w d <= addr w first \/ addr w last <= addr w d ->
     exists r m', copy Strict17 w first last d m = Ok (r, m')) /\
  (forall d, good_dest w m d len ->
     addr w d <= addr w first \/ addr w last <= addr w d ->
     exists r m', move Strict17 w first last d m = Ok (r, m')) /\
  (forall d, good_dest w m d len ->
     addr w first + len <= addr w d \/ addr w d + len <= addr w first ->
     exists r m', swap_ranges Strict17 w first last d m = Ok (r, m')) /\
  (forall mid, valid_it w mid -> addr w first <= addr w mid < addr w last ->
     mask_fits w (ip first) len ->
     exists r m', rotate Strict17 w first mid last m = Ok (r, m')).
Proof. exact others_defined. Qed.
Print Assumptions C24_others.

Example C24_others_example :
  let m := mem_of [227; 90; 165; 17] in
  valid_w 8 /\ wf_mem 8 m /\ good_range 8 m (It 0 3) (It 2 0) /\
  m (ib (It 0 3)) <> None /\ It 0 3 <> It 2 0 /\
  good_dest 8 m (It 2 0) (addr 8 (It 2 0) - addr 8 (It 0 3)) /\
  addr 8 (It 2 0) <= addr 8 (It 2 0) /\
  addr 8 (It 0 3) + (addr 8 (It 2 0) - addr 8 (It 0 3)) <= addr 8 (It 2 0) /\
  valid_it 8 (It 1 1) /\ addr 8 (It 0 3) <= addr 8 (It 1 1) < addr 8 (It 2 0) /\
  mask_fits 8 (ip (It 0 3)) (addr 8 (It 2 0) - addr 8 (It 0 3)) /\
  run 4 (swap_ranges Strict17 8 (It 0 3) (It 2 0) (It 2 0)) [227; 90; 165; 17]
    = Ok (It 3 5, [Some 43; Some 141; Some 92; Some 11]).
Proof. cbv zeta. demo. Qed.

(** C24 for transform with bitwise operations. *)
Theorem C24_transform : forall w m first last d,
  valid_w w -> wf_mem w m -> good_range w m first last ->
  good_dest w m d (addr w last - addr w first) ->
  addr w d <= addr w first \/ addr w last <= addr w d ->
  (forall op f,
     (forall x, 0 <= x < 2 ^ w -> 0 <= op x < 2 ^ w) ->
     (forall x k, 0 <= x < 2 ^ w -> 0 <= k < w ->
        Z.testbit (op x) k = f (Z.testbit x k)) ->
     exists r m', transform1 Strict17 w op first last d m = Ok (r, m')) /\
  (forall op f first2,
     good_dest w m first2 (addr w last - addr w first) ->
     addr w d <= addr w first2 \/
       addr w first2 + (addr w last - addr w first) <= addr w d ->
     (forall x y, 0 <= x < 2 ^ w -> 0 <= y < 2 ^ w -> 0 <= op x y < 2 ^ w) ->
     (forall x y k, 0 <= x < 2 ^ w -> 0 <= y < 2 ^ w -> 0 <= k < w ->
        Z.testbit (op x y) k = f (Z.testbit x k) (Z.testbit y k)) ->
     exists r m', transform2 Strict17 w op first last first2 d m = Ok (r, m')).
Proof. exact transform_defined. Qed.
Print Assumptions C24_transform.

Example C24_transform_example :
  let m := mem_of [227; 90; 165; 17] in
  valid_w 8 /\ wf_mem 8 m /\ good_range 8 m (It 0 3) (It 2 0) /\
  good_dest 8 m (It 2 0) (addr 8 (It 2 0) - addr 8 (It 0 3)) /\
  addr 8 (It 2 0) <= addr 8 (It 2 0) /\
  run 4 (transform1 Strict17 8 (fun x => 255 - x) (It 0 3) (It 2 0) (It 2 0))
      [227; 90; 165; 17]
    = Ok (It 3 5, [Some 227; Some 90; Some 163; Some 20]).
Proof. cbv zeta. demo. Qed.

(** C25, the defined calls: what the C++17 rules define has the same outcome
    (result and complete memory) under every policy, hence on every machine. *)
Theorem C25_language_rules : forall p w m,
  (forall i j b x, fill Strict17 w i j b m = Ok x -> fill p w i j b m = Ok x) /\
  (forall i j b x, find Strict17 w i j b m = Ok x -> find p w i j b m = Ok x) /\
  (forall t i j b x, count t Strict17 w i j b m = Ok x -> count t p w i j b m = Ok x) /\
  (forall i j d x, equal Strict17 w i j d m = Ok x -> equal p w i j d m = Ok x) /\
  (forall i j d x, copy Strict17 w i j d m = Ok x -> copy p w i j d m = Ok x) /\
  (forall i j d x, copy_backward Strict17 w i j d m = Ok x ->
     copy_backward p w i j d m = Ok x) /\
  (forall op i j d x, transform1 Strict17 w op i j d m = Ok x ->
     transform1 p w op i j d m = Ok x) /\
  (forall op i j k d x, transform2 Strict17 w op i j k d m = Ok x ->
     transform2 p w op i j k d m = Ok x) /\
  (forall i j n x, shift_left Strict17 w i j n m = Ok x ->
     shift_left p w i j n m = Ok x) /\
  (forall i j n x, shift_right Strict17 w i j n m = Ok x ->
     shift_right p w i j n m = Ok x) /\
  (forall i j k x, swap_ranges Strict17 w i j k m = Ok x ->
     swap_ranges p w i j k m = Ok x) /\
  (forall i j x, reverse Strict17 w i j m = Ok x -> reverse p w i j m = Ok x) /\
  (forall i j k x, rotate Strict17 w i j k m = Ok x -> rotate p w i j k m = Ok x).
Proof. exact language_rules. Qed.
Print Assumptions C25_language_rules.

Example C25_language_rules_example :
  exists x, shift_left Strict17 16 (It 0 1) (It 2 3) 4 (mem_of [4660; 22136; 39612]) = Ok x /\
    shift_left (Hw (fun _ _ _ => 12345)) 16 (It 0 1) (It 2 3) 4
      (mem_of [4660; 22136; 39612]) = Ok x.
Proof. eexists. split; vm_compute; reflexivity. Qed.

(** C25 for shift_left, all valid calls: two machines that differ in what an
    over-wide shift yields produce the same result and the same memory. *)
Theorem C25_shift_left : forall o o' w m first last n,
  valid_w w -> wf_mem w m -> good_range w m first last ->
  0 < n < addr w last - addr w first ->
  exists r m', shift_left (Hw o) w first last n m = Ok (r, m') /\
    shift_left (Hw o') w first last n m = Ok (r, m').
Proof. exact shift_left_oracle. Qed.
Print Assumptions C25_shift_left.

Example C25_shift_left_example :
  valid_w 32 /\ wf_mem 32 (mem_of [4660]) /\ good_range 32 (mem_of [4660]) (It 0 0) (It 1 0) /\
  0 < 5 < addr 32 (It 1 0) - addr 32 (It 0 0) /\
  run 1 (shift_left (Hw (fun _ _ _ => 0)) 32 (It 0 0) (It 1 0) 5) [4660]
    = Ok (It 0 27, [Some 145]) /\
  run 1 (shift_left (Hw (fun _ x c => x * c + 7)) 32 (It 0 0) (It 1 0) 5) [4660]
    = Ok (It 0 27, [Some 145]).
Proof. demo. Qed.

(** C25 for shift_right. *)
Theorem C25_shift_right : forall o o' w m first last n,
  valid_w w -> wf_mem w m -> good_range w m first last ->
  0 < n < addr w last - addr w first ->
  exists r m', shift_right (Hw o) w first last n m = Ok (r, m') /\
    shift_right (Hw o') w first last n m = Ok (r, m').
Proof. exact shift_right_oracle. Qed.
Print Assumptions C25_shift_right.

Example C25_shift_right_example :
  valid_w 32 /\ wf_mem 32 (mem_of [4660]) /\ good_range 32 (mem_of [4660]) (It 0 0) (It 1 0) /\
  0 < 5 < addr 32 (It 1 0) - addr 32 (It 0 0) /\
  run 1 (shift_right (Hw (fun _ _ _ => 0)) 32 (It 0 0) (It 1 0) 5) [4660]
    = Ok (It 0 5, [Some 149120]) /\
  run 1 (shift_right (Hw (fun _ x c => x * c + 7)) 32 (It 0 0) (It 1 0) 5) [4660]
    = Ok (It 0 5, [Some 149120]).
Proof. demo. Qed.

(** C25 for reverse. *)
Theorem C25_reverse : forall o o' w m first last,
  valid_w w -> wf_mem w m -> good_range w m first last ->
  addr w first < addr w last -> addr w last - addr w first + 2 * w <= max_bits ->
  exists m1 m2, reverse (Hw o) w first last m = Ok (tt, m1) /\
    reverse (Hw o') w first last m = Ok (tt, m2) /\ forall a, m1 a = m2 a.
Proof. exact reverse_oracle. Qed.
Print Assumptions C25_reverse.

Example C25_reverse_example :
  valid_w 32 /\ wf_mem 32 (mem_of [4660]) /\ good_range 32 (mem_of [4660]) (It 0 4) (It 1 0) /\
  addr 32 (It 0 4) < addr 32 (It 1 0) /\
  addr 32 (It 1 0) - addr 32 (It 0 4) + 2 * 32 <= max_bits /\
  run 1 (reverse (Hw (fun _ _ _ => 0)) 32 (It 0 4) (It 1 0)) [4660]
    = run 1 (reverse (Hw (fun _ x c => x * c + 7)) 32 (It 0 4) (It 1 0)) [4660] /\
  run 1 (reverse (Hw (fun _ _ _ => 0)) 32 (It 0 4) (It 1 0)) [4660]
    = Ok (tt, [Some 3296722948]).
Proof. demo. Qed.

(** C25 for copy_backward. *)
Theorem C25_copy_backward : forall o o' w m first last d,
  valid_w w -> wf_mem w m -> good_range w m first last ->
  good_dest_end w m d (addr w last - addr w first) ->
  addr w last <= addr w d \/ addr w d <= addr w first ->
  exists r m1 m2, copy_backward (Hw o) w first last d m = Ok (r, m1) /\
    copy_backward (Hw o') w first last d m = Ok (r, m2) /\ forall a, m1 a = m2 a.
Proof. exact copy_backward_oracle. Qed.
Print Assumptions C25_copy_backward.

Example C25_copy_backward_example :
  let m := mem_of [1; 2; 3; 4] in
  valid_w 32 /\ wf_mem 32 m /\ good_range 32 m (It 0 0) (It 2 0) /\
  good_dest_end 32 m (It 4 0) (addr 32 (It 2 0) - addr 32 (It 0 0)) /\
  (addr 32 (It 2 0) <= addr 32 (It 4 0) \/ addr 32 (It 4 0) <= addr 32 (It 0 0)) /\
  run 4 (copy_backward (Hw (fun _ _ _ => 0)) 32 (It 0 0) (It 2 0) (It 4 0)) [1; 2; 3; 4]
    = Ok (It 2 0, [Some 1; Some 2; Some 1; Some 2]) /\
  run 4 (copy_backward (Hw (fun _ x c => x * c + 7)) 32 (It 0 0) (It 2 0) (It 4 0))
      [1; 2; 3; 4]
    = Ok (It 2 0, [Some 1; Some 2; Some 1; Some 2]).
Proof. cbv zeta. demo. Qed.

