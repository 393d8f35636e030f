(** Properties C07 to C15: word access, fill, copy, move, copy_backward, equal,
    find and count. A theorem quantifies over the memory [m] of which only the
    words holding a bit of the ranges are known to be mapped, so [Ok] also says
    that no other word is read or written. [p] is the shift policy: unless the
    statement says otherwise the result is the same under the C++17 rules, the
    C++20 rules and on any machine. *)
From Coq Require Import ZArith Bool List Lia.
From Verif Require Import Base WordOps IterModel PopcntModel AlgModel Spec Demo
  ProofRange ProofDetails.
Import ListNotations.
Open Scope Z_scope.

(** C07 *)
Theorem C07_get_word : forall p w m first len,
  valid_w w -> wf_mem w m -> valid_it w first -> 1 <= len <= w ->
  mapped w m (addr w first) (addr w first + len) ->
  exists v, get_word p w first len m = Ok (v, m) /\ 0 <= v < 2 ^ w /\
    forall k, 0 <= k < len -> Z.testbit v k = bit w m (addr w first + k).
Proof. exact get_word_ok. Qed.
Print Assumptions C07_get_word.

Example C07_get_word_example :
  valid_w 8 /\ wf_mem 8 (mem_of [180; 29]) /\ valid_it 8 (It 0 5) /\ 1 <= 6 <= 8 /\
  mapped 8 (mem_of [180; 29]) (addr 8 (It 0 5)) (addr 8 (It 0 5) + 6) /\
  run 2 (get_word Strict17 8 (It 0 5) 6) [180; 29] = Ok (45, [Some 180; Some 29]).
Proof. demo. Qed.

(** C08 *)
Theorem C08_write_word : forall p w m src dst len,
  valid_w w -> wf_mem w m -> valid_it w dst -> 1 <= len <= w ->
  0 <= src < 2 ^ w -> mapped w m (addr w dst) (addr w dst + len) ->
  exists m', write_word p w src dst len m = Ok (tt, m') /\
    updated w m m' (addr w dst) (addr w dst + len)
      (fun i => Z.testbit src (i - addr w dst)).
Proof. exact write_word_ok. Qed.
Print Assumptions C08_write_word.

Example C08_write_word_example :
  valid_w 8 /\ wf_mem 8 (mem_of [255; 255]) /\ valid_it 8 (It 0 6) /\ 1 <= 5 <= 8 /\
  0 <= 200 < 2 ^ 8 /\
  mapped 8 (mem_of [255; 255]) (addr 8 (It 0 6)) (addr 8 (It 0 6) + 5) /\
  run 2 (write_word Strict17 8 200 (It 0 6) 5) [255; 255]
    = Ok (tt, [Some 63; Some 250]).
Proof. demo. Qed.

(** C09 *)
Theorem C09_fill : forall p w m first last b,
  valid_w w -> wf_mem w m -> good_range w m first last ->
  exists m', fill p w first last b m = Ok (tt, m') /\
    updated w m m' (addr w first) (addr w last) (fun _ => b).
Proof. exact fill_ok. Qed.
Print Assumptions C09_fill.

Example C09_fill_example :
  valid_w 8 /\ wf_mem 8 (mem_of [0; 0; 0; 0]) /\
  good_range 8 (mem_of [0; 0; 0; 0]) (It 0 3) (It 3 2) /\
  run 4 (fill Strict17 8 (It 0 3) (It 3 2) true) [0; 0; 0; 0]
    = Ok (tt, [Some 248; Some 255; Some 255; Some 3]).
Proof. demo. Qed.

(** C10 *)
Theorem C10_copy : forall p w m first last d,
  valid_w w -> wf_mem w m -> good_range w m first last ->
  good_dest w m d (addr w last - addr w first) ->
  addr w d <= addr w first \/ addr w last <= addr w d ->
  exists d' m', copy p w first last d m = Ok (d', m') /\ valid_it w d' /\
    addr w d' = addr w d + (addr w last - addr w first) /\
    updated w m m' (addr w d) (addr w d + (addr w last - addr w first))
      (fun i => bit w m (addr w first + (i - addr w d))).
Proof. exact copy_ok. Qed.
Print Assumptions C10_copy.

Example C10_copy_example :
  valid_w 8 /\ wf_mem 8 (mem_of [227; 90; 165; 17]) /\
  good_range 8 (mem_of [227; 90; 165; 17]) (It 0 5) (It 3 6) /\
  good_dest 8 (mem_of [227; 90; 165; 17]) (It 0 2)
    (addr 8 (It 3 6) - addr 8 (It 0 5)) /\
  (addr 8 (It 0 2) <= addr 8 (It 0 5) \/ addr 8 (It 3 6) <= addr 8 (It 0 2)) /\
  run 4 (copy Strict17 8 (It 0 5) (It 3 6) (It 0 2)) [227; 90; 165; 17]
    = Ok (It 3 3, [Some 95; Some 171; Some 52; Some 18]).
Proof. demo. Qed.

Theorem C10_move : forall p w m first last d,
  valid_w w -> wf_mem w m -> good_range w m first last ->
  good_dest w m d (addr w last - addr w first) ->
  addr w d <= addr w first \/ addr w last <= addr w d ->
  exists d' m', move p w first last d m = Ok (d', m') /\ valid_it w d' /\
    addr w d' = addr w d + (addr w last - addr w first) /\
    updated w m m' (addr w d) (addr w d + (addr w last - addr w first))
      (fun i => bit w m (addr w first + (i - addr w d))).
Proof. exact copy_ok. Qed.
Print Assumptions C10_move.

Example C10_move_example :
  valid_w 16 /\ wf_mem 16 (mem_of [4660; 22136; 0; 0]) /\
  good_range 16 (mem_of [4660; 22136; 0; 0]) (It 0 4) (It 2 0) /\
  good_dest 16 (mem_of [4660; 22136; 0; 0]) (It 2 0)
    (addr 16 (It 2 0) - addr 16 (It 0 4)) /\
  (addr 16 (It 2 0) <= addr 16 (It 0 4) \/ addr 16 (It 2 0) <= addr 16 (It 2 0)) /\
  run 4 (move Strict20 16 (It 0 4) (It 2 0) (It 2 0)) [4660; 22136; 0; 0]
    = Ok (It 3 12, [Some 4660; Some 22136; Some 33059; Some 1383]).
Proof. demo. Qed.

(** C11, on any machine: whatever an over-wide shift yields. *)
Theorem C11_copy_backward : forall o w m first last d,
  valid_w w -> wf_mem w m -> good_range w m first last ->
  good_dest_end w m d (addr w last - addr w first) ->
  addr w last <= addr w d \/ addr w d <= addr w first ->
  exists d' m', copy_backward (Hw o) w first last d m = Ok (d', m') /\
    valid_it w d' /\
    addr w d' = addr w d - (addr w last - addr w first) /\
    updated w m m' (addr w d - (addr w last - addr w first)) (addr w d)
      (fun i => bit w m (addr w last - (addr w d - i))).
Proof. exact copy_backward_hw. Qed.
Print Assumptions C11_copy_backward.

Example C11_copy_backward_example :
  valid_w 8 /\ wf_mem 8 (mem_of [227; 90; 165; 17]) /\
  good_range 8 (mem_of [227; 90; 165; 17]) (It 0 2) (It 3 1) /\
  good_dest_end 8 (mem_of [227; 90; 165; 17]) (It 3 7)
    (addr 8 (It 3 1) - addr 8 (It 0 2)) /\
  (addr 8 (It 3 1) <= addr 8 (It 3 7) \/ addr 8 (It 3 7) <= addr 8 (It 0 2)) /\
  run 4 (copy_backward (Hw (fun _ _ _ => 99)) 8 (It 0 2) (It 3 1) (It 3 7))
      [227; 90; 165; 17]
    = Ok (It 1 0, [Some 227; Some 184; Some 86; Some 105]).
Proof. demo. Qed.

(** C11 under the language rules: excluded is exactly the case of an aligned
    source start, equally aligned ends and at least two words (see
    C24_copy_backward_partial). *)
Theorem C11_copy_backward_strict_partial : forall p w m first last d,
  valid_w w -> wf_mem w m -> good_range w m first last ->
  good_dest_end w m d (addr w last - addr w first) ->
  addr w last <= addr w d \/ addr w d <= addr w first ->
  ip first <> 0 \/ ip last <> ip d \/ ib last - ib first < 2 \/
    full_blend_defined p w ->
  exists d' m', copy_backward p w first last d m = Ok (d', m') /\
    valid_it w d' /\
    addr w d' = addr w d - (addr w last - addr w first) /\
    updated w m m' (addr w d - (addr w last - addr w first)) (addr w d)
      (fun i => bit w m (addr w last - (addr w d - i))).
Proof. exact copy_backward_ok. Qed.
Print Assumptions C11_copy_backward_strict_partial.

Example C11_copy_backward_strict_example :
  valid_w 8 /\ wf_mem 8 (mem_of [227; 90; 165; 17]) /\
  good_range 8 (mem_of [227; 90; 165; 17]) (It 0 2) (It 3 1) /\
  good_dest_end 8 (mem_of [227; 90; 165; 17]) (It 3 7)
    (addr 8 (It 3 1) - addr 8 (It 0 2)) /\
  (addr 8 (It 3 1) <= addr 8 (It 3 7) \/ addr 8 (It 3 7) <= addr 8 (It 0 2)) /\
  (ip (It 0 2) <> 0 \/ ip (It 3 1) <> ip (It 3 7) \/
   ib (It 3 1) - ib (It 0 2) < 2 \/ full_blend_defined Strict17 8) /\
  run 4 (copy_backward Strict17 8 (It 0 2) (It 3 1) (It 3 7)) [227; 90; 165; 17]
    = Ok (It 1 0, [Some 227; Some 184; Some 86; Some 105]).
Proof. demo. Qed.

(** C12 *)
Theorem C12_equal : forall p w m first last d,
  valid_w w -> wf_mem w m -> good_range w m first last ->
  good_dest w m d (addr w last - addr w first) ->
  exists r, equal p w first last d m = Ok (r, m) /\
    (r = true <->
     forall k, 0 <= k < addr w last - addr w first ->
       bit w m (addr w first + k) = bit w m (addr w d + k)).
Proof. exact equal_ok. Qed.
Print Assumptions C12_equal.

Example C12_equal_example :
  valid_w 8 /\ wf_mem 8 (mem_of [195; 60; 195; 60; 195]) /\
  good_range 8 (mem_of [195; 60; 195; 60; 195]) (It 0 1) (It 2 3) /\
  good_dest 8 (mem_of [195; 60; 195; 60; 195]) (It 2 1)
    (addr 8 (It 2 3) - addr 8 (It 0 1)) /\
  run 1 (equal Strict17 8 (It 0 1) (It 2 3) (It 2 1)) [195; 60; 195; 60; 195]
    = Ok (true, [Some 195]) /\
  run 1 (equal Strict17 8 (It 0 1) (It 2 3) (It 2 0)) [195; 60; 195; 60; 195]
    = Ok (false, [Some 195]).
Proof. demo. Qed.

(** C13. An unaligned [first] designates a bit inside an existing word even if
    the range is empty. *)
Theorem C13_find : forall p w m first last b,
  valid_w w -> wf_mem w m -> good_range w m first last ->
  (ip first <> 0 -> m (ib first) <> None) ->
  exists r, find p w first last b m = Ok (r, m) /\ valid_it w r /\
    addr w first <= addr w r <= addr w last /\
    (forall i, addr w first <= i < addr w r -> bit w m i <> b) /\
    (addr w r < addr w last -> bit w m (addr w r) = b).
Proof. exact find_ok. Qed.
Print Assumptions C13_find.

Example C13_find_example :
  valid_w 8 /\ wf_mem 8 (mem_of [3; 0; 32]) /\
  good_range 8 (mem_of [3; 0; 32]) (It 0 2) (It 2 7) /\
  (ip (It 0 2) <> 0 -> mem_of [3; 0; 32] (ib (It 0 2)) <> None) /\
  run 3 (find Strict17 8 (It 0 2) (It 2 7) true) [3; 0; 32]
    = Ok (It 2 5, [Some 3; Some 0; Some 32]) /\
  run 3 (find Strict17 8 (It 0 2) (It 2 5) true) [3; 0; 32]
    = Ok (It 2 5, [Some 3; Some 0; Some 32]).
Proof. demo. Qed.

(** C14 on x86 (any combination of the CPU features tested at run time), on ARM
    with unaligned loads and, for 64-bit words, on all targets. *)
Theorem C14_count : forall t p w m first last b,
  valid_w w -> wf_mem w m -> good_range w m first last ->
  (exists c, t = X86 c) \/ t = Neon true \/ w = 64 ->
  (first = last -> m (ib first) <> None) ->
  count t p w first last b m =
  Ok (count_true (fun i => eqb (bit w m i) b) (addr w first)
        (Z.to_nat (addr w last - addr w first)), m).
Proof. exact count_ok. Qed.
Print Assumptions C14_count.

Example C14_count_example :
  valid_w 8 /\ wf_mem 8 (mem_of [255; 129; 15; 0]) /\
  good_range 8 (mem_of [255; 129; 15; 0]) (It 0 3) (It 2 3) /\
  ((exists c, X86 (Cpu true true false) = X86 c) \/
   X86 (Cpu true true false) = Neon true \/ 8 = 64) /\
  (It 0 3 = It 2 3 -> mem_of [255; 129; 15; 0] (ib (It 0 3)) <> None) /\
  run 1 (count (X86 (Cpu true true false)) Strict17 8 (It 0 3) (It 2 3) true)
      [255; 129; 15; 0] = Ok (10, [Some 255]).
Proof. demo. left. eexists. reflexivity. Qed.

Theorem C14_count_complement : forall t p w m first last c0 c1 m0 m1,
  valid_w w -> wf_mem w m -> good_range w m first last ->
  (exists c, t = X86 c) \/ t = Neon true \/ w = 64 ->
  (first = last -> m (ib first) <> None) ->
  count t p w first last true m = Ok (c1, m1) ->
  count t p w first last false m = Ok (c0, m0) ->
  c0 + c1 = addr w last - addr w first /\ 0 <= c0 /\ 0 <= c1.
Proof. exact count_complement. Qed.
Print Assumptions C14_count_complement.

Example C14_count_complement_example :
  valid_w 8 /\ wf_mem 8 (mem_of [255; 129; 15; 0]) /\
  good_range 8 (mem_of [255; 129; 15; 0]) (It 0 3) (It 2 3) /\
  run 0 (count (X86 (Cpu false true true)) Strict17 8 (It 0 3) (It 2 3) true)
      [255; 129; 15; 0] = Ok (10, []) /\
  run 0 (count (X86 (Cpu false true true)) Strict17 8 (It 0 3) (It 2 3) false)
      [255; 129; 15; 0] = Ok (6, []).
Proof. demo. Qed.

(** C14 on the targets where libpopcnt aligns its reads (ARM without unaligned
    loads, and CPUs other than x86 and ARM). Missing: the ranges where the
    [size] bytes of whole words, which start at byte address [a], leave fewer
    bytes after the last multiple of eight than the alignment skips; there the
    claim is false (C14_count_portable_overread). *)
Theorem C14_count_portable_partial : forall t p w m first last b,
  let a := (if ip first =? 0 then ib first else ib first + 1) * (w / 8) in
  let size := ib last * (w / 8) - a in
  valid_w w -> wf_mem w m -> good_range w m first last ->
  size < 8 \/ (- a) mod 8 <= size mod 8 \/ (t = Neon false /\ size mod 64 < 8) ->
  (first = last -> m (ib first) <> None) ->
  count t p w first last b m =
  Ok (count_true (fun i => eqb (bit w m i) b) (addr w first)
        (Z.to_nat (addr w last - addr w first)), m).
Proof. exact count_portable. Qed.
Print Assumptions C14_count_portable_partial.

Example C14_count_portable_partial_example :
  let l := [7; 1; 2; 3; 4; 5; 6; 7; 8; 9; 10; 11; 12; 13; 14; 15; 16] in
  let a := (if ip (It 0 3) =? 0 then 0 else 0 + 1) * (8 / 8) in
  let size := ib (It 16 1) * (8 / 8) - a in
  valid_w 8 /\ wf_mem 8 (mem_of l) /\ good_range 8 (mem_of l) (It 0 3) (It 16 1) /\
  (size < 8 \/ (- a) mod 8 <= size mod 8 \/
     (Neon false = Neon false /\ size mod 64 < 8)) /\
  run 0 (count (Neon false) Strict17 8 (It 0 3) (It 16 1) true) l = Ok (32, []) /\
  run 0 (count Generic Strict17 8 (It 0 3) (It 16 1) true) l = Ok (32, []).
Proof. cbv zeta. demo. Qed.

(** On these targets, every other range that ends with its array is read past
    the end. *)
Theorem C14_count_portable_overread : forall t p w m first last b,
  let a := (if ip first =? 0 then ib first else ib first + 1) * (w / 8) in
  let size := ib last * (w / 8) - a in
  valid_w w -> wf_mem w m -> good_range w m first last ->
  (t = Generic /\ 8 <= size) \/ (t = Neon false /\ 8 <= size mod 64 /\ 0 <= size) ->
  size mod 8 < (- a) mod 8 -> m (ib last) = None ->
  count t p w first last b m = UB OutOfBounds.
Proof. exact count_portable_overread. Qed.
Print Assumptions C14_count_portable_overread.

Example C14_count_portable_overread_example :
  let l := [7; 1; 2; 3; 4; 5; 6; 7; 8; 9; 10; 11] in
  let a := (if ip (It 1 0) =? 0 then 1 else 1 + 1) * (8 / 8) in
  let size := ib (It 12 0) * (8 / 8) - a in
  valid_w 8 /\ wf_mem 8 (mem_of l) /\ good_range 8 (mem_of l) (It 1 0) (It 12 0) /\
  8 <= size /\ 8 <= size mod 64 /\ size mod 8 < (- a) mod 8 /\
  mem_of l (ib (It 12 0)) = None.
Proof. cbv zeta. demo. Qed.

(** On targets without a special variant of libpopcnt, count over words
    narrower than 64 bits can read past the end of the array: the array of 9
    bytes at byte address 1. *)
Theorem C14_count_portable_refuted : exists p w m first last b,
  valid_w w /\ wf_mem w m /\ good_range w m first last /\ first <> last /\
  count Generic p w first last b m = UB OutOfBounds.
Proof. exact count_portable_refuted. Qed.
Print Assumptions C14_count_portable_refuted.

(** C15 is false: an empty range at the end of an array (or in an empty vector)
    is read. *)
Theorem C15_count_empty_reads : forall t p w m it b,
  valid_w w -> valid_it w it -> m (ib it) = None ->
  count t p w it it b m = UB OutOfBounds.
Proof. exact count_empty_reads. Qed.
Print Assumptions C15_count_empty_reads.

Example C15_count_empty_reads_example :
  valid_w 64 /\ valid_it 64 (It 2 0) /\ mem_of [1; 2] (ib (It 2 0)) = None.
Proof. demo. Qed.

(** Where the word of the iterator can be read the result is right. Missing: the
    claim that no memory is read, which is false (above). *)
Theorem C15_count_empty_partial : forall t p w m it b,
  valid_w w -> wf_mem w m -> valid_it w it -> m (ib it) <> None ->
  count t p w it it b m = Ok (0, m).
Proof. exact count_empty_readable. Qed.
Print Assumptions C15_count_empty_partial.

Example C15_count_empty_partial_example :
  valid_w 16 /\ wf_mem 16 (mem_of [3; 65535]) /\ valid_it 16 (It 1 9) /\
  mem_of [3; 65535] (ib (It 1 9)) <> None /\
  run 0 (count Generic Strict17 16 (It 1 9) (It 1 9) true) [3; 65535] = Ok (0, []).
Proof. demo. Qed.

Theorem C15_count_empty_refuted : exists t p w m it b,
  valid_w w /\ wf_mem w m /\ good_range w m it it /\
  count t p w it it b m = UB OutOfBounds.
Proof. exact count_empty_refuted. Qed.
Print Assumptions C15_count_empty_refuted.
