(** Properties C18 and C19: shift_left and shift_right. The bits of the range
    that the C++ standard leaves unspecified after a shift are not described. *)
From Coq Require Import ZArith Bool List Lia.
From Verif Require Import Base WordOps IterModel AlgModel ShiftModel Spec Demo
  ProofShift.
Import ListNotations.
Open Scope Z_scope.

(** C18, on any machine: whatever an over-wide shift yields. *)
Theorem C18_shift_left : forall o w m first last n,
  valid_w w -> wf_mem w m -> good_range w m first last ->
  0 < n < addr w last - addr w first ->
  exists r m', shift_left (Hw o) w first last n m = Ok (r, m') /\ valid_it w r /\
    addr w r = addr w last - n /\ wf_mem w m' /\ same_dom m m' /\
    (forall i, addr w first <= i < addr w last - n ->
       bit w m' i = bit w m (i + n)) /\
    (forall i, i < addr w first \/ addr w last <= i -> bit w m' i = bit w m i).
Proof. exact shift_left_hw. Qed.
Print Assumptions C18_shift_left.

Example C18_shift_left_example :
  let m := mem_of [227; 90; 165; 17] in
  valid_w 8 /\ wf_mem 8 m /\ good_range 8 m (It 0 3) (It 3 6) /\
  0 < 5 < addr 8 (It 3 6) - addr 8 (It 0 3) /\
  run 4 (shift_left (Hw (fun _ _ _ => 77)) 8 (It 0 3) (It 3 6) 5) [227; 90; 165; 17]
    = Ok (It 3 1, [Some 211; Some 42; Some 141; Some 16]).
Proof. cbv zeta. demo. Qed.

(** C18 under the language rules: excluded is a range that is exactly one word
    (see C24_shift_left_partial). *)
Theorem C18_shift_left_strict_partial : forall p w m first last n,
  valid_w w -> wf_mem w m -> good_range w m first last ->
  0 < n < addr w last - addr w first ->
  ip first <> 0 \/ ip last <> 0 \/ ib last - ib first <> 1 \/
    full_blend_defined p w ->
  exists r m', shift_left p w first last n m = Ok (r, m') /\ valid_it w r /\
    addr w r = addr w last - n /\ wf_mem w m' /\ same_dom m m' /\
    (forall i, addr w first <= i < addr w last - n ->
       bit w m' i = bit w m (i + n)) /\
    (forall i, i < addr w first \/ addr w last <= i -> bit w m' i = bit w m i).
Proof. exact shift_left_ok. Qed.
Print Assumptions C18_shift_left_strict_partial.

Example C18_shift_left_strict_example :
  let m := mem_of [4660; 22136; 39612] in
  valid_w 16 /\ wf_mem 16 m /\ good_range 16 m (It 0 0) (It 2 9) /\
  0 < 16 < addr 16 (It 2 9) - addr 16 (It 0 0) /\
  (ip (It 0 0) <> 0 \/ ip (It 2 9) <> 0 \/ ib (It 2 9) - ib (It 0 0) <> 1 \/
     full_blend_defined Strict17 16) /\
  run 3 (shift_left Strict17 16 (It 0 0) (It 2 9) 16) [4660; 22136; 39612]
    = Ok (It 1 9, [Some 22136; Some 22204; Some 39612]).
Proof. cbv zeta. demo. Qed.

(** C18, out of range shift counts. *)
Theorem C18_shift_left_no_shift : forall p w m first last n,
  valid_w w -> good_range w m first last ->
  (n <= 0 -> shift_left p w first last n m = Ok (last, m)) /\
  (0 < n -> addr w last - addr w first <= n ->
     shift_left p w first last n m = Ok (first, m)).
Proof. exact shift_left_none. Qed.
Print Assumptions C18_shift_left_no_shift.

Example C18_shift_left_no_shift_example :
  valid_w 32 /\ good_range 32 (mem_of [5; 6]) (It 0 3) (It 1 4) /\
  run 2 (shift_left Strict17 32 (It 0 3) (It 1 4) 33) [5; 6]
    = Ok (It 0 3, [Some 5; Some 6]) /\
  run 2 (shift_left Strict17 32 (It 0 3) (It 1 4) (-2)) [5; 6]
    = Ok (It 1 4, [Some 5; Some 6]).
Proof. demo. Qed.

(** C19, on any machine. *)
Theorem C19_shift_right : forall o w m first last n,
  valid_w w -> wf_mem w m -> good_range w m first last ->
  0 < n < addr w last - addr w first ->
  exists r m', shift_right (Hw o) w first last n m = Ok (r, m') /\ valid_it w r /\
    addr w r = addr w first + n /\ wf_mem w m' /\ same_dom m m' /\
    (forall i, addr w first + n <= i < addr w last ->
       bit w m' i = bit w m (i - n)) /\
    (forall i, i < addr w first \/ addr w last <= i -> bit w m' i = bit w m i).
Proof. exact shift_right_hw. Qed.
Print Assumptions C19_shift_right.

Example C19_shift_right_example :
  let m := mem_of [227; 90; 165; 17] in
  valid_w 8 /\ wf_mem 8 m /\ good_range 8 m (It 0 3) (It 3 6) /\
  0 < 5 < addr 8 (It 3 6) - addr 8 (It 0 3) /\
  run 4 (shift_right (Hw (fun _ _ _ => 77)) 8 (It 0 3) (It 3 6) 5) [227; 90; 165; 17]
    = Ok (It 1 0, [Some 227; Some 92; Some 171; Some 52]).
Proof. cbv zeta. demo. Qed.

(** C19 under the language rules, with the exclusion of C18. *)
Theorem C19_shift_right_strict_partial : forall p w m first last n,
  valid_w w -> wf_mem w m -> good_range w m first last ->
  0 < n < addr w last - addr w first ->
  ip first <> 0 \/ ip last <> 0 \/ ib last - ib first <> 1 \/
    full_blend_defined p w ->
  exists r m', shift_right p w first last n m = Ok (r, m') /\ valid_it w r /\
    addr w r = addr w first + n /\ wf_mem w m' /\ same_dom m m' /\
    (forall i, addr w first + n <= i < addr w last ->
       bit w m' i = bit w m (i - n)) /\
    (forall i, i < addr w first \/ addr w last <= i -> bit w m' i = bit w m i).
Proof. exact shift_right_ok. Qed.
Print Assumptions C19_shift_right_strict_partial.

Example C19_shift_right_strict_example :
  let m := mem_of [4660; 22136; 39612] in
  valid_w 16 /\ wf_mem 16 m /\ good_range 16 m (It 0 1) (It 3 0) /\
  0 < 16 < addr 16 (It 3 0) - addr 16 (It 0 1) /\
  (ip (It 0 1) <> 0 \/ ip (It 3 0) <> 0 \/ ib (It 3 0) - ib (It 0 1) <> 1 \/
     full_blend_defined Strict17 16) /\
  run 3 (shift_right Strict17 16 (It 0 1) (It 3 0) 16) [4660; 22136; 39612]
    = Ok (It 1 1, [Some 4660; Some 4660; Some 22136]).
Proof. cbv zeta. demo. Qed.

(** C19, out of range shift counts. *)
Theorem C19_shift_right_no_shift : forall p w m first last n,
  valid_w w -> good_range w m first last ->
  (n <= 0 -> shift_right p w first last n m = Ok (first, m)) /\
  (0 < n -> addr w last - addr w first <= n ->
     shift_right p w first last n m = Ok (last, m)).
Proof. exact shift_right_none. Qed.
Print Assumptions C19_shift_right_no_shift.

Example C19_shift_right_no_shift_example :
  valid_w 32 /\ good_range 32 (mem_of [5; 6]) (It 0 3) (It 1 4) /\
  run 2 (shift_right Strict17 32 (It 0 3) (It 1 4) 33) [5; 6]
    = Ok (It 1 4, [Some 5; Some 6]) /\
  run 2 (shift_right Strict17 32 (It 0 3) (It 1 4) 0) [5; 6]
    = Ok (It 0 3, [Some 5; Some 6]).
Proof. demo. Qed.
