(** Property C49: the build with BITLIB_HWY, in which fill, find, transform and
    the shifts work on vectors of words, does what the plain build does. The
    vectors may have any length that divides 64 bytes and the array may begin
    at any byte address. *)
From Coq Require Import ZArith Bool List Lia.
From Verif Require Import Base WordOps IterModel AlgModel ShiftModel TransformModel
  HwyModel Spec SpecHwy Demo ProofHwy.
Import ListNotations.
Open Scope Z_scope.

(** C49, fill. *)
Theorem C49_fill : forall p h w m first last b,
  valid_w w -> vector_fits h w -> wf_mem w m -> good_range w m first last ->
  exists m', fill_hwy p h w first last b m = Ok (tt, m') /\
    updated w m m' (addr w first) (addr w last) (fun _ => b).
Proof. exact fill_hwy_ok. Qed.
Print Assumptions C49_fill.

Example C49_fill_example :
  let l := [1; 2; 4; 8; 16; 32; 64; 128; 256; 512; 1024; 2048] in
  valid_w 32 /\ vector_fits (Unit 4 56) 32 /\ wf_mem 32 (mem_of l) /\
  good_range 32 (mem_of l) (It 0 5) (It 11 3) /\
  run 12 (fill_hwy Strict17 (Unit 4 56) 32 (It 0 5) (It 11 3) false) l
    = Ok (tt, [Some 1; Some 0; Some 0; Some 0; Some 0; Some 0; Some 0; Some 0;
               Some 0; Some 0; Some 0; Some 2048]).
Proof. cbv zeta. unfold vector_fits. demo. Qed.

(** C49, find. *)
Theorem C49_find : forall p h w m first last b,
  valid_w w -> vector_fits h w -> wf_mem w m -> good_range w m first last ->
  (ip first <> 0 -> m (ib first) <> None) ->
  exists r, find_hwy p h w first last b m = Ok (r, m) /\ valid_it w r /\
    addr w first <= addr w r <= addr w last /\
    (forall i, addr w first <= i < addr w r -> bit w m i <> b) /\
    (addr w r < addr w last -> bit w m (addr w r) = b).
Proof. exact find_hwy_ok. Qed.
Print Assumptions C49_find.

Example C49_find_example :
  let l := [3; 0; 0; 0; 0; 0; 0; 0; 0; 64; 32; 7] in
  valid_w 32 /\ vector_fits (Unit 4 56) 32 /\ wf_mem 32 (mem_of l) /\
  good_range 32 (mem_of l) (It 0 5) (It 11 3) /\
  (ip (It 0 5) <> 0 -> mem_of l (ib (It 0 5)) <> None) /\
  run 1 (find_hwy Strict17 (Unit 4 56) 32 (It 0 5) (It 11 3) true) l
    = Ok (It 9 6, [Some 3]) /\
  run 1 (find_hwy Strict17 (Unit 4 56) 32 (It 0 5) (It 9 2) true) l
    = Ok (It 9 2, [Some 3]).
Proof. cbv zeta. unfold vector_fits. demo. Qed.

(** C49, transform with bit_not, the only operation with vector code. *)
Theorem C49_transform_not : forall p h w m first last d,
  valid_w w -> vector_fits h w -> wf_mem w m -> good_range w m first last ->
  good_dest w m d (addr w last - addr w first) ->
  addr w d <= addr w first \/ addr w last <= addr w d ->
  exists d' m', transform_not_hwy p h w first last d m = Ok (d', m') /\ valid_it w d' /\
    addr w d' = addr w d + (addr w last - addr w first) /\
    updated w m m' (addr w d) (addr w d + (addr w last - addr w first))
      (fun i => negb (bit w m (addr w first + (i - addr w d)))).
Proof. exact transform_not_hwy_ok. Qed.
Print Assumptions C49_transform_not.

Example C49_transform_not_example :
  let l := [1; 2; 4; 8; 16; 32; 64; 128; 256; 512; 1024; 2048] in
  valid_w 16 /\ vector_fits (Unit 4 58) 16 /\ wf_mem 16 (mem_of l) /\
  good_range 16 (mem_of l) (It 1 0) (It 11 3) /\
  good_dest 16 (mem_of l) (It 0 0) (addr 16 (It 11 3) - addr 16 (It 1 0)) /\
  (addr 16 (It 0 0) <= addr 16 (It 1 0) \/ addr 16 (It 11 3) <= addr 16 (It 0 0)) /\
  run 12 (transform_not_hwy Strict17 (Unit 4 58) 16 (It 1 0) (It 11 3) (It 0 0)) l
    = Ok (It 10 3, [Some 65533; Some 65531; Some 65527; Some 65519; Some 65503;
                    Some 65471; Some 65407; Some 65279; Some 65023; Some 64511;
                    Some 1031; Some 2048]).
Proof. cbv zeta. unfold vector_fits. demo. Qed.

(** C49, shift_left on any machine. *)
Theorem C49_shift_left : forall o h w m first last n,
  valid_w w -> vector_fits h w -> wf_mem w m -> good_range w m first last ->
  0 < n < addr w last - addr w first ->
  exists r m', shift_left_hwy (Hw o) h w first last n m = Ok (r, m') /\ valid_it w r /\
    addr w r = addr w last - n /\ wf_mem w m' /\ same_dom m m' /\
    (forall i, addr w first <= i < addr w last - n ->
       bit w m' i = bit w m (i + n)) /\
    (forall i, i < addr w first \/ addr w last <= i -> bit w m' i = bit w m i).
Proof. exact shift_left_hwy_hw. Qed.
Print Assumptions C49_shift_left.

Example C49_shift_left_example :
  let l := [1; 2; 4; 8; 16; 32; 64; 128; 256; 512; 1024; 2048; 4096; 8192; 16384;
            32768; 65536; 131072; 262144; 524288] in
  valid_w 32 /\ vector_fits (Unit 4 24) 32 /\ wf_mem 32 (mem_of l) /\
  good_range 32 (mem_of l) (It 0 5) (It 19 3) /\
  0 < 40 < addr 32 (It 19 3) - addr 32 (It 0 5) /\
  run 20 (shift_left_hwy (Hw (fun _ _ _ => 77)) (Unit 4 24) 32 (It 0 5) (It 19 3) 40) l
    = Ok (It 17 27,
          [Some 67108865; Some 134217728; Some 268435456; Some 536870912;
           Some 1073741824; Some 2147483648; Some 0; Some 1; Some 2; Some 4; Some 8;
           Some 16; Some 32; Some 64; Some 128; Some 256; Some 512; Some 1024;
           Some 262144; Some 524288]).
Proof. cbv zeta. unfold vector_fits. demo. Qed.

(** C49, shift_left under the language rules: excluded is a range that is
    exactly one word (see C24_shift_left_partial). *)
Theorem C49_shift_left_strict_partial : forall p h w m first last n,
  valid_w w -> vector_fits h w -> wf_mem w m -> good_range w m first last ->
  0 < n < addr w last - addr w first ->
  ip first <> 0 \/ ip last <> 0 \/ ib last - ib first <> 1 \/
    full_blend_defined p w ->
  exists r m', shift_left_hwy p h w first last n m = Ok (r, m') /\ valid_it w r /\
    addr w r = addr w last - n /\ wf_mem w m' /\ same_dom m m' /\
    (forall i, addr w first <= i < addr w last - n ->
       bit w m' i = bit w m (i + n)) /\
    (forall i, i < addr w first \/ addr w last <= i -> bit w m' i = bit w m i).
Proof. exact shift_left_hwy_ok. Qed.
Print Assumptions C49_shift_left_strict_partial.

Example C49_shift_left_strict_example :
  let l := [1; 2; 4; 8; 16; 32; 64; 128; 256; 512; 1024; 2048; 4096; 8192; 16384;
            32768; 65536; 131072; 262144; 524288] in
  valid_w 32 /\ vector_fits (Unit 4 24) 32 /\ wf_mem 32 (mem_of l) /\
  good_range 32 (mem_of l) (It 0 5) (It 19 3) /\
  0 < 40 < addr 32 (It 19 3) - addr 32 (It 0 5) /\
  (ip (It 0 5) <> 0 \/ ip (It 19 3) <> 0 \/ ib (It 19 3) - ib (It 0 5) <> 1 \/
     full_blend_defined Strict17 32) /\
  run 3 (shift_left_hwy Strict17 (Unit 4 24) 32 (It 0 5) (It 19 3) 40) l
    = Ok (It 17 27, [Some 67108865; Some 134217728; Some 268435456]).
Proof. cbv zeta. unfold vector_fits. demo. Qed.

(** C49, shift_right on any machine. *)
Theorem C49_shift_right : forall o h w m first last n,
  valid_w w -> vector_fits h w -> wf_mem w m -> good_range w m first last ->
  0 < n < addr w last - addr w first ->
  exists r m', shift_right_hwy (Hw o) h w first last n m = Ok (r, m') /\ valid_it w r /\
    addr w r = addr w first + n /\ wf_mem w m' /\ same_dom m m' /\
    (forall i, addr w first + n <= i < addr w last ->
       bit w m' i = bit w m (i - n)) /\
    (forall i, i < addr w first \/ addr w last <= i -> bit w m' i = bit w m i).
Proof. exact shift_right_hwy_hw. Qed.
Print Assumptions C49_shift_right.

Example C49_shift_right_example :
  let l := [1; 2; 4; 8; 16; 32; 64; 128; 256; 512; 1024; 2048; 4096; 8192; 16384;
            32768; 65536; 131072; 262144; 524288] in
  valid_w 32 /\ vector_fits (Unit 4 24) 32 /\ wf_mem 32 (mem_of l) /\
  good_range 32 (mem_of l) (It 0 5) (It 19 3) /\
  0 < 40 < addr 32 (It 19 3) - addr 32 (It 0 5) /\
  run 20 (shift_right_hwy (Hw (fun _ _ _ => 77)) (Unit 4 24) 32 (It 0 5) (It 19 3) 40) l
    = Ok (It 1 13,
          [Some 1; Some 2; Some 512; Some 1024; Some 2048; Some 4096; Some 8192;
           Some 16384; Some 32768; Some 65536; Some 131072; Some 262144; Some 524288;
           Some 1048576; Some 2097152; Some 4194304; Some 8388608; Some 16777216;
           Some 33554432; Some 524288]).
Proof. cbv zeta. unfold vector_fits. demo. Qed.

(** C49, shift_right under the language rules. Excluded are a range that is
    exactly one word, and a range with less than a vector of further words of
    the same array in front of it: there the code forms a pointer that may
    lie in front of the array (C49_shift_right_pointer_refuted). *)
Theorem C49_shift_right_strict_partial : forall p h w m first last n,
  valid_w w -> vector_fits h w -> wf_mem w m -> good_range w m first last ->
  0 < n < addr w last - addr w first ->
  (forall a, ib first - lanes h < a < ib first -> m a <> None) ->
  ip first <> 0 \/ ip last <> 0 \/ ib last - ib first <> 1 \/
    full_blend_defined p w ->
  exists r m', shift_right_hwy p h w first last n m = Ok (r, m') /\ valid_it w r /\
    addr w r = addr w first + n /\ wf_mem w m' /\ same_dom m m' /\
    (forall i, addr w first + n <= i < addr w last ->
       bit w m' i = bit w m (i - n)) /\
    (forall i, i < addr w first \/ addr w last <= i -> bit w m' i = bit w m i).
Proof. exact shift_right_hwy_ok. Qed.
Print Assumptions C49_shift_right_strict_partial.

Example C49_shift_right_strict_example :
  let l := [1; 2; 4; 8; 16; 32; 64; 128; 256; 512; 1024; 2048; 4096; 8192; 16384;
            32768; 65536; 131072; 262144; 524288] in
  valid_w 32 /\ vector_fits (Unit 4 24) 32 /\ wf_mem 32 (mem_of l) /\
  good_range 32 (mem_of l) (It 3 5) (It 19 3) /\
  0 < 40 < addr 32 (It 19 3) - addr 32 (It 3 5) /\
  (forall a, ib (It 3 5) - lanes (Unit 4 24) < a < ib (It 3 5) -> mem_of l a <> None) /\
  (ip (It 3 5) <> 0 \/ ip (It 19 3) <> 0 \/ ib (It 19 3) - ib (It 3 5) <> 1 \/
     full_blend_defined Strict17 32) /\
  run 6 (shift_right_hwy Strict17 (Unit 4 24) 32 (It 3 5) (It 19 3) 40) l
    = Ok (It 4 13, [Some 1; Some 2; Some 4; Some 8; Some 16; Some 4096]).
Proof.
  cbv zeta. unfold vector_fits. do 5 (split; [demo|]). split; [|demo].
  cbn [ib lanes]. intros a Ha.
  assert (Hc : a = 0 \/ a = 1 \/ a = 2) by lia.
  destruct Hc as [->|[->| ->]]; discriminate.
Qed.

(** C49, shift counts out of range. *)
Theorem C49_no_shift : forall p h w m first last n,
  valid_w w -> good_range w m first last ->
  (n <= 0 -> shift_left_hwy p h w first last n m = Ok (last, m) /\
             shift_right_hwy p h w first last n m = Ok (first, m)) /\
  (0 < n -> addr w last - addr w first <= n ->
     shift_left_hwy p h w first last n m = Ok (first, m) /\
     shift_right_hwy p h w first last n m = Ok (last, m)).
Proof. exact shifts_hwy_none. Qed.
Print Assumptions C49_no_shift.

Example C49_no_shift_example :
  valid_w 32 /\ good_range 32 (mem_of [5; 6]) (It 0 3) (It 1 4) /\
  run 2 (shift_left_hwy Strict17 (Unit 4 0) 32 (It 0 3) (It 1 4) 33) [5; 6]
    = Ok (It 0 3, [Some 5; Some 6]) /\
  run 2 (shift_right_hwy Strict17 (Unit 4 0) 32 (It 0 3) (It 1 4) (-2)) [5; 6]
    = Ok (It 0 3, [Some 5; Some 6]).
Proof. demo. Qed.

(** What is missing in C49_shift_right_strict_partial: a range at the beginning
    of an array is shifted by the plain build without undefined behaviour, but
    the vector build forms a pointer in front of the array. *)
Theorem C49_shift_right_pointer_refuted : exists h w l first last n,
  valid_w w /\ vector_fits h w /\ wf_mem w (mem_of l) /\
  good_range w (mem_of l) first last /\ 0 < n < addr w last - addr w first /\
  run 4 (shift_right Strict20 w first last n) l
    = Ok (It 0 3, [Some 27; Some 215; Some 42; Some 141]) /\
  shift_right_hwy Strict20 h w first last n (mem_of l) = UB OutOfBounds.
Proof.
  exists (Unit 16 0), 8, [227; 90; 165; 17], (It 0 0), (It 4 0), 3.
  unfold vector_fits. demo.
Qed.
Print Assumptions C49_shift_right_pointer_refuted.

(** The condition on the length of the vectors is needed: with vectors of 128
    bytes the code aligns to 64 bytes and then stores a vector where it need
    not be aligned, on every machine. *)
Theorem C49_long_vectors_refuted : exists h w l first last b,
  valid_w w /\ lanes h = 16 /\ wf_mem w (mem_of l) /\
  good_range w (mem_of l) first last /\
  run 1 (fill Strict17 w first last b) l = Ok (tt, [Some (2 ^ 64 - 1)]) /\
  (forall o, fill_hwy (Hw o) h w first last b (mem_of l) = UB BadUse).
Proof.
  exists (Unit 16 64), 64, (repeat 0 20), (It 0 0), (It 20 0), true.
  do 5 (split; [demo|]). intros o. vm_compute. reflexivity.
Qed.
Print Assumptions C49_long_vectors_refuted.

(** The condition on the destination is needed: when the destination begins
    inside the source the two builds write different bits. *)
Theorem C49_transform_overlap_refuted : exists h w l first last d,
  valid_w w /\ vector_fits h w /\ wf_mem w (mem_of l) /\
  good_range w (mem_of l) first last /\
  good_dest w (mem_of l) d (addr w last - addr w first) /\
  addr w first < addr w d < addr w last /\
  run 6 (transform1 Strict20 w (op_not w) first last d) l
    = Ok (It 6 0, [Some 0; Some 255; Some 0; Some 255; Some 0; Some 255]) /\
  run 6 (transform_not_hwy Strict20 h w first last d) l
    = Ok (It 6 0, [Some 0; Some 255; Some 255; Some 255; Some 255; Some 0]).
Proof.
  exists (Unit 4 0), 8, [0; 0; 0; 0; 0; 0], (It 0 0), (It 5 0), (It 1 0).
  unfold vector_fits. demo.
Qed.
Print Assumptions C49_transform_overlap_refuted.
