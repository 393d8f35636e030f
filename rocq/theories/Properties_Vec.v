(** Properties C32 to C39: bit_vector. *)
From Coq Require Import ZArith Bool List Lia.
From Verif Require Import Base WordOps IterModel RefModel Spec VecModel SpecVec Demo
  ProofBase ProofVec ProofVec2 ProofVec3 ProofVec4.
Import ListNotations.
Open Scope Z_scope.

(** C32. Every history of calls that respects the preconditions runs without an
    error, shows the client what the same calls on a list of bits show, and leaves
    a vector with the bits of that list. *)
Theorem C32_history : forall p w os v, valid_w w -> vec_ok w v ->
  vpre_all p w (vbits w v) os ->
  exists v', vrun p w v os = Ok (fst (vspec_run w (vbits w v) os), v') /\
    vec_ok w v' /\ vbits w v' = snd (vspec_run w (vbits w v) os).
Proof. exact vrun_ok. Qed.
Print Assumptions C32_history.

Example C32_history_example :
  let os := [OpPush true; OpPush false; OpInsertN 1 9 true;
    OpInsertRange 3 [178; 77] 5 12; OpErase 2; OpEraseRange 4 9; OpInsert 5 false;
    OpSet 0 false; OpSetAt 100 true; OpAt 3; OpAt 13; OpBack; OpFront; OpPop;
    OpResize 9; OpSize; OpEmpty; OpGet 8; OpReserve 1000; OpShrinkToFit] in
  valid_w 8 /\ vec_ok 8 ctor_default /\ vpre_all Strict17 8 [] os /\
  vrun Strict17 8 ctor_default os =
    Ok ([ONone; ONone; OIdx 1; OIdx 3; OIdx 2; OIdx 4; OIdx 5; ONone; OThrow;
         OBit false; OThrow; OBit false; OBit false; ONone; ONone; ONum 9;
         OBit false; OBit true; ONone; ONone], BV [214; 239] 9) /\
  vbits 8 (BV [214; 239] 9) =
    [false; true; true; false; true; false; true; true; true].
Proof.
  cbv zeta. split; [unfold valid_w; lia|].
  split; [unfold vec_ok, words_ok, max_bits; cbn; split; [constructor|lia]|].
  split; [|split; reflexivity].
  unfold vpre_all, vpre, words_ok, shift_defined, zlen, max_bits; cbn.
  repeat split; try lia; try discriminate; repeat constructor; lia.
Qed.

(** C32 as written does not ask for [shift_defined]; without it the histories are
    not covered by the C++ rules: seven push_back and an insert at the front. *)
Theorem C32_language_rules_refuted : exists w os,
  valid_w w /\ Forall (fun o => match o with OpPush _ | OpInsert _ _ => True | _ => False end) os /\
  (forall o, vpre_all (Hw o) w [] os) /\
  vrun Strict17 w ctor_default os = UB NegShift.
Proof.
  exists 8, (map OpPush [true; false; true; true; false; false; true] ++ [OpInsert 0 true]).
  split; [unfold valid_w; lia|]. split; [repeat constructor|]. split; [|vm_compute; reflexivity].
  intros o. unfold vpre_all, vpre, shift_defined, full_blend_defined, zlen, max_bits; cbn.
  repeat split; try lia.
Qed.
Print Assumptions C32_language_rules_refuted.

(** The general case: insert(begin(), b) on any vector of digits - 1 bits. *)
Theorem C32_insert_front_undefined : forall p w v b, valid_w w -> vec_ok w v ->
  vlen v = w - 1 -> ~ full_blend_defined p w ->
  exists k, insert1 p w v vbegin b = UB k /\ (k = OverShift \/ k = NegShift).
Proof. exact insert1_undefined. Qed.
Print Assumptions C32_insert_front_undefined.

Example C32_insert_front_undefined_example :
  valid_w 64 /\ vec_ok 64 (BV [77] 63) /\ vlen (BV [77] 63) = 64 - 1 /\
  ~ full_blend_defined Strict20 64 /\ insert1 Strict20 64 (BV [77] 63) vbegin true = UB OverShift /\
  insert1 Strict20 64 (BV [77] 62) vbegin true = Ok (vbegin, BV [155] 63).
Proof.
  split; [unfold valid_w; lia|].
  split; [unfold vec_ok, words_ok, max_bits; cbn; repeat constructor; lia|].
  split; [reflexivity|]. split; [|split; vm_compute; reflexivity].
  unfold full_blend_defined. intuition discriminate.
Qed.

(** C33. *)
Theorem C33_at : forall p w v pos b, valid_w w -> vec_ok w v -> 0 <= pos < 2 ^ 64 ->
  (pos < vlen v -> vat p w v pos = Ok (get_at pos (vbits w v)) /\
     exists v', vat_set p w v pos b = Ok v' /\ vec_ok w v' /\
       vbits w v' = set_at pos b (vbits w v)) /\
  (vlen v <= pos -> vat p w v pos = Throw /\ vat_set p w v pos b = Throw).
Proof. exact at_ok. Qed.
Print Assumptions C33_at.

Example C33_at_example :
  valid_w 8 /\ vec_ok 8 (BV [178; 255] 11) /\ vlen (BV [178; 255] 11) = 11 /\
  vat Strict17 8 (BV [178; 255] 11) 6 = Ok false /\
  vat_set Strict17 8 (BV [178; 255] 11) 10 false = Ok (BV [178; 251] 11) /\
  vat Strict17 8 (BV [178; 255] 11) 11 = Throw /\
  vat Strict17 8 (BV [178; 255] 11) (2 ^ 64 - 1) = Throw.
Proof.
  split; [unfold valid_w; lia|].
  split; [unfold vec_ok, words_ok, max_bits; cbn; repeat constructor; lia|].
  vm_compute. repeat split.
Qed.

(** C34 is false: pop_back leaves the bit in the word, and resize shows it
    again. *)
Theorem C34_resize_grow_refuted : exists w v os n,
  valid_w w /\ vrun Strict17 w ctor_default os = Ok ([ONone; ONone; ONone], v) /\
  vec_ok w v /\ vbits w v = [true] /\ n = 2 /\
  vbits w (resize w v n) = [true; true] /\ vbits w (resize w v n) <> vbits w v ++ [false].
Proof.
  exists 8, (BV [3] 1), [OpPush true; OpPush true; OpPop], 2. split; [unfold valid_w; lia|].
  split; [vm_compute; reflexivity|].
  split; [unfold vec_ok, words_ok, max_bits; cbn; repeat constructor; lia|].
  split; [reflexivity|]. split; [reflexivity|]. split; [reflexivity|]. discriminate.
Qed.
Print Assumptions C34_resize_grow_refuted.

(** What resize does: it shows the first [n] bits of the storage, followed by
    zeros. *)
Theorem C34_resize_exact : forall w v n, valid_w w -> vec_ok w v -> 0 <= n < 2 ^ 32 ->
  vec_ok w (resize w v n) /\
  vbits w (resize w v n) =
    firstn (Z.to_nat n) (list_bits w (vwords v) ++ repeat false (Z.to_nat n)).
Proof. exact resize_exact. Qed.
Print Assumptions C34_resize_exact.

Example C34_resize_exact_example :
  valid_w 8 /\ vec_ok 8 (BV [178; 7] 9) /\
  resize 8 (BV [178; 7] 9) 20 = BV [178; 7; 0] 20 /\
  vbits 8 (resize 8 (BV [178; 7] 9) 12) =
    [false; true; false; false; true; true; false; true; true; true; true; false].
Proof.
  split; [unfold valid_w; lia|].
  split; [unfold vec_ok, words_ok, max_bits; cbn; repeat constructor; lia|].
  vm_compute. repeat split.
Qed.

(** C34 for vectors whose storage beyond size() is zero; the general statement is
    refuted above. *)
Theorem C34_resize_grow_partial : forall w v n, valid_w w -> vec_ok w v -> vlen v <= n < 2 ^ 32 ->
  skipn (Z.to_nat (vlen v)) (list_bits w (vwords v)) =
    repeat false (length (vwords v) * Z.to_nat w - Z.to_nat (vlen v)) ->
  vbits w (resize w v n) = vbits w v ++ repeat false (Z.to_nat (n - vlen v)).
Proof. exact resize_clean. Qed.
Print Assumptions C34_resize_grow_partial.

Example C34_resize_grow_partial_example :
  valid_w 8 /\ vec_ok 8 (BV [178; 1; 0] 9) /\
  skipn 9 (list_bits 8 [178; 1; 0]) = repeat false (3 * 8 - 9) /\
  vbits 8 (resize 8 (BV [178; 1; 0] 9) 30) = vbits 8 (BV [178; 1] 9) ++ repeat false 21.
Proof.
  split; [unfold valid_w; lia|].
  split; [unfold vec_ok, words_ok, max_bits; cbn; repeat constructor; lia|].
  vm_compute. repeat split.
Qed.

(** C35 is false: three ones appended to an empty vector are zeros. *)
Theorem C35_resize_value_refuted : exists p w n v',
  valid_w w /\ resize_val p w ctor_default n true = Ok v' /\ n = 3 /\
  vbits w v' = [false; false; false].
Proof.
  exists Strict17, 8, 3, (BV [0] 3). split; [unfold valid_w; lia|].
  split; [vm_compute; reflexivity|]. split; reflexivity.
Qed.
Print Assumptions C35_resize_value_refuted.

(** The value never has any effect. *)
Theorem C35_value_ignored : forall p w v n b, valid_w w -> 0 <= n <= max_bits ->
  resize_val p w v n b = Ok (resize w v n).
Proof. exact resize_val_ignored. Qed.
Print Assumptions C35_value_ignored.

Example C35_value_ignored_example :
  valid_w 8 /\ 0 <= 12 <= max_bits /\
  resize_val Strict17 8 (BV [5] 3) 12 true = Ok (BV [5; 0] 12) /\
  resize 8 (BV [5] 3) 12 = BV [5; 0] 12.
Proof.
  split; [unfold valid_w; lia|]. split; [unfold max_bits; lia|]. vm_compute. repeat split.
Qed.

(** C36: the words suffice exactly for the counts below 2^32. *)
Theorem C36_word_count : forall w n, valid_w w -> 0 <= n < 2 ^ 64 ->
  (n <= word_count w n * w <-> n < 2 ^ 32).
Proof. exact word_count_iff. Qed.
Print Assumptions C36_word_count.

Example C36_word_count_example :
  valid_w 8 /\ word_count 8 17 = 3 /\ word_count 8 (2 ^ 32 - 1) = 2 ^ 29 /\
  word_count 8 (2 ^ 32) = 0.
Proof. split; [unfold valid_w; lia|]. vm_compute. repeat split. Qed.

Theorem C36_word_count_refuted : exists w n,
  valid_w w /\ 0 <= n < 2 ^ 64 /\ word_count w n * w < n.
Proof. exists 64, (2 ^ 32 + 1). split; [unfold valid_w; lia|]. vm_compute. intuition congruence. Qed.
Print Assumptions C36_word_count_refuted.

(** The client sees it: bit_vector(n) claims size n, and reading its last bit is
    out of bounds. *)
Theorem C36_short_storage : forall p w n, valid_w w -> 2 ^ 32 <= n < 2 ^ 62 ->
  vsize (ctor_count w n) = n /\ vget p w (ctor_count w n) (n - 1) = UB OutOfBounds.
Proof. exact count_ctor_short. Qed.
Print Assumptions C36_short_storage.

Example C36_short_storage_example :
  valid_w 8 /\ 2 ^ 32 <= 2 ^ 32 + 20 < 2 ^ 62 /\
  ctor_count 8 (2 ^ 32 + 20) = BV [0; 0; 0] (2 ^ 32 + 20) /\
  vget Strict17 8 (ctor_count 8 (2 ^ 32 + 20)) 23 = Ok false /\
  vget Strict17 8 (ctor_count 8 (2 ^ 32 + 20)) 24 = UB OutOfBounds.
Proof. split; [unfold valid_w; lia|]. vm_compute. intuition congruence. Qed.

(** C37 up to 2^24 bits; beyond, see the refutations. *)
Theorem C37_insert_count_partial : forall p w v pos i c b, valid_w w -> vec_ok w v -> 0 <= c ->
  vlen v + c <= 2 ^ 24 -> valid_it w pos -> addr w pos = i -> 0 <= i <= vlen v ->
  (0 < c -> i < vlen v -> shift_defined p w i (vlen v + c)) ->
  exists r v', insert_n p w v pos c b = Ok (r, v') /\ valid_it w r /\ addr w r = i /\
    vec_ok w v' /\ vsize v' = vlen v + c /\
    vbits w v' = insert_at i (repeat b (Z.to_nat c)) (vbits w v).
Proof. exact insert_n_room. Qed.
Print Assumptions C37_insert_count_partial.

Example C37_insert_count_partial_example :
  valid_w 8 /\ vec_ok 8 (BV [178] 7) /\ valid_it 8 (It 0 3) /\ addr 8 (It 0 3) = 3 /\
  shift_defined Strict17 8 3 (7 + 12) /\
  insert_n Strict17 8 (BV [178] 7) (It 0 3) 12 true = Ok (It 0 3, BV [250; 127; 3] 19).
Proof.
  split; [unfold valid_w; lia|].
  split; [unfold vec_ok, words_ok, max_bits; cbn; repeat constructor; lia|].
  split; [unfold valid_it; cbn; lia|]. split; [reflexivity|].
  split; [left; discriminate|vm_compute; reflexivity].
Qed.

Theorem C37_insert_range_partial : forall p w ext v pos i first last, valid_w w -> vec_ok w v ->
  (forall a, 0 <= a -> ext a = None) ->
  wf_mem w ext -> good_range w ext first last -> addr w last <= 0 ->
  vlen v + (addr w last - addr w first) <= 2 ^ 24 ->
  valid_it w pos -> addr w pos = i -> 0 <= i <= vlen v ->
  (addr w first < addr w last -> i < vlen v ->
     shift_defined p w i (vlen v + (addr w last - addr w first))) ->
  exists r v' ext', insert_range p w ext v pos first last = Ok (r, v', ext') /\
    valid_it w r /\ addr w r = i /\ (forall a, ext' a = ext a) /\ vec_ok w v' /\
    vbits w v' = insert_at i (map (fun k => bit w ext (addr w first + Z.of_nat k))
      (seq 0 (Z.to_nat (addr w last - addr w first)))) (vbits w v).
Proof. exact insert_range_room. Qed.
Print Assumptions C37_insert_range_partial.

Example C37_insert_range_partial_example :
  let v := BV [178] 7 in
  valid_w 8 /\ vec_ok 8 v /\ (forall a, 0 <= a -> ext_mem [178; 77] a = None) /\
  wf_mem 8 (ext_mem [178; 77]) /\ good_range 8 (ext_mem [178; 77]) (It (-66) 5) (It (-65) 4) /\
  addr 8 (It (-65) 4) <= 0 /\ addr 8 (It (-65) 4) - addr 8 (It (-66) 5) = 7 /\
  match insert_range Strict17 8 (ext_mem [178; 77]) v (It 0 3) (It (-66) 5) (It (-65) 4) with
  | Ok (r, v', _) => r = It 0 3 /\ v' = BV [106; 27] 14
  | _ => False
  end.
Proof.
  cbv zeta. split; [unfold valid_w; lia|].
  split; [unfold vec_ok, words_ok, max_bits; cbn; repeat constructor; lia|].
  split; [intros a Ha; apply ext_none; assumption|].
  split; [apply ext_wf; repeat constructor; lia|].
  split; [unfold good_range, valid_it; cbn; repeat split; try lia; apply (ext_mapped 8 [178; 77] 5 12); cbn; lia|].
  split; [cbn; lia|]. split; [reflexivity|]. vm_compute. repeat split.
Qed.

(** C37 is false beyond: one bit added at the end of a full vector of 2^24 bits is
    written past the storage. *)
Theorem C37_insert_refuted : exists w v b,
  valid_w w /\ vec_ok w v /\ vlen v = 2 ^ 24 /\
  forall p, (let? e := vend w v in insert_n p w v e 1 b) = UB OutOfBounds.
Proof.
  exists 64, (BV (repeat 0 (Z.to_nat (2 ^ 18))) (2 ^ 24)), true.
  assert (L : Z.of_nat (length (repeat 0 (Z.to_nat (2 ^ 18)))) * 64 = 2 ^ 24)
    by (rewrite repeat_length, Z2Nat.id by lia; reflexivity).
  split; [unfold valid_w; lia|]. split; [|split; [reflexivity|]].
  - unfold vec_ok, max_bits. cbn [vwords vlen]. rewrite L.
    split; [apply words_ok_zeros; lia|lia].
  - intros p. apply insert_n_oob; [unfold valid_w; lia|symmetry; exact L|cbn [vlen]; lia].
Qed.
Print Assumptions C37_insert_refuted.

(** The general case, for both forms. *)
Theorem C37_full_count : forall p w v, valid_w w -> vlen v = Z.of_nat (length (vwords v)) * w ->
  2 ^ 24 <= vlen v < 2 ^ 27 -> forall b,
  (let? e := vend w v in insert_n p w v e 1 b) = UB OutOfBounds.
Proof. exact insert_n_oob. Qed.
Print Assumptions C37_full_count.

Theorem C37_full_range : forall p w v, valid_w w -> vlen v = Z.of_nat (length (vwords v)) * w ->
  2 ^ 24 <= vlen v < 2 ^ 27 -> forall ext first last, valid_it w first -> valid_it w last ->
  addr w last - addr w first = 1 ->
  (let? e := vend w v in insert_range p w ext v e first last) = UB OutOfBounds.
Proof. exact insert_range_oob. Qed.
Print Assumptions C37_full_range.

Example C37_full_example :
  let v := BV (repeat 0 (Z.to_nat (2 ^ 18))) (2 ^ 24) in
  valid_w 64 /\ vlen v = Z.of_nat (length (vwords v)) * 64 /\ 2 ^ 24 <= vlen v < 2 ^ 27 /\
  valid_it 64 (It (-3) 63) /\ valid_it 64 (It (-2) 0) /\
  addr 64 (It (-2) 0) - addr 64 (It (-3) 63) = 1.
Proof.
  cbv zeta. cbn [vlen vwords]. rewrite repeat_length, Z2Nat.id by lia.
  split; [unfold valid_w; lia|]. split; [reflexivity|]. split; [lia|].
  unfold valid_it. cbn. lia.
Qed.

(** C38. Characters are their codes: 48 and 49 are the digits, 32 a space, 46 a
    dot. *)
Theorem C38_from_string : forall p w s, valid_w w -> zlen (string_bits s) * w <= max_bits ->
  exists v, ctor_string p w s = Ok v /\ vec_ok w v /\ vbits w v = string_bits s.
Proof. exact ctor_string_ok. Qed.
Print Assumptions C38_from_string.

Example C38_from_string_example :
  valid_w 8 /\ zlen (string_bits [49; 48; 95; 49; 32; 49]) * 8 <= max_bits /\
  ctor_string Strict17 8 [49; 48; 95; 49; 32; 49] = Ok (BV [13; 0; 0; 0] 4) /\
  string_bits [49; 48; 95; 49; 32; 49] = [true; false; true; true].
Proof. split; [unfold valid_w; lia|]. vm_compute. intuition congruence. Qed.

Theorem C38_debug_string : forall p w v, valid_w w -> vec_ok w v -> vlen v < 2 ^ 31 ->
  debug_string p w v = Ok (bits_text w 0 (vbits w v)).
Proof. exact debug_string_ok. Qed.
Print Assumptions C38_debug_string.

Example C38_debug_string_example :
  valid_w 16 /\ vec_ok 16 (BV [46051; 205] 25) /\ vlen (BV [46051; 205] 25) < 2 ^ 31 /\
  debug_string Strict17 16 (BV [46051; 205] 25) =
    Ok [49; 49; 48; 48; 48; 49; 49; 49; 46; 49; 49; 48; 48; 49; 49; 48; 49;
        32; 49; 48; 49; 49; 48; 48; 49; 49; 46; 48].
Proof.
  split; [unfold valid_w; lia|].
  split; [unfold vec_ok, words_ok, max_bits; cbn; repeat constructor; lia|].
  vm_compute. intuition congruence.
Qed.

(** Only digits, spaces and dots; the digits are the bits. *)
Theorem C38_text : forall w l i,
  string_bits (bits_text w i l) = l /\
  forall c, In c (bits_text w i l) -> c = 48 \/ c = 49 \/ c = 32 \/ c = 46.
Proof. exact (fun w l i => conj (text_bits w l i) (text_chars w l i)). Qed.
Print Assumptions C38_text.

Example C38_text_example : bits_text 8 6 [true; false; true; true] = [49; 48; 32; 49; 49].
Proof. reflexivity. Qed.

Theorem C38_round_trip : forall p w v, valid_w w -> vec_ok w v -> vlen v < 2 ^ 31 ->
  exists s v', debug_string p w v = Ok s /\ ctor_string p w s = Ok v' /\ vec_ok w v' /\
    vbits w v' = vbits w v.
Proof. exact round_trip. Qed.
Print Assumptions C38_round_trip.

Example C38_round_trip_example :
  vec_ok 8 (BV [178; 255] 11) /\
  (let? s := debug_string Strict17 8 (BV [178; 255] 11) in ctor_string Strict17 8 s) =
    Ok (BV [178; 7; 0; 0; 0; 0; 0; 0; 0; 0; 0] 11) /\
  vbits 8 (BV [178; 255] 11) = vbits 8 (BV [178; 7; 0; 0; 0; 0; 0; 0; 0; 0; 0] 11).
Proof.
  split; [unfold vec_ok, words_ok, max_bits; cbn; repeat constructor; lia|].
  split; vm_compute; reflexivity.
Qed.

(** The bound 2^31 cannot be dropped: the int that counts positions overflows. *)
Theorem C38_debug_overflow : forall p w v, valid_w w -> vec_ok w v -> 2 ^ 31 <= vlen v ->
  debug_string p w v = UB SignedOverflow.
Proof. exact debug_string_overflow. Qed.
Print Assumptions C38_debug_overflow.

Example C38_debug_overflow_example :
  let v := BV (repeat 5 (Z.to_nat (2 ^ 26))) (2 ^ 31 + 3) in
  valid_w 64 /\ vec_ok 64 v /\ 2 ^ 31 <= vlen v.
Proof.
  cbv zeta. split; [unfold valid_w; lia|]. cbn [vlen]. split; [|lia].
  unfold vec_ok, max_bits. cbn [vwords vlen]. rewrite repeat_length, Z2Nat.id by lia.
  split; [|lia]. apply Forall_forall. intros x Hx. apply repeat_spec in Hx. subst x. lia.
Qed.

(** C39. *)
Theorem C39_count : forall w n, valid_w w -> 0 <= n < 2 ^ 32 ->
  vec_ok w (ctor_count w n) /\ vbits w (ctor_count w n) = repeat false (Z.to_nat n).
Proof. exact ctor_count_ok. Qed.
Print Assumptions C39_count.

Theorem C39_fill : forall w n b, valid_w w -> 0 <= n < 2 ^ 32 ->
  vec_ok w (ctor_fill w n b) /\ vbits w (ctor_fill w n b) = repeat b (Z.to_nat n).
Proof. exact ctor_fill_ok. Qed.
Print Assumptions C39_fill.

Example C39_fill_example :
  valid_w 8 /\ 0 <= 13 < 2 ^ 32 /\ ctor_fill 8 13 true = BV [255; 255] 13 /\
  ctor_count 8 13 = BV [0; 0] 13 /\ vbits 8 (BV [255; 255] 13) = repeat true 13.
Proof. split; [unfold valid_w; lia|]. vm_compute. intuition congruence. Qed.

Theorem C39_bit_range : forall p w ext first last, valid_w w -> (forall a, 0 <= a -> ext a = None) ->
  wf_mem w ext -> good_range w ext first last -> addr w last <= 0 ->
  (addr w last - addr w first) * w <= max_bits ->
  exists v ext', ctor_bits p w ext first last = Ok (v, ext') /\
    (forall a, ext' a = ext a) /\ vec_ok w v /\
    vbits w v = map (fun k => bit w ext (addr w first + Z.of_nat k))
      (seq 0 (Z.to_nat (addr w last - addr w first))).
Proof. exact ctor_bits_ok. Qed.
Print Assumptions C39_bit_range.

Example C39_bit_range_example :
  valid_w 8 /\ (forall a, 0 <= a -> ext_mem [178; 77] a = None) /\
  wf_mem 8 (ext_mem [178; 77]) /\ good_range 8 (ext_mem [178; 77]) (It (-66) 5) (It (-65) 4) /\
  addr 8 (It (-65) 4) <= 0 /\
  match ctor_bits Strict17 8 (ext_mem [178; 77]) (It (-66) 5) (It (-65) 4) with
  | Ok (v, _) => v = BV [109; 0; 0; 0; 0; 0; 0] 7
  | _ => False
  end.
Proof.
  split; [unfold valid_w; lia|].
  split; [intros a Ha; apply ext_none; assumption|].
  split; [apply ext_wf; repeat constructor; lia|].
  split; [unfold good_range, valid_it; cbn; repeat split; try lia; apply (ext_mapped 8 [178; 77] 5 12); cbn; lia|].
  split; [cbn; lia|]. vm_compute. reflexivity.
Qed.

Theorem C39_bool_range : forall p w bs, valid_w w -> zlen bs * w <= max_bits ->
  exists v, ctor_bools p w bs = Ok v /\ vec_ok w v /\ vbits w v = bs.
Proof. exact ctor_bools_ok. Qed.
Print Assumptions C39_bool_range.

Theorem C39_initializer_list : forall p w bs, valid_w w -> zlen bs + w <= max_bits ->
  exists v, ctor_init p w bs = Ok v /\ vec_ok w v /\ vbits w v = bs.
Proof. exact ctor_init_ok. Qed.
Print Assumptions C39_initializer_list.

Example C39_lists_example :
  valid_w 8 /\ zlen [true; false; true] * 8 <= max_bits /\
  zlen [true; false; true] + 8 <= max_bits /\
  ctor_bools Strict17 8 [true; false; true] = Ok (BV [5; 0; 0] 3) /\
  ctor_init Strict17 8 [true; false; true] = Ok (BV [5] 3).
Proof. split; [unfold valid_w; lia|]. vm_compute. intuition congruence. Qed.

Theorem C39_word_range : forall w ws, valid_w w -> words_ok w ws -> zlen ws * w <= max_bits ->
  vec_ok w (ctor_words w ws) /\ vbits w (ctor_words w ws) = list_bits w ws.
Proof. exact ctor_words_ok. Qed.
Print Assumptions C39_word_range.

Example C39_word_range_example :
  valid_w 8 /\ words_ok 8 [178; 1] /\ zlen [178; 1] * 8 <= max_bits /\
  vbits 8 (ctor_words 8 [178; 1]) =
    [false; true; false; false; true; true; false; true;
     true; false; false; false; false; false; false; false].
Proof.
  split; [unfold valid_w; lia|]. split; [repeat constructor; lia|].
  vm_compute. intuition congruence.
Qed.

Theorem C39_copy_move : forall w v, vec_ok w v ->
  (vec_ok w (ctor_copy v) /\ vbits w (ctor_copy v) = vbits w v) /\
  (vec_ok w (fst (move_assign v)) /\ vbits w (fst (move_assign v)) = vbits w v) /\
  vsize (snd (move_assign v)) = 0 /\ vbits w (snd (move_assign v)) = [].
Proof. exact copy_move_ok. Qed.
Print Assumptions C39_copy_move.

Example C39_copy_move_example :
  vec_ok 8 (BV [178; 1] 11) /\ ctor_copy (BV [178; 1] 11) = BV [178; 1] 11 /\
  move_assign (BV [178; 1] 11) = (BV [178; 1] 11, ctor_default).
Proof.
  split; [unfold vec_ok, words_ok, max_bits; cbn; repeat constructor; lia|].
  split; reflexivity.
Qed.
