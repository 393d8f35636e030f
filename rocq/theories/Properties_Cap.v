(** Property C56: the capacity of bit_vector and iterators held across calls. *)
From Coq Require Import ZArith Bool List Lia.
From Verif Require Import Base WordOps IterModel RefModel Spec VecModel CapModel SpecVec SpecCap
  ProofVec2 ProofCap.
Import ListNotations.
Open Scope Z_scope.

(** C56. Whatever a conforming std::vector chooses, a history of calls shows what
    C32 says and size() never exceeds capacity(). *)
Theorem C56_capacity : forall g p w os c, valid_w w -> growth_ok w g -> cap_ok w c ->
  vpre_all p w (vbits w (fst c)) os ->
  exists c', crun g p w c os = Ok (fst (vspec_run w (vbits w (fst c)) os), c') /\
    cap_ok w c' /\ vbits w (fst c') = snd (vspec_run w (vbits w (fst c)) os) /\
    vsize (fst c') <= vcapacity w (snd c').
Proof. exact capacity_ok. Qed.
Print Assumptions C56_capacity.

(** The growth of libstdc++: push_back doubles, reserve is exact. *)
Example C56_capacity_example :
  let g := Growth (fun c => Z.max 1 (2 * c)) (fun s c n => n) true in
  let os := map OpPush [true; false; true; true; false; true; true; false; true]
    ++ [OpInsertN 3 9 false; OpReserve 100; OpErase 0; OpShrinkToFit; OpPush true] in
  valid_w 8 /\ growth_ok 8 g /\ cap_ok 8 (ctor_default, Buf 0 0) /\ vpre_all Strict17 8 [] os /\
  crun g Strict17 8 (ctor_default, Buf 0 0) os =
    Ok (repeat ONone 9 ++ [OIdx 3; ONone; OIdx 0; ONone; ONone], (BV [2; 104; 3] 18, Buf 3 5)) /\
  vcapacity 8 (Buf 3 5) = 24.
Proof.
  cbv zeta. split; [unfold valid_w; lia|].
  split; [split; cbn [g_push g_other]; unfold max_bits; intros; lia|].
  split; [unfold cap_ok, vec_ok, words_ok, max_bits, zlen; cbn; repeat split; try constructor; lia|].
  split; [|split; vm_compute; reflexivity].
  unfold vpre_all, vpre, words_ok, shift_defined, zlen, max_bits; cbn.
  repeat split; try lia; try discriminate; try (right; left; discriminate); repeat constructor; lia.
Qed.

(** After reserve(n), n < 2^32, there is room for n bits; the bits are those of
    before; the buffer is kept if it was large enough; and it stays in place through
    every history that stays within n bits. *)
Theorem C56_reserve_partial : forall g p w c n os,
  valid_w w -> growth_ok w g -> cap_ok w c -> 0 <= n < 2 ^ 32 ->
  vpre_all p w (vbits w (fst c)) os -> stays_within w n (vbits w (fst c)) os ->
  exists b v', cstep g p w c (OpReserve n) = Ok (ONone, (fst c, b)) /\
    n <= vcapacity w b /\ vcapacity w (snd c) <= vcapacity w b /\
    (n <= vcapacity w (snd c) -> b = snd c) /\
    crun g p w (fst c, b) os = Ok (fst (vspec_run w (vbits w (fst c)) os), (v', b)) /\
    vbits w v' = snd (vspec_run w (vbits w (fst c)) os).
Proof. exact reserve_ok. Qed.
Print Assumptions C56_reserve_partial.

Example C56_reserve_partial_example :
  let g := Growth (fun c => Z.max 1 (2 * c)) (fun s c n => n) true in
  let os := map OpPush (repeat true 20) ++ [OpInsertN 3 9 false; OpEraseRange 0 20; OpPush true] in
  valid_w 8 /\ growth_ok 8 g /\ cap_ok 8 (ctor_default, Buf 0 0) /\ vpre_all Strict17 8 [] os /\
  stays_within 8 29 [] os /\
  crun g Strict17 8 (ctor_default, Buf 0 0) (OpReserve 29 :: os) =
    Ok (repeat ONone 21 ++ [OIdx 3; OIdx 0; ONone], (BV [255; 243] 10, Buf 4 1)).
Proof.
  cbv zeta. split; [unfold valid_w; lia|].
  split; [split; cbn [g_push g_other]; unfold max_bits; intros; lia|].
  split; [unfold cap_ok, vec_ok, words_ok, max_bits, zlen; cbn; repeat split; try constructor; lia|].
  split; [|split; [|vm_compute; reflexivity]].
  - unfold vpre_all, vpre, words_ok, shift_defined, zlen, max_bits; cbn.
    repeat split; try lia; try discriminate; try (right; left; discriminate); repeat constructor; lia.
  - vm_compute; repeat split; discriminate.
Qed.

(** From 2^32 bits on, reserve keeps the buffer whenever n modulo 2^32 fits. *)
Theorem C56_reserve_truncates : forall g p w c n, valid_w w -> cap_ok w c -> 2 ^ 32 <= n ->
  n mod 2 ^ 32 <= vcapacity w (snd c) ->
  cstep g p w c (OpReserve n) = Ok (ONone, c).
Proof. exact reserve_large. Qed.
Print Assumptions C56_reserve_truncates.

Example C56_reserve_truncates_example :
  valid_w 64 /\ cap_ok 64 (BV [77] 50, Buf 2 0) /\ 2 ^ 32 <= 2 ^ 34 + 128 /\
  (2 ^ 34 + 128) mod 2 ^ 32 <= vcapacity 64 (Buf 2 0).
Proof.
  split; [unfold valid_w; lia|]. split; [|vm_compute; intuition discriminate].
  unfold cap_ok, vec_ok, words_ok, max_bits, zlen; cbn; repeat split; repeat constructor; lia.
Qed.

(** So the claim fails for larger n: reserve(2^32) on an empty vector reserves
    nothing, and an iterator kept across one more push_back dangles, whatever the
    growth. *)
Theorem C56_reserve_refuted : exists w c n, valid_w w /\ cap_ok w c /\ 0 <= n /\
  zlen (vbits w (fst c)) + 1 <= n /\
  forall g p, exists c' c'', cstep g p w c (OpReserve n) = Ok (ONone, c') /\
    vcapacity w (snd c') < n /\
    cstep g p w c' (OpPush true) = Ok (ONone, c'') /\
    held_get p w c'' (hold c' 0) = UB BadUse.
Proof.
  exists 8, (BV [178] 8, Buf 1 0), (2 ^ 32). split; [unfold valid_w; lia|].
  split; [unfold cap_ok, vec_ok, words_ok, max_bits, zlen; cbn; repeat split; repeat constructor; lia|].
  split; [lia|]. split; [vm_compute; discriminate|].
  intros g p. exists (BV [178] 8, Buf 1 0), (BV [178; 1] 9, Buf (g_push g 1) 1).
  split; [reflexivity|]. split; [reflexivity|]. split; destruct p; vm_compute; reflexivity.
Qed.
Print Assumptions C56_reserve_refuted.

(** An iterator begin() + i taken before a history that stays within capacity()
    still designates bit i afterwards: reading gives bit i of the contents, and
    writing sets it. Missing: bulk insertions of 2^24 bits and more, see below. *)
Theorem C56_held_iterator_partial : forall g p w os c n i x,
  valid_w w -> growth_ok w g -> cap_ok w c ->
  vpre_all p w (vbits w (fst c)) os -> n <= vcapacity w (snd c) ->
  stays_within w n (vbits w (fst c)) os ->
  0 <= i < zlen (snd (vspec_run w (vbits w (fst c)) os)) ->
  exists c' c'', crun g p w c os = Ok (fst (vspec_run w (vbits w (fst c)) os), c') /\
    vbits w (fst c') = snd (vspec_run w (vbits w (fst c)) os) /\
    held_get p w c' (hold c i) = Ok (get_at i (snd (vspec_run w (vbits w (fst c)) os))) /\
    held_set p w c' (hold c i) x = Ok c'' /\
    vbits w (fst c'') = set_at i x (snd (vspec_run w (vbits w (fst c)) os)).
Proof. exact held_ok. Qed.
Print Assumptions C56_held_iterator_partial.

Example C56_held_iterator_partial_example :
  let g := Growth (fun c => Z.max 1 (2 * c)) (fun s c n => n) true in
  let c := (BV [178; 1] 9, Buf 3 7) in
  let os := [OpInsertN 3 9 true; OpPop; OpPush false; OpAssign (BV [85; 170; 15] 20); OpErase 2] in
  let c' := (BV [41; 213; 15] 19, Buf 3 7) in
  valid_w 8 /\ growth_ok 8 g /\ cap_ok 8 c /\ vpre_all Strict17 8 (vbits 8 (fst c)) os /\
  24 <= vcapacity 8 (snd c) /\ stays_within 8 24 (vbits 8 (fst c)) os /\
  crun g Strict17 8 c os = Ok ([OIdx 3; ONone; ONone; ONone; OIdx 2], c') /\
  held_get Strict17 8 c' (hold c 9) = Ok false /\ held_get Strict17 8 c' (hold c 18) = Ok true /\
  held_set Strict17 8 c' (hold c 9) true = Ok (BV [41; 215; 15] 19, Buf 3 7).
Proof.
  cbv zeta. split; [unfold valid_w; lia|].
  split; [split; cbn [g_push g_other]; unfold max_bits; intros; lia|].
  split; [unfold cap_ok, vec_ok, words_ok, max_bits, zlen; cbn; repeat split; repeat constructor; lia|].
  split.
  - unfold vpre_all, vpre, vec_ok, words_ok, shift_defined, zlen, max_bits; cbn.
    repeat split; try lia; try discriminate; try (right; left; discriminate); repeat constructor; lia.
  - split; [vm_compute; discriminate|].
    split; [vm_compute; repeat split; discriminate|].
    split; [vm_compute; reflexivity|]. split; [vm_compute; reflexivity|].
    split; vm_compute; reflexivity.
Qed.

(** A bulk insertion that fits into capacity() may still move the storage, since
    the number of words to add is computed in float: a vector of 2^28 + 8 bits with
    capacity for 2^28 + 24, at the end of which 16 bits are inserted. The bits are
    right, but the iterators dangle. *)
Theorem C56_held_iterator_refuted : exists w c i n b, valid_w w /\ cap_ok w c /\
  0 <= i <= zlen (vbits w (fst c)) /\ zlen (vbits w (fst c)) + n <= vcapacity w (snd c) /\
  forall g p, exists x c', cstep g p w c (OpInsertN i n b) = Ok (x, c') /\
    vbits w (fst c') = insert_at i (repeat b (Z.to_nat n)) (vbits w (fst c)) /\
    held_get p w c' (hold c 0) = UB BadUse.
Proof. exact insert_reallocates_exists. Qed.
Print Assumptions C56_held_iterator_refuted.

(** Adding bits one at a time reallocates only logarithmically often: k new buffers
    for a history that stays within n bits have 2^k digits < 4 (n + digits). *)
Theorem C56_reallocations : forall g p w os c n, valid_w w -> growth_ok w g -> doubles g ->
  cap_ok w c -> vpre_all p w (vbits w (fst c)) os -> Forall one_at_a_time os ->
  stays_within w n (vbits w (fst c)) os -> 0 <= n ->
  exists c', crun g p w c os = Ok (fst (vspec_run w (vbits w (fst c)) os), c') /\
    vbits w (fst c') = snd (vspec_run w (vbits w (fst c)) os) /\
    bserial (snd c) <= bserial (snd c') /\
    (bserial (snd c') = bserial (snd c) \/ 2 ^ (bserial (snd c') - bserial (snd c)) * w < 4 * (n + w)).
Proof. exact reallocations. Qed.
Print Assumptions C56_reallocations.

(** 70 bits in words of 8 bits: 9 words, buffers of 1, 2, 4, 8 and 16 words. *)
Example C56_reallocations_example :
  let g := Growth (fun c => Z.max 1 (2 * c)) (fun s c n => n) true in
  let os := map OpPush (repeat true 69) ++ [OpInsert 3 false] in
  valid_w 8 /\ growth_ok 8 g /\ doubles g /\ cap_ok 8 (ctor_default, Buf 0 0) /\
  vpre_all Strict17 8 [] os /\ Forall one_at_a_time os /\ stays_within 8 70 [] os /\
  crun g Strict17 8 (ctor_default, Buf 0 0) os =
    Ok (repeat ONone 69 ++ [OIdx 3], (BV [247; 255; 255; 255; 255; 255; 255; 255; 63] 70, Buf 16 5)) /\
  2 ^ 5 * 8 < 4 * (70 + 8).
Proof.
  cbv zeta. split; [unfold valid_w; lia|].
  split; [split; cbn [g_push g_other]; unfold max_bits; intros; lia|].
  split; [unfold doubles; cbn [g_push]; intros; lia|].
  split; [unfold cap_ok, vec_ok, words_ok, max_bits, zlen; cbn; repeat split; try constructor; lia|].
  split; [|split; [repeat constructor|split; [|split; [vm_compute; reflexivity|lia]]]].
  - unfold vpre_all, vpre, words_ok, shift_defined, zlen, max_bits; cbn. repeat split; lia.
  - vm_compute; repeat split; discriminate.
Qed.
