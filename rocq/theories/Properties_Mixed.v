(** Properties C47 and C48: get_word and write_word when the type of the value is not
    the word type of the range; C71: swap_ranges for two word types. Only theorems, each closed by a lemma, with an example
    beside it. *)
From Coq Require Import ZArith Bool List Lia.
From Verif Require Import Base WordOps IterModel AlgModel SwapModel MixedModel Spec Demo ProofMixed.
Import ListNotations.
Open Scope Z_scope.

(** C47: [len] bits, up to the digits [t] of the type read into, arrive in order. With
    assertions enabled (no NDEBUG) the length is limited to the digits [w] of a word of
    the range; see C47_wide_asserts. *)
Theorem C47_get_word_as_partial : forall ndebug p t w m first len,
  valid_w t -> valid_w w -> wf_mem w m -> valid_it w first -> 1 <= len <= t ->
  (ndebug = true \/ len <= w) ->
  mapped w m (addr w first) (addr w first + len) ->
  exists v, get_word_as ndebug p t w first len m = Ok (v, m) /\ 0 <= v < 2 ^ t /\
    forall k, 0 <= k < len -> Z.testbit v k = bit w m (addr w first + k).
Proof. exact get_word_as_ok. Qed.
Print Assumptions C47_get_word_as_partial.

Example C47_get_word_as_example :
  let m := mem_of [227; 90; 165; 17] in
  valid_w 32 /\ valid_w 8 /\ wf_mem 8 m /\ valid_it 8 (It 0 5) /\ 1 <= 22 <= 32 /\
  mapped 8 m (addr 8 (It 0 5)) (addr 8 (It 0 5) + 22) /\
  run 4 (get_word_as true Strict17 32 8 (It 0 5) 22) [227; 90; 165; 17]
    = Ok (862935, [Some 227; Some 90; Some 165; Some 17]) /\
  run 4 (get_word_as false Strict17 32 8 (It 0 5) 7) [227; 90; 165; 17]
    = Ok (87, [Some 227; Some 90; Some 165; Some 17]).
Proof. cbv zeta. demo. Qed.

(** C47 is false with assertions enabled: every read of more bits than a word of the
    range has aborts, the default length of a wider type among them. *)
Theorem C47_wide_asserts : forall p t w m first len, w < len ->
  get_word_as false p t w first len m = Assert.
Proof. exact get_word_as_assert. Qed.
Print Assumptions C47_wide_asserts.

Example C47_wide_asserts_example : 8 < 16. Proof. lia. Qed.

Theorem C47_get_word_as_refuted : exists p t w m first,
  valid_w t /\ valid_w w /\ wf_mem w m /\ valid_it w first /\
  mapped w m (addr w first) (addr w first + t) /\
  get_word_as false p t w first t m = Assert.
Proof.
  exists Strict17, 16, 8, (mem_of [227; 90; 165]), (It 0 3).
  split; [demo|]. split; [demo|]. split; [demo|]. split; [demo|]. split; [demo|].
  vm_compute. reflexivity.
Qed.
Print Assumptions C47_get_word_as_refuted.

(** C48: what a source narrower than the words of the range ([s] < [w] digits) leaves
    behind, on any machine: the bits are written, but in the words touched every bit
    from place [s] on is set to 0, bits of the field included. *)
Theorem C48_narrow_source_effect : forall o s w m src dst len,
  valid_w s -> valid_w w -> s < w -> wf_mem w m -> valid_it w dst ->
  1 <= len <= s -> 0 <= src < 2 ^ s -> mapped w m (addr w dst) (addr w dst + len) ->
  exists m', write_word_as (Hw o) s w src dst len m = Ok (tt, m') /\
    updated w m m' (ib dst * w) (ib dst * w + (if w <? ip dst + len then 2 * w else w))
      (fun i => (i mod w <? s) &&
         (if inr (addr w dst) (addr w dst + len) i then Z.testbit src (i - addr w dst)
          else bit w m i)).
Proof. exact write_word_as_hw. Qed.
Print Assumptions C48_narrow_source_effect.

Example C48_narrow_source_effect_example :
  let m := mem_of [65535; 65535] in
  valid_w 8 /\ valid_w 16 /\ 8 < 16 /\ wf_mem 16 m /\ valid_it 16 (It 0 13) /\ 1 <= 6 <= 8 /\
  0 <= 21 < 2 ^ 8 /\ mapped 16 m (addr 16 (It 0 13)) (addr 16 (It 0 13) + 6) /\
  run 2 (write_word_as (Hw (fun _ _ _ => 3)) 8 16 21 (It 0 13) 6) [65535; 65535]
    = Ok (tt, [Some 255; Some 250]).
Proof. cbv zeta. demo. Qed.

(** The same under the C++ rules, for a field below place [s] of its word, whose upper
    bits are then the only ones lost. C48 holds for it if those were 0. Missing: the
    other fields. *)
Theorem C48_narrow_source_partial : forall p s w m src dst len,
  valid_w s -> valid_w w -> s < w -> wf_mem w m -> valid_it w dst ->
  1 <= len -> ip dst + len <= s -> (len < s \/ full_blend_defined p s) ->
  0 <= src < 2 ^ s -> m (ib dst) <> None ->
  exists m', write_word_as p s w src dst len m = Ok (tt, m') /\
    updated w m m' (ib dst * w) (ib dst * w + w)
      (fun i => if inr (addr w dst) (addr w dst + len) i then Z.testbit src (i - addr w dst)
                else (i <? ib dst * w + s) && bit w m i).
Proof. exact write_word_as_ok. Qed.
Print Assumptions C48_narrow_source_partial.

Example C48_narrow_source_example :
  let m := mem_of [65535; 65535] in
  valid_w 8 /\ valid_w 16 /\ 8 < 16 /\ wf_mem 16 m /\ valid_it 16 (It 0 2) /\ 1 <= 4 /\
  ip (It 0 2) + 4 <= 8 /\ (4 < 8 \/ full_blend_defined Strict17 8) /\ 0 <= 5 < 2 ^ 8 /\
  m (ib (It 0 2)) <> None /\
  run 2 (write_word_as Strict17 8 16 5 (It 0 2) 4) [65535; 65535]
    = Ok (tt, [Some 215; Some 65535]).
Proof. cbv zeta. demo. Qed.

(** C48 as stated is false: a bit outside the field changes. *)
Theorem C48_narrow_source_refuted : exists s w m m' src dst len i,
  valid_w s /\ valid_w w /\ s < w /\ wf_mem w m /\ valid_it w dst /\ 1 <= len <= s /\
  0 <= src < 2 ^ s /\ mapped w m (addr w dst) (addr w dst + len) /\
  write_word_as Strict17 s w src dst len m = Ok (tt, m') /\
  inr (addr w dst) (addr w dst + len) i = false /\ bit w m' i <> bit w m i.
Proof.
  exists 8, 16, (mem_of [65535]), (mset (mem_of [65535]) 0 215), 5, (It 0 2), 4, 12.
  split; [demo|]. split; [demo|]. split; [demo|]. split; [demo|]. split; [demo|].
  split; [demo|]. split; [demo|]. split; [demo|].
  vm_compute. split; [reflexivity|]. split; [reflexivity|discriminate].
Qed.
Print Assumptions C48_narrow_source_refuted.

(** C71: swap_ranges is declared for two different kinds of iterators. When their words
    have different numbers of digits only the empty range is swapped: every other call
    runs off the end of the function. *)
Theorem C71_swap_ranges_partial : forall p w1 w2 m first1 last1 first2,
  valid_w w1 -> w1 <> w2 -> valid_it w1 first1 -> valid_it w1 last1 ->
  0 <= addr w1 last1 - addr w1 first1 <= max_bits ->
  swap_ranges_mixed p w1 w2 first1 last1 first2 m =
    if addr w1 first1 =? addr w1 last1 then Ok (first2, m) else UB BadUse.
Proof. exact mixed_swap. Qed.
Print Assumptions C71_swap_ranges_partial.

Example C71_swap_ranges_example :
  let m := mem_of [227; 90; 165] in
  valid_w 8 /\ 8 <> 16 /\ valid_it 8 (It 0 5) /\ valid_it 8 (It 1 2) /\
  0 <= addr 8 (It 1 2) - addr 8 (It 0 5) <= max_bits /\
  swap_ranges_mixed Strict17 8 16 (It 0 5) (It 1 2) (It 2 1) m = UB BadUse /\
  swap_ranges_mixed Strict17 8 16 (It 0 5) (It 0 5) (It 2 1) m = Ok (It 2 1, m).
Proof. cbv zeta. demo. Qed.

(** The same number of digits: the function of C20. *)
Theorem C71_same_digits : forall p w first1 last1 first2 m,
  swap_ranges_mixed p w w first1 last1 first2 m = swap_ranges p w first1 last1 first2 m.
Proof. exact mixed_same. Qed.
Print Assumptions C71_same_digits.

Theorem C71_swap_ranges_refuted : exists p w1 w2 m first1 last1 first2,
  valid_w w1 /\ valid_w w2 /\ wf_mem w1 m /\ good_range w1 m first1 last1 /\
  good_dest w2 m first2 (addr w1 last1 - addr w1 first1) /\
  swap_ranges_mixed p w1 w2 first1 last1 first2 m = UB BadUse.
Proof.
  exists Strict17, 8, 16, (mem_of [227; 90; 165]), (It 0 5), (It 0 6), (It 1 1). demo.
Qed.
Print Assumptions C71_swap_ranges_refuted.
