(** Properties C26 to C31: the word operations of bit_details.hpp. A word of
    width [w] is an integer in [0, 2^w); bit [k] of it is [Z.testbit x k]. *)
From Coq Require Import ZArith Bool List Lia.
From Verif Require Import Base WordOps IterModel Spec Demo
  ProofCnt ProofBitswap ProofReverse ProofWordOps ProofWordOps2.
Import ListNotations.
Open Scope Z_scope.

(** C26: both versions of _popcnt count the one bits. *)
Theorem C26_popcnt : forall w x, valid_w w -> 0 <= x < 2 ^ w ->
  popcnt_intrin w x = count_true (Z.testbit x) 0 (Z.to_nat w) /\
  popcnt_fallback w x = Ok (count_true (Z.testbit x) 0 (Z.to_nat w)).
Proof. exact popcnt_ok. Qed.
Print Assumptions C26_popcnt.

Example C26_popcnt_example :
  valid_w 16 /\ 0 <= 45287 < 2 ^ 16 /\ popcnt_intrin 16 45287 = 9 /\
  popcnt_fallback 64 (2 ^ 64 - 1) = Ok 64 /\
  count_true (Z.testbit 45287) 0 16 = 9.
Proof. demo. Qed.

(** C26: _lzcnt is the length of the run of zero bits from the top. *)
Theorem C26_lzcnt : forall w x, valid_w w -> 0 <= x < 2 ^ w ->
  exists n, lzcnt_intrin w x = n /\ lzcnt_fallback w x = Ok n /\ 0 <= n <= w /\
    (x = 0 <-> n = w) /\
    (n < w -> Z.testbit x (w - 1 - n) = true) /\
    (forall k, w - n <= k < w -> Z.testbit x k = false).
Proof. exact lzcnt_ok. Qed.
Print Assumptions C26_lzcnt.

Example C26_lzcnt_example :
  valid_w 8 /\ 0 <= 19 < 2 ^ 8 /\ lzcnt_intrin 8 19 = 3 /\
  lzcnt_fallback 8 19 = Ok 3 /\ lzcnt_fallback 64 0 = Ok 64 /\
  lzcnt_intrin 32 1 = 31.
Proof. demo. Qed.

(** C26: _tzcnt is the length of the run of zero bits from the bottom. *)
Theorem C26_tzcnt : forall w x, valid_w w -> 0 <= x < 2 ^ w ->
  exists n, tzcnt w x = n /\ tzcnt_fallback w x = Ok n /\ 0 <= n <= w /\
    (x = 0 <-> n = w) /\
    (n < w -> Z.testbit x n = true) /\
    (forall k, 0 <= k < n -> Z.testbit x k = false).
Proof. exact tzcnt_ok. Qed.
Print Assumptions C26_tzcnt.

Example C26_tzcnt_example :
  valid_w 32 /\ 0 <= 40960 < 2 ^ 32 /\ tzcnt 32 40960 = 13 /\
  tzcnt_fallback 32 40960 = Ok 13 /\ tzcnt_fallback 8 0 = Ok 8.
Proof. demo. Qed.

(** C27: _pdep sends the low bits of x, in order, to the positions of the mask.
    Position [k] of the mask is the one with [count_true ... k] mask bits below. *)
Theorem C27_pdep : forall p w x msk, valid_w w ->
  0 <= x < 2 ^ w -> 0 <= msk < 2 ^ w ->
  exists r, pdep p w x msk = Ok r /\ 0 <= r < 2 ^ w /\
    forall k, 0 <= k < w -> Z.testbit r k =
      Z.testbit msk k && Z.testbit x (count_true (Z.testbit msk) 0 (Z.to_nat k)).
Proof. exact pdep_ok. Qed.
Print Assumptions C27_pdep.

Example C27_pdep_example :
  valid_w 8 /\ 0 <= 5 < 2 ^ 8 /\ 0 <= 178 < 2 ^ 8 /\
  pdep Strict17 8 5 178 = Ok 34 /\ pdep Strict17 64 (2 ^ 64 - 1) 0 = Ok 0.
Proof. demo. Qed.

(** C27: _pext packs the bits selected by the mask into the low bits. *)
Theorem C27_pext : forall p w x msk, valid_w w ->
  0 <= x < 2 ^ w -> 0 <= msk < 2 ^ w ->
  exists r, pext p w x msk = Ok r /\
    0 <= r < 2 ^ count_true (Z.testbit msk) 0 (Z.to_nat w) /\
    forall k, 0 <= k < w -> Z.testbit msk k = true ->
      Z.testbit r (count_true (Z.testbit msk) 0 (Z.to_nat k)) = Z.testbit x k.
Proof. exact pext_ok. Qed.
Print Assumptions C27_pext.

Example C27_pext_example :
  valid_w 16 /\ 0 <= 43981 < 2 ^ 16 /\ 0 <= 3855 < 2 ^ 16 /\
  pext Strict17 16 43981 3855 = Ok 189.
Proof. demo. Qed.

(** C27: extracting what was deposited. *)
Theorem C27_pext_pdep : forall p w x msk, valid_w w ->
  0 <= x < 2 ^ w -> 0 <= msk < 2 ^ w ->
  exists r, pdep p w x msk = Ok r /\
    pext p w r msk = Ok (x mod 2 ^ count_true (Z.testbit msk) 0 (Z.to_nat w)).
Proof. exact pext_pdep. Qed.
Print Assumptions C27_pext_pdep.

Example C27_pext_pdep_example :
  valid_w 8 /\ 0 <= 245 < 2 ^ 8 /\ 0 <= 178 < 2 ^ 8 /\
  pdep Strict17 8 245 178 = Ok 34 /\ pext Strict17 8 34 178 = Ok 5 /\
  245 mod 2 ^ count_true (Z.testbit 178) 0 8 = 5.
Proof. demo. Qed.

(** C27: depositing what was extracted. *)
Theorem C27_pdep_pext : forall p w x msk, valid_w w ->
  0 <= x < 2 ^ w -> 0 <= msk < 2 ^ w ->
  exists r, pext p w x msk = Ok r /\ pdep p w r msk = Ok (Z.land x msk).
Proof. exact pdep_pext. Qed.
Print Assumptions C27_pdep_pext.

Example C27_pdep_pext_example :
  valid_w 8 /\ 0 <= 214 < 2 ^ 8 /\ 0 <= 178 < 2 ^ 8 /\
  pext Strict17 8 214 178 = Ok 11 /\ pdep Strict17 8 11 178 = Ok 146 /\
  Z.land 214 178 = 146.
Proof. demo. Qed.

(** C28: _bitswap reverses the bits. *)
Theorem C28_bitswap : forall p w x, valid_w w -> 0 <= x < 2 ^ w ->
  exists r, bitswap p w x = Ok r /\ 0 <= r < 2 ^ w /\
    forall k, 0 <= k < w -> Z.testbit r k = Z.testbit x (w - 1 - k).
Proof. exact bitswap_ok. Qed.
Print Assumptions C28_bitswap.

Example C28_bitswap_example :
  valid_w 8 /\ 0 <= 22 < 2 ^ 8 /\ bitswap Strict17 8 22 = Ok 104 /\
  bitswap Strict17 32 1 = Ok (2 ^ 31) /\ bitswap Strict17 16 4660 = Ok 11336.
Proof. demo. Qed.

(** C28: twice is the identity. *)
Theorem C28_bitswap_twice : forall p w x, valid_w w -> 0 <= x < 2 ^ w ->
  exists r, bitswap p w x = Ok r /\ bitswap p w r = Ok x.
Proof. exact bitswap_twice. Qed.
Print Assumptions C28_bitswap_twice.

Example C28_bitswap_twice_example :
  valid_w 64 /\ 0 <= 81985529216486895 < 2 ^ 64 /\
  bitswap Strict17 64 81985529216486895 = Ok 17848844570815808640 /\
  bitswap Strict17 64 17848844570815808640 = Ok 81985529216486895.
Proof. demo. Qed.

(** C28: _byteswap reverses the bytes; both versions agree; twice is the
    identity. *)
Theorem C28_byteswap : forall w x, valid_w w -> 0 <= x < 2 ^ w ->
  exists r, byteswap_intrin w x = r /\ byteswap_fallback w x = Ok r /\
    0 <= r < 2 ^ w /\
    (forall j, 0 <= j < w / 8 ->
       r / 256 ^ j mod 256 = x / 256 ^ (w / 8 - 1 - j) mod 256) /\
    byteswap_fallback w r = Ok x.
Proof. exact byteswap_ok. Qed.
Print Assumptions C28_byteswap.

Example C28_byteswap_example :
  valid_w 32 /\ 0 <= 305419896 < 2 ^ 32 /\
  byteswap_intrin 32 305419896 = 2018915346 /\
  byteswap_fallback 32 305419896 = Ok 2018915346 /\
  byteswap_fallback 16 4660 = Ok 13330 /\ byteswap_fallback 8 7 = Ok 7.
Proof. demo. Qed.

(** C29: _addcarry: sum and carry out together are the exact sum; the
    version with intrinsics agrees for every carry that fits an unsigned
    char. *)
Theorem C29_addcarry : forall w a b c, valid_w w ->
  0 <= a < 2 ^ w -> 0 <= b < 2 ^ w ->
  (0 <= c < 256 -> addcarry_intrin w c a b = addcarry_fallback w c a b) /\
  exists co d, addcarry_fallback w c a b = (co, d) /\ 0 <= d < 2 ^ w /\
    d + (if co then 2 ^ w else 0) = a + b + (if c =? 0 then 0 else 1).
Proof. exact addcarry_ok. Qed.
Print Assumptions C29_addcarry.

Example C29_addcarry_example :
  valid_w 8 /\ 0 <= 200 < 2 ^ 8 /\ 0 <= 55 < 2 ^ 8 /\
  addcarry_fallback 8 1 200 55 = (true, 0) /\
  addcarry_fallback 8 0 200 55 = (false, 255) /\
  addcarry_intrin 64 1 (2 ^ 64 - 1) (2 ^ 64 - 1) = (true, 2 ^ 64 - 1).
Proof. demo. Qed.

(** C29: _subborrow: difference and borrow out together are the exact
    difference. *)
Theorem C29_subborrow : forall w a b c, valid_w w ->
  0 <= a < 2 ^ w -> 0 <= b < 2 ^ w ->
  (0 <= c < 256 -> subborrow_intrin w c a b = subborrow_fallback w c a b) /\
  exists co d, subborrow_fallback w c a b = (co, d) /\ 0 <= d < 2 ^ w /\
    d - (if co then 2 ^ w else 0) = a - b - (if c =? 0 then 0 else 1).
Proof. exact subborrow_ok. Qed.
Print Assumptions C29_subborrow.

Example C29_subborrow_example :
  valid_w 16 /\ 0 <= 5 < 2 ^ 16 /\ 0 <= 65535 < 2 ^ 16 /\
  subborrow_fallback 16 1 5 65535 = (true, 5) /\
  subborrow_fallback 32 1 9 8 = (false, 0) /\
  subborrow_intrin 64 0 0 1 = (true, 2 ^ 64 - 1).
Proof. demo. Qed.

(** C29: with intrinsics a carry or borrow held in a wider type is cut to its
    low byte: 256 counts as no carry, though the version without intrinsics
    takes it as one. *)
Theorem C29_wide_carry_refuted : exists w a b c, valid_w w /\ 0 <= a < 2 ^ w /\
  0 <= b < 2 ^ w /\ 0 < c < 2 ^ 31 /\
  addcarry_intrin w c a b <> addcarry_fallback w c a b /\
  subborrow_intrin w c a b <> subborrow_fallback w c a b.
Proof. exact addcarry_wide_false. Qed.
Print Assumptions C29_wide_carry_refuted.

Example C29_wide_carry_refuted_example :
  addcarry_intrin 32 256 7 8 = (false, 15) /\
  addcarry_fallback 32 256 7 8 = (false, 16) /\
  subborrow_intrin 64 512 0 0 = (false, 0) /\
  subborrow_fallback 64 512 0 0 = (true, 2 ^ 64 - 1).
Proof. demo. Qed.

(** C29: _mulx: the two result words are the exact product. *)
Theorem C29_mulx : forall p w a b, valid_w w -> 0 <= a < 2 ^ w -> 0 <= b < 2 ^ w ->
  mulx_intrin p w a b = mulx_fallback p w a b /\
  exists hi lo, mulx_fallback p w a b = Ok (hi, lo) /\
    0 <= hi < 2 ^ w /\ 0 <= lo < 2 ^ w /\ hi * 2 ^ w + lo = a * b.
Proof. exact mulx_ok. Qed.
Print Assumptions C29_mulx.

Example C29_mulx_example :
  valid_w 8 /\ 0 <= 255 < 2 ^ 8 /\ 0 <= 254 < 2 ^ 8 /\
  mulx_fallback Strict17 8 255 254 = Ok (253, 2) /\
  mulx_intrin Strict17 64 (2 ^ 64 - 1) (2 ^ 64 - 1) = Ok (2 ^ 64 - 2, 1).
Proof. demo. Qed.

(** C30: _shld is the upper word of the double word dst:src shifted left.
    Missing from the full statement: cnt = 0 for words of 32 or 64 bits, and
    cnt >= 2 * digits (see the theorems below). *)
Theorem C30_shld_partial : forall p w dst src cnt, valid_w w ->
  0 <= dst < 2 ^ w -> 0 <= src < 2 ^ w ->
  0 <= cnt < 2 * w -> (cnt = 0 -> w < 32) ->
  shld p w dst src cnt =
  Ok ((dst * 2 ^ w + src) * 2 ^ cnt mod 2 ^ (2 * w) / 2 ^ w).
Proof. exact shld_ok. Qed.
Print Assumptions C30_shld_partial.

Example C30_shld_example :
  valid_w 8 /\ 0 <= 178 < 2 ^ 8 /\ 0 <= 213 < 2 ^ 8 /\
  0 <= 3 < 2 * 8 /\ (3 = 0 -> 8 < 32) /\
  shld Strict17 8 178 213 3 = Ok 150 /\ shld Strict17 8 178 213 0 = Ok 178 /\
  shld Strict17 8 178 213 11 = Ok 168 /\ shld Strict17 64 1 (2 ^ 63) 1 = Ok 3.
Proof. demo. Qed.

(** C30: _shrd is the lower word of the double word src:dst shifted right. *)
Theorem C30_shrd_partial : forall p w dst src cnt, valid_w w ->
  0 <= dst < 2 ^ w -> 0 <= src < 2 ^ w ->
  0 <= cnt < 2 * w -> (cnt = 0 -> w < 32) ->
  shrd p w dst src cnt = Ok ((src * 2 ^ w + dst) / 2 ^ cnt mod 2 ^ w).
Proof. exact shrd_ok. Qed.
Print Assumptions C30_shrd_partial.

Example C30_shrd_example :
  valid_w 8 /\ 0 <= 178 < 2 ^ 8 /\ 0 <= 213 < 2 ^ 8 /\
  0 <= 3 < 2 * 8 /\ (3 = 0 -> 8 < 32) /\
  shrd Strict17 8 178 213 3 = Ok 182 /\ shrd Strict17 8 178 213 0 = Ok 178 /\
  shrd Strict17 8 178 213 11 = Ok 26 /\ shrd Strict17 64 1 1 1 = Ok (2 ^ 63).
Proof. demo. Qed.

(** C30: a count of at least twice the width gives 0, whatever the over-wide
    shift that is executed on the way yields. *)
Theorem C30_big_count : forall o w dst src cnt, valid_w w -> 2 * w <= cnt ->
  shld (Hw o) w dst src cnt = Ok 0 /\ shrd (Hw o) w dst src cnt = Ok 0.
Proof. exact shd_big. Qed.
Print Assumptions C30_big_count.

Example C30_big_count_example :
  valid_w 64 /\ 2 * 64 <= 200 /\
  shld (Hw (fun _ _ _ => 12345)) 64 7 9 200 = Ok 0.
Proof. demo. Qed.

(** C30: under the language rules such a count is undefined once the executed
    shift reaches the width of the promoted type. *)
Theorem C30_big_count_undefined : forall p w dst src cnt, valid_w w ->
  w + prom w <= cnt -> p = Strict17 \/ p = Strict20 ->
  shld p w dst src cnt = UB OverShift /\ shrd p w dst src cnt = UB OverShift.
Proof. exact shd_big_ub. Qed.
Print Assumptions C30_big_count_undefined.

Example C30_big_count_undefined_example :
  valid_w 8 /\ 8 + prom 8 <= 40 /\ (Strict20 = Strict17 \/ Strict20 = Strict20) /\
  shld Strict20 8 1 2 40 = UB OverShift /\ shld Strict20 8 1 2 39 = Ok 0.
Proof. demo. Qed.

(** C30: between twice the width and that count the result is 0, except that
    C++17 does not define a left shift of an int beyond 32 bits. *)
Theorem C30_middle_count : forall p w dst src cnt, valid_w w -> 0 <= src ->
  2 * w <= cnt < w + prom w ->
  shrd p w dst src cnt = Ok 0 /\
  (p = Strict17 -> 2 ^ 32 <= src * 2 ^ (cnt - w) -> shld p w dst src cnt = UB NegShift) /\
  (p <> Strict17 \/ src * 2 ^ (cnt - w) < 2 ^ 32 -> shld p w dst src cnt = Ok 0).
Proof. exact shd_mid. Qed.
Print Assumptions C30_middle_count.

Example C30_middle_count_example :
  valid_w 8 /\ 0 <= 129 /\ 2 * 8 <= 38 < 8 + prom 8 /\
  shrd Strict17 8 7 129 38 = Ok 0 /\ shld Strict17 8 7 129 38 = UB NegShift /\
  shld Strict17 8 7 1 38 = Ok 0 /\ shld Strict20 8 7 129 38 = Ok 0.
Proof. unfold prom. demo. Qed.

(** C30: a zero count is undefined for 32 and 64 bit words, for all operands. *)
Theorem C30_zero_count_undefined : forall p w dst src, valid_w w -> 32 <= w ->
  p = Strict17 \/ p = Strict20 ->
  shld p w dst src 0 = UB OverShift /\ shrd p w dst src 0 = UB OverShift.
Proof. exact shd_zero_ub. Qed.
Print Assumptions C30_zero_count_undefined.

Example C30_zero_count_undefined_example :
  valid_w 32 /\ 32 <= 32 /\ (Strict17 = Strict17 \/ Strict17 = Strict20) /\
  shrd Strict17 32 5 6 0 = UB OverShift.
Proof. demo. Qed.

(** C30 is false: on x86-64, where a shift count is taken modulo the width, a
    zero count does not return dst. *)
Theorem C30_zero_count_refuted : exists w dst src,
  valid_w w /\ 0 <= dst < 2 ^ w /\ 0 <= src < 2 ^ w /\
  let x86 := Hw (fun left x c =>
    if left then Z.shiftl x (c mod w) else Z.shiftr x (c mod w)) in
  shld x86 w dst src 0 <> Ok dst /\ shrd x86 w dst src 0 <> Ok dst.
Proof. exact shd_zero_wrong. Qed.
Print Assumptions C30_zero_count_refuted.

(** C31: _bextr is the field of len bits at start. Missing from the full
    statement: a whole word of 32 or 64 bits under the language rules. *)
Theorem C31_bextr_partial : forall p w x start len, valid_w w ->
  0 <= x < 2 ^ w -> 0 <= start < w -> 0 <= len -> start + len <= w ->
  len < w \/ w < 32 \/ (exists o, p = Hw o) ->
  bextr p w x start len = Ok (x / 2 ^ start mod 2 ^ len).
Proof. exact bextr_ok. Qed.
Print Assumptions C31_bextr_partial.

Example C31_bextr_example :
  valid_w 16 /\ 0 <= 43981 < 2 ^ 16 /\ 0 <= 4 < 16 /\ 0 <= 8 /\ 4 + 8 <= 16 /\
  (8 < 16 \/ 16 < 32 \/ (exists o, Strict17 = Hw o)) /\
  bextr Strict17 16 43981 4 8 = Ok 188 /\ bextr Strict17 16 43981 0 16 = Ok 43981.
Proof. demo. Qed.

(** C31: the excluded case is undefined for every word. *)
Theorem C31_bextr_undefined : forall p w x, valid_w w -> 32 <= w ->
  p = Strict17 \/ p = Strict20 -> bextr p w x 0 w = UB OverShift.
Proof. exact bextr_full_ub. Qed.
Print Assumptions C31_bextr_undefined.

Example C31_bextr_undefined_example :
  valid_w 64 /\ 32 <= 64 /\ (Strict20 = Strict17 \/ Strict20 = Strict20) /\
  bextr Strict20 64 77 0 64 = UB OverShift /\
  bextr (Hw (fun _ _ _ => 5)) 64 77 0 64 = Ok 77.
Proof. demo. Qed.

(** C31: _bitblend with start and length. Missing: a whole word where that is
    undefined (C31_bitblend_undefined). *)
Theorem C31_bitblend_partial : forall p w x y start len, valid_w w ->
  0 <= x < 2 ^ w -> 0 <= y < 2 ^ w ->
  0 <= start < w -> 0 <= len -> start + len <= w ->
  len < w \/ full_blend_defined p w ->
  exists v, bitblend p w x y start len = Ok v /\ 0 <= v < 2 ^ w /\
    forall k, 0 <= k < w -> Z.testbit v k =
      if inr start (start + len) k then Z.testbit y k else Z.testbit x k.
Proof. exact bitblend_ok. Qed.
Print Assumptions C31_bitblend_partial.

Example C31_bitblend_example :
  valid_w 8 /\ 0 <= 240 < 2 ^ 8 /\ 0 <= 170 < 2 ^ 8 /\
  0 <= 3 < 8 /\ 0 <= 3 /\ 3 + 3 <= 8 /\ (3 < 8 \/ full_blend_defined Strict17 8) /\
  bitblend Strict17 8 240 170 3 3 = Ok 232 /\
  bitblend Strict20 8 240 170 0 8 = Ok 170.
Proof. demo. Qed.

(** C31: the excluded case has no defined outcome, for all operands. *)
Theorem C31_bitblend_undefined : forall p w x y, valid_w w ->
  ~ full_blend_defined p w -> exists k, bitblend p w x y 0 w = UB k.
Proof. exact bitblend_full_ub. Qed.
Print Assumptions C31_bitblend_undefined.

Example C31_bitblend_undefined_example :
  valid_w 8 /\ ~ full_blend_defined Strict17 8 /\
  bitblend Strict17 8 1 2 0 8 = UB NegShift /\
  bitblend Strict20 64 1 2 0 64 = UB OverShift.
Proof. demo. Qed.

(** C31: _bitblend with a mask. *)
Theorem C31_bitblend_mask : forall w x y msk, 0 <= w ->
  0 <= x < 2 ^ w -> 0 <= y < 2 ^ w ->
  0 <= bitblend_mask x y msk < 2 ^ w /\
  forall k, Z.testbit (bitblend_mask x y msk) k =
    if Z.testbit msk k then Z.testbit y k else Z.testbit x k.
Proof. exact bitblend_mask_ok. Qed.
Print Assumptions C31_bitblend_mask.

Example C31_bitblend_mask_example :
  0 <= 8 /\ 0 <= 240 < 2 ^ 8 /\ 0 <= 170 < 2 ^ 8 /\ bitblend_mask 240 170 60 = 232.
Proof. demo. Qed.

(** C31: _bitexch of two fields with different starts, which may lie in the
    same word if they do not overlap. *)
Theorem C31_bitexch : forall p w a0 a1 s0 s1 len m,
  let A := a0 * w + s0 in let B := a1 * w + s1 in
  valid_w w -> wf_mem w m -> m a0 <> None -> m a1 <> None ->
  0 <= s0 < w -> 0 <= s1 < w -> 0 <= len -> s0 + len <= w -> s1 + len <= w ->
  A + len <= B \/ B + len <= A ->
  exists m', bitexch3 p w a0 a1 s0 s1 len m = Ok (tt, m') /\
    wf_mem w m' /\ same_dom m m' /\
    forall i, bit w m' i =
      if inr A (A + len) i then bit w m (i - A + B)
      else if inr B (B + len) i then bit w m (i - B + A)
      else bit w m i.
Proof. exact bitexch3_ok. Qed.
Print Assumptions C31_bitexch.

Example C31_bitexch_example :
  let m := mem_of [179; 92] in
  valid_w 8 /\ wf_mem 8 m /\ m 0 <> None /\ m 1 <> None /\
  0 <= 1 < 8 /\ 0 <= 4 < 8 /\ 0 <= 3 /\ 1 + 3 <= 8 /\ 4 + 3 <= 8 /\
  (0 * 8 + 1 + 3 <= 1 * 8 + 4 \/ 1 * 8 + 4 + 3 <= 0 * 8 + 1) /\
  run 2 (bitexch3 Strict17 8 0 1 1 4 3) [179; 92] = Ok (tt, [Some 187; Some 28]) /\
  run 1 (bitexch3 Strict17 8 0 0 0 5 3) [179] = Ok (tt, [Some 117]).
Proof. cbv zeta. demo. Qed.

(** C31: _bitexch of fields with the same start in two words. *)
Theorem C31_bitexch_same_start : forall p w a0 a1 s len m,
  let A := a0 * w + s in let B := a1 * w + s in
  valid_w w -> wf_mem w m -> m a0 <> None -> m a1 <> None -> a0 <> a1 ->
  0 <= s < w -> 0 <= len -> s + len <= w ->
  exists m', bitexch2 p w a0 a1 s len m = Ok (tt, m') /\
    wf_mem w m' /\ same_dom m m' /\
    forall i, bit w m' i =
      if inr A (A + len) i then bit w m (i - A + B)
      else if inr B (B + len) i then bit w m (i - B + A)
      else bit w m i.
Proof. exact bitexch2_ok. Qed.
Print Assumptions C31_bitexch_same_start.

Example C31_bitexch_same_start_example :
  let m := mem_of [179; 92] in
  valid_w 8 /\ wf_mem 8 m /\ m 0 <> None /\ m 1 <> None /\ 0 <> 1 /\
  0 <= 2 < 8 /\ 0 <= 4 /\ 2 + 4 <= 8 /\
  run 2 (bitexch2 Strict17 8 0 1 2 4) [179; 92] = Ok (tt, [Some 159; Some 112]) /\
  run 2 (bitexch2 Strict17 8 0 1 0 8) [179; 92] = Ok (tt, [Some 92; Some 179]).
Proof. cbv zeta. demo. Qed.

(** C31: _bitexch under a mask, on two different words. *)
Theorem C31_bitexch_mask : forall w a0 a1 x y msk m,
  0 <= w -> m a0 = Some x -> m a1 = Some y -> a0 <> a1 ->
  0 <= x < 2 ^ w -> 0 <= y < 2 ^ w ->
  exists x' y' m', bitexch_mask a0 a1 msk m = Ok (tt, m') /\
    m' a0 = Some x' /\ m' a1 = Some y' /\
    0 <= x' < 2 ^ w /\ 0 <= y' < 2 ^ w /\
    (forall a, a <> a0 -> a <> a1 -> m' a = m a) /\
    forall k,
      Z.testbit x' k = Z.testbit (if Z.testbit msk k then y else x) k /\
      Z.testbit y' k = Z.testbit (if Z.testbit msk k then x else y) k.
Proof. exact bitexch_mask_ok. Qed.
Print Assumptions C31_bitexch_mask.

Example C31_bitexch_mask_example :
  let m := mem_of [179; 92] in
  0 <= 8 /\ m 0 = Some 179 /\ m 1 = Some 92 /\ 0 <> 1 /\
  0 <= 179 < 2 ^ 8 /\ 0 <= 92 < 2 ^ 8 /\
  run 2 (bitexch_mask 0 1 165) [179; 92] = Ok (tt, [Some 22; Some 249]).
Proof. cbv zeta. demo. Qed.

(** C31: both arguments naming the same word: the selected bits are cleared
    instead of being exchanged with themselves. *)
Theorem C31_bitexch_mask_alias : forall w a x msk m,
  0 <= w -> m a = Some x -> 0 <= x < 2 ^ w ->
  exists m', bitexch_mask a a msk m = Ok (tt, m') /\
    m' a = Some (Z.land x (Z.lnot msk)) /\ forall b, b <> a -> m' b = m b.
Proof. exact bitexch_mask_alias. Qed.
Print Assumptions C31_bitexch_mask_alias.

Example C31_bitexch_mask_alias_example :
  let m := mem_of [179; 92] in
  0 <= 8 /\ m 1 = Some 92 /\ 0 <= 92 < 2 ^ 8 /\
  run 2 (bitexch_mask 1 1 12) [179; 92] = Ok (tt, [Some 179; Some 80]).
Proof. cbv zeta. demo. Qed.

(** C31: _bitcmp is 1 exactly when the fields are equal, and 0 otherwise. *)
Theorem C31_bitcmp_partial : forall p w x y s0 s1 len, valid_w w ->
  0 <= x < 2 ^ w -> 0 <= y < 2 ^ w -> 0 <= s0 < w -> 0 <= s1 < w -> 0 <= len ->
  s0 + len <= w -> s1 + len <= w ->
  len < w \/ w < 32 \/ (exists o, p = Hw o) ->
  exists r, bitcmp p w x y s0 s1 len = Ok r /\ (r = 0 \/ r = 1) /\
    (r = 1 <-> forall k, 0 <= k < len -> Z.testbit x (s0 + k) = Z.testbit y (s1 + k)).
Proof. exact bitcmp_ok. Qed.
Print Assumptions C31_bitcmp_partial.

Example C31_bitcmp_example :
  valid_w 8 /\ 0 <= 220 < 2 ^ 8 /\ 0 <= 55 < 2 ^ 8 /\ 0 <= 2 < 8 /\ 0 <= 0 < 8 /\
  0 <= 6 /\ 2 + 6 <= 8 /\ 0 + 6 <= 8 /\
  (6 < 8 \/ 8 < 32 \/ (exists o, Strict17 = Hw o)) /\
  bitcmp Strict17 8 220 55 2 0 6 = Ok 1 /\ bitcmp Strict17 8 220 55 2 1 6 = Ok 0.
Proof. demo. Qed.
