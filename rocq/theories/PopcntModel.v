(** Model of /repo/include/bitlib/bit-algorithms/libpopcnt.h (line numbers
    refer to that file). Memory is read byte by byte through
    [rd : byte address -> option byte]; reading an unmapped byte is
    [UB OutOfBounds]. Simplification: type-based aliasing and alignment rules
    for the uint64_t and vector loads are not modelled (x86 and little endian);
    vector registers are integers of 256 or 512 bits. *)
From Coq Require Import ZArith Bool List.
From Verif Require Import Base WordOps.
Import ListNotations.
Open Scope Z_scope.

(** Little endian load of [n] bytes at address [a]: the casts to uint64_t* of
    line 633, memcpy of line 654, _mm256_loadu_si256 of line 413. *)
Fixpoint load_bytes (rd : Z -> option Z) (a : Z) (n : nat) : res Z :=
  match n with
  | O => Ok 0
  | S n' =>
    match rd a with
    | None => UB OutOfBounds
    | Some b =>
      let? r := load_bytes rd (a + 1) n' in
      Ok (b + 256 * r)
    end
  end.

(** popcount64, lines 152-164. *)
Definition popcount64 (x0 : Z) : Z :=
  let m1 := 6148914691236517205 in
  let m2 := 3689348814741910323 in
  let m4 := 1085102592571150095 in
  let h01 := 72340172838076673 in
  let x1 := wrap 64 (x0 - Z.land (Z.shiftr x0 1) m1) in
  let x2 := wrap 64 (Z.land x1 m2 + Z.land (Z.shiftr x1 2) m2) in
  let x3 := Z.land (wrap 64 (x2 + Z.shiftr x2 4)) m4 in
  Z.shiftr (wrap 64 (x3 * h01)) 56.

(** popcnt64, lines 168-216: the popcnt instruction or __builtin_popcountll,
    by its documented meaning. *)
Definition popcnt64 (x : Z) : Z := builtin_popcount x.

(** CSA256, lines 352-357: (h, l). *)
Definition csa256 (a b c : Z) : Z * Z :=
  let u := Z.lxor a b in
  (Z.lor (Z.land a b) (Z.land u c), Z.lxor u c).

(** _mm512_ternarylogic_epi32 by its documented meaning: bit i of the result is
    bit (4*x_i + 2*y_i + z_i) of [imm]; used in lines 479-480. *)
Definition ternlog (x y z : Z) (imm : Z) : Z :=
  let pick (b : bool) (v : Z) := if b then v else Z.lnot v in
  let term (k : Z) :=
    if Z.testbit imm k then
      Z.land (Z.land (pick (Z.testbit k 2) x) (pick (Z.testbit k 1) y))
             (pick (Z.testbit k 0) z)
    else 0 in
  fold_left Z.lor (map term [0; 1; 2; 3; 4; 5; 6; 7]) 0.

(** CSA512, lines 477-481: (h, l). *)
Definition csa512 (a b c : Z) : Z * Z :=
  (ternlog c b a 232, ternlog c b a 150).

(** Field of [k] bits number [i] of a vector register (lanes of the
    intrinsics used in lines 362-385 and 458-472). *)
Definition lane (k i v : Z) : Z := (v / 2 ^ (k * i)) mod 2 ^ k.

(** Lookup tables of lines 364-376; _mm256_shuffle_epi8 indexes the 16 entries
    of its own half with the low 4 bits; both halves hold the same entries. *)
Definition lookup1 (i : Z) : Z :=
  nth (Z.to_nat i) [4;5;5;6;5;6;6;7;5;6;6;7;6;7;7;8] 0.
Definition lookup2 (i : Z) : Z :=
  nth (Z.to_nat i) [4;3;3;2;3;2;2;1;3;2;2;1;2;1;1;0] 0.

(** _mm256_srli_epi16(v, 4) and the 0x0f mask of lines 379-380, seen from
    byte [i]: the 16-bit lane is shifted, then the byte is masked. *)
Definition avx2_lo (v i : Z) : Z := Z.land (lane 8 i v) 15.
Definition avx2_hi (v i : Z) : Z :=
  Z.land (lane 8 (i mod 2) (Z.shiftr (lane 16 (i / 2) v) 4)) 15.

(** One 64-bit lane of _mm256_sad_epu8(popcnt1, popcnt2), lines 381-384. *)
Definition avx2_sad (v j : Z) : Z :=
  fold_left Z.add
    (map (fun k => Z.abs (lookup1 (avx2_lo v (8 * j + k))
                          - lookup2 (avx2_hi v (8 * j + k))))
         [0; 1; 2; 3; 4; 5; 6; 7]) 0.

(** popcnt256, lines 362-385: the four 64-bit lanes. *)
Definition popcnt256 (v : Z) : list Z := map (avx2_sad v) [0; 1; 2; 3].

(** Bytewise operations inside a 16-bit lane: _mm512_sub_epi8 and
    _mm512_add_epi8 of lines 464-468. *)
Definition sub_epi8_16 (x y : Z) : Z :=
  (lane 8 0 x - lane 8 0 y) mod 256 + 256 * ((lane 8 1 x - lane 8 1 y) mod 256).
Definition add_epi8_16 (x y : Z) : Z :=
  (lane 8 0 x + lane 8 0 y) mod 256 + 256 * ((lane 8 1 x + lane 8 1 y) mod 256).

(** popcnt512 restricted to a 16-bit lane, lines 460-469: the sum of the two
    bytes of t3 that _mm512_sad_epu8(t3, 0) adds up. *)
Definition swar16 (v : Z) : Z :=
  let vm := Z.land (Z.shiftr v 1) 21845 in
  let t1 := sub_epi8_16 v vm in
  let tm := Z.land t1 13107 in
  let tm2 := Z.land (Z.shiftr t1 2) 13107 in
  let t2 := add_epi8_16 tm tm2 in
  let tt := add_epi8_16 t2 (Z.shiftr t2 4) in
  let t3 := Z.land tt 3855 in
  lane 8 0 t3 + lane 8 1 t3.

(** popcnt512, lines 458-472: the eight 64-bit lanes. *)
Definition popcnt512 (v : Z) : list Z :=
  map (fun j => fold_left Z.add
                  (map (fun k => swar16 (lane 16 (4 * j + k) v)) [0; 1; 2; 3]) 0)
      [0; 1; 2; 3; 4; 5; 6; 7].

(** _mm256_add_epi64 / _mm512_add_epi64 and slli_epi64, lines 429-436,
    525-532. *)
Definition add64 (x y : list Z) : list Z :=
  map (fun q => wrap 64 (fst q + snd q)) (combine x y).
Definition slli64 (c : Z) (x : list Z) : list Z :=
  map (fun a => wrap 64 (Z.shiftl a c)) x.

(** Parameters that distinguish popcnt_avx2 (lines 397-447) and popcnt_avx512
    (lines 493-547), which are otherwise the same text. *)
Record simd : Type := Simd {
  vbytes : Z;                     (* size of the vector type in bytes *)
  vcsa : Z -> Z -> Z -> Z * Z;
  vpop : Z -> list Z;
  vzero : list Z }.
Definition avx2 : simd := Simd 32 csa256 popcnt256 [0; 0; 0; 0].  (* 397-405 *)
Definition avx512 : simd :=                                         (* 493-501 *)
  Simd 64 csa512 popcnt512 [0; 0; 0; 0; 0; 0; 0; 0].

(** Unaligned vector load number [k] from [a], lines 413, 509. *)
Definition vload (s : simd) (rd : Z -> option Z) (a k : Z) : res Z :=
  load_bytes rd (a + k * vbytes s) (Z.to_nat (vbytes s)).

(** The accumulators ones, twos, fours, eights (lines 400-403). *)
Record hs : Type := Hs { ones : Z; twos : Z; fours : Z; eights : Z }.

(** Two vectors into [ones]: e.g. line 413. Returns (twosX, ones). *)
Definition csa_load (s : simd) (rd : Z -> option Z) (a k o : Z)
  : res (Z * Z) :=
  let? x := vload s rd a k in
  let? y := vload s rd a (k + 1) in
  Ok (vcsa s o x y).

(** Body of the main loop, lines 413-427 and 509-523: (sixteens, accumulators). *)
Definition hs_block (s : simd) (rd : Z -> option Z) (a i : Z) (h : hs)
  : res (Z * hs) :=
  let? (twosA, o1) := csa_load s rd a (i + 0) (ones h) in
  let? (twosB, o2) := csa_load s rd a (i + 2) o1 in
  let (foursA, t1) := vcsa s (twos h) twosA twosB in
  let? (twosA, o3) := csa_load s rd a (i + 4) o2 in
  let? (twosB, o4) := csa_load s rd a (i + 6) o3 in
  let (foursB, t2) := vcsa s t1 twosA twosB in
  let (eightsA, f1) := vcsa s (fours h) foursA foursB in
  let? (twosA, o5) := csa_load s rd a (i + 8) o4 in
  let? (twosB, o6) := csa_load s rd a (i + 10) o5 in
  let (foursA, t3) := vcsa s t2 twosA twosB in
  let? (twosA, o7) := csa_load s rd a (i + 12) o6 in
  let? (twosB, o8) := csa_load s rd a (i + 14) o7 in
  let (foursB, t4) := vcsa s t3 twosA twosB in
  let (eightsB, f2) := vcsa s f1 foursA foursB in
  let (sixteens, e1) := vcsa s (eights h) eightsA eightsB in
  Ok (sixteens, Hs o8 t4 f2 e1).

(** Main loop, lines 411-430 and 507-526. *)
Fixpoint hs_loop (s : simd) (rd : Z -> option Z) (a : Z) (fuel : nat)
  (limit i : Z) (cnt : list Z) (h : hs) : res (Z * list Z * hs) :=
  if limit <=? i then Ok (i, cnt, h) else
  match fuel with
  | O => Fuel
  | S f =>
    let? (sixteens, h') := hs_block s rd a i h in
    hs_loop s rd a f limit (i + 16) (add64 cnt (vpop s sixteens)) h'
  end.

(** Remaining vectors, lines 438-439 and 534-535. *)
Fixpoint hs_tail (s : simd) (rd : Z -> option Z) (a : Z) (fuel : nat)
  (size i : Z) (cnt : list Z) : res (list Z) :=
  if size <=? i then Ok cnt else
  match fuel with
  | O => Fuel
  | S f =>
    let? x := vload s rd a i in
    hs_tail s rd a f size (i + 1) (add64 cnt (vpop s x))
  end.

(** popcnt_avx2 and popcnt_avx512, lines 397-447 and 493-547; [size] counts
    vectors. *)
Definition popcnt_simd (s : simd) (rd : Z -> option Z) (a size : Z) : res Z :=
  let limit := size - size mod 16 in
  let? (ic, h) := hs_loop s rd a (Z.to_nat (size / 16)) limit 0
                           (vzero s) (Hs 0 0 0 0) in
  let (i, cnt) := ic : Z * list Z in
  let cnt := slli64 4 cnt in
  let cnt := add64 cnt (slli64 3 (vpop s (eights h))) in
  let cnt := add64 cnt (slli64 2 (vpop s (fours h))) in
  let cnt := add64 cnt (slli64 1 (vpop s (twos h))) in
  let cnt := add64 cnt (vpop s (ones h)) in
  let? cnt := hs_tail s rd a 16 size i cnt in
  Ok (wrap 64 (fold_left Z.add cnt 0)).

(** for (; i < limit; i += 8) cnt += pop(8 bytes), lines 632-633, 647-648,
    743-744, 782-783: (i, cnt). *)
Fixpoint pop_words (pop : Z -> Z) (rd : Z -> option Z) (a : Z) (fuel : nat)
  (limit i cnt : Z) : res (Z * Z) :=
  if limit <=? i then Ok (i, cnt) else
  match fuel with
  | O => Fuel
  | S f =>
    let? x := load_bytes rd (a + i) 8 in
    pop_words pop rd a f limit (i + 8) (wrap 64 (cnt + pop x))
  end.

(** for (; i < size; i++) cnt += popcnt64(ptr[i]), lines 634-635, 786-787. *)
Fixpoint pop_bytes (rd : Z -> option Z) (a : Z) (fuel : nat)
  (size i cnt : Z) : res Z :=
  if size <=? i then Ok cnt else
  match fuel with
  | O => Fuel
  | S f =>
    let? x := load_bytes rd (a + i) 1 in
    pop_bytes rd a f size (i + 1) (wrap 64 (cnt + popcnt64 x))
  end.

(** CPU features found by get_cpuid (lines 300-341) or fixed at compile time;
    CpuModel models how they are found. *)
Record cpu : Type := Cpu { has_avx512 : bool; has_avx2 : bool; has_popcnt : bool }.

(** The vector part of popcnt for one instruction set, lines 593-602 and
    608-617: (i, cnt). [min] is the minimal size, 1024 or 512 bytes. *)
Definition simd_part (s : simd) (on : bool) (min : Z) (rd : Z -> option Z)
  (a size i cnt : Z) : res (Z * Z) :=
  if on && (i + min <=? size) then
    let? c := popcnt_simd s rd (a + i) ((size - i) / vbytes s) in
    Ok (size - size mod vbytes s, wrap 64 (cnt + c))
  else Ok (i, cnt).

(** popcnt on x86, lines 559-660. *)
Definition popcnt_x86 (c : cpu) (rd : Z -> option Z) (a size : Z) : res Z :=
  let? (i, cnt) := simd_part avx512 (has_avx512 c) 1024 rd a size 0 0 in
  let? (i, cnt) := simd_part avx2 (has_avx2 c) 512 rd a size i cnt in
  let fuel := S (Z.to_nat (size / 8)) in
  if has_popcnt c then
    let? (i, cnt) :=
      pop_words popcnt64 rd a fuel (size - size mod 8) i cnt in
    pop_bytes rd a 8 size i cnt
  else
    let? (i, cnt) :=
      pop_words popcount64 rd a fuel (size - size mod 8) i cnt in
    if i <? size then
      let? val := load_bytes rd (a + i) (Z.to_nat (size - i)) in
      Ok (wrap 64 (cnt + popcount64 val))
    else Ok cnt.

(** Alignment prologue, lines 741-742 and 780-781:
    for (; (uintptr_t)(ptr + i) % 8; i++): (i, cnt). *)
Fixpoint pop_align (rd : Z -> option Z) (a : Z) (fuel : nat) (i cnt : Z)
  : res (Z * Z) :=
  if (a + i) mod 8 =? 0 then Ok (i, cnt) else
  match fuel with
  | O => Fuel
  | S f =>
    let? x := load_bytes rd (a + i) 1 in
    pop_align rd a f (i + 1) (wrap 64 (cnt + popcnt64 x))
  end.

(** popcnt on other CPUs, lines 767-790. *)
Definition popcnt_generic (rd : Z -> option Z) (a size : Z) : res Z :=
  let? (i, cnt) :=
    (if 8 <=? size then
       let? (i, cnt) := pop_align rd a 8 0 0 in
       pop_words popcnt64 rd a (S (Z.to_nat (size / 8)))
                 (size - size mod 8) i cnt
     else Ok (0, 0)) in
  pop_bytes rd a 16 size i cnt.

(** vld4q_u8 of line 706: the 64 bytes [v] split into four vectors of 16 bytes,
    byte k of input.val[j] being byte 4*k+j. *)
Definition vld4q (v j : Z) : list Z :=
  map (fun k => lane 8 (4 * k + j) v)
      [0; 1; 2; 3; 4; 5; 6; 7; 8; 9; 10; 11; 12; 13; 14; 15].

(** vcntq_u8 and vaddq_u8 of lines 709-712, by their documented meaning. *)
Definition vcntq (x : list Z) : list Z := map builtin_popcount x.
Definition vaddq (x y : list Z) : list Z :=
  map (fun q => wrap 8 (fst q + snd q)) (combine x y).

(** vpaddlq_u8 and vpaddlq_u16 of line 669: sums of neighbouring lanes, in
    lanes of [k] bits. *)
Fixpoint vpaddl (k : Z) (x : list Z) : list Z :=
  match x with
  | a :: b :: l => wrap k (a + b) :: vpaddl k l
  | _ => []
  end.

(** vpadalq, lines 667-670. *)
Definition vpadalq (sum t : list Z) : list Z :=
  add64 sum (vpaddl 64 (vpaddl 32 (vpaddl 16 t))).

(** The four vectors zero of lines 685 and 689-692. *)
Definition neon_zero : list (list Z) := repeat (repeat 0 16) 4.

(** The loop of lines 703-713: (i, ptr, the vectors t0, t1, t2, t3). *)
Fixpoint neon_inner (rd : Z -> option Z) (fuel : nat) (limit i ptr : Z)
  (t : list (list Z)) : res (Z * Z * list (list Z)) :=
  if limit <=? i then Ok (i, ptr, t) else
  match fuel with
  | O => Fuel
  | S f =>
    let? v := load_bytes rd ptr 64 in
    let input := map (vld4q v) [0; 1; 2; 3] in
    neon_inner rd f limit (i + 1) (ptr + 64)
      (map (fun q => vaddq (fst q) (vcntq (snd q))) (combine t input))
  end.

(** The do loop of lines 687-720: (ptr, sum). *)
Fixpoint neon_outer (rd : Z -> option Z) (fuel : nat) (iters i ptr : Z)
  (sum : list Z) : res (Z * list Z) :=
  match fuel with
  | O => Fuel
  | S f =>
    let limit := if i + 31 <? iters then i + 31 else iters in
    let? (i, ptr, t) := neon_inner rd 31 limit i ptr neon_zero in
    let sum := fold_left vpadalq t sum in
    if i <? iters then neon_outer rd f iters i ptr sum else Ok (ptr, sum)
  end.

(** popcnt with NEON, lines 677-757; [unaligned] is whether
    __ARM_FEATURE_UNALIGNED is defined (line 731). *)
Definition popcnt_neon (unaligned : bool) (rd : Z -> option Z) (a size : Z)
  : res Z :=
  let? (ptr, size, cnt) :=
    (if 64 <=? size then
       let iters := size / 64 in
       let? (ptr, sum) := neon_outer rd (S (Z.to_nat (iters / 31))) iters 0 a [0; 0] in
       Ok (ptr, size mod 64,
           wrap 64 (wrap 64 (0 + nth 0 sum 0) + nth 1 sum 0))
     else Ok (a, size, 0)) in
  let fuel := S (Z.to_nat (size / 8)) in
  let? (i, cnt) :=
    (if unaligned then
       pop_words popcnt64 rd ptr fuel (size - size mod 8) 0 cnt
     else if 8 <=? size then
       let? (i, cnt) := pop_align rd ptr 8 0 cnt in
       pop_words popcnt64 rd ptr fuel (size - size mod 8) i cnt
     else Ok (0, cnt)) in
  if i <? size then
    let? val := load_bytes rd (ptr + i) (Z.to_nat (size - i)) in
    Ok (wrap 64 (cnt + popcount64 val))
  else Ok cnt.

(** Which variant of popcnt the target has (the #if of lines 552, 662, 731,
    760). *)
Inductive target : Type := X86 (c : cpu) | Neon (unaligned : bool) | Generic.

Definition popcnt (t : target) (rd : Z -> option Z) (a size : Z) : res Z :=
  match t with  (* lines 552, 662, 760 *)
  | X86 c => popcnt_x86 c rd a size
  | Neon u => popcnt_neon u rd a size
  | Generic => popcnt_generic rd a size
  end.
