(** count of /repo/include/bitlib/bit-algorithms/count.hpp and libpopcnt.h once more, as the
    sequence of bytes that they read: the definitions of PopcntModel and of AlgModel.count
    text for text, over [thread] (ThreadModel), here a sequence of reads of bytes.
    Simplification: a word or a vector is read byte by byte from its first byte on, the
    words little endian. Line numbers of libpopcnt.h unless count.hpp is named. *)
From Coq Require Import ZArith Bool List.
From Verif Require Import Base WordOps IterModel PopcntModel ThreadModel.
Import ListNotations.
Open Scope Z_scope.

Definition ret {A} (a : A) : thread A := Done (Ok a).  (* value; no /repo lines *)

(** A computation that does not touch memory (no /repo lines). *)
Definition lift {A} (r : res A) : thread A := Done r.

Local Notation "'let*' x := c 'in' k" := (tbind c (fun x => k))
  (at level 200, x pattern, c at level 100, k at level 200).
Local Notation "'let!' x := r 'in' k" := (tbind (lift r) (fun x => k))
  (at level 200, x pattern, r at level 100, k at level 200).

(** Little endian load of [n] bytes at address [a]: the casts to uint64_t* of
    line 633, memcpy of line 654, _mm256_loadu_si256 of line 413. *)
Fixpoint load_bytes (a : Z) (n : nat) : thread Z :=
  match n with
  | O => ret 0
  | S n' => Read a (fun b => let* r := load_bytes (a + 1) n' in ret (b + 256 * r))
  end.

(** Unaligned vector load number [k] from [a], lines 413, 509. *)
Definition vload (s : simd) (a k : Z) : thread Z :=
  load_bytes (a + k * vbytes s) (Z.to_nat (vbytes s)).

(** Two vectors into [ones]: e.g. line 413. Returns (twosX, ones). *)
Definition csa_load (s : simd) (a k o : Z)
  : thread (Z * Z) :=
  let* x := vload s a k in
  let* y := vload s a (k + 1) in
  ret (vcsa s o x y).

(** Body of the main loop, lines 413-427 and 509-523: (sixteens, accumulators). *)
Definition hs_block (s : simd) (a i : Z) (h : hs)
  : thread (Z * hs) :=
  let* (twosA, o1) := csa_load s a (i + 0) (ones h) in
  let* (twosB, o2) := csa_load s a (i + 2) o1 in
  let (foursA, t1) := vcsa s (twos h) twosA twosB in
  let* (twosA, o3) := csa_load s a (i + 4) o2 in
  let* (twosB, o4) := csa_load s a (i + 6) o3 in
  let (foursB, t2) := vcsa s t1 twosA twosB in
  let (eightsA, f1) := vcsa s (fours h) foursA foursB in
  let* (twosA, o5) := csa_load s a (i + 8) o4 in
  let* (twosB, o6) := csa_load s a (i + 10) o5 in
  let (foursA, t3) := vcsa s t2 twosA twosB in
  let* (twosA, o7) := csa_load s a (i + 12) o6 in
  let* (twosB, o8) := csa_load s a (i + 14) o7 in
  let (foursB, t4) := vcsa s t3 twosA twosB in
  let (eightsB, f2) := vcsa s f1 foursA foursB in
  let (sixteens, e1) := vcsa s (eights h) eightsA eightsB in
  ret (sixteens, Hs o8 t4 f2 e1).

(** Main loop, lines 411-430 and 507-526. *)
Fixpoint hs_loop (s : simd) (a : Z) (fuel : nat)
  (limit i : Z) (cnt : list Z) (h : hs) : thread (Z * list Z * hs) :=
  if limit <=? i then ret (i, cnt, h) else
  match fuel with
  | O => Done Fuel
  | S f =>
    let* (sixteens, h') := hs_block s a i h in
    hs_loop s a f limit (i + 16) (add64 cnt (vpop s sixteens)) h'
  end.

(** Remaining vectors, lines 438-439 and 534-535. *)
Fixpoint hs_tail (s : simd) (a : Z) (fuel : nat)
  (size i : Z) (cnt : list Z) : thread (list Z) :=
  if size <=? i then ret cnt else
  match fuel with
  | O => Done Fuel
  | S f =>
    let* x := vload s a i in
    hs_tail s a f size (i + 1) (add64 cnt (vpop s x))
  end.

(** popcnt_avx2 and popcnt_avx512, lines 397-447 and 493-547; [size] counts
    vectors. *)
Definition popcnt_simd (s : simd) (a size : Z) : thread Z :=
  let limit := size - size mod 16 in
  let* (ic, h) := hs_loop s a (Z.to_nat (size / 16)) limit 0
                           (vzero s) (Hs 0 0 0 0) in
  let (i, cnt) := ic : Z * list Z in
  let cnt := slli64 4 cnt in
  let cnt := add64 cnt (slli64 3 (vpop s (eights h))) in
  let cnt := add64 cnt (slli64 2 (vpop s (fours h))) in
  let cnt := add64 cnt (slli64 1 (vpop s (twos h))) in
  let cnt := add64 cnt (vpop s (ones h)) in
  let* cnt := hs_tail s a 16 size i cnt in
  ret (wrap 64 (fold_left Z.add cnt 0)).

(** for (; i < limit; i += 8) cnt += pop(8 bytes), lines 632-633, 647-648,
    743-744, 782-783: (i, cnt). *)
Fixpoint pop_words (pop : Z -> Z) (a : Z) (fuel : nat)
  (limit i cnt : Z) : thread (Z * Z) :=
  if limit <=? i then ret (i, cnt) else
  match fuel with
  | O => Done Fuel
  | S f =>
    let* x := load_bytes (a + i) 8 in
    pop_words pop a f limit (i + 8) (wrap 64 (cnt + pop x))
  end.

(** for (; i < size; i++) cnt += popcnt64(ptr[i]), lines 634-635, 786-787. *)
Fixpoint pop_bytes (a : Z) (fuel : nat)
  (size i cnt : Z) : thread Z :=
  if size <=? i then ret cnt else
  match fuel with
  | O => Done Fuel
  | S f =>
    let* x := load_bytes (a + i) 1 in
    pop_bytes a f size (i + 1) (wrap 64 (cnt + popcnt64 x))
  end.

(** The vector part of popcnt for one instruction set, lines 593-602 and
    608-617: (i, cnt). [min] is the minimal size, 1024 or 512 bytes. *)
Definition simd_part (s : simd) (on : bool) (min : Z) 
  (a size i cnt : Z) : thread (Z * Z) :=
  if on && (i + min <=? size) then
    let* c := popcnt_simd s (a + i) ((size - i) / vbytes s) in
    ret (size - size mod vbytes s, wrap 64 (cnt + c))
  else ret (i, cnt).

(** popcnt on x86, lines 559-660. *)
Definition popcnt_x86 (c : cpu) (a size : Z) : thread Z :=
  let* (i, cnt) := simd_part avx512 (has_avx512 c) 1024 a size 0 0 in
  let* (i, cnt) := simd_part avx2 (has_avx2 c) 512 a size i cnt in
  let fuel := S (Z.to_nat (size / 8)) in
  if has_popcnt c then
    let* (i, cnt) :=
      pop_words popcnt64 a fuel (size - size mod 8) i cnt in
    pop_bytes a 8 size i cnt
  else
    let* (i, cnt) :=
      pop_words popcount64 a fuel (size - size mod 8) i cnt in
    if i <? size then
      let* val := load_bytes (a + i) (Z.to_nat (size - i)) in
      ret (wrap 64 (cnt + popcount64 val))
    else ret cnt.

(** Alignment prologue, lines 741-742 and 780-781:
    for (; (uintptr_t)(ptr + i) % 8; i++): (i, cnt). *)
Fixpoint pop_align (a : Z) (fuel : nat) (i cnt : Z)
  : thread (Z * Z) :=
  if (a + i) mod 8 =? 0 then ret (i, cnt) else
  match fuel with
  | O => Done Fuel
  | S f =>
    let* x := load_bytes (a + i) 1 in
    pop_align a f (i + 1) (wrap 64 (cnt + popcnt64 x))
  end.

(** popcnt on other CPUs, lines 767-790. *)
Definition popcnt_generic (a size : Z) : thread Z :=
  let* (i, cnt) :=
    (if 8 <=? size then
       let* (i, cnt) := pop_align a 8 0 0 in
       pop_words popcnt64 a (S (Z.to_nat (size / 8)))
                 (size - size mod 8) i cnt
     else ret (0, 0)) in
  pop_bytes a 16 size i cnt.

(** The loop of lines 703-713: (i, ptr, the vectors t0, t1, t2, t3). *)
Fixpoint neon_inner (fuel : nat) (limit i ptr : Z)
  (t : list (list Z)) : thread (Z * Z * list (list Z)) :=
  if limit <=? i then ret (i, ptr, t) else
  match fuel with
  | O => Done Fuel
  | S f =>
    let* v := load_bytes ptr 64 in
    let input := map (vld4q v) [0; 1; 2; 3] in
    neon_inner f limit (i + 1) (ptr + 64)
      (map (fun q => vaddq (fst q) (vcntq (snd q))) (combine t input))
  end.

(** The do loop of lines 687-720: (ptr, sum). *)
Fixpoint neon_outer (fuel : nat) (iters i ptr : Z)
  (sum : list Z) : thread (Z * list Z) :=
  match fuel with
  | O => Done Fuel
  | S f =>
    let limit := if i + 31 <? iters then i + 31 else iters in
    let* (i, ptr, t) := neon_inner 31 limit i ptr neon_zero in
    let sum := fold_left vpadalq t sum in
    if i <? iters then neon_outer f iters i ptr sum else ret (ptr, sum)
  end.

(** popcnt with NEON, lines 677-757; [unaligned] is whether
    __ARM_FEATURE_UNALIGNED is defined (line 731). *)
Definition popcnt_neon (unaligned : bool) (a size : Z)
  : thread Z :=
  let* (ptr, size, cnt) :=
    (if 64 <=? size then
       let iters := size / 64 in
       let* (ptr, sum) := neon_outer (S (Z.to_nat (iters / 31))) iters 0 a [0; 0] in
       ret (ptr, size mod 64,
           wrap 64 (wrap 64 (0 + nth 0 sum 0) + nth 1 sum 0))
     else ret (a, size, 0)) in
  let fuel := S (Z.to_nat (size / 8)) in
  let* (i, cnt) :=
    (if unaligned then
       pop_words popcnt64 ptr fuel (size - size mod 8) 0 cnt
     else if 8 <=? size then
       let* (i, cnt) := pop_align ptr 8 0 cnt in
       pop_words popcnt64 ptr fuel (size - size mod 8) i cnt
     else ret (0, cnt)) in
  if i <? size then
    let* val := load_bytes (ptr + i) (Z.to_nat (size - i)) in
    ret (wrap 64 (cnt + popcount64 val))
  else ret cnt.

(** Which variant of popcnt the target has (the #if of lines 552, 662, 731,
    760). *)
Definition popcnt (t : target) (a size : Z) : thread Z :=
  match t with
  | X86 c => popcnt_x86 c a size
  | Neon u => popcnt_neon u a size
  | Generic => popcnt_generic a size
  end.

(** Read of the word at [a] (count.hpp:57, 99, 105). *)
Definition load (w a : Z) : thread Z := load_bytes (a * (w / 8)) (Z.to_nat (w / 8)).

(** count, count.hpp:34-117, on target [t]. *)
Definition count (t : target) (p : policy) (w : Z) (first last : iter)
  (value : bool) : thread Z :=
  let! _ := assert_viable w first last in
  let* result :=
    (if negb (ib first =? ib last) then
       let* (result, it) :=
         (if negb (ip first =? 0) then
            let* x := load w (ib first) in
            let! s := cshr p w x (ip first) in
            ret (popcnt_intrin w (wrap w s), ib first + 1)
          else ret (0, ib first)) in
       let* c := popcnt t (it * (w / 8)) (w / 8 * (ib last - it)) in
       let result := swrap64 (result + c) in
       if negb (ip last =? 0) then
         let* x := load w (ib last) in
         let! s := cshl p w x (w - ip last) in
         ret (swrap64 (result + popcnt_intrin w (wrap w s)))
       else ret result
     else
       let* x := load w (ib first) in
       let! e := bextr p w x (ip first) (ip last - ip first) in
       ret (popcnt_intrin w e)) in
  if negb value then
    let! d := idiff w last first in
    ret (d - result)
  else ret result.
