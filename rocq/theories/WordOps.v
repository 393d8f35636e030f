(** Model of /repo/include/bitlib/bit-iterator/bit_details.hpp.
    Line numbers without a file name refer to that file. [w] is digits, the
    width of the word type T; [p] is the shift policy of Base.v. *)
From Coq Require Import ZArith Bool List.
From Verif Require Import Base.
Import ListNotations.
Open Scope Z_scope.

(** Result of + - * on operands of type T: int for T narrower than int, T
    (modulo 2^w) otherwise. Usual arithmetic conversions in lines 541, 759, 785.
    Simplification: int arithmetic here never leaves the range of int. *)
Definition arith (w x : Z) : Z := if w <? 32 then x else wrap w x.

(** Documented meaning of __builtin_popcount / __builtin_popcountl, used in
    lines 400-404. *)
Fixpoint pos_popcount (q : positive) : Z :=
  match q with
  | xH => 1
  | xO q' => pos_popcount q'
  | xI q' => 1 + pos_popcount q'
  end.

Definition builtin_popcount (x : Z) : Z :=  (* lines 400-404 *)
  match x with Zpos q => pos_popcount q | _ => 0 end.

(** Documented meaning of __builtin_clz{,l} for a positive argument of an
    [n]-bit type: lines 435-454. *)
Definition builtin_clz (n x : Z) : Z := n - 1 - Z.log2 x.

(** Documented meaning of __builtin_ctz{,l} for a positive argument:
    lines 486-490. *)
Fixpoint pos_ctz (q : positive) : Z :=
  match q with xO q' => 1 + pos_ctz q' | _ => 0 end.

Definition builtin_ctz (x : Z) : Z :=  (* lines 486-490 *)
  match x with Zpos q => pos_ctz q | _ => 0 end.

(** What a call of the overload without intrinsics leaves for the one with
    intrinsics, which assigns it to src or dst (lines 406, 456, 492). The loops
    of the former end, so that the other cases do not arise. *)
Definition assigned (r : res Z) : Z :=
  match r with Ok v => v | _ => 0 end.

(** _popcnt with intrinsics, lines 399-404; the result is converted to T. *)
Definition popcnt_builtin (w x : Z) : Z := wrap w (builtin_popcount x).

(** _popcnt without intrinsics, lines 412-421; [fuel] bounds the loop. *)
Fixpoint popcnt_loop (w : Z) (fuel : nat) (src dst : Z) : res Z :=
  if src =? 0 then Ok dst else
  match fuel with
  | O => Fuel
  | S f => popcnt_loop w f (Z.shiftr src 1) (wrap w (dst + Z.land src 1))
  end.

Definition popcnt_fallback (w x : Z) : res Z :=  (* lines 412-421 *)
  popcnt_loop w (Z.to_nat w) x 0.

(** _popcnt with intrinsics, lines 394-409. *)
Definition popcnt_intrin (w x : Z) : Z :=
  if w <=? 64 then popcnt_builtin w x else assigned (popcnt_fallback w x).

(** _lzcnt with intrinsics, lines 434-454. *)
Definition lzcnt_builtin (w x : Z) : Z :=
  if x =? 0 then w
  else if w <? 32 then wrap w (builtin_clz 32 x - (32 - w))
  else wrap w (builtin_clz w x).

(** _lzcnt without intrinsics, lines 462-472: while (src >>= 1) ++dst. *)
Fixpoint lzcnt_loop (w : Z) (fuel : nat) (src dst : Z) : res Z :=
  let src' := Z.shiftr src 1 in
  if src' =? 0 then Ok dst else
  match fuel with
  | O => Fuel
  | S f => lzcnt_loop w f src' (wrap w (dst + 1))
  end.

Definition lzcnt_fallback (w x : Z) : res Z :=  (* lines 462-472 *)
  let? dst := lzcnt_loop w (Z.to_nat w) x (b2z (negb (x =? 0))) in
  Ok (wrap w (w - dst)).

(** _lzcnt with intrinsics, lines 428-459. *)
Definition lzcnt_intrin (w x : Z) : Z :=
  if w <=? 64 then lzcnt_builtin w x else assigned (lzcnt_fallback w x).

(** _tzcnt with intrinsics, lines 485-490. *)
Definition tzcnt_builtin (w x : Z) : Z :=
  if x =? 0 then w else wrap w (builtin_ctz x).

(** _tzcnt without intrinsics, lines 498-511. *)
Fixpoint tzcnt_loop (w : Z) (fuel : nat) (src dst : Z) : res Z :=
  if src =? 0 then Ok dst else
  match fuel with
  | O => Fuel
  | S f => tzcnt_loop w f (Z.shiftr src 1) (wrap w (dst + 1))
  end.

Definition tzcnt_fallback (w x : Z) : res Z :=  (* lines 498-511 *)
  if x =? 0 then Ok w
  else tzcnt_loop w (Z.to_nat w) (Z.shiftr (Z.lxor x (arith w (x - 1))) 1) 0.

(** _tzcnt with intrinsics, lines 479-495. *)
Definition tzcnt (w x : Z) : Z :=
  if w <=? 64 then tzcnt_builtin w x else assigned (tzcnt_fallback w x).

(** _bextr without intrinsics (the overload selected by GCC, since the
    intrinsic one is ill-formed), lines 535-543. *)
Definition bextr (p : policy) (w src start len : Z) : res Z :=
  let? s1 := cshl p w 1 len in
  let msk := wrap w (s1 * b2z (len <? w) - 1) in
  let? s2 := cshr p w src start in
  Ok (wrap w (Z.land s2 (msk * b2z (start <? w)))).

(** _pdep without intrinsics, lines 567-585. *)
Fixpoint pdep_loop (p : policy) (w : Z) (fuel : nat) (src msk dst cnt : Z)
  : res (Z * Z) :=
  if msk =? 0 then Ok (dst, cnt) else
  match fuel with
  | O => Fuel
  | S f =>
    let dst1 := Z.shiftr dst 1 in
    if Z.testbit msk 0 then
      let? hi := cshl p w src (w - 1) in
      pdep_loop p w f (Z.shiftr src 1) (Z.shiftr msk 1)
                (wrap w (Z.lor dst1 hi)) (cnt + 1)
    else pdep_loop p w f src (Z.shiftr msk 1) dst1 (cnt + 1)
  end.

Definition pdep (p : policy) (w src msk : Z) : res Z :=  (* lines 567-585 *)
  let? (dst, cnt) := pdep_loop p w (Z.to_nat w) src msk 0 0 in
  cshr p w dst ((w - cnt) * b2z (0 <? cnt)).

(** _pext without intrinsics, lines 609-627. *)
Fixpoint pext_loop (p : policy) (w : Z) (fuel : nat) (src msk dst cnt : Z)
  : res (Z * Z) :=
  if msk =? 0 then Ok (dst, cnt) else
  match fuel with
  | O => Fuel
  | S f =>
    if Z.testbit msk 0 then
      let? hi := cshl p w src (w - 1) in
      pext_loop p w f (Z.shiftr src 1) (Z.shiftr msk 1)
                (wrap w (Z.lor (Z.shiftr dst 1) hi)) (cnt + 1)
    else pext_loop p w f (Z.shiftr src 1) (Z.shiftr msk 1) dst cnt
  end.

Definition pext (p : policy) (w src msk : Z) : res Z :=  (* lines 609-627 *)
  let? (dst, cnt) := pext_loop p w (Z.to_nat w) src msk 0 0 in
  cshr p w dst ((w - cnt) * b2z (0 <? cnt)).

(** Byte [i] of the object representation of an integer (little endian, x86),
    used by lines 667-672. *)
Definition byte_of (x i : Z) : Z := (x / 2 ^ (8 * i)) mod 256.

(** Assignment to a byte of the object representation, lines 671-672. *)
Definition set_byte (x i v : Z) : Z :=
  x + (v - byte_of x i) * 2 ^ (8 * i).

(** Documented meaning of __builtin_bswap16/32/64 for [n] bytes:
    lines 648-652. *)
Fixpoint builtin_bswap (n : nat) (x : Z) : Z :=
  match n with
  | O => 0
  | S n' => (x mod 256) * 2 ^ (8 * Z.of_nat n') + builtin_bswap n' (x / 256)
  end.

(** _byteswap with intrinsics, lines 634-657 (one byte: unchanged). For
    unsigned __int128 (lines 642-646) the halves are swapped through a
    uint64_t pointer to the parameter, the low half first in memory.
    Simplification: these accesses break the aliasing rule of C++17
    [basic.lval]; the model does what the machine does without regard to it. *)
Definition byteswap_intrin (w x : Z) : Z :=
  if w =? 8 then x
  else if w =? 128 then
    builtin_bswap 8 (x / 2 ^ 64) + builtin_bswap 8 (x mod 2 ^ 64) * 2 ^ 64
  else builtin_bswap (Z.to_nat (w / 8)) x.

(** _byteswap without intrinsics, lines 660-675: loop over i < half. *)
Fixpoint byteswap_loop (w : Z) (fuel : nat) (i src : Z) : res Z :=
  if w / 8 / 2 <=? i then Ok src else
  match fuel with
  | O => Fuel
  | S f =>
    let byte := byte_of src i in
    let src1 := set_byte src i (byte_of src (w / 8 - 1 - i)) in
    byteswap_loop w f (i + 1) (set_byte src1 (w / 8 - 1 - i) byte)
  end.

Definition byteswap_fallback (w x : Z) : res Z :=  (* lines 660-675 *)
  byteswap_loop w 8 0 x.

(** Mask for the recursive _bitswap, lines 726-738: while (cnt != N). *)
Fixpoint bitswap_mask (p : policy) (w : Z) (fuel : nat) (n cnt msk : Z)
  : res Z :=
  if cnt =? n then Ok msk else
  match fuel with
  | O => Fuel
  | S f =>
    let cnt' := Z.shiftr cnt 1 in
    let? s := cshl p w msk cnt' in
    bitswap_mask p w f n cnt' (wrap w (Z.lxor msk s))
  end.

(** Recursive _bitswap<T, N>, lines 715-723. *)
Fixpoint bitswap_rec (p : policy) (w : Z) (fuel : nat) (n src : Z) : res Z :=
  match fuel with
  | O => Fuel
  | S f =>
    let cnt := Z.shiftr n 1 in
    let? msk := bitswap_mask p w 7 cnt w (2 ^ w - 1) in
    let? r := cshr p w src cnt in
    let? l := cshl p w src cnt in
    let src' := wrap w (Z.lor (Z.land r msk) (Z.land l (Z.lnot msk))) in
    if 1 <? cnt then bitswap_rec p w f cnt src' else Ok src'
  end.

(** _bitswap, lines 682-712. The third branch (digits not a power of two) does
    not exist for the modelled widths. *)
Definition bitswap (p : policy) (w src : Z) : res Z :=
  if w =? 8 then
    Ok (wrap 8 (Z.shiftr
      (wrap 64 (Z.land (wrap 64 (src * 2149582850)) 36578664720 * 4311810305))
      32))
  else bitswap_rec p w 7 w src.

(** _bitblend with a mask, lines 745-750. *)
Definition bitblend_mask (src0 src1 msk : Z) : Z :=
  Z.lxor src0 (Z.land (Z.lxor src0 src1) msk).

(** _bitblend with start and len, lines 753-761. *)
Definition bitblend (p : policy) (w src0 src1 start len : Z) : res Z :=
  let? s1 := cshl p w 1 len in
  let? s2 := cshl p w (arith w (s1 * b2z (len <? w) - 1)) start in
  let msk := wrap w s2 in
  Ok (wrap w (Z.lxor src0
                (Z.land (Z.lxor src0 src1) (msk * b2z (start <? w))))).

(** _bitexch with a mask, lines 768-775. [a0], [a1] are the addresses of the
    referenced words src0, src1, which may be equal. *)
Definition bitexch_mask (a0 a1 msk : Z) : M unit :=
  let* x := load a0 in
  let* y := load a1 in
  store a0 (Z.lxor x (Z.land y msk)) ;;
  let* y := load a1 in
  let* x := load a0 in
  store a1 (Z.lxor y (Z.land x msk)) ;;
  let* x := load a0 in
  let* y := load a1 in
  store a0 (Z.lxor x (Z.land y msk)).

(** _bitexch with start and len, lines 778-790. *)
Definition bitexch2 (p : policy) (w a0 a1 start len : Z) : M unit :=
  let! msk :=
    (if len <? w then
       let? s1 := cshl p w 1 len in
       let? s2 := cshl p w (arith w (s1 - 1)) start in
       Ok (wrap w s2)
     else Ok (wrap w (-1))) in
  bitexch_mask a0 a1 msk.

(** One statement [src0 = src0 ^ (T(shifted src1) & T(msk << start0))] of
    lines 804-834; [left] tells the direction of the shift by [d]. *)
Definition exch_step (p : policy) (w a0 a1 : Z) (left : bool)
  (d msk start : Z) : M unit :=
  let* x := load a0 in
  let* y := load a1 in
  let! s := (if left then cshl p w y d else cshr p w y d) in
  let! k := cshl p w msk start in
  store a0 (Z.lxor x (Z.land (wrap w s) (wrap w k))).

(** _bitexch with two starts and len, lines 795-837. *)
Definition bitexch3 (p : policy) (w a0 a1 start0 start1 len : Z) : M unit :=
  let! msk :=
    (if len <? w then
       let? s1 := cshl p w 1 len in
       Ok (wrap w (s1 - 1))
     else Ok (wrap w (-1))) in
  if start1 <=? start0 then
    exch_step p w a0 a1 true (start0 - start1) msk start0 ;;
    exch_step p w a1 a0 false (start0 - start1) msk start1 ;;
    exch_step p w a0 a1 true (start0 - start1) msk start0
  else
    exch_step p w a0 a1 false (start1 - start0) msk start0 ;;
    exch_step p w a1 a0 true (start1 - start0) msk start1 ;;
    exch_step p w a0 a1 false (start1 - start0) msk start0.

(** _bitcmp, lines 844-849. *)
Definition bitcmp (p : policy) (w src0 src1 start0 start1 len : Z) : res Z :=
  let? x := bextr p w src0 start0 len in
  let? y := bextr p w src1 start1 len in
  Ok (b2z (x =? y)).

(** _shld, lines 856-867. *)
Definition shld (p : policy) (w dst src cnt : Z) : res Z :=
  if cnt <? w then
    let? l := cshl p w dst cnt in
    let? r := cshr p w src (w - cnt) in
    Ok (wrap w (Z.lor l r))
  else
    let? l := cshl p w src (cnt - w) in
    Ok (wrap w (l * b2z (cnt <? w + w))).

(** _shrd, lines 874-885. *)
Definition shrd (p : policy) (w dst src cnt : Z) : res Z :=
  if cnt <? w then
    let? r := cshr p w dst cnt in
    let? l := cshl p w src (w - cnt) in
    Ok (wrap w (Z.lor r l))
  else
    let? r := cshr p w src (cnt - w) in
    Ok (wrap w (r * b2z (cnt <? w + w))).

(** _addcarry without intrinsics, lines 919-925: (carry out, *dst). *)
Definition addcarry_fallback (w carry src0 src1 : Z) : bool * Z :=
  let dst := wrap w (src0 + src1 + b2z (negb (carry =? 0))) in
  (if carry =? 0 then (dst <? src0) || (dst <? src1)
   else (dst <=? src0) || (dst <=? src1), dst).

(** _addcarry with intrinsics, lines 892-916: __builtin_ia32_addcarryx_u32/u64
    by their documented meaning for 32/64 bits; _wider_type (lines 221-256)
    never yields a wider type, so other words use the fallback.  The
    intrinsics take the carry as an unsigned char, so only the low eight bits
    of a carry of a wider type C reach them (lines 902, 905). *)
Definition addcarry_intrin (w carry src0 src1 : Z) : bool * Z :=
  if (w <? 32) || (64 <? w) then addcarry_fallback w carry src0 src1
  else
    let s := src0 + src1 + b2z (negb (wrap 8 carry =? 0)) in
    (2 ^ w <=? s, s mod 2 ^ w).

(** _subborrow without intrinsics, lines 987-993: (borrow out, *dst). *)
Definition subborrow_fallback (w borrow src0 src1 : Z) : bool * Z :=
  (if borrow =? 0 then src0 <? src1 else src0 <=? src1,
   wrap w (src0 - arith w (src1 + b2z (negb (borrow =? 0))))).

(** _subborrow with intrinsics, lines 932-984, as for _addcarry. *)
Definition subborrow_intrin (w borrow src0 src1 : Z) : bool * Z :=
  if (w <? 32) || (64 <? w) then subborrow_fallback w borrow src0 src1
  else
    let s := src0 - src1 - b2z (negb (wrap 8 borrow =? 0)) in
    (s <? 0, s mod 2 ^ w).

(** _mulx without intrinsics, lines 1024-1044: (hi, lo). *)
Definition mulx_fallback (p : policy) (w src0 src1 : Z) : res (Z * Z) :=
  let offset := w / 2 in
  let ones := wrap w (Z.lnot 0) in
  let? low := cshr p w ones (w - offset) in
  let lsbs0 := wrap w (Z.land src0 (wrap w low)) in
  let? msbs0 := cshr p w src0 offset in
  let lsbs1 := wrap w (Z.land src1 (wrap w low)) in
  let? msbs1 := cshr p w src1 offset in
  let llsbs := wrap w (lsbs0 * lsbs1) in
  let mlsbs := wrap w (msbs0 * lsbs1) in
  let lmsbs := wrap w (lsbs0 * msbs1) in
  let mi := wrap w (mlsbs + lmsbs) in
  let? mish := cshl p w mi offset in
  let lo := wrap w (llsbs + wrap w mish) in
  let lcarry := b2z ((lo <? llsbs) || (lo <? wrap w mish)) in
  let? mcarry := cshl p w (b2z ((mi <? mlsbs) || (mi <? lmsbs))) offset in
  let? mihi := cshr p w mi offset in
  Ok (wrap w (wrap w mihi + msbs0 * msbs1 + wrap w mcarry + lcarry), lo).

(** _mulx with intrinsics, lines 1000-1021: 128-bit product for 64-bit words;
    other words use the fallback because of _wider_type. *)
Definition mulx_intrin (p : policy) (w src0 src1 : Z) : res (Z * Z) :=
  if w =? 64 then
    let tmp := src0 * src1 in
    Ok (wrap w (Z.shiftr tmp w), wrap w tmp)
  else mulx_fallback p w src0 src1.
