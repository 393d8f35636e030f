(** Model of the choice of instructions in
    /repo/include/bitlib/bit-algorithms/libpopcnt.h: the preprocessor conditions,
    get_cpuid and the conditions in popcnt (line numbers refer to that file). *)
From Coq Require Import ZArith Bool List.
From Verif Require Import Base PopcntModel.
Import ListNotations.
Open Scope Z_scope.

(** What is known when the header is compiled for x86. [d_avx512]:
    __AVX512__ or __AVX512BW__ is defined (lines 136, 591); [d_avx2]: __AVX2__ (137,
    606); [d_popcnt]: __POPCNT__ (138, 627); [have_popcnt], [have_avx2],
    [have_avx512]: HAVE_POPCNT, HAVE_AVX2, HAVE_AVX512, which depend on the
    compiler (lines 72-124). *)
Record macros : Type := Macros {
  have_popcnt : bool; have_avx2 : bool; have_avx512 : bool;
  d_popcnt : bool; d_avx2 : bool; d_avx512 : bool }.

(** HAVE_CPUID, lines 131-140, in C++ on x86. *)
Definition have_cpuid (c : macros) : bool :=
  (have_avx512 c && negb (d_avx512 c)) || (have_avx2 c && negb (d_avx2 c)) ||
  (have_popcnt c && negb (d_popcnt c)).

(** The machine as cpuid and xgetbv show it (lines 249-296): [ebx] and [ecx] give
    two registers of a leaf for subleaf 0, [max_leaf] is the highest leaf, [xcr0] the
    register read by xgetbv. *)
Record machine : Type := Machine {
  max_leaf : Z; ebx : Z -> Z; ecx : Z -> Z; xcr0 : Z }.

(** run_cpuid(leaf, 0, abcd), lines 249-280: (abcd[1], abcd[2]). A leaf above the
    highest one gives the data of the highest one (Intel manual, instruction
    CPUID). *)
Definition run_cpuid (m : machine) (leaf : Z) : Z * Z :=
  let l := if leaf <=? max_leaf m then leaf else max_leaf m in
  (ebx m l, ecx m l).

(** The masks of lines 237-247, 313 and 319-320. *)
Definition bit_POPCNT : Z := 2 ^ 23.
Definition bit_AVX2 : Z := 2 ^ 5.
Definition bit_AVX512 : Z := 2 ^ 30.
Definition osxsave_mask : Z := 2 ^ 27.
Definition ymm_mask : Z := 2 ^ 1 + 2 ^ 2.
Definition zmm_mask : Z := 2 ^ 1 + 2 ^ 2 + 7 * 2 ^ 5.

(** (x & mask) == mask, lines 307, 316, 324, 328, 331 and 333. *)
Definition has_mask (x mask : Z) : bool := Z.land x mask =? mask.

(** get_xcr0, lines 285-296: xgetbv is an invalid instruction unless the operating
    system has set OSXSAVE. *)
Definition get_xcr0 (m : machine) : res Z :=
  if has_mask (snd (run_cpuid m 1)) osxsave_mask then Ok (xcr0 m) else UB BadUse.

(** get_cpuid, lines 300-341. *)
Definition get_cpuid (c : macros) (m : machine) : res Z :=
  let c1 := snd (run_cpuid m 1) in
  let flags := if has_mask c1 bit_POPCNT then bit_POPCNT else 0 in
  if have_avx2 c || have_avx512 c then
    if negb (has_mask c1 osxsave_mask) then Ok 0
    else
      let? x := get_xcr0 m in
      if has_mask x ymm_mask then
        let b7 := fst (run_cpuid m 7) in
        let flags := if has_mask b7 bit_AVX2 then Z.lor flags bit_AVX2 else flags in
        let flags :=
          if has_mask x zmm_mask then
            if has_mask b7 bit_AVX512 then Z.lor flags bit_AVX512 else flags
          else flags in
        Ok flags
      else Ok flags
  else Ok flags.

(** One of the conditions of popcnt, lines 590-596, 605-611 and 620-629: [fixed] is the
    macro that makes the test unnecessary; otherwise cpuid & mask is tested, and
    cpuid is declared (lines 570-588) only if HAVE_CPUID is defined. None: does not
    compile. *)
Definition chosen (have fixed : bool) (cpuid : option Z) (mask : Z) : option bool :=
  if negb have then Some false
  else if fixed then Some true
  else match cpuid with
       | Some flags => Some (negb (Z.land flags mask =? 0))
       | None => None
       end.

(** The instructions popcnt uses, lines 559-660, which are the parameter of
    PopcntModel.popcnt_x86. *)
Definition select (c : macros) (m : machine) : res (option cpu) :=
  let? cpuid := (if have_cpuid c then let? f := get_cpuid c m in Ok (Some f)
                 else Ok None) in
  Ok (match chosen (have_avx512 c) (d_avx512 c) cpuid bit_AVX512,
            chosen (have_avx2 c) (d_avx2 c) cpuid bit_AVX2,
            chosen (have_popcnt c) (d_popcnt c) cpuid bit_POPCNT with
      | Some a, Some b, Some p => Some (Cpu a b p)
      | _, _, _ => None
      end).
