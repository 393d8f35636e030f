(** Model of the members of bit_value that RefModel does not have, and of programs
    over bit_value variables and the bits of an array
    (/repo/include/bitlib/bit-iterator/bit_value.hpp; line numbers refer to that
    file unless another is named). [w] is the number of digits of the word type. A
    bit_value is its member _value (line 84), a bool. *)
From Coq Require Import ZArith Bool List.
From Verif Require Import Base WordOps IterModel RefModel.
Import ListNotations.
Open Scope Z_scope.

(** bit_value(), lines 149-153. *)
Definition value_default : bool := false.

(** bit_value(bool), lines 165-170. *)
Definition value_of_bool (b : bool) : bool := b.

(** bit_value(val), lines 173-180, and assign(val), lines 208-216: _value becomes
    [val & 1] converted to bool. *)
Definition value_of_word (val : Z) : bool := negb (Z.land val 1 =? 0).

(** bit_value(ref), lines 156-162, and operator=(ref), lines 197-205. *)
Definition value_of_ref (r : bref) : M bool := ref_get r.

(** explicit operator bool, lines 266-270. *)
Definition value_bool (v : bool) : bool := v.

(** swap(bit_value&), lines 277-282: std::swap, by way of a temporary. The first
    component is the new *this. *)
Definition value_swap (this other : bool) : bool * bool :=
  let tmp := this in
  let this' := other in
  let other' := tmp in
  (this', other').

(** set(b), set(), reset(), flip(), lines 301-330. *)
Definition value_set (b this : bool) : bool := b.
Definition value_set1 (this : bool) : bool := true.
Definition value_reset (this : bool) : bool := false.
Definition value_flip (this : bool) : bool := negb this.

(** The comparison operators, lines 378-431, on bool operands promoted to int. *)
Inductive cmp : Type := CEq | CNe | CLt | CLe | CGt | CGe.
Definition value_cmp (c : cmp) (l r : bool) : bool :=
  match c with
  | CEq => b2z l =? b2z r
  | CNe => negb (b2z l =? b2z r)
  | CLt => b2z l <? b2z r
  | CLe => b2z l <=? b2z r
  | CGt => b2z r <? b2z l
  | CGe => b2z r <=? b2z l
  end.

(** bit_off, bit_on, bit0, bit1, lines 507-510: made from 0U and 1U by the
    constructor of a word. *)
Definition bit_off : bool := value_of_word 0.
Definition bit_on : bool := value_of_word 1.
Definition bit0 : bool := value_of_word 0.
Definition bit1 : bool := value_of_word 1.
Inductive vconst : Type := KOff | KOn | K0 | K1.
Definition vconstant (k : vconst) : bool :=
  match k with KOff => bit_off | KOn => bit_on | K0 => bit0 | K1 => bit1 end.

(** Statements of a program with bit_value variables numbered [x], [y], [z] and
    references first[i]; lines of bit_value.hpp, or of bit_reference.hpp (R). *)
Inductive vstmt : Type :=
| SDefault (x : Z)                  (* x = bit_value(), 149-153 *)
| SBool (x : Z) (b : bool)          (* x = bit_value(b), 165-170 *)
| SWord (x val : Z)                 (* x = bit_value(val) or x.assign(val), 173-180, 208-216 *)
| SWordPos (x val n : Z)            (* x = bit_value(val, n) or x.assign(val, n), 183-191, 219-228 *)
| SConst (x : Z) (k : vconst)       (* x = bit_off, bit_on, bit0 or bit1, 507-510 *)
| SCopy (x y : Z)                   (* x = y *)
| SFromRef (x i : Z)                (* x = first[i], 156-162, 197-205 *)
| SToRef (i x : Z)                  (* first[i] = x, R206-213 *)
| SAndAssign (x y : Z)              (* x &= y, 235-241 *)
| SOrAssign (x y : Z)               (* x |= y, 244-250 *)
| SXorAssign (x y : Z)              (* x ^= y, 253-259 *)
| SRefAnd (i x : Z)                 (* first[i] &= x, R242-249 *)
| SRefOr (i x : Z)                  (* first[i] |= x, R252-259 *)
| SRefXor (i x : Z)                 (* first[i] ^= x, R262-269 *)
| SNot (x y : Z)                    (* x = ~y, 338-344 *)
| SAnd (x y z : Z)                  (* x = y & z, 347-354 *)
| SOr (x y z : Z)                   (* x = y | z, 357-364 *)
| SXor (x y z : Z)                  (* x = y ^ z, 367-374 *)
| SSwap (x y : Z)                   (* x.swap(y), 277-282 *)
| SSwapRef (x i : Z)                (* first[i].swap(x), swap(x, first[i]), R313-322, R415-438 *)
| SSet (x : Z) (b : bool)           (* x.set(b), 301-307 *)
| SSet1 (x : Z)                     (* x.set(), 310-315 *)
| SReset (x : Z)                    (* x.reset(), 318-323 *)
| SFlip (x : Z)                     (* x.flip(), 326-330 *)
| SCmp (c : cmp) (x y : Z)          (* print x c y, 378-431 *)
| SCmpRef (c : cmp) (x i : Z)       (* print x c first[i]; the reference converts to a value, 156-162 *)
| SShow (x : Z).                    (* print bool(x), 266-270 *)

(** The variables (line 84). *)
Definition vals : Type := Z -> bool.
Definition vput (x : Z) (b : bool) (e : vals) : vals := fun y => if y =? x then b else e y.

(** One statement; returns what it prints. [first] is the iterator of the array,
    first[i] bit_iterator.hpp:221-234; lines as in [vstmt]. *)
Definition vexec (p : policy) (w : Z) (first : iter) (s : vstmt) (e : vals)
  : M (list bool * vals) :=
  match s with
  | SDefault x => ret ([], vput x value_default e)
  | SBool x b => ret ([], vput x (value_of_bool b) e)
  | SWord x val => ret ([], vput x (value_of_word val) e)
  | SWordPos x val n => let! b := val_of_word p w val n in ret ([], vput x b e)
  | SConst x k => ret ([], vput x (vconstant k) e)
  | SCopy x y => ret ([], vput x (e y) e)
  | SFromRef x i =>
    let! r := iindex p w first i in
    let* b := value_of_ref r in
    ret ([], vput x b e)
  | SToRef i x =>
    let! r := iindex p w first i in
    ref_assign_val w r (e x) ;; ret ([], e)
  | SAndAssign x y => ret ([], vput x (val_and_assign (e x) (e y)) e)
  | SOrAssign x y => ret ([], vput x (val_or_assign (e x) (e y)) e)
  | SXorAssign x y => ret ([], vput x (val_xor_assign (e x) (e y)) e)
  | SRefAnd i x =>
    let! r := iindex p w first i in ref_and w r (e x) ;; ret ([], e)
  | SRefOr i x =>
    let! r := iindex p w first i in ref_or w r (e x) ;; ret ([], e)
  | SRefXor i x =>
    let! r := iindex p w first i in ref_xor w r (e x) ;; ret ([], e)
  | SNot x y => ret ([], vput x (val_not (e y)) e)
  | SAnd x y z => ret ([], vput x (val_and (e y) (e z)) e)
  | SOr x y z => ret ([], vput x (val_or (e y) (e z)) e)
  | SXor x y z => ret ([], vput x (val_xor (e y) (e z)) e)
  | SSwap x y =>
    let (a, b) := value_swap (e x) (e y) in ret ([], vput y b (vput x a e))
  | SSwapRef x i =>
    let! r := iindex p w first i in
    let* b := ref_swap_val r (e x) in
    ret ([], vput x b e)
  | SSet x b => ret ([], vput x (value_set b (e x)) e)
  | SSet1 x => ret ([], vput x (value_set1 (e x)) e)
  | SReset x => ret ([], vput x (value_reset (e x)) e)
  | SFlip x => ret ([], vput x (value_flip (e x)) e)
  | SCmp c x y => ret ([value_cmp c (e x) (e y)], e)
  | SCmpRef c x i =>
    let! r := iindex p w first i in
    let* b := value_of_ref r in
    ret ([value_cmp c (e x) b], e)
  | SShow x => ret ([value_bool (e x)], e)
  end.

(** A program may choose its next statement by what has been printed; its length is
    that of the tree below. Lines as in [vstmt]. *)
Inductive vprog : Type :=
| PStop
| PDo (s : vstmt) (next : list bool -> vprog).

(** A run: everything printed, and the variables. Lines as in [vstmt]. *)
Fixpoint vprun (p : policy) (w : Z) (first : iter) (c : vprog) (e : vals)
  : M (list bool * vals) :=
  match c with
  | PStop => ret ([], e)
  | PDo s next =>
    let* a := vexec p w first s e in
    let* b := vprun p w first (next (fst a)) (snd a) in
    ret (fst a ++ fst b, snd b)
  end.
