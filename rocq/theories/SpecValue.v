(** Vocabulary for the theorem about bit_value
    (/repo/include/bitlib/bit-iterator/bit_value.hpp): the same programs over
    variables of type bool and an array of bool. *)
From Coq Require Import ZArith Bool List.
From Verif Require Import Base Spec ValueModel.
Import ListNotations.
Open Scope Z_scope.

(** What the comparisons mean on bool: false < true (bit_value.hpp:378-431). *)
Definition bool_cmp (c : cmp) (l r : bool) : bool :=
  match c with
  | CEq => eqb l r
  | CNe => xorb l r
  | CLt => negb l && r
  | CLe => implb l r
  | CGt => l && negb r
  | CGe => implb r l
  end.

(** A statement over bool variables [e] and a bool array [a]: what is printed, the
    variables, the array (statements as listed in ValueModel.v). *)
Definition bexec (s : vstmt) (e : vals) (a : Z -> bool) : list bool * vals * (Z -> bool) :=
  match s with
  | SDefault x => ([], vput x false e, a)
  | SBool x b => ([], vput x b e, a)
  | SWord x val => ([], vput x (Z.odd val) e, a)
  | SWordPos x val n => ([], vput x (Z.testbit val n) e, a)
  | SConst x k => ([], vput x (match k with KOn | K1 => true | _ => false end) e, a)
  | SCopy x y => ([], vput x (e y) e, a)
  | SFromRef x i => ([], vput x (a i) e, a)
  | SToRef i x => ([], e, vput i (e x) a)
  | SAndAssign x y => ([], vput x (e x && e y) e, a)
  | SOrAssign x y => ([], vput x (e x || e y) e, a)
  | SXorAssign x y => ([], vput x (xorb (e x) (e y)) e, a)
  | SRefAnd i x => ([], e, vput i (a i && e x) a)
  | SRefOr i x => ([], e, vput i (a i || e x) a)
  | SRefXor i x => ([], e, vput i (xorb (a i) (e x)) a)
  | SNot x y => ([], vput x (negb (e y)) e, a)
  | SAnd x y z => ([], vput x (e y && e z) e, a)
  | SOr x y z => ([], vput x (e y || e z) e, a)
  | SXor x y z => ([], vput x (xorb (e y) (e z)) e, a)
  | SSwap x y => ([], vput y (e x) (vput x (e y) e), a)
  | SSwapRef x i => ([], vput x (a i) e, vput i (e x) a)
  | SSet x b => ([], vput x b e, a)
  | SSet1 x => ([], vput x true e, a)
  | SReset x => ([], vput x false e, a)
  | SFlip x => ([], vput x (negb (e x)) e, a)
  | SCmp c x y => ([bool_cmp c (e x) (e y)], e, a)
  | SCmpRef c x i => ([bool_cmp c (e x) (a i)], e, a)
  | SShow x => ([e x], e, a)
  end.

(** A program over bools (statements as listed in ValueModel.v). *)
Fixpoint bprun (c : vprog) (e : vals) (a : Z -> bool) : list bool * vals * (Z -> bool) :=
  match c with
  | PStop => ([], e, a)
  | PDo s next =>
    let '(o, e', a') := bexec s e a in
    let '(o2, e2, a2) := bprun (next o) e' a' in
    (o ++ o2, e2, a2)
  end.

(** The array accesses of a statement lie within [n] bits, and the position given
    with a word lies within the word: the precondition that bit_value(val, pos)
    asserts (bit_value.hpp:183-191, 219-228). *)
Definition bpre (w n : Z) (s : vstmt) : Prop :=
  match s with
  | SWordPos _ _ k => 0 <= k < w
  | SFromRef _ i | SToRef i _ | SRefAnd i _ | SRefOr i _ | SRefXor i _
  | SSwapRef _ i | SCmpRef _ _ i => 0 <= i < n
  | _ => True
  end.

(** Along the run over bools every statement meets [bpre]
    (bit_value.hpp:183-191, 219-228). *)
Fixpoint bpre_all (w n : Z) (c : vprog) (e : vals) (a : Z -> bool) : Prop :=
  match c with
  | PStop => True
  | PDo s next =>
    bpre w n s /\
    let '(o, e', a') := bexec s e a in bpre_all w n (next o) e' a'
  end.
