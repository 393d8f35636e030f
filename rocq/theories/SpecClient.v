(** Vocabulary for the theorem about programs over several bit_vectors
    (/repo/README.md: "The algorithms again work in the same manner as the STL"):
    the state is a list of lists of booleans, and every statement is described on
    those as the C++ standard describes it for std::vector<bool>. *)
From Coq Require Import ZArith Bool List.
From Verif Require Import Base PopcntModel Spec SpecRotate VecModel SpecVec ClientModel.
Import ListNotations.
Open Scope Z_scope.

(** The list [l] with the elements from position [i] on overwritten by [x]. *)
Definition over (i : Z) (x l : list bool) : list bool :=
  firstn (Z.to_nat i) l ++ x ++ skipn (Z.to_nat (i + zlen x)) l.

(** List number [x], and the lists with number [x] replaced. *)
Definition row (x : nat) (ls : list (list bool)) : list bool := nth x ls [].
Definition put_row (x : nat) (l : list bool) (ls : list (list bool)) : list (list bool) :=
  firstn x ls ++ l :: skipn (S x) ls.

(** Elementwise binary operation. *)
Fixpoint zip (f : bool -> bool -> bool) (a b : list bool) : list bool :=
  match a, b with
  | x :: a', y :: b' => f x y :: zip f a' b'
  | _, _ => []
  end.

(** Position of the first element equal to [b], or the length. *)
Fixpoint index_of (b : bool) (l : list bool) : Z :=
  match l with
  | [] => 0
  | x :: l' => if eqb x b then 0 else 1 + index_of b l'
  end.

(** Number of elements equal to [b]. *)
Definition occurrences (b : bool) (l : list bool) : Z := zlen (filter (fun x => eqb x b) l).

(** An operation on words that acts on every bit in the same way
    (README.md: "the function should have WordType as the input types as well as the
    return type"). *)
Definition bitwise (w : Z) (op : Z -> Z) (f : bool -> bool) : Prop :=
  forall x, 0 <= x < 2 ^ w -> 0 <= op x < 2 ^ w /\
    forall k, 0 <= k < w -> Z.testbit (op x) k = f (Z.testbit x k).
Definition bitwise2 (w : Z) (op : Z -> Z -> Z) (f : bool -> bool -> bool) : Prop :=
  forall x y, 0 <= x < 2 ^ w -> 0 <= y < 2 ^ w -> 0 <= op x y < 2 ^ w /\
    forall k, 0 <= k < w -> Z.testbit (op x y) k = f (Z.testbit x k) (Z.testbit y k).

(** What a call of an algorithm does: the value the caller sees and the lists
    afterwards. The elements that shift_left and shift_right vacate are
    unspecified. *)
Definition alg_spec (w : Z) (ls : list (list bool)) (a : alg) (o : vout)
  (ls' : list (list bool)) : Prop :=
  match a with
  | AFill x i j b =>
    o = ONone /\ ls' = put_row x (over i (repeat b (Z.to_nat (j - i))) (row x ls)) ls
  | AReverse x i j =>
    o = ONone /\ ls' = put_row x (over i (rev (slice i j (row x ls))) (row x ls)) ls
  | ARotate x i k j =>
    o = OIdx (i + (j - k)) /\
    ls' = put_row x (over i (slice k j (row x ls) ++ slice i k (row x ls)) (row x ls)) ls
  | AShiftLeft x i j n =>
    (n <= 0 /\ o = OIdx j /\ ls' = ls) \/
    (0 < n /\ j - i <= n /\ o = OIdx i /\ ls' = ls) \/
    (0 < n < j - i /\ o = OIdx (j - n) /\ exists u, zlen u = n /\
       ls' = put_row x (over i (slice (i + n) j (row x ls) ++ u) (row x ls)) ls)
  | AShiftRight x i j n =>
    (n <= 0 /\ o = OIdx i /\ ls' = ls) \/
    (0 < n /\ j - i <= n /\ o = OIdx j /\ ls' = ls) \/
    (0 < n < j - i /\ o = OIdx (i + n) /\ exists u, zlen u = n /\
       ls' = put_row x (over i (u ++ slice i (j - n) (row x ls)) (row x ls)) ls)
  | ACopy x i j y d | AMove x i j y d =>
    o = OIdx (d + (j - i)) /\ ls' = put_row y (over d (slice i j (row x ls)) (row y ls)) ls
  | ACopyBackward x i j y d =>
    o = OIdx (d - (j - i)) /\
    ls' = put_row y (over (d - (j - i)) (slice i j (row x ls)) (row y ls)) ls
  | ASwapRanges x i j y d =>
    o = OIdx (d + (j - i)) /\
    let ls1 := put_row x (over i (slice d (d + (j - i)) (row y ls)) (row x ls)) ls in
    ls' = put_row y (over d (slice i j (row x ls)) (row y ls1)) ls1
  | ATransform op x i j y d =>
    o = OIdx (d + (j - i)) /\ forall f, bitwise w op f ->
    ls' = put_row y (over d (map f (slice i j (row x ls))) (row y ls)) ls
  | ATransform2 op x i j z k y d =>
    o = OIdx (d + (j - i)) /\ forall f, bitwise2 w op f ->
    ls' = put_row y (over d (zip f (slice i j (row x ls)) (slice k (k + (j - i)) (row z ls)))
                       (row y ls)) ls
  | ACount x i j b => o = ONum (occurrences b (slice i j (row x ls))) /\ ls' = ls
  | AFind x i j b => o = OIdx (i + index_of b (slice i j (row x ls))) /\ ls' = ls
  | AEqual x i j y d =>
    (exists r, o = OBit r /\
      (r = true <-> slice i j (row x ls) = slice d (d + (j - i)) (row y ls))) /\ ls' = ls
  end.

(** [x] names a list and [i, j) are positions in it. *)
Definition range_in (ls : list (list bool)) (x : nat) (i j : Z) : Prop :=
  (x < length ls)%nat /\ 0 <= i <= j /\ j <= zlen (row x ls).

(** Preconditions of the algorithms: those of the standard, and where the library
    does not meet it the restriction proved necessary for the algorithm: shifts
    that the language leaves undefined (C21, C24, C11), rotate by the whole range
    and on ranges with quotients beyond 2^32 (C22, C23), an empty range at a word
    boundary for count (C15) and its over-read on other targets (C14). *)
Definition alg_pre (t : target) (p : policy) (w : Z) (ls : list (list bool)) (a : alg) : Prop :=
  match a with
  | AFill x i j _ => range_in ls x i j
  | AReverse x i j =>
    range_in ls x i j /\ j - i + 2 * w <= max_bits /\
    (i mod w = 0 \/ j mod w <> 0 \/ w <= j - i \/ full_blend_defined p w)
  | ARotate x i k j =>
    range_in ls x i j /\ i <= k < j /\ quotients_fit 64 w (k - i) (j - k) = true /\
    mask_fits w (i mod w) (j - i)
  | AShiftLeft x i j n | AShiftRight x i j n =>
    range_in ls x i j /\ (0 < n < j - i -> shift_defined p w i j)
  | ACopy x i j y d | AMove x i j y d | ATransform _ x i j y d =>
    range_in ls x i j /\ range_in ls y d (d + (j - i)) /\ (x = y -> d <= i \/ j <= d) /\
    match a with ATransform op _ _ _ _ _ => exists f, bitwise w op f | _ => True end
  | ACopyBackward x i j y d =>
    range_in ls x i j /\ range_in ls y (d - (j - i)) d /\ (x = y -> j <= d \/ d <= i) /\
    (i mod w <> 0 \/ j mod w <> d mod w \/ j - i < 2 * w \/ full_blend_defined p w)
  | ASwapRanges x i j y d =>
    range_in ls x i j /\ range_in ls y d (d + (j - i)) /\
    (x = y -> d + (j - i) <= i \/ j <= d)
  | ATransform2 op x i j z k y d =>
    range_in ls x i j /\ range_in ls z k (k + (j - i)) /\ range_in ls y d (d + (j - i)) /\
    (x = y -> d <= i \/ j <= d) /\ (z = y -> d <= k \/ k + (j - i) <= d) /\
    exists f, bitwise2 w op f
  | ACount x i j _ =>
    range_in ls x i j /\ (i < j \/ i mod w <> 0) /\
    ((exists c, t = X86 c) \/ t = Neon true \/ w = 64)
  | AFind x i j _ => range_in ls x i j
  | AEqual x i j y d => range_in ls x i j /\ range_in ls y d (d + (j - i))
  end.

(** The same for a statement. *)
Definition cspec (w : Z) (ls : list (list bool)) (c : cop) (o : cout)
  (ls' : list (list bool)) : Prop :=
  match c with
  | CAlg a => exists r, o = COut r /\ alg_spec w ls a r ls'
  | CCall x op =>
    o = COut (fst (vspec w (row x ls) op)) /\
    ls' = put_row x (snd (vspec w (row x ls) op)) ls
  | CInsert x i y j k =>
    o = COut (OIdx i) /\ ls' = put_row x (insert_at i (slice j k (row y ls)) (row x ls)) ls
  | CAssign x y => o = COut ONone /\ ls' = put_row x (row y ls) ls
  | CMove x y _ => o = COut ONone /\ ls' = put_row y [] (put_row x (row y ls) ls)
  | CSwap x y _ _ =>
    o = COut ONone /\ ls' = put_row y (row x ls) (put_row x (row y ls) ls)
  | CCopy y => o = COut ONone /\ ls' = ls ++ [row y ls]
  | CString s => o = COut ONone /\ ls' = ls ++ [string_bits s]
  | CFill n b => o = COut ONone /\ ls' = ls ++ [repeat b (Z.to_nat n)]
  | CRange y j k => o = COut ONone /\ ls' = ls ++ [slice j k (row y ls)]
  | CShow x => o = CText (bits_text w 0 (row x ls)) /\ ls' = ls
  end.

Definition cpre (t : target) (p : policy) (w : Z) (ls : list (list bool)) (c : cop) : Prop :=
  match c with
  | CAlg a => alg_pre t p w ls a
  | CCall x op => (x < length ls)%nat /\ vpre p w (row x ls) op
  | CInsert x i y j k =>
    (x < length ls)%nat /\ x <> y /\ range_in ls y j k /\ 0 <= i <= zlen (row x ls) /\
    zlen (row x ls) + (k - j) <= 2 ^ 24 /\
    (j < k -> i < zlen (row x ls) -> shift_defined p w i (zlen (row x ls) + (k - j)))
  | CAssign x y => (x < length ls)%nat /\ (y < length ls)%nat
  | CMove x y rest =>
    (x < length ls)%nat /\ (y < length ls)%nat /\ words_ok w rest /\ zlen rest * w <= max_bits
  | CSwap x y rest1 rest2 =>
    (x < length ls)%nat /\ (y < length ls)%nat /\
    words_ok w rest1 /\ zlen rest1 * w <= max_bits /\
    words_ok w rest2 /\ zlen rest2 * w <= max_bits
  | CCopy y => (y < length ls)%nat
  | CString s => zlen (string_bits s) * w <= max_bits
  | CFill n _ => 0 <= n < 2 ^ 32
  | CRange y j k => range_in ls y j k /\ (k - j) * w <= max_bits
  | CShow x => (x < length ls)%nat /\ zlen (row x ls) < 2 ^ 31
  end.

(** A program on lists: every statement is called with its precondition, whatever
    the unspecified elements are; and the values seen with the final lists. *)
Fixpoint cpre_all (t : target) (p : policy) (w : Z) (ls : list (list bool)) (cs : list cop)
  : Prop :=
  match cs with
  | [] => True
  | c :: cs' => cpre t p w ls c /\ forall o ls', cspec w ls c o ls' -> cpre_all t p w ls' cs'
  end.
Fixpoint cspec_all (w : Z) (ls : list (list bool)) (cs : list cop) (os : list cout)
  (ls' : list (list bool)) : Prop :=
  match cs, os with
  | [], [] => ls' = ls
  | c :: cs', o :: os' => exists ls1, cspec w ls c o ls1 /\ cspec_all w ls1 cs' os' ls'
  | _, _ => False
  end.
