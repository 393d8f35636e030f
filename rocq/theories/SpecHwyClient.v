(** Vocabulary for programs over several bit_vectors in the BITLIB_HWY build: which
    statements look only at words of the storage they work on. *)
From Coq Require Import ZArith Bool List.
From Verif Require Import Base PopcntModel HwyModel Spec VecModel SpecVec ClientModel SpecClient
  SpecPoint.
Import ListNotations.
Open Scope Z_scope.

(** A shift to the right of the bits [i, j) of a bit_vector by [n] looks at no word in front
    of the storage. *)
Definition shift_inside (h : simd_unit) (w i j n : Z) : Prop :=
  0 < n -> inserts_inside h w i n j.

(** The same of an algorithm. reverse shifts the words of its range to the right if there
    are fewer bits behind the range in its last word than in front of it in the first;
    rotate ends with [rotate_shift]. *)
Definition alg_inside (h : simd_unit) (w : Z) (a : alg) : Prop :=
  match a with
  | AReverse _ i j =>
    let e := (j + (w - 1)) / w in
    e * w - j < i mod w -> forall a, looked_at h w (i / w) (e - 1) e a -> 0 <= a
  | ARotate _ i k j =>
    forall a b n, rotate_shift w i (k - i) (j - k) = Some (a, b, n) -> shift_inside h w a b n
  | AShiftRight _ i j n => shift_inside h w i j n
  | _ => True
  end.

(** The same of a statement. *)
Definition statement_inside (h : simd_unit) (w : Z) (ls : list (list bool)) (c : cop) : Prop :=
  match c with
  | CAlg a => alg_inside h w a
  | CCall x o => call_inside h w (row x ls) o
  | CInsert x i _ j k => inserts_inside h w i (k - j) (zlen (row x ls) + (k - j))
  | _ => True
  end.

(** The same of every statement of a program, whatever the unspecified elements are. *)
Fixpoint program_inside (n w : Z) (ls : list (list bool)) (cs : list (Z * cop)) : Prop :=
  match cs with
  | [] => True
  | (place, c) :: cs' =>
    statement_inside (Unit n place) w ls c /\
    forall o ls', cspec w ls c o ls' -> program_inside n w ls' cs'
  end.
