(** The programs of ClientModel in a build with BITLIB_HWY
    (/repo/include/bitlib/bit-containers/bit_vector.hpp and
    /repo/include/bitlib/bit-algorithms). The code that depends on the macro, or calls
    such code, is that of insert, erase and resize (HwyVecModel.v), fill, find and the
    shifts (HwyModel.v), reverse and rotate (HwyAlgModel.v); each works on one vector.
    [h] says how many words a vector of the machine has and where the storage of that
    bit_vector lies. Simplification: the function objects of transform are not
    std::bit_not, the only one with a vector version (transform.hpp:82-104; that call is
    C49). *)
From Coq Require Import ZArith Bool List.
From Verif Require Import Base IterModel PopcntModel AlgModel TransformModel ShiftModel
  SwapModel ReverseModel RotateModel VecModel HwyModel HwyAlgModel HwyVecModel ClientModel.
Import ListNotations.
Open Scope Z_scope.

(** One call: fill.hpp:34-83, reverse.hpp:27-111, rotate.hpp:184-258, shift.hpp:46-238 and
    240-377, find.hpp:33-123; the others as in [alg_call]. The storages of the pool lie a
    multiple of 64 bytes apart, so that [h] places the vector of the call. *)
Definition alg_call_hwy (t : target) (p : policy) (h : simd_unit) (w : Z) (a : alg) : M vout :=
  match a with
  | AFill x i j b =>
    let! f := pos w x i in let! l := pos w x j in fill_hwy p h w f l b ;; ret ONone
  | AReverse x i j =>
    let! f := pos w x i in let! l := pos w x j in reverse_hwy p h w f l ;; ret ONone
  | ARotate x i k j =>
    let! f := pos w x i in let! n := pos w x k in let! l := pos w x j in
    let* r := rotate_hwy p h w f n l in see_pos w x r
  | AShiftLeft x i j n =>
    let! f := pos w x i in let! l := pos w x j in
    let* r := shift_left_hwy p h w f l n in see_pos w x r
  | AShiftRight x i j n =>
    let! f := pos w x i in let! l := pos w x j in
    let* r := shift_right_hwy p h w f l n in see_pos w x r
  | AFind x i j b =>
    let! f := pos w x i in let! l := pos w x j in
    let* r := find_hwy p h w f l b in see_pos w x r
  | _ => alg_call t p w a
  end.

(** An algorithm run on the storages of the vectors; files as in [alg_call_hwy]. *)
Definition alg_step_hwy (t : target) (p : policy) (h : simd_unit) (w : Z) (vs : list bvec)
  (a : alg) : res (vout * list bvec) :=
  match alg_call_hwy t p h w a (pool vs) with
  | Ok (o, m) => Ok (o, unpool 0 vs m)
  | UB k => UB k
  | Assert => Assert
  | Throw => Throw
  | Fuel => Fuel
  end.

(** Execution of one statement; lines of bit-containers/bit_vector.hpp as in [cop]. The
    constructors, assignments and debug_string use none of the vector loops. *)
Definition cstep_hwy (t : target) (p : policy) (h : simd_unit) (w : Z) (vs : list bvec) (c : cop)
  : res (cout * list bvec) :=
  match c with
  | CAlg a => let? (o, vs') := alg_step_hwy t p h w vs a in Ok (COut o, vs')
  | CCall x o =>
    let? v := vec_at vs x in
    let? (r, v') := vstep_hwy p h w v o in Ok (COut r, put_vec x v' vs)
  | CInsert x i y j k =>
    let? v := vec_at vs x in
    let? u := vec_at vs y in
    let? (r, v') := vstep_hwy p h w v (OpInsertRange i (vwords u) j k) in
    Ok (COut r, put_vec x v' vs)
  | _ => cstep t p w vs c
  end.

(** A program; each statement comes with the place of the storage that its vector loops
    work on, which changes when a word vector is reallocated (no /repo lines). [n] is the
    number of words of a vector of the machine. *)
Fixpoint crun_hwy (t : target) (p : policy) (n w : Z) (vs : list bvec) (cs : list (Z * cop))
  : res (list cout * list bvec) :=
  match cs with
  | [] => Ok ([], vs)
  | (place, c) :: cs' =>
    let? (o, vs') := cstep_hwy t p (Unit n place) w vs c in
    let? (os, vs'') := crun_hwy t p n w vs' cs' in
    Ok (o :: os, vs'')
  end.
