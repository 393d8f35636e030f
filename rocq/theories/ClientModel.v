(** Programs over several bit_vectors: the container calls of VecModel and the
    algorithms of /repo/include/bitlib/bit-algorithms applied to iterators
    obtained as begin() + i (/repo/README.md, /repo/example/src/example1.cpp).

    Simplifications. The storage of vector number k starts at word address
    k * 2^60 while an algorithm runs, so different vectors never overlap; the
    theorems about single algorithms (C07 to C23) hold for every placement.
    Iterators are not kept across calls. *)
From Coq Require Import ZArith Bool List.
From Verif Require Import Base IterModel PopcntModel AlgModel TransformModel ShiftModel
  SwapModel ReverseModel RotateModel VecModel.
Import ListNotations.
Open Scope Z_scope.

(** Distance of the storages of two vectors (no /repo lines). *)
Definition stride : Z := 2 ^ 60.

(** Memory holding the storages of all vectors (word_vector,
    bit-containers/bit_vector.hpp:39). *)
Definition pool (vs : list bvec) : mem :=
  fun a =>
    if a <? 0 then None
    else match nth_error vs (Z.to_nat (a / stride)) with
         | None => None
         | Some v =>
           if a mod stride <? wsize (vwords v)
           then Some (nth (Z.to_nat (a mod stride)) (vwords v) 0) else None
         end.

(** begin() of vector [x], bit-containers/bit_vector.hpp:424-428. *)
Definition pool_begin (x : nat) : iter := mk_aligned (Z.of_nat x * stride).

(** The vectors after an algorithm has run (word_vector and length_,
    bit-containers/bit_vector.hpp:39-40; an algorithm changes no length). *)
Fixpoint unpool (k : Z) (vs : list bvec) (m : mem) : list bvec :=
  match vs with
  | [] => []
  | v :: vs' =>
    BV (map (fun n => match m (k * stride + Z.of_nat n) with Some x => x | None => 0 end)
            (seq 0 (length (vwords v)))) (vlen v)
    :: unpool (k + 1) vs' m
  end.

(** Calls of algorithms. [x], [y], [z] number vectors; the range is begin() + i to
    begin() + j of vector [x], the other range begins (ends, for copy_backward) at
    begin() + d of vector [y]. Files of bit-algorithms. *)
Inductive alg : Type :=
| AFill (x : nat) (i j : Z) (b : bool)                   (* fill.hpp:38-82 *)
| AReverse (x : nat) (i j : Z)                           (* reverse.hpp:27-111 *)
| ARotate (x : nat) (i k j : Z)                          (* rotate.hpp:184-258 *)
| AShiftLeft (x : nat) (i j n : Z)                       (* shift.hpp:46-238 *)
| AShiftRight (x : nat) (i j n : Z)                      (* shift.hpp:240-377 *)
| ACopy (x : nat) (i j : Z) (y : nat) (d : Z)            (* copy.hpp:30-104 *)
| AMove (x : nat) (i j : Z) (y : nat) (d : Z)            (* move.hpp:25-99 *)
| ACopyBackward (x : nat) (i j : Z) (y : nat) (d : Z)    (* copy_backward.hpp:27-101 *)
| ASwapRanges (x : nat) (i j : Z) (y : nat) (d : Z)      (* swap_ranges.hpp:23-192 *)
| ATransform (op : Z -> Z) (x : nat) (i j : Z) (y : nat) (d : Z)
                                                         (* transform.hpp:34-128 *)
| ATransform2 (op : Z -> Z -> Z) (x : nat) (i j : Z) (z : nat) (k : Z) (y : nat) (d : Z)
                                                         (* transform.hpp:130-212 *)
| ACount (x : nat) (i j : Z) (b : bool)                  (* count.hpp:34-117 *)
| AFind (x : nat) (i j : Z) (b : bool)                   (* find.hpp:33-123 *)
| AEqual (x : nat) (i j : Z) (y : nat) (d : Z).          (* equal.hpp:29-99 *)

(** Observation of an iterator into vector [x]: it - begin(),
    bit-iterator/bit_iterator.hpp:389-409. *)
Definition see_pos (w : Z) (x : nat) (it : iter) : M vout :=
  let! n := idiff w it (pool_begin x) in ret (OIdx n).

(** begin() + i of vector [x], bit-iterator/bit_iterator.hpp:293-320. *)
Definition pos (w : Z) (x : nat) (i : Z) : res iter := iadd w (pool_begin x) i.

(** One call; files as in [alg]. *)
Definition alg_call (t : target) (p : policy) (w : Z) (a : alg) : M vout :=
  match a with
  | AFill x i j b =>
    let! f := pos w x i in let! l := pos w x j in fill p w f l b ;; ret ONone
  | AReverse x i j =>
    let! f := pos w x i in let! l := pos w x j in reverse p w f l ;; ret ONone
  | ARotate x i k j =>
    let! f := pos w x i in let! n := pos w x k in let! l := pos w x j in
    let* r := rotate p w f n l in see_pos w x r
  | AShiftLeft x i j n =>
    let! f := pos w x i in let! l := pos w x j in
    let* r := shift_left p w f l n in see_pos w x r
  | AShiftRight x i j n =>
    let! f := pos w x i in let! l := pos w x j in
    let* r := shift_right p w f l n in see_pos w x r
  | ACopy x i j y d =>
    let! f := pos w x i in let! l := pos w x j in let! o := pos w y d in
    let* r := copy p w f l o in see_pos w y r
  | AMove x i j y d =>
    let! f := pos w x i in let! l := pos w x j in let! o := pos w y d in
    let* r := move p w f l o in see_pos w y r
  | ACopyBackward x i j y d =>
    let! f := pos w x i in let! l := pos w x j in let! o := pos w y d in
    let* r := copy_backward p w f l o in see_pos w y r
  | ASwapRanges x i j y d =>
    let! f := pos w x i in let! l := pos w x j in let! o := pos w y d in
    let* r := swap_ranges p w f l o in see_pos w y r
  | ATransform op x i j y d =>
    let! f := pos w x i in let! l := pos w x j in let! o := pos w y d in
    let* r := transform1 p w op f l o in see_pos w y r
  | ATransform2 op x i j z k y d =>
    let! f := pos w x i in let! l := pos w x j in let! g := pos w z k in
    let! o := pos w y d in
    let* r := transform2 p w op f l g o in see_pos w y r
  | ACount x i j b =>
    let! f := pos w x i in let! l := pos w x j in
    let* n := count t p w f l b in ret (ONum n)
  | AFind x i j b =>
    let! f := pos w x i in let! l := pos w x j in
    let* r := find p w f l b in see_pos w x r
  | AEqual x i j y d =>
    let! f := pos w x i in let! l := pos w x j in let! o := pos w y d in
    let* r := equal p w f l o in ret (OBit r)
  end.

(** An algorithm run on the storages of the vectors; files as in [alg]. *)
Definition alg_step (t : target) (p : policy) (w : Z) (vs : list bvec) (a : alg)
  : res (vout * list bvec) :=
  match alg_call t p w a (pool vs) with
  | Ok (o, m) => Ok (o, unpool 0 vs m)
  | UB k => UB k
  | Assert => Assert
  | Throw => Throw
  | Fuel => Fuel
  end.

(** A statement of a program. Lines of bit-containers/bit_vector.hpp. *)
Inductive cop : Type :=
| CAlg (a : alg)
| CCall (x : nat) (o : vop)                          (* as in vop *)
| CInsert (x : nat) (i : Z) (y : nat) (j k : Z)      (* 544-565, from vector y *)
| CAssign (x y : nat)                                (* 132 *)
| CMove (x y : nat) (rest : list Z)                  (* 343-350 *)
| CSwap (x y : nat) (rest1 rest2 : list Z)           (* std::swap: 244-246, 343-350 *)
| CCopy (y : nat)            (* 113, 244-250, a new vector from y or std::move(y) *)
| CString (s : list Z)                               (* 275-287, a new vector *)
| CFill (n : Z) (b : bool)                           (* 209-213, a new vector *)
| CRange (y : nat) (j k : Z)                         (* 219-228, a new vector *)
| CShow (x : nat).                                   (* 651-669 *)

(** What the program prints or compares (no /repo lines). *)
Inductive cout : Type :=
| COut (o : vout)
| CText (s : list Z).

(** Vector [x] of the program; naming a vector that does not exist is a misuse
    (no /repo lines). *)
Definition vec_at (vs : list bvec) (x : nat) : res bvec :=
  match nth_error vs x with Some v => Ok v | None => UB BadUse end.

(** The vectors with vector [x] replaced (no /repo lines). *)
Definition put_vec (x : nat) (v : bvec) (vs : list bvec) : list bvec :=
  firstn x vs ++ v :: skipn (S x) vs.

(** x = std::move(y), lines 343-350, where x may be y. The std::vector moved from
    (which is also the one assigned to if x is y) is left valid with unspecified
    words, here [rest]; then its length_ is set to 0. *)
Definition move_at (x y : nat) (rest : list Z) (vs : list bvec) : res (list bvec) :=
  let? v := vec_at vs x in
  let? u := vec_at vs y in
  let vs1 := put_vec x (BV (vwords u) (vlen u)) vs in
  let? u1 := vec_at vs1 y in
  let vs2 := put_vec y (BV rest (vlen u1)) vs1 in
  let? u2 := vec_at vs2 y in
  Ok (put_vec y (BV (vwords u2) 0) vs2).

(** std::swap(x, y), which is used for bit_vectors as there is no other:
    tmp(std::move(x)), lines 244-246; x = std::move(y); y = std::move(tmp), lines
    343-350. *)
Definition swap_at (x y : nat) (rest1 rest2 : list Z) (vs : list bvec)
  : res (list bvec) :=
  let? v := vec_at vs x in
  let tmp := length vs in
  let? vs1 := move_at x y rest1 (vs ++ [ctor_copy v]) in
  let? vs2 := move_at y tmp rest2 vs1 in
  Ok (firstn tmp vs2).

(** Execution of one statement; lines as in [cop]. *)
Definition cstep (t : target) (p : policy) (w : Z) (vs : list bvec) (c : cop)
  : res (cout * list bvec) :=
  match c with
  | CAlg a => let? (o, vs') := alg_step t p w vs a in Ok (COut o, vs')
  | CCall x o =>
    let? v := vec_at vs x in
    let? (r, v') := vstep p w v o in Ok (COut r, put_vec x v' vs)
  | CInsert x i y j k =>
    let? v := vec_at vs x in
    let? u := vec_at vs y in
    let? (r, v') := vstep p w v (OpInsertRange i (vwords u) j k) in
    Ok (COut r, put_vec x v' vs)
  | CAssign x y =>
    let? v := vec_at vs x in
    let? u := vec_at vs y in
    Ok (COut ONone, put_vec x (ctor_copy u) vs)
  | CMove x y rest => let? vs' := move_at x y rest vs in Ok (COut ONone, vs')
  | CSwap x y rest1 rest2 =>
    let? vs' := swap_at x y rest1 rest2 vs in Ok (COut ONone, vs')
  | CCopy y => let? u := vec_at vs y in Ok (COut ONone, vs ++ [ctor_copy u])
  | CString s => let? v := ctor_string p w s in Ok (COut ONone, vs ++ [v])
  | CFill n b => Ok (COut ONone, vs ++ [ctor_fill w n b])
  | CRange y j k =>
    let? u := vec_at vs y in
    let? f := iadd w (ext_begin (vwords u)) j in
    let? l := iadd w (ext_begin (vwords u)) k in
    let? (v, _) := ctor_bits p w (ext_mem (vwords u)) f l in
    Ok (COut ONone, vs ++ [v])
  | CShow x =>
    let? v := vec_at vs x in
    let? s := debug_string p w v in Ok (CText s, vs)
  end.

(** A program (no /repo lines). *)
Fixpoint crun (t : target) (p : policy) (w : Z) (vs : list bvec) (cs : list cop)
  : res (list cout * list bvec) :=
  match cs with
  | [] => Ok ([], vs)
  | c :: cs' =>
    let? (o, vs') := cstep t p w vs c in
    let? (os, vs'') := crun t p w vs' cs' in
    Ok (o :: os, vs'')
  end.
