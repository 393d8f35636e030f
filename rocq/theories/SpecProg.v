(** The programs of ProgModel on arrays of booleans. *)
From Coq Require Import ZArith Bool List.
From Verif Require Import Base IterModel Spec SpecRef GenericModel SpecGeneric ProgModel SpecVec
  SpecClient.
Import ListNotations.
Open Scope Z_scope.

(** The arrays with the elements from a place on overwritten by [l]. *)
Definition overwrite (arr : arrays) (v : place) (l : list bool) : arrays :=
  put arr (fst v) (over (snd v) l (arr (fst v))).

(** One operation; [None] if its use is not allowed: as for [sstep], and if two
    iterators are not a range of an array, if the array is empty, if the destination is
    too short, and if a destination begins inside the source (ends inside it for
    copy_backward; for swap_ranges, if the ranges overlap). Two calls the standard
    allows are excluded, as the library is wrong on them: rotate with the end of the
    range in the middle (C23) and count on an empty range (C15). *)
Definition spstep (o : pop) (s : senv) (arr : arrays) : option (reply * senv * arrays) :=
  let range x y (k : nat -> Z -> Z -> option (reply * senv * arrays)) :=
    given (sit s x) (fun u => given (sit s y) (fun v =>
      check (Nat.eqb (fst u) (fst v) && (snd u <=? snd v) && (0 <? size arr (fst u)))
        (k (fst u) (snd u) (snd v)))) in
  let from k i j := slice i j (arr k) in
  let room v n := (snd v + n <=? size arr (fst v)) in
  let inside k (i j : Z) (v : place) := Nat.eqb (fst v) k && (i <? snd v) && (snd v <? j) in
  let keep r v arr' := Some (NoReply, sput_it s r v, arr') in
  let to k i j z r l := given (sit s z) (fun v =>
    check (room v (j - i) && negb (inside k i j v))
      (keep r (shifted v (j - i)) (overwrite arr v l))) in
  match o with
  | POp o => sstep o s arr
  | PFill x y b => range x y (fun k i j =>
      Some (NoReply, s, overwrite arr (k, i) (repeat b (Z.to_nat (j - i)))))
  | PReverse x y => range x y (fun k i j =>
      Some (NoReply, s, overwrite arr (k, i) (rev (from k i j))))
  | PRotate r x u y => range x y (fun k i j => given (sit s u) (fun v =>
      check (Nat.eqb (fst v) k && (i <=? snd v) && (snd v <? j))
        (keep r (k, i + (j - snd v))
           (overwrite arr (k, i) (from k (snd v) j ++ from k i (snd v))))))
  | PShiftLeft r x y n b => range x y (fun k i j =>
      let d := Z.min (Z.max n 0) (j - i) in
      keep r (k, j - d) (overwrite arr (k, i) (from k (i + d) j ++ repeat b (Z.to_nat d))))
  | PShiftRight r x y n b => range x y (fun k i j =>
      let d := Z.min (Z.max n 0) (j - i) in
      keep r (k, i + d) (overwrite arr (k, i) (repeat b (Z.to_nat d) ++ from k i (j - d))))
  | PCopyTo r x y z | PMoveTo r x y z => range x y (fun k i j => to k i j z r (from k i j))
  | PCopyBackward r x y z => range x y (fun k i j => given (sit s z) (fun v =>
      check ((j - i <=? snd v) && negb (inside k i j v))
        (keep r (shifted v (- (j - i))) (overwrite arr (shifted v (- (j - i))) (from k i j)))))
  | PSwapRanges r x y z => range x y (fun k i j => given (sit s z) (fun v =>
      check (room v (j - i) &&
             (negb (Nat.eqb (fst v) k) || (j <=? snd v) || (snd v + (j - i) <=? i)))
        (keep r (shifted v (j - i))
           (overwrite (overwrite arr (k, i) (from (fst v) (snd v) (snd v + (j - i))))
              v (from k i j)))))
  | PTransform f r x y z => range x y (fun k i j => to k i j z r (map f (from k i j)))
  | PTransform2 f r x y u z => range x y (fun k i j => given (sit s u) (fun v =>
      check (room v (j - i)) (given (sit s z) (fun d =>
        check (negb (inside (fst v) (snd v) (snd v + (j - i)) d))
          (to k i j z r (zip f (from k i j) (from (fst v) (snd v) (snd v + (j - i)))))))))
  | PCount x y b => range x y (fun k i j =>
      check (i <? j) (Some (NumReply (occurrences b (from k i j)), s, arr)))
  | PFind r x y b => range x y (fun k i j => keep r (k, i + index_of b (from k i j)) arr)
  | PEqual x y z => range x y (fun k i j => given (sit s z) (fun v => check (room v (j - i))
      (Some (BoolReply (if list_eq_dec bool_dec (from k i j)
                              (from (fst v) (snd v) (snd v + (j - i)))
                        then true else false), s, arr))))
  end.

(** The program for at most [n] operations. *)
Fixpoint sprun {A} (n : nat) (c : prog A) (s : senv) (arr : arrays) : outcome A :=
  match n with
  | O => Running
  | S n' =>
    match c with
    | Finish a => Returned a arr
    | Then o k =>
      match spstep o s arr with
      | Some (x, s', arr') => sprun n' (k x) s' arr'
      | None => NotAllowed
      end
    end
  end.
