(** Client code that calls the algorithms as well: the programs of GenericModel with the
    algorithms of /repo/include/bitlib/bit-algorithms among their operations, on
    iterators kept in variables (/repo/example/src/example1.cpp, /repo/test).
    Simplification: as the elements a shift vacates are unspecified, a shift is always
    followed by a fill of them. *)
From Coq Require Import ZArith Bool List.
From Verif Require Import Base IterModel RefModel PopcntModel AlgModel TransformModel ShiftModel
  SwapModel ReverseModel RotateModel GenericModel.
Open Scope Z_scope.

(** The operations; [r], [x], [y], [z], [u] number iterators, [r] is assigned the
    result. Files of bit-algorithms. *)
Inductive pop : Type :=
| POp (o : op)                                          (* as in op *)
| PFill (x y : nat) (b : bool)                          (* fill.hpp:38-82 *)
| PReverse (x y : nat)                                  (* reverse.hpp:27-111 *)
| PRotate (r x u y : nat)                               (* rotate.hpp:184-258 *)
| PShiftLeft (r x y : nat) (n : Z) (b : bool)           (* shift.hpp:46-238, fill.hpp:38-82 *)
| PShiftRight (r x y : nat) (n : Z) (b : bool)          (* shift.hpp:240-377, fill.hpp:38-82 *)
| PCopyTo (r x y z : nat)                               (* copy.hpp:30-104 *)
| PMoveTo (r x y z : nat)                               (* move.hpp:25-99 *)
| PCopyBackward (r x y z : nat)                         (* copy_backward.hpp:27-101 *)
| PSwapRanges (r x y z : nat)                           (* swap_ranges.hpp:23-192 *)
| PTransform (f : bool -> bool) (r x y z : nat)         (* transform.hpp:34-128 *)
| PTransform2 (f : bool -> bool -> bool) (r x y u z : nat)
                                                        (* transform.hpp:130-212 *)
| PCount (x y : nat) (b : bool)                         (* count.hpp:34-117 *)
| PFind (r x y : nat) (b : bool)                        (* find.hpp:33-123 *)
| PEqual (x y z : nat).                                 (* equal.hpp:29-99 *)

(** The function objects handed to transform: a function of bits written with the
    operators ~, & and | on words (/repo/test/src/test-transform.cpp:43,84 uses std::bit_not
    and std::bit_and). *)
Definition on_words (w : Z) (f : bool -> bool) (x : Z) : Z :=
  Z.lor (if f true then x else 0) (if f false then wrap w (Z.lnot x) else 0).
Definition on_words2 (w : Z) (f : bool -> bool -> bool) (x y : Z) : Z :=
  Z.lor (Z.land x (on_words w (f true) y))
        (Z.land (wrap w (Z.lnot x)) (on_words w (f false) y)).

(** One operation; lines as in [pop]. *)
Definition pstep (t : target) (p : policy) (w : Z) (o : pop) (e : env) : M (reply * env) :=
  let it x := eit e x in
  let keep r c := let* i := c in ret (NoReply, set_it e r i) in
  match o with
  | POp o => step p w o e
  | PFill x y b => fill p w (it x) (it y) b ;; ret (NoReply, e)
  | PReverse x y => reverse p w (it x) (it y) ;; ret (NoReply, e)
  | PRotate r x u y => keep r (rotate p w (it x) (it u) (it y))
  | PShiftLeft r x y n b =>
    keep r (let* i := shift_left p w (it x) (it y) n in fill p w i (it y) b ;; ret i)
  | PShiftRight r x y n b =>
    keep r (let* i := shift_right p w (it x) (it y) n in fill p w (it x) i b ;; ret i)
  | PCopyTo r x y z => keep r (copy p w (it x) (it y) (it z))
  | PMoveTo r x y z => keep r (move p w (it x) (it y) (it z))
  | PCopyBackward r x y z => keep r (copy_backward p w (it x) (it y) (it z))
  | PSwapRanges r x y z => keep r (swap_ranges p w (it x) (it y) (it z))
  | PTransform f r x y z => keep r (transform1 p w (on_words w f) (it x) (it y) (it z))
  | PTransform2 f r x y u z =>
    keep r (transform2 p w (on_words2 w f) (it x) (it y) (it u) (it z))
  | PCount x y b => let* n := count t p w (it x) (it y) b in ret (NumReply n, e)
  | PFind r x y b => keep r (find p w (it x) (it y) b)
  | PEqual x y z => let* b := equal p w (it x) (it y) (it z) in ret (BoolReply b, e)
  end.

(** A program: it has ended with a result, or does an operation and goes on with what
    the operation told it (no /repo lines). *)
CoInductive prog (A : Type) : Type :=
| Finish (a : A)
| Then (o : pop) (k : reply -> prog A).
Arguments Finish {A} a.
Arguments Then {A} o k.

(** The program for at most [n] operations (no /repo lines). *)
Fixpoint prun {A} (t : target) (p : policy) (w : Z) (n : nat) (c : prog A) (e : env) : M A :=
  match n with
  | O => lift Fuel
  | S n' =>
    match c with
    | Finish a => ret a
    | Then o k => let* x := pstep t p w o e in prun t p w n' (k (fst x)) (snd x)
    end
  end.
