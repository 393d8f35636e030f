(** The programs of ProgModel in a build with BITLIB_HWY
    (/repo/include/bitlib/bit-algorithms). The operations whose code depends on the macro,
    or calls such code, are fill, find and the shifts (HwyModel.v), reverse and rotate
    (HwyAlgModel.v). Simplification: the function objects of transform are not std::bit_not,
    the only one with a vector version (transform.hpp:82-104; that call is C49). [h] says
    how many words a vector of the machine has and the byte address of word 0. *)
From Coq Require Import ZArith Bool List.
From Verif Require Import Base IterModel RefModel PopcntModel AlgModel TransformModel ShiftModel
  SwapModel ReverseModel RotateModel HwyModel HwyAlgModel GenericModel ProgModel.
Open Scope Z_scope.

(** One operation: fill.hpp:34-83, reverse.hpp:27-111, rotate.hpp:184-258,
    shift.hpp:46-238 and 240-377, find.hpp:33-123; the others as in [pstep]. *)
Definition pstep_hwy (t : target) (p : policy) (h : simd_unit) (w : Z) (o : pop) (e : env)
  : M (reply * env) :=
  let it x := eit e x in
  let keep r c := let* i := c in ret (NoReply, set_it e r i) in
  match o with
  | PFill x y b => fill_hwy p h w (it x) (it y) b ;; ret (NoReply, e)
  | PReverse x y => reverse_hwy p h w (it x) (it y) ;; ret (NoReply, e)
  | PRotate r x u y => keep r (rotate_hwy p h w (it x) (it u) (it y))
  | PShiftLeft r x y n b =>
    keep r (let* i := shift_left_hwy p h w (it x) (it y) n in
            fill_hwy p h w i (it y) b ;; ret i)
  | PShiftRight r x y n b =>
    keep r (let* i := shift_right_hwy p h w (it x) (it y) n in
            fill_hwy p h w (it x) i b ;; ret i)
  | PFind r x y b => keep r (find_hwy p h w (it x) (it y) b)
  | _ => pstep t p w o e
  end.

(** The program for at most [n] operations (no /repo lines). *)
Fixpoint prun_hwy {A} (t : target) (p : policy) (h : simd_unit) (w : Z) (n : nat) (c : prog A)
  (e : env) : M A :=
  match n with
  | O => lift Fuel
  | S n' =>
    match c with
    | Finish a => ret a
    | Then o k => let* x := pstep_hwy t p h w o e in prun_hwy t p h w n' (k (fst x)) (snd x)
    end
  end.
