(** Calls of the algorithms of /repo/include/bitlib/bit-algorithms and operations on
    bit references running in several threads over one memory. A thread is the
    sequence of reads and writes of whole words it makes (a bit has no address of its
    own: bit_reference.hpp:102-103 is a word pointer and a mask), one at a time; the
    threads are interleaved in every order. Simplification: reads and writes take
    effect at once and in program order, which the C++ rules guarantee for programs
    without data races ([intro.races]); the byte reads of count are reads of the word
    they lie in. *)
From Coq Require Import ZArith Bool List.
From Verif Require Import Base WordOps IterModel RefModel PopcntModel AlgModel ShiftModel
  TransformModel SwapModel ReverseModel RotateModel.
Import ListNotations.
Open Scope Z_scope.

(** What a thread still has to do: it has finished, or its next access is the read of
    the word at [a], or the write of [v] to it (load and store of Base; no /repo
    lines). *)
Inductive thread (A : Type) : Type :=
| Done (r : res A)
| Read (a : Z) (k : Z -> thread A)
| Write (a v : Z) (k : thread A).
Arguments Done {A} r.
Arguments Read {A} a k.
Arguments Write {A} a v k.

(** First one thread, then another (C++ [;]; no /repo lines). *)
Fixpoint tbind {A B} (t : thread A) (f : A -> thread B) : thread B :=
  match t with
  | Done (Ok a) => f a
  | Done (UB k) => Done (UB k)
  | Done Assert => Done Assert
  | Done Throw => Done Throw
  | Done Fuel => Done Fuel
  | Read a k => Read a (fun x => tbind (k x) f)
  | Write a v k => Write a v (tbind k f)
  end.

(** The thread run on its own (no /repo lines). *)
Fixpoint alone {A} (t : thread A) : M A :=
  match t with
  | Done r => lift r
  | Read a k => fun m => match m a with Some x => alone (k x) m | None => UB OutOfBounds end
  | Write a v k => fun m =>
    match m a with Some _ => alone k (mset m a v) | None => UB OutOfBounds end
  end.

(** A thread without writes (no /repo lines). *)
Inductive reads_only {A} : thread A -> Prop :=
| ro_done : forall r, reads_only (Done r)
| ro_read : forall a k, (forall x, reads_only (k x)) -> reads_only (Read a k).

(** Threads and the memory they share (no /repo lines). *)
Definition pool (A : Type) : Type := (mem * list (thread A))%type.

(** One of the threads makes its next access; an access outside the memory has no
    next state (no /repo lines). *)
Inductive pstep {A} : pool A -> pool A -> Prop :=
| ps_read : forall m ts1 a k ts2 x, m a = Some x ->
    pstep (m, ts1 ++ Read a k :: ts2) (m, ts1 ++ k x :: ts2)
| ps_write : forall m ts1 a v k ts2, m a <> None ->
    pstep (m, ts1 ++ Write a v k :: ts2) (mset m a v, ts1 ++ k :: ts2).

(** Any number of accesses (no /repo lines). *)
Inductive psteps {A} : pool A -> pool A -> Prop :=
| pss_none : forall s, psteps s s
| pss_more : forall s s' s'', pstep s s' -> psteps s' s'' -> psteps s s''.

(** A call. Every constructor names the function. *)
Inductive call : Type :=
| CFill (first last : iter) (b : bool)                  (* fill.hpp:38-82 *)
| CCopy (first last d : iter)                           (* copy.hpp:27-96 *)
| CMove (first last d : iter)                           (* move.hpp:25-99 *)
| CCopyBackward (first last d : iter)                   (* copy_backward.hpp:27-101 *)
| CSwapRanges (first last first2 : iter)                (* swap_ranges.hpp:23-192 *)
| CReverse (first last : iter)                          (* reverse.hpp:27-111 *)
| CRotate (first n_first last : iter)                   (* rotate.hpp:184-258 *)
| CTransform (op : Z -> Z) (first last d : iter)        (* transform.hpp:34-128 *)
| CTransform2 (op : Z -> Z -> Z) (first last first2 d : iter)  (* transform.hpp:130-212 *)
| CShiftLeft (first last : iter) (n : Z)                (* shift.hpp:46-238 *)
| CShiftRight (first last : iter) (n : Z)               (* shift.hpp:240-377 *)
| CFind (first last : iter) (b : bool)                  (* find.hpp:33-123 *)
| CCount (t : target) (first last : iter) (b : bool)    (* count.hpp:34-117 *)
| CEqual (first last d : iter)                          (* equal.hpp:29-99 *)
| CGet (it : iter)                                      (* bit_reference.hpp:276-281 *)
| CSet (it : iter) (b : bool)                           (* bit_reference.hpp:206-213 *)
| CFlip (it : iter)                                     (* bit_reference.hpp:357-363 *)
| CSwapBits (it1 it2 : iter).                           (* bit_reference.hpp:402-412 *)

(** What a call returns (no /repo lines). *)
Inductive answer : Type := AUnit | ABool (b : bool) | ANum (n : Z) | AIter (it : iter).

(** The call; lines as in [call]. *)
Definition run_call (p : policy) (w : Z) (c : call) : M answer :=
  match c with
  | CFill f l b => let* _ := fill p w f l b in ret AUnit
  | CCopy f l d => let* r := copy p w f l d in ret (AIter r)
  | CMove f l d => let* r := move p w f l d in ret (AIter r)
  | CCopyBackward f l d => let* r := copy_backward p w f l d in ret (AIter r)
  | CSwapRanges f l d => let* r := swap_ranges p w f l d in ret (AIter r)
  | CReverse f l => let* _ := reverse p w f l in ret AUnit
  | CRotate f n l => let* r := rotate p w f n l in ret (AIter r)
  | CTransform op f l d => let* r := transform1 p w op f l d in ret (AIter r)
  | CTransform2 op f l g d => let* r := transform2 p w op f l g d in ret (AIter r)
  | CShiftLeft f l n => let* r := shift_left p w f l n in ret (AIter r)
  | CShiftRight f l n => let* r := shift_right p w f l n in ret (AIter r)
  | CFind f l b => let* r := find p w f l b in ret (AIter r)
  | CCount t f l b => let* r := count t p w f l b in ret (ANum r)
  | CEqual f l d => let* r := equal p w f l d in ret (ABool r)
  | CGet it => let! r := ideref p w it in let* b := ref_get r in ret (ABool b)
  | CSet it b => let! r := ideref p w it in ref_assign_val w r b ;; ret AUnit
  | CFlip it => let! r := ideref p w it in ref_flip r ;; ret AUnit
  | CSwapBits i j =>
    let! r := ideref p w i in let! s := ideref p w j in ref_swap r s ;; ret AUnit
  end.

(** The calls that take a range by const iterators or read a bit (lines as in
    [call]). *)
Definition nonmodifying (c : call) : bool :=
  match c with CFind _ _ _ | CCount _ _ _ _ | CEqual _ _ _ | CGet _ => true | _ => false end.

(** The calls one after the other (no /repo lines). *)
Fixpoint in_turn (p : policy) (w : Z) (cs : list call) : M (list answer) :=
  match cs with
  | [] => ret []
  | c :: cs' => let* x := run_call p w c in let* xs := in_turn p w cs' in ret (x :: xs)
  end.
