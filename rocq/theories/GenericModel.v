(** Client code written against the iterator interface: any program that works with
    bit_iterators, bit_references, bit_pointers and bit_values through their operators
    (/repo/include/bitlib/bit-iterator/bit_iterator.hpp, bit_reference.hpp,
    bit_pointer.hpp), as the algorithms of the standard library and the benchmarks and
    tests of /repo do. Iterators, references and pointers live in numbered variables;
    booleans (bit_value) and integers are passed to the rest of the program, which may
    be any function of them and need not end. Simplification: streams and the
    null pointer are left to C43 and C53. *)
From Coq Require Import ZArith Bool List.
From Verif Require Import Base IterModel RefModel.
Open Scope Z_scope.

(** The six comparisons (bit_iterator.hpp:416-477, bit_pointer.hpp:421-488). *)
Inductive cmp : Type := CEq | CNe | CLt | CLe | CGt | CGe.

(** The operations; [x], [y] number iterators, [r], [s] references, [q], [t]
    pointers. *)
Inductive op : Type :=
| ICopy (x y : nat)                  (* x = y, bit_iterator.hpp:184-196 *)
| IPlus (x y : nat) (n : Z)          (* x = y + n, bit_iterator.hpp:293-305 *)
| IMinus (x y : nat) (n : Z)         (* x = y - n, bit_iterator.hpp:308-320 *)
| IAdvance (x : nat) (n : Z)         (* x += n, bit_iterator.hpp:323-330 *)
| IRetreat (x : nat) (n : Z)         (* x -= n, bit_iterator.hpp:333-340 *)
| IIncr (x : nat)                    (* ++x, bit_iterator.hpp:241-253 *)
| IDecr (x : nat)                    (* --x, bit_iterator.hpp:256-268 *)
| IPostIncr (x y : nat)              (* x = y++, bit_iterator.hpp:271-279 *)
| IPostDecr (x y : nat)              (* x = y--, bit_iterator.hpp:282-290 *)
| IDist (x y : nat)                  (* x - y, bit_iterator.hpp:389-409 *)
| ICmp (c : cmp) (x y : nat)         (* bit_iterator.hpp:416-477 *)
| RDeref (r x : nat)                 (* r bound to *x, bit_iterator.hpp:203-209 *)
| RIndex (r x : nat) (n : Z)         (* r bound to x[n], bit_iterator.hpp:221-234 *)
| RGet (r : nat)                     (* bool(r), bit_reference.hpp:276-281 *)
| RPut (r : nat) (b : bool)          (* r = b, bit_reference.hpp:206-213 *)
| RCopy (r s : nat)                  (* r = s, bit_reference.hpp:185-203 *)
| RSet (r : nat) (b : bool)          (* r.set(b), bit_reference.hpp:329-336 *)
| RSet1 (r : nat)                    (* r.set(), bit_reference.hpp:339-345 *)
| RReset (r : nat)                   (* r.reset(), bit_reference.hpp:348-354 *)
| RFlip (r : nat)                    (* r.flip(), bit_reference.hpp:357-363 *)
| RAnd (r : nat) (b : bool)          (* r &= b, bit_reference.hpp:242-249 *)
| ROr (r : nat) (b : bool)           (* r |= b, bit_reference.hpp:252-259 *)
| RXor (r : nat) (b : bool)          (* r ^= b, bit_reference.hpp:262-269 *)
| RSwap (r s : nat)                  (* swap(r, s), bit_reference.hpp:300-310, 402-412 *)
| RSwapVal (r : nat) (b : bool)      (* b after swap(r, b), bit_reference.hpp:415-438 *)
| PAddr (q r : nat)                  (* q = &r, bit_reference.hpp:288-293 *)
| PDeref (r q : nat)                 (* r bound to *q, bit_pointer.hpp:237-242 *)
| PIndex (r q : nat) (n : Z)         (* r bound to q[n], bit_pointer.hpp:253-265 *)
| PCopy (q t : nat)                  (* q = t, bit_pointer.hpp:196-217 *)
| PPlus (q t : nat) (n : Z)          (* q = t + n, bit_pointer.hpp:332-344 *)
| PMinus (q t : nat) (n : Z)         (* q = t - n, bit_pointer.hpp:347-359 *)
| PIncr (q : nat)                    (* ++q, bit_pointer.hpp:272-288 *)
| PDecr (q : nat)                    (* --q, bit_pointer.hpp:291-307 *)
| PDist (q t : nat)                  (* q - t, bit_pointer.hpp:396-414 *)
| PCmp (c : cmp) (q t : nat).        (* bit_pointer.hpp:421-488 *)

(** What an operation tells the program (no /repo lines). *)
Inductive reply : Type := NoReply | BoolReply (b : bool) | NumReply (n : Z).

(** A program: it has ended with a result, or does an operation and goes on with
    what the operation told it (no /repo lines). *)
CoInductive client (A : Type) : Type :=
| Return (a : A)
| Do (o : op) (k : reply -> client A).
Arguments Return {A} a.
Arguments Do {A} o k.

(** The variables of the program (no /repo lines). *)
Record env : Type := Env { eit : nat -> iter; ere : nat -> bref; ept : nat -> bptr }.

(** Assignment to a variable (no /repo lines). *)
Definition put {T : Type} (f : nat -> T) (x : nat) (v : T) : nat -> T :=
  fun y => if Nat.eqb y x then v else f y.
Definition set_it (e : env) (x : nat) (v : iter) : env := Env (put (eit e) x v) (ere e) (ept e).
Definition set_re (e : env) (x : nat) (v : bref) : env := Env (eit e) (put (ere e) x v) (ept e).
Definition set_pt (e : env) (x : nat) (v : bptr) : env := Env (eit e) (ere e) (put (ept e) x v).

(** The comparisons of iterators, bit_iterator.hpp:416-477. *)
Definition icmp (c : cmp) (l r : iter) : bool :=
  match c with
  | CEq => ieq l r | CNe => ine l r | CLt => ilt l r
  | CLe => ile l r | CGt => igt l r | CGe => ige l r
  end.

(** The comparisons of pointers, bit_pointer.hpp:421-488. *)
Definition pcmp (w : Z) (c : cmp) (l r : bptr) : res bool :=
  match c with
  | CEq => Ok (peq w l r) | CNe => Ok (pne w l r) | CLt => plt w l r
  | CLe => ple w l r | CGt => pgt w l r | CGe => pge w l r
  end.

(** One operation; lines as in [op]. *)
Definition step (p : policy) (w : Z) (o : op) (e : env) : M (reply * env) :=
  let it x := eit e x in
  let re r := ere e r in
  let pt q := ept e q in
  match o with
  | ICopy x y => ret (NoReply, set_it e x (it y))
  | IPlus x y n => let! i := iadd w (it y) n in ret (NoReply, set_it e x i)
  | IMinus x y n => let! i := isub w (it y) n in ret (NoReply, set_it e x i)
  | IAdvance x n => let! i := iadd_assign w (it x) n in ret (NoReply, set_it e x i)
  | IRetreat x n => let! i := isub_assign w (it x) n in ret (NoReply, set_it e x i)
  | IIncr x => ret (NoReply, set_it e x (iinc w (it x)))
  | IDecr x => ret (NoReply, set_it e x (idec w (it x)))
  | IPostIncr x y =>
    ret (NoReply, set_it (set_it e y (snd (ipostinc w (it y)))) x (fst (ipostinc w (it y))))
  | IPostDecr x y =>
    ret (NoReply, set_it (set_it e y (snd (ipostdec w (it y)))) x (fst (ipostdec w (it y))))
  | IDist x y => let! d := idiff w (it x) (it y) in ret (NumReply d, e)
  | ICmp c x y => ret (BoolReply (icmp c (it x) (it y)), e)
  | RDeref r x => let! v := ideref p w (it x) in ret (NoReply, set_re e r v)
  | RIndex r x n => let! v := iindex p w (it x) n in ret (NoReply, set_re e r v)
  | RGet r => let* b := ref_get (re r) in ret (BoolReply b, e)
  | RPut r b => ref_assign_val w (re r) b ;; ret (NoReply, e)
  | RCopy r s => ref_assign_ref w (re r) (re s) ;; ret (NoReply, e)
  | RSet r b => ref_set w (re r) b ;; ret (NoReply, e)
  | RSet1 r => ref_set1 (re r) ;; ret (NoReply, e)
  | RReset r => ref_reset w (re r) ;; ret (NoReply, e)
  | RFlip r => ref_flip (re r) ;; ret (NoReply, e)
  | RAnd r b => ref_and w (re r) b ;; ret (NoReply, e)
  | ROr r b => ref_or w (re r) b ;; ret (NoReply, e)
  | RXor r b => ref_xor w (re r) b ;; ret (NoReply, e)
  | RSwap r s => ref_swap (re r) (re s) ;; ret (NoReply, e)
  | RSwapVal r b => let* v := ref_swap_val (re r) b in ret (BoolReply v, e)
  | PAddr q r => let! v := ref_addr p w (re r) in ret (NoReply, set_pt e q v)
  | PDeref r q => let! v := ptr_deref (pt q) in ret (NoReply, set_re e r v)
  | PIndex r q n => let! v := pindex p w (pt q) n in ret (NoReply, set_re e r v)
  | PCopy q t => ret (NoReply, set_pt e q (pt t))
  | PPlus q t n => let! v := padd p w (pt t) n in ret (NoReply, set_pt e q v)
  | PMinus q t n => let! v := psub p w (pt t) n in ret (NoReply, set_pt e q v)
  | PIncr q => let! v := pinc w (pt q) in ret (NoReply, set_pt e q v)
  | PDecr q => let! v := pdec w (pt q) in ret (NoReply, set_pt e q v)
  | PDist q t => let! d := pdiff w (pt q) (pt t) in ret (NumReply d, e)
  | PCmp c q t => let! b := pcmp w c (pt q) (pt t) in ret (BoolReply b, e)
  end.

(** The program for at most [n] operations (no /repo lines). *)
Fixpoint exec {A} (p : policy) (w : Z) (n : nat) (c : client A) (e : env) : M A :=
  match n with
  | O => lift Fuel
  | S n' =>
    match c with
    | Return a => ret a
    | Do o k => let* x := step p w o e in exec p w n' (k (fst x)) (snd x)
    end
  end.
