(** Vocabulary shared by every model file: outcomes, words, C++ shifts, memory.
    Source: /repo/include/bitlib (C++17, GCC, x86-64 LP64). *)
From Coq Require Import ZArith Bool List.
Import ListNotations.
Open Scope Z_scope.

(** Kinds of undefined behaviour that the model tells apart.
    Not a definition of /repo: C++17 [expr.shift] 1-3 (shift counts, left shift
    of a negative value), [expr.unary.op] 1 and [basic.stc.dynamic.safety]
    (access outside an object), [expr] 4 (signed overflow). *)
Inductive ub : Type :=
| OutOfBounds      (* word read or written outside the mapped words *)
| OverShift        (* shift count negative or >= width of promoted operand *)
| NegShift         (* C++17 only: left shift of a negative value, or signed
                      left shift result not representable *)
| SignedOverflow   (* overflow of int or ptrdiff_t arithmetic *)
| BadUse.          (* any other violated precondition of a standard component *)

(** Outcome of a C++ computation. [Assert] is a failing assert(), e.g.
    bit-iterator/bit_iterator.hpp:177; [Throw] is a C++ exception, e.g.
    bit-containers/bit_vector.hpp:364-382; [Fuel] means that the model's loop
    bound was too small (excluded by the theorems). *)
Inductive res (A : Type) : Type :=
| Ok (a : A)
| UB (k : ub)
| Assert
| Throw
| Fuel.
Arguments Ok {A} a.
Arguments UB {A} k.
Arguments Assert {A}.
Arguments Throw {A}.
Arguments Fuel {A}.

(** Sequencing of outcomes (C++ statement sequencing; no /repo lines). *)
Definition rbind {A B} (r : res A) (f : A -> res B) : res B :=
  match r with
  | Ok a => f a
  | UB k => UB k
  | Assert => Assert
  | Throw => Throw
  | Fuel => Fuel
  end.

Notation "'let?' x := r 'in' k" := (rbind r (fun x => k))
  (at level 200, x pattern, r at level 100, k at level 200).

(** Word widths of the word types, the value of binary_digits<T>,
    bit-iterator/bit_details.hpp:41-58: the types from uint8_t to uint64_t
    (README.md, test/src) and unsigned __int128, which std::is_integral accepts
    in the GNU dialects of the compilers and to which lines 307, 367, 642 and
    1007 give cases of their own. *)
Definition valid_w (w : Z) : Prop := w = 8 \/ w = 16 \/ w = 32 \/ w = 64 \/ w = 128.

(** Width of the type a [w]-bit operand is promoted to: C++17 [conv.prom];
    digits compared against in bit-iterator/bit_details.hpp:399, 434. *)
Definition prom (w : Z) : Z := if w <? 32 then 32 else w.

(** Conversion of an integer to an unsigned [w]-bit type: C++17 [conv.integral];
    the implicit conversions to word_type / T throughout
    bit-iterator/bit_details.hpp. *)
Definition wrap (w x : Z) : Z := x mod 2 ^ w.

(** Conversion to a signed 64-bit type (difference_type):
    bit-iterator/bit_iterator.hpp:293-320. *)
Definition swrap64 (x : Z) : Z :=
  (x + 2 ^ 63) mod 2 ^ 64 - 2 ^ 63.

(** How the executing platform treats shifts that the language leaves
    undefined. No /repo lines: [Strict17] and [Strict20] are the language
    rules, [Hw o] is a machine whose out-of-range shifts yield [o left x c]. *)
Inductive policy : Type :=
| Strict17
| Strict20
| Hw (o : bool -> Z -> Z -> Z).

(** [x << c] where [x] has the [w]-bit unsigned type T: the shifts in
    bit-iterator/bit_details.hpp:541, 577, 721, 759, 785, 862, 880.
    For w < 32 the operand is promoted to int; the result is then kept as an
    unbounded integer instead of being reduced modulo 2^32. This is a
    simplification without effect since all users convert the result to a type
    of at most 16 bits. *)
Definition cshl (p : policy) (w x c : Z) : res Z :=
  if (0 <=? c) && (c <? prom w) then
    if w <? 32 then
      match p with
      | Strict17 =>
        if (x <? 0) || (2 ^ 32 <=? x * 2 ^ c) then UB NegShift
        else Ok (Z.shiftl x c)
      | _ => Ok (Z.shiftl x c)
      end
    else Ok (wrap w (Z.shiftl x c))
  else
    match p with
    | Hw o => if w <? 32 then Ok (o true x c) else Ok (wrap w (o true x c))
    | _ => UB OverShift
    end.

(** [x >> c] where [x] has the [w]-bit unsigned type T (promoted if w < 32):
    bit-iterator/bit_details.hpp:542, 575, 721, 862, 880. *)
Definition cshr (p : policy) (w x c : Z) : res Z :=
  if (0 <=? c) && (c <? prom w) then Ok (Z.shiftr x c)
  else
    match p with
    | Hw o => if w <? 32 then Ok (o false x c) else Ok (wrap w (o false x c))
    | _ => UB OverShift
    end.

(** C++ bool converted to an integer, as in [msk * (start < digits)],
    bit-iterator/bit_details.hpp:542, 760. *)
Definition b2z (b : bool) : Z := if b then 1 else 0.

(** Word-addressed memory. All ranges handed to an algorithm live in one such
    memory, so that aliasing is expressible. An address that is not mapped
    stands for anything outside the arrays handed to the algorithm.
    Simplification: addresses are word indices, all words have the same type.
    (word_type* in bit-iterator/bit_iterator.hpp:172-180.) *)
Definition mem : Type := Z -> option Z.

(** Memory after storing [v] at word address [a] (C++ assignment through a
    word pointer, e.g. bit-algorithms/fill.hpp:56-75). *)
Definition mset (m : mem) (a v : Z) : mem :=
  fun b => if b =? a then Some v else m b.

(** Computations over memory (C++ statements; no /repo lines). *)
Definition M (A : Type) : Type := mem -> res (A * mem).

Definition ret {A} (a : A) : M A := fun m => Ok (a, m).  (* value; no /repo lines *)

(** Sequencing (C++ [;]). No /repo lines. *)
Definition bind {A B} (c : M A) (f : A -> M B) : M B :=
  fun m =>
    match c m with
    | Ok (a, m') => f a m'
    | UB k => UB k
    | Assert => Assert
    | Throw => Throw
    | Fuel => Fuel
    end.

(** A computation that does not touch memory, used as a statement. No /repo
    lines. *)
Definition lift {A} (r : res A) : M A :=
  fun m =>
    match r with
    | Ok a => Ok (a, m)
    | UB k => UB k
    | Assert => Assert
    | Throw => Throw
    | Fuel => Fuel
    end.

(** Read of the word at address [a], [*it] for a word iterator, e.g.
    bit-algorithms/bit_algorithm_details.hpp:105-142. *)
Definition load (a : Z) : M Z :=
  fun m => match m a with Some x => Ok (x, m) | None => UB OutOfBounds end.

(** Write of a word, [*it = v] for a word iterator, e.g.
    bit-algorithms/bit_algorithm_details.hpp:211-274. *)
Definition store (a v : Z) : M unit :=
  fun m => match m a with
           | Some _ => Ok (tt, mset m a v)
           | None => UB OutOfBounds
           end.

Notation "'let*' x := c 'in' k" := (bind c (fun x => k))
  (at level 200, x pattern, c at level 100, k at level 200).
Notation "'let!' x := r 'in' k" := (bind (lift r) (fun x => k))
  (at level 200, x pattern, r at level 100, k at level 200).
Notation "c ';;' k" := (bind c (fun _ => k))
  (at level 100, right associativity, k at level 200).
