(** The constructors of bit_vector when an allocation may fail
    (/repo/include/bitlib/bit-containers/bit_vector.hpp; line numbers refer to that
    file), statement by statement as in FailModel. An exception that leaves a
    constructor destroys the members (lines 39-40), so that no object remains; one that
    leaves a constructor declared noexcept ends the program ([except.spec]).

    Not here: bit_vector(other, alloc) of line 114, which is declared and not defined,
    and the initializer_list of bit_values of lines 252-258, which cannot be
    instantiated. *)
From Coq Require Import ZArith Bool List.
From Verif Require Import Base WordOps IterModel RefModel AlgModel VecModel CapModel FailModel.
Import ListNotations.
Open Scope Z_scope.

(** The members before the constructor's initialisers: no words, no buffer; length_
    is 0 (line 40). *)
Definition unborn : cvec := (BV [] 0, Buf 0 0).

(** The constructors of std::vector that are given the words [l]: word_vector(n, x),
    word_vector(n), from a range, an initializer_list or another vector; lines 211,
    217, 226, 246, 250, 272, 278, 302, 326 and the defaulted line 113. In lines 278,
    302 and 326 the vector is a temporary that is move-assigned, so its buffer changes
    hands. No words, no request. The room of the buffer is up to the implementation,
    as in CapModel. *)
Definition words_make (al : allocator) (g : growth) (l : list Z) : X unit := fun c =>
  let n := wsize l in
  if n =? 0 then Ok (Value tt, (BV l (vlen (fst c)), snd c))
  else let r := g_other g 0 0 n in
       match al r with
       | Some f => Ok (Exception (Refused f), c)
       | None => Ok (Value tt, (BV l (vlen (fst c)), Buf r (bserial (snd c) + 1)))
       end.

(** [n] words of value [x], n a size_t (lines 211, 217, 226, 278, 302). *)
Definition copies (n x : Z) : list Z := repeat x (Z.to_nat n).

(** bit_vector() and bit_vector(alloc), lines 203-207. *)
Definition make_default : X unit := set_len 0.

(** bit_vector(count, bit_val), lines 209-213. *)
Definition make_fill (al : allocator) (g : growth) (w count : Z) (b : bool) : X unit :=
  words_make al g (copies (word_count w count) (if b then wrap w (-1) else 0)) ;x
  set_len count.

(** bit_vector(count), lines 215-217. *)
Definition make_count (al : allocator) (g : growth) (w count : Z) : X unit :=
  words_make al g (copies (word_count w count) 0) ;x
  set_len count.

(** bit_vector(first, last) from bit iterators into [ext], lines 219-228. *)
Definition make_bits (al : allocator) (g : growth) (p : policy) (w : Z) (ext : mem)
  (first last : iter) : X unit :=
  letx d := xlift (distance w first last) in
  words_make al g (copies (wrap 64 d) 0) ;x
  letx e := xlift (distance w first last) in
  set_len (wrap 64 e) ;x
  letx _ := alg_on_ext ext (copy p w first last vbegin) in
  xret tt.

(** bit_vector(first, last) from a range of bool, lines 231-242 and 291-311. *)
Definition make_bools (al : allocator) (g : growth) (p : policy) (w : Z) (bs : list bool)
  : X unit :=
  words_make al g (copies (Z.of_nat (length bs)) 0) ;x
  set_len (Z.of_nat (length bs)) ;x
  alg_on (write_bools p w vbegin bs).

(** bit_vector(first, last) from a range of words, lines 231-242 and 314-328, and from
    an initializer_list of words, lines 268-272. *)
Definition make_words (al : allocator) (g : growth) (w : Z) (ws : list Z) : X unit :=
  words_make al g ws ;x
  set_len (wrap 64 (w * wsize ws)).

(** bit_vector from an initializer_list of bool, lines 260-266. *)
Fixpoint push_each (al : allocator) (g : growth) (p : policy) (w : Z) (bs : list bool) : X unit :=
  match bs with
  | [] => xret tt
  | b :: bs' => xpush_back al g p w b ;x push_each al g p w bs'
  end.
Definition make_init (al : allocator) (g : growth) (p : policy) (w : Z) (bs : list bool)
  : X unit :=
  set_len 0 ;x push_each al g p w bs.

(** bit_vector(string_view), lines 275-287. *)
Definition make_string (al : allocator) (g : growth) (p : policy) (w : Z) (s : list Z) : X unit :=
  set_len (count_char 48 s + count_char 49 s) ;x
  letx n := len in
  words_make al g (copies n 0) ;x
  alg_on (write_string p w 0 s).

(** The copy constructor (defaulted, line 113) and the move constructors, lines
    244-250. Their parameter is a const rvalue: std::move(other.word_vector) is a const
    rvalue too, which the move constructor of std::vector does not take, so the words
    are copied and other stays as it is. *)
Definition make_copy (al : allocator) (g : growth) (other : bvec) : X unit :=
  words_make al g (vwords other) ;x
  set_len (vlen other).

(** What a vector is made from; for bit iterators the words they point into and the
    bits [i], [j) of these words (lines 94-120). *)
Inductive source : Type :=
| FromNothing                                  (* 203-207 *)
| FromCount (n : Z)                            (* 215-217 *)
| FromFill (n : Z) (b : bool)                  (* 209-213 *)
| FromBits (src : list Z) (i j : Z)            (* 219-228 *)
| FromBools (bs : list bool)                   (* 231-242, 291-311 *)
| FromWords (ws : list Z)                      (* 268-272, 314-328 *)
| FromInit (bs : list bool)                    (* 260-266 *)
| FromString (s : list Z)                      (* 275-287 *)
| FromCopy (other : bvec)                      (* 113 *)
| FromMove (other : bvec)                      (* 244-246 *)
| FromMoveAlloc (other : bvec).                (* 248-250 *)

(** The body of the constructor; lines as in [source]. *)
Definition body (al : allocator) (g : growth) (p : policy) (w : Z) (s : source) : X unit :=
  match s with
  | FromNothing => make_default
  | FromCount n => make_count al g w n
  | FromFill n b => make_fill al g w n b
  | FromBits src i j =>
    letx f := xlift (iadd w (ext_begin src) i) in
    letx l := xlift (iadd w (ext_begin src) j) in
    make_bits al g p w (ext_mem src) f l
  | FromBools bs => make_bools al g p w bs
  | FromWords ws => make_words al g w ws
  | FromInit bs => make_init al g p w bs
  | FromString t => make_string al g p w t
  | FromCopy other | FromMove other | FromMoveAlloc other => make_copy al g other
  end.

(** Declared noexcept: lines 94-95 and 115 (std::allocator's constructor is noexcept). *)
Definition is_noexcept (s : source) : bool :=
  match s with FromNothing | FromMove _ => true | _ => false end.

(** How a construction ends (no /repo lines). *)
Inductive made : Type := Made (c : cvec) | Threw (e : exn) | Terminated.

(** A construction; lines as in [source]. *)
Definition construct (al : allocator) (g : growth) (p : policy) (w : Z) (s : source) : res made :=
  let? (o, c) := body al g p w s unborn in
  match o with
  | Value _ => Ok (Made c)
  | Exception e => Ok (if is_noexcept s then Terminated else Threw e)
  end.
