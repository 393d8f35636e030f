(** Vocabulary for the theorems about bit references and bit pointers
    (bit_reference.hpp, bit_pointer.hpp in /repo/include/bitlib/bit-iterator):
    what an operation on a single bit does, without reference to the model. *)
From Coq Require Import ZArith Bool List.
From Verif Require Import Base RefModel Spec.
Import ListNotations.
Open Scope Z_scope.

(** Running [c] from [m] succeeds, makes bit [i] equal to [b] and changes no
    other bit (for the modifiers of bit_reference.hpp:184-363). *)
Definition writes (w : Z) (c : M unit) (m : mem) (i : Z) (b : bool) : Prop :=
  exists m', c m = Ok (tt, m') /\ updated w m m' i (i + 1) (fun _ => b).

(** The bit pointer [x] designates bit number [i] of memory
    (bit_pointer.hpp:80-82): [i] is the word address times the width plus the
    position of the only bit of the mask. *)
Definition points_to (w : Z) (x : bptr) (i : Z) : Prop :=
  exists a q, 0 <= q < w /\ x = Ptr (Some a) (2 ^ q) /\ i = a * w + q.

(** The same for a bit reference (bit_reference.hpp:101-103). *)
Definition refers_to (w : Z) (r : bref) (i : Z) : Prop :=
  exists a q, 0 <= q < w /\ r = Ref a (2 ^ q) /\ i = a * w + q.

(** A stream without error or end-of-file flag (bit_value.hpp:454). *)
Definition good_stream (s : istream) : Prop :=
  eofb s = false /\ failb s = false /\ badb s = false.

(** White space of the "C" locale: tab, line feed, vertical tab, form feed,
    carriage return and space (std::isspace). *)
Definition white : list Z := [9; 10; 11; 12; 13; 32].

(** A text without its leading white space. *)
Fixpoint drop_white (l : list Z) : list Z :=
  match l with
  | c :: l' => if existsb (Z.eqb c) white then drop_white l' else l
  | [] => []
  end.

(** The characters left once leading white space has been skipped as the
    stream's skipws flag asks (bit_value.hpp:454). *)
Definition pending (s : istream) : list Z :=
  if skipws s then drop_white (chars s) else chars s.
