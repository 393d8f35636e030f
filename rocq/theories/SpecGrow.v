(** Vocabulary for C34: histories of calls that only enlarge a bit vector
    (/repo/include/bitlib/bit-containers/bit_vector.hpp). *)
From Coq Require Import ZArith Bool List.
From Verif Require Import Base Spec VecModel SpecVec.
Import ListNotations.
Open Scope Z_scope.

(** The storage beyond size() is zero (bit_vector.hpp:39-40). *)
Definition clean (w : Z) (v : bvec) : Prop :=
  forall j, vlen v <= j < zlen (vwords v) * w -> get_at j (list_bits w (vwords v)) = false.

(** The calls of C32 on a list of bits, except that resize enlarges the list with
    zeros, as std::vector<bool> does. *)
Definition gspec (w : Z) (l : list bool) (o : vop) : vout * list bool :=
  match o with
  | OpResize n => (ONone, l ++ repeat false (Z.to_nat (n - zlen l)))
  | _ => vspec w l o
  end.

(** Preconditions: those of C32, but resize enlarges, no element is removed except
    by clear, and only clean vectors are assigned. *)
Definition gpre (p : policy) (w : Z) (l : list bool) (o : vop) : Prop :=
  match o with
  | OpPop | OpErase _ | OpEraseRange _ _ => False
  | OpResize n => zlen l <= n < 2 ^ 32
  | OpAssign other | OpMoveAssign other => vec_ok w other /\ clean w other
  | _ => vpre p w l o
  end.

(** Histories of such calls. *)
Fixpoint gpre_all (p : policy) (w : Z) (l : list bool) (os : list vop) : Prop :=
  match os with
  | [] => True
  | o :: os' => gpre p w l o /\ gpre_all p w (snd (gspec w l o)) os'
  end.
Fixpoint gspec_run (w : Z) (l : list bool) (os : list vop) : list vout * list bool :=
  match os with
  | [] => ([], l)
  | o :: os' =>
    let '(x, l') := gspec w l o in
    let '(xs, l'') := gspec_run w l' os' in
    (x :: xs, l'')
  end.
