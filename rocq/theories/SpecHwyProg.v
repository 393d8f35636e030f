(** Vocabulary for the programs of HwyProgModel under the rules of the language. *)
From Coq Require Import ZArith Bool List.
From Verif Require Import Base IterModel GenericModel ProgModel HwyModel Spec SpecRef SpecGeneric
  SpecProg SpecPoint.
Import ListNotations.
Open Scope Z_scope.

(** A shift to the right of the bits [a, b) of memory by [n] looks at no word in front of
    word [f]. *)
Definition shift_from (h : simd_unit) (w f a b n : Z) : Prop :=
  n mod w <> 0 -> forall q, looked_at h w (a / w) ((b / w * w - n) / w) (b / w) q -> f <= q.

(** An operation looks at no word in front of the array it works on, array [k] at bit
    [lo k] of memory. reverse shifts the words of its range to the right if there are fewer
    bits behind the range in its last word than in front of it in the first; rotate ends
    with [rotate_shift]. *)
Definition op_inside (h : simd_unit) (w : Z) (lo : nat -> Z) (o : pop) (s : senv) : Prop :=
  match o with
  | PReverse x y =>
    match sit s x, sit s y with
    | Some (k, i), Some (_, j) =>
      let e := (lo k + j + (w - 1)) / w in
      e * w - (lo k + j) < (lo k + i) mod w ->
      forall q, looked_at h w ((lo k + i) / w) (e - 1) e q -> lo k / w <= q
    | _, _ => True
    end
  | PRotate _ x u y =>
    match sit s x, sit s u, sit s y with
    | Some (k, i), Some (_, v), Some (_, j) =>
      forall a b n, rotate_shift w (lo k + i) (v - i) (j - v) = Some (a, b, n) ->
        shift_from h w (lo k / w) a b n
    | _, _, _ => True
    end
  | PShiftRight _ x y n _ =>
    match sit s x, sit s y with
    | Some (k, i), Some (_, j) => 0 < n -> shift_from h w (lo k / w) (lo k + i) (lo k + j) n
    | _, _ => True
    end
  | _ => True
  end.

(** The same of the first [n] operations of a program. *)
Fixpoint prog_inside {A} (h : simd_unit) (w : Z) (lo : nat -> Z) (n : nat) (c : prog A)
  (s : senv) (arr : arrays) : Prop :=
  match n, c with
  | S n', Then o k =>
    match spstep o s arr with
    | Some (x, s', arr') => op_inside h w lo o s /\ prog_inside h w lo n' (k x) s' arr'
    | None => True
    end
  | _, _ => True
  end.

(** No word is mapped just in front of an array that is not empty. *)
Definition alone (w : Z) (m : mem) (lo : nat -> Z) (arr : arrays) : Prop :=
  forall k a, 0 < size arr k -> lo k / w - 64 <= a < lo k / w -> m a = None.
