(** Vocabulary for the theorems about calls in several threads. *)
From Coq Require Import ZArith Bool List.
From Verif Require Import Base IterModel PopcntModel Spec SpecRotate SpecClient ThreadModel.
Import ListNotations.
Open Scope Z_scope.

(** The bits [lo, hi) that a call is about: its ranges, or the bits it names
    (parameters of the functions listed in ThreadModel.call). *)
Definition ranges (w : Z) (c : call) : list (Z * Z) :=
  let range f l := (addr w f, addr w l) in
  let dest d f l := (addr w d, addr w d + (addr w l - addr w f)) in
  let one it := (addr w it, addr w it + 1) in
  match c with
  | CFill f l _ | CReverse f l | CRotate f _ l | CShiftLeft f l _ | CShiftRight f l _
  | CFind f l _ | CCount _ f l _ => [range f l]
  | CCopy f l d | CMove f l d | CSwapRanges f l d | CEqual f l d | CTransform _ f l d =>
    [range f l; dest d f l]
  | CCopyBackward f l d => [range f l; (addr w d - (addr w l - addr w f), addr w d)]
  | CTransform2 _ f l g d => [range f l; dest g f l; dest d f l]
  | CGet it | CSet it _ | CFlip it => [one it]
  | CSwapBits i j => [one i; one j]
  end.

(** The word [a] holds one of these bits. *)
Definition holds (w : Z) (c : call) (a : Z) : Prop :=
  exists lo hi i, In (lo, hi) (ranges w c) /\ lo <= i < hi /\ i / w = a.

(** They all exist in the memory. *)
Definition present (w : Z) (m : mem) (c : call) : Prop :=
  forall lo hi, In (lo, hi) (ranges w c) -> mapped w m lo hi.

(** [f, l) is a range that is not empty. *)
Definition some_range (w : Z) (f l : iter) : Prop :=
  valid_it w f /\ valid_it w l /\ 0 < addr w l - addr w f <= max_bits.

(** The precondition of the call on its own: that of the standard algorithm, and the
    restrictions of C11, C14, C22, C24 and C55. *)
Definition call_pre (p : policy) (w : Z) (c : call) : Prop :=
  match c with
  | CFill f l _ => some_range w f l
  | CCopy f l d | CMove f l d =>
    some_range w f l /\ valid_it w d /\ (addr w d <= addr w f \/ addr w l <= addr w d)
  | CCopyBackward f l d =>
    some_range w f l /\ valid_it w d /\ (addr w l <= addr w d \/ addr w d <= addr w f) /\
    (ip f <> 0 \/ ip l <> ip d \/ ib l - ib f < 2 \/ full_blend_defined p w)
  | CSwapRanges f l d =>
    some_range w f l /\ valid_it w d /\
    (addr w l <= addr w d \/ addr w d + (addr w l - addr w f) <= addr w f)
  | CReverse f l =>
    some_range w f l /\ addr w l - addr w f + 2 * w <= max_bits /\
    (ip f = 0 \/ ip l <> 0 \/ ib l - ib f <> 1 \/ full_blend_defined p w)
  | CRotate f n l =>
    some_range w f l /\ valid_it w n /\ addr w f <= addr w n < addr w l /\
    Z.min (addr w n - addr w f) (addr w l - addr w n) <= 2 ^ 32 * (w + 1) /\
    (addr w l - addr w n <= w \/ (addr w n - addr w f) / (addr w l - addr w n) < 2 ^ 32) /\
    mask_fits w (ip f) (addr w l - addr w f)
  | CTransform op f l d =>
    some_range w f l /\ valid_it w d /\ (addr w d <= addr w f \/ addr w l <= addr w d) /\
    exists g, bitwise w op g
  | CTransform2 op f l f2 d =>
    some_range w f l /\ valid_it w f2 /\ valid_it w d /\
    (addr w d <= addr w f \/ addr w l <= addr w d) /\
    (addr w d <= addr w f2 \/ addr w f2 + (addr w l - addr w f) <= addr w d) /\
    exists g, bitwise2 w op g
  | CShiftLeft f l n | CShiftRight f l n =>
    some_range w f l /\ 0 < n < addr w l - addr w f /\
    (ip f <> 0 \/ ip l <> 0 \/ ib l - ib f <> 1 \/ full_blend_defined p w)
  | CFind f l _ => some_range w f l
  | CCount t f l _ =>
    some_range w f l /\ ((exists c, t = X86 c) \/ t = Neon true \/ w = 64)
  | CEqual f l d => some_range w f l /\ valid_it w d
  | CGet it | CSet it _ | CFlip it => valid_it w it
  | CSwapBits i j => valid_it w i /\ valid_it w j
  end.

(** Two calls that may run at the same time: no word holds bits of both, or neither
    modifies anything. *)
Definition compatible (w : Z) (c d : call) : Prop :=
  (nonmodifying c = true /\ nonmodifying d = true) \/
  forall a, holds w c a -> holds w d a -> False.

(** Any two of the calls are compatible. *)
Definition all_compatible (w : Z) (cs : list call) : Prop := ForallOrdPairs (compatible w) cs.

(** The thread carries out the call: on its own it has the effect of the call; a call
    that does not modify anything does not write. The order and number of accesses is
    left open. *)
Definition carries_out (p : policy) (w : Z) (t : thread answer) (c : call) : Prop :=
  (forall m, alone t m = run_call p w c m) /\ (nonmodifying c = true -> reads_only t).

(** The word a thread accesses next, and whether it writes it. *)
Definition next_access {A} (t : thread A) : option (Z * bool) :=
  match t with
  | Done _ => None
  | Read a _ => Some (a, false)
  | Write a _ _ => Some (a, true)
  end.

(** A data race: two threads are about to access the same word, one of them to write it
    ([intro.races]). *)
Definition race {A} (s : pool A) : Prop :=
  exists ts1 t ts2 u ts3 a x y, snd s = ts1 ++ t :: ts2 ++ u :: ts3 /\
    next_access t = Some (a, x) /\ next_access u = Some (a, y) /\ x || y = true.

(** Nobody can go on. *)
Definition stuck {A} (s : pool A) : Prop := forall s', ~ pstep s s'.

(** There is no infinite execution from here. *)
Inductive ends {A} (s : pool A) : Prop :=
| ends_intro : (forall s', pstep s s' -> ends s') -> ends s.

(** The memory without the word [a]. *)
Definition unmap (a : Z) (m : mem) : mem := fun b => if b =? a then None else m b.
