(** The same client programs on arrays of booleans: what they must do, without
    reference to words, masks and memory. *)
From Coq Require Import ZArith Bool List.
From Verif Require Import Base IterModel Spec SpecRef GenericModel.
Import ListNotations.
Open Scope Z_scope.

(** Numbered arrays of booleans and a place in one of them: its number and an index,
    which may be the length of the array (one past the end). *)
Definition arrays : Type := nat -> list bool.
Definition place : Type := (nat * Z)%type.

(** Length of an array. *)
Definition size (arr : arrays) (k : nat) : Z := Z.of_nat (length (arr k)).

(** The place exists; there is an element at it. *)
Definition exists_at (arr : arrays) (x : place) : bool :=
  (0 <=? snd x) && (snd x <=? size arr (fst x)).
Definition element_at (arr : arrays) (x : place) : bool :=
  (0 <=? snd x) && (snd x <? size arr (fst x)).

(** The element at a place, and the arrays with another element there. *)
Definition elem (arr : arrays) (x : place) : bool := nth (Z.to_nat (snd x)) (arr (fst x)) false.
Definition write (arr : arrays) (x : place) (b : bool) : arrays :=
  put arr (fst x) (firstn (Z.to_nat (snd x)) (arr (fst x)) ++
                   b :: skipn (S (Z.to_nat (snd x))) (arr (fst x))).

(** The variables: iterators, references and pointers are places; [None] is a
    variable without a value. *)
Record senv : Type := SEnv {
  sit : nat -> option place; sre : nat -> option place; spt : nat -> option place }.
Definition sput_it (s : senv) (x : nat) (v : place) : senv := SEnv (put (sit s) x (Some v)) (sre s) (spt s).
Definition sput_re (s : senv) (x : nat) (v : place) : senv := SEnv (sit s) (put (sre s) x (Some v)) (spt s).
Definition sput_pt (s : senv) (x : nat) (v : place) : senv := SEnv (sit s) (sre s) (put (spt s) x (Some v)).

(** The comparisons. *)
Definition scmp (c : cmp) (i j : Z) : bool :=
  match c with
  | CEq => i =? j | CNe => negb (i =? j) | CLt => i <? j
  | CLe => i <=? j | CGt => j <? i | CGe => j <=? i
  end.

(** Continue if a condition holds, or if a variable has a value. *)
Definition check {T} (b : bool) (k : option T) : option T := if b then k else None.
Definition given {S T} (x : option S) (k : S -> option T) : option T :=
  match x with Some v => k v | None => None end.

(** The place [n] elements further, in the same array. *)
Definition shifted (x : place) (n : Z) : place := (fst x, snd x + n).

(** One operation; [None] if its use is not allowed: a variable without a value, a
    place outside the array, an element that is not there, a comparison or difference
    of places in two arrays. *)
Definition sstep (o : op) (s : senv) (arr : arrays) : option (reply * senv * arrays) :=
  let done s' := Some (NoReply, s', arr) in
  let wrote arr' := Some (NoReply, s, arr') in
  let go (set : senv -> nat -> place -> senv) x v := check (exists_at arr v) (done (set s x v)) in
  let bind_ref r v := check (element_at arr v) (done (sput_re s r v)) in
  let modify r f := given (sre s r) (fun v => wrote (write arr v (f (elem arr v)))) in
  let both a b k := given a (fun x : place => given b (fun y : place =>
    check (Nat.eqb (fst x) (fst y)) (Some (k (snd x) (snd y), s, arr)))) in
  match o with
  | ICopy x y => given (sit s y) (fun v => done (sput_it s x v))
  | IPlus x y n => given (sit s y) (fun v => go sput_it x (shifted v n))
  | IMinus x y n => given (sit s y) (fun v => go sput_it x (shifted v (- n)))
  | IAdvance x n => given (sit s x) (fun v => go sput_it x (shifted v n))
  | IRetreat x n => given (sit s x) (fun v => go sput_it x (shifted v (- n)))
  | IIncr x => given (sit s x) (fun v => go sput_it x (shifted v 1))
  | IDecr x => given (sit s x) (fun v => go sput_it x (shifted v (- 1)))
  | IPostIncr x y => given (sit s y) (fun v =>
      check (exists_at arr (shifted v 1)) (done (sput_it (sput_it s y (shifted v 1)) x v)))
  | IPostDecr x y => given (sit s y) (fun v =>
      check (exists_at arr (shifted v (- 1))) (done (sput_it (sput_it s y (shifted v (- 1))) x v)))
  | IDist x y => both (sit s x) (sit s y) (fun i j => NumReply (i - j))
  | ICmp c x y => both (sit s x) (sit s y) (fun i j => BoolReply (scmp c i j))
  | RDeref r x => given (sit s x) (fun v => bind_ref r v)
  | RIndex r x n => given (sit s x) (fun v => bind_ref r (shifted v n))
  | RGet r => given (sre s r) (fun v => Some (BoolReply (elem arr v), s, arr))
  | RPut r b => modify r (fun _ => b)
  | RCopy r t => given (sre s t) (fun u => modify r (fun _ => elem arr u))
  | RSet r b => modify r (fun _ => b)
  | RSet1 r => modify r (fun _ => true)
  | RReset r => modify r (fun _ => false)
  | RFlip r => modify r negb
  | RAnd r b => modify r (fun x => x && b)
  | ROr r b => modify r (fun x => x || b)
  | RXor r b => modify r (fun x => xorb x b)
  | RSwap r t => given (sre s r) (fun u => given (sre s t) (fun v =>
      wrote (write (write arr u (elem arr v)) v (elem arr u))))
  | RSwapVal r b => given (sre s r) (fun v => Some (BoolReply (elem arr v), s, write arr v b))
  | PAddr q r => given (sre s r) (fun v => done (sput_pt s q v))
  | PDeref r q => given (spt s q) (fun v => bind_ref r v)
  | PIndex r q n => given (spt s q) (fun v => bind_ref r (shifted v n))
  | PCopy q t => given (spt s t) (fun v => done (sput_pt s q v))
  | PPlus q t n => given (spt s t) (fun v => go sput_pt q (shifted v n))
  | PMinus q t n => given (spt s t) (fun v => go sput_pt q (shifted v (- n)))
  | PIncr q => given (spt s q) (fun v => go sput_pt q (shifted v 1))
  | PDecr q => given (spt s q) (fun v => go sput_pt q (shifted v (- 1)))
  | PDist q t => both (spt s q) (spt s t) (fun i j => NumReply (i - j))
  | PCmp c q t => both (spt s q) (spt s t) (fun i j => BoolReply (scmp c i j))
  end.

(** The program for at most [n] operations: it has returned, is still running, or has
    done something that is not allowed. *)
Inductive outcome (A : Type) : Type :=
| Returned (a : A) (arr : arrays)
| Running
| NotAllowed.
Arguments Returned {A} a arr.
Arguments Running {A}.
Arguments NotAllowed {A}.

Fixpoint sexec {A} (n : nat) (c : client A) (s : senv) (arr : arrays) : outcome A :=
  match n with
  | O => Running
  | S n' =>
    match c with
    | Return a => Returned a arr
    | Do o k =>
      match sstep o s arr with
      | Some (x, s', arr') => sexec n' (k x) s' arr'
      | None => NotAllowed
      end
    end
  end.

(** The arrays stand in memory as bits, array [k] from bit [lo k] on: anywhere in a
    word, the end of one array and the beginning of another possibly in the same
    word. *)
Definition laid_out (w : Z) (m : mem) (lo : nat -> Z) (arr : arrays) : Prop :=
  (forall k, size arr k <= max_bits /\ mapped w m (lo k) (lo k + size arr k) /\
     forall i, 0 <= i < size arr k -> bit w m (lo k + i) = elem arr (k, i)) /\
  forall k l i j, k <> l -> 0 <= i < size arr k -> 0 <= j < size arr l -> lo k + i <> lo l + j.

(** The bits of memory that belong to none of the arrays. *)
Definition elsewhere (lo : nat -> Z) (arr : arrays) (a : Z) : Prop :=
  forall k i, 0 <= i < size arr k -> a <> lo k + i.

(** The variables designate the bits that stand for the places. *)
Definition designates (w : Z) (lo : nat -> Z) (arr : arrays) (e : env) (s : senv) : Prop :=
  (forall x k i, sit s x = Some (k, i) -> exists_at arr (k, i) = true /\
     valid_it w (eit e x) /\ addr w (eit e x) = lo k + i) /\
  (forall x k i, sre s x = Some (k, i) -> element_at arr (k, i) = true /\
     refers_to w (ere e x) (lo k + i)) /\
  (forall x k i, spt s x = Some (k, i) -> exists_at arr (k, i) = true /\
     points_to w (ept e x) (lo k + i)).
