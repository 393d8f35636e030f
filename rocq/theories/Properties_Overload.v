(** C64: a linear overload calls the first function that accepts the arguments.
    C65: the type traits. *)
From Coq Require Import Bool List Arith.
From Verif Require Import OverloadModel SpecOverload ProofOverload.
Import ListNotations.

(** C64: when no function object has a ref-qualified operator(), a call runs
    the first function that can be called with the arguments, once, and gives
    its result; if there is none, nothing happens. *)
Theorem C64_first : forall A S R (fs : list (fn A S R)) a s,
  Forall (unqualified a) fs ->
  (exists i f, first_callable fs a i f /\
     overload_call fs a s = Done (Some (fst (f_body f a s))) (snd (f_body f a s))) \/
  (none_callable fs a /\ overload_call fs a s = Done None s).
Proof. exact call_unqualified. Qed.
Print Assumptions C64_first.

Example C64_first_example :
  let f k ok := Fn false ok ok (fun x s => (x + k, k :: s)) in
  let fs := [f 1 (fun x => x <? 3); f 2 (fun x => x <? 8); f 3 (fun x => x <? 9)] in
  (Forall (unqualified 5) fs /\ first_callable fs 5 1 (f 2 (fun x => x <? 8))) /\
  overload_call fs 5 [] = Done (Some 7) [2] /\
  overload_call fs 2 [9] = Done (Some 3) [1; 9] /\
  overload_call fs 20 [9] = Done None [9].
Proof.
  split; [split|repeat split].
  - repeat constructor.
  - split; [reflexivity|]. split; [reflexivity|].
    intros [|[|j]] g L G; cbn in *; [injection G as <-; reflexivity|inversion L as [|? L1]; inversion L1|
      inversion L as [|? L1]; inversion L1].
Qed.

(** C64: made from lvalues by overload_linearly the overload holds references,
    and the same is true of every function object. *)
Theorem C64_lvalues : forall A S R (gs : list (bool * fn A S R)) a s,
  Forall (fun g => fst g = true) gs ->
  (exists i g, first_callable (map snd gs) a i g /\
     overload_call (overload_linearly gs) a s =
       Done (Some (fst (f_body g a s))) (snd (f_body g a s))) \/
  (none_callable (map snd gs) a /\
   overload_call (overload_linearly gs) a s = Done None s).
Proof. exact call_lvalues. Qed.
Print Assumptions C64_lvalues.

Example C64_lvalues_example :
  let g l r k := (true, Fn false (fun _ => l) (fun _ => r) (fun x s => (x + k, k :: s))) in
  Forall (fun h => fst h = true) [g false true 1; g true false 2; g true true 3] /\
  overload_call (overload_linearly [g false true 1; g true false 2; g true true 3]) 5 [] =
    Done (Some 7) [2].
Proof. split; [repeat constructor|reflexivity]. Qed.

(** C64: the call does not compile exactly when the first function found by the
    test, which is made on an rvalue of the tuple, is held by value and cannot
    be called as an lvalue. *)
Theorem C64_ill_formed : forall A S R (fs : list (fn A S R)) a s,
  overload_call fs a s = IllFormed <->
  exists i f, nth_error fs i = Some f /\ f_ref f = false /\
    f_rvalue f a = true /\ f_lvalue f a = false /\
    forall j g, j < i -> nth_error fs j = Some g ->
      (if f_ref g then f_lvalue g a else f_rvalue g a) = false.
Proof. exact call_exact. Qed.
Print Assumptions C64_ill_formed.

Example C64_ill_formed_example :
  let g l r k := Fn false (fun _ => l) (fun _ => r) (fun x s => (x + k, k :: s)) in
  overload_call [g true false 1; g false true 2; g true true 3] 5 [] = IllFormed /\
  overload_call [g true false 1; g true true 2; g false true 3] 5 [] = Done (Some 7) [2].
Proof. split; reflexivity. Qed.

(** C64: a function object held by value whose operator() is lvalue-qualified
    is passed over although it can be called: a later function runs. *)
Theorem C64_refuted : exists (fs : list (fn nat (list nat) nat)) (a : nat) (s : list nat) i f,
  first_callable fs a i f /\
  overload_call fs a s <> Done (Some (fst (f_body f a s))) (snd (f_body f a s)) /\
  overload_call fs a s <> IllFormed.
Proof. exact call_skips. Qed.
Print Assumptions C64_refuted.

Example C64_refuted_example :
  let g l r k := Fn false (fun _ => l) (fun _ => r) (fun x s => (x + k, k :: s)) in
  overload_call [g true false 1; g true true 2] 7 [] = Done (Some 9) [2].
Proof. reflexivity. Qed.

(** C64: size(), max_size() and empty(). *)
Theorem C64_size : forall A S R (gs : list (bool * fn A S R)),
  overload_size (overload_linearly gs) = length gs /\
  overload_max_size (overload_linearly gs) = length gs /\
  (overload_empty (overload_linearly gs) = true <-> gs = []).
Proof. exact sizes. Qed.
Print Assumptions C64_size.

Example C64_size_example :
  let g := (false, Fn false (fun _ : nat => true) (fun _ => true) (fun x (s : nat) => (x, s))) in
  overload_size (overload_linearly [g; g]) = 2 /\
  overload_empty (overload_linearly [g; g]) = false.
Proof. split; reflexivity. Qed.

(** C65: is_bit holds of the three bit types and of nothing else. *)
Theorem C65_is_bit : forall t, is_bit t = true <->
  (t = TBit \/ t = TValue \/ exists w, t = TRef w).
Proof. exact traits_bit. Qed.
Print Assumptions C65_is_bit.

Example C65_is_bit_example :
  is_bit (TRef 32) = true /\ is_bit TOther = false /\ is_bit (TConst TValue) = false.
Proof. repeat split. Qed.

(** C65: the trait of an input category holds of an iterator exactly when its
    own category is at least as strong. *)
Theorem C65_level : forall t c d, category t = Some c -> d <> COutput ->
  has_category d t = (strength d <=? strength c).
Proof. exact traits_level. Qed.
Print Assumptions C65_level.

Example C65_level_example :
  category (TConst (TIter CForward)) = Some CForward /\
  is_forward_iterator (TConst (TIter CForward)) = true /\
  is_bidirectional_iterator (TIter CForward) = false /\
  is_random_access_iterator TPtr = true /\ is_input_iterator (TIter COutput) = false.
Proof. repeat split. Qed.

(** C65: the traits are nested as the categories are, an iterator is an input
    iterator or an output iterator, and no input iterator counts as an output
    iterator. *)
Theorem C65_chain : forall t,
  (is_random_access_iterator t = true -> is_bidirectional_iterator t = true) /\
  (is_bidirectional_iterator t = true -> is_forward_iterator t = true) /\
  (is_forward_iterator t = true -> is_input_iterator t = true) /\
  (is_iterator t = true <-> is_input_iterator t = true \/ is_output_iterator t = true) /\
  (is_input_iterator t = true -> is_output_iterator t = false).
Proof. exact traits_chain. Qed.
Print Assumptions C65_chain.

Example C65_chain_example :
  is_random_access_iterator TPtr = true /\ is_input_iterator TPtr = true /\
  is_iterator (TIter COutput) = true /\ is_output_iterator (TIter COutput) = true /\
  is_iterator TOther = false.
Proof. repeat split. Qed.

(** C65: const and references: a const iterator of class type keeps its
    traits, a const pointer and every reference have none. *)
Theorem C65_qualified : forall t c d,
  has_category c (TConst (TIter d)) = has_category c (TIter d) /\
  has_category c (TConst TPtr) = false /\
  has_category c (TLref t) = false /\
  is_bit (TConst t) = false /\ is_bit (TLref t) = false.
Proof. exact traits_const. Qed.
Print Assumptions C65_qualified.

Example C65_qualified_example :
  is_random_access_iterator (TConst (TIter CRandom)) = true /\
  is_random_access_iterator TPtr = true /\ is_random_access_iterator (TConst TPtr) = false.
Proof. repeat split. Qed.

(** C65: a pointer to a mutable object is an output iterator in the sense of the
    standard, but is_output_iterator denies it. *)
Theorem C65_output_refuted : exists t, is_forward_iterator t = true /\
  is_output_iterator t = false /\ t = TPtr.
Proof. exact traits_output_false. Qed.
Print Assumptions C65_output_refuted.

Example C65_output_refuted_example :
  is_output_iterator TPtr = false /\ is_output_iterator (TIter COutput) = true.
Proof. split; reflexivity. Qed.
