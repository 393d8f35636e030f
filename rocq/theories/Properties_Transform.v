(** Properties C16 and C17: transform with a word operation that acts on every
    bit position alone. *)
From Coq Require Import ZArith Bool List Lia.
From Verif Require Import Base WordOps IterModel AlgModel TransformModel Spec Demo
  ProofTransform.
Import ListNotations.
Open Scope Z_scope.

(** C16 *)
Theorem C16_transform_unary : forall p w op f m first last d,
  valid_w w -> wf_mem w m -> good_range w m first last ->
  good_dest w m d (addr w last - addr w first) ->
  addr w d <= addr w first \/ addr w last <= addr w d ->
  (forall x, 0 <= x < 2 ^ w -> 0 <= op x < 2 ^ w) ->
  (forall x k, 0 <= x < 2 ^ w -> 0 <= k < w ->
     Z.testbit (op x) k = f (Z.testbit x k)) ->
  exists d' m', transform1 p w op first last d m = Ok (d', m') /\ valid_it w d' /\
    addr w d' = addr w d + (addr w last - addr w first) /\
    updated w m m' (addr w d) (addr w d + (addr w last - addr w first))
      (fun i => f (bit w m (addr w first + (i - addr w d)))).
Proof. exact transform1_ok. Qed.
Print Assumptions C16_transform_unary.

Example C16_transform_unary_example :
  let m := mem_of [227; 90; 165; 17] in
  let op := fun x => Z.lxor x 255 in
  valid_w 8 /\ wf_mem 8 m /\ good_range 8 m (It 0 5) (It 3 6) /\
  good_dest 8 m (It 0 2) (addr 8 (It 3 6) - addr 8 (It 0 5)) /\
  (addr 8 (It 0 2) <= addr 8 (It 0 5) \/ addr 8 (It 3 6) <= addr 8 (It 0 2)) /\
  ((forall x, 0 <= x < 2 ^ 8 -> 0 <= op x < 2 ^ 8) /\
   (forall x k, 0 <= x < 2 ^ 8 -> 0 <= k < 8 ->
     Z.testbit (op x) k = negb (Z.testbit x k))) /\
  run 4 (transform1 Strict17 8 op (It 0 5) (It 3 6) (It 0 2)) [227; 90; 165; 17]
    = Ok (It 3 3, [Some 163; Some 84; Some 203; Some 21]).
Proof.
  cbv zeta. do 5 (split; [demo|]). split; [exact not8_ok|]. vm_compute. reflexivity.
Qed.

(** C17 *)
Theorem C17_transform_binary : forall p w op f m first1 last1 first2 d,
  valid_w w -> wf_mem w m -> good_range w m first1 last1 ->
  good_dest w m first2 (addr w last1 - addr w first1) ->
  good_dest w m d (addr w last1 - addr w first1) ->
  addr w d <= addr w first1 \/ addr w last1 <= addr w d ->
  addr w d <= addr w first2 \/
    addr w first2 + (addr w last1 - addr w first1) <= addr w d ->
  (forall x y, 0 <= x < 2 ^ w -> 0 <= y < 2 ^ w -> 0 <= op x y < 2 ^ w) ->
  (forall x y k, 0 <= x < 2 ^ w -> 0 <= y < 2 ^ w -> 0 <= k < w ->
     Z.testbit (op x y) k = f (Z.testbit x k) (Z.testbit y k)) ->
  exists d' m', transform2 p w op first1 last1 first2 d m = Ok (d', m') /\
    valid_it w d' /\
    addr w d' = addr w d + (addr w last1 - addr w first1) /\
    updated w m m' (addr w d) (addr w d + (addr w last1 - addr w first1))
      (fun i => f (bit w m (addr w first1 + (i - addr w d)))
                  (bit w m (addr w first2 + (i - addr w d)))).
Proof. exact transform2_ok. Qed.
Print Assumptions C17_transform_binary.

Example C17_transform_binary_example :
  let m := mem_of [227; 90; 165; 17; 99] in
  valid_w 8 /\ wf_mem 8 m /\ good_range 8 m (It 0 5) (It 2 6) /\
  good_dest 8 m (It 2 3) (addr 8 (It 2 6) - addr 8 (It 0 5)) /\
  good_dest 8 m (It 0 4) (addr 8 (It 2 6) - addr 8 (It 0 5)) /\
  (addr 8 (It 0 4) <= addr 8 (It 0 5) \/ addr 8 (It 2 6) <= addr 8 (It 0 4)) /\
  (addr 8 (It 0 4) <= addr 8 (It 2 3) \/
   addr 8 (It 2 3) + (addr 8 (It 2 6) - addr 8 (It 0 5)) <= addr 8 (It 0 4)) /\
  ((forall x y, 0 <= x < 2 ^ 8 -> 0 <= y < 2 ^ 8 -> 0 <= Z.lxor x y < 2 ^ 8) /\
   (forall x y k, 0 <= x < 2 ^ 8 -> 0 <= y < 2 ^ 8 -> 0 <= k < 8 ->
     Z.testbit (Z.lxor x y) k = xorb (Z.testbit x k) (Z.testbit y k))) /\
  run 5 (transform2 Strict17 8 Z.lxor (It 0 5) (It 2 6) (It 2 3) (It 0 4))
      [227; 90; 165; 17; 99]
    = Ok (It 2 5, [Some 51; Some 142; Some 180; Some 17; Some 99]).
Proof.
  cbv zeta. do 7 (split; [demo|]). split; [exact xor8_ok|]. vm_compute. reflexivity.
Qed.
