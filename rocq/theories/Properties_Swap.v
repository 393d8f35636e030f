(** Property C20: swap_ranges. *)
From Coq Require Import ZArith Bool List Lia.
From Verif Require Import Base WordOps IterModel AlgModel SwapModel Spec Demo ProofSwap.
Import ListNotations.
Open Scope Z_scope.

(** C20: the two ranges may share words, in either order. *)
Theorem C20_swap_ranges : forall p w m first1 last1 first2,
  let len := addr w last1 - addr w first1 in
  let A := addr w first1 in let B := addr w first2 in
  valid_w w -> wf_mem w m -> good_range w m first1 last1 -> good_dest w m first2 len ->
  A + len <= B \/ B + len <= A ->
  exists r m', swap_ranges p w first1 last1 first2 m = Ok (r, m') /\ valid_it w r /\
    addr w r = B + len /\ wf_mem w m' /\ same_dom m m' /\
    forall i, bit w m' i =
      if inr A (A + len) i then bit w m (B + (i - A))
      else if inr B (B + len) i then bit w m (A + (i - B))
      else bit w m i.
Proof. exact swap_ranges_ok. Qed.
Print Assumptions C20_swap_ranges.

(** Different alignment, the ranges share the word 2. *)
Example C20_swap_ranges_example :
  let m := mem_of [227; 90; 165; 17; 99] in
  valid_w 8 /\ wf_mem 8 m /\ good_range 8 m (It 0 5) (It 2 4) /\
  good_dest 8 m (It 2 6) (addr 8 (It 2 4) - addr 8 (It 0 5)) /\
  (addr 8 (It 0 5) + (addr 8 (It 2 4) - addr 8 (It 0 5)) <= addr 8 (It 2 6) \/
   addr 8 (It 2 6) + (addr 8 (It 2 4) - addr 8 (It 0 5)) <= addr 8 (It 0 5)) /\
  run 5 (swap_ranges Strict17 8 (It 0 5) (It 2 4) (It 2 6)) [227; 90; 165; 17; 99]
    = Ok (It 4 5, [Some 195; Some 136; Some 225; Some 181; Some 106]).
Proof. cbv zeta. demo. Qed.

(** Same alignment, second range in front of the first, sharing word 1. *)
Example C20_swap_ranges_example2 :
  let m := mem_of [227; 90; 165; 17] in
  good_range 8 m (It 1 3) (It 2 3) /\
  good_dest 8 m (It 0 3) (addr 8 (It 2 3) - addr 8 (It 1 3)) /\
  (addr 8 (It 1 3) + (addr 8 (It 2 3) - addr 8 (It 1 3)) <= addr 8 (It 0 3) \/
   addr 8 (It 0 3) + (addr 8 (It 2 3) - addr 8 (It 1 3)) <= addr 8 (It 1 3)) /\
  run 4 (swap_ranges Strict17 8 (It 1 3) (It 2 3) (It 0 3)) [227; 90; 165; 17]
    = Ok (It 1 3, [Some 91; Some 229; Some 162; Some 17]).
Proof. cbv zeta. demo. Qed.

(** Both ranges in one word. *)
Example C20_swap_ranges_example3 :
  let m := mem_of [227] in
  good_range 8 m (It 0 0) (It 0 4) /\
  good_dest 8 m (It 0 4) (addr 8 (It 0 4) - addr 8 (It 0 0)) /\
  run 1 (swap_ranges Strict17 8 (It 0 0) (It 0 4) (It 0 4)) [227]
    = Ok (It 1 0, [Some 62]).
Proof. cbv zeta. demo. Qed.

(** C20: swapping twice restores every bit. *)
Theorem C20_swap_ranges_twice : forall p w m first1 last1 first2,
  let len := addr w last1 - addr w first1 in
  let A := addr w first1 in let B := addr w first2 in
  valid_w w -> wf_mem w m -> good_range w m first1 last1 -> good_dest w m first2 len ->
  A + len <= B \/ B + len <= A ->
  exists r m' r' m'', swap_ranges p w first1 last1 first2 m = Ok (r, m') /\
    swap_ranges p w first1 last1 first2 m' = Ok (r', m'') /\
    forall i, bit w m'' i = bit w m i.
Proof. exact swap_ranges_twice. Qed.
Print Assumptions C20_swap_ranges_twice.

Example C20_swap_ranges_twice_example :
  let m := mem_of [227; 90; 165; 17; 99] in
  valid_w 8 /\ wf_mem 8 m /\ good_range 8 m (It 0 5) (It 2 4) /\
  good_dest 8 m (It 2 6) (addr 8 (It 2 4) - addr 8 (It 0 5)) /\
  (addr 8 (It 0 5) + (addr 8 (It 2 4) - addr 8 (It 0 5)) <= addr 8 (It 2 6) \/
   addr 8 (It 2 6) + (addr 8 (It 2 4) - addr 8 (It 0 5)) <= addr 8 (It 0 5)) /\
  run 5 (bind (swap_ranges Strict17 8 (It 0 5) (It 2 4) (It 2 6))
              (fun _ => swap_ranges Strict17 8 (It 0 5) (It 2 4) (It 2 6)))
      [227; 90; 165; 17; 99]
    = Ok (It 4 5, [Some 227; Some 90; Some 165; Some 17; Some 99]).
Proof. cbv zeta. demo. Qed.

(** The disjointness is needed: a range swapped with itself is cleared. *)
Theorem C20_self_swap_clears_refuted :
  exists w m first1 last1 r m',
    valid_w w /\ wf_mem w m /\ good_range w m first1 last1 /\
    swap_ranges Strict17 w first1 last1 first1 m = Ok (r, m') /\
    bit w m (addr w first1) = true /\ bit w m' (addr w first1) = false.
Proof.
  exists 8, (mem_of [255]), (It 0 2), (It 0 6).
  destruct (swap_ranges Strict17 8 (It 0 2) (It 0 6) (It 0 2) (mem_of [255]))
    as [[r m']| | | |] eqn:E; try (vm_compute in E; discriminate).
  exists r, m'. demo.
  all: vm_compute in E; injection E as <- <-; vm_compute; reflexivity.
Qed.
Print Assumptions C20_self_swap_clears_refuted.
