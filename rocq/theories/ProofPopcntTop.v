(** From the lemmas about libpopcnt.h to the statements of property C40. *)
From Coq Require Import ZArith Bool List Lia.
From Verif Require Import Base WordOps IterModel PopcntModel Spec ProofBase
  ProofPopcnt ProofPopcnt2 ProofPopcnt3 ProofNeon Demo.
Import ListNotations.
Open Scope Z_scope.
Ltac Zify.zify_post_hook ::= idtac.

Lemma popcount64_ok : forall x, 0 <= x < 2 ^ 64 ->
  popcount64 x = count_true (Z.testbit x) 0 64.
Proof. exact popcount64_count. Qed.

Lemma popcnt_x86_all : forall c rd a size,
  wf_mem 8 rd -> 0 <= size < 2 ^ 61 ->
  (forall b, a <= b < a + size -> rd b <> None) ->
  popcnt (X86 c) rd a size =
  Ok (count_true (bit 8 rd) (8 * a) (Z.to_nat (8 * size))).
Proof.
  intros c rd a size Hwf Hs Hm. cbn [popcnt]. apply popcnt_x86_ok; try assumption; lia.
Qed.

Lemma popcnt_neon_all : forall rd a size,
  wf_mem 8 rd -> 0 <= size < 2 ^ 61 ->
  (forall b, a <= b < a + size -> rd b <> None) ->
  popcnt (Neon true) rd a size =
  Ok (count_true (bit 8 rd) (8 * a) (Z.to_nat (8 * size))).
Proof.
  intros rd a size Hwf Hs Hm. cbn [popcnt].
  apply popcnt_neon_ok; try assumption; lia || (left; reflexivity).
Qed.

Lemma popcnt_aligned : forall t rd a size,
  t = Generic \/ t = Neon false ->
  wf_mem 8 rd -> 0 <= size < 2 ^ 61 ->
  (forall b, a <= b < a + size -> rd b <> None) ->
  size < 8 \/ (- a) mod 8 <= size mod 8 \/ (t = Neon false /\ size mod 64 < 8) ->
  popcnt t rd a size =
  Ok (count_true (bit 8 rd) (8 * a) (Z.to_nat (8 * size))).
Proof.
  intros t rd a size Ht Hwf Hs Hm Hg. destruct Ht as [->| ->]; cbn [popcnt].
  - apply popcnt_generic_ok; try assumption; try lia.
    destruct Hg as [Hg|[Hg|[Hg _]]]; [left; exact Hg|right; exact Hg|discriminate Hg].
  - apply popcnt_neon_ok; try assumption; try lia. right.
    destruct Hg as [Hg|[Hg|[_ Hg]]]; [left|right; exact Hg|left; exact Hg].
    rewrite Z.mod_small by lia. exact Hg.
Qed.

Lemma popcnt_aligned_overread : forall t rd a size,
  (t = Generic /\ 8 <= size) \/ (t = Neon false /\ 8 <= size mod 64) ->
  wf_mem 8 rd -> 0 <= size < 2 ^ 61 ->
  (forall b, a <= b < a + size -> rd b <> None) ->
  size mod 8 < (- a) mod 8 -> rd (a + size) = None ->
  popcnt t rd a size = UB OutOfBounds.
Proof.
  intros t rd a size Ht Hwf Hs Hm Hg Hn. destruct Ht as [[-> H]|[-> H]]; cbn [popcnt].
  - apply popcnt_generic_oob; try assumption; lia.
  - apply popcnt_neon_oob; try assumption; lia.
Qed.

Lemma popcnt_aligned_refuted : exists t rd a size,
  wf_mem 8 rd /\ 0 <= size < 2 ^ 61 /\
  (forall b, a <= b < a + size -> rd b <> None) /\
  popcnt t rd a size <> Ok (count_true (bit 8 rd) (8 * a) (Z.to_nat (8 * size))).
Proof.
  exists Generic, (mem_of [7; 1; 1; 1; 1; 1; 1; 1; 1; 1]), 1, 9.
  split; [apply mem_of_wf; reflexivity|]. split; [lia|].
  split; [|vm_compute; discriminate].
  intros b Hb. replace b with (b * 8 / 8) by (apply Z.div_mul; lia).
  apply (mem_of_mapped 8 _ 8 80); cbn [length]; lia.
Qed.
