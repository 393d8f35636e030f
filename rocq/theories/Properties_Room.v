(** C37 for bit vectors of every size. *)
From Coq Require Import ZArith Bool List Lia.
From Verif Require Import Base IterModel VecModel Spec SpecVec SpecRoom ProofVec2 ProofVec3 ProofVec4
  ProofRoom.
Import ListNotations.
Open Scope Z_scope.

(** C37: whether a bulk insertion works is decided by the storage [s] that the
    float computation makes: if it holds the new length the result is that of
    std::vector<bool>, and otherwise the insertion runs past the storage. *)
Theorem C37_insert_count_exact : forall p w v pos i c b s, valid_w w -> vec_ok w v -> 0 < c ->
  vlen v + c <= max_bits -> new_room w (zlen (vwords v) * w) (vlen v + c) s -> s <= max_bits ->
  valid_it w pos -> addr w pos = i -> 0 <= i <= vlen v ->
  (i < vlen v -> shift_defined p w i (vlen v + c)) ->
  (vlen v + c <= s ->
    exists r v', insert_n p w v pos c b = Ok (r, v') /\ valid_it w r /\ addr w r = i /\
      vec_ok w v' /\ vbits w v' = insert_at i (repeat b (Z.to_nat c)) (vbits w v)) /\
  (s < vlen v + c -> insert_n p w v pos c b = UB OutOfBounds).
Proof. exact insert_n_exact. Qed.
Print Assumptions C37_insert_count_exact.

(** A full vector of 2^24 bits in the middle of which one or three bits are
    inserted: one bit makes no room, three bits make room for 64. *)
Example C37_insert_count_exact_example :
  let v := BV (repeat 0 (Z.to_nat (2 ^ 18))) (2 ^ 24) in
  valid_w 64 /\ vec_ok 64 v /\ zlen (vwords v) * 64 = 2 ^ 24 /\
  new_room 64 (2 ^ 24) (vlen v + 1) (2 ^ 24) /\ new_room 64 (2 ^ 24) (vlen v + 3) (2 ^ 24 + 64) /\
  valid_it 64 (It 7 5) /\ addr 64 (It 7 5) = 453 /\ shift_defined Strict17 64 453 (vlen v + 3).
Proof.
  assert (L : zlen (repeat 0 (Z.to_nat (2 ^ 18))) * 64 = 2 ^ 24)
    by (unfold zlen; rewrite repeat_length, Z2Nat.id by lia; reflexivity).
  pose proof (words_ok_zeros 64 (Z.to_nat (2 ^ 18)) ltac:(lia)) as W.
  revert L W. generalize (repeat 0 (Z.to_nat (2 ^ 18))). intros l L W.
  cbv zeta. cbn [vwords vlen].
  split; [unfold valid_w; lia|]. split.
  { unfold vec_ok, max_bits. cbn [vwords vlen]. unfold zlen in L. rewrite L. split; [exact W|lia]. }
  split; [exact L|].
  assert (R : rounds (2 ^ 24) (2 ^ 24))
    by (right; exists 1, (2 ^ 23); vm_compute; intuition congruence).
  split.
  { exists (2 ^ 24), (2 ^ 24). split; [exact R|]. split; [|left; split; [lia|reflexivity]].
    right. exists 1, (2 ^ 23). vm_compute. intuition congruence. }
  split.
  { exists (2 ^ 24), (2 ^ 24 + 4). split; [exact R|]. split.
    - right. exists 1, (2 ^ 23 + 2). vm_compute. intuition congruence.
    - right. split; [lia|]. exists 4. split; [left; lia|]. split; [lia|].
      split; [exists (2 ^ 18 + 1); reflexivity|lia]. }
  split; [unfold valid_it; cbn; lia|]. split; [reflexivity|]. left. discriminate.
Qed.

Theorem C37_insert_range_exact : forall p w ext v pos i first last s, valid_w w -> vec_ok w v ->
  (forall a, 0 <= a -> ext a = None) ->
  wf_mem w ext -> good_range w ext first last -> addr w last <= 0 ->
  addr w first < addr w last -> vlen v + (addr w last - addr w first) <= max_bits ->
  new_room w (zlen (vwords v) * w) (vlen v + (addr w last - addr w first)) s -> s <= max_bits ->
  valid_it w pos -> addr w pos = i -> 0 <= i <= vlen v ->
  (i < vlen v -> shift_defined p w i (vlen v + (addr w last - addr w first))) ->
  (vlen v + (addr w last - addr w first) <= s ->
    exists r v' ext', insert_range p w ext v pos first last = Ok (r, v', ext') /\
      valid_it w r /\ addr w r = i /\ (forall a, ext' a = ext a) /\ vec_ok w v' /\
      vbits w v' = insert_at i (map (fun k => bit w ext (addr w first + Z.of_nat k))
        (seq 0 (Z.to_nat (addr w last - addr w first)))) (vbits w v)) /\
  (s < vlen v + (addr w last - addr w first) ->
    insert_range p w ext v pos first last = UB OutOfBounds).
Proof. exact insert_range_exact. Qed.
Print Assumptions C37_insert_range_exact.

Example C37_insert_range_exact_example :
  let v := BV (repeat 0 (Z.to_nat (2 ^ 18))) (2 ^ 24) in
  let ext := ext_mem [178; 77] in
  valid_w 64 /\ (forall a, 0 <= a -> ext a = None) /\ wf_mem 64 ext /\
  good_range 64 ext (It (-66) 63) (It (-65) 2) /\ addr 64 (It (-65) 2) <= 0 /\
  addr 64 (It (-65) 2) - addr 64 (It (-66) 63) = 3 /\
  new_room 64 (2 ^ 24) (vlen v + 3) (2 ^ 24 + 64).
Proof.
  generalize (repeat 0 (Z.to_nat (2 ^ 18))). intros l.
  cbv zeta. split; [unfold valid_w; lia|].
  split; [intros a Ha; apply ext_none; assumption|].
  split; [apply ext_wf; repeat constructor; lia|].
  split; [unfold good_range, valid_it; cbn; repeat split; try lia;
    apply (ext_mapped 64 [178; 77] 63 66); cbn; lia|].
  split; [cbn; lia|]. split; [reflexivity|].
  exists (2 ^ 24), (2 ^ 24 + 4). split; [|split].
  - right. exists 1, (2 ^ 23). vm_compute. intuition congruence.
  - right. exists 1, (2 ^ 23 + 2). vm_compute. intuition congruence.
  - right. split; [lia|]. exists 4. split; [left; lia|]. split; [lia|].
    split; [exists (2 ^ 18 + 1); reflexivity|lia].
Qed.

(** Every request falls under one of the two cases: the storage is determined,
    or the number of bits to add is no unsigned int. *)
Theorem C37_room_decided : forall w cap n, valid_w w -> 0 <= cap -> (w | cap) -> 0 <= n ->
  (exists s, new_room w cap n s /\ forall s', new_room w cap n s' -> s' = s) \/
  too_much_room cap n.
Proof. exact room_decided. Qed.
Print Assumptions C37_room_decided.

Example C37_room_decided_example :
  valid_w 8 /\ (8 | 64) /\ new_room 8 64 65 72 /\ too_much_room 64 (2 ^ 33).
Proof.
  split; [unfold valid_w; lia|]. split; [exists 8; reflexivity|]. split.
  - exists 64, 65. split; [left; lia|]. split; [left; lia|]. right. split; [lia|].
    exists 1. split; [left; lia|]. split; [lia|]. split; [exists 9; reflexivity|lia].
  - exists 64, (2 ^ 33), (2 ^ 33). split; [left; lia|]. split.
    + right. exists 10, (2 ^ 23). vm_compute. intuition congruence.
    + split; [lia|]. split; [|lia]. right. exists 9, (2 ^ 24). vm_compute. intuition congruence.
Qed.

(** In the second case the conversion to unsigned int is undefined, for both
    forms. *)
Theorem C37_insert_count_undefined : forall p w v pos i c b, valid_w w -> vec_ok w v -> 0 < c ->
  vlen v + c <= max_bits -> too_much_room (zlen (vwords v) * w) (vlen v + c) ->
  valid_it w pos -> addr w pos = i -> 0 <= i <= vlen v ->
  insert_n p w v pos c b = UB BadUse.
Proof. exact insert_n_undefined. Qed.
Print Assumptions C37_insert_count_undefined.

Theorem C37_insert_range_undefined : forall p w ext v pos i first last, valid_w w -> vec_ok w v ->
  valid_it w first -> valid_it w last -> addr w first < addr w last ->
  vlen v + (addr w last - addr w first) <= max_bits ->
  too_much_room (zlen (vwords v) * w) (vlen v + (addr w last - addr w first)) ->
  valid_it w pos -> addr w pos = i -> 0 <= i <= vlen v ->
  insert_range p w ext v pos first last = UB BadUse.
Proof. exact insert_range_undefined. Qed.
Print Assumptions C37_insert_range_undefined.

Example C37_insert_undefined_example :
  let v := BV [178] 7 in
  valid_w 8 /\ vec_ok 8 v /\ vlen v + (2 ^ 33 - 7) <= max_bits /\
  too_much_room (zlen (vwords v) * 8) (vlen v + (2 ^ 33 - 7)) /\
  valid_it 8 (It 0 3) /\ addr 8 (It 0 3) = 3 /\
  insert_n Strict17 8 v (It 0 3) (2 ^ 33 - 7) true = UB BadUse /\
  valid_it 8 (It (- 2 ^ 30 - 1) 7) /\ valid_it 8 (It (-1) 0) /\
  addr 8 (It (-1) 0) - addr 8 (It (- 2 ^ 30 - 1) 7) = 2 ^ 33 - 7.
Proof.
  cbv zeta. split; [unfold valid_w; lia|].
  split; [unfold vec_ok, words_ok, max_bits; cbn; repeat constructor; lia|].
  split; [vm_compute; intuition congruence|]. split.
  - exists 8, (2 ^ 33), (2 ^ 33). split; [left; cbn; lia|]. split.
    + right. exists 10, (2 ^ 23). vm_compute. intuition congruence.
    + split; [lia|]. split; [|lia]. right. exists 9, (2 ^ 24). vm_compute. intuition congruence.
  - split; [unfold valid_it; cbn; lia|]. split; [reflexivity|]. split; [vm_compute; reflexivity|].
    split; [unfold valid_it; cbn; lia|]. split; [unfold valid_it; cbn; lia|]. reflexivity.
Qed.
