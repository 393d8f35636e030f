(** Property C60: the words behind a bit_vector, and the ends of its range. *)
From Coq Require Import ZArith Bool List Lia.
From Verif Require Import Base WordOps IterModel RefModel Spec VecModel DataModel SpecVec ProofData.
Import ListNotations.
Open Scope Z_scope.

(** C60. For a bit vector that is not empty both versions of data() return the
    address a that begin() has, and element i is bit i mod w of the word
    data()[i / w]. *)
Theorem C60_data_read : forall w v i, valid_w w -> vec_ok w v -> 0 <= i < vlen v ->
  exists a x, vdata v = Ok (Some a) /\ vdata_const v = Some a /\ mk_aligned a = vbegin /\
    data_get v a (i / w) = Ok x /\ 0 <= x < 2 ^ w /\
    Z.testbit x (i mod w) = get_at i (vbits w v).
Proof. exact data_read. Qed.
Print Assumptions C60_data_read.

Example C60_data_read_example :
  let v := BV [227; 90; 255] 18 in
  valid_w 8 /\ vec_ok 8 v /\ 0 <= 12 < vlen v /\ data_get v 0 (12 / 8) = Ok 90 /\
  Z.testbit 90 (12 mod 8) = true.
Proof.
  cbv zeta. split; [unfold valid_w; lia|].
  split; [unfold vec_ok, words_ok, max_bits; cbn; repeat split; try lia; repeat constructor; lia|].
  cbn [vlen]. split; [lia|]. split; vm_compute; reflexivity.
Qed.

(** A word written through data() shows in exactly the elements of that word. *)
Theorem C60_data_write : forall w v k x, valid_w w -> vec_ok w v -> 0 <= k -> k * w < vlen v ->
  0 <= x < 2 ^ w ->
  exists a v', vdata v = Ok (Some a) /\ data_put v a k x = Ok v' /\ vec_ok w v' /\
    vlen v' = vlen v /\
    forall i, 0 <= i < vlen v ->
      get_at i (vbits w v') = if i / w =? k then Z.testbit x (i mod w) else get_at i (vbits w v).
Proof. exact data_write. Qed.
Print Assumptions C60_data_write.

Example C60_data_write_example :
  let v := BV [227; 90; 255] 18 in
  valid_w 8 /\ vec_ok 8 v /\ 0 <= 1 /\ 1 * 8 < vlen v /\ 0 <= 6 < 2 ^ 8 /\
  data_put v 0 1 6 = Ok (BV [227; 6; 255] 18) /\
  get_at 9 (vbits 8 v) = true /\ get_at 10 (vbits 8 (BV [227; 6; 255] 18)) = true /\
  get_at 10 (vbits 8 v) = false.
Proof.
  cbv zeta. split; [unfold valid_w; lia|].
  split; [unfold vec_ok, words_ok, max_bits; cbn; repeat split; try lia; repeat constructor; lia|].
  cbn [vlen]. split; [lia|]. split; [lia|]. split; [lia|]. vm_compute. auto.
Qed.

(** begin() and end(), their const versions and cbegin(), cend() designate the same
    positions; they are size() apart, and equal for an empty vector. *)
Theorem C60_ends : forall w v, valid_w w -> vec_ok w v ->
  exists e, vend w v = Ok e /\ vcend w v = Ok e /\ vcbegin v = vbegin /\
    idiff w e vbegin = Ok (vsize v) /\
    (vlen v = 0 -> ieq e vbegin = true).
Proof. exact ends_ok. Qed.
Print Assumptions C60_ends.

Example C60_ends_example :
  let v := BV [227; 90; 255] 18 in
  valid_w 8 /\ vec_ok 8 v /\ vend 8 v = Ok (It 2 2) /\ idiff 8 (It 2 2) vbegin = Ok 18.
Proof.
  cbv zeta. split; [unfold valid_w; lia|].
  split; [unfold vec_ok, words_ok, max_bits; cbn; repeat split; try lia; repeat constructor; lia|].
  split; vm_compute; reflexivity.
Qed.

(** With the default allocator max_size() is 2^64 - w, and no size exceeds it. *)
Theorem C60_max_size_partial : forall w v, valid_w w -> vec_ok w v ->
  vmax_size w (most_words w) = 2 ^ 64 - w /\ vsize v <= vmax_size w (most_words w).
Proof. exact max_size_ok. Qed.
Print Assumptions C60_max_size_partial.

Example C60_max_size_partial_example :
  valid_w 32 /\ vec_ok 32 (BV [5; 6] 40) /\ most_words 32 = 2 ^ 61 - 1 /\
  vmax_size 32 (most_words 32) = 18446744073709551584.
Proof.
  split; [unfold valid_w; lia|].
  split; [unfold vec_ok, words_ok, max_bits; cbn; repeat split; try lia; repeat constructor; lia|].
  split; vm_compute; reflexivity.
Qed.

(** With another allocator it may be smaller than size(): an allocator that admits
    2^61 words of 8 bits gives 0, as the product wraps. *)
Theorem C60_max_size_refuted : exists w most v, valid_w w /\ vec_ok w v /\
  Z.of_nat (length (vwords v)) <= most < 2 ^ 64 /\ vmax_size w most < vsize v.
Proof. exact max_size_wraps. Qed.
Print Assumptions C60_max_size_refuted.

Example C60_max_size_refuted_example :
  vmax_size 8 (2 ^ 61) = 0 /\ vmax_size 64 (2 ^ 58 + 1) = 64.
Proof. split; vm_compute; reflexivity. Qed.

(** The two versions of data() do not agree on an empty vector: a vector made from
    a string of three characters has three words; after three pop_back two are left,
    and data() is null but data() const is not. *)
Theorem C60_data_empty_refuted : exists p w s v0 v, valid_w w /\
  ctor_string p w s = Ok v0 /\ vrun p w v0 [OpPop; OpPop; OpPop] = Ok ([ONone; ONone; ONone], v) /\
  vec_ok w v /\ vbits w v = [] /\ vdata v = Ok None /\ vdata_const v <> None.
Proof. exact data_empty. Qed.
Print Assumptions C60_data_empty_refuted.

Example C60_data_empty_refuted_example :
  ctor_string Strict17 8 [49; 48; 49] = Ok (BV [5; 0; 0] 3) /\
  vrun Strict17 8 (BV [5; 0; 0] 3) [OpPop; OpPop; OpPop] = Ok ([ONone; ONone; ONone], BV [5; 0] 0).
Proof. split; vm_compute; reflexivity. Qed.
