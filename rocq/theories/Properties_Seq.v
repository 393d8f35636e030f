(** Property C63: the algorithms on words that do not lie one after the other in memory,
    such as those of a std::deque or of an array read backwards. *)
From Coq Require Import ZArith Bool List Lia.
From Verif Require Import Base WordOps IterModel PopcntModel AlgModel ThreadModel HwyModel SeqModel Spec
  SpecHwy SpecSeq Demo ProofSteps ProofSeq.
Import ListNotations.
Open Scope Z_scope.

(** C63 for every call but count: it ends as on an array, with the same value and the
    same words, wherever the words are, and leaves the other words alone. *)
Theorem C63_algorithms_partial : forall loc p w c r m,
  (forall i j, loc i = loc j -> i = j) -> (forall t f l b, c <> CCount t f l b) ->
  seq_call loc p w c r ->
  like_array loc m (r m) (run_call p w c (as_array loc m)).
Proof. exact seq_like. Qed.
Print Assumptions C63_algorithms_partial.

(** A rotation of 18 bits in an array read backwards. *)
Example C63_algorithms_example :
  (forall i j, 4 - i = 4 - j -> i = j) /\
  (forall t f l b, CRotate (It 1 3) (It 2 0) (It 3 5) <> CCount t f l b) /\
  exists r, seq_call (fun i => 4 - i) Strict17 8 (CRotate (It 1 3) (It 2 0) (It 3 5)) r /\
    run 5 r [227; 90; 165; 17; 204]
      = Ok (AIter (It 3 0), [Some 227; Some 66; Some 213; Some 41; Some 204]) /\
    run 5 (run_call Strict17 8 (CRotate (It 1 3) (It 2 0) (It 3 5))) [204; 17; 165; 90; 227]
      = Ok (AIter (It 3 0), [Some 204; Some 41; Some 213; Some 66; Some 227]).
Proof.
  split; [intros; lia|]. split; [discriminate|].
  exists (alone (via (fun i => 4 - i)
    (thread_of Strict17 8 (CRotate (It 1 3) (It 2 0) (It 3 5))))).
  split; [eexists; split; [exact (proj2 (proj2_sig (st_run_call Strict17 8
    (CRotate (It 1 3) (It 2 0) (It 3 5)))))|reflexivity]|].
  split; vm_compute; reflexivity.
Qed.

(** Every call has such a meaning. *)
Theorem C63_every_call : forall loc p w c, exists r, seq_call loc p w c r.
Proof. exact seq_total. Qed.
Print Assumptions C63_every_call.

Example C63_every_call_example :
  seq_call (fun i => - i) Strict17 8 (CCount Generic (It 0 1) (It 0 7) true)
    (let* n := count_seq (fun i => - i) Generic Strict17 8 (It 0 1) (It 0 7) true in ret (ANum n)).
Proof. reflexivity. Qed.

(** C63 for count where the words of the range are adjacent. *)
Theorem C63_count_partial : forall loc t p w m first last b r,
  valid_w w -> wf_mem w m -> good_range w (as_array loc m) first last ->
  adjacent loc (ib first) (ib last) ->
  (exists c, t = X86 c) \/ t = Neon true \/ w = 64 ->
  (first = last -> m (loc (ib first)) <> None) ->
  seq_call loc p w (CCount t first last b) r ->
  r m = Ok (ANum (count_true (fun i => eqb (bit w (as_array loc m) i) b) (addr w first)
        (Z.to_nat (addr w last - addr w first))), m).
Proof. exact count_call_ok. Qed.
Print Assumptions C63_count_partial.

(** A block of a deque that lies seven words further on. *)
Example C63_count_example :
  let loc := fun i => if i <? 2 then i else i + 7 in
  let m := mem_of [9; 9; 9; 9; 9; 9; 9; 9; 9; 227; 90; 165; 17] in
  valid_w 8 /\ wf_mem 8 m /\ good_range 8 (as_array loc m) (It 2 3) (It 5 5) /\
  adjacent loc 2 5 /\
  exists r, seq_call loc Strict17 8 (CCount (X86 (Cpu true true true)) (It 2 3) (It 5 5) true) r /\
    run 0 r [9; 9; 9; 9; 9; 9; 9; 9; 9; 227; 90; 165; 17] = Ok (ANum 13, []).
Proof.
  cbv zeta. split; [unfold valid_w; lia|]. split; [apply mem_of_wf; reflexivity|].
  split.
  { split; [unfold valid_it; cbn; lia|]. split; [unfold valid_it; cbn; lia|].
    split; [vm_compute; split; congruence|]. intros i Hi. unfold as_array.
    assert (2 <= i / 8 <= 5)
      by (unfold addr in Hi; cbn [ib ip] in Hi;
          split; [apply Z.div_le_lower_bound|apply Z.lt_succ_r, Z.div_lt_upper_bound]; lia).
    assert (E : i / 8 = 2 \/ i / 8 = 3 \/ i / 8 = 4 \/ i / 8 = 5) by lia.
    destruct E as [-> |[-> |[-> | ->]]]; vm_compute; discriminate. }
  split; [|eexists; split; [reflexivity|vm_compute; reflexivity]].
  intros k Hk. change (2 <? 2) with false. destruct (Z.ltb_spec k 2); lia.
Qed.

(** Where they are not: as soon as one of the words libpopcnt looks at is not a word of
    the range there are contents for which count finds ones among zeros. *)
Theorem C63_count_wrong : forall loc t p w first last j,
  let it := if ip first =? 0 then ib first else ib first + 1 in
  valid_w w -> valid_it w first -> valid_it w last -> addr w last - addr w first <= max_bits ->
  (exists c, t = X86 c) \/ t = Neon true \/ w = 64 ->
  0 <= j < ib last - it ->
  (forall k, ib first <= k <= ib last -> loc k <> loc it + j) ->
  exists m n, wf_mem w m /\ good_range w (as_array loc m) first last /\
    (forall i, addr w first <= i < addr w last -> bit w (as_array loc m) i = false) /\
    count_seq loc t p w first last true m = Ok (n, m) /\ 0 < n.
Proof. exact count_seq_wrong. Qed.
Print Assumptions C63_count_wrong.

(** Blocks of two words with a gap of four: the word behind the block. *)
Example C63_count_wrong_example :
  let loc := fun i => i + 4 * (i / 2) in
  valid_w 8 /\ valid_it 8 (It 0 0) /\ valid_it 8 (It 4 0) /\
  addr 8 (It 4 0) - addr 8 (It 0 0) <= max_bits /\ 0 <= 2 < 4 - 0 /\
  (forall k, 0 <= k <= 4 -> loc k <> loc 0 + 2) /\
  run 0 (count_seq loc (X86 (Cpu true true true)) Strict17 8 (It 0 0) (It 4 0) true)
    [0; 0; 1; 0; 0; 0; 0; 0] = Ok (1, []).
Proof.
  cbv zeta. split; [unfold valid_w; lia|]. split; [unfold valid_it; cbn; lia|].
  split; [unfold valid_it; cbn; lia|]. split; [vm_compute; congruence|]. split; [lia|].
  split; [|vm_compute; reflexivity]. intros k Hk.
  assert (E : k = 0 \/ k = 1 \/ k = 2 \/ k = 3 \/ k = 4) by lia.
  destruct E as [-> |[-> |[-> |[-> | ->]]]]; vm_compute; discriminate.
Qed.

(** C63 is false of count: an array of bytes read backwards. *)
Theorem C63_count_refuted : exists loc t p w m first last n,
  valid_w w /\ wf_mem w m /\ good_range w (as_array loc m) first last /\
  (forall i j, loc i = loc j -> i = j) /\
  count_seq loc t p w first last true m = Ok (n, m) /\
  n <> count_true (bit w (as_array loc m)) (addr w first)
         (Z.to_nat (addr w last - addr w first)).
Proof. exact count_seq_refuted. Qed.
Print Assumptions C63_count_refuted.

(** C63, the whole words of fill in the build with vectors, where the words are
    adjacent: they are filled, and no other word changes. *)
Theorem C63_fill_vectors_partial : forall loc p h w m it last (bv : bool),
  valid_w w -> wf_mem w m -> vector_fits h w -> 0 <= last - it <= 2 ^ 58 ->
  adjacent loc it last -> (forall k, it <= k < last -> m (loc k) <> None) ->
  exists m', fill_words_seq loc p h w it last (if bv then all_ones w else 0) m = Ok (tt, m') /\
    (forall i, it * w <= i < last * w -> bit w (as_array loc m') i = bv) /\
    forall a, a < loc it \/ loc it + (last - it) <= a -> m' a = m a.
Proof. exact fill_words_seq_ok. Qed.
Print Assumptions C63_fill_vectors_partial.

Example C63_fill_vectors_example :
  let loc := fun i => i + 2 in
  let l := [1; 2; 3; 4; 5; 6; 7; 8; 9; 10; 11; 12; 13; 14; 15; 16] in
  valid_w 64 /\ wf_mem 64 (mem_of l) /\ vector_fits (Unit 4 0) 64 /\ 0 <= 12 - 3 <= 2 ^ 58 /\
  adjacent loc 3 12 /\ (forall k, 3 <= k < 12 -> mem_of l (loc k) <> None) /\
  run 16 (fill_words_seq loc Strict17 (Unit 4 0) 64 3 12 0) l
    = Ok (tt, [Some 1; Some 2; Some 3; Some 4; Some 5; Some 0; Some 0; Some 0; Some 0; Some 0;
               Some 0; Some 0; Some 0; Some 0; Some 15; Some 16]).
Proof.
  cbv zeta. split; [unfold valid_w; lia|]. split; [apply mem_of_wf; reflexivity|].
  split; [unfold vector_fits; vm_compute; intuition congruence|]. split; [lia|].
  split; [intros k Hk; lia|]. split; [|vm_compute; reflexivity].
  intros k Hk. assert (E : k = 3 \/ k = 4 \/ k = 5 \/ k = 6 \/ k = 7 \/ k = 8 \/ k = 9 \/ k = 10 \/ k = 11)
    by lia.
  destruct E as [-> |[-> |[-> |[-> |[-> |[-> |[-> |[-> | ->]]]]]]]]; vm_compute; discriminate.
Qed.

(** C63 is false of fill in that build: an array of words read backwards. *)
Theorem C63_fill_vectors_refuted : exists loc p h w m it last k m',
  valid_w w /\ wf_mem w m /\ vector_fits h w /\ (forall i j, loc i = loc j -> i = j) /\
  (forall i, it <= i < last -> m (loc i) <> None) /\ it <= k < last /\
  fill_words_seq loc p h w it last 0 m = Ok (tt, m') /\ m' (loc k) <> Some 0.
Proof. exact fill_words_seq_refuted. Qed.
Print Assumptions C63_fill_vectors_refuted.
