(** C57: the algorithms in several threads. *)
From Coq Require Import ZArith Bool List Lia.
From Verif Require Import Base IterModel PopcntModel ThreadModel Spec SpecClient SpecThread Demo
  ProofSteps ProofThread.
Import ListNotations.
Open Scope Z_scope.

(** Calls whose ranges share no word, or that only read, run in threads of their own:
    in whatever order the accesses to the words happen, there is no data race, every
    execution ends, none gets stuck before all calls have returned, and the answers
    and the memory are those of making the calls one after the other. *)
Theorem C57_threads : forall p w m cs ts, valid_w w -> wf_mem w m ->
  Forall (call_pre p w) cs -> Forall (present w m) cs -> all_compatible w cs ->
  Forall2 (carries_out p w) ts cs ->
  exists outs m', in_turn p w cs m = Ok (outs, m') /\ ends (m, ts) /\
    forall s, psteps (m, ts) s -> ~ race s /\
      (stuck s -> snd s = map (fun o => Done (Ok o)) outs /\ forall a, fst s a = m' a).
Proof. exact threads_ok. Qed.
Print Assumptions C57_threads.

(** A fill that ends inside word 1, a copy from word 2 to word 3, and a search and a
    comparison that both read word 4. *)
Example C57_threads_example :
  let m := mem_of [0; 0; 170; 0; 136] in
  let cs := [CFill (It 0 3) (It 1 6) true; CCopy (It 2 1) (It 2 7) (It 3 2);
             CFind (It 4 0) (It 5 0) true; CEqual (It 4 0) (It 4 4) (It 4 4)] in
  valid_w 8 /\ wf_mem 8 m /\ Forall (call_pre Strict20 8) cs /\ Forall (present 8 m) cs /\
  all_compatible 8 cs /\ Forall2 (carries_out Strict20 8) (map (thread_of Strict20 8) cs) cs /\
  run 5 (in_turn Strict20 8 cs) [0; 0; 170; 0; 136] =
    Ok ([AUnit; AIter (It 4 0); AIter (It 4 3); ABool true], map Some [248; 63; 170; 84; 136]).
Proof.
  cbv zeta. split; [demo|]. split; [demo|]. split; [|split; [|split; [|split; [apply threads_of_ok|]]]].
  - repeat apply Forall_cons; [..|apply Forall_nil]; cbn; unfold some_range, valid_it, addr, max_bits; cbn; lia.
  - repeat apply Forall_cons; [..|apply Forall_nil]; intros lo hi H; cbn in H;
      repeat (destruct H as [H|H]; [injection H as <- <-; demo|]); destruct H.
  - assert (D : forall c d l1 l2, ranges 8 c = l1 -> ranges 8 d = l2 ->
      (forall lo hi lo' hi', In (lo, hi) l1 -> In (lo', hi') l2 -> lo < hi -> lo' < hi' ->
         (hi - 1) / 8 < lo' / 8) -> compatible 8 c d).
    { intros c d l1 l2 <- <- H. right. intros a (lo & hi & i & I1 & H1 & E1) (lo' & hi' & i' & I2 & H2 & E2).
      specialize (H lo hi lo' hi' I1 I2 ltac:(lia) ltac:(lia)).
      assert (i / 8 <= (hi - 1) / 8) by (apply Z.div_le_mono; lia).
      assert (lo' / 8 <= i' / 8) by (apply Z.div_le_mono; lia). lia. }
    repeat apply FOP_cons; try apply FOP_nil; repeat apply Forall_cons; try apply Forall_nil;
      first [left; split; reflexivity|eapply D; [reflexivity|reflexivity|]];
      intros lo hi lo' hi' H H'; cbn in H, H';
      repeat (destruct H as [H|H]; [injection H as <- <-; clear D;
        repeat (destruct H' as [H'|H']; [injection H' as <- <-; reflexivity|]); destruct H'|]); destruct H.
  - vm_compute. reflexivity.
Qed.

(** There are such threads: every call is a sequence of reads and writes of words, and
    the calls that do not modify anything only read. *)
Theorem C57_steps : forall p w c, exists t, carries_out p w t c.
Proof. exact threads_exist. Qed.
Print Assumptions C57_steps.

(** The thread of a fill of the bits 3 to 13 reads and writes word 0, then word 1. *)
Example C57_steps_example :
  let t := thread_of Strict20 8 (CFill (It 0 3) (It 1 6) true) in
  carries_out Strict20 8 t (CFill (It 0 3) (It 1 6) true) /\
  trace t (mem_of [0; 0]) = [0; 0; 1; 1].
Proof. split; [apply thread_of_ok|]. vm_compute. reflexivity. Qed.

(** Conversely: if one call changes a word and another needs the same word, some
    execution of the two threads runs into a data race. *)
Theorem C57_shared_word : forall p w m c d t u a o1 m1 o2 m2,
  carries_out p w t c -> carries_out p w u d ->
  run_call p w c m = Ok (o1, m1) -> m1 a <> m a ->
  run_call p w d m = Ok (o2, m2) -> run_call p w d (unmap a m) = UB OutOfBounds ->
  exists s, psteps (m, [t; u]) s /\ race s.
Proof. exact shared_word_race. Qed.
Print Assumptions C57_shared_word.

(** The fill of the bits 0 to 11 changes word 1, and the count of the bits 12 to 23
    reads it. *)
Example C57_shared_word_example :
  let m := mem_of [0; 0; 255] in
  let c := CFill (It 0 0) (It 1 4) true in
  let d := CCount (X86 (Cpu false false true)) (It 1 4) (It 3 0) true in
  (exists o1 m1 o2 m2, run_call Strict17 8 c m = Ok (o1, m1) /\ m1 1 <> m 1 /\
     run_call Strict17 8 d m = Ok (o2, m2) /\ run_call Strict17 8 d (unmap 1 m) = UB OutOfBounds) /\
  (forall lo hi lo' hi', In (lo, hi) (ranges 8 c) -> In (lo', hi') (ranges 8 d) -> hi <= lo').
Proof.
  cbv zeta. split.
  - eexists _, _, _, _. split; [vm_compute; reflexivity|]. split; [vm_compute; discriminate|].
    split; [vm_compute; reflexivity|vm_compute; reflexivity].
  - intros lo hi lo' hi' [H|[]] [H'|[]]. injection H as <- <-. injection H' as <- <-. cbn. lia.
Qed.

(** Two bits of one word set at the same time: one of the two assignments can be
    lost. *)
Theorem C57_lost_update : forall p w (m : mem) a i j (b c : bool), valid_w w -> m a <> None ->
  0 <= i < w -> 0 <= j < w -> i <> j ->
  exists t u s, carries_out p w t (CSet (It a i) b) /\ carries_out p w u (CSet (It a j) c) /\
    psteps (m, [t; u]) s /\ stuck s /\
    bit w (fst s) (a * w + i) = bit w m (a * w + i) /\ bit w (fst s) (a * w + j) = c.
Proof. exact lost_update. Qed.
Print Assumptions C57_lost_update.

(** Bits 1 and 6 of a zero word. *)
Example C57_lost_update_example :
  valid_w 8 /\ mem_of [0] 0 <> None /\ 0 <= 1 < 8 /\ 0 <= 6 < 8 /\ 1 <> 6 /\
  run 1 (in_turn Strict17 8 [CSet (It 0 1) true; CSet (It 0 6) true]) [0] =
    Ok ([AUnit; AUnit], [Some 66]).
Proof. repeat split; try discriminate; try lia. vm_compute. tauto. Qed.

(** C57 is false if only the bits are required to be different: two threads fill the
    adjacent ranges of bits 0 to 11 and 12 to 23 and end with a memory that neither
    order of the two calls gives. *)
Theorem C57_disjoint_bits_refuted : exists p w m c d ts s,
  valid_w w /\ wf_mem w m /\ Forall (call_pre p w) [c; d] /\ Forall (present w m) [c; d] /\
  (forall lo hi lo' hi', In (lo, hi) (ranges w c) -> In (lo', hi') (ranges w d) -> hi <= lo') /\
  Forall2 (carries_out p w) ts [c; d] /\ psteps (m, ts) s /\ stuck s /\
  forall cs outs m', cs = [c; d] \/ cs = [d; c] -> in_turn p w cs m = Ok (outs, m') ->
    exists a, fst s a <> m' a.
Proof. exact disjoint_bits_refuted. Qed.
Print Assumptions C57_disjoint_bits_refuted.
