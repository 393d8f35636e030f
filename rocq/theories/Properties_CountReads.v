(** C67, continued: the bytes that count reads. *)
From Coq Require Import ZArith Bool List Lia.
From Verif Require Import Base IterModel PopcntModel AlgModel ThreadModel Spec SpecCost SpecReads
  Demo ProofCountTrace ProofCountPar.
From Verif Require CountTraceModel.
Import ListNotations.
Open Scope Z_scope.

(** The thread whose reads are listed below is count, on every machine libpopcnt knows: run
    alone on the bytes of the words it gives the same result, undefined behaviour included. *)
Theorem C67_count_same : forall t p w m first last b, valid_w w -> wf_mem w m ->
  exists r, alone (CountTraceModel.count t p w first last b) (byte_view w m) = lift r (byte_view w m) /\
    count t p w first last b m = lift r m.
Proof. exact count_same_ok. Qed.
Print Assumptions C67_count_same.

(** 26 bits of three 16-bit words, and a range that ends outside of the memory. *)
Example C67_count_same_example :
  let m := mem_of [40965; 65280; 3855] in
  valid_w 16 /\ wf_mem 16 m /\
  run 3 (count (X86 (Cpu true true true)) Strict20 16 (It 0 13) (It 2 7) true) [40965; 65280; 3855]
    = Ok (14, map Some [40965; 65280; 3855]) /\
  (exists m', alone (CountTraceModel.count (X86 (Cpu true true true)) Strict20 16 (It 0 13) (It 2 7) true)
     (byte_view 16 m) = Ok (14, m')) /\
  alone (CountTraceModel.count Generic Strict20 16 (It 0 13) (It 4 7) true) (byte_view 16 m) = UB OutOfBounds.
Proof. cbv zeta. split; [demo|]. split; [demo|]. split; [demo|]. split; [eexists; vm_compute; reflexivity|demo]. Qed.

(** libpopcnt reads each byte of its buffer exactly once, from the first to the last, and
    nothing else, whichever of its loops the machine runs; on machines that need aligned
    loads if it keeps to the buffer at all. *)
Theorem C67_popcnt : forall t rd a size, keeps_inside t a size -> 0 <= size ->
  (forall b, a <= b < a + size -> rd b <> None) ->
  alone (CountTraceModel.popcnt t a size) rd = lift (popcnt t rd a size) rd /\
  read_at (CountTraceModel.popcnt t a size) rd = from_to a (a + size) /\
  writes (CountTraceModel.popcnt t a size) rd = 0.
Proof. exact popcnt_reads_ok. Qed.
Print Assumptions C67_popcnt.

(** 77 bytes from byte 2: on ARM a block of 64 bytes, one of eight and five more; and 28 bytes
    from byte 5 on a machine without vectors: three single ones, three times eight, one. *)
Example C67_popcnt_example :
  let rd := mem_of (repeat 165 80) in
  (forall b, 2 <= b < 2 + 77 -> rd b <> None) /\
  read_at (CountTraceModel.popcnt (Neon true) 2 77) rd = from_to 2 79 /\
  length (from_to 2 79) = 77%nat /\ nth 70 (from_to 2 79) 0 = 72 /\
  popcnt (Neon true) rd 2 77 = Ok (4 * 77) /\
  (- 5) mod 8 <= 28 mod 8 /\ read_at (CountTraceModel.popcnt Generic 5 28) rd = from_to 5 33.
Proof.
  cbv zeta. split; [|vm_compute; repeat split; reflexivity || discriminate].
  intros b Hb. unfold mem_of. rewrite repeat_length. change (Z.of_nat 80) with 80.
  destruct (Z.leb_spec 0 b) as [C|C]; [|lia]. destruct (Z.ltb_spec b 80) as [D|D]; [discriminate|lia].
Qed.

(** count reads every byte of the words that hold bits of its range exactly once, in
    ascending order, no other byte, and writes nothing. *)
Theorem C67_count : forall t p w m first last b,
  (let it := if ip first =? 0 then ib first else ib first + 1 in
   ib first <> ib last -> keeps_inside t (it * (w / 8)) (w / 8 * (ib last - it))) ->
  valid_w w -> wf_mem w m -> good_range w m first last -> addr w first < addr w last ->
  read_at (CountTraceModel.count t p w first last b) (byte_view w m) =
    from_to (ib first * (w / 8)) (((addr w last - 1) / w + 1) * (w / 8)) /\
  writes (CountTraceModel.count t p w first last b) (byte_view w m) = 0.
Proof. exact count_reads_ok. Qed.
Print Assumptions C67_count.

(** Bits 13 to 38 of 16-bit words: bytes 0 to 5. *)
Example C67_count_example :
  let m := mem_of [40965; 65280; 3855; 7] in
  let c := CountTraceModel.count Generic Strict20 16 (It 0 13) (It 2 7) true in
  (let it := if ip (It 0 13) =? 0 then ib (It 0 13) else ib (It 0 13) + 1 in
   ib (It 0 13) <> ib (It 2 7) ->
   keeps_inside Generic (it * (16 / 8)) (16 / 8 * (ib (It 2 7) - it))) /\
  valid_w 16 /\ wf_mem 16 m /\ good_range 16 m (It 0 13) (It 2 7) /\
  addr 16 (It 0 13) < addr 16 (It 2 7) /\
  read_at c (byte_view 16 m) = [0; 1; 2; 3; 4; 5] /\
  from_to (ib (It 0 13) * (16 / 8)) (((addr 16 (It 2 7) - 1) / 16 + 1) * (16 / 8)) = [0; 1; 2; 3; 4; 5].
Proof.
  cbv zeta. split; [intros _; left; reflexivity|].
  split; [demo|]. split; [demo|]. split; [demo|]. split; [demo|].
  vm_compute. split; reflexivity.
Qed.

(** C57 for the bytes that count reads: while other threads run that write to none of the
    bytes of the words of its range, the next access of count is always a read of one of
    those bytes, which still holds what it held at the beginning, and when count has
    returned, its answer is the number of bits in the range. *)
Theorem C57_count_bytes : forall t p w m first last b ts1 ts2 m' us1 x us2,
  let own k := ib first * (w / 8) <= k < ((addr w last - 1) / w + 1) * (w / 8) in
  (let it := if ip first =? 0 then ib first else ib first + 1 in
   ib first <> ib last -> keeps_inside t (it * (w / 8)) (w / 8 * (ib last - it))) ->
  valid_w w -> wf_mem w m -> good_range w m first last -> addr w first < addr w last ->
  Forall (avoids own) ts1 -> Forall (avoids own) ts2 ->
  psteps (byte_view w m, ts1 ++ CountTraceModel.count t p w first last b :: ts2)
         (m', us1 ++ x :: us2) -> length us1 = length ts1 ->
  (forall k, own k -> m' k = byte_view w m k) /\
  ((exists a f, x = Read a f /\ own a /\ m' a <> None) \/
   x = Done (Ok (count_true (fun i => eqb (bit w m i) b) (addr w first)
                   (Z.to_nat (addr w last - addr w first))))).
Proof. exact count_par_ok. Qed.
Print Assumptions C57_count_bytes.

(** Next to the count of the bits 13 to 38 of 16-bit words (bytes 0 to 5) a thread copies
    byte 2 to byte 6; it has done so before count makes its first access. *)
Example C57_count_bytes_example :
  let m := mem_of [40965; 65280; 3855; 7] in
  let own k := ib (It 0 13) * (16 / 8) <= k < ((addr 16 (It 2 7) - 1) / 16 + 1) * (16 / 8) in
  let c := CountTraceModel.count (Neon true) Strict20 16 (It 0 13) (It 2 7) true in
  let u := Read 2 (fun v => Write 6 v (Done (Ok 0))) in
  valid_w 16 /\ wf_mem 16 m /\ good_range 16 m (It 0 13) (It 2 7) /\
  addr 16 (It 0 13) < addr 16 (It 2 7) /\ Forall (avoids own) [u] /\
  psteps (byte_view 16 m, [u] ++ c :: []) (mset (byte_view 16 m) 6 0, [Done (Ok 0)] ++ c :: []) /\
  (exists f, c = Read 0 f) /\
  count_true (fun i => eqb (bit 16 m i) true) 13 26 = 14.
Proof.
  cbv zeta. split; [demo|]. split; [demo|]. split; [demo|]. split; [demo|].
  split. { repeat constructor; intros; try constructor; cbn in *; lia. }
  split. { eapply pss_more; [apply (ps_read _ []); vm_compute; reflexivity|].
    eapply pss_more; [apply (ps_write _ []); discriminate|apply pss_none]. }
  split; [eexists; cbn; reflexivity|vm_compute; reflexivity].
Qed.
