(** Property C59: failing allocations. *)
From Coq Require Import ZArith Bool List Lia.
From Verif Require Import Base WordOps IterModel RefModel Spec VecModel CapModel FailModel SpecVec
  SpecCap SpecFail ProofFail.
Import ListNotations.
Open Scope Z_scope.

(** C59. A call does what it would do with all the memory in the world, or it needs
    more room than capacity(), a request for memory is refused, and the vector - its
    bits, its storage, its capacity - is the one before the call. Missing: a copy
    assignment that needs a larger buffer, with a std::vector that gives its buffer
    away before it asks for the new one (refuted below). *)
Theorem C59_call_partial : forall al li p w c o,
  valid_w w -> growth_ok w (l_growth li) -> cap_ok w c -> vpre p w (vbits w (fst c)) o ->
  (l_gives_away li = true -> forall other, o = OpAssign other ->
     zlen (vwords other) * w <= vcapacity w (snd c)) ->
  (exists c', xstep al li p w o c = Ok (ended (fst (vspec w (vbits w (fst c)) o)), c') /\
     cap_ok w c' /\ vbits w (fst c') = snd (vspec w (vbits w (fst c)) o) /\
     cstep (l_growth li) p w c o = Ok (fst (vspec w (vbits w (fst c)) o), c')) \/
  (exists n f, al n = Some f /\ needs_room w c o /\
     xstep al li p w o c = Ok (Exception (Refused f), c)).
Proof. exact fail_call. Qed.
Print Assumptions C59_call_partial.

(** An insertion of nine bits into a vector with room for three words: it needs two
    words; with two words of room and an allocator that grants at most two words it
    is refused. *)
Example C59_call_partial_example :
  let li := Library (Growth (fun c => Z.max 1 (2 * c)) (fun s c n => n) true) true in
  let al := fun n => if n <=? 2 then None else Some BadAlloc in
  let c := (BV [178; 1] 9, Buf 2 7) in
  valid_w 8 /\ growth_ok 8 (l_growth li) /\ cap_ok 8 c /\
  vpre Strict17 8 (vbits 8 (fst c)) (OpInsertN 3 9 true) /\
  xstep al li Strict17 8 (OpInsertN 3 9 true) (BV [178; 1] 9, Buf 3 7) =
    Ok (Value (OIdx 3), (BV [250; 111; 3] 18, Buf 3 7)) /\
  xstep al li Strict17 8 (OpInsertN 3 9 true) c = Ok (Exception (Refused BadAlloc), c) /\
  needs_room 8 c (OpInsertN 3 9 true).
Proof.
  cbv zeta. split; [unfold valid_w; lia|].
  split; [split; cbn [g_push g_other l_growth]; unfold max_bits; intros; lia|].
  split; [unfold cap_ok, vec_ok, words_ok, max_bits, zlen; cbn; repeat split; repeat constructor; lia|].
  split.
  - cbn [vpre fst]. split; [vm_compute; intuition discriminate|]. split; [lia|].
    split; [vm_compute; discriminate|]. intros _ _. left. discriminate.
  - vm_compute. repeat split.
Qed.

(** C59 for clients that catch the exceptions and go on: all that ever happened to
    the bits is what the calls that did not fail did. *)
Theorem C59_client_partial : forall als li p w q t c,
  valid_w w -> growth_ok w (l_growth li) -> l_gives_away li = false \/ assigns_none q ->
  cap_ok w c -> careful_pre p w (vbits w (fst c)) q ->
  exists tr c', xrun als li p w t q c = Ok (tr, c') /\ cap_ok w c' /\
    explains w (vbits w (fst c)) tr (vbits w (fst c')).
Proof. exact fail_client. Qed.
Print Assumptions C59_client_partial.

(** A client that appends a bit, and removes one if that fails, then inserts one at
    the front; the first request for memory is refused, the second granted. *)
Example C59_client_partial_example :
  let li := Library (Growth (fun c => Z.max 1 (2 * c)) (fun s c n => n) true) false in
  let als := fun t n => match t with O => Some BadAlloc | _ => None end in
  let c := (BV [178] 8, Buf 1 7) in
  let front := Call (OpInsert 0 true) (fun _ => Call (OpInsert 0 true) (fun _ => Call (OpAt 9) (fun _ => Stop))) in
  let q := Call (OpPush true) (fun x => match x with
             | Value _ => front | Exception _ => Call OpPop (fun _ => front) end) in
  valid_w 8 /\ growth_ok 8 (l_growth li) /\ cap_ok 8 c /\
  careful_pre (Hw (fun _ _ _ => 0)) 8 (vbits 8 (fst c)) q /\
  xrun als li (Hw (fun _ _ _ => 0)) 8 0 q c =
    Ok ([(OpPush true, Exception (Refused BadAlloc)); (OpPop, Value ONone);
         (OpInsert 0 true, Value (OIdx 0)); (OpInsert 0 true, Value (OIdx 0));
         (OpAt 9, Exception OutOfRange)], (BV [203; 0] 9, Buf 2 8)).
Proof.
  cbv zeta. split; [unfold valid_w; lia|].
  split; [split; cbn [g_push g_other l_growth]; unfold max_bits; intros; lia|].
  split; [unfold cap_ok, vec_ok, words_ok, max_bits, zlen; cbn; repeat split; repeat constructor; lia|].
  split.
  - cbn [careful_pre]. unfold vpre, shift_defined, full_blend_defined, zlen, max_bits; cbn.
    repeat split; intros; repeat split; intros; try lia; try discriminate; try (right; right; exact I).
  - vm_compute. reflexivity.
Qed.

(** resize(n) and resize(n, value), also when they enlarge the vector: done as C34
    and C35 say, or refused and nothing happened. *)
Theorem C59_resize : forall al g p w c n b,
  valid_w w -> growth_ok w g -> cap_ok w c -> 0 <= n < 2 ^ 32 ->
  (exists c', xresize al g w n c = Ok (Value tt, c') /\ xresize_val al g p w n b c = Ok (Value tt, c') /\
     cap_ok w c' /\
     vbits w (fst c') = firstn (Z.to_nat n) (list_bits w (vwords (fst c)) ++ repeat false (Z.to_nat n))) \/
  (exists k f, al k = Some f /\ vcapacity w (snd c) < n /\
     xresize al g w n c = Ok (Exception (Refused f), c) /\
     xresize_val al g p w n b c = Ok (Exception (Refused f), c)).
Proof. exact fail_resize. Qed.
Print Assumptions C59_resize.

Example C59_resize_example :
  let g := Growth (fun c => Z.max 1 (2 * c)) (fun s c n => n) true in
  let al := fun n => if n <=? 3 then None else Some LengthError in
  let c := (BV [178; 1] 9, Buf 2 7) in
  valid_w 8 /\ growth_ok 8 g /\ cap_ok 8 c /\
  xresize al g 8 20 c = Ok (Value tt, (BV [178; 1; 0] 20, Buf 3 8)) /\
  xresize_val al g Strict17 8 20 true c = Ok (Value tt, (BV [178; 1; 0] 20, Buf 3 8)) /\
  xresize al g 8 25 c = Ok (Exception (Refused LengthError), c) /\
  xresize_val al g Strict17 8 25 true c = Ok (Exception (Refused LengthError), c).
Proof.
  cbv zeta. split; [unfold valid_w; lia|].
  split; [split; cbn [g_push g_other]; unfold max_bits; intros; lia|].
  split; [unfold cap_ok, vec_ok, words_ok, max_bits, zlen; cbn; repeat split; repeat constructor; lia|].
  vm_compute. repeat split.
Qed.

(** The missing case: the words are gone, length_ is what it was, and reading any
    element is out of bounds. *)
Theorem C59_assign_broken : forall al li p w c other,
  valid_w w -> cap_ok w c -> l_gives_away li = true ->
  vcapacity w (snd c) < zlen (vwords other) * w -> (forall n, exists f, al n = Some f) ->
  exists f c', xstep al li p w (OpAssign other) c = Ok (Exception (Refused f), c') /\
    vsize (fst c') = vsize (fst c) /\
    forall i, 0 <= i < vsize (fst c') -> vget p w (fst c') i = UB OutOfBounds.
Proof. exact assign_broken. Qed.
Print Assumptions C59_assign_broken.

Example C59_assign_broken_example :
  let li := Library (Growth (fun c => Z.max 1 (2 * c)) (fun s c n => n) true) true in
  valid_w 8 /\ cap_ok 8 (BV [178; 1] 9, Buf 2 7) /\ l_gives_away li = true /\
  vcapacity 8 (Buf 2 7) < zlen [1; 2; 3] * 8 /\ (forall n : Z, exists f, Some BadAlloc = Some f).
Proof.
  cbv zeta. split; [unfold valid_w; lia|].
  split; [unfold cap_ok, vec_ok, words_ok, max_bits, zlen; cbn; repeat split; repeat constructor; lia|].
  split; [reflexivity|]. split; [reflexivity|]. intros _. exists BadAlloc. reflexivity.
Qed.

(** So C59 is false of copy assignment: a vector of nine bits to which one of 24 is
    assigned. *)
Theorem C59_assign_refuted : exists al li w c other f c',
  valid_w w /\ growth_ok w (l_growth li) /\ cap_ok w c /\ vec_ok w other /\
  xstep al li Strict17 w (OpAssign other) c = Ok (Exception (Refused f), c') /\
  vget Strict17 w (fst c) 0 = Ok false /\ vsize (fst c') = 9 /\
  vget Strict17 w (fst c') 0 = UB OutOfBounds /\ ~ cap_ok w c'.
Proof.
  exists (fun n => if n <=? 2 then None else Some BadAlloc),
    (Library (Growth (fun c => Z.max 1 (2 * c)) (fun s c n => n) true) true), 8,
    (BV [178; 1] 9, Buf 2 7), (BV [1; 2; 3] 24), BadAlloc, (BV [] 9, Buf 0 8).
  split; [unfold valid_w; lia|].
  split; [split; cbn [g_push g_other l_growth]; unfold max_bits; intros; lia|].
  split; [unfold cap_ok, vec_ok, words_ok, max_bits, zlen; cbn; repeat split; repeat constructor; lia|].
  split; [unfold vec_ok, words_ok, max_bits; cbn; repeat split; repeat constructor; lia|].
  split; [vm_compute; reflexivity|]. split; [vm_compute; reflexivity|]. split; [reflexivity|].
  split; [vm_compute; reflexivity|]. intros ((_ & H & _) & _). cbn in H. lia.
Qed.
Print Assumptions C59_assign_refuted.
