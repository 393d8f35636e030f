(** C70: constructing a bit_vector when an allocation may fail, and the storage that the
    constructors ask for. *)
From Coq Require Import ZArith Bool List Lia.
From Verif Require Import Base Spec VecModel CapModel FailModel CtorModel SpecVec SpecCap SpecFail SpecCtor
  ProofCtor Demo.
Import ListNotations.
Open Scope Z_scope.

Theorem C70_construct_partial : forall al g p w s,
  valid_w w -> growth_ok w g -> can_ask w s ->
  (exists c, construct al g p w s = Ok (Made c) /\ cap_ok w c /\ vbits w (fst c) = asked w s) \/
  (exists n f, al n = Some f /\ stores w s /\
     (~ moves s /\ construct al g p w s = Ok (Threw (Refused f)) \/
      moves s /\ construct al g p w s = Ok Terminated)).
Proof. exact construct_ok. Qed.
Print Assumptions C70_construct_partial.

Example C70_construct_example :
  let al : allocator := fun n => if n <? 4 then None else Some BadAlloc in
  let g := Growth (fun c => Z.max 1 (2 * c)) (fun _ _ n => n) true in
  can_ask 8 (FromBits [178; 77] 5 12) /\
  construct al g Strict17 8 (FromBits [178; 77] 5 12) = Ok (Threw (Refused BadAlloc)) /\
  construct al g Strict17 8 (FromBits [178; 77] 5 8) = Ok (Made (BV [5; 0; 0] 3, Buf 3 1)) /\
  construct al g Strict17 8 (FromInit [true; false; true]) = Ok (Made (BV [5] 3, Buf 1 1)) /\
  construct al g Strict17 8 (FromFill 24 true) = Ok (Made (BV [255; 255; 255] 24, Buf 3 1)) /\
  construct al g Strict17 8 (FromFill 25 true) = Ok (Threw (Refused BadAlloc)).
Proof.
  cbv zeta. split; [unfold can_ask, words_ok, max_bits, zlen; cbn; repeat constructor; lia|].
  vm_compute. auto.
Qed.

Theorem C70_move_terminates : forall al g p w other,
  vwords other <> [] -> (forall n, al n <> None) ->
  construct al g p w (FromMove other) = Ok Terminated.
Proof. exact move_terminates. Qed.
Print Assumptions C70_move_terminates.

Theorem C70_move_refuted : exists al g p w other,
  valid_w w /\ growth_ok w g /\ vec_ok w other /\ vbits w other = [true] /\
  construct al g p w (FromMove other) = Ok Terminated.
Proof.
  exists (fun _ => Some BadAlloc), (Growth (fun c => c + 1) (fun _ _ n => Z.max 0 n) true), Strict17, 8, (BV [1] 1).
  split; [unfold valid_w; lia|].
  split; [split; cbn [g_push g_other]; intros; unfold max_bits in *; lia|].
  split; [unfold vec_ok, words_ok, max_bits; cbn; repeat constructor; lia|].
  vm_compute. auto.
Qed.
Print Assumptions C70_move_refuted.

Theorem C70_words : forall al g p w s c,
  valid_w w -> growth_ok w g -> can_ask w s -> construct al g p w s = Ok (Made c) ->
  (forall other, s <> FromCopy other /\ s <> FromMove other /\ s <> FromMoveAlloc other) ->
  zlen (vwords (fst c)) = if one_word_per_bit s then zlen (asked w s) else fewest w (zlen (asked w s)).
Proof. exact construct_words. Qed.
Print Assumptions C70_words.

Theorem C70_room : forall al g p w s c,
  valid_w w -> growth_ok w g -> exact_room g -> can_ask w s -> one_word_per_bit s = true ->
  construct al g p w s = Ok (Made c) ->
  vcapacity w (snd c) = zlen (asked w s) * w.
Proof. exact construct_room. Qed.
Print Assumptions C70_room.

Example C70_room_example :
  let g := Growth (fun c => Z.max 1 (2 * c)) (fun _ _ n => n) true in
  exact_room g /\ can_ask 8 (FromString [49; 48; 49]) /\
  one_word_per_bit (FromString [49; 48; 49]) = true /\
  construct (fun _ => None) g Strict17 8 (FromString [49; 48; 49]) = Ok (Made (BV [5; 0; 0] 3, Buf 3 1)) /\
  vcapacity 8 (Buf 3 1) = 24 /\ fewest 8 3 = 1 /\
  one_word_per_bit (FromInit [true; false; true]) = false /\
  construct (fun _ => None) g Strict17 8 (FromInit [true; false; true]) = Ok (Made (BV [5] 3, Buf 1 1)).
Proof.
  cbv zeta. split; [intros n; reflexivity|]. vm_compute. intuition congruence.
Qed.

Theorem C70_room_refuted : exists g p w s c,
  valid_w w /\ growth_ok w g /\ can_ask w s /\
  construct (fun _ => None) g p w s = Ok (Made c) /\
  fewest w (zlen (asked w s)) = 1 /\ zlen (vwords (fst c)) = 64 /\ vcapacity w (snd c) = 64 * w.
Proof.
  exists (Growth (fun c => c + 1) (fun _ _ n => Z.max 0 n) true), Strict17, 64, (FromBools (repeat true 64)),
    (BV ((2 ^ 64 - 1) :: repeat 0 63) 64, Buf 64 1).
  split; [unfold valid_w; lia|].
  split; [split; cbn [g_push g_other]; intros; unfold max_bits in *; lia|].
  split; [cbn [can_ask]; unfold max_bits; vm_compute; discriminate|].
  vm_compute. auto.
Qed.
Print Assumptions C70_room_refuted.

Theorem C70_program_partial : forall al als li p w s q,
  valid_w w -> growth_ok w (l_growth li) ->
  l_gives_away li = false \/ assigns_none q -> can_ask w s -> careful_pre p w (asked w s) q ->
  (exists c tr c', construct al (l_growth li) p w s = Ok (Made c) /\
     xrun als li p w 0 q c = Ok (tr, c') /\ explains w (asked w s) tr (vbits w (fst c'))) \/
  (exists f, construct al (l_growth li) p w s = Ok (Threw (Refused f))) \/
  construct al (l_growth li) p w s = Ok Terminated /\ moves s.
Proof. exact construct_program. Qed.
Print Assumptions C70_program_partial.

Example C70_program_example :
  let li := Library (Growth (fun c => Z.max 1 (2 * c)) (fun _ _ n => n) true) false in
  let al : allocator := fun n => if n <? 2 then None else Some BadAlloc in
  let q := Call (OpPush true) (fun o => match o with Value _ => Stop | Exception _ => Call OpPop (fun _ => Stop) end) in
  can_ask 8 (FromFill 8 true) /\ careful_pre Strict17 8 (asked 8 (FromFill 8 true)) q /\
  construct al (l_growth li) Strict17 8 (FromFill 8 true) = Ok (Made (BV [255] 8, Buf 1 1)) /\
  xrun (fun _ => al) li Strict17 8 0 q (BV [255] 8, Buf 1 1) =
    Ok ([(OpPush true, Exception (Refused BadAlloc)); (OpPop, Value ONone)], (BV [255] 7, Buf 1 1)).
Proof.
  cbv zeta. split; [cbn; lia|]. vm_compute. intuition congruence.
Qed.
