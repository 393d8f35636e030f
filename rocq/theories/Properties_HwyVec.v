(** Property C73: bit_vector in the BITLIB_HWY build. *)
From Coq Require Import ZArith Bool List Lia.
From Verif Require Import Base WordOps IterModel AlgModel ShiftModel HwyModel VecModel
  HwyVecModel Spec SpecHwy SpecStd SpecVec SpecPoint Demo ProofHwyVec.
Import ListNotations.
Open Scope Z_scope.

(** C73 on any machine: every history of legal calls shows the client what the same calls
    on a list of bits show and leaves a vector with the bits of that list, wherever the
    storage lies during each call. *)
Theorem C73_history : forall o n w os v, valid_w w -> vector_fits (Unit n 0) w -> vec_ok w v ->
  vpre_all (Hw o) w (vbits w v) (map snd os) ->
  exists v', vrun_hwy (Hw o) n w v os = Ok (fst (vspec_run w (vbits w v) (map snd os)), v') /\
    vec_ok w v' /\ vbits w v' = snd (vspec_run w (vbits w v) (map snd os)).
Proof. exact vrun_hwy_ok. Qed.
Print Assumptions C73_history.

(** Long enough for the vector loops of shift_left, shift_right and fill. *)
Example C73_history_example :
  let v := BV [1; 2; 3; 5; 8; 13; 21; 34; 55; 89; 144; 233; 251; 7; 11; 18; 29; 47; 76; 3] 157 in
  let os := [(3, OpInsert 2 true); (3, OpErase 5); (1, OpInsertN 9 43 true);
             (1, OpEraseRange 3 50); (2, OpInsertRange 1 [178; 77] 2 15);
             (2, OpInsert 0 true); (2, OpSize); (2, OpPush true)] in
  valid_w 8 /\ vector_fits (Unit 4 0) 8 /\ vec_ok 8 v /\
  (forall o, vpre_all (Hw o) 8 (vbits 8 v) (map snd os)) /\
  vrun_hwy (Hw (fun _ _ _ => 77)) 4 8 v os =
    Ok ([OIdx 2; OIdx 5; OIdx 9; OIdx 3; OIdx 1; OIdx 0; ONum 167; ONone],
        BV [179; 77; 15; 12; 20; 32; 52; 84; 136; 220; 100; 65; 166; 239; 31; 44; 72; 116;
            188; 48; 141] 168).
Proof.
  cbv zeta. split; [unfold valid_w; lia|]. split; [unfold vector_fits; cbn; lia|].
  split; [unfold vec_ok, words_ok, max_bits; cbn; repeat constructor; lia|].
  split; [|vm_compute; reflexivity]. intros o.
  cbn [map snd vpre_all vpre].
  repeat match goal with
  | |- _ /\ _ => split
  | |- True => exact I
  | |- _ <= _ => vm_compute; discriminate
  | |- _ < _ => vm_compute; reflexivity
  | |- words_ok _ _ => unfold words_ok; repeat constructor; lia
  | |- _ -> _ => intros _
  | |- shift_defined (Hw _) _ _ _ => right; right; exact I
  | |- shift_defined _ _ _ _ => left; vm_compute; discriminate
  | |- shift_defined _ _ _ _ => right; left; vm_compute; discriminate
  end.
Qed.

(** C73: the macro does not change what a history does, down to the words of the storage
    and the bits behind the last element. *)
Theorem C73_history_same : forall o n w os v, valid_w w -> vector_fits (Unit n 0) w ->
  vec_ok w v -> vpre_all (Hw o) w (vbits w v) (map snd os) ->
  vrun_hwy (Hw o) n w v os = vrun (Hw o) w v (map snd os).
Proof. exact vrun_hwy_same. Qed.
Print Assumptions C73_history_same.

(** An erase leaves the old last bit behind the end (232 = 209 / 2 + 128). *)
Example C73_history_same_example :
  let v := BV [4660; 22136; 39612; 57072; 291; 17767; 35243; 52719; 209] 136 in
  let os := [(6, OpErase 3); (2, OpInsertN 4 20 false)] in
  valid_w 16 /\ vector_fits (Unit 2 0) 16 /\ vec_ok 16 v /\
  (forall o, vpre_all (Hw o) 16 (vbits 16 v) (map snd os)) /\
  vrun_hwy (Hw (fun _ _ _ => 5)) 2 16 v os = vrun (Hw (fun _ _ _ => 5)) 16 v (map snd os) /\
  vrun_hwy (Hw (fun _ _ _ => 5)) 2 16 v [(6, OpErase 3)]
    = Ok ([OIdx 3], BV [2332; 11068; 19806; 61304; 32913; 41651; 50389; 59127; 232] 135).
Proof.
  cbv zeta. split; [unfold valid_w; lia|]. split; [unfold vector_fits; cbn; lia|].
  split; [unfold vec_ok, words_ok, max_bits; cbn; repeat constructor; lia|].
  split; [|split; vm_compute; reflexivity]. intros o.
  cbn [map snd vpre_all vpre].
  repeat match goal with
  | |- _ /\ _ => split
  | |- True => exact I
  | |- _ <= _ => vm_compute; discriminate
  | |- _ < _ => vm_compute; reflexivity
  | |- words_ok _ _ => unfold words_ok; repeat constructor; lia
  | |- _ -> _ => intros _
  | |- shift_defined (Hw _) _ _ _ => right; right; exact I
  | |- shift_defined _ _ _ _ => left; vm_compute; discriminate
  | |- shift_defined _ _ _ _ => right; left; vm_compute; discriminate
  end.
Qed.

(** C73 under the rules of the language. Missing, because they are false of the code, are
    the insertions that look at the address of a word in front of the storage: they are
    undefined (C73_history_undefined). *)
Theorem C73_history_strict_partial : forall p n w os v, valid_w w -> vector_fits (Unit n 0) w ->
  vec_ok w v -> vpre_all p w (vbits w v) (map snd os) -> calls_inside n w (vbits w v) os ->
  exists v', vrun_hwy p n w v os = Ok (fst (vspec_run w (vbits w v) (map snd os)), v') /\
    vec_ok w v' /\ vbits w v' = snd (vspec_run w (vbits w v) (map snd os)).
Proof. exact vrun_hwy_inside. Qed.
Print Assumptions C73_history_strict_partial.

(** The storage begins 3 bytes before a multiple of 64, in the last call 5 bytes: a vector
    of 8 words is moved into place before it would begin in front of the storage. *)
Example C73_history_strict_example :
  let v := BV [1; 2; 3; 5; 8; 13; 21; 34; 55; 89; 144; 233] 90 in
  let os := [(61, OpInsert 3 true); (61, OpInsertN 30 16 true); (59, OpInsertN 9 13 false)] in
  valid_w 8 /\ vector_fits (Unit 8 0) 8 /\ vec_ok 8 v /\
  vpre_all Strict17 8 (vbits 8 v) (map snd os) /\ calls_inside 8 8 (vbits 8 v) os /\
  vrun_hwy Strict17 8 8 v os = Ok ([OIdx 3; OIdx 30; OIdx 9],
    BV [9; 0; 128; 192; 64; 249; 255; 7; 66; 67; 133; 200; 77; 22; 100] 120).
Proof.
  cbv zeta. split; [unfold valid_w; lia|]. split; [unfold vector_fits; cbn; lia|].
  split; [unfold vec_ok, words_ok, max_bits; cbn; repeat constructor; lia|].
  split.
  { cbn [map snd vpre_all vpre].
    repeat match goal with
    | |- _ /\ _ => split
    | |- True => exact I
    | |- _ <= _ => vm_compute; discriminate
    | |- _ < _ => vm_compute; reflexivity
    | |- _ -> _ => intros _
    | |- shift_defined _ _ _ _ => left; vm_compute; discriminate
    | |- shift_defined _ _ _ _ => right; left; vm_compute; discriminate
    end. }
  split; [|vm_compute; reflexivity].
  cbn [calls_inside call_inside].
  repeat match goal with
  | |- _ /\ _ => split
  | |- True => exact I
  | |- inserts_inside _ _ _ _ ?n => let x := eval vm_compute in n in change n with x
  end; intros Hc a (j & J1 & J2 & J3 & J4); cbn [lanes] in J2; try (cbn in Hc; lia).
  - change (91 / 8) with 11 in J2.
    destruct (Z.eq_dec j 0) as [->|C]; [lia|]. exfalso. apply (J4 0); [lia|reflexivity].
  - change (120 / 8) with 15 in J2.
    destruct (Z.eq_dec j 0) as [->|C1]; [lia|]. destruct (Z.eq_dec j 1) as [->|C2]; [lia|].
    destruct (Z.eq_dec j 2) as [->|C3]; [lia|]. exfalso. apply (J4 2); [lia|reflexivity].
Qed.

(** That is exact: a history of legal calls is undefined under the rules of the
    language if and only if some insertion looks at the address of a word in front of the
    storage. *)
Theorem C73_history_undefined : forall p n w os v, p = Strict17 \/ p = Strict20 ->
  valid_w w -> vector_fits (Unit n 0) w -> vec_ok w v ->
  vpre_all p w (vbits w v) (map snd os) ->
  vrun_hwy p n w v os = UB OutOfBounds <-> ~ calls_inside n w (vbits w v) os.
Proof. exact vrun_hwy_exact. Qed.
Print Assumptions C73_history_undefined.

(** A bit of another sequence inserted with the storage 4 bytes before a multiple of 64
    bytes: the third word is followed by too few, a vector that begins there is moved
    down by 56 bytes. *)
Example C73_history_undefined_example :
  let v := BV [1; 2; 3; 5; 8; 13; 21; 34; 55; 89; 144; 233] 90 in
  let os := [(60, OpInsertRange 3 [178; 77] 5 6)] in
  valid_w 8 /\ vector_fits (Unit 8 0) 8 /\ vec_ok 8 v /\
  vpre_all Strict20 8 (vbits 8 v) (map snd os) /\
  ~ calls_inside 8 8 (vbits 8 v) os /\ vrun_hwy Strict20 8 8 v os = UB OutOfBounds.
Proof.
  cbv zeta. split; [unfold valid_w; lia|]. split; [unfold vector_fits; cbn; lia|].
  split; [unfold vec_ok, words_ok, max_bits; cbn; repeat constructor; lia|].
  split.
  { cbn [map snd vpre_all vpre]. split; [|exact I].
    split; [split; vm_compute; discriminate|]. split; [lia|].
    split; [vm_compute; discriminate|]. split; [repeat constructor; lia|].
    split; [vm_compute; discriminate|]. split; [vm_compute; discriminate|]. intros _ _. left. vm_compute. discriminate. }
  split; [|vm_compute; reflexivity].
  cbn [calls_inside call_inside]. intros [K _].
  match type of K with inserts_inside _ _ _ _ ?n =>
    let x := eval vm_compute in n in change n with x in K end.
  assert (L : 0 <= -1); [|lia]. apply K; [discriminate|].
  exists 4. split; [lia|]. split; [reflexivity|]. split; [vm_compute; reflexivity|].
  intros i Hi. assert (C : i = 0 \/ i = 1 \/ i = 2 \/ i = 3) by lia.
  destruct C as [->|[->|[->| ->]]]; vm_compute; discriminate.
Qed.

(** Enough for a call is that there are the words of a vector, but one, in front of the
    position. *)
Theorem C73_far_inside : forall h w i c n, 0 < w -> 0 <= c -> lanes h - 1 <= i / w ->
  inserts_inside h w i c n.
Proof. exact far_inside. Qed.
Print Assumptions C73_far_inside.

Example C73_far_inside_example :
  0 < 8 /\ 0 <= 5 /\ lanes (Unit 4 1) - 1 <= 24 / 8 /\
  let v := BV (repeat 90 20) 157 in
  vrun_hwy Strict20 4 8 v [(1, OpInsertN 24 5 true)] =
    Ok ([OIdx 24], BV [90; 90; 90; 95; 75; 75; 75; 75; 75; 75; 75; 75; 75; 75; 75; 75; 75; 75;
                       75; 75; 3] 162).
Proof.
  split; [lia|]. split; [lia|]. split; [vm_compute; discriminate|]. vm_compute. reflexivity.
Qed.

(** Under the rules of the language an insertion at the front, defined in the plain build,
    is undefined in the vector build. *)
Theorem C73_insert_pointer_refuted : exists n w place v i b,
  valid_w w /\ vector_fits (Unit n 0) w /\ vec_ok w v /\
  vpre Strict20 w (vbits w v) (OpInsert i b) /\
  vrun Strict20 w v [OpInsert i b] = Ok ([OIdx 0], BV [3; 4; 6; 8; 10; 1] 42) /\
  vrun_hwy Strict20 n w v [(place, OpInsert i b)] = UB OutOfBounds.
Proof.
  exists 16, 8, 0, (BV [1; 2; 3; 4; 133; 0] 41), 0, true.
  split; [unfold valid_w; lia|]. split; [unfold vector_fits; cbn; lia|].
  split; [unfold vec_ok, words_ok, max_bits; cbn; repeat constructor; lia|].
  split; [|split; vm_compute; reflexivity].
  cbn [vpre]. split; [split; [lia|vm_compute; discriminate]|].
  split; [vm_compute; discriminate|]. intros _. right; left. vm_compute. discriminate.
Qed.
Print Assumptions C73_insert_pointer_refuted.
