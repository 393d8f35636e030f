(** C32 under the rules of the language, and C34 for vectors that only grow. *)
From Coq Require Import ZArith Bool List Lia.
From Verif Require Import Base IterModel VecModel Spec SpecVec SpecGrow ProofVec5 ProofGrow.
Import ListNotations.
Open Scope Z_scope.

(** C32: of the histories that are right on any machine, those defined under the
    shift rules [p] are exactly the ones without a shift of one whole word (the
    histories of C32_history); every other one executes an undefined shift. *)
Theorem C32_language_rules : forall p h w os v, valid_w w -> vec_ok w v ->
  vpre_all (Hw h) w (vbits w v) os ->
  (vpre_all p w (vbits w v) os <-> forall k, vrun p w v os <> UB k) /\
  (~ vpre_all p w (vbits w v) os ->
     exists k, vrun p w v os = UB k /\ (k = OverShift \/ k = NegShift)).
Proof. exact history_rules. Qed.
Print Assumptions C32_language_rules.

Example C32_language_rules_example :
  let v := BV [178; 7] 11 in
  let os := [OpErase 3; OpEraseRange 0 2; OpInsertN 0 3 true] in
  let bad := [OpErase 3; OpEraseRange 0 2; OpPush true; OpErase 8; OpErase 0] in
  valid_w 8 /\ vec_ok 8 v /\ (forall h, vpre_all (Hw h) 8 (vbits 8 v) bad) /\
  ~ vpre_all Strict17 8 (vbits 8 v) bad /\ vrun Strict17 8 v bad = UB NegShift /\
  vpre_all Strict17 8 (vbits 8 v) os /\
  vrun Strict17 8 v os = Ok ([OIdx 3; OIdx 0; OIdx 0], BV [183; 7] 11).
Proof.
  cbv zeta. split; [unfold valid_w; lia|].
  split; [unfold vec_ok, words_ok, max_bits; cbn; repeat constructor; lia|]. split.
  { intros h. unfold vpre_all, vpre, shift_defined, full_blend_defined, zlen, max_bits. cbn.
    repeat split; try lia; try discriminate; auto. }
  split.
  { unfold vpre_all, vpre, shift_defined, full_blend_defined, zlen, max_bits. cbn.
    intros (_ & _ & _ & _ & (_ & H) & _). specialize (H eq_refl). vm_compute in H. tauto. }
  split; [vm_compute; reflexivity|]. split; [|vm_compute; reflexivity].
  unfold vpre_all, vpre, shift_defined, full_blend_defined, zlen, max_bits. cbn.
  repeat split; try lia; try discriminate; intros; try (left; discriminate); right; left; discriminate.
Qed.

(** C34 holds in every history that removes no elements, except by clear, from a
    vector whose storage beyond size() is zero. *)
Theorem C34_growing_history_partial : forall p w os v, valid_w w -> vec_ok w v -> clean w v ->
  gpre_all p w (vbits w v) os ->
  exists v', vrun p w v os = Ok (fst (gspec_run w (vbits w v) os), v') /\
    vec_ok w v' /\ clean w v' /\ vbits w v' = snd (gspec_run w (vbits w v) os).
Proof. exact vrun_grow. Qed.
Print Assumptions C34_growing_history_partial.

Example C34_growing_history_partial_example :
  let os := [OpPush true; OpResize 5; OpInsertN 1 9 true; OpResize 17; OpSet 16 true;
             OpInsertRange 3 [178; 77] 5 12; OpInsert 5 false; OpResize 30; OpClear; OpResize 3] in
  valid_w 8 /\ vec_ok 8 ctor_default /\ clean 8 ctor_default /\ gpre_all Strict17 8 [] os /\
  vrun Strict17 8 ctor_default (firstn 4 os) =
    Ok ([ONone; ONone; OIdx 1; ONone], BV [255; 3; 0] 17) /\
  snd (gspec_run 8 [] (firstn 4 os)) = repeat true 10 ++ repeat false 7.
Proof.
  cbv zeta. split; [unfold valid_w; lia|].
  split; [unfold vec_ok, words_ok, max_bits; cbn; split; [constructor|lia]|].
  split; [apply clean_default|]. split; [|split; vm_compute; reflexivity].
  unfold gpre_all, gpre, vpre, words_ok, shift_defined, zlen, max_bits; cbn.
  repeat split; try lia; try discriminate; repeat constructor; lia.
Qed.

(** Such vectors are built by the default constructor and by bit_vector(n). *)
Theorem C34_clean_start : forall w n, valid_w w -> 0 <= n ->
  clean w ctor_default /\ clean w (ctor_count w n).
Proof. exact clean_start. Qed.
Print Assumptions C34_clean_start.

Example C34_clean_start_example :
  valid_w 8 /\ ctor_count 8 11 = BV [0; 0] 11 /\ ~ clean 8 (ctor_fill 8 11 true).
Proof.
  split; [unfold valid_w; lia|]. split; [reflexivity|]. intros H.
  assert (E : get_at 12 (list_bits 8 (vwords (ctor_fill 8 11 true))) = false) by (apply H; vm_compute; intuition congruence).
  vm_compute in E. discriminate.
Qed.
