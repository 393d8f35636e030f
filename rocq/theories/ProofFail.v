(** Proofs about failing allocations in bit_vector. *)
From Coq Require Import ZArith Bool List Lia.
From Verif Require Import Base WordOps IterModel RefModel AlgModel ShiftModel Spec VecModel CapModel
  FailModel SpecVec SpecCap SpecFail ProofBase ProofIter ProofVec ProofVec2 ProofVec3 ProofVec4 ProofCap.
Import ListNotations.
Open Scope Z_scope.

Lemma words_push_ok : forall al g c, zlen (vwords (fst c)) <= bcap (snd c) ->
  (exists k f, al k = Some f /\ bcap (snd c) < zlen (vwords (fst c)) + 1 /\
     words_push al g c = Ok (Exception (Refused f), c)) \/
  words_push al g c = Ok (Value tt, (BV (vwords (fst c) ++ [0]) (vlen (fst c)),
                                     room_push g (snd c) (zlen (vwords (fst c)) + 1))).
Proof.
  intros al g [v b] H. cbn [fst snd] in *. unfold words_push, room_push.
  change (wsize (vwords v)) with (zlen (vwords v)).
  destruct (Z.leb_spec (zlen (vwords v) + 1) (bcap b)) as [C|C]; [right; reflexivity|].
  destruct (al (g_push g (bcap b))) as [f|] eqn:F; [left|right; reflexivity].
  exists (g_push g (bcap b)), f. auto.
Qed.

Lemma words_reserve_ok : forall al g n c,
  (exists k f, al k = Some f /\ bcap (snd c) < n /\
     words_reserve al g n c = Ok (Exception (Refused f), c)) \/
  words_reserve al g n c = Ok (Value tt, (fst c, room_for g (snd c) (zlen (vwords (fst c))) n)).
Proof.
  intros al g n [v b]. cbn [fst snd]. unfold words_reserve, room_for.
  change (wsize (vwords v)) with (zlen (vwords v)).
  destruct (Z.leb_spec n (bcap b)) as [C|C]; [right; reflexivity|].
  destruct (al (g_other g (zlen (vwords v)) (bcap b) n)) as [f|] eqn:F; [left|right; reflexivity].
  exists (g_other g (zlen (vwords v)) (bcap b) n), f. auto.
Qed.

Lemma words_resize_ok : forall al g n c,
  (exists k f, al k = Some f /\ bcap (snd c) < n /\
     words_resize al g n c = Ok (Exception (Refused f), c)) \/
  words_resize al g n c = Ok (Value tt, (BV (resize_words (vwords (fst c)) n) (vlen (fst c)),
                                         room_for g (snd c) (zlen (vwords (fst c))) n)).
Proof.
  intros al g n c. unfold words_resize, xbind.
  destruct (words_reserve_ok al g n c) as [(k & f & F & C & E)|E]; rewrite E; cbn [rbind fst snd vwords vlen].
  - left. exists k, f. auto.
  - right. reflexivity.
Qed.

Ltac rinv H a E := apply rbind_inv in H; destruct H as (a & E & H).

Lemma zlen_on_words : forall A l (a : M A) x l', on_words l a = Ok (x, l') -> zlen l' = zlen l.
Proof. intros A l a x l' H. unfold zlen. rewrite (on_words_length _ _ _ _ _ H). reflexivity. Qed.

Lemma zlen_on_words_ext : forall A l ext (a : M A) x l' e,
  on_words_ext l ext a = Ok (x, l', e) -> zlen l' = zlen l.
Proof. intros A l ext a x l' e H. unfold zlen. rewrite (on_words_ext_length _ _ _ _ _ _ _ H). reflexivity. Qed.

Lemma room_same : forall g b s n, n <= bcap b -> room_for g b s n = b.
Proof. intros g b s n H. unfold room_for. destruct (Z.leb_spec n (bcap b)); [reflexivity|lia]. Qed.

Lemma room_push_same : forall g b n, n <= bcap b -> room_push g b n = b.
Proof. intros g b n H. unfold room_push. destruct (Z.leb_spec n (bcap b)); [reflexivity|lia]. Qed.

Lemma zlen_push : forall l : list Z, zlen (l ++ [0]) = zlen l + 1.
Proof. intros l. unfold zlen. rewrite app_length. cbn [length]. lia. Qed.

(** What a call that was refused asked for, in words. *)
Definition short_of (w : Z) (c : cvec) (v' : bvec) (o : vop) : Prop :=
  match o with
  | OpReserve n => bcap (snd c) < word_count w n
  | OpShrinkToFit => zlen (vwords (fst c)) < bcap (snd c)
  | OpPush _ | OpInsert _ _ | OpInsertN _ _ _ | OpInsertRange _ _ _ _ | OpAssign _ | OpResize _ =>
    bcap (snd c) < zlen (vwords v')
  | _ => False
  end.

Definition refines (al : allocator) (li : library) (p : policy) (w : Z) (c : cvec) (o : vop)
  (x : vout) (v' : bvec) : Prop :=
  xstep al li p w o c = Ok (ended x, (v', buffer_after (l_growth li) w (fst c) v' (snd c) o)) \/
  (exists k f, al k = Some f /\ xstep al li p w o c = Ok (Exception (Refused f), c) /\
     short_of w c v' o).

Ltac bw := unfold buffer_after; change wsize with (@zlen Z) in *.

Ltac xs := unfold xnone, xsee; unfold xbind, xret, xlift, xthrow, words, len, set_len, alg_on, alg_on_ext; cbv beta;
  cbn [rbind fst snd vwords vlen].

Lemma xpush_ref : forall al li p w c b x v', zlen (vwords (fst c)) <= bcap (snd c) ->
  vstep p w (fst c) (OpPush b) = Ok (x, v') -> refines al li p w c (OpPush b) x v'.
Proof.
  intros al li p w [v bf] b x v' K H. cbn [fst snd vstep] in *. rinv H v1 E. injection H as <- <-.
  unfold push_back in E. rinv E y E1. destruct y as [[] l']. injection E as <-.
  unfold refines, short_of, xstep, xpush_back. bw. xs.
  destruct (wrap 64 (zlen (vwords v) * w) =? vlen v); cbv beta; cbn [rbind fst snd vwords vlen].
  - rewrite (zlen_on_words _ _ _ _ _ E1), zlen_push.
    destruct (words_push_ok al (l_growth li) (v, bf) K) as [(k & f & F & C & X)|X]; rewrite X; cbn [rbind fst snd vwords vlen] in *.
    + right. exists k, f. auto.
    + left. rewrite E1. reflexivity.
  - left. cbn [rbind fst snd vwords vlen]. rewrite E1. cbn [rbind fst snd vwords vlen].
    rewrite (zlen_on_words _ _ _ _ _ E1), room_push_same by assumption. reflexivity.
Qed.

Lemma xpop_ref : forall al li p w c x v', zlen (vwords (fst c)) <= bcap (snd c) ->
  vstep p w (fst c) OpPop = Ok (x, v') -> refines al li p w c OpPop x v'.
Proof.
  intros al li p w [v bf] x v' K H. cbn [fst snd vstep] in *. rinv H v1 E. injection H as <- <-.
  unfold pop_back in E. unfold refines, short_of, xstep, xpop_back. bw. xs. left.
  destruct (wrap 64 (vlen v - 1) mod w =? 0); cbv beta; cbn [rbind fst snd vwords vlen].
  - rinv E l E1. injection E as <-. unfold words_pop. cbn [fst snd vwords vlen]. rewrite E1. cbn [rbind fst snd vwords vlen].
    apply pop_word_size in E1. change wsize with (@zlen Z) in E1. rewrite room_same by lia. reflexivity.
  - injection E as <-. cbn [rbind fst snd vwords vlen]. rewrite room_same by assumption. reflexivity.
Qed.

Lemma xinsert_ref : forall al li p w c i b x v', zlen (vwords (fst c)) <= bcap (snd c) ->
  vstep p w (fst c) (OpInsert i b) = Ok (x, v') -> refines al li p w c (OpInsert i b) x v'.
Proof.
  intros al li p w [v bf] i b x v' K H. cbn [fst snd vstep] in *. rinv H pos P0. unfold see_iter in H.
  rinv H y E. destruct y as [it v1]. rinv H q E2. injection H as <- <-.
  unfold insert1 in E. rinv E d E3. rinv E y E1. destruct y as [[] l']. rinv E r E4. injection E as <- <-.
  unfold refines, short_of, xstep, xinsert1. bw. xs. rewrite P0. cbn [rbind fst snd vwords vlen]. rewrite E3. cbn [rbind fst snd vwords vlen].
  destruct (wrap 64 (zlen (vwords v) * w) =? vlen v); cbv beta; cbn [rbind fst snd vwords vlen].
  - rewrite (zlen_on_words _ _ _ _ _ E1), zlen_push.
    destruct (words_push_ok al (l_growth li) (v, bf) K) as [(k & f & F & C & X)|X]; rewrite X; cbn [rbind fst snd vwords vlen] in *.
    + right. exists k, f. auto.
    + left. rewrite E1. cbn [rbind fst snd vwords vlen]. rewrite E4. cbn [rbind fst snd vwords vlen]. rewrite E2. reflexivity.
  - left. cbn [rbind fst snd vwords vlen]. rewrite E1. cbn [rbind fst snd vwords vlen]. rewrite E4. cbn [rbind fst snd vwords vlen]. rewrite E2.
    rewrite (zlen_on_words _ _ _ _ _ E1), room_push_same by assumption. reflexivity.
Qed.

Lemma xgrow_ref : forall al g w n c l, zlen (vwords (fst c)) <= bcap (snd c) -> valid_w w ->
  grow w (vwords (fst c)) n = Ok l ->
  (exists k f, al k = Some f /\ bcap (snd c) < zlen l /\
     xgrow al g w n c = Ok (Exception (Refused f), c)) \/
  xgrow al g w n c = Ok (Value tt, (BV l (vlen (fst c)), room_for g (snd c) (zlen (vwords (fst c))) (zlen l))).
Proof.
  intros al g w n [v bf] l K Hw H. cbn [fst snd] in *. unfold grow in H. unfold xgrow. xs. cbv zeta in *.
  change wsize with (@zlen Z) in *.
  destruct (_ <? _); [|injection H as <-; right; rewrite room_same by assumption; destruct v; reflexivity].
  set (ex := to_float _) in *. destruct (ex <? 2 ^ 32); [|discriminate]. injection H as <-.
  assert (Hl : zlen (resize_words (vwords v) (zlen (vwords v) + word_count w ex)) = zlen (vwords v) + word_count w ex).
  { apply wsize_resize. unfold zlen. pose proof (proj1 (reserve_bits w ex Hw)). lia. }
  rewrite Hl.
  destruct (words_resize_ok al g (zlen (vwords v) + word_count w ex) (v, bf)) as [(k & f & F & C & X)|X];
    rewrite X; cbn [fst snd] in *; [left; exists k, f; auto|right; reflexivity].
Qed.

Lemma xinsert_n_ref : forall al li p w c i n b x v', valid_w w -> zlen (vwords (fst c)) <= bcap (snd c) ->
  vstep p w (fst c) (OpInsertN i n b) = Ok (x, v') -> refines al li p w c (OpInsertN i n b) x v'.
Proof.
  intros al li p w [v bf] i n b x v' Hw K H. cbn [fst snd vstep] in *. rinv H pos P0. unfold see_iter in H.
  rinv H y E. destruct y as [it v1]. rinv H q E2. injection H as <- <-.
  unfold insert_n in E. rinv E d E3.
  unfold refines, short_of, xstep, xinsert_n. bw. xs. rewrite P0. cbn [rbind fst snd vwords vlen]. rewrite E3. cbn [rbind fst snd vwords vlen].
  destruct (n =? 0); cbv beta; cbn [rbind fst snd vwords vlen].
  - rinv E r E4. injection E as <- <-. left. rewrite E4. cbn [rbind fst snd vwords vlen]. rewrite E2. cbn [rbind fst snd vwords vlen].
    rewrite room_same by assumption. reflexivity.
  - rinv E l E5. rinv E y E1. destruct y as [u l']. rinv E r E4. injection E as <- <-.
    cbn [vwords]. rewrite (zlen_on_words _ _ _ _ _ E1).
    destruct (xgrow_ref al (l_growth li) w (vlen v + n) (v, bf) l K Hw E5) as [(k & f & F & C & X)|X]; rewrite X;
      cbn [rbind fst snd vwords vlen] in *.
    + right. exists k, f. auto.
    + left. rewrite E1. cbn [rbind fst snd vwords vlen]. rewrite E4. cbn [rbind fst snd vwords vlen]. rewrite E2. reflexivity.
Qed.

Lemma xinsert_range_ref : forall al li p w c i src j k x v', valid_w w -> zlen (vwords (fst c)) <= bcap (snd c) ->
  vstep p w (fst c) (OpInsertRange i src j k) = Ok (x, v') ->
  refines al li p w c (OpInsertRange i src j k) x v'.
Proof.
  intros al li p w [v bf] i src j k x v' Hw K H. cbn [fst snd vstep] in *. rinv H pos P0. rinv H fi P1. rinv H la P2.
  unfold see_iter in H. rinv H y E. destruct y as [it v1]. rinv H q E2. injection H as <- <-.
  rinv E y E0. destruct y as [[it1 v2] ex]. injection E as -> ->.
  unfold insert_range in E0. rinv E0 d E3. rinv E0 cc E6.
  unfold refines, short_of, xstep, xinsert_range. bw. xs. rewrite P0. cbn [rbind fst snd vwords vlen]. rewrite P1. cbn [rbind fst snd vwords vlen].
  rewrite P2. cbn [rbind fst snd vwords vlen]. rewrite E3. cbn [rbind fst snd vwords vlen]. rewrite E6. cbn [rbind fst snd vwords vlen].
  destruct (wrap 64 cc =? 0); cbv beta; cbn [rbind fst snd vwords vlen].
  - rinv E0 r E4. injection E0 as <- <- <-. left. rewrite E4. cbn [rbind fst snd vwords vlen]. rewrite E2. cbn [rbind fst snd vwords vlen].
    rewrite room_same by assumption. reflexivity.
  - rinv E0 l E5. rinv E0 y E1. destruct y as [[u l'] e']. rinv E0 r E4. injection E0 as <- <- <-.
    cbn [vwords]. rewrite (zlen_on_words_ext _ _ _ _ _ _ _ E1).
    destruct (xgrow_ref al (l_growth li) w (vlen v + wrap 64 cc) (v, bf) l K Hw E5) as [(kk & f & F & C & X)|X];
      rewrite X; cbn [rbind fst snd vwords vlen] in *.
    + right. exists kk, f. auto.
    + left. rewrite E1. cbn [rbind fst snd vwords vlen]. rewrite E4. cbn [rbind fst snd vwords vlen]. rewrite E2. reflexivity.
Qed.

Lemma xerase_ref : forall al li p w c i x v', zlen (vwords (fst c)) <= bcap (snd c) ->
  vstep p w (fst c) (OpErase i) = Ok (x, v') -> refines al li p w c (OpErase i) x v'.
Proof.
  intros al li p w [v bf] i x v' K H. cbn [fst snd vstep] in *. rinv H pos P0. unfold see_iter in H.
  rinv H y E. destruct y as [it v1]. rinv H q E2. injection H as <- <-.
  unfold erase1 in E. rinv E y E1. destruct y as [u l].
  unfold refines, short_of, xstep, xerase1. bw. xs. rewrite P0. cbn [rbind fst snd vwords vlen]. rewrite E1. cbn [rbind fst snd vwords vlen].
  left. pose proof (zlen_on_words _ _ _ _ _ E1) as L.
  destruct (wrap 64 (vlen v - 1) mod w =? 0); cbv beta; cbn [rbind fst snd vwords vlen].
  - rinv E l1 E3. injection E as <- <-. unfold words_pop. cbn [fst snd vwords vlen]. rewrite E3. cbn [rbind fst snd vwords vlen].
    rewrite E2. cbn [rbind fst snd vwords vlen]. apply pop_word_size in E3. change wsize with (@zlen Z) in E3.
    rewrite room_same by lia. reflexivity.
  - injection E as <- <-. cbn [rbind fst snd vwords vlen]. rewrite E2. cbn [rbind fst snd vwords vlen]. rewrite room_same by lia. reflexivity.
Qed.

Lemma xerase_range_ref : forall al li p w c i j x v', valid_w w -> zlen (vwords (fst c)) <= bcap (snd c) ->
  zlen (vwords v') <= bcap (snd c) ->
  vstep p w (fst c) (OpEraseRange i j) = Ok (x, v') -> refines al li p w c (OpEraseRange i j) x v'.
Proof.
  intros al li p w [v bf] i j x v' Hw K K' H. cbn [fst snd vstep] in *. rinv H fi P0. rinv H la P1. unfold see_iter in H.
  rinv H y E. destruct y as [it v1]. rinv H q E2. injection H as <- <-.
  unfold erase_range in E. rinv E d E3. rinv E cc E4.
  unfold refines, short_of, xstep, xerase_range. bw. xs. rewrite P0. cbn [rbind fst snd vwords vlen]. rewrite P1. cbn [rbind fst snd vwords vlen].
  rewrite E3. cbn [rbind fst snd vwords vlen]. rewrite E4. cbn [rbind fst snd vwords vlen]. left.
  destruct (cc =? 0); cbv beta; cbn [rbind fst snd vwords vlen].
  - injection E as <- <-. rewrite E2. cbn [rbind fst snd vwords vlen]. rewrite room_same by lia. reflexivity.
  - rinv E y E1. destruct y as [u l]. rinv E r E5. injection E as <- <-. cbn [vwords] in *. unfold vend in E1.
    rewrite E1. cbn [rbind fst snd vwords vlen]. pose proof (zlen_on_words _ _ _ _ _ E1) as L.
    assert (Hl : zlen (resize_words l (word_count w (wrap 64 (vlen v - cc)))) = word_count w (wrap 64 (vlen v - cc))).
    { apply wsize_resize. exact (proj1 (reserve_bits w _ Hw)). }
    rewrite Hl in *.
    destruct (words_resize_ok al (l_growth li) (word_count w (wrap 64 (vlen v - cc)))
      (BV l (wrap 64 (vlen v - cc)), bf)) as [(k & f & F & C & X)|X]; rewrite X; cbn [rbind fst snd vwords vlen] in *; [lia|].
    rewrite E5. cbn [rbind fst snd vwords vlen]. rewrite E2. cbn [rbind fst snd vwords vlen]. rewrite !room_same by lia. reflexivity.
Qed.

(** Reading leaves the words. *)
Lemma vget_same : forall p w v i b l,
  on_words (vwords v) (let! r := iindex p w vbegin (swrap64 i) in ref_get r) = Ok (b, l) -> l = vwords v.
Proof.
  intros p w v i b l H. unfold on_words, on_words_ext in H. unfold bind at 1 in H. unfold lift in H.
  destruct (iindex p w vbegin (swrap64 i)) as [r| | | |]; try discriminate H. cbn [rbind] in H.
  unfold ref_get, bind, load, ret in H.
  destruct (vmem (vwords v) nomem (rptr r)) as [y|]; [|discriminate H]. cbn [rbind] in H.
  injection H as _ <-. apply words_of_vmem.
Qed.

Lemma xstep_ref : forall al li p w c o x v', valid_w w -> vec_ok w (fst c) ->
  zlen (vwords (fst c)) <= bcap (snd c) -> vpre p w (vbits w (fst c)) o ->
  (l_gives_away li = true -> forall other, o = OpAssign other -> zlen (vwords other) <= bcap (snd c)) ->
  (forall i j, o = OpEraseRange i j -> zlen (vwords v') <= bcap (snd c)) ->
  vstep p w (fst c) o = Ok (x, v') -> refines al li p w c o x v'.
Proof.
  intros al li p w c o x v' Hw V K Pre A Er H. destruct o.
  - apply xpush_ref; assumption.
  - apply xpop_ref; assumption.
  - apply xinsert_ref; assumption.
  - apply xinsert_n_ref; assumption.
  - apply xinsert_range_ref; assumption.
  - apply xerase_ref; assumption.
  - apply xerase_range_ref; try assumption. eapply Er. reflexivity.
  - left. cbn [vstep] in H. unfold xstep. cbn [vstep]. rinv H v1 E. injection H as <- <-. rewrite E. cbn [rbind ended]. bw.
    unfold vset in E. rinv E y E1. destruct y as [u l]. injection E as <-. cbn [vwords].
    rewrite (zlen_on_words _ _ _ _ _ E1), room_same by assumption. reflexivity.
  - left. cbn [vstep vpre] in *. unfold xstep, xat_set. destruct c as [v bf]. cbn [fst snd] in *. unfold vat_set in H. xs. bw.
    destruct (Z.ltb_spec i (vlen v)) as [C|C].
    + pose proof (vset_wp p w v i b Hw V ltac:(lia)) as S. apply rwp_exists in S. destruct S as (v1 & S & _).
      rewrite S in H. cbn [rbind see_throw] in H. injection H as <- <-.
      unfold vset in S. rinv S y E1. destruct y as [u l]. injection S as <-. cbv beta. cbn [rbind fst snd vwords vlen].
      rewrite E1. cbn [rbind fst snd vwords vlen].
      rewrite (zlen_on_words _ _ _ _ _ E1), room_same by assumption. reflexivity.
    + cbn [rbind see_throw] in H. injection H as <- <-. cbn [rbind ended]. rewrite room_same by assumption. reflexivity.
  - left. cbn [vstep] in H. unfold xstep. cbn [vstep]. rinv H v1 E. injection H as <- <-. rewrite E. cbn [rbind ended]. bw.
    rewrite room_same by assumption. reflexivity.
  - left. cbn [vstep vpre] in *. unfold xstep, xat. destruct c as [v bf]. cbn [fst snd] in *. unfold vat in H. xs. bw.
    destruct (Z.ltb_spec i (vlen v)) as [C|C].
    + pose proof (vget_ok p w v i Hw V ltac:(lia)) as S. rewrite S in H. cbn [rbind see_throw] in H. injection H as <- <-.
      unfold vget in S. rinv S y E1. destruct y as [u l].
      pose proof (vget_same p w v i u l E1) as ->. injection S as <-. cbv beta. cbn [rbind fst snd vwords vlen].
      rewrite E1. cbn [rbind fst snd vwords vlen ended]. rewrite room_same by assumption. destruct v. reflexivity.
    + cbn [rbind see_throw] in H. injection H as <- <-. cbn [rbind ended]. rewrite room_same by assumption. reflexivity.
  - left. cbn [vstep] in H. unfold xstep. cbn [vstep]. rinv H v1 E. injection H as <- <-. rewrite E. cbn [rbind ended]. bw.
    rewrite room_same by assumption. reflexivity.
  - left. cbn [vstep] in H. unfold xstep. cbn [vstep]. rinv H v1 E. injection H as <- <-. rewrite E. cbn [rbind ended]. bw.
    rewrite room_same by assumption. reflexivity.
  - left. cbn [vstep] in H. injection H as <- <-. unfold xstep. cbn [vstep rbind ended]. bw.
    rewrite room_same by assumption. reflexivity.
  - left. cbn [vstep] in H. injection H as <- <-. unfold xstep. cbn [vstep rbind ended]. bw.
    rewrite room_same by assumption. reflexivity.
  - left. cbn [vstep] in H. injection H as <- <-. unfold xstep, xclear, words_clear. xs. bw.
    rewrite room_same by (cbn; unfold zlen in K; lia). reflexivity.
  - cbn [vstep] in H. injection H as <- <-. unfold refines, short_of, xstep, xreserve. xs. bw.
    destruct (words_reserve_ok al (l_growth li) (word_count w n) c) as [(k & f & F & C & X)|X]; rewrite X;
      cbn [rbind fst snd]; [right; exists k, f; auto|left; reflexivity].
  - cbn [vstep] in H. injection H as <- <-. unfold refines, short_of, xstep, xshrink_to_fit, words_shrink. xs. bw.
    destruct c as [v bf]. cbn [fst snd] in *. unfold vshrink_to_fit.
    destruct (g_shrink (l_growth li)); cbn [andb]; [|left; reflexivity].
    destruct (Z.ltb_spec (zlen (vwords v)) (bcap bf)) as [C|C]; [|left; reflexivity].
    destruct (al (zlen (vwords v))) as [f|] eqn:F; cbn [rbind]; [right; exists (zlen (vwords v)), f; auto|left; reflexivity].
  - cbn [vstep] in H. injection H as <- <-. unfold refines, short_of, xstep, xresize. xs. bw.
    unfold resize. cbn [vwords].
    assert (Hl : zlen (resize_words (vwords (fst c)) (word_count w n)) = word_count w n).
    { apply wsize_resize. exact (proj1 (reserve_bits w n Hw)). }
    rewrite Hl.
    destruct (words_resize_ok al (l_growth li) (word_count w n) c) as [(k & f & F & C & X)|X]; rewrite X;
      cbn [rbind fst snd vwords vlen]; [right; exists k, f; auto|left; reflexivity].
  - cbn [vstep] in H. injection H as <- <-. unfold refines, short_of, xstep, xassign, words_assign. xs. bw.
    destruct c as [v bf]. cbn [fst snd] in *. unfold ctor_copy, room_for. cbn [vwords vlen].
    destruct (Z.leb_spec (zlen (vwords other)) (bcap bf)) as [C|C]; [left; reflexivity|].
    set (r := g_other _ _ _ _) in *.
    destruct (al r) as [f|] eqn:F; [|left; reflexivity].
    destruct (l_gives_away li); [pose proof (A eq_refl other eq_refl); lia|].
    right. exists r, f. auto.
  - left. cbn [vstep] in H. injection H as <- <-. unfold xstep, xmove_assign, words_move. xs. bw. reflexivity.
Qed.

Lemma bits_cap : forall w n k c, 0 < w -> enough w n k -> c < k -> c * w < n.
Proof. intros w n k c Hw H Hc. unfold enough in H. clear - Hw H Hc. nia. Qed.

(** One call. *)
Lemma fail_call : forall al li p w c o, valid_w w -> growth_ok w (l_growth li) -> cap_ok w c ->
  vpre p w (vbits w (fst c)) o ->
  (l_gives_away li = true -> forall other, o = OpAssign other ->
     zlen (vwords other) * w <= vcapacity w (snd c)) ->
  (exists c', xstep al li p w o c = Ok (ended (fst (vspec w (vbits w (fst c)) o)), c') /\
     cap_ok w c' /\ vbits w (fst c') = snd (vspec w (vbits w (fst c)) o) /\
     cstep (l_growth li) p w c o = Ok (fst (vspec w (vbits w (fst c)) o), c')) \/
  (exists n f, al n = Some f /\ needs_room w c o /\
     xstep al li p w o c = Ok (Exception (Refused f), c)).
Proof.
  intros al li p w c o Hw G K Pre A. pose proof (valid_pos w Hw) as Pw.
  destruct (cstep_ok (l_growth li) p w c o Hw G K Pre) as (v' & E1 & E2 & K' & B).
  destruct (capacity_value w c Hw K) as [Cv Cl]. pose proof K as (V & K1 & K2).
  pose proof (vstep_size p w (fst c) o _ v' Hw V Pre E1) as Sz.
  pose proof (vbits_length w v' ltac:(lia) (proj1 K')) as L. cbn [fst] in L.
  pose proof (vbits_length w (fst c) ltac:(lia) V) as L0.
  assert (R : refines al li p w c o (fst (vspec w (vbits w (fst c)) o)) v').
  { apply xstep_ref; try assumption.
    - intros Ga other Eo. pose proof (A Ga other Eo) as A1. rewrite Cv in A1. clear - A1 Pw. nia.
    - intros i j ->. change (wsize (vwords v')) with (zlen (vwords v')) in Sz.
      change (wsize (vwords (fst c))) with (zlen (vwords (fst c))) in Sz.
      destruct Sz as [Sz|Sz]; [lia|]. apply (enough_le w (vlen v')); [lia|assumption|].
      rewrite <- Cv. rewrite <- L, B. cbn [vspec snd]. unfold erase_at. cbn [vpre] in Pre.
      unfold zlen in *. rewrite app_length, firstn_length, skipn_length. lia. }
  destruct R as [R|(k & f & F & R & Sh)].
  - left. eexists. split; [exact R|]. split; [exact K'|]. split; [exact B|exact E2].
  - right. exists k, f. split; [exact F|]. split; [|exact R].
    change (wsize (vwords v')) with (zlen (vwords v')) in Sz.
    change (wsize (vwords (fst c))) with (zlen (vwords (fst c))) in Sz.
    destruct o; cbn [short_of needs_room] in *; try contradiction; rewrite ?Cv;
      try (rewrite <- B, L; apply (bits_cap w _ (zlen (vwords v'))); [lia|destruct Sz as [Sz|Sz]; [lia|exact Sz]|assumption]).
    + apply (bits_cap w _ (word_count w n)); [lia| |assumption].
      unfold enough, word_count, wrap. set (y := n mod 2 ^ 32). clearbody y.
      pose proof (Z.div_mod (y + w - 1) w ltac:(lia)). pose proof (Z.mod_pos_bound (y + w - 1) w ltac:(lia)). lia.
    + clear - Sh Pw. nia.
    + cbn [vpre] in Pre. destruct Sz as [Sz|Sz]; [lia|]. pose proof (bits_cap w _ _ _ ltac:(lia) Sz Sh) as Q.
      rewrite <- L, B in Q. cbn [vspec snd] in Q. unfold zlen in Q, L0. rewrite firstn_length in Q. lia.
    + rewrite Sz in Sh. clear - Sh Pw. nia.
Qed.

(** A client. *)
Lemma fail_client : forall als li p w q t c, valid_w w -> growth_ok w (l_growth li) ->
  l_gives_away li = false \/ assigns_none q -> cap_ok w c ->
  careful_pre p w (vbits w (fst c)) q ->
  exists tr c', xrun als li p w t q c = Ok (tr, c') /\ cap_ok w c' /\
    explains w (vbits w (fst c)) tr (vbits w (fst c')).
Proof.
  intros als li p w q. induction q as [|o k IH]; intros t c Hw G A K Pre.
  - exists [], c. split; [reflexivity|]. split; [assumption|constructor].
  - cbn [careful_pre] in Pre. destruct Pre as (P1 & P2 & P3). cbn [xrun].
    assert (A' : forall x, l_gives_away li = false \/ assigns_none (k x)).
    { intros x. destruct A as [A|[_ A]]; [left; assumption|right; apply A]. }
    destruct (fail_call (als t) li p w c o Hw G K P1) as [(c' & E & K' & B & _)|(n & f & F & _ & E)].
    + intros Ga other ->. destruct A as [A|[[] _]]. congruence.
    + rewrite E. cbn [rbind]. rewrite <- B in P2.
      destruct (IH _ (S t) c' Hw G (A' _) K' P2) as (tr & c2 & R & K2 & X).
      rewrite R. cbn [rbind]. exists ((o, ended (fst (vspec w (vbits w (fst c)) o))) :: tr), c2.
      split; [reflexivity|]. split; [assumption|]. constructor. rewrite B in X. exact X.
    + rewrite E. cbn [rbind].
      destruct (IH _ (S t) c Hw G (A' _) K (P3 f)) as (tr & c2 & R & K2 & X).
      rewrite R. cbn [rbind]. exists ((o, Exception (Refused f)) :: tr), c2.
      split; [reflexivity|]. split; [assumption|]. constructor. exact X.
Qed.

(** Both forms of resize. *)
Lemma fail_resize : forall al g p w c n b, valid_w w -> growth_ok w g -> cap_ok w c -> 0 <= n < 2 ^ 32 ->
  (exists c', xresize al g w n c = Ok (Value tt, c') /\ xresize_val al g p w n b c = Ok (Value tt, c') /\
     cap_ok w c' /\
     vbits w (fst c') = firstn (Z.to_nat n) (list_bits w (vwords (fst c)) ++ repeat false (Z.to_nat n))) \/
  (exists k f, al k = Some f /\ vcapacity w (snd c) < n /\
     xresize al g w n c = Ok (Exception (Refused f), c) /\
     xresize_val al g p w n b c = Ok (Exception (Refused f), c)).
Proof.
  intros al g p w c n b Hw G K Hn. pose proof (valid_pos w Hw) as Pw.
  destruct (capacity_value w c Hw K) as [Cv Cl]. pose proof K as (V & K1 & K2).
  unfold xresize, xresize_val. xs.
  destruct (words_resize_ok al g (word_count w n) c) as [(k & f & F & C & X)|X]; rewrite X; cbn [rbind fst snd vwords vlen].
  - right. exists k, f. split; [assumption|]. rewrite Cv. split; [|auto].
    apply (bits_cap w _ (word_count w n)); [lia| |assumption].
    exact (proj2 (word_count_enough w n Hw ltac:(lia))).
  - left. eexists. split; [reflexivity|].
    pose proof (resize_val_ignored p w (fst c) n b Hw ltac:(unfold max_bits; lia)) as R. unfold resize_val in R.
    destruct (resize_exact w (fst c) n Hw V Hn) as [R1 R2]. unfold resize in R, R1, R2.
    assert (Hl : zlen (resize_words (vwords (fst c)) (word_count w n)) = word_count w n).
    { apply wsize_resize. exact (proj1 (reserve_bits w n Hw)). }
    split.
    { destruct (vlen (fst c) <? n); [|reflexivity]. cbn [fst snd vwords vlen].
      rinv R y E. destruct y as [u l]. injection R as ->. rewrite E. destruct u. reflexivity. }
    split; [|exact R2]. split; [exact R1|]. cbn [fst snd vwords]. rewrite Hl. unfold room_for.
    destruct (Z.leb_spec (word_count w n) (bcap (snd c))) as [D|D]; [lia|]. cbn [bcap].
    destruct G as [_ G2]. apply G2. exact (proj2 (reserve_bits w n Hw)).
Qed.

(** A vector without words reads out of bounds. *)
Lemma vget_no_words : forall p w n i, valid_w w -> 0 <= i < 2 ^ 62 -> vget p w (BV [] n) i = UB OutOfBounds.
Proof.
  intros p w n i Hw Hi. unfold vget. cbn [vwords]. rewrite swrap64_small by lia.
  destruct (iindex_begin p w i Hw Hi) as (r & E & _).
  unfold on_words, on_words_ext, bind at 1, lift. rewrite E. cbn [rbind].
  unfold ref_get, bind, load. unfold vmem. cbn [wsize length Z.of_nat].
  destruct (rptr r <? 0); reflexivity.
Qed.

(** A copy assignment that is refused after the old words have been given away. *)
Lemma assign_broken : forall al li p w c other, valid_w w -> cap_ok w c -> l_gives_away li = true ->
  vcapacity w (snd c) < zlen (vwords other) * w -> (forall n, exists f, al n = Some f) ->
  exists f c', xstep al li p w (OpAssign other) c = Ok (Exception (Refused f), c') /\
    vsize (fst c') = vsize (fst c) /\
    forall i, 0 <= i < vsize (fst c') -> vget p w (fst c') i = UB OutOfBounds.
Proof.
  intros al li p w c other Hw K Ga Hc Al. pose proof (valid_pos w Hw) as Pw.
  destruct (capacity_value w c Hw K) as [Cv Cl]. rewrite Cv in Hc.
  destruct K as ((_ & V2 & V3) & _ & _). destruct c as [v bf]. cbn [fst snd] in *.
  unfold xstep, xassign, words_assign. xs. bw.
  destruct (Z.leb_spec (zlen (vwords other)) (bcap bf)) as [C|C]; [clear - C Hc Pw; nia|].
  destruct (Al (g_other (l_growth li) (zlen (vwords v)) (bcap bf) (zlen (vwords other)))) as (f & F).
  rewrite F, Ga. cbn [rbind]. eexists f, _. split; [reflexivity|]. cbn [fst vsize vlen]. split; [reflexivity|].
  intros i Hi. apply vget_no_words; [assumption|]. unfold max_bits in V3. lia.
Qed.
